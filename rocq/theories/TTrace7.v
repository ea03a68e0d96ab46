(** Property theorems; the proofs are in QTrace7.v. *)
From Verif Require Import PBase MModulus MUtils MNtt MRns MRq MBfv MKsk MGalois MRgsw MEval MTrace MTrace2 MTrace4 MTrace5 MTrace6 MTrace7 SpecTrace SpecTrace2 SpecTrace6 SpecTrace7 QTrace QTrace2 QTrace4 QTrace5 QTrace6 TestEnv TestBfv QTrace7.

(** The recorded runs compute what the model computes in a Release build. *)
Theorem C99_retrieve_values :
  (forall P v l e, snd (t_pt_new P v l e) = pt_new Release P v l e)
  /\ (forall p, snd (t_pt_decode p) = pt_decode Release p)
  /\ (forall sk P d e rows w r, snd (t_client_query sk P d e rows w r) = client_query Release sk P d e rows w r)
  /\ (forall sk P r r0 r1, snd (t_eval_build sk P r r0 r1) = eval_build Release sk P r r0 r1)
  /\ (forall f d db P, snd (t_server_new f d db P) = server_new Release f d db P)
  /\ (forall P c sk db q r, snd (t_retrieve P c sk db q r) = retrieve P c sk db q r)
  /\ (forall xs P c sk db q r, snd (t_retrieve_given xs P c sk db q r) = retrieve_given xs P c sk db q r).
Proof. exact C99_retrieve_values_lem. Qed.
Print Assumptions C99_retrieve_values.

(** Encoding and decoding of plaintexts, the query of a client, the keys of
    the server and the preparation of the database give away sizes only. *)
Theorem C99_parts :
  (forall P v v' l e, length v = length v' -> looks_same (t_pt_new P v l e) (t_pt_new P v' l e))
  /\ (forall p p', pts_alike p p' -> pt_enc p = pt_enc p' -> looks_same (t_pt_decode p) (t_pt_decode p'))
  /\ (forall sk sk' P d e e' rows rows' w w' r r', keys_alike sk sk' -> length e = length e' -> same_rows rows rows' -> rnds_alike r r' ->
        looks_same (t_client_query sk P d e rows w r) (t_client_query sk' P d e' rows' w' r'))
  /\ (forall sk sk' P r r' r0 r0' r1 r1', keys_alike sk sk' -> (forall i, rnds_alike (r i) (r' i)) -> rnds_alike r0 r0' -> rnds_alike r1 r1' ->
        looks_same (t_eval_build sk P r r0 r1) (t_eval_build sk' P r' r0' r1'))
  /\ (forall f d db db' P, Forall2 pts_alike db db' -> looks_same (t_server_new f d db P) (t_server_new f d db' P)).
Proof. exact C99_parts_lem. Qed.
Print Assumptions C99_parts.

(** A retrieval, from the position to the answer of the server, takes the same
    steps for any two positions within bounds, secret keys, databases of the
    same shape and outputs of the generator; the answers have the same shape.
    As [unpack] of the code stops in the computation of the powers of X (C42),
    this is stated for the code and for the powers of X given. *)
Theorem C99_retrieve :
  forall P c sk sk' db db' q q' r r', keys_alike sk sk' -> Forall2 pts_alike db db' -> in_bounds c q -> in_bounds c q' -> length q = length q' -> rnd_like r r' ->
    looks_same (t_retrieve P c sk db q r) (t_retrieve P c sk' db' q' r')
    /\ forall xs, looks_same (t_retrieve_given xs P c sk db q r) (t_retrieve_given xs P c sk' db' q' r')
         /\ forall a a', retrieve_given xs P c sk db q r = Ok a -> retrieve_given xs P c sk' db' q' r' = Ok a' -> Forall2 ct_like a a'.
Proof. exact C99_retrieve_lem. Qed.
Print Assumptions C99_retrieve.

(** Queries for two positions under the same randomness: different
    ciphertexts, the same number of steps. *)
Example C99_query_example :
  (P <- test_bfv Release ;; sk <- sk_generate Release P (tw 1) ;;
   let query q := (e <~ t_client_encode (mkClient 2 2) q 2 ;~ t_client_query sk P 2 e (trows bms 4) (tw 5) (trnd 2)) in
   let rows cts := concat (concat (map (fun c => concat (map p_rows (ct_cts c))) cts)) in
   let t := query [0]%nat in let t' := query [1]%nat in
   x <- snd t ;; x' <- snd t' ;;
   Ok (length x, zlist_eqb (rows x) (rows x'), length (fst t) =? length (fst t'), 1000 <? length (fst t))%nat)
  = Ok (3%nat, false, true, true).
Proof. vm_compute. reflexivity. Qed.
