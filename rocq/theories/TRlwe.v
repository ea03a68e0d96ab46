(** Property theorems; the proofs are in QRlwe.v. *)
From Verif Require Import PBase NT Spec PSum MModulus MUtils MNtt MRns MRq MBfv MKsk MGalois MRgsw MEval SpecRlwe PModulus PUtils PUtils2 SpecRq SpecBfv SpecKsk PRing PRingT PRq PRq2 PRq3 PRq4 PRq5 QRq PBfv PBfv2 PBfv3 QBfv PKsk PKsk2 QKsk PRns PFold TestEnv TestBfv QRlwe.

(** C70, encryption: the mask, the error and the sample do not depend on the
    plaintext; the encoding of the plaintext is added to the first component. *)
Theorem C70_encrypt :
  forall pr P i c sk rows w,
    built_params P -> level P i c -> sk_params sk = P -> sk_ok sk -> 1 <= bp_variance P <= 16 ->
    wf_poly (mkPoly c Ntt rows) -> (forall k, 0 <= w k < 2 ^ 64) ->
    exists b, rlwe pr P c sk rows w b
    /\ forall pt, pt_params pt = P -> pt_level pt = i -> Forall (fun x => 0 <= x < 2 ^ 64) (pt_values pt) -> (length (pt_values pt) <= bp_degree P)%nat ->
       exists u, pt_to_poly pr pt = Ok (rep c Ntt u)
       /\ encrypt pr sk pt rows w = Ok (mkCt P [rep c Ntt (fun j => b j + u j); mkPoly c Ntt rows] 0).
Proof. exact C70_encrypt_lem. Qed.
Print Assumptions C70_encrypt.

(** C70, key-switching keys, with the public constants of the context. *)
Theorem C70_ksk :
  forall pr P i c sk rnd,
    built_params P -> level P i c -> sk_params sk = P -> sk_ok sk -> 1 <= bp_variance P <= 16 -> rnd_ok c rnd ->
    exists b, rlwes pr P c sk rnd b
    /\ forall u, ksk_new pr sk (rep c Ntt u) i i rnd = Ok (ksk_of P c rnd b u).
Proof. exact C70_ksk_lem. Qed.
Print Assumptions C70_ksk.

(** C70, Galois and relinearisation keys: the same with the rotated and the
    squared secret as message, RGSW ciphertexts with m s and m. *)
Theorem C70_galois :
  forall pr P i c sk rnd,
    built_params P -> level P i c -> sk_params sk = P -> sk_ok sk -> 1 <= bp_variance P <= 16 -> rnd_ok c rnd ->
    exists b, rlwes pr P c sk rnd b
    /\ rlk_new pr sk i rnd = Ok (mkRlk (ksk_of P c rnd b (rmul (bp_degree P) (sk_fun sk) (sk_fun sk))) P)
    /\ forall x g, length (bp_moduli P) <> 1%nat -> 0 <= x -> subst_new pr c x = Ok g ->
       galois_new pr sk g i rnd = Ok (mkGk (ksk_of P c rnd b (rsubst (bp_degree P) (Z.to_nat (x mod (2 * Z.of_nat (bp_degree P)))) (sk_fun sk))) g i).
Proof. exact C70_galois_lem. Qed.
Print Assumptions C70_galois.

Theorem C70_rgsw :
  forall pr P i c sk rnd0 rnd1,
    built_params P -> level P i c -> sk_params sk = P -> sk_ok sk -> 1 <= bp_variance P <= 16 -> rnd_ok c rnd0 -> rnd_ok c rnd1 ->
    exists b0 b1, rlwes pr P c sk rnd0 b0 /\ rlwes pr P c sk rnd1 b1
    /\ forall pt, pt_params pt = P -> pt_level pt = i -> Forall (fun x => 0 <= x < 2 ^ 64) (pt_values pt) -> (length (pt_values pt) <= bp_degree P)%nat ->
       rgsw_encrypt pr sk pt rnd0 rnd1
       = Ok (mkRgsw (ksk_of P c rnd0 b0 (rmul (bp_degree P) (sk_fun sk) (pt_fun pt))) (ksk_of P c rnd1 b1 (pt_fun pt))).
Proof. exact C70_rgsw_lem. Qed.
Print Assumptions C70_rgsw.

(** C70, the whole query: samples drawn once, then, for every query, the
    ciphertexts are the samples plus encodings. *)
Theorem C70_query :
  forall pr P c sk rows0 w0 rnd,
    built_params P -> level P 0 c -> sk_params sk = P -> sk_ok sk -> 1 <= bp_variance P <= 16 ->
    wf_poly (mkPoly c Ntt rows0) -> (forall k, 0 <= w0 k < 2 ^ 64) -> rnd_ok c rnd ->
    exists b0 b, rlwe pr P c sk rows0 w0 b0 /\ rlwes pr P c sk rnd b
    /\ forall first enc, Forall (fun x => 0 <= x < 2 ^ 64) enc -> (length enc <= bp_degree P)%nat -> (first <= length enc)%nat ->
       exists pt u, pt_new pr P enc 0 EncPoly = Ok pt /\ pt_to_poly pr pt = Ok (rep c Ntt u)
       /\ client_query pr sk P first enc rows0 w0 rnd
          = Ok (mkCt P [rep c Ntt (fun j => b0 j + u j); mkPoly c Ntt rows0] 0
                :: map (fun k => mkCt P [rep c Ntt (fun j => b k j + nth k (rns_garner (rq_rns c)) 0 * nth (first + j) enc 0);
                                         mkPoly c Ntt (rnd_rows rnd k)] 0) (seq 0 (cx_k c))).
Proof. exact C70_query_lem. Qed.
Print Assumptions C70_query.

(** C70: adding an encoding to a uniform element hides it perfectly: for any two
    messages, adding the first to [p] is adding the second to exactly one [p']. *)
Theorem C70_pad :
  forall pr c u0 u1 p, built c -> wf_poly p -> p_ctx p = c -> p_repr p = Ntt ->
    exists! p', wf_poly p' /\ p_ctx p' = c /\ p_repr p' = Ntt
      /\ poly_add pr p' (rep c Ntt u1) = poly_add pr p (rep c Ntt u0).
Proof. exact C70_pad_lem. Qed.
Print Assumptions C70_pad.

(** Two messages under the same randomness: the masks agree, the first
    components differ by the difference of the encodings. *)
Example C70_example :
  (P <- test_bfv Debug ;; let sk := mkSk P [1; -1; 0; 1; 1; 0; 2; -1] in
   pa <- pt_new Debug P [2; 3; 16] 0 EncPoly ;; pb <- pt_new Debug P [5] 0 EncPoly ;;
   a <- encrypt Debug sk pa (trows bms 4) (tw 5) ;; b <- encrypt Debug sk pb (trows bms 4) (tw 5) ;;
   ua <- pt_to_poly Debug pa ;; ub <- pt_to_poly Debug pb ;;
   a0 <- get (ct_cts a) 0 ;; b0 <- get (ct_cts b) 0 ;; d <- poly_sub Debug a0 b0 ;; e <- poly_sub Debug ua ub ;;
   Ok (match ct_cts a, ct_cts b with [_; x], [_; y] => if list_eq_dec (list_eq_dec Z.eq_dec) (p_rows x) (p_rows y) then 1 else 0 | _, _ => 2 end,
       if list_eq_dec (list_eq_dec Z.eq_dec) (p_rows d) (p_rows e) then 1 else 0))
  = Ok (1, 1).
Proof. vm_compute. reflexivity. Qed.
