(** Property theorems; the proofs are in QHide.v. *)
From Verif Require Import PBase NT Spec PSum MModulus MUtils MNtt MRns MRq MBfv MKsk MGalois MRgsw MEval SpecRlwe SpecHide PModulus PUtils PUtils2 SpecRq SpecBfv SpecKsk PRing PRingT PRq PRq2 PRq3 PRq4 PRq5 QRq PBfv PBfv2 PBfv3 QBfv PKsk PKsk2 QKsk PRns PRnsScale PFold TestEnv TestBfv QRlwe PClient PRetr TestEval QHide.

(** C86: the sample vectors are finitely many. *)
Theorem C86_finite : forall c m, exists E, all_samples c m E.
Proof. exact C86_finite_lem. Qed.
Print Assumptions C86_finite.

(** C86: if the samples are uniform, the ciphertexts have the same distribution
    for any two lists of encodings. *)
Theorem C86_uniform :
  forall pr P i c m us us' E, built_params P -> level P i c -> all_samples c m E ->
    Forall (ntt_poly c) us -> Forall (ntt_poly c) us' -> length us = m -> length us' = m ->
    Permutation (map (add_msgs pr P us) E) (map (add_msgs pr P us') E).
Proof. exact C86_uniform_lem. Qed.
Print Assumptions C86_uniform.

(** C86: the client's query is the encodings of the query added to encryptions of
    zero; the encodings do not depend on key and randomness, the encryptions of
    zero are Ring-LWE samples and do not depend on the query. *)
Theorem C86_split :
  forall pr P c first enc, built_params P -> level P 0 c -> 1 <= bp_variance P <= 16 ->
    Forall (fun x => 0 <= x < 2 ^ 64) enc -> (length enc <= bp_degree P)%nat -> (first <= length enc)%nat ->
    exists us, query_msgs pr P first enc = Ok us /\ length us = S (cx_k c) /\ Forall (ntt_poly c) us
      /\ forall X (w : world X), world_ok P c w ->
           samples_ok c (S (cx_k c)) (zeros pr c w) /\ view pr P first enc w = add_msgs pr P us (zeros pr c w).
Proof. exact C86_split_lem. Qed.
Print Assumptions C86_split.

(** C86: any procedure A that tells the queries for enc and enc' apart (given
    whatever else it knows about each world) tells the encryptions of zero from
    uniform pairs: its advantage is at most the sum of the advantages of the
    explicit procedures D and D'. *)
Theorem C86_privacy :
  forall pr P c first enc enc' us us' X (Ws : list (world X)) (A : X -> outcome (list Ct) -> bool) E,
    built_params P -> level P 0 c -> 1 <= bp_variance P <= 16 ->
    Forall (fun x => 0 <= x < 2 ^ 64) enc -> (length enc <= bp_degree P)%nat -> (first <= length enc)%nat ->
    Forall (fun x => 0 <= x < 2 ^ 64) enc' -> (length enc' <= bp_degree P)%nat -> (first <= length enc')%nat ->
    query_msgs pr P first enc = Ok us -> query_msgs pr P first enc' = Ok us' ->
    Forall (world_ok P c) Ws -> all_samples c (S (cx_k c)) E ->
    let D x s := A x (add_msgs pr P us s) in
    let D' x s := A x (add_msgs pr P us' s) in
    let real (p : X -> list (Poly * Poly) -> bool) := cnt (fun w => p (w_aux w) (zeros pr c w)) Ws in
    let ideal (p : X -> list (Poly * Poly) -> bool) := cnt (fun we => p (w_aux (fst we)) (snd we)) (list_prod Ws E) in
    let N := Z.of_nat (length E) in
    ideal D = ideal D'
    /\ Z.abs (cnt (fun w => A (w_aux w) (view pr P first enc w)) Ws - cnt (fun w => A (w_aux w) (view pr P first enc' w)) Ws) * N
       <= Z.abs (real D * N - ideal D) + Z.abs (real D' * N - ideal D').
Proof. exact C86_privacy_lem. Qed.
Print Assumptions C86_privacy.

(** C86: in particular for the queries of any two positions of one database. *)
Theorem C86_index :
  forall pr P c first dim q q' rows enc enc' X (Ws : list (world X)) (A : X -> outcome (list Ct) -> bool) E,
    built_params P -> level P 0 c -> 1 <= bp_variance P <= 16 ->
    length q = length q' -> Z.of_nat dim ^ Z.of_nat (length q - 1) < 2 ^ 64 -> (first + dim * (length q - 1) <= bp_degree P)%nat ->
    client_encode pr (mkClient first dim) q rows = Ok enc -> client_encode pr (mkClient first dim) q' rows = Ok enc' ->
    Forall (world_ok P c) Ws -> all_samples c (S (cx_k c)) E ->
    exists us us', query_msgs pr P first enc = Ok us /\ query_msgs pr P first enc' = Ok us' /\
    let D x s := A x (add_msgs pr P us s) in
    let D' x s := A x (add_msgs pr P us' s) in
    let real (p : X -> list (Poly * Poly) -> bool) := cnt (fun w => p (w_aux w) (zeros pr c w)) Ws in
    let ideal (p : X -> list (Poly * Poly) -> bool) := cnt (fun we => p (w_aux (fst we)) (snd we)) (list_prod Ws E) in
    let N := Z.of_nat (length E) in
    Z.abs (cnt (fun w => A (w_aux w) (view pr P first enc w)) Ws - cnt (fun w => A (w_aux w) (view pr P first enc' w)) Ws) * N
       <= Z.abs (real D * N - ideal D) + Z.abs (real D' * N - ideal D').
Proof. exact C86_index_lem. Qed.
Print Assumptions C86_index.

(** A world of the test parameters: the query for enc is the encodings added to
    the encryptions of zero, and another query differs from it. *)
Example C86_split_example :
  (P <- test_bfv Debug ;; c <- tctx P ;;
   let w := mkWorld unit tt (mkSk P [1; -1; 0; 1; 1; 0; 2; -1]) (trows bms 4) (tw 5) (trnd 6) in
   let rows (l : list Ct) := map (fun ct => map p_rows (ct_cts ct)) l in
   let same (a b : list Ct) := if list_eq_dec (list_eq_dec (list_eq_dec (list_eq_dec Z.eq_dec))) (rows a) (rows b) then 1 else 0 in
   us <- query_msgs Debug P 4 [0; 1; 0; 0; 1; 0] ;; us' <- query_msgs Debug P 4 [0; 0; 1; 0; 0; 1] ;;
   v <- view Debug P 4 [0; 1; 0; 0; 1; 0] w ;; v' <- view Debug P 4 [0; 0; 1; 0; 0; 1] w ;;
   a <- add_msgs Debug P us (zeros Debug c w) ;; a' <- add_msgs Debug P us' (zeros Debug c w) ;;
   Ok (same v a, same v' a', same v v')) = Ok (1, 1, 0).
Proof. vm_compute. reflexivity. Qed.

(** Parameters and a world that satisfy the hypotheses exist. *)
Example C86_example : exists P c (w : world unit), built_params P /\ level P 0 c /\ 1 <= bp_variance P <= 16 /\ world_ok P c w /\ bp_degree P = 8%nat.
Proof.
  destruct (retrieval_budget Debug) as [P [c [sk [B [L [SP [SO [Hv [_ [_ [_ [D [_ [[rows WR] _]]]]]]]]]]]]]].
  exists P, c, (mkWorld unit tt sk rows (fun _ => 7) (mkRnd (fun _ => rows) (fun _ _ => 7))).
  split; auto. split; auto. split; auto. split; auto. split; auto. split; auto. split; auto. split; [intros; cbn; lia|]. split; cbn [w_rnd rnd_rows rnd_words]; auto. intros. lia.
Qed.
