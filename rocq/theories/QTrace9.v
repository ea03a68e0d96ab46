(** Claim C99, concluded: the retrievals of C45 go through and look alike. *)
From Verif Require Import PBase NT Spec MModulus MUtils MNtt MRns MRq MBfv MKsk MGalois MRgsw MEval SpecRq SpecBfv SpecKsk SpecEval PBfv QEval MTrace MTrace7 SpecTrace SpecTrace2 SpecTrace6 SpecTrace7 SpecTrace9 QTrace7.

Lemma goes P c sk first dim q0 qs db r xs :
  built_params P -> level P 0 c -> 1 <= bp_variance P <= 16 -> length (bp_moduli P) <> 1%nat -> x_pows_ok c xs -> countable dim (length qs) ->
  (first + dim * length qs <= bp_degree P)%nat -> Z.of_nat (length db) < 2 ^ 64 -> Z.of_nat dim < 2 ^ 64 ->
  goes_through P c sk first dim q0 qs db r -> exists a, retrieve_given xs P (mkClient first dim) sk db (q0 :: qs) r = Ok [a].
Proof.
  intros BP L V M X C N H64 D64 (K1 & K2 & R1 & R2 & R3 & R4 & R5 & R6 & Q0 & QS & LD & ED).
  destruct (retrieve_answer Release P c sk first dim q0 qs db (2 ^ 64) (l1norm (bp_degree P) (sk_fun sk)) (ra_rows r) (ra_words r) (ra_query r) (ra_gk r) (ra_k0 r) (ra_k1 r) xs) as (p & g0 & g1 & E & _ & A & _); try assumption; try lia.
  - left. reflexivity.
  - intros p x Hp Hx. rewrite Forall_forall in ED. destruct (ED p Hp) as [F _]. rewrite Forall_forall in F. specialize (F x Hx). lia.
  - eexists. exact A.
Qed.

(** Two retrievals of the kind of C45, with any two keys, positions, databases
    of the same shape and randomness, both end with one ciphertext after
    exactly the same steps. *)
Lemma C99_complete_lem :
  forall P c sk sk' first dim q0 q0' qs qs' db db' r r' xs,
    built_params P -> level P 0 c -> 1 <= bp_variance P <= 16 -> length (bp_moduli P) <> 1%nat -> x_pows_ok c xs -> countable dim (length qs) ->
    (first + dim * length qs <= bp_degree P)%nat -> Z.of_nat (length db) < 2 ^ 64 -> Z.of_nat dim < 2 ^ 64 ->
    goes_through P c sk first dim q0 qs db r -> goes_through P c sk' first dim q0' qs' db' r' ->
    keys_alike sk sk' -> Forall2 pts_alike db db' -> length qs = length qs' -> rnd_like r r' ->
    exists a a', retrieve_given xs P (mkClient first dim) sk db (q0 :: qs) r = Ok [a]
      /\ retrieve_given xs P (mkClient first dim) sk' db' (q0' :: qs') r' = Ok [a']
      /\ ct_like a a'
      /\ fst (t_retrieve_given xs P (mkClient first dim) sk db (q0 :: qs) r) = fst (t_retrieve_given xs P (mkClient first dim) sk' db' (q0' :: qs') r').
Proof.
  intros P c sk sk' first dim q0 q0' qs qs' db db' r r' xs BP L V M X C N H64 D64 G G' K D LQ R.
  destruct (goes P c sk first dim q0 qs db r xs) as [a A]; try assumption.
  assert (LD : length db = length db') by (clear - D; induction D; cbn [length]; congruence).
  destruct (goes P c sk' first dim q0' qs' db' r' xs) as [a' A']; try assumption; try (rewrite <- ?LQ, <- ?LD; assumption).
  destruct (C99_retrieve_lem P (mkClient first dim) sk sk' db db' (q0 :: qs) (q0' :: qs') r r' K D) as [_ H].
  - destruct G as (_ & _ & _ & _ & _ & _ & _ & _ & Q0 & QS & _). split; assumption.
  - destruct G' as (_ & _ & _ & _ & _ & _ & _ & _ & Q0 & QS & _). split; assumption.
  - cbn [length]. congruence.
  - exact R.
  - destruct (H xs) as [[S _] F]. exists a, a'. split; [exact A|]. split; [exact A'|]. split; [|exact S].
    specialize (F _ _ A A'). inversion F. assumption.
Qed.
