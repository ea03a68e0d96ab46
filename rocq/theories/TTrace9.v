(** Property theorems; the proofs are in QTrace9.v. *)
From Verif Require Import PBase NT Spec MModulus MUtils MNtt MRns MRq MBfv MKsk MGalois MRgsw MEval SpecRq SpecBfv SpecKsk SpecEval PBfv QEval MTrace MTrace7 SpecTrace SpecTrace2 SpecTrace6 SpecTrace7 SpecTrace9 QTrace7 QTrace9.

(** Two retrievals of the kind of C45, with any two keys, positions, databases
    of the same shape and randomness, both end with one ciphertext after
    exactly the same steps. *)
Theorem C99_complete :
  forall P c sk sk' first dim q0 q0' qs qs' db db' r r' xs,
    built_params P -> level P 0 c -> 1 <= bp_variance P <= 16 -> length (bp_moduli P) <> 1%nat -> x_pows_ok c xs -> countable dim (length qs) ->
    (first + dim * length qs <= bp_degree P)%nat -> Z.of_nat (length db) < 2 ^ 64 -> Z.of_nat dim < 2 ^ 64 ->
    goes_through P c sk first dim q0 qs db r -> goes_through P c sk' first dim q0' qs' db' r' ->
    keys_alike sk sk' -> Forall2 pts_alike db db' -> length qs = length qs' -> rnd_like r r' ->
    exists a a', retrieve_given xs P (mkClient first dim) sk db (q0 :: qs) r = Ok [a]
      /\ retrieve_given xs P (mkClient first dim) sk' db' (q0' :: qs') r' = Ok [a']
      /\ ct_like a a'
      /\ fst (t_retrieve_given xs P (mkClient first dim) sk db (q0 :: qs) r) = fst (t_retrieve_given xs P (mkClient first dim) sk' db' (q0' :: qs') r').
Proof. exact C99_complete_lem. Qed.
Print Assumptions C99_complete.
