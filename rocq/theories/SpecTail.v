(** Vocabulary for tail bounds. *)
From Verif Require Import Base Spec MModulus MUtils MNtt MRns MRq MBfv MKsk.

(** 1 * 3 * 5 * ... * (2k-1) *)
Fixpoint odd_product (k : nat) : Z := match k with O => 1 | S k' => (2 * Z.of_nat k' + 1) * odd_product k' end.

(** Whether a computation returns a plaintext with these values. *)
Definition decrypts_to (o : outcome Plaintext) (vals : list Z) : bool :=
  match o with Ok p => if list_eq_dec Z.eq_dec (pt_values p) vals then true else false | _ => false end.
