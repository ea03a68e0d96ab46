(** Specification of ciphertext products of any numbers of components. *)
From Verif Require Import PBase NT Spec PSum MRq SpecRq SpecBfv.

(** 1 + S + ... + S^(k-1). *)
Fixpoint powsum (S : Z) (k : nat) : Z :=
  match k with
  | O => 0
  | S k' => 1 + S * powsum S k'
  end.

(** Scaled noise of the product of a ciphertext of [a] components and one of [b]
    components with scaled noise up to B, the l1 norm of the secret being at most S. *)
Definition mul_noise_gen (n : nat) (t B S : Z) (a b : nat) : Z :=
  Z.of_nat n * t * B * ((powsum S a + powsum S b) / 2 + 4) + Z.of_nat n * B + t * powsum S (a + b - 1).
