(** Specification vocabulary for key switching. *)
From Verif Require Import Base MModulus MUtils MNtt MRns MRq MBfv MKsk Spec SpecRq SpecBfv.

(** The RNS gadget: G i is 1 modulo the i-th modulus and 0 modulo the others. *)
Definition gadget (c : RqContext) (G : nat -> Z) : Prop :=
  forall i j, (i < cx_k c)%nat -> (j < cx_k c)%nat -> G i mod cx_q c j = if (i =? j)%nat then 1 else 0.

(** The i-th pair of [k] is an encryption of G i * from under s with error e i. *)
Definition ksk_for (P : BfvParams) (c : RqContext) (k : Ksk) (s from : nat -> Z) (e : nat -> nat -> Z) : Prop :=
  k_params k = P /\ k_ksk_ctx k = c /\ k_ct_ctx k = c /\
  exists b a G, gadget c G
    /\ k_c0 k = map (fun i => rep c Ntt (b i)) (seq 0 (cx_k c))
    /\ k_c1 k = map (fun i => rep c Ntt (a i)) (seq 0 (cx_k c))
    /\ forall i j, (i < cx_k c)%nat -> (j < rq_degree c)%nat ->
         phase (rq_degree c) s [b i; a i] j mod cx_Q c = (G i * from j + e i j) mod cx_Q c.

(** The noise added by switching p: the sum of e_i * [p]_{q_i}. *)
Definition ks_noise (c : RqContext) (e : nat -> nat -> Z) (p : nat -> Z) (j : nat) : Z :=
  sumn (cx_k c) (fun i => rmul (rq_degree c) (fun l => p l mod cx_q c i) (e i) j).
(** Its bound for errors of magnitude at most B. *)
Definition ks_bound (c : RqContext) (B : Z) : Z :=
  Z.of_nat (rq_degree c) * B * sumn (cx_k c) (fun i => cx_q c i).

(** Randomness of the right shape. *)
Definition rnd_ok (c : RqContext) (rnd : RndKsk) : Prop :=
  (forall i, (i < cx_k c)%nat -> wf_poly (mkPoly c Ntt (rnd_rows rnd i)))
  /\ forall i k, 0 <= rnd_words rnd i k < 2 ^ 64.

(** The l1 norm, and a bound for the scaled noise of a product of two ciphertexts
    of scaled noise at most B under a secret of l1 norm at most S. *)
Definition l1norm (n : nat) (f : nat -> Z) : Z := sumn n (fun j => Z.abs (f j)).
Definition mul_noise (n : nat) (t B S : Z) : Z :=
  Z.of_nat n * t * B * (S + 5) + Z.of_nat n * B + t * (1 + S + S * S).
