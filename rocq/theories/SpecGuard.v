(** When ciphertexts, plaintexts, polynomials and keys belong together (C94). *)
From Verif Require Import Base MModulus MUtils MNtt MRns MRq MBfv MKsk MGalois MRgsw.

(** Two contexts agree: the moduli, the degree and the bit decomposition. *)
Definition same_ctx (a b : RqContext) : Prop :=
  rq_moduli_64 a = rq_moduli_64 b /\ rq_degree a = rq_degree b /\
  bd_base (rq_bd a) = bd_base (rq_bd b) /\ bd_l (rq_bd a) = bd_l (rq_bd b).

(** Two parameter sets agree. *)
Definition same_params (a b : BfvParams) : Prop :=
  bp_degree a = bp_degree b /\ bp_t a = bp_t b /\ bp_moduli a = bp_moduli b /\
  bp_variance a = bp_variance b /\ same_ctx (bp_pt_ctx a) (bp_pt_ctx b).

(** The component [i] is there and satisfies [Q]. *)
Definition part (ct : Ct) (i : nat) (Q : Poly -> Prop) : Prop :=
  exists p, nth_error (ct_cts ct) i = Some p /\ Q p.

Definition in_ntt (p : Poly) : Prop := p_repr p = Ntt.

(** A two-component result with the labels of [a]. *)
Definition labelled_as (a r : Ct) : Prop :=
  ct_params r = ct_params a /\ ct_level r = ct_level a /\ length (ct_cts r) = 2%nat.

(** The first two components of a ciphertext. *)
Definition first_two (a : Ct) : Ct := mkCt (ct_params a) (firstn 2 (ct_cts a)) (ct_level a).
