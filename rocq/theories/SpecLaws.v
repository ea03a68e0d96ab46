(** What claim C90 is about: polynomials of one context and representation. *)
From Verif Require Import Base MModulus MNtt MRns MRq MBfv SpecRq SpecBfv.
(** A polynomial whose rows have the lengths and ranges its context asks for. *)
Definition in_ctx (c : RqContext) (r : repr) (p : Poly) : Prop := p_ctx p = c /\ p_repr p = r /\ wf_poly p.
(** A ciphertext of two components at level i with context c. *)
Definition ct_in (P : BfvParams) (i : nat) (c : RqContext) (a : Ct) : Prop :=
  exists a0 a1, a = mkCt P [a0; a1] i /\ in_ctx c Ntt a0 /\ in_ctx c Ntt a1.
