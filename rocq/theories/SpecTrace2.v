(** Inputs that agree in everything public (C95). *)
From Verif Require Import Base MModulus MUtils MNtt MRns MRq MBfv MKsk MGalois MTrace MTrace2.

(** Matrices of the same shape. *)
Definition same_rows (a b : list (list Z)) : Prop := Forall2 (fun x y => length x = length y) a b.

(** Polynomials of one context and representation, of the same shape; the
    coefficients may be anything. *)
Definition alike (p q : Poly) : Prop :=
  p_ctx p = p_ctx q /\ p_repr p = p_repr q /\ same_rows (p_rows p) (p_rows q).

(** Keys of one parameter set, with as many coefficients. *)
Definition keys_alike (s s' : SecretKey) : Prop :=
  sk_params s = sk_params s' /\ length (sk_coeffs s) = length (sk_coeffs s').

(** Plaintexts of one parameter set, level and length. *)
Definition pts_alike (m m' : Plaintext) : Prop :=
  pt_params m = pt_params m' /\ pt_level m = pt_level m' /\ length (pt_values m) = length (pt_values m').

(** The uniform polynomials of two key generations have the same shapes; the
    generator words of the errors are not related. *)
Definition rnds_alike (r r' : RndKsk) : Prop := forall i, same_rows (rnd_rows r i) (rnd_rows r' i).
