(** The two default parameter sets, repaired (C88).  These functions are not in
    /repo; they differ from the cited code in the constants named here. *)
From Verif Require Import Base MModulus MUtils MNtt MRns MRq MBfv MPvw.

Section Env5.
Variables (pr : profile) (env : Env).
(** src/bfv.rs:193-200 [default] with the plaintext modulus as an argument instead
    of the constant 1153. *)
Definition bfv_default_with (t : Z) (num : nat) (degree : nat) (bd : BitDecomp) : outcome BfvParams :=
  o <- generate_moduli pr env (repeat 62 num) degree ;;
  moduli <- unwrap o ;;
  bfv_new pr env degree t moduli 10 bd.

(** src/bfv.rs:193-200 [default] with the plaintext modulus 65537 = 2^16 + 1, which
    has the roots of unity needed for all degrees up to 2^15. *)
Definition bfv_default_fixed (num : nat) (degree : nat) (bd : BitDecomp) : outcome BfvParams :=
  bfv_default_with 65537 num degree bd.
End Env5.

(** src/pvw.rs:19-29 [Default] with the modulus 786433 (prime) instead of 65537. *)
Definition pvw_default_fixed : PvwParams := mkPvw (pv_n pvw_default) (pv_ell pvw_default) (pv_m pvw_default) 786433 (pv_variance pvw_default).
