(** Client code over the homomorphic operations: arbitrary circuits.
    (Synthetic: the crate has no circuit evaluator; it stands for any Rust code
    that composes the operators of /repo/src/bfv.rs and
    [RgswCt::external_product] of /repo/src/rgsw.rs.  Every operation is the
    modelled function, cited at its definition.) *)
From Verif Require Import Base MModulus MUtils MNtt MRns MRq MBfv MKsk MGalois MRgsw.

Inductive circ :=
| Input (k : nat)                    (* k-th input ciphertext *)
| Plus (a b : circ) | Minus (a b : circ)
| Times (a b : circ)                 (* multiply_with_strategy *)
| TimesPt (a : circ) (k : nat)       (* times the k-th plaintext *)
| TimesInt (a : circ) (z : Z)        (* times a BigUint *)
| Rotate (a : circ) (k : nat)        (* k-th Galois key *)
| Select (a : circ) (k : nat).       (* external product with the k-th RGSW ciphertext *)

(** What the server holds. *)
Record Keys := mkKeys { ks_rlk : RelinKey; ks_gks : list GaliosKey; ks_rgsw : list RgswCt; ks_pts : list Plaintext }.

Section Run.
Variable pr : profile.
Variable K : Keys.
Variable cts : list Ct.

Fixpoint run_circ (e : circ) : outcome Ct :=
  match e with
  | Input k => get cts k
  | Plus a b => x <- run_circ a ;; y <- run_circ b ;; ct_add pr x y
  | Minus a b => x <- run_circ a ;; y <- run_circ b ;; ct_sub pr x y
  | Times a b => x <- run_circ a ;; y <- run_circ b ;; multiply_with_strategy pr x y (ks_rlk K)
  | TimesPt a k => x <- run_circ a ;; p <- get (ks_pts K) k ;; ct_mul_pt pr x p
  | TimesInt a z => x <- run_circ a ;; ct_mul_big pr x z
  | Rotate a k => x <- run_circ a ;; g <- get (ks_gks K) k ;; galois_relinearize pr g x
  | Select a k =>
      x <- run_circ a ;; r <- get (ks_rgsw K) k ;;
      '(c0, c1) <- external_product pr r x ;;
      Ok (mkCt (ct_params x) [c0; c1] (ct_level x))
  end.
End Run.
