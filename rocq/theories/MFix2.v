(** Variants of five operators of src/bfv.rs with their defects repaired.  These
    functions are NOT in /repo; each comment says what differs from the code. *)
From Verif Require Import Base MModulus MUtils MRns MRq MBfv.

Section Fix.
Variable pr : profile.

(** Combine two lists, applying [g] to what is left of the second. *)
Fixpoint zip_long (f : Poly -> Poly -> outcome Poly) (g : Poly -> outcome Poly) (a b : list Poly) : outcome (list Poly) :=
  match a, b with
  | [], _ => mapM g b
  | _, [] => Ok a
  | x :: a', y :: b' => z <- f x y ;; l <- zip_long f g a' b' ;; Ok (z :: l)
  end.

(** src/bfv.rs:424-439 and 457-472 with all components combined, a missing one
    counting as zero (the code combines components 0 and 1 only). *)
Definition ct_add_fixed (a b : Ct) : outcome Ct :=
  rassert (params_eqb (ct_params a) (ct_params b)) ;;;
  rassert (ct_level a =? ct_level b)%nat ;;;
  cs <- zip_long (poly_add pr) (fun p => Ok p) (ct_cts a) (ct_cts b) ;;
  Ok (mkCt (ct_params a) cs (ct_level a)).
Definition ct_sub_fixed (a b : Ct) : outcome Ct :=
  rassert (params_eqb (ct_params a) (ct_params b)) ;;;
  rassert (ct_level a =? ct_level b)%nat ;;;
  cs <- zip_long (poly_sub pr) (poly_neg pr) (ct_cts a) (ct_cts b) ;;
  Ok (mkCt (ct_params a) cs (ct_level a)).

(** src/bfv.rs:441-455 with the polynomial added to component 0 only. *)
Definition ct_add_poly_fixed (a : Ct) (p : Poly) : outcome Ct :=
  a0 <- get (ct_cts a) 0 ;;
  rassert (ctx_eqb (p_ctx a0) (p_ctx p)) ;;;
  c0 <- poly_add pr a0 p ;;
  Ok (mkCt (ct_params a) (c0 :: tl (ct_cts a)) (ct_level a)).

(** src/bfv.rs:474-514 with [cs[i + j] += p] for [cs[i + j] = p]. *)
Definition ct_mul_fixed (a b : Ct) : outcome Ct :=
  rassert (ct_level b =? ct_level a)%nat ;;;
  mu <- get (bp_mul_params (ct_params a)) (ct_level a) ;;
  sa <- mapM (rq_scale pr (mu_up mu)) (ct_cts a) ;;
  sb <- mapM (rq_scale pr (mu_up mu)) (ct_cts b) ;;
  n <- sub64 pr (Z.of_nat (length (ct_cts a) + length (ct_cts b))) 1 ;;
  cs <- vec_repeat (poly_zero (mu_to mu) Ntt) n 80 ;;
  cs <- foldM (fun cs (ij : nat * nat) =>
                 x <- get sa (fst ij) ;;
                 y <- get sb (snd ij) ;;
                 p <- poly_mul pr x y ;;
                 o <- get cs (fst ij + snd ij) ;;
                 q <- poly_add pr o p ;;
                 set cs (fst ij + snd ij) q)
              (list_prod (seq 0 (length (ct_cts a))) (seq 0 (length (ct_cts b)))) cs ;;
  cs' <- mapM (rq_scale pr (mu_down mu)) cs ;;
  Ok (mkCt (ct_params a) cs' (ct_level a)).

(** src/bfv.rs:331-334 with the level of the plaintext recorded (the code always
    records level 0, src/bfv.rs:327). *)
Definition encrypt_fixed (sk : SecretKey) (pt : Plaintext) (a_rows : list (list Z)) (w : nat -> Z) : outcome Ct :=
  poly <- pt_to_poly pr pt ;;
  c <- encrypt_poly pr sk poly a_rows w ;;
  Ok (mkCt (ct_params c) (ct_cts c) (pt_level pt)).
End Fix.
