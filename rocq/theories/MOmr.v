(** Model of /repo/src/omr.rs *)
From Verif Require Import Base MModulus MUtils MNtt MRns MRq MBfv MPvw.

(** src/omr.rs:9-19 [inner_product] *)
Definition inner_product (pr : profile) (cts : list Ct) (polys : list Poly) : outcome Ct :=
  rassert (length cts =? length polys)%nat ;;;
  c0 <- get cts 0 ;;
  p0 <- get polys 0 ;;
  prod0 <- ct_mul_poly pr c0 p0 ;;
  foldM (fun prod (cp : Ct * Poly) =>
           p <- ct_mul_poly pr (fst cp) (snd cp) ;; ct_add pr prod p)
        (combine (tl cts) (tl polys)) prod0.

Section Process.
Variable pr : profile.
Variable env : Env.

(** src/omr.rs:35-44, 46-55: column [l] of the clues is written into a zero
    vector of length [d], which is then transformed. *)
Definition encode_column (op : NttOp) (d : nat) (clues : list PvwCt) (field : PvwCt -> list Z)
           (l : nat) : outcome (list Z) :=
  poly <- foldM (fun poly i =>
                   c <- get clues i ;;
                   v <- get (field c) l ;;
                   set poly i v) (seq 0 (length clues)) (repeat 0 d) ;;
  ntt_backward pr op poly.

(** src/omr.rs:21-56 [process], for any parameters and clue list (the Rust
    function uses the default parameters and an empty list, see below). *)
Definition process_clues (P : PvwParams) (clues : list PvwCt)
  : outcome (list (list Z) * list (list Z)) :=
  q <- modulus_new (pv_q P) ;;
  op <- ntt_new pr env q 64 ;;
  b_polys <- mapM (encode_column op 64 clues pc_b) (seq 0 (pv_ell P)) ;;
  a_polys <- mapM (encode_column op 64 clues pc_a) (seq 0 (pv_n P)) ;;
  Ok (b_polys, a_polys).

(** src/omr.rs:21-56 [process]: the polynomials are dropped at the end. *)
Definition process : outcome unit := process_clues pvw_default [] ;;; Ok tt.

End Process.
