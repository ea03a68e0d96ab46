(** The SIMD slot map of /repo/src/bfv.rs with its defect (C28) repaired.  This is
    not the code: it is the code with one line changed, used to state what that
    line would have to be (C82). *)
From Verif Require Import Base MModulus MUtils MNtt MRns MRq MBfv.

(** src/bfv.rs:143-158 with [index2 = (m - pos - 1) >> 1], as in the SEAL source
    that the comment there cites; everything else as in [index_map_loop]. *)
Fixpoint index_map_loop_fixed (degree : nat) (count i : nat) (pos : Z) (mp : list nat)
  : outcome (list nat) :=
  match count with
  | O => Ok mp
  | S c =>
      let row_size := Nat.div2 degree in
      let m := Z.shiftl (Z.of_nat degree) 1 in
      let index1 := Z.shiftr (pos - 1) 1 in
      let index2 := Z.shiftr (m - pos - 1) 1 in
      mp1 <- set mp i (Z.to_nat (bitrev_usize degree index1)) ;;
      mp2 <- set mp1 (Nat.lor row_size i) (Z.to_nat (bitrev_usize degree index2)) ;;
      index_map_loop_fixed degree c (S i) (Z.land (pos * 3) (m - 1)) mp2
  end.
Definition index_map_fixed (degree : nat) : outcome (list nat) :=
  index_map_loop_fixed degree (Nat.div2 degree) 0 1 (repeat 0%nat degree).

(** Parameters with another slot map (src/bfv.rs:24-43, field
    matrix_reps_index_map). *)
Definition with_index_map (P : BfvParams) (mp : list nat) : BfvParams :=
  mkBfv (bp_degree P) (bp_t P) (bp_pt_ctx P) (bp_moduli P) (bp_pt_ntt P) (bp_q_ctxs P) (bp_e_ctxs P) (bp_mul_params P)
        (bp_delta_ts P) (bp_q_mod_ts P) (bp_scalars P) mp (bp_variance P).
