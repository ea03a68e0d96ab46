(** Variants of functions of src/modulus.rs, src/rns.rs and src/rq.rs with their
    defects (C07, C16, C23, C56, C60, C61, C62) repaired.  These functions are NOT
    in /repo; each comment says what differs from the code. *)
From Verif Require Import Base MModulus MUtils MNtt MRns MRq MBfv MKsk.

Section Fix4.
Variable pr : profile.

(** src/modulus.rs:162-167 [scalar_mul_vec] with [mul_shoup] instead of
    [lazy_mul_shoup]. *)
Definition scalar_mul_vec_fixed (m : Modulus) (a : list Z) (b : Z) : outcome (list Z) :=
  b_shoup <- shoup pr m b ;;
  mapM (fun ai => mul_shoup pr m ai b b_shoup) a.

(** src/modulus.rs:258-260 [bits] with [u64::BITS] instead of [u64::MAX]. *)
Definition modulus_bits_fixed (m : Modulus) : Z := 64 - leading_zeros 64 (mp m).

(** src/rq.rs:312-341 [apply_bit_decomposition] with the repaired [bits], the
    digits of coefficient c of row r written to [s![r, .., c]] instead of
    [s![r, c, ..]], and the digits returned: per row, per coefficient, the list of
    its digits. *)
Definition apply_bit_decomposition_fixed (p : Poly) : outcome (list (list (list Z))) :=
  zipM (fun row q => mapM (fun v => decompose_bits pr v (modulus_bits_fixed q) (bd_base (rq_bd (p_ctx p)))) row)
       (p_rows p) (rq_moduli (p_ctx p)).

(** src/rns.rs:328-393 with the high part of [v * theta_gamma] computed in full:
    the carry [vt_hi_lo >> 64] is added and the fourth word is kept. *)
Definition scale_w_fixed (s : RnsScaler) (rests : list Z) (v : Z) : outcome (bool * Z) :=
  if sf_is_one (rs_factor s) then Ok (false, 0)
  else
    sto <- sum_theta_omega pr (rs_theta_omega_lo s) (rs_theta_omega_hi s)
                           (rs_theta_omega_sign s) rests u256_zero ;;
    let vlo := as64 v in
    let vhi := Z.shiftr v 64 in
    vt_lo_lo <- mul128 pr vlo (rs_theta_gamma_lo s) ;;
    vt_lo_hi <- mul128 pr vlo (rs_theta_gamma_hi s) ;;
    vt_hi_lo <- mul128 pr vhi (rs_theta_gamma_lo s) ;;
    vt_hi_hi <- mul128 pr vhi (rs_theta_gamma_hi s) ;;
    mi1 <- add128 pr (Z.shiftr vt_lo_lo 64) (as64 vt_lo_hi) ;;
    vt_mi <- add128 pr mi1 (as64 vt_hi_lo) ;;
    hi1 <- add128 pr (Z.shiftr vt_lo_hi 64) (Z.shiftr vt_mi 64) ;;
    hi2 <- add128 pr hi1 (Z.shiftr vt_hi_lo 64) ;;
    vt_hi <- add128 pr hi2 vt_hi_hi ;;
    let word := u256_of4 (as64 vt_lo_lo) (as64 vt_mi) (as64 vt_hi) (as64 (Z.shiftr vt_hi 64)) in
    let sto := if rs_theta_gamma_sign s then u256_add sto word else u256_sub sto word in
    if 0 <? u256_msb sto then
      sh <- u256_shr pr (u256_not sto) 126 ;;
      x <- u256_to_u128 pr sh ;;
      x1 <- add128 pr x 1 ;;
      Ok (true, x1 / 2)
    else
      sh <- u256_shr pr sto 126 ;;
      x <- u256_to_u128 pr sh ;;
      w <- div_ceil pr W128 x 2 ;;
      Ok (false, w).

(** src/rns.rs:298-431 [scale] with this and with its three assertions in every
    build, not only in debug builds. *)
Definition rns_scale_fixed (s : RnsScaler) (rests : list Z) (out_len : nat) (starting_index : nat) : outcome (list Z) :=
  rassert (length rests =? length (rns_moduli_u64 (rs_from s)))%nat ;;;
  rassert (negb (out_len =? 0)%nat) ;;;
  rassert (starting_index + out_len <=? length (rns_moduli_u64 (rs_to s)))%nat ;;;
  v <- scale_v pr s rests ;;
  ws <- scale_w_fixed s rests v ;;
  mapM (fun i => scale_out pr s rests v ws (starting_index + i)) (seq 0 out_len).

(** src/rq.rs:91-93 with the length of the common prefix instead of the number of
    agreeing positions. *)
Fixpoint common_prefix (a b : list Z) : nat :=
  match a, b with
  | x :: a', y :: b' => if (x =? y)%Z then S (common_prefix a' b') else 0
  | _, _ => 0
  end%nat.

(** src/rq.rs:86-104 [RqScaler::new] with this. *)
Definition rq_scaler_new_fixed (from to : RqContext) (sf : ScalingFactor) : outcome RqScaler :=
  rassert (rq_degree from =? rq_degree to)%nat ;;;
  let common := if sf_is_one sf then common_prefix (rq_moduli_64 from) (rq_moduli_64 to) else 0%nat in
  s <- rns_scaler_new pr (rq_rns from) (rq_rns to) sf ;;
  Ok (mkRqScaler from to s sf common).

(** src/rq.rs:107-151 [scale] with [rns_scale_fixed]. *)
Definition rq_scale_pb_fixed (s : RqScaler) (p : Poly) : outcome Poly :=
  let k := sc_common s in
  rassert (k <=? length (rq_moduli (sc_to s)))%nat ;;;
  top <- slice_to (p_rows p) k ;;
  bottom <- (if (k <? length (rq_moduli_64 (sc_to s)))%nat then
               outs <- mapM (fun j =>
                               c <- column (p_rows p) j ;;
                               rns_scale_fixed (sc_rns s) c (length (rq_moduli (sc_to s)) - k) k)
                            (seq 0 (rq_degree (sc_to s))) ;;
               Ok (map (fun i => map (fun out => nth i out 0) outs)
                       (seq 0 (length (rq_moduli (sc_to s)) - k)))
             else Ok (repeat (repeat 0 (rq_degree (sc_to s))) (length (rq_moduli (sc_to s)) - k))) ;;
  Ok (mkPoly (sc_to s) PowerBasis (top ++ bottom)).
Definition rq_scale_fixed (s : RqScaler) (p : Poly) : outcome Poly :=
  rassert (ctx_eqb (p_ctx p) (sc_from s)) ;;;
  match p_repr p with
  | PowerBasis => rq_scale_pb_fixed s p
  | r => tmp <- change_repr pr p PowerBasis ;;
         t <- rq_scale_pb_fixed s tmp ;;
         change_repr pr t r
  end.

(** The operators of src/rq.rs:545-640 and src/ksk.rs:102-125 [key_switch] behind an
    assertion that the moduli of the left operand (of the polynomial) are a prefix
    of those of the right one (of the key). *)
Definition moduli_fit (a b : RqContext) : bool := (common_prefix (rq_moduli_64 a) (rq_moduli_64 b) =? length (rq_moduli_64 a))%nat.
Definition poly_op_fixed (op : Poly -> Poly -> outcome Poly) (x y : Poly) : outcome Poly :=
  rassert (moduli_fit (p_ctx x) (p_ctx y)) ;;; op x y.
Definition key_switch_fixed (k : Ksk) (p : Poly) : outcome (Poly * Poly) :=
  rassert (moduli_fit (p_ctx p) (k_ksk_ctx k)) ;;; key_switch pr k p.
End Fix4.
