(** The scaling of residues and decryption once more, in a Release build, with
    their steps recorded (see MTrace.v, MTrace2.v). *)
From Verif Require Import Base MModulus MUtils MNtt MRns MRq MBfv MKsk MGalois MTrace MTrace2.

(** An operation on several words at once without decisions on data: the
    additions, subtractions, complement and conversions of U192 and U256
    (carries are computed, not tested; src/utils.rs:161-242) and shifts by an
    amount that is public (src/utils.rs:254-290 decides on the amount only). *)
Definition wide {A} (x : outcome A) : run A := ([EOp OWide], x).

(** src/utils.rs:101-104 [div_ceil] by 2; dividing by this constant is a shift. *)
Definition t_half_up (x : Z) : run Z :=
  s <~ t_add128 x 2 ;~ s' <~ t_sub128 s 1 ;~ wd OShr128 (s' / 2).

(** src/rns.rs:309-322 *)
Fixpoint t_sum_theta_garner (los his rests : list Z) (acc : Z) : run Z :=
  match los, his, rests with
  | tlo :: los', thi :: his', ri :: rests' =>
      emit (EBranch true) ;;~
      lo <~ t_mul128 ri tlo ;~
      h <~ t_mul128 ri thi ;~
      l <~ t_shr128 lo 64 ;~
      hi <~ t_add128 h l ;~
      acc' <~ wide (Ok ((acc + (as64 lo + as64 hi * W64 + as64 (Z.shiftr hi 64) * W128)) mod W192)) ;~
      t_sum_theta_garner los' his' rests' acc'
  | _, _, _ => emit (EBranch false) ;;~ ret acc
  end.

(** src/rns.rs:333-357; the decision on the sign of a table entry *)
Fixpoint t_sum_theta_omega (los his : list Z) (signs : list bool) (rests : list Z)
         (acc : U256) : run U256 :=
  match los, his, signs, rests with
  | tlo :: los', thi :: his', sg :: signs', ri :: rests' =>
      emit (EBranch true) ;;~
      lo <~ t_mul128 ri tlo ;~
      h <~ t_mul128 ri thi ;~
      l <~ t_shr128 lo 64 ;~
      hi <~ t_add128 h l ;~
      let word := u256_of4 (as64 lo) (as64 hi) (as64 (Z.shiftr hi 64)) 0 in
      acc' <~ t_if sg (wide (Ok (u256_sub acc word))) (wide (Ok (u256_add acc word))) ;~
      t_sum_theta_omega los' his' signs' rests' acc'
  | _, _, _, _ => emit (EBranch false) ;;~ ret acc
  end.

(** src/rns.rs:323-326 *)
Definition t_scale_v (s : RnsScaler) (rests : list Z) : run Z :=
  sum <~ t_sum_theta_garner (rs_theta_garner_lo s) (rs_theta_garner_hi s) rests 0 ;~
  sh <~ t_sub64 (rs_theta_garner_shift s) 1 ;~
  sum' <~ wide (Ok (Z.shiftr sum sh)) ;~
  x <~ wide (Ok (Z.lor (as64 sum') (Z.shiftl (as64 (Z.shiftr sum' 64)) 64))) ;~
  t_half_up x.

(** src/rns.rs:333-380 *)
Definition t_scale_sto (s : RnsScaler) (rests : list Z) (v : Z) : run U256 :=
  sto <~ t_sum_theta_omega (rs_theta_omega_lo s) (rs_theta_omega_hi s)
                           (rs_theta_omega_sign s) rests u256_zero ;~
  vlo <~ t_as64 v ;~
  vhi <~ t_shr128 v 64 ;~
  vt_lo_lo <~ t_mul128 vlo (rs_theta_gamma_lo s) ;~
  vt_lo_hi <~ t_mul128 vlo (rs_theta_gamma_hi s) ;~
  vt_hi_lo <~ t_mul128 vhi (rs_theta_gamma_lo s) ;~
  vt_hi_hi <~ t_mul128 vhi (rs_theta_gamma_hi s) ;~
  a <~ t_shr128 vt_lo_lo 64 ;~
  b <~ t_as64 vt_lo_hi ;~
  mi1 <~ t_add128 a b ;~
  c <~ t_as64 vt_hi_lo ;~
  vt_mi <~ t_add128 mi1 c ;~
  d <~ t_shr128 vt_lo_hi 64 ;~
  e <~ t_shr128 vt_mi 64 ;~
  hi1 <~ t_add128 d e ;~
  f <~ t_as64 vt_hi_hi ;~
  vt_hi <~ t_add128 hi1 f ;~
  let word := u256_of4 (as64 vt_lo_lo) (as64 vt_mi) (as64 vt_hi) 0 in
  t_if (rs_theta_gamma_sign s) (wide (Ok (u256_add sto word))) (wide (Ok (u256_sub sto word))).

(** src/rns.rs:328-332, 382-393; the decision on [w_sign] *)
Definition t_scale_w (s : RnsScaler) (rests : list Z) (v : Z) : run (bool * Z) :=
  t_if (sf_is_one (rs_factor s)) (ret (false, 0))
    (sto <~ t_scale_sto s rests v ;~
     t_if (0 <? u256_msb sto)
       (sh <~ wide (u256_shr Release (u256_not sto) 126) ;~
        x <~ wide (u256_to_u128 Release sh) ;~
        x1 <~ t_add128 x 1 ;~
        w <~ wd OShr128 (x1 / 2) ;~
        ret (true, w))
       (sh <~ wide (u256_shr Release sto 126) ;~
        x <~ wide (u256_to_u128 Release sh) ;~
        w <~ t_half_up x ;~
        ret (false, w))).

(** src/rns.rs:420-426 *)
Fixpoint t_scale_inner (q : Modulus) (rests omega omega_shoup : list Z) (yi : Z) : run Z :=
  match rests with
  | [] => emit (EBranch false) ;;~ ret yi
  | r :: rests' =>
      emit (EBranch true) ;;~
      match omega, omega_shoup with
      | o :: omega', os :: omega_shoup' =>
          t <~ t_lazy_mul_shoup q r o os ;~
          yi' <~ t_add128 yi t ;~
          t_scale_inner q rests' omega' omega_shoup' yi'
      | _, _ => ([], UB)
      end
  end.

(** src/rns.rs:396-429: one output word; twice decided on: whether the factor
    is one, and [w_sign] *)
Definition t_scale_out (s : RnsScaler) (rests : list Z) (v : Z) (ws : bool * Z) (i : nat) : run Z :=
  qi <~ t_getu 4 (rns_moduli (rs_to s)) i ;~
  omega_i <~ t_getu 5 (rs_omega s) i ;~
  omega_shoup_i <~ t_getu 6 (rs_omega_shoup s) i ;~
  gamma_i <~ t_getu 7 (rs_gamma s) i ;~
  gamma_shoup_i <~ t_getu 8 (rs_gamma_shoup s) i ;~
  q2 <~ t_mul64 (mp qi) 2 ;~
  vr <~ t_reduce_u128 qi v ;~
  g <~ t_lazy_mul_shoup qi vr gamma_i gamma_shoup_i ;~
  yi0 <~ t_sub64 q2 g ;~
  yi1 <~ t_if (sf_is_one (rs_factor s)) (ret yi0)
           (wi <~ t_lazy_reduce_u128 qi (snd ws) ;~
            t <~ t_if (fst ws) (t_sub64 q2 wi) (ret wi) ;~
            t_add128 yi0 t) ;~
  yi <~ t_scale_inner qi rests omega_i omega_shoup_i yi1 ;~
  y <~ t_reduce_u128 qi yi ;~
  emit (EWrite i) ;;~ ret y.

(** src/rns.rs:298-431 [scale] *)
Definition t_rns_scale (s : RnsScaler) (rests : list Z) (out_len starting_index : nat) : run (list Z) :=
  v <~ t_scale_v s rests ;~
  ws <~ t_scale_w s rests v ;~
  t_each (fun i => t_scale_out s rests v ws (starting_index + i)) (seq 0 out_len).

(** A column of the coefficient array is a view: taking it reads nothing yet. *)
Definition t_column (rows : list (list Z)) (j : nat) : run (list Z) := ([], column rows j).

(** src/rq.rs:119-150: [scale] of a PowerBasis polynomial *)
Definition t_rq_scale_pb (s : RqScaler) (p : Poly) : run Poly :=
  let k := sc_common s in
  t_assert (k <=? length (rq_moduli (sc_to s)))%nat ;;~
  top <~ ([EBranch (k <=? length (p_rows p))%nat], slice_to (p_rows p) k) ;~
  bottom <~ t_if (k <? length (rq_moduli_64 (sc_to s)))%nat
              (outs <~ t_each (fun j =>
                                 c <~ t_column (p_rows p) j ;~
                                 t_rns_scale (sc_rns s) c (length (rq_moduli (sc_to s)) - k) k)
                              (seq 0 (rq_degree (sc_to s))) ;~
               ret (map (fun i => map (fun out => nth i out 0) outs)
                        (seq 0 (length (rq_moduli (sc_to s)) - k))))
              (ret (repeat (repeat 0 (rq_degree (sc_to s))) (length (rq_moduli (sc_to s)) - k))) ;~
  ret (mkPoly (sc_to s) PowerBasis (top ++ bottom)).

(** src/rq.rs:107-151 [scale] *)
Definition t_rq_scale (s : RqScaler) (p : Poly) : run Poly :=
  t_assert (ctx_eqb (p_ctx p) (sc_from s)) ;;~
  emit (EBranch (repr_eqb (p_repr p) PowerBasis)) ;;~
  match p_repr p with
  | PowerBasis => t_rq_scale_pb s p
  | r => tmp <~ t_change_repr p PowerBasis ;~
         t <~ t_rq_scale_pb s tmp ;~
         t_change_repr t r
  end.

(** src/bfv.rs:347-382 [decrypt] *)
Definition t_decrypt (sk : SecretKey) (ct : Ct) : run Plaintext :=
  let P := sk_params sk in
  m1 <~ t_decrypt_phase sk ct ;~
  sc <~ t_get (bp_scalars P) (ct_level ct) ;~
  m2 <~ t_rq_scale sc m1 ;~
  row0 <~ t_get (p_rows m2) 0 ;~
  v1 <~ t_map (fun a => t_add64 a (bp_t P)) 0 row0 ;~
  v2 <~ ([EBranch (bp_degree P <=? length v1)%nat], slice_to v1 (bp_degree P)) ;~
  qc <~ t_get (bp_q_ctxs P) (ct_level ct) ;~
  q <~ t_get (rq_moduli qc) 0 ;~
  v3 <~ t_reduce_vec_u64 q v2 ;~
  tm <~ ([EDiv W128 (bp_t P)], modulus_new (bp_t P)) ;~
  v4 <~ t_reduce_vec_u64 tm v3 ;~
  ret (mkPt P (ct_level ct) EncNone v4).
