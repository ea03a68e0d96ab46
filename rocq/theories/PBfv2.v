(** BFV encryption and decryption. *)
From Verif Require Import PBase NT Spec PSum MModulus MUtils MNtt MRns MRq MBfv PModulus PNttMath PNtt PNttNew PCrt PRns PRnsScale PUtils2 SpecRq SpecBfv PRing PRq PRq2 PRq4 PRq5 PBfv.

Lemma decode_coeff Q t q0 f m E y : 1 <= Q -> 17 <= t < 2 ^ 62 -> 2 * t <= q0 -> scaled_coeff 68 Q t Q f y ->
  eqm (t * Q) (t * f) (Q * m + E) -> noise_ok Q E -> ((y mod q0 + t) mod q0) mod t = m mod t.
Proof.
  intros HQ Ht Hq [x [X1 [X2 [Y1 [Y2 _]]]]] HC [N1 N2].
  assert (EX : exists z, t * x = Q * m + E + t * Q * z).
  { change (eqm Q x f) in X1. apply eqm_divide in X1; [|lia]. destruct X1 as [a Ha].
    apply eqm_divide in HC; [|nia]. destruct HC as [b Hb]. exists (a + b).
    replace (t * x) with (t * (x - f) + t * f) by ring. rewrite Ha. rewrite <- (Z.sub_add (Q * m + E) (t * f)).
    rewrite Hb. ring. }
  destruct EX as [z Hz].
  assert (EY : y = m + t * z).
  { clear - HQ Y1 Y2 N1 N2 Hz. change (2 ^ (125 - 68)) with 144115188075855872 in *. change (2 ^ 54) with 18014398509481984 in *.
    assert (A : Q * (m + t * z - y) < Q) by nia.
    assert (B : Q * (y - m - t * z) < Q) by nia. nia. }
  assert (YR : - t <= y < t).
  { clear - HQ Ht X2 Y1 Y2. change (2 ^ (125 - 68)) with 144115188075855872 in *. change (2 ^ (191 - 2 * 68)) with 36028797018963968 in *.
    change (2 ^ 62) with 4611686018427387904 in *.
    assert (A : 36028797018963968 * (2 * (t * x)) <= 36028797018963968 * (t * Q) + t * Q) by nia.
    assert (B : - (36028797018963968 * (t * Q) + t * Q) <= 36028797018963968 * (2 * (t * x))) by nia.
    assert (T1 : t * Q <= 4611686018427387904 * Q) by nia.
    assert (T2 : 17 * Q <= t * Q) by nia.
    set (tx := t * x) in *. set (tQ := t * Q) in *.
    replace (2 * t * x) with (2 * tx) in * by (unfold tx; ring). 
    split.
    - assert (C : - (Q * t) < Q * (y + 1)) by (fold tQ; rewrite (Z.mul_comm Q t); fold tQ; nia). nia.
    - assert (C : Q * y < Q * t) by (rewrite (Z.mul_comm Q t); fold tQ; nia). nia. }
  rewrite Zplus_mod_idemp_l. rewrite (Z.mod_small (y + t) q0) by lia.
  rewrite EY. replace (m + t * z + t) with (m + (z + 1) * t) by ring. apply Z_mod_plus_full.
Qed.

Lemma pow63 : W63 = 2 ^ 63. Proof. reflexivity. Qed.

Lemma wf_t17 P : wf_bfv P -> 17 <= bp_t P < 2 ^ 62.
Proof.
  intros W. destruct (wb_t _ W) as [_ [H2 [z Hz]]]. pose proof (cx_n8 _ (wf_ctx_loc _ (wb_ptwf _ W))) as H8.
  rewrite (wb_ptn _ W) in H8. split; [|lia]. assert (8 <= Z.of_nat (bp_degree P)) by lia.
  destruct (Z.leb_spec z 0); nia.
Qed.

Section Sem.
Variables (pr : profile) (P : BfvParams) (i : nat) (c : RqContext).
Hypothesis WB : wf_bfv P.
Hypothesis LV : wf_level P i c.
Let n := bp_degree P.
Let Q := cx_Q c.
Let t := bp_t P.
Let W : wf_loc c := wf_ctx_loc _ (lv_wf _ _ _ LV).
Let En : rq_degree c = n := lv_n _ _ _ LV.

Lemma n_pos : (0 < n)%nat.
Proof. pose proof (cx_n8 c W). lia. Qed.
Lemma Q_pos : 1 <= Q.
Proof. apply (cx_Q1 c W). Qed.

Lemma sk_ntt_ok coeffs : Forall (fun x => - 2 ^ 63 <= x < 2 ^ 63) coeffs -> (length coeffs <= n)%nat ->
  sk_ntt pr c coeffs = Ok (rep c Ntt (fun j => nth j coeffs 0)).
Proof.
  intros H1 H2. unfold sk_ntt. rewrite rep_from_i64 by (auto; lia). cbn [bind]. apply change_fwd; auto.
Qed.

Lemma phase_loop_ok s fs : forall m g, exists g',
  phase_loop pr (rep c Ntt s) (map (rep c Ntt) fs) (rep c Ntt m) (rep c Ntt g)
  = Ok (rep c Ntt (fun j => m j + rmul n g (phase n s fs) j), g').
Proof.
  unfold phase_loop. induction fs as [|f fs IH]; intros m g.
  - cbn [map foldM]. exists (rep c Ntt g). f_equal. f_equal. apply (rep_ext c W). intros j Hj. cbn [phase].
    rewrite rmul_0_r. lia.
  - cbn [map foldM fst snd]. rewrite rep_mul by auto. cbn [bind]. rewrite rep_add by auto. cbn [bind].
    rewrite rep_mul by auto. cbn [bind]. rewrite En. destruct (IH (fun j => m j + rmul n g f j) (rmul n g s)) as [g' E'].
    exists g'. rewrite E'. f_equal. f_equal. apply (rep_ext c W). intros j Hj. cbn [phase].
    rewrite rmul_add_r. rewrite rmul_assoc by (apply n_pos). lia.
Qed.

(** The phase polynomial of decryption, as a [Poly]. *)
Lemma phase_ok s f0 fs : exists g', phase_loop pr (rep c Ntt s) (map (rep c Ntt) fs) (rep c Ntt f0) (rep c Ntt s)
  = Ok (rep c Ntt (phase n s (f0 :: fs)), g').
Proof. apply phase_loop_ok. Qed.

Lemma q0_eq : cx_q (bp_pt_ctx P) 0 = cx_q c 0.
Proof.
  pose proof (wl_ne _ W) as Hk. unfold cx_k, cx_q in *. rewrite (wb_ptms _ WB), (lv_ms _ _ _ LV) in *. rewrite firstn_length in Hk.
  rewrite !firstn_nth by lia. reflexivity.
Qed.
Lemma pt_k1 : cx_k (bp_pt_ctx P) = 1%nat.
Proof. unfold cx_k. rewrite (wb_ptms _ WB), firstn_length. pose proof (wb_k _ WB). lia. Qed.

Definition sk_of (sk : SecretKey) : Prop := sk_params sk = P /\ sk_ok sk.

Lemma decrypt_run sk fs : sk_of sk -> fs <> [] -> small_basis (rq_moduli_64 c) ->
  exists y, (forall j, scaled_coeff 68 Q t Q (phase n (sk_fun sk) fs j) (y j)) /\
  decrypt pr sk (ct_of P i c fs)
  = Ok (mkPt P i EncNone (map (fun j => ((y j mod cx_q c 0 + t) mod cx_q c 0) mod t) (seq 0 n))).
Proof.
  intros [SP [S1 S2]] Hfs SB. rewrite SP in S2. destruct fs as [|f0 fs]; [congruence|].
  unfold decrypt. cbn [ct_of ct_cts ct_level map]. change (get (rep c Ntt f0 :: map (rep c Ntt) fs) 0) with (Ok (rep c Ntt f0)).
  cbn [bind tl]. change (p_ctx (rep c Ntt f0)) with c. rewrite sk_ntt_ok by auto. cbn [bind].
  change (fun j => nth j (sk_coeffs sk) 0) with (sk_fun sk).
  destruct (phase_ok (sk_fun sk) f0 fs) as [g' EP]. rewrite EP. cbn [bind].
  rewrite change_bwd by auto. cbn [bind]. rewrite SP. destruct (lv_sc _ _ _ LV) as [sc [GS [_ Gd]]]. rewrite GS. cbn [bind].
  specialize (Gd SB pr). pose proof (wf_ctx_loc _ (wb_ptwf _ WB)) as Wpt. set (pc := bp_pt_ctx P) in *.
  rewrite (rep_scale pr 68 sc c pc t Q W Wpt Gd) by congruence. cbn [bind].
  set (g := scale_fun sc c t Q (phase n (sk_fun sk) (f0 :: fs))).
  assert (GR : get (p_rows (rep pc PowerBasis g)) 0 = Ok (map (fun j => g j mod cx_q c 0) (seq 0 n))).
  { unfold pc. rewrite rep_rows. rewrite pt_k1. cbn [seq map]. unfold get. cbn [nth_error]. f_equal. unfold rrow.
    rewrite (wb_ptn _ WB). apply map_seq_ext. intros j Hj. cbn [rep_entry]. rewrite q0_eq. reflexivity. }
  exists g. split; [intros j; apply (scale_fun_spec pr 68 sc c pc t Q W Gd)|].
  rewrite GR. cbn [bind]. pose proof (wl_ne _ W) as Hk. destruct (cx_mod c W 0 Hk) as [Vq Eq].
  pose proof (cx_range c W 0 Hk) as Rq. pose proof (wf_t17 P WB) as Rt. fold t in Rt.
  change (2 ^ 62) with 4611686018427387904 in *.
  assert (M1 : mapM (fun a => add64 pr a (bp_t P)) (map (fun j => g j mod cx_q c 0) (seq 0 n))
     = Ok (map (fun j => g j mod cx_q c 0 + t) (seq 0 n))).
  { apply mapM_seq. intros j Hj. fold t. apply add64_ok. pose proof (Z.mod_pos_bound (g j) (cx_q c 0) ltac:(lia)).
    change W64 with 18446744073709551616. lia. }
  rewrite M1. cbn [bind]. unfold slice_to. rewrite map_length, seq_length. fold n. rewrite Nat.leb_refl.
  rewrite firstn_all2 by (rewrite map_length, seq_length; lia). cbn [bind].
  rewrite (lv_ctx _ _ _ LV). cbn [bind]. rewrite (get_ok _ 0 dmod) by (rewrite (cx_moduli_len c W); exact Hk). cbn [bind].
  change (nth 0 (rq_moduli c) dmod) with (cx_m c 0).
  rewrite reduce_vec_u64_ok; [|auto|].
  2:{ apply Forall_forall. intros x Hx. apply in_map_iff in Hx. destruct Hx as [j [Ej _]]. subst x.
      pose proof (Z.mod_pos_bound (g j) (cx_q c 0) ltac:(lia)). change W64 with 18446744073709551616. lia. }
  cbn [bind]. fold t. destruct (wb_t _ WB) as [_ [T1 _]]. fold t in T1.
  assert (ET : exists tm, modulus_new t = Ok tm /\ valid_mod tm /\ mp tm = t).
  { destruct (modulus_new_ok t) as [tm [A [B C]]]; [change P62 with 4611686018427387904; lia|]. exists tm. auto. }
  destruct ET as [tm [ET [Vt Emt]]]. rewrite ET. cbn [bind].
  rewrite reduce_vec_u64_ok; [|auto|].
  2:{ apply Forall_forall. intros x Hx. apply in_map_iff in Hx. destruct Hx as [j [Ej _]]. subst x.
      rewrite Eq. pose proof (Z.mod_pos_bound j (cx_q c 0) ltac:(lia)). change W64 with 18446744073709551616. lia. }
  cbn [bind]. f_equal. f_equal. rewrite !map_map. apply map_seq_ext. intros j Hj. rewrite Eq, Emt.
  reflexivity.
Qed.

Lemma decrypt_ok sk fs m E : sk_of sk -> fs <> [] -> small_basis (rq_moduli_64 c) -> 2 * t <= cx_q c 0 ->
  carries n Q t (phase n (sk_fun sk) fs) m E -> (forall j, (j < n)%nat -> noise_ok Q (E j)) ->
  decrypt pr sk (ct_of P i c fs) = Ok (mkPt P i EncNone (map (fun j => m j mod t) (seq 0 n))).
Proof.
  intros SK Hfs SB Hq HC HN. destruct (decrypt_run sk fs SK Hfs SB) as [y [HY E1]]. rewrite E1. f_equal. f_equal.
  apply map_seq_ext. intros j Hj. pose proof (wf_t17 P WB) as Rt. fold t in Rt.
  apply decode_coeff with (Q := Q) (f := phase n (sk_fun sk) fs j) (E := E j); auto.
  - apply Q_pos.
  - apply HC; auto.
Qed.

(** Plaintexts as ring elements: Q*m/t rounded down by at most two. *)
Definition pt_fun (p : Plaintext) (j : nat) : Z := nth j (pt_values p) 0.
Definition encodes (m u : nat -> Z) : Prop :=
  forall j, (j < n)%nat -> Q * m j - 2 * t < t * u j <= Q * m j.

Lemma pt_to_poly_ok p : pt_params p = P -> pt_level p = i -> Forall (fun x => 0 <= x < 2 ^ 64) (pt_values p) ->
  (length (pt_values p) <= n)%nat ->
  exists u, pt_to_poly pr p = Ok (rep c Ntt u) /\ encodes (pt_fun p) u.
Proof.
  intros EP EL H64 Hl. unfold pt_to_poly. rewrite EP, EL, (lv_qm _ _ _ LV), (lv_ctx _ _ _ LV). cbn [bind].
  destruct (lv_delta _ _ _ LV) as [d [GD HD]]. rewrite GD. cbn [bind]. fold t. fold t Q in HD.
  pose proof (wf_t17 P WB) as Rt. fold t in Rt. change (2 ^ 62) with 4611686018427387904 in Rt.
  destruct (modulus_new_ok t) as [tm [ET [Emt Vt]]]; [change P62 with 4611686018427387904; lia|].
  rewrite ET. cbn [bind]. fold Q. pose proof (Z.mod_pos_bound Q t ltac:(lia)) as HM.
  destruct (scalar_mul_vec_lazy pr tm (pt_values p) (Q mod t) Vt H64 ltac:(lia)) as [r [ER HR]].
  rewrite ER. cbn [bind]. rewrite Emt in HR. pose proof (forall2_length _ _ _ HR) as LR.
  rewrite rep_from_u64; auto; try lia.
  2:{ apply Forall_forall. intros x Hx. apply (In_nth _ _ 0) in Hx. destruct Hx as [j [Hj Ej]].
      pose proof (forall2_nth _ _ _ 0 0 j HR ltac:(lia)) as [X _]. rewrite Ej in X. change W64 with 18446744073709551616. lia. }
  cbn [bind]. rewrite change_fwd by auto. cbn [bind]. rewrite rep_mul by auto.
  exists (fun j => (Q * pt_fun p j - nth j r 0) / t).
  assert (KEY : forall j, (j < n)%nat -> 0 <= nth j r 0 < 2 * t /\ t * ((Q * pt_fun p j - nth j r 0) / t) = Q * pt_fun p j - nth j r 0).
  { intros j Hj. unfold pt_fun. destruct (Nat.lt_ge_cases j (length (pt_values p))) as [Hj'|Hj'].
    - destruct (forall2_nth _ _ _ 0 0 j HR Hj') as [X1 X2]. split; auto.
      symmetry. apply Z_div_exact_2; [lia|]. change 0 with (0 mod t).
      change (eqm t (Q * nth j (pt_values p) 0 - nth j r 0) 0).
      assert (X3 : eqm t (nth j r 0) (Q * nth j (pt_values p) 0)).
      { rewrite X2, (Z.mul_comm Q). apply eqm_mul; [reflexivity|]. apply eqm_mod. }
      rewrite X3, Z.sub_diag. reflexivity.
    - rewrite !nth_overflow by lia. rewrite Z.mul_0_r. cbn [Z.sub]. rewrite Z.sub_diag, Z.div_0_l by lia. lia. }
  split.
  - f_equal. apply (rep_eqm c W). intros j Hj. rewrite En in *. rewrite rmul_const by auto. fold Q. cbn beta.
    destruct (KEY j Hj) as [_ K]. set (u := (Q * pt_fun p j - nth j r 0) / t) in *.
    assert (A : eqm Q (- u) (- (d * nth j r 0))).
    { transitivity (d * t * u).
      { replace (- u) with (-1 * u) by ring. apply eqm_mul; [symmetry; exact HD|reflexivity]. }
      replace (d * t * u) with (d * (t * u)) by ring. rewrite K.
      replace (d * (Q * pt_fun p j - nth j r 0)) with (- (d * nth j r 0) + (d * pt_fun p j) * Q) by ring.
      unfold eqm. apply Z_mod_plus_full. }
    pose proof Q_pos as HQ1. apply eqm_divide; [lia|]. apply eqm_divide in A; [|lia]. destruct A as [z Hz]. exists z. lia.
  - intros j Hj. destruct (KEY j Hj) as [K1 K2]. lia.
Qed.

Lemma encodes_floor m u j : encodes m u -> (j < n)%nat -> u j = Q * m j / t \/ u j = Q * m j / t - 1.
Proof.
  intros H Hj. specialize (H j Hj). pose proof (wf_t17 P WB) as Rt. fold t in Rt.
  pose proof (Z.div_mod (Q * m j) t ltac:(lia)) as D. pose proof (Z.mod_pos_bound (Q * m j) t ltac:(lia)).
  set (y := Q * m j / t) in *. set (x := Q * m j) in *. clear - H D H0 Rt. nia.
Qed.

Lemma poly_random_rep rows : wf_poly (mkPoly c Ntt rows) -> exists a, poly_random c Ntt rows = rep c Ntt a.
Proof. intros H. destruct (wf_rep pr c W (mkPoly c Ntt rows) eq_refl H) as [a [_ E]]. exists a. exact E. Qed.

Lemma encrypt_poly_ok sk u rows w : sk_of sk -> wf_poly (mkPoly c Ntt rows) ->
  1 <= bp_variance P <= 16 -> (forall k, 0 <= w k < 2 ^ 64) ->
  exists f0 f1 e, encrypt_poly pr sk (rep c Ntt u) rows w = Ok (mkCt P [rep c Ntt f0; rep c Ntt f1] 0)
    /\ poly_random c Ntt rows = rep c Ntt f1
    /\ (forall j, Z.abs (e j) <= 2 * bp_variance P)
    /\ forall j, (j < n)%nat -> phase n (sk_fun sk) [f0; f1] j = u j + e j.
Proof.
  intros [SP [S1 S2]] HR HV HW. rewrite SP in S2. destruct (poly_random_rep rows HR) as [a Ea].
  unfold encrypt_poly. change (p_ctx (rep c Ntt u)) with c. rewrite sk_ntt_ok by auto. cbn [bind].
  rewrite Ea. rewrite rep_mul by auto. cbn [bind]. rewrite SP.
  rewrite rep_random_small by (auto; congruence). cbn [bind]. rewrite rep_sub by auto. cbn [bind]. rewrite rep_add by auto. cbn [bind].
  eexists _, a, (cbd_f w (bp_variance P)). split; [reflexivity|]. split; auto. split.
  - intros j. apply (cbd_f_bound c). lia.
  - intros j Hj. cbn [phase]. rewrite En. change (fun j0 => nth j0 (sk_coeffs sk) 0) with (sk_fun sk).
    rewrite (rmul_comm n a (sk_fun sk)).
    rewrite (rmul_ext n (sk_fun sk) (sk_fun sk) (fun j0 => a j0 + rmul n (sk_fun sk) (fun _ => 0) j0) a);
      [ring|auto|]. intros k Hk. rewrite rmul_0_r. ring.
Qed.

Lemma encode_carries m u e : encodes m u -> carries n Q t (fun j => u j + e j) m (fun j => t * u j - Q * m j + t * e j).
Proof. intros H j Hj. f_equal. ring. Qed.

Lemma carries_ext f f' m m' E E' : (forall j, (j < n)%nat -> f j = f' j) -> (forall j, (j < n)%nat -> m j = m' j) ->
  (forall j, (j < n)%nat -> E j = E' j) -> carries n Q t f m E -> carries n Q t f' m' E'.
Proof. intros A B C H j Hj. rewrite <- A, <- B, <- C by auto. auto. Qed.

(** Linear operations on phases. *)
Lemma phase_ext n' s fs fs' j : Forall2 (fun f g => forall j, (j < n')%nat -> f j = g j) fs fs' -> (j < n')%nat ->
  phase n' s fs j = phase n' s fs' j.
Proof.
  intros H. revert j. induction H as [|f g fs fs' HF _ IH]; intros j Hj; [reflexivity|]. cbn [phase].
  rewrite HF by auto. f_equal. apply rmul_ext; auto.
Qed.
Lemma phase_add s f0 f1 g0 g1 j : phase n s [fun j => f0 j + g0 j; fun j => f1 j + g1 j] j = phase n s [f0; f1] j + phase n s [g0; g1] j.
Proof.
  cbn [phase]. rewrite !rmul_add_r. rewrite (rmul_ext n s s (rmul n s (fun _ => 0)) (fun _ => 0)); [|auto|intros; apply rmul_0_r].
  rewrite rmul_0_r. ring.
Qed.
Lemma phase_sub s f0 f1 g0 g1 j : phase n s [fun j => f0 j - g0 j; fun j => f1 j - g1 j] j = phase n s [f0; f1] j - phase n s [g0; g1] j.
Proof.
  cbn [phase]. rewrite !rmul_add_r, !rmul_sub_r. rewrite (rmul_ext n s s (rmul n s (fun _ => 0)) (fun _ => 0)); [|auto|intros; apply rmul_0_r].
  rewrite rmul_0_r. ring.
Qed.
Lemma phase_rmul s fs h j : phase n s (map (fun f => rmul n f h) fs) j = rmul n (phase n s fs) h j.
Proof.
  revert j. induction fs as [|f fs IH]; intros j; [cbn [map phase]; rewrite rmul_0_l; reflexivity|]. cbn [map phase].
  rewrite rmul_add_l. f_equal. rewrite rmul_assoc by apply n_pos. apply rmul_ext; auto.
Qed.
Lemma phase_scal s fs k j : phase n s (map (fun f => fun j => k * f j) fs) j = k * phase n s fs j.
Proof.
  revert j. induction fs as [|f fs IH]; intros j; [cbn [map phase]; ring|]. cbn [map phase].
  rewrite Z.mul_add_distr_l. f_equal. rewrite <- rmul_scal_r. apply rmul_ext; auto.
Qed.

Lemma carries_add f m E f' m' E' : carries n Q t f m E -> carries n Q t f' m' E' ->
  carries n Q t (fun j => f j + f' j) (fun j => m j + m' j) (fun j => E j + E' j).
Proof.
  intros H H' j Hj. specialize (H j Hj). specialize (H' j Hj).
  replace (t * (f j + f' j)) with (t * f j + t * f' j) by ring.
  replace (Q * (m j + m' j) + (E j + E' j)) with ((Q * m j + E j) + (Q * m' j + E' j)) by ring.
  apply (eqm_add (t * Q)); assumption.
Qed.
Lemma carries_sub f m E f' m' E' : carries n Q t f m E -> carries n Q t f' m' E' ->
  carries n Q t (fun j => f j - f' j) (fun j => m j - m' j) (fun j => E j - E' j).
Proof.
  intros H H' j Hj. specialize (H j Hj). specialize (H' j Hj).
  replace (t * (f j - f' j)) with (t * f j - t * f' j) by ring.
  replace (Q * (m j - m' j) + (E j - E' j)) with ((Q * m j + E j) - (Q * m' j + E' j)) by ring.
  apply (eqm_sub (t * Q)); assumption.
Qed.
Lemma carries_rmul f m E h : carries n Q t f m E -> carries n Q t (rmul n f h) (rmul n m h) (rmul n E h).
Proof.
  intros H j Hj. rewrite <- rmul_scal_l, <- (rmul_scal_l n Q), <- rmul_add_l.
  apply (rmul_eqm n (t * Q)); [exact H|intros; reflexivity].
Qed.
Lemma carries_scal f m E k : carries n Q t f m E -> carries n Q t (fun j => k * f j) (fun j => k * m j) (fun j => k * E j).
Proof.
  intros H j Hj. replace (t * (k * f j)) with (k * (t * f j)) by ring. replace (Q * (k * m j) + k * E j) with (k * (Q * m j + E j)) by ring.
  apply (eqm_mul (t * Q)); [reflexivity|apply H; auto].
Qed.

Lemma params_eqb_refl : params_eqb P P = true.
Proof.
  unfold params_eqb. rewrite Nat.eqb_refl, !Z.eqb_refl, ctx_eqb_refl. cbn [andb].
  rewrite (proj2 (zlist_eqb_eq _ _)) by reflexivity. reflexivity.
Qed.

Lemma ct_add_ok f0 f1 g0 g1 : ct_add pr (ct_of P i c [f0; f1]) (ct_of P i c [g0; g1])
  = Ok (ct_of P i c [fun j => f0 j + g0 j; fun j => f1 j + g1 j]).
Proof.
  unfold ct_add, ct_of. cbn [ct_params ct_level ct_cts map]. rewrite params_eqb_refl, Nat.eqb_refl. cbn [rassert bind get nth_error].
  rewrite !rep_add by auto. cbn [bind]. reflexivity.
Qed.
Lemma ct_sub_ok f0 f1 g0 g1 : ct_sub pr (ct_of P i c [f0; f1]) (ct_of P i c [g0; g1])
  = Ok (ct_of P i c [fun j => f0 j - g0 j; fun j => f1 j - g1 j]).
Proof.
  unfold ct_sub, ct_of. cbn [ct_params ct_level ct_cts map]. rewrite params_eqb_refl, Nat.eqb_refl. cbn [rassert bind get nth_error].
  rewrite !rep_sub by auto. cbn [bind]. reflexivity.
Qed.
Lemma ct_mul_poly_ok f0 f1 h : ct_mul_poly pr (ct_of P i c [f0; f1]) (rep c Ntt h) = Ok (ct_of P i c (map (fun f => rmul n f h) [f0; f1])).
Proof.
  unfold ct_mul_poly, ct_of. cbn [ct_params ct_level ct_cts map get nth_error bind p_ctx rep p_repr].
  fold (rep c Ntt f0). fold (rep c Ntt f1). fold (rep c Ntt h).
  rewrite ctx_eqb_refl. cbn [rassert bind repr_eqb]. rewrite !rep_mul by auto. cbn [bind]. rewrite En. reflexivity.
Qed.
Lemma ct_mul_big_ok f0 f1 k : ct_mul_big pr (ct_of P i c [f0; f1]) k = Ok (ct_of P i c (map (fun f => fun j => k * f j) [f0; f1])).
Proof.
  unfold ct_mul_big, ct_of. cbn [ct_params ct_level ct_cts map get nth_error bind].
  rewrite !rep_mul_big by auto. cbn [bind]. reflexivity.
Qed.
Lemma ct_mul_pt_ok f0 f1 p : pt_level p = i -> Forall (fun x => 0 <= x < 2 ^ 64) (pt_values p) -> (length (pt_values p) <= n)%nat ->
  ct_mul_pt pr (ct_of P i c [f0; f1]) p = Ok (ct_of P i c (map (fun f => rmul n f (pt_fun p)) [f0; f1])).
Proof.
  intros EL H64 Hl. unfold ct_mul_pt, ct_of. cbn [ct_params ct_level ct_cts map]. rewrite EL, Nat.eqb_refl, (lv_ctx _ _ _ LV). cbn [rassert bind].
  rewrite rep_from_u64 by (auto; lia). cbn [bind]. rewrite change_fwd by auto. cbn [bind get nth_error].
  rewrite !rep_mul by auto. cbn [bind]. rewrite En. reflexivity.
Qed.
Lemma ct_add_poly_ok f0 f1 h : ct_add_poly pr (ct_of P i c [f0; f1]) (rep c Ntt h) = Ok (ct_of P i c [fun j => f0 j + h j; fun j => f1 j + h j]).
Proof.
  unfold ct_add_poly, ct_of. cbn [ct_params ct_level ct_cts map get nth_error bind p_ctx rep].
  fold (rep c Ntt f0). fold (rep c Ntt f1). fold (rep c Ntt h).
  rewrite ctx_eqb_refl. cbn [rassert bind]. rewrite !rep_add by auto. cbn [bind]. reflexivity.
Qed.
End Sem.
