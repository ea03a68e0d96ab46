(** Claim C68: [BfvParameters::default]. *)
From Verif Require Import PBase NT Spec PSum MModulus MUtils MNtt MRns MRq MBfv MKsk MGalois MRgsw MCirc SpecCirc SpecDef PModulus PUtils PNttMath PNtt PNttNew PCrt PRns PRnsScale PUtils2 SpecRq SpecBfv SpecKsk PRing PRingT PRq PRq2 PRq4 PRq5 TestEnv QRq PBfv PBfv2 PBfv3 PBfv4 PBfv5 QBfv PMul PKsk PKsk2 QKsk QCirc TestBfv PPrime PDefData PDef PSafe PSafe3 QNtt.

(** Level contexts of given parameters, with the length of their extension. *)
Lemma bfv_new_from_ext pr env ext n t ms v bd P : env_ok env -> Forall (fun q => 0 <= q < 2 ^ 62) ms -> Forall (fun q => 0 <= q) ext ->
  Z.of_nat (length ms) <= 64 -> bfv_new_from pr env ext n t ms v bd = Ok P ->
  forall i e, get (bp_e_ctxs P) i = Ok e -> exists cnt,
    rq_moduli_64 e = firstn (length ms - i) ms ++ firstn cnt ext /\ (cnt <= length ext)%nat
    /\ let bits := fold_left Z.add (map (fun q => 64 - leading_zeros 64 q) (firstn (length ms - i) ms)) 0 in
        62 * (Z.of_nat cnt - 1) < bits + 60 <= 62 * Z.of_nat cnt.
Proof.
  intros EH H0 Hx Hl E i e GE. unfold bfv_new_from in E. binv E. rename v0 into t_invs. binv E. rename v0 into q0.
  binv E. rename v0 into pt_ctx. binv E. rename v0 into lvls, E3 into EL. binv E. binv E. binv E. apply Ok_inj in E. rewrite <- E in GE. cbn [bp_e_ctxs] in GE.
  unfold get in GE. rewrite nth_error_map in GE. destruct (nth_error lvls i) as [r|] eqn:ER; [|discriminate]. cbn [option_map] in GE.
  assert (Hi : (i < length lvls)%nat) by (apply nth_error_Some; congruence).
  pose proof (mapM_length _ _ _ EL) as LL. rewrite seq_length in LL. apply PBase.mapM_forall2 in EL.
  pose proof (PRns.forall2_nth _ _ _ 0%nat r i EL ltac:(rewrite seq_length; lia)) as X. rewrite seq_nth in X by lia.
  rewrite (nth_error_nth _ _ _ ER) in X. cbn [Nat.add] in X. clear - X GE EH H0 Hx Hl Hi LL. unfold level_params in X.
  set (ls := firstn (length ms - i) ms) in *.
  assert (FB : Forall (fun q => 0 <= q < 2 ^ 62) ls) by (apply Forall_forall; intros q Hq; rewrite Forall_forall in H0; apply H0; eapply firstn_in; eauto).
  pose proof (size_sum_le _ FB 0) as SS. assert (Ll : (length ls <= length ms)%nat) by (unfold ls; rewrite firstn_length; lia).
  set (sz := fold_left Z.add _ 0) in *.
  binv X. binv X. binv X. binv X. binv X. binv X. binv X. binv X. binv X. rename v7 into cnt, E7 into EC. binv X. rename v7 into e', E7 into EE'.
  binv X. rename v7 into e0, E7 into EE. binv X. binv X. binv X. apply Ok_inj in X. subst r. apply Ok_inj in GE. subst e0.
  rewrite div_ceil_ok in EC by (change W64 with 18446744073709551616; lia). apply Ok_inj in EC.
  pose proof (ceil_spec (sz + 60) 62 ltac:(lia)) as CS. rewrite EC in CS.
  unfold slice_to in EE'. destruct (Z.to_nat cnt <=? length ext)%nat eqn:LE; [|discriminate]. apply Nat.leb_le in LE. apply Ok_inj in EE'. subst e'.
  exists (Z.to_nat cnt). split; [|split; [exact LE|lia]].
  destruct (rq_new_inv pr env EH _ _ _ _ ltac:(apply Forall_app; split; [eapply Forall_impl; [|exact FB]; cbv beta; lia|apply Forall_forall; intros q Hq; rewrite Forall_forall in Hx; apply Hx; eapply firstn_in; eauto]) EE) as [_ [Me _]].
  exact Me.
Qed.

Lemma bits62 n l : Forall (ntt_prime 62 n) l -> forall z, fold_left Z.add (map (fun q => 64 - leading_zeros 64 q) l) z = z + 62 * Z.of_nat (length l).
Proof.
  intros H. induction H as [|q l Hq _ IH]; intros z; cbn [map fold_left length]; [lia|]. rewrite IH.
  destruct Hq as [_ [[B1 B2] _]]. unfold leading_zeros. destruct (bitlen_spec q) as [C1 [C2 C3]].
  { change (2 ^ (62 - 1)) with 2305843009213693952 in B1. lia. }
  assert (bitlen q = 62); [|lia].
  assert (L1 : 61 < bitlen q) by (apply (Z.pow_lt_mono_r_iff 2); [lia|lia|]; change (62 - 1) with 61 in B1; lia).
  change (2 ^ (62 - 1)) with 2305843009213693952 in B1.
  assert (L2 : bitlen q - 1 < 62) by (apply (Z.pow_lt_mono_r_iff 2); [lia|lia|]; assert (0 < q) by lia; lia). lia.
Qed.

Lemma np_range n q : ntt_prime 62 n q -> 2305843009213693952 <= q < 4611686018427387904.
Proof. intros [_ [B _]]. exact B. Qed.
Lemma degree_cases L : (3 <= L)%nat -> (2 * Z.of_nat (2 ^ L) | 1152) -> ddeg (2 ^ L).
Proof.
  intros H3 D. destruct (Nat.le_gt_cases L 6) as [H6|H6].
  - assert (L = 3 \/ L = 4 \/ L = 5 \/ L = 6)%nat as [-> |[-> |[-> | ->]]] by lia; unfold ddeg; cbn; auto.
  - exfalso. assert (D2 : (256 | 1152)).
    { eapply Z.divide_trans; [|exact D]. exists (Z.of_nat (2 ^ (L - 7))).
      replace L with (7 + (L - 7))%nat at 1 by lia. rewrite Nat.pow_add_r, Nat2Z.inj_mul. change (Z.of_nat (2 ^ 7)) with 128. ring. }
    destruct D2 as [z Hz]. lia.
Qed.
Lemma wf_degree P : wf_bfv P -> bp_t P = 1153 -> ddeg (bp_degree P).
Proof.
  intros W Ht. destruct (wb_ntt P W) as [op [L [psi [_ [EN [_ WN]]]]]]. destruct (wb_t P W) as [_ [_ D]]. rewrite Ht in D. change (1153 - 1) with 1152 in D.
  destruct (wb_lv P W 0 (wb_k P W)) as [c LV]. pose proof (cx_n8 c (wf_ctx_loc _ (lv_wf _ _ _ LV))) as N8. rewrite (lv_n _ _ _ LV) in N8.
  rewrite EN in *. apply degree_cases; auto. destruct (Nat.le_gt_cases 3 L); auto. exfalso. 
  assert (2 ^ L <= 2 ^ 2)%nat by (apply Nat.pow_le_mono_r; lia). cbn in *. lia.
Qed.

Lemma default_inv pr env k n bd P : env_exact env -> (k <= 31)%nat -> bfv_default pr env k n bd = Ok P ->
  built_params P /\ bp_degree P = n /\ bp_t P = 1153 /\ bp_variance P = 10 /\ length (bp_moduli P) = k /\ (1 <= k)%nat
  /\ NoDup (bp_moduli P) /\ Forall (ntt_prime 62 n) (bp_moduli P) /\ ddeg n
  /\ forall i c, level P i c -> exists ec, get (bp_e_ctxs P) i = Ok ec
       /\ length (rq_moduli_64 c) = (k - i)%nat /\ (i < k)%nat /\ Forall (ntt_prime 62 n) (rq_moduli_64 c)
       /\ exists ex, rq_moduli_64 ec = rq_moduli_64 c ++ ex /\ length ex = (k - i + 1)%nat /\ Forall (ntt_prime 62 n) ex.
Proof.
  intros [PE DR] Hk E. unfold bfv_default in E. binv E. rename v into o, E0 into EG. binv E. rename v into ms, E0 into EU.
  assert (Eo : o = Some ms) by (destruct o; [apply Ok_inj in EU; subst; auto|discriminate]). subst o. clear EU.
  unfold bfv_new in E. binv E. rename v into ext, E0 into EX.
  assert (EO : env_ok env) by (split; auto; intros x Hx H; apply PE; auto).
  assert (Hn : (1 <= n)%nat).
  { destruct n as [|n]; [exfalso|lia]. unfold gen_ext in EX.
    assert (G0 : generate_prime pr (is_prime env) 62 0 (2 ^ 62) = Panic) by (destruct pr; reflexivity).
    replace (2 * length ms + 2)%nat with (S (2 * length ms + 1)) in EX by lia. cbn [gen_ext_loop length] in EX.
    replace (0 =? length ms + 1)%nat with false in EX by (symmetry; apply Nat.eqb_neq; lia).
    change (Z.of_nat (2 * 0)) with 0 in EX. rewrite G0 in EX. discriminate. }
  assert (GM : NoDup ms /\ Forall2 (fun s p => ntt_prime s n p) (repeat 62 k) ms).
  { destruct (C26_generate_moduli_lem pr env (repeat 62 k) n PE Hn) as [[ms' [E' [ND [F _]]]]|[E' _]].
    - apply Forall_forall. intros s Hs. apply repeat_spec in Hs. lia.
    - rewrite E' in EG. apply Ok_inj in EG. injection EG as <-. auto.
    - rewrite E' in EG. discriminate. }
  destruct GM as [ND F2]. assert (LM : k = length ms).
  { rewrite <- (repeat_length 62 k) at 1. clear - F2. induction F2; cbn [length]; congruence. }
  assert (FM : Forall (ntt_prime 62 n) ms).
  { clear - F2. remember (repeat 62 k) as r eqn:Er. revert k Er. induction F2 as [|s p l l' H _ IH]; intros k Er; [constructor|].
    destruct k; [discriminate|]. cbn [repeat] in Er. injection Er as -> Er. constructor; eauto. }
  assert (GX : length ext = (length ms + 1)%nat /\ Forall (ntt_prime 62 n) ext).
  { destruct (gen_ext_ok pr env PE n ms Hn) as [[e [E' [Le [_ Fe]]]]|[E' _]]; rewrite E' in EX; [|discriminate].
    apply Ok_inj in EX. subst e. split; auto. eapply Forall_impl; [|exact Fe]. cbv beta. tauto. }
  destruct GX as [LX FX].
  assert (B : built_params P).
  { exists pr, env, ext, n, 1153, ms, 10, bd. split; auto. split; [eapply Forall_impl; [|exact FM]; cbv beta; intros q Hq; apply np_range in Hq; lia|].
    split; [eapply Forall_impl; [|exact FX]; cbv beta; intros q Hq; apply np_range in Hq; lia|]. split; [lia|]. split; auto.
    intros q Hq. rewrite Forall_forall in FM. specialize (FM q Hq). apply np_range in FM. lia. }
  destruct (bfv_new_from_fields _ _ _ _ _ _ _ _ _ E) as [F1 [F3 [F4 F5]]].
  pose proof (built_params_wf P B) as WB. pose proof (wb_k P WB) as K1. rewrite F4 in K1.
  split; auto. split; auto. split; auto. split; auto. rewrite F4. split; [lia|]. split; [lia|]. split; auto. split; auto.
  split; [rewrite <- F1; apply wf_degree; auto|].
  intros i c LV0. destruct (level_wf P i c WB LV0) as [Hi LV]. rewrite F4 in Hi.
  destruct (lv_mu _ _ _ LV) as [mu [ec [ex0 [_ [GE [_ [_ [_ [ME _]]]]]]]]].
  pose proof (lv_ms _ _ _ LV) as MC. rewrite F4 in MC.
  assert (FC : Forall (ntt_prime 62 n) (firstn (length ms - i) ms)).
  { apply Forall_forall. intros q Hq. rewrite Forall_forall in FM. apply FM. eapply firstn_in; eauto. }
  assert (LC : length (firstn (length ms - i) ms) = (k - i)%nat) by (rewrite firstn_length; lia).
  destruct (bfv_new_from_ext pr env ext n 1153 ms 10 bd P EO) with (i := i) (e := ec) as [cnt [MX [CL CB]]]; auto.
  { eapply Forall_impl; [|exact FM]. cbv beta. intros q Hq. apply np_range in Hq. change (2 ^ 62) with 4611686018427387904. lia. }
  { eapply Forall_impl; [|exact FX]. cbv beta. intros q Hq. apply np_range in Hq. lia. }
  { lia. }
  cbv zeta in CB. rewrite (bits62 n) in CB by auto. rewrite LC in CB. assert (EC : cnt = (k - i + 1)%nat) by lia.
  exists ec. rewrite MC. split; auto. split; auto. split; [lia|]. split; auto. exists (firstn cnt ext). split; auto.
  split; [rewrite firstn_length; lia|]. apply Forall_forall. intros q Hq. rewrite Forall_forall in FX. apply FX. eapply firstn_in; eauto.
Qed.

(** The consequences used by the theorems of the scheme. *)
Lemma zprod_bounds n l : Forall (ntt_prime 62 n) l -> 2 ^ (61 * Z.of_nat (length l)) <= zprod l <= 2 ^ (62 * Z.of_nat (length l)).
Proof.
  intros H. induction H as [|q l Hq _ [IH1 IH2]]; cbn [length zprod fold_right]; [lia|]. fold (zprod l). apply np_range in Hq.
  replace (61 * Z.of_nat (S (length l))) with (61 + 61 * Z.of_nat (length l)) by lia.
  replace (62 * Z.of_nat (S (length l))) with (62 + 62 * Z.of_nat (length l)) by lia. rewrite !Z.pow_add_r by lia.
  change (2 ^ 61) with 2305843009213693952. change (2 ^ 62) with 4611686018427387904.
  assert (0 < 2 ^ (61 * Z.of_nat (length l))) by (apply Z.pow_pos_nonneg; lia).
  split; apply Z.mul_le_mono_nonneg; lia.
Qed.
Lemma default_level pr env k n bd P i c : env_exact env -> (k <= 31)%nat -> bfv_default pr env k n bd = Ok P -> level P i c ->
  small_basis (rq_moduli_64 c) /\ 2 * bp_t P <= cx_q c 0 /\ 2 ^ (61 * Z.of_nat (k - i)) <= cx_Q c
  /\ ks_bound c 20 <= Z.of_nat n * 20 * (Z.of_nat (k - i) * 4611686018427387904)
  /\ exists ec, get (bp_e_ctxs P) i = Ok ec /\ small_basis (rq_moduli_64 ec) /\ 2 * Z.of_nat (bp_degree P) * (cx_Q c * cx_Q c) <= cx_Q ec.
Proof.
  intros EX Hk E L. destruct (default_inv pr env k n bd P EX Hk E) as [B [D1 [D2 [D3 [D4 [D5 [D6 [D7 [D8 HL]]]]]]]]].
  destruct (HL i c L) as [ec [GE [LC [Hik [FC [ex [ME [LE FE]]]]]]]]. assert (Hk1 : (1 <= k - i <= 31)%nat) by lia. clear HL.
  remember (k - i)%nat as k' eqn:Ek. clear Ek.
  assert (SBG : forall l, Forall (ntt_prime 62 n) l -> (length l <= 64)%nat -> small_basis l).
  { intros l FL LL q Hq. rewrite Forall_forall in FL. specialize (FL q Hq). apply np_range in FL.
    replace (2 ^ 68) with (4611686018427387904 * 64) by reflexivity. apply Z.mul_le_mono_nonneg; lia. }
  pose proof (built_params_wf P B) as WB. destruct (level_wf P i c WB L) as [_ LV]. pose proof (cx_n8 c (wf_ctx_loc _ (lv_wf _ _ _ LV))) as N8.
  pose proof (zprod_bounds n _ FC) as ZC. rewrite LC in ZC.
  split; [apply SBG; auto; lia|]. split.
  { unfold cx_q. rewrite D2. rewrite Forall_forall in FC. assert (I : In (nth 0 (rq_moduli_64 c) 1) (rq_moduli_64 c)) by (apply nth_In; lia).
    specialize (FC _ I). apply np_range in FC. lia. }
  split; [apply ZC|]. split.
  { unfold ks_bound. rewrite (lv_n _ _ _ LV), D1. apply Z.mul_le_mono_nonneg_l; [lia|].
    unfold cx_k, cx_q. rewrite LC. clear - FC LC.
    assert (G : forall j, (j <= k')%nat -> sumn j (fun i => nth i (rq_moduli_64 c) 1) <= Z.of_nat j * 4611686018427387904).
    { induction j as [|j IH]; intros Hj; cbn [sumn]; [lia|]. specialize (IH ltac:(lia)).
      assert (I : In (nth j (rq_moduli_64 c) 1) (rq_moduli_64 c)) by (apply nth_In; lia).
      rewrite Forall_forall in FC. specialize (FC _ I). apply np_range in FC. lia. }
    apply G; lia. }
  exists ec. split; auto. split; [apply SBG; [rewrite ME; apply Forall_app; auto|rewrite ME, app_length; lia]|].
  unfold cx_Q at 3. rewrite ME, zprod_app. fold (cx_Q c). pose proof (zprod_bounds n _ FE) as [ZE _]. rewrite LE in ZE.
  rewrite D1. unfold cx_Q in *. set (Q := zprod (rq_moduli_64 c)) in *. set (R := zprod ex) in *.
  assert (N64 : Z.of_nat n <= 64) by (destruct D8 as [-> |[-> |[-> | ->]]]; lia).
  assert (Q0 : 0 <= Q) by (apply Z.le_trans with (2 ^ (61 * Z.of_nat k')); [apply Z.pow_nonneg; lia|apply ZC]).
  assert (G : 128 * Q <= R).
  { apply Z.le_trans with (2 ^ 7 * 2 ^ (62 * Z.of_nat k')); [apply Z.mul_le_mono_nonneg; lia|]. rewrite <- Z.pow_add_r by lia.
    eapply Z.le_trans; [|exact ZE]. apply Z.pow_le_mono_r; lia. }
  clearbody Q R. clear - G Q0 N64. rewrite Z.mul_assoc, (Z.mul_comm _ Q). apply Z.mul_le_mono_nonneg_l; auto. nia.
Qed.

(** Noise of circuits of bounded height. *)
Definition hnoise (k : nat) (h : nat) : Z := Z.of_nat k * 2 ^ (58 + 27 * Z.of_nat h).
Lemma hnoise_S k h : hnoise k (S h) = 134217728 * hnoise k h.
Proof. unfold hnoise. replace (58 + 27 * Z.of_nat (S h)) with (27 + (58 + 27 * Z.of_nat h)) by lia. rewrite Z.pow_add_r by lia. change (2 ^ 27) with 134217728. ring. Qed.
Lemma hnoise_low k h : Z.of_nat k * 288230376151711744 <= hnoise k h.
Proof. unfold hnoise. apply Z.mul_le_mono_nonneg_l; [lia|]. change 288230376151711744 with (2 ^ 58). apply Z.pow_le_mono_r; lia. Qed.
Lemma hnoise_mono k h h' : (h <= h')%nat -> hnoise k h <= hnoise k h'.
Proof. intros H. unfold hnoise. apply Z.mul_le_mono_nonneg_l; [lia|]. apply Z.pow_le_mono_r; lia. Qed.
Lemma l1_coeffs n t l : 0 <= t -> Forall (fun x => 0 <= x < t) l -> l1norm n (coeffs l) <= Z.of_nat n * t.
Proof.
  intros H0 H. unfold l1norm, coeffs. induction n as [|n IH]; cbn [sumn]; [lia|].
  assert (Z.abs (nth n l 0) <= t).
  { destruct (nth_in_or_default n l 0) as [I| ->]; [|lia]. rewrite Forall_forall in H. specialize (H _ I). lia. }
  lia.
Qed.
Lemma cnoise_height n k KB d e : (1 <= n <= 64)%nat -> (1 <= k)%nat -> 0 <= KB <= Z.of_nat n * 20 * (Z.of_nat k * 4611686018427387904) ->
  cplain 1153 d e -> 0 <= cnoise n 1153 (1153 * 22) (20 * Z.of_nat n) KB d e <= hnoise k (height e).
Proof.
  intros Hn Hk HK. set (N := Z.of_nat n) in *. assert (HN : 1 <= N <= 64) by lia. set (kk := Z.of_nat k) in *. assert (Kk : 1 <= kk) by lia.
  assert (HKB : KB <= 1280 * 4611686018427387904 * kk).
  { eapply Z.le_trans; [apply HK|]. clear - HN Kk. nia. }
  assert (TW : forall h, 1153 * KB <= 23613440 * hnoise k h).
  { intros h. pose proof (hnoise_low k h) as LO. fold kk in LO. clear - HKB LO. lia. }
  assert (ML : forall f x M, 0 <= f <= 64 * 1153 -> 0 <= x <= M -> 0 <= f * x <= 73792 * M) by (clear; intros; nia).
  induction e as [j|a IHa b IHb|a IHa b IHb|a IHa b IHb|a IHa j|a IHa z|a IHa j|a IHa j]; cbn [cplain cnoise height]; intros H.
  - pose proof (hnoise_low k 0). fold kk in H0. lia.
  - destruct H as [Ha Hb]. specialize (IHa Ha). specialize (IHb Hb). rewrite hnoise_S.
    pose proof (hnoise_mono k (height a) (Nat.max (height a) (height b)) ltac:(lia)). pose proof (hnoise_mono k (height b) (Nat.max (height a) (height b)) ltac:(lia)). lia.
  - destruct H as [Ha Hb]. specialize (IHa Ha). specialize (IHb Hb). rewrite hnoise_S.
    pose proof (hnoise_mono k (height a) (Nat.max (height a) (height b)) ltac:(lia)). pose proof (hnoise_mono k (height b) (Nat.max (height a) (height b)) ltac:(lia)). lia.
  - destruct H as [Ha Hb]. specialize (IHa Ha). specialize (IHb Hb). rewrite hnoise_S.
    pose proof (hnoise_mono k (height a) (Nat.max (height a) (height b)) ltac:(lia)) as Ma. pose proof (hnoise_mono k (height b) (Nat.max (height a) (height b)) ltac:(lia)) as Mb.
    set (h := Nat.max (height a) (height b)) in *. pose proof (TW h) as T. pose proof (hnoise_low k h) as LO. fold kk in LO.
    unfold mul_noise. set (x := Z.max _ _). assert (HX : 0 <= x <= hnoise k h) by (unfold x; lia). clearbody x.
    fold N. set (M := hnoise k h) in *. clearbody M. clear - HN Kk HX T LO HK.
    assert (A1 : 0 <= N * 1153 * x * (20 * N + 5) <= 94822720 * M).
    { replace (N * 1153 * x * (20 * N + 5)) with ((N * (20 * N + 5) * 1153) * x) by ring.
      assert (0 <= N * (20 * N + 5) * 1153 <= 94822720) by nia. nia. }
    assert (A2 : 0 <= N * x <= 64 * M) by nia. assert (A3 : 0 <= 20 * N * (20 * N) <= 1638400) by nia. lia.
  - destruct H as [Ha [_ HF]]. specialize (IHa Ha). rewrite hnoise_S. pose proof (l1_coeffs n 1153 _ ltac:(lia) HF) as L1. fold N in L1.
    pose proof (l1_nonneg n (coeffs (nth j (cd_pt d) []))) as L0. pose proof (ML (l1norm n (coeffs (nth j (cd_pt d) []))) _ _ ltac:(lia) IHa). lia.
  - destruct H as [Ha Hz]. specialize (IHa Ha). rewrite hnoise_S. pose proof (ML (Z.abs z) _ _ ltac:(lia) IHa). lia.
  - destruct H as [Ha _]. specialize (IHa Ha). rewrite hnoise_S. pose proof (TW (height a)). lia.
  - destruct H as [Ha [_ HF]]. specialize (IHa Ha). rewrite hnoise_S. pose proof (l1_coeffs n 1153 _ ltac:(lia) HF) as L1. fold N in L1.
    pose proof (l1_nonneg n (coeffs (nth j (cd_sel d) []))) as L0. pose proof (ML (l1norm n (coeffs (nth j (cd_sel d) []))) _ _ ltac:(lia) IHa). pose proof (TW (height a)). lia.
Qed.
Lemma cfits_height n k KB Q d e : (1 <= n <= 64)%nat -> (1 <= k)%nat -> 0 <= KB <= Z.of_nat n * 20 * (Z.of_nat k * 4611686018427387904) ->
  cplain 1153 d e -> hnoise k (height e) <= Q -> cfits n Q 1153 (1153 * 22) (20 * Z.of_nat n) KB d e.
Proof.
  intros Hn Hk HK. induction e as [j|a IHa b IHb|a IHa b IHb|a IHa b IHb|a IHa j|a IHa z|a IHa j|a IHa j]; cbn [cplain cfits height]; intros H HQ; auto.
  all: try (destruct H as [Ha Hb]).
  1,2,3: pose proof (hnoise_mono k (height a) (S (Nat.max (height a) (height b))) ltac:(lia)) as Ma; pose proof (hnoise_mono k (height b) (S (Nat.max (height a) (height b))) ltac:(lia)) as Mb.
  1,2: split; [apply IHa|apply IHb]; auto; lia.
  - split; [apply IHa; auto; lia|]. split; [apply IHb; auto; lia|].
    pose proof (cnoise_height n k KB d a Hn Hk HK Ha). pose proof (cnoise_height n k KB d b Hn Hk HK Hb). lia.
  - pose proof (hnoise_mono k (height a) (S (height a)) ltac:(lia)). split; [apply IHa; auto; lia|tauto].
  - pose proof (hnoise_mono k (height a) (S (height a)) ltac:(lia)). apply IHa; auto; lia.
  - pose proof (hnoise_mono k (height a) (S (height a)) ltac:(lia)). split; [apply IHa; auto; lia|tauto].
  - pose proof (hnoise_mono k (height a) (S (height a)) ltac:(lia)). split; [apply IHa; auto; lia|tauto].
Qed.
Lemma hnoise_fits k h Q : (2 <= k)%nat -> (h <= 2 * k - 2)%nat -> 2 ^ (61 * Z.of_nat k) <= Q -> 4 * hnoise k h <= Q.
Proof.
  intros Hk Hh HQ. eapply Z.le_trans; [|exact HQ]. eapply Z.le_trans; [apply Z.mul_le_mono_nonneg_l; [lia|apply (hnoise_mono k h (2 * k - 2) Hh)]|].
  unfold hnoise. replace (58 + 27 * Z.of_nat (2 * k - 2)) with (54 * Z.of_nat k + 4) by lia.
  set (x := Z.of_nat k) in *. assert (Hx : 2 <= x) by lia. clearbody x. 
  assert (X2 : x <= 2 ^ x) by (apply Z.lt_le_incl, Z.pow_gt_lin_r; lia).
  apply Z.le_trans with (2 ^ 2 * (2 ^ x * 2 ^ (54 * x + 4))).
  { change (2 ^ 2) with 4. apply Z.mul_le_mono_nonneg_l; [lia|]. apply Z.mul_le_mono_nonneg_r; [apply Z.pow_nonneg; lia|auto]. }
  rewrite <- !Z.pow_add_r by lia. apply Z.pow_le_mono_r; lia.
Qed.

(** C68: for degrees from 128 on, no parameters are ever returned. *)
Lemma C68_large_degree_refuted_lem :
  forall pr env k n bd, (128 <= n)%nat -> Z.of_nat n < 2 ^ 64 -> bfv_default pr env k n bd = Panic.
Proof.
  intros pr env k n bd Hn H64. pose proof (sf_bfv_default pr env k n bd H64) as SF.
  destruct (bfv_default pr env k n bd) as [P| | |] eqn:E; try contradiction; [exfalso|reflexivity].
  unfold bfv_default in E. binv E. binv E. unfold bfv_new in E. binv E. unfold bfv_new_from in E.
  repeat (apply bind_inv in E; let x := fresh "x" in destruct E as [x [? E]]).
  match goal with H1 : modulus_new 1153 = Ok ?m, H2 : ntt_new pr env ?m n = Ok ?o |- _ => rename m into tm, o into op, H1 into ET, H2 into EN end.
  destruct (C11_guard_lem pr env 1153 tm n op ltac:(lia) ET EN) as [[L [HL EL]] [HM _]].
  assert (D : (2 * Z.of_nat n | 1152)).
  { apply Z.mod_divide; [lia|]. change 1152 with (1153 - 1). rewrite Zminus_mod, HM, (Z.mod_small 1) by lia. reflexivity. }
  rewrite EL in D. destruct (degree_cases L HL D) as [X|[X|[X|X]]]; lia.
Qed.

(** C68: whenever default returns parameters, every fresh encryption decrypts
    to the message, for every key and all randomness. *)
Lemma C68_encrypt_lem :
  forall pr env k n bd P c w0 sk pt rows w,
    env_exact env -> (k <= 31)%nat -> bfv_default pr env k n bd = Ok P -> level P 0 c ->
    (forall j, 0 <= w0 j < 2 ^ 64) -> sk_generate pr P w0 = Ok sk ->
    pt_params pt = P -> pt_level pt = 0%nat -> Forall (fun x => 0 <= x < 2 ^ 64) (pt_values pt) -> (length (pt_values pt) <= n)%nat ->
    wf_poly (mkPoly c Ntt rows) -> (forall j, 0 <= w j < 2 ^ 64) ->
    (ct <- encrypt pr sk pt rows w ;; decrypt pr sk ct)
    = Ok (mkPt P 0 EncNone (map (fun j => nth j (pt_values pt) 0 mod 1153) (seq 0 n))).
Proof.
  intros pr env k n bd P c w0 sk pt rows w EX Hk E L Hw0 ES PP PL PV PN WR Hw.
  destruct (default_inv pr env k n bd P EX Hk E) as [B [D1 [D2 [D3 [D4 [D5 _]]]]]].
  destruct (default_level pr env k n bd P 0 c EX Hk E L) as [SB [Hq [HQ _]]]. rewrite Nat.sub_0_r in *.
  destruct (C30_keygen_lem pr P w0 B ltac:(lia) Hw0) as [sk' [ES' [SP [SO _]]]]. rewrite ES in ES'. apply Ok_inj in ES'. subst sk'.
  destruct (C30_encrypt_decrypt_lem pr P c sk pt rows w B L SP SO PP PL PV ltac:(lia) WR Hw ltac:(lia) SB Hq) as [ct [E1 E2]].
  { rewrite D2, D3. assert (2 ^ 61 <= cx_Q c). { eapply Z.le_trans; [|exact HQ]. apply Z.pow_le_mono_r; lia. }
    change (2 ^ 61) with 2305843009213693952 in H. change (2 ^ 54) with 18014398509481984. lia. }
  rewrite E1. cbn [bind]. rewrite E2, D1, D2. reflexivity.
Qed.

(** C68: with at least two moduli, every circuit of height at most 2k-2 over the
    homomorphic operations decrypts to its value, for every key and all
    randomness: no condition on the noise is left. *)
Lemma C68_circuit_lem :
  forall pr env k n bd P c w0 sk d K pts cts e,
    env_exact env -> (2 <= k <= 31)%nat -> bfv_default pr env k n bd = Ok P -> level P 0 c ->
    (forall j, 0 <= w0 j < 2 ^ 64) -> sk_generate pr P w0 = Ok sk ->
    good_keys pr P 0 c sk d K -> Forall2 (good_pt P 0) (cd_in d) pts ->
    Forall2 (fun pt ct => exists rows w, wf_poly (mkPoly c Ntt rows) /\ (forall j, 0 <= w j < 2 ^ 64) /\ encrypt pr sk pt rows w = Ok ct) pts cts ->
    cplain 1153 d e -> (height e <= 2 * k - 2)%nat ->
    (ct <- run_circ pr K cts e ;; decrypt pr sk ct)
    = Ok (mkPt P 0 EncNone (map (fun j => cval n d e j mod 1153) (seq 0 n))).
Proof.
  intros pr env k n bd P c w0 sk d K pts cts e EX Hk E L Hw0 ES GK HI HC HP HH.
  destruct (default_inv pr env k n bd P EX ltac:(lia) E) as [B [D1 [D2 [D3 [D4 [D5 [_ [_ [DG _]]]]]]]]].
  destruct (default_level pr env k n bd P 0 c EX ltac:(lia) E L) as [SB [Hq [HQ [HK [ec HE]]]]]. rewrite Nat.sub_0_r in *.
  destruct (C30_keygen_lem pr P w0 B ltac:(lia) Hw0) as [sk' [ES' [SP [SO [SL SF]]]]]. rewrite ES in ES'. apply Ok_inj in ES'. subst sk'.
  assert (Hn : (1 <= n <= 64)%nat) by (destruct DG as [-> |[-> |[-> | ->]]]; lia).
  pose proof (built_params_wf P B) as WB. destruct (level_wf P 0 c WB L) as [_ LV].
  assert (K0 : 0 <= ks_bound c 20).
  { unfold ks_bound. apply Z.mul_nonneg_nonneg; [lia|]. apply sumn_nonneg. intros i Hi. pose proof (cx_range c (wf_ctx_loc _ (lv_wf P 0 c LV)) i Hi). lia. }
  assert (L1 : l1norm (bp_degree P) (sk_fun sk) <= 20 * Z.of_nat n).
  { unfold l1norm. rewrite D1. clear - SF D3. rewrite D3 in SF. induction n as [|m IH]; cbn [sumn]; [lia|].
    assert (Z.abs (sk_fun sk m) <= 20); [|lia]. unfold sk_fun. destruct (nth_in_or_default m (sk_coeffs sk) 0) as [I| ->]; [|lia].
    rewrite Forall_forall in SF. specialize (SF _ I). lia. }
  pose proof (hnoise_fits k (height e) (cx_Q c) ltac:(lia) HH HQ) as HF. pose proof (hnoise_low k (height e)) as HLo.
  pose proof (cnoise_height n k (ks_bound c 20) d e Hn ltac:(lia) (conj K0 HK) HP) as CN.
  pose proof (C64_program_lem pr P c ec sk d K pts cts (20 * Z.of_nat n) e) as R. rewrite D1, D2, D3 in R.
  change (2 * 10) with 20 in R. change (1153 * (20 + 2)) with (1153 * 22) in R. change (2 ^ 54) with 18014398509481984 in R.
  rewrite D1 in L1. rewrite D2 in Hq. rewrite D1 in HE.
  apply R; clear R; auto; try lia; try tauto.
  apply (cfits_height n k); auto; lia.
Qed.

Lemma last_nth (l : list Z) : last l 0 = nth (length l - 1) l 0.
Proof.
  induction l as [|a l IH]; [reflexivity|]. destruct l as [|b l]; [reflexivity|].
  change (last (a :: b :: l) 0) with (last (b :: l) 0). rewrite IH. cbn [length]. replace (S (S (length l)) - 1)%nat with (S (S (length l) - 1)) by lia. reflexivity.
Qed.
Lemma NoDup_firstn_Z k (l : list Z) : NoDup l -> NoDup (firstn k l).
Proof.
  intros H. revert k. induction H as [|a l N _ IH]; intros [|k]; cbn [firstn]; constructor; auto.
  intros C. apply N. eapply firstn_in; eauto.
Qed.

(** C68: with an exact primality test, one non-residue among the numbers drawn
    per modulus, and at least 2k+1 suitable primes, default succeeds for the four
    degrees t = 1153 admits; its ciphertext moduli are the k largest 62-bit primes
    that are 1 modulo 2n and the extensions the next ones. *)
Lemma C68_default_lem :
  forall pr env k n bd l,
    env_exact env -> (n = 8 \/ n = 16 \/ n = 32 \/ n = 64)%nat -> (1 <= k)%nat -> Z.of_nat k < 2 ^ 57 ->
    largest_primes n l -> length l = (2 * k + 1)%nat ->
    draws_root env 1153 -> Forall (draws_root env) l ->
    exists P, bfv_default pr env k n bd = Ok P
      /\ bp_degree P = n /\ bp_t P = 1153 /\ bp_variance P = 10 /\ bp_moduli P = firstn k l
      /\ forall i, (i < k)%nat -> exists c e, level P i c /\ get (bp_e_ctxs P) i = Ok e
           /\ rq_moduli_64 c = firstn (k - i) l
           /\ rq_moduli_64 e = firstn (k - i) l ++ firstn (k - i + 1) (skipn k l).
Proof.
  intros pr env k n bd l [PE DR] Hn Hk K57 [SL [FL HL]] LL D1 DF. change (ddeg n) in Hn. rewrite last_nth in HL. rewrite LL in HL.
  assert (N1 : (1 <= n)%nat) by (clear - Hn; destruct Hn as [-> |[-> |[-> | ->]]]; lia).
  assert (EO : env_ok env) by (split; auto; intros x Hx H; apply PE; auto).
  set (ms := firstn k l). set (ext := skipn k (firstn (2 * k + 1) l)).
  assert (EA : ms ++ ext = firstn (2 * k + 1) l).
  { unfold ms, ext. replace (firstn k l) with (firstn k (firstn (2 * k + 1) l)) by (rewrite firstn_firstn; f_equal; lia). apply firstn_skipn. }
  assert (LM : length ms = k) by (unfold ms; rewrite firstn_length_le; lia).
  assert (LX : length ext = (length ms + 1)%nat) by (unfold ext; rewrite skipn_length, firstn_length_le; lia).
  assert (P1153 : prime 1153) by (apply isp_sound; vm_compute; reflexivity).
  assert (HD : exists Lg, (3 <= Lg)%nat /\ n = (2 ^ Lg)%nat).
  { clear - Hn. destruct Hn as [-> |[-> |[-> | ->]]]; [exists 3%nat|exists 4%nat|exists 5%nat|exists 6%nat]; split; auto. }
  assert (HA : forall q, In q (ms ++ ext) -> 2 <= q < 2 ^ 62 /\ ntt_possible env q n).
  { intros q Hq. rewrite EA in Hq. pose proof (firstn_in _ _ _ Hq) as Hl. rewrite Forall_forall in FL, DF. specialize (FL q Hl). specialize (DF q Hl).
    pose proof (np_range _ _ FL) as R. destruct FL as [F1 [F2 F3]]. change (2 ^ 62) with 4611686018427387904. split; [lia|].
    split; [exact HD|]. split; [exact F3|]. split; [apply PE; [lia|exact F1]|exact DF]. }
  assert (Ht : ntt_possible env 1153 n).
  { split; [exact HD|]. split; [destruct Hn as [-> |[-> |[-> | ->]]]; reflexivity|]. split; [apply PE; [lia|exact P1153]|exact D1]. }
  destruct (bfv_new_from_some pr env ext n 1153 ms 10 bd EO) as [P [EP HLv]]; auto.
  { intros C. rewrite C in LM. cbn in LM. lia. }
  { lia. }
  { rewrite EA. apply NoDup_firstn_Z. clear - SL. induction SL as [|a l0 S IH F]; constructor; auto. intros C. rewrite Forall_forall in F. specialize (F a C). lia. }
  { split; [lia|auto]. }
  { intros q Hq. unfold ms in Hq. apply firstn_in in Hq. rewrite Forall_forall in FL. pose proof (np_range _ _ (FL q Hq)). lia. }
  exists P. split.
  { unfold bfv_default. rewrite (generate_moduli_d pr env n PE N1 l _ LL FL SL HL) by lia. cbn [bind unwrap]. unfold bfv_new.
    rewrite (gen_ext_d0 pr env n PE N1 l _ LL FL SL HL) by lia. cbn [bind]. exact EP. }
  destruct (bfv_new_from_fields _ _ _ _ _ _ _ _ _ EP) as [F1 [F2 [F3 F4]]]. split; auto. split; auto. split; auto. split; auto.
  intros i Hi. rewrite LM in HLv. destruct (HLv i Hi) as [c [e [cnt [H1 [H2 [H3 [H4 [H5 H6]]]]]]]]. exists c, e. split; auto. split; auto.
  assert (EM : firstn (k - i) ms = firstn (k - i) l) by (unfold ms; rewrite firstn_firstn; f_equal; lia).
  rewrite EM in *. split; auto. rewrite H4. f_equal. cbv zeta in H6.
  rewrite (bits62 n) in H6 by (apply Forall_forall; intros q Hq; rewrite Forall_forall in FL; apply FL; eapply firstn_in; eauto).
  rewrite firstn_length_le in H6 by lia. assert (EC : cnt = (k - i + 1)%nat) by lia. subst cnt.
  unfold ext. rewrite skipn_firstn_comm, firstn_firstn. f_equal. lia.
Qed.

(** C68: whenever default returns parameters, the degree is one of the four and
    the moduli are those primes. *)
Lemma C68_moduli_lem :
  forall pr env k n bd P l,
    env_exact env -> (k <= 31)%nat -> bfv_default pr env k n bd = Ok P -> largest_primes n l -> (k <= length l)%nat ->
    (n = 8 \/ n = 16 \/ n = 32 \/ n = 64)%nat /\ bp_degree P = n /\ bp_t P = 1153 /\ bp_moduli P = firstn k l.
Proof.
  intros pr env k n bd P l EX Hk E [SL [FL HL]] LL.
  destruct (default_inv pr env k n bd P EX Hk E) as [_ [D1 [D2 [D3 [_ [_ [_ [_ [Hn _]]]]]]]]].
  split; [exact Hn|]. split; [auto|]. split; [auto|]. destruct EX as [PE _]. rewrite last_nth in HL.
  assert (N1 : (1 <= n)%nat) by (clear - Hn; destruct Hn as [-> |[-> |[-> | ->]]]; lia).
  unfold bfv_default in E. rewrite (generate_moduli_d pr env n PE N1 l _ eq_refl FL SL HL) in E by lia. cbn [bind unwrap] in E.
  unfold bfv_new in E. binv E. apply bfv_new_from_fields in E. apply E.
Qed.

(** C68: there are enough such primes for six moduli. *)
Lemma C68_primes_lem :
  forall n, (n = 8 \/ n = 16 \/ n = 32 \/ n = 64)%nat -> exists l, largest_primes n l /\ length l = 13%nat.
Proof.
  intros n Hn. change (ddeg n) in Hn. exists (dprimes n). destruct (dprimes_ok n Hn) as [LL [FL [SL HL]]].
  split; [|auto]. split; [auto|]. split; [auto|]. intros x Hx H. rewrite last_nth, LL in H. apply HL; auto.
Qed.
Lemma firstn_largest n l j : (1 <= j <= length l)%nat -> largest_primes n l -> largest_primes n (firstn j l).
Proof.
  intros Hj [S [F C]]. split; [|split].
  - clear - S. revert j. induction S as [|a l S IH FA]; intros [|j]; cbn [firstn]; constructor; auto.
    apply Forall_forall. intros x Hx. rewrite Forall_forall in FA. apply FA. eapply firstn_in; eauto.
  - apply Forall_forall. intros x Hx. rewrite Forall_forall in F. apply F. eapply firstn_in; eauto.
  - intros x Hx H. rewrite last_nth, firstn_length_le, firstn_nth in H by lia.
    assert (I : In x l).
    { apply C; auto. rewrite last_nth. destruct (Nat.eq_dec (j - 1) (length l - 1)) as [<-|]; auto.
      pose proof (sorted_nth l S (j - 1) (length l - 1) ltac:(lia) ltac:(lia)). lia. }
    destruct (In_nth _ _ 0 I) as [i [Hi Ei]]. subst x. destruct (Nat.lt_ge_cases i j) as [K|K].
    + rewrite <- (firstn_nth l j i 0) by lia. apply nth_In. rewrite firstn_length. lia.
    + exfalso. destruct (Nat.eq_dec i (j - 1)); [lia|]. pose proof (sorted_nth l S (j - 1) i ltac:(lia) ltac:(lia)). lia.
Qed.

(** An environment that satisfies the hypotheses: exact primality, and the
    numbers 2, 3, 4, ... drawn. *)
Definition denv : Env := mkEnv (fun x => if prime_dec x then true else false) (fun p k => (2 + Z.of_nat k) mod p).
Lemma denv_exact : env_exact denv.
Proof.
  split; cbn [is_prime draw denv].
  - intros x _. destruct (prime_dec x); split; intros; try discriminate; auto.
  - intros p k Hp. apply Z.mod_pos_bound. lia.
Qed.
Fixpoint root_find (fuel : nat) (q : Z) (k : nat) : bool :=
  match fuel with
  | O => false
  | S f => if powm ((2 + Z.of_nat k) mod q) ((q - 1) / 2) q =? q - 1 then true else root_find f q (S k)
  end.
Lemma root_find_sound q : 2 < q -> forall fuel k, (k + fuel <= 100)%nat -> root_find fuel q k = true -> draws_root denv q.
Proof.
  intros Hq. induction fuel as [|f IH]; intros k Hk H; [discriminate|]. cbn [root_find] in H.
  destruct (powm _ _ q =? q - 1) eqn:E; [|apply (IH (S k)); auto; lia]. apply Z.eqb_eq in E.
  exists k. split; [lia|]. cbn [draw denv].
  assert (X : eqm q (powm ((2 + Z.of_nat k) mod q) ((q - 1) / 2) q) (((2 + Z.of_nat k) mod q) ^ ((q - 1) / 2))) by (apply powm_ok, Z.div_pos; lia).
  unfold eqm in X. rewrite <- X, E. apply Z.mod_small. lia.
Qed.
Lemma denv_roots n : ddeg n -> Forall (draws_root denv) (firstn 5 (dprimes n)) /\ draws_root denv 1153.
Proof.
  intros Hn. split.
  - assert (C : forallb (fun q => (2 <? q) && root_find 100 q 0) (firstn 5 (dprimes n)) = true) by (destruct Hn as [-> |[-> |[-> | ->]]]; vm_compute; reflexivity).
    rewrite forallb_forall in C. apply Forall_forall. intros q Hq. specialize (C q Hq). apply andb_true_iff in C. destruct C as [C1 C2].
    apply Z.ltb_lt in C1. apply (root_find_sound q C1 100 0); auto.
  - apply (root_find_sound 1153 ltac:(lia) 100 0); [lia|]. vm_compute. reflexivity.
Qed.
Lemma default_exists pr k n bd : ddeg n -> (1 <= k <= 2)%nat -> exists P, bfv_default pr denv k n bd = Ok P.
Proof.
  intros Hn Hk. destruct (denv_roots n Hn) as [R1 R2].
  destruct (dprimes_ok n Hn) as [LL [FL [SL HL]]].
  assert (LP : largest_primes n (dprimes n)) by (split; [auto|split; [auto|]]; intros x Hx H; rewrite last_nth, LL in H; apply HL; auto).
  destruct (C68_default_lem pr denv k n bd (firstn (2 * k + 1) (dprimes n)) denv_exact Hn ltac:(lia) ltac:(lia)) as [P [E _]]; eauto.
  - apply firstn_largest; auto. lia.
  - apply firstn_length_le. lia.
  - apply Forall_forall. intros q Hq. rewrite Forall_forall in R1. apply R1.
    replace (firstn (2 * k + 1) (dprimes n)) with (firstn (2 * k + 1) (firstn 5 (dprimes n))) in Hq by (rewrite firstn_firstn; f_equal; lia).
    eapply firstn_in; eauto.
Qed.
(** All the hypotheses of [C68_circuit_lem] together, for a product of two inputs. *)
Lemma circuit_hyps pr : exists P c w0 sk d K pts cts,
  bfv_default pr denv 2 8 (mkBD 4 5) = Ok P /\ level P 0 c /\ (forall j : nat, 0 <= w0 j < 2 ^ 64) /\ sk_generate pr P w0 = Ok sk
  /\ good_keys pr P 0 c sk d K /\ Forall2 (good_pt P 0) (cd_in d) pts
  /\ Forall2 (fun pt ct => exists rows w, wf_poly (mkPoly c Ntt rows) /\ (forall j, 0 <= w j < 2 ^ 64) /\ encrypt pr sk pt rows w = Ok ct) pts cts
  /\ cd_in d = [[2; 3]; [1; 0; 0; 1]] /\ cplain 1153 d (Times (Input 0) (Input 1)).
Proof.
  destruct (default_exists pr 2 8 (mkBD 4 5) ltac:(left; reflexivity) ltac:(lia)) as [P E].
  destruct (default_inv pr denv 2 8 _ P denv_exact ltac:(lia) E) as [B [D1 [D2 [D3 [D4 [D5 _]]]]]].
  pose proof (built_params_wf P B) as WB.
  destruct (wb_lv _ WB 0 ltac:(lia)) as [c LV]. pose proof (lv_ctx _ _ _ LV) as L. change (level P 0 c) in L.
  set (w0 := fun _ : nat => 7). assert (Hw : forall j : nat, 0 <= w0 j < 2 ^ 64) by (intros; unfold w0; lia).
  destruct (C30_keygen_lem pr P w0 B ltac:(lia) Hw) as [sk [ES [SP [SO _]]]].
  assert (RW : wf_poly (mkPoly c Ntt (p_rows (rep c Ntt (fun _ => 0))))).
  { exact (rep_wf c (wf_ctx_loc _ (lv_wf _ _ _ LV)) Ntt (fun _ => 0)). }
  assert (RK : rnd_ok c (mkRnd (fun _ => p_rows (rep c Ntt (fun _ => 0))) (fun _ => w0))) by (split; cbn [rnd_rows rnd_words]; auto).
  set (d := mkCData [[2; 3]; [1; 0; 0; 1]] [] [] []).
  destruct (C64_keys_exist_lem pr P 0 c sk d [] [] _ (fun _ => _) (fun _ => _) (fun _ => _) B L SP SO ltac:(lia) ltac:(lia) ltac:(right; lia) RK (fun _ => RK) (fun _ => RK) (fun _ => RK))
    as [r [gks [rs [_ [_ [_ GK]]]]]]; [constructor|constructor|constructor|].
  assert (GP : forall l, Forall (fun x => 0 <= x < 2 ^ 64) l -> (length l <= 8)%nat -> good_pt P 0 l (mkPt P 0 EncPoly l)).
  { intros l F Hl. split; auto. split; auto. split; auto. split; auto. lia. }
  assert (EN : forall l, Forall (fun x => 0 <= x < 2 ^ 64) l -> (length l <= 8)%nat -> exists ct, encrypt pr sk (mkPt P 0 EncPoly l) (p_rows (rep c Ntt (fun _ => 0))) w0 = Ok ct).
  { intros l F Hl. destruct (fresh_carried pr P c sk (mkPt P 0 EncPoly l) _ w0 B L SP SO ltac:(lia) eq_refl eq_refl F ltac:(cbn [pt_values]; lia) RW Hw) as [ct [E1 _]]. eauto. }
  assert (F1 : Forall (fun x => 0 <= x < 2 ^ 64) [2; 3]) by (repeat constructor; lia).
  assert (F2 : Forall (fun x => 0 <= x < 2 ^ 64) [1; 0; 0; 1]) by (repeat constructor; lia).
  destruct (EN _ F1 ltac:(cbn; lia)) as [ct1 E1]. destruct (EN _ F2 ltac:(cbn; lia)) as [ct2 E2].
  exists P, c, w0, sk, d, (mkKeys r gks rs []), [mkPt P 0 EncPoly [2; 3]; mkPt P 0 EncPoly [1; 0; 0; 1]], [ct1; ct2].
  split; auto. split; auto. split; auto. split; auto. split; auto.
  split; [constructor; [apply GP; auto; cbn; lia|constructor; [apply GP; auto; cbn; lia|constructor]]|].
  split; [constructor; [eauto|constructor; [eauto|constructor]]|]. split; [reflexivity|]. cbn [cplain cd_in d length]. lia.
Qed.

(*EXAMPLE
(** The hypotheses can be met for every listed degree, ... *)
Example C68_example n k bd pr : (n = 8 \/ n = 16 \/ n = 32 \/ n = 64)%nat -> (1 <= k <= 2)%nat ->
  env_exact denv /\ exists P, bfv_default pr denv k n bd = Ok P.
Proof. intros H1 H2. split; [exact denv_exact|exact (default_exists pr k n bd H1 H2)]. Qed.
(** ... and the theorem on circuits applies to a product of two encryptions. *)
Example C68_circuit_example pr : exists P sk K cts,
  (ct <- run_circ pr K cts (Times (Input 0) (Input 1)) ;; decrypt pr sk ct) = Ok (mkPt P 0 EncNone [2; 3; 0; 2; 3; 0; 0; 0]).
Proof.
  destruct (circuit_hyps pr) as [P [c [w0 [sk [d [K [pts [cts [H1 [H2 [H3 [H4 [H5 [H6 [H7 [H8 H9]]]]]]]]]]]]]]]]. exists P, sk, K, cts.
  rewrite (C68_circuit pr denv 2 8 (mkBD 4 5) P c w0 sk d K pts cts _ denv_exact ltac:(lia) H1 H2 H3 H4 H5 H6 H7 H9 ltac:(cbn [height]; lia)).
  cbn [cval]. rewrite H8. vm_compute. reflexivity.
Qed.
EXAMPLE*)
