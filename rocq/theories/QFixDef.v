(** Claim C88: the default parameters with larger moduli. *)
From Verif Require Import PBase NT Spec PSum MModulus MUtils MNtt MRns MRq MBfv MKsk MGalois MRgsw MCirc SpecCirc SpecDef PModulus PUtils PNttMath PNtt PNttNew PCrt PRns PRnsScale PUtils2 SpecRq SpecBfv SpecKsk PRing PRingT PRq PRq2 PRq4 PRq5 TestEnv QRq PBfv PBfv2 PBfv3 PBfv4 PBfv5 QBfv PMul PKsk PKsk2 QKsk QCirc TestBfv PPrime PDefData PDef PDefData2 PDef2 PSafe PSafe3 QNtt MFix5 QDef MEval MFix3 SpecEval PEval PEval2 PAsm PFold PFold2 PClient PRetr TestEval QEval SpecAddr QAddr MSwitch SpecSwitch QSwitch QBudget QFixPir MPvw SpecPvw QPvw.

(** Degrees the plaintext modulus t supports. *)
Definition deg_for (t : Z) (n : nat) : Prop := (exists g, (3 <= g)%nat /\ n = (2 ^ g)%nat) /\ (2 * Z.of_nat n | t - 1).
Lemma wf_deg_for P : wf_bfv P -> deg_for (bp_t P) (bp_degree P).
Proof.
  intros W. destruct (wb_ntt P W) as [op [L [psi [_ [EN [_ WN]]]]]]. destruct (wb_t P W) as [_ [_ D]].
  destruct (wb_lv P W 0 (wb_k P W)) as [c LV]. pose proof (cx_n8 c (wf_ctx_loc _ (lv_wf _ _ _ LV))) as N8. rewrite (lv_n _ _ _ LV) in N8.
  split; auto. exists L. split; auto. rewrite EN in N8. destruct (Nat.le_gt_cases 3 L); auto. exfalso.
  assert (2 ^ L <= 2 ^ 2)%nat by (apply Nat.pow_le_mono_r; lia). cbn in *. lia.
Qed.
Lemma deg_for_le t n : 1 < t -> deg_for t n -> 2 * Z.of_nat n <= t - 1.
Proof. intros H [_ D]. apply Z.divide_pos_le in D; lia. Qed.

Lemma with_inv pr env t k n bd P : env_exact env -> 1 < t <= 65537 -> (k <= 31)%nat -> bfv_default_with pr env t k n bd = Ok P ->
  built_params P /\ bp_degree P = n /\ bp_t P = t /\ bp_variance P = 10 /\ length (bp_moduli P) = k /\ (1 <= k)%nat
  /\ NoDup (bp_moduli P) /\ Forall (ntt_prime 62 n) (bp_moduli P) /\ deg_for t n
  /\ forall i c, level P i c -> exists ec, get (bp_e_ctxs P) i = Ok ec
       /\ length (rq_moduli_64 c) = (k - i)%nat /\ (i < k)%nat /\ Forall (ntt_prime 62 n) (rq_moduli_64 c)
       /\ exists ex, rq_moduli_64 ec = rq_moduli_64 c ++ ex /\ length ex = (k - i + 1)%nat /\ Forall (ntt_prime 62 n) ex.
Proof.
  intros [PE DR] Ht Hk E. unfold bfv_default_with in E. binv E. rename v into o, E0 into EG. binv E. rename v into ms, E0 into EU.
  assert (Eo : o = Some ms) by (destruct o; [apply Ok_inj in EU; subst; auto|discriminate]). subst o. clear EU.
  unfold bfv_new in E. binv E. rename v into ext, E0 into EX.
  assert (EO : env_ok env) by (split; auto; intros x Hx H; apply PE; auto).
  assert (Hn : (1 <= n)%nat).
  { destruct n as [|n]; [exfalso|lia]. unfold gen_ext in EX.
    assert (G0 : generate_prime pr (is_prime env) 62 0 (2 ^ 62) = Panic) by (destruct pr; reflexivity).
    replace (2 * length ms + 2)%nat with (S (2 * length ms + 1)) in EX by lia. cbn [gen_ext_loop length] in EX.
    replace (0 =? length ms + 1)%nat with false in EX by (symmetry; apply Nat.eqb_neq; lia).
    change (Z.of_nat (2 * 0)) with 0 in EX. rewrite G0 in EX. discriminate. }
  assert (GM : NoDup ms /\ Forall2 (fun s p => ntt_prime s n p) (repeat 62 k) ms).
  { destruct (C26_generate_moduli_lem pr env (repeat 62 k) n PE Hn) as [[ms' [E' [ND [F _]]]]|[E' _]].
    - apply Forall_forall. intros s Hs. apply repeat_spec in Hs. lia.
    - rewrite E' in EG. apply Ok_inj in EG. injection EG as <-. auto.
    - rewrite E' in EG. discriminate. }
  destruct GM as [ND F2]. assert (LM : k = length ms).
  { rewrite <- (repeat_length 62 k) at 1. clear - F2. induction F2; cbn [length]; congruence. }
  assert (FM : Forall (ntt_prime 62 n) ms).
  { clear - F2. remember (repeat 62 k) as r eqn:Er. revert k Er. induction F2 as [|s p l l' H _ IH]; intros k Er; [constructor|].
    destruct k; [discriminate|]. cbn [repeat] in Er. injection Er as -> Er. constructor; eauto. }
  assert (GX : length ext = (length ms + 1)%nat /\ Forall (ntt_prime 62 n) ext).
  { destruct (gen_ext_ok pr env PE n ms Hn) as [[e [E' [Le [_ Fe]]]]|[E' _]]; rewrite E' in EX; [|discriminate].
    apply Ok_inj in EX. subst e. split; auto. eapply Forall_impl; [|exact Fe]. cbv beta. tauto. }
  destruct GX as [LX FX].
  assert (B : built_params P).
  { exists pr, env, ext, n, t, ms, 10, bd. split; auto. split; [eapply Forall_impl; [|exact FM]; cbv beta; intros q Hq; apply np_range in Hq; lia|].
    split; [eapply Forall_impl; [|exact FX]; cbv beta; intros q Hq; apply np_range in Hq; lia|]. split; [lia|]. split; auto.
    intros q Hq. rewrite Forall_forall in FM. specialize (FM q Hq). apply np_range in FM. lia. }
  destruct (bfv_new_from_fields _ _ _ _ _ _ _ _ _ E) as [F1 [F3 [F4 F5]]].
  pose proof (built_params_wf P B) as WB. pose proof (wb_k P WB) as K1. rewrite F4 in K1.
  split; auto. split; auto. split; auto. split; auto. rewrite F4. split; [lia|]. split; [lia|]. split; auto. split; auto.
  split; [rewrite <- F1, <- F3; apply wf_deg_for; auto|].
  intros i c LV0. destruct (level_wf P i c WB LV0) as [Hi LV]. rewrite F4 in Hi.
  destruct (lv_mu _ _ _ LV) as [mu [ec [ex0 [_ [GE [_ [_ [_ [ME _]]]]]]]]].
  pose proof (lv_ms _ _ _ LV) as MC. rewrite F4 in MC.
  assert (FC : Forall (ntt_prime 62 n) (firstn (length ms - i) ms)).
  { apply Forall_forall. intros q Hq. rewrite Forall_forall in FM. apply FM. eapply firstn_in; eauto. }
  assert (LC : length (firstn (length ms - i) ms) = (k - i)%nat) by (rewrite firstn_length; lia).
  destruct (bfv_new_from_ext pr env ext n t ms 10 bd P EO) with (i := i) (e := ec) as [cnt [MX [CL CB]]]; auto.
  { eapply Forall_impl; [|exact FM]. cbv beta. intros q Hq. apply np_range in Hq. change (2 ^ 62) with 4611686018427387904. lia. }
  { eapply Forall_impl; [|exact FX]. cbv beta. intros q Hq. apply np_range in Hq. lia. }
  { lia. }
  cbv zeta in CB. rewrite (bits62 n) in CB by auto. rewrite LC in CB. assert (EC : cnt = (k - i + 1)%nat) by lia.
  exists ec. rewrite MC. split; auto. split; auto. split; [lia|]. split; auto. exists (firstn cnt ext). split; auto.
  split; [rewrite firstn_length; lia|]. apply Forall_forall. intros q Hq. rewrite Forall_forall in FX. apply FX. eapply firstn_in; eauto.
Qed.
Lemma with_level pr env t k n bd P i c : env_exact env -> 1 < t <= 65537 -> (k <= 31)%nat -> bfv_default_with pr env t k n bd = Ok P -> level P i c ->
  small_basis (rq_moduli_64 c) /\ 2 * bp_t P <= cx_q c 0 /\ 2 ^ (61 * Z.of_nat (k - i)) <= cx_Q c
  /\ ks_bound c 20 <= Z.of_nat n * 20 * (Z.of_nat (k - i) * 4611686018427387904)
  /\ exists ec, get (bp_e_ctxs P) i = Ok ec /\ small_basis (rq_moduli_64 ec) /\ 2 * Z.of_nat (bp_degree P) * (cx_Q c * cx_Q c) <= cx_Q ec.
Proof.
  intros EX Ht Hk E L. destruct (with_inv pr env t k n bd P EX Ht Hk E) as [B [D1 [D2 [D3 [D4 [D5 [D6 [D7 [D8 HL]]]]]]]]].
  destruct (HL i c L) as [ec [GE [LC [Hik [FC [ex [ME [LE FE]]]]]]]]. assert (Hk1 : (1 <= k - i <= 31)%nat) by lia. clear HL.
  remember (k - i)%nat as k' eqn:Ek. clear Ek.
  assert (SBG : forall l, Forall (ntt_prime 62 n) l -> (length l <= 64)%nat -> small_basis l).
  { intros l FL LL q Hq. rewrite Forall_forall in FL. specialize (FL q Hq). apply np_range in FL.
    replace (2 ^ 68) with (4611686018427387904 * 64) by reflexivity. apply Z.mul_le_mono_nonneg; lia. }
  pose proof (built_params_wf P B) as WB. destruct (level_wf P i c WB L) as [_ LV]. pose proof (cx_n8 c (wf_ctx_loc _ (lv_wf _ _ _ LV))) as N8.
  pose proof (zprod_bounds n _ FC) as ZC. rewrite LC in ZC.
  split; [apply SBG; auto; lia|]. split.
  { unfold cx_q. rewrite D2. rewrite Forall_forall in FC. assert (I : In (nth 0 (rq_moduli_64 c) 1) (rq_moduli_64 c)) by (apply nth_In; lia).
    specialize (FC _ I). apply np_range in FC. lia. }
  split; [apply ZC|]. split.
  { unfold ks_bound. rewrite (lv_n _ _ _ LV), D1. apply Z.mul_le_mono_nonneg_l; [lia|].
    unfold cx_k, cx_q. rewrite LC. clear - FC LC.
    assert (G : forall j, (j <= k')%nat -> sumn j (fun i => nth i (rq_moduli_64 c) 1) <= Z.of_nat j * 4611686018427387904).
    { induction j as [|j IH]; intros Hj; cbn [sumn]; [lia|]. specialize (IH ltac:(lia)).
      assert (I : In (nth j (rq_moduli_64 c) 1) (rq_moduli_64 c)) by (apply nth_In; lia).
      rewrite Forall_forall in FC. specialize (FC _ I). apply np_range in FC. lia. }
    apply G; lia. }
  exists ec. split; auto. split; [apply SBG; [rewrite ME; apply Forall_app; auto|rewrite ME, app_length; lia]|].
  unfold cx_Q at 3. rewrite ME, zprod_app. fold (cx_Q c). pose proof (zprod_bounds n _ FE) as [ZE _]. rewrite LE in ZE.
  rewrite D1. unfold cx_Q in *. set (Q := zprod (rq_moduli_64 c)) in *. set (R := zprod ex) in *.
  assert (N64 : Z.of_nat n <= 32768) by (pose proof (deg_for_le t n ltac:(lia) D8); lia).
  assert (Q0 : 0 <= Q) by (apply Z.le_trans with (2 ^ (61 * Z.of_nat k')); [apply Z.pow_nonneg; lia|apply ZC]).
  assert (G : 65536 * Q <= R).
  { apply Z.le_trans with (2 ^ 16 * 2 ^ (62 * Z.of_nat k')); [apply Z.mul_le_mono_nonneg; lia|]. rewrite <- Z.pow_add_r by lia.
    eapply Z.le_trans; [|exact ZE]. apply Z.pow_le_mono_r; lia. }
  clearbody Q R. clear - G Q0 N64. rewrite Z.mul_assoc, (Z.mul_comm _ Q). apply Z.mul_le_mono_nonneg_l; auto. nia.
Qed.

(** Noise of circuits of bounded height, degrees up to 4096. *)
Definition gnoise (k : nat) (h : nat) : Z := Z.of_nat k * 2 ^ (58 + 45 * Z.of_nat h).
Lemma gnoise_S k h : gnoise k (S h) = 35184372088832 * gnoise k h.
Proof. unfold gnoise. replace (58 + 45 * Z.of_nat (S h)) with (45 + (58 + 45 * Z.of_nat h)) by lia. rewrite Z.pow_add_r by lia. change (2 ^ 45) with 35184372088832. ring. Qed.
Lemma gnoise_low k h : Z.of_nat k * 288230376151711744 <= gnoise k h.
Proof. unfold gnoise. apply Z.mul_le_mono_nonneg_l; [lia|]. change 288230376151711744 with (2 ^ 58). apply Z.pow_le_mono_r; lia. Qed.
Lemma gnoise_mono k h h' : (h <= h')%nat -> gnoise k h <= gnoise k h'.
Proof. intros H. unfold gnoise. apply Z.mul_le_mono_nonneg_l; [lia|]. apply Z.pow_le_mono_r; lia. Qed.
Lemma cnoise_height4 n k KB d e : (1 <= n <= 64 * 64)%nat -> (1 <= k)%nat -> 0 <= KB <= Z.of_nat n * 20 * (Z.of_nat k * 4611686018427387904) ->
  cplain 65537 d e -> 0 <= cnoise n 65537 (65537 * 22) (20 * Z.of_nat n) KB d e <= gnoise k (height e).
Proof.
  intros Hn Hk HK. set (N := Z.of_nat n) in *. assert (HN : 1 <= N <= 4096) by lia. set (kk := Z.of_nat k) in *. assert (Kk : 1 <= kk) by lia.
  assert (HKB : KB <= 81920 * 4611686018427387904 * kk).
  { eapply Z.le_trans; [apply HK|]. clear - HN Kk. nia. }
  assert (TW : forall h, 65537 * KB <= 1099511627776 * gnoise k h).
  { intros h. pose proof (gnoise_low k h) as LO. fold kk in LO. clear - HKB LO. lia. }
  assert (ML : forall f x M, 0 <= f <= 4096 * 65537 -> 0 <= x <= M -> 0 <= f * x <= 268439552 * M) by (clear; intros; nia).
  induction e as [j|a IHa b IHb|a IHa b IHb|a IHa b IHb|a IHa j|a IHa z|a IHa j|a IHa j]; cbn [cplain cnoise height]; intros H.
  - pose proof (gnoise_low k 0). fold kk in H0. lia.
  - destruct H as [Ha Hb]. specialize (IHa Ha). specialize (IHb Hb). rewrite gnoise_S.
    pose proof (gnoise_mono k (height a) (Nat.max (height a) (height b)) ltac:(lia)). pose proof (gnoise_mono k (height b) (Nat.max (height a) (height b)) ltac:(lia)). lia.
  - destruct H as [Ha Hb]. specialize (IHa Ha). specialize (IHb Hb). rewrite gnoise_S.
    pose proof (gnoise_mono k (height a) (Nat.max (height a) (height b)) ltac:(lia)). pose proof (gnoise_mono k (height b) (Nat.max (height a) (height b)) ltac:(lia)). lia.
  - destruct H as [Ha Hb]. specialize (IHa Ha). specialize (IHb Hb). rewrite gnoise_S.
    pose proof (gnoise_mono k (height a) (Nat.max (height a) (height b)) ltac:(lia)) as Ma. pose proof (gnoise_mono k (height b) (Nat.max (height a) (height b)) ltac:(lia)) as Mb.
    set (h := Nat.max (height a) (height b)) in *. pose proof (TW h) as T. pose proof (gnoise_low k h) as LO. fold kk in LO.
    unfold mul_noise. set (x := Z.max _ _). assert (HX : 0 <= x <= gnoise k h) by (unfold x; lia). clearbody x.
    fold N. set (M := gnoise k h) in *. clearbody M. clear - HN Kk HX T LO HK.
    assert (A1 : 0 <= N * 65537 * x * (20 * N + 5) <= 21991910297600 * M).
    { replace (N * 65537 * x * (20 * N + 5)) with ((N * (20 * N + 5) * 65537) * x) by ring.
      assert (0 <= N * (20 * N + 5) * 65537 <= 21991910297600) by nia. nia. }
    assert (A2 : 0 <= N * x <= 4096 * M) by nia. assert (A3 : 0 <= 20 * N * (20 * N) <= 6710886400) by nia. lia.
  - destruct H as [Ha [_ HF]]. specialize (IHa Ha). rewrite gnoise_S. pose proof (l1_coeffs n 65537 _ ltac:(lia) HF) as L1. fold N in L1.
    pose proof (l1_nonneg n (coeffs (nth j (cd_pt d) []))) as L0. pose proof (ML (l1norm n (coeffs (nth j (cd_pt d) []))) _ _ ltac:(lia) IHa). lia.
  - destruct H as [Ha Hz]. specialize (IHa Ha). rewrite gnoise_S. pose proof (ML (Z.abs z) _ _ ltac:(lia) IHa). lia.
  - destruct H as [Ha _]. specialize (IHa Ha). rewrite gnoise_S. pose proof (TW (height a)). lia.
  - destruct H as [Ha [_ HF]]. specialize (IHa Ha). rewrite gnoise_S. pose proof (l1_coeffs n 65537 _ ltac:(lia) HF) as L1. fold N in L1.
    pose proof (l1_nonneg n (coeffs (nth j (cd_sel d) []))) as L0. pose proof (ML (l1norm n (coeffs (nth j (cd_sel d) []))) _ _ ltac:(lia) IHa). pose proof (TW (height a)). lia.
Qed.
Lemma cfits_height4 n k KB Q d e : (1 <= n <= 64 * 64)%nat -> (1 <= k)%nat -> 0 <= KB <= Z.of_nat n * 20 * (Z.of_nat k * 4611686018427387904) ->
  cplain 65537 d e -> gnoise k (height e) <= Q -> cfits n Q 65537 (65537 * 22) (20 * Z.of_nat n) KB d e.
Proof.
  intros Hn Hk HK. induction e as [j|a IHa b IHb|a IHa b IHb|a IHa b IHb|a IHa j|a IHa z|a IHa j|a IHa j]; cbn [cplain cfits height]; intros H HQ; auto.
  all: try (destruct H as [Ha Hb]).
  1,2,3: pose proof (gnoise_mono k (height a) (S (Nat.max (height a) (height b))) ltac:(lia)) as Ma; pose proof (gnoise_mono k (height b) (S (Nat.max (height a) (height b))) ltac:(lia)) as Mb.
  1,2: split; [apply IHa|apply IHb]; auto; lia.
  - split; [apply IHa; auto; lia|]. split; [apply IHb; auto; lia|].
    pose proof (cnoise_height4 n k KB d a Hn Hk HK Ha). pose proof (cnoise_height4 n k KB d b Hn Hk HK Hb). lia.
  - pose proof (gnoise_mono k (height a) (S (height a)) ltac:(lia)). split; [apply IHa; auto; lia|tauto].
  - pose proof (gnoise_mono k (height a) (S (height a)) ltac:(lia)). apply IHa; auto; lia.
  - pose proof (gnoise_mono k (height a) (S (height a)) ltac:(lia)). split; [apply IHa; auto; lia|tauto].
  - pose proof (gnoise_mono k (height a) (S (height a)) ltac:(lia)). split; [apply IHa; auto; lia|tauto].
Qed.
Lemma gnoise_fits k h Q : (3 * h + 4 <= 4 * k)%nat -> 2 ^ (61 * Z.of_nat k) <= Q -> 4 * gnoise k h <= Q.
Proof.
  intros Hh HQ. eapply Z.le_trans; [|exact HQ]. unfold gnoise.
  assert (H1 : 58 + 45 * Z.of_nat h <= 60 * Z.of_nat k - 2) by lia. assert (Hx : 1 <= Z.of_nat k) by lia.
  set (x := Z.of_nat k) in *. set (y := 58 + 45 * Z.of_nat h) in *. assert (Y0 : 0 <= y) by (unfold y; lia). clearbody x y. clear - H1 Hx Y0.
  assert (X2 : x <= 2 ^ x) by (apply Z.lt_le_incl, Z.pow_gt_lin_r; lia).
  apply Z.le_trans with (2 ^ 2 * (2 ^ x * 2 ^ (60 * x - 2))).
  { change (2 ^ 2) with 4. apply Z.mul_le_mono_nonneg_l; [lia|]. apply Z.mul_le_mono_nonneg; [lia|lia|apply Z.pow_nonneg; lia|apply Z.pow_le_mono_r; lia]. }
  rewrite <- !Z.pow_add_r by lia. apply Z.pow_le_mono_r; lia.
Qed.
Lemma sf_with pr env t n d bd : Z.of_nat d < 2 ^ 64 -> safe (bfv_default_with pr env t n d bd) bfv_shape.
Proof.
  intros Hd. unfold bfv_default_with. apply safe_any; [auto with sf|]. intros o. apply safe_any; [auto with sf|]. intros ms.
  apply sf_bfv_new; auto.
Qed.

(** C88: for degrees above 2^15 the repaired default panics. *)
Lemma C88_degree_lem :
  forall pr env k n bd, 2 ^ 16 <= Z.of_nat n -> Z.of_nat n < 2 ^ 64 -> bfv_default_fixed pr env k n bd = Panic.
Proof.
  intros pr env k n bd Hn H64. pose proof (sf_with pr env 65537 k n bd H64) as SF.
  unfold bfv_default_fixed. destruct (bfv_default_with pr env 65537 k n bd) as [P| | |] eqn:E; try contradiction; [exfalso|reflexivity].
  unfold bfv_default_with in E. binv E. binv E. unfold bfv_new in E. binv E. unfold bfv_new_from in E.
  repeat (apply bind_inv in E; let x := fresh "x" in destruct E as [x [? E]]).
  match goal with H1 : modulus_new 65537 = Ok ?m, H2 : ntt_new pr env ?m n = Ok ?o |- _ => rename m into tm, o into op, H1 into ET, H2 into EN end.
  destruct (C11_guard_lem pr env 65537 tm n op ltac:(lia) ET EN) as [[L [HL EL]] [HM _]].
  assert (D : (2 * Z.of_nat n | 65536)).
  { apply Z.mod_divide; [lia|]. change 65536 with (65537 - 1). rewrite Zminus_mod, HM, (Z.mod_small 1) by lia. reflexivity. }
  apply Z.divide_pos_le in D; lia.
Qed.

(** C88: under the repaired default every fresh encryption decrypts to its
    message, for every degree it accepts, every key and all randomness. *)
Lemma C88_encrypt_lem :
  forall pr env k n bd P c w0 sk pt rows w,
    env_exact env -> (k <= 31)%nat -> bfv_default_fixed pr env k n bd = Ok P -> level P 0 c ->
    (forall j, 0 <= w0 j < 2 ^ 64) -> sk_generate pr P w0 = Ok sk ->
    pt_params pt = P -> pt_level pt = 0%nat -> Forall (fun x => 0 <= x < 2 ^ 64) (pt_values pt) -> (length (pt_values pt) <= n)%nat ->
    wf_poly (mkPoly c Ntt rows) -> (forall j, 0 <= w j < 2 ^ 64) ->
    (ct <- encrypt pr sk pt rows w ;; decrypt pr sk ct)
    = Ok (mkPt P 0 EncNone (map (fun j => nth j (pt_values pt) 0 mod 65537) (seq 0 n))).
Proof.
  intros pr env k n bd P c w0 sk pt rows w EX Hk E L Hw0 ES PP PL PV PN WR Hw.
  destruct (with_inv pr env 65537 k n bd P EX ltac:(lia) Hk E) as [B [D1 [D2 [D3 [D4 [D5 _]]]]]].
  destruct (with_level pr env 65537 k n bd P 0 c EX ltac:(lia) Hk E L) as [SB [Hq [HQ _]]]. rewrite Nat.sub_0_r in *.
  destruct (C30_keygen_lem pr P w0 B ltac:(lia) Hw0) as [sk' [ES' [SP [SO _]]]]. rewrite ES in ES'. apply Ok_inj in ES'. subst sk'.
  destruct (C30_encrypt_decrypt_lem pr P c sk pt rows w B L SP SO PP PL PV ltac:(lia) WR Hw ltac:(lia) SB Hq) as [ct [E1 E2]].
  { rewrite D2, D3. assert (2 ^ 61 <= cx_Q c). { eapply Z.le_trans; [|exact HQ]. apply Z.pow_le_mono_r; lia. }
    change (2 ^ 61) with 2305843009213693952 in H. change (2 ^ 54) with 18014398509481984. lia. }
  rewrite E1. cbn [bind]. rewrite E2, D1, D2. reflexivity.
Qed.

(** C88: under the repaired default with k >= 2 moduli and degree up to 4096,
    every circuit of height h with 3h + 4 <= 4k decrypts to its value. *)
Lemma C88_circuit_lem :
  forall pr env k n bd P c w0 sk d K pts cts e,
    env_exact env -> (2 <= k <= 31)%nat -> bfv_default_fixed pr env k n bd = Ok P -> level P 0 c ->
    (forall j, 0 <= w0 j < 2 ^ 64) -> sk_generate pr P w0 = Ok sk ->
    good_keys pr P 0 c sk d K -> Forall2 (good_pt P 0) (cd_in d) pts ->
    Forall2 (fun pt ct => exists rows w, wf_poly (mkPoly c Ntt rows) /\ (forall j, 0 <= w j < 2 ^ 64) /\ encrypt pr sk pt rows w = Ok ct) pts cts ->
    cplain 65537 d e -> (3 * height e + 4 <= 4 * k)%nat -> Z.of_nat n <= 4096 ->
    (ct <- run_circ pr K cts e ;; decrypt pr sk ct)
    = Ok (mkPt P 0 EncNone (map (fun j => cval n d e j mod 65537) (seq 0 n))).
Proof.
  intros pr env k n bd P c w0 sk d K pts cts e EX Hk E L Hw0 ES GK HI HC HP HH H4096.
  destruct (with_inv pr env 65537 k n bd P EX ltac:(lia) ltac:(lia) E) as [B [D1 [D2 [D3 [D4 [D5 [_ [_ [DG _]]]]]]]]].
  destruct (with_level pr env 65537 k n bd P 0 c EX ltac:(lia) ltac:(lia) E L) as [SB [Hq [HQ [HK [ec HE]]]]]. rewrite Nat.sub_0_r in *.
  destruct (C30_keygen_lem pr P w0 B ltac:(lia) Hw0) as [sk' [ES' [SP [SO [SL SF]]]]]. rewrite ES in ES'. apply Ok_inj in ES'. subst sk'.
  assert (Hn : (1 <= n <= 64 * 64)%nat) by (destruct DG as [[g [G3 EG]] _]; pose proof (Nat.pow_nonzero 2 g ltac:(lia)); lia).
  pose proof (built_params_wf P B) as WB. destruct (level_wf P 0 c WB L) as [_ LV].
  assert (K0 : 0 <= ks_bound c 20).
  { unfold ks_bound. apply Z.mul_nonneg_nonneg; [lia|]. apply sumn_nonneg. intros i Hi. pose proof (cx_range c (wf_ctx_loc _ (lv_wf P 0 c LV)) i Hi). lia. }
  assert (L1 : l1norm (bp_degree P) (sk_fun sk) <= 20 * Z.of_nat n).
  { unfold l1norm. rewrite D1. clear - SF D3. rewrite D3 in SF. induction n as [|m IH]; cbn [sumn]; [lia|].
    assert (Z.abs (sk_fun sk m) <= 20); [|lia]. unfold sk_fun. destruct (nth_in_or_default m (sk_coeffs sk) 0) as [I| ->]; [|lia].
    rewrite Forall_forall in SF. specialize (SF _ I). lia. }
  pose proof (gnoise_fits k (height e) (cx_Q c) HH HQ) as HF. pose proof (gnoise_low k (height e)) as HLo.
  pose proof (cnoise_height4 n k (ks_bound c 20) d e Hn ltac:(lia) (conj K0 HK) HP) as CN.
  pose proof (C64_program_lem pr P c ec sk d K pts cts (20 * Z.of_nat n) e) as R. rewrite D1, D2, D3 in R.
  change (2 * 10) with 20 in R. change (65537 * (20 + 2)) with (65537 * 22) in R. change (2 ^ 54) with 18014398509481984 in R.
  rewrite D1 in L1. rewrite D2 in Hq. rewrite D1 in HE.
  apply R; clear R; auto; try lia; try tauto.
  apply (cfits_height4 n k); auto; lia.
Qed.

(** C88: [default] with any prime plaintext modulus t that is 1 modulo 2n succeeds
    under the conditions of C68, for every power of two n >= 8. *)
Lemma C88_default_lem :
  forall pr env t k n bd l,
    env_exact env -> prime t -> t < 2 ^ 61 -> t mod (2 * Z.of_nat n) = 1 -> (exists g, (3 <= g)%nat /\ n = (2 ^ g)%nat) -> (1 <= k)%nat -> Z.of_nat k < 2 ^ 57 ->
    largest_primes n l -> length l = (2 * k + 1)%nat ->
    draws_root env t -> Forall (draws_root env) l ->
    exists P, bfv_default_with pr env t k n bd = Ok P
      /\ bp_degree P = n /\ bp_t P = t /\ bp_variance P = 10 /\ bp_moduli P = firstn k l
      /\ forall i, (i < k)%nat -> exists c e, level P i c /\ get (bp_e_ctxs P) i = Ok e
           /\ rq_moduli_64 c = firstn (k - i) l
           /\ rq_moduli_64 e = firstn (k - i) l ++ firstn (k - i + 1) (skipn k l).
Proof.
  intros pr env t k n bd l [PE DR] PT T61 TM HD Hk K57 [SL [FL HL]] LL D1 DF. rewrite last_nth in HL. rewrite LL in HL.
  assert (N1 : (1 <= n)%nat) by (clear - HD; destruct HD as [g [_ ->]]; pose proof (Nat.pow_nonzero 2 g ltac:(lia)); lia).
  assert (EO : env_ok env) by (split; auto; intros x Hx H; apply PE; auto).
  set (ms := firstn k l). set (ext := skipn k (firstn (2 * k + 1) l)).
  assert (EA : ms ++ ext = firstn (2 * k + 1) l).
  { unfold ms, ext. replace (firstn k l) with (firstn k (firstn (2 * k + 1) l)) by (rewrite firstn_firstn; f_equal; lia). apply firstn_skipn. }
  assert (LM : length ms = k) by (unfold ms; rewrite firstn_length_le; lia).
  assert (LX : length ext = (length ms + 1)%nat) by (unfold ext; rewrite skipn_length, firstn_length_le; lia).
  assert (HA : forall q, In q (ms ++ ext) -> 2 <= q < 2 ^ 62 /\ ntt_possible env q n).
  { intros q Hq. rewrite EA in Hq. pose proof (firstn_in _ _ _ Hq) as Hl. rewrite Forall_forall in FL, DF. specialize (FL q Hl). specialize (DF q Hl).
    pose proof (np_range _ _ FL) as R. destruct FL as [F1 [F2 F3]]. change (2 ^ 62) with 4611686018427387904. split; [lia|].
    split; [exact HD|]. split; [exact F3|]. split; [apply PE; [lia|exact F1]|exact DF]. }
  pose proof (prime_ge_2 t PT) as T2. change (2 ^ 61) with 2305843009213693952 in T61.
  assert (Ht : ntt_possible env t n).
  { split; [exact HD|]. split; [exact TM|]. split; [apply PE; [lia|exact PT]|exact D1]. }
  destruct (bfv_new_from_some pr env ext n t ms 10 bd EO) as [P [EP HLv]]; auto.
  { intros C. rewrite C in LM. cbn in LM. lia. }
  { lia. }
  { rewrite EA. apply NoDup_firstn_Z. clear - SL. induction SL as [|a l0 S IH F]; constructor; auto. intros C. rewrite Forall_forall in F. specialize (F a C). lia. }
  { change (2 ^ 62) with 4611686018427387904. split; [lia|auto]. }
  { intros q Hq. unfold ms in Hq. apply firstn_in in Hq. rewrite Forall_forall in FL. pose proof (np_range _ _ (FL q Hq)). lia. }
  exists P. split.
  { unfold bfv_default_with. rewrite (generate_moduli_d pr env n PE N1 l _ LL FL SL HL) by lia. cbn [bind unwrap]. unfold bfv_new.
    rewrite (gen_ext_d0 pr env n PE N1 l _ LL FL SL HL) by lia. cbn [bind]. exact EP. }
  destruct (bfv_new_from_fields _ _ _ _ _ _ _ _ _ EP) as [F1 [F2 [F3 F4]]]. split; auto. split; auto. split; auto. split; auto.
  intros i Hi. rewrite LM in HLv. destruct (HLv i Hi) as [c [e [cnt [H1 [H2 [H3 [H4 [H5 H6]]]]]]]]. exists c, e. split; auto. split; auto.
  assert (EM : firstn (k - i) ms = firstn (k - i) l) by (unfold ms; rewrite firstn_firstn; f_equal; lia).
  rewrite EM in *. split; auto. rewrite H4. f_equal. cbv zeta in H6.
  rewrite (bits62 n) in H6 by (apply Forall_forall; intros q Hq; rewrite Forall_forall in FL; apply FL; eapply firstn_in; eauto).
  rewrite firstn_length_le in H6 by lia. assert (EC : cnt = (k - i + 1)%nat) by lia. subst cnt.
  unfold ext. rewrite skipn_firstn_comm, firstn_firstn. f_equal. lia.
Qed.

(** C88: under the repaired default with four or more moduli and degree up to
    4096, the repaired retrieval returns the entry asked for, for every shape,
    every position, every key and all randomness. *)
Lemma C88_retrieve_lem :
  forall pr env k n bd P c w sk first dim d ix db rows0 w0 rndq rnd rnd0 rnd1,
    env_exact env -> (4 <= k <= 31)%nat -> bfv_default_fixed pr env k n bd = Ok P -> level P 0 c ->
    (forall j, 0 <= w j < 2 ^ 64) -> sk_generate pr P w = Ok sk ->
    wf_poly (mkPoly c Ntt rows0) -> (forall k, 0 <= w0 k < 2 ^ 64) -> rnd_ok c rndq ->
    (forall i, rnd_ok c (rnd i)) -> rnd_ok c rnd0 -> rnd_ok c rnd1 ->
    Z.of_nat n <= 4096 -> (2 <= dim)%nat -> (first + dim * d <= n)%nat ->
    length db = (first * dim ^ d)%nat -> Z.of_nat (length db) < 2 ^ 64 -> Forall (entry_ok n) db ->
    (ix < length db)%nat ->
    exists p, nth_error db ix = Some p
      /\ (enc <- client_encode_fixed (mkClient first dim) (address first dim d ix) (length db) ;;
          cts <- client_query pr sk P first enc rows0 w0 rndq ;;
          ev <- eval_build pr sk P rnd rnd0 rnd1 ;;
          srv <- server_new pr first dim db P ;;
          out <- server_decode_fixed pr srv cts ev P ;;
          mapM (decrypt pr sk) out)
         = Ok [mkPt P 0 EncNone (map (fun j => nth j (pt_values p) 0 mod 65537) (seq 0 n))].
Proof.
  intros pr env k n bd P c w sk first dim d ix db rows0 w0 rndq rnd rnd0 rnd1 EX Hk E L Hw ES WR Hw0 RQ HR R0 R1 H4096 Hd HN HL H64 HE Hix.
  destruct (with_inv pr env 65537 k n bd P EX ltac:(lia) ltac:(lia) E) as [B [D1 [D2 [D3 [D4 [D5 [D6 [D7 [D8 _]]]]]]]]].
  assert (Hn : (n <= 64 * 64)%nat) by lia.
  rewrite <- D1 in *. rewrite <- D2.
  assert (HF : Forall (fun q => 2 ^ 61 <= q < 2 ^ 62) (bp_moduli P)).
  { rewrite Forall_forall in *. intros q Hq. specialize (D7 q Hq). apply np_range in D7. exact D7. }
  assert (HK : (4 <= length (bp_moduli P) <= 64)%nat) by lia. assert (Ht : bp_t P <= 2 ^ 40) by lia. assert (Hv : 1 <= bp_variance P <= 16) by lia.
  destruct (l1_generated pr P w sk B Hv Hw ES) as [SP [SO L1]].
  pose proof (built_params_wf P B) as WB. destruct (level_wf P 0 c WB L) as [_ LV].
  destruct (level62 P 0 c B L HF (proj2 HK) Ht) as [F [SB [Hq [Q61 EK]]]].
  pose proof (cx_n8 c (wf_ctx_loc _ (lv_wf _ _ _ LV))) as N8. rewrite (lv_n _ _ _ LV) in N8.
  rewrite HL in Hix. destruct (C78_address_lem _ _ _ _ Hix) as [q0 [qs [EA [Hq0 [HQ [LK [EI _]]]]]]]. rewrite EA, <- EI. subst d. clear EA EI.
  assert (BN : 4 * retrieval_noise P c first dim (length qs) (32 * Z.of_nat (bp_degree P)) (2 ^ 64) <= cx_Q c).
  { apply retrieval_fits; auto; rewrite ?(lv_n _ _ _ LV); try lia. }
  assert (G : forall j p, get db j = Ok p -> nth_error db j = Some p) by (intros j p; unfold get; destruct (nth_error db j); [intros G; injection G as ->; reflexivity|discriminate]).
  destruct (C85_retrieve_lem pr P c sk first dim q0 qs db (2 ^ 64) (32 * Z.of_nat (bp_degree P)) rows0 w0 rndq rnd rnd0 rnd1) as [p [E1 E2]]; auto; try lia; try (right; lia).
  { intros p x Hp Hx. rewrite Forall_forall in HE. destruct (HE p Hp) as [V _]. rewrite Forall_forall in V. specialize (V x Hx). lia. }
  exists p. split; [apply G; exact E1|exact E2].
Qed.

(** C88: there are enough such primes for four moduli, for every degree from
    2^3 to 2^12. *)
Lemma C88_primes_lem :
  forall g, (3 <= g <= 12)%nat -> exists l, largest_primes (2 ^ g) l /\ length l = 9%nat.
Proof.
  intros g Hg. destruct (Nat.le_gt_cases g 6) as [G6|G6].
  - destruct (C68_primes_lem (2 ^ g)) as [l [LP LL]].
    { assert (g = 3 \/ g = 4 \/ g = 5 \/ g = 6)%nat as [-> |[-> |[-> | ->]]] by lia; cbn; auto. }
    exists (firstn 9 l). split; [apply firstn_largest; auto; lia|apply firstn_length_le; lia].
  - exists (eprimes g). destruct (eprimes_ok g ltac:(lia)) as [LL [FL [SL HL]]].
    split; [|auto]. split; [auto|]. split; [auto|]. intros x Hx H. rewrite last_nth, LL in H. apply HL; auto.
Qed.

Lemma prime_65537 : prime 65537.
Proof. apply isp_sound. vm_compute. reflexivity. Qed.
Lemma deg_65537 g : (g <= 15)%nat -> 65537 mod (2 * Z.of_nat (2 ^ g)) = 1.
Proof.
  intros Hg. rewrite pow_deg. assert (D : (2 ^ (Z.of_nat g + 1) | 65536)).
  { exists (2 ^ (15 - Z.of_nat g)). rewrite <- Z.pow_add_r by lia. replace (15 - Z.of_nat g + (Z.of_nat g + 1)) with 16 by lia. reflexivity. }
  destruct D as [z Hz]. change 65537 with (1 + 65536). rewrite Hz, Z.mod_add by (apply Z.pow_nonzero; lia).
  apply Z.mod_small. split; [lia|]. change 1 with (2 ^ 0) at 1. apply Z.pow_lt_mono_r; lia.
Qed.

(** C88: the repaired default succeeds for every power of two from 2^3 to 2^12 and
    up to four moduli, if the primality test is exact and the numbers drawn for
    65537 and for each of the 2k+1 largest primes contain a non-residue. *)
Lemma C88_fixed_lem :
  forall g, (3 <= g <= 12)%nat -> exists l, largest_primes (2 ^ g) l /\ length l = 9%nat
    /\ forall pr env k bd, (1 <= k <= 4)%nat -> env_exact env -> draws_root env 65537 -> Forall (draws_root env) (firstn (2 * k + 1) l) ->
         exists P, bfv_default_fixed pr env k (2 ^ g) bd = Ok P
           /\ bp_degree P = (2 ^ g)%nat /\ bp_t P = 65537 /\ bp_variance P = 10 /\ bp_moduli P = firstn k l.
Proof.
  intros g Hg. destruct (C88_primes_lem g Hg) as [l [LP LL]]. exists l. split; auto. split; auto. intros pr env k bd Hk EX D1 DF.
  assert (LP' : largest_primes (2 ^ g) (firstn (2 * k + 1) l)) by (apply firstn_largest; auto; lia).
  destruct (C88_default_lem pr env 65537 k (2 ^ g)%nat bd (firstn (2 * k + 1) l)) as [P [E [F1 [F2 [F3 [F4 _]]]]]]; auto; try lia.
  - exact prime_65537.
  - apply deg_65537. lia.
  - exists g. split; [lia|reflexivity].
  - apply firstn_length_le. lia.
  - exists P. split; [exact E|]. split; auto. split; auto. split; auto. rewrite F4, firstn_firstn. f_equal. lia.
Qed.

(** C88: the 1153 of the code is the instance t = 1153; a 65537 in its place is the
    only change. *)
Lemma C88_agree_lem :
  forall pr env k n bd, bfv_default_with pr env 1153 k n bd = bfv_default pr env k n bd
    /\ bfv_default_with pr env 65537 k n bd = bfv_default_fixed pr env k n bd.
Proof. intros. split; reflexivity. Qed.

(** C88: the repaired PVW default always decrypts correctly. *)
Lemma C88_pvw_lem :
  forall pr sk a w m e, let P := pvw_default_fixed in
    matrix (pv_q P) (pv_ell P) (pv_n P) sk -> matrix (pv_q P) (pv_m P) (pv_n P) a ->
    (forall l k, 0 <= w l k < 2 ^ 64) -> bits (pv_ell P) m -> bits (pv_m P) e ->
    (pk <- pvw_gen_pk pr sk P a w ;; ct <- pvw_encrypt pr pk P m e ;; pvw_decrypt pr sk P ct) = Ok m.
Proof.
  intros pr sk a w m e P HS HA HW HM HE. apply C48_safe_lem; auto; try (cbn [pv_q pv_variance P pvw_default_fixed pvw_default]; lia).
  cbn [pv_q pv_variance pv_m P pvw_default_fixed pvw_default]. rewrite Nat2Z.inj_mul. change (786433 / 4) with 196608. lia.
Qed.

(** Non-vacuity: parameters of degree 2^12 with four moduli. *)
Lemma denv_roots_e : Forall (draws_root denv) (firstn 9 (eprimes 12)).
Proof.
  assert (C : forallb (fun qk => (2 <? fst qk) && (snd qk <? 100)%nat && root_find 1 (fst qk) (snd qk)) (combine (firstn 9 (eprimes 12)) [5; 1; 1; 9; 9; 3; 1; 27; 1]%nat) = true)
    by (vm_compute; reflexivity).
  rewrite forallb_forall in C. apply Forall_forall. intros q Hq.
  assert (I : exists k, In (q, k) (combine (firstn 9 (eprimes 12)) [5; 1; 1; 9; 9; 3; 1; 27; 1]%nat)).
  { clear C. cbn [firstn eprimes eprimes4096] in Hq |- *. cbn [In combine] in *. destruct Hq as [H|[H|[H|[H|[H|[H|[H|[H|[H|[]]]]]]]]]]; subst q; eexists; eauto 12. }
  destruct I as [k I]. specialize (C _ I). cbn [fst snd] in C. rewrite !andb_true_iff in C. destruct C as [[C1 C2] C3].
  apply Z.ltb_lt in C1. apply Nat.ltb_lt in C2. apply (root_find_sound q C1 1 k); auto. lia.
Qed.
Lemma denv_65537 : draws_root denv 65537.
Proof. apply (root_find_sound 65537 ltac:(lia) 100 0); [lia|]. vm_compute. reflexivity. Qed.
Lemma fixed_exists pr bd : exists P, bfv_default_fixed pr denv 4 (2 ^ 12) bd = Ok P.
Proof.
  destruct (eprimes_ok 12 ltac:(lia)) as [LL [FL [SL HL]]].
  assert (LP : largest_primes (2 ^ 12) (eprimes 12)) by (split; [auto|split; [auto|]]; intros x Hx H; rewrite last_nth, LL in H; apply HL; auto).
  destruct (C88_default_lem pr denv 65537 4 (2 ^ 12)%nat bd (firstn 9 (eprimes 12)) denv_exact) as [P [E _]].

  all: first [(exists P; exact E)|exact prime_65537|exact denv_65537|exact denv_roots_e|(apply firstn_largest; [lia|exact LP])|(apply firstn_length_le; lia)|(apply deg_65537; lia)
             |(exists 12%nat; split; [lia|reflexivity])|lia].
Qed.
Definition fixed_db (P : BfvParams) : list Plaintext := map (fun i => mkPt P 0 EncPoly [Z.of_nat i; 7]) (seq 0 72).
Lemma fixed_hyps pr : exists P c w sk rows0 rnd, let db := fixed_db P in
  bfv_default_fixed pr denv 4 (2 ^ 12) (mkBD 4 5) = Ok P /\ level P 0 c /\ (forall j : nat, 0 <= w j < 2 ^ 64) /\ sk_generate pr P w = Ok sk
  /\ wf_poly (mkPoly c Ntt rows0) /\ rnd_ok c rnd
  /\ length db = (8 * 3 ^ 2)%nat /\ Forall (entry_ok (2 ^ 12)) db /\ (8 + 3 * 2 <= 2 ^ 12)%nat.
Proof.
  destruct (fixed_exists pr (mkBD 4 5)) as [P E].
  assert (G : (2 ^ 7 <= 2 ^ 12)%nat) by (apply Nat.pow_le_mono_r; clear; lia). change (2 ^ 7)%nat with 128%nat in G. set (n := (2 ^ 12)%nat) in *. clearbody n.
  destruct (with_inv pr denv 65537 4 n _ P denv_exact ltac:(lia) ltac:(lia) E) as [B [D1 [D2 [D3 [D4 [D5 [D6 [D7 _]]]]]]]].
  pose proof (built_params_wf P B) as WB.
  destruct (wb_lv _ WB 0 ltac:(lia)) as [c LV]. pose proof (lv_ctx _ _ _ LV) as L. change (level P 0 c) in L.
  set (w0 := fun _ : nat => 7). assert (Hw : forall j : nat, 0 <= w0 j < 2 ^ 64) by (intros; unfold w0; lia).
  destruct (C30_keygen_lem pr P w0 B ltac:(lia) Hw) as [sk [ES [SP [SO _]]]].
  assert (RW : wf_poly (mkPoly c Ntt (p_rows (rep c Ntt (fun _ => 0))))).
  { exact (rep_wf c (wf_ctx_loc _ (lv_wf _ _ _ LV)) Ntt (fun _ => 0)). }
  exists P, c, w0, sk, (p_rows (rep c Ntt (fun _ => 0))), (mkRnd (fun _ => p_rows (rep c Ntt (fun _ => 0))) (fun _ => w0)).
  cbv zeta. split; auto. split; auto. split; auto. split; auto. split; auto.
  split; [split; cbn [rnd_rows rnd_words]; auto|]. split; [reflexivity|]. split; [|lia].
  apply Forall_forall. intros p Hp. apply in_map_iff in Hp. destruct Hp as [i [<- Hi]]. apply in_seq in Hi.
  split; cbn [pt_values]; [|cbn [length]; lia]. repeat constructor; lia.
Qed.

(*EXAMPLE
(** The repaired default returns parameters for degree 4096; the default of the
    code panics there. *)
Example C88_example pr bd :
  env_exact denv /\ (exists P, bfv_default_fixed pr denv 4 (2 ^ 12) bd = Ok P) /\ bfv_default pr denv 4 (2 ^ 12) bd = Panic.
Proof.
  split; [exact denv_exact|]. split; [exact (fixed_exists pr bd)|].
  assert (G : (2 ^ 7 <= 2 ^ 12)%nat) by (apply Nat.pow_le_mono_r; lia).
  apply C68_large_degree_refuted_lem; [exact G|]. rewrite Nat2Z.inj_pow. apply Z.pow_lt_mono_r; lia.
Qed.
(** The theorem on retrieval applies to degree 4096 and a database of 8 x 3 x 3
    entries: asking for position 41 returns 41 + 7X. *)
Example C88_retrieve_example pr : exists P c sk rows0 w0 rnd, level P 0 c /\ bfv_default_fixed pr denv 4 (2 ^ 12) (mkBD 4 5) = Ok P
  /\ (enc <- client_encode_fixed (mkClient 8 3) (address 8 3 2 41) 72 ;;
      cts <- client_query pr sk P 8 enc rows0 w0 rnd ;;
      ev <- eval_build pr sk P (fun _ => rnd) rnd rnd ;;
      srv <- server_new pr 8 3 (fixed_db P) P ;;
      out <- server_decode_fixed pr srv cts ev P ;;
      mapM (decrypt pr sk) out)
     = Ok [mkPt P 0 EncNone (map (fun j => nth j [41; 7] 0 mod 65537) (seq 0 (2 ^ 12)))].
Proof.
  destruct (fixed_hyps pr) as [P [c [w [sk [rows0 [rnd [H1 [H2 [H3 [H4 [H5 [H6 [H7 [H8 H9]]]]]]]]]]]]]].
  exists P, c, sk, rows0, w, rnd. split; [exact H2|]. split; [exact H1|].
  destruct (C88_retrieve pr denv 4 (2 ^ 12)%nat (mkBD 4 5) P c w sk 8 3 2 41 (fixed_db P) rows0 w rnd (fun _ => rnd) rnd rnd) as [p [E1 E2]]; auto; try (clear; lia).
  - exact denv_exact.
  - rewrite H7. reflexivity.
  - rewrite H7. apply Nat.ltb_lt. reflexivity.
  - rewrite H7 in E2. injection E1 as <-. exact E2.
Qed.
(** 4096 rows with error 4 no longer change a bit: an error below q/4 = 196608 is harmless. *)
Example C88_pvw_example : 4 * Z.of_nat (pv_m pvw_default_fixed) < 196608 /\ 196608 = pv_q pvw_default_fixed / 4 /\ pv_q pvw_default / 4 = 4 * 4096.
Proof. repeat split; vm_compute; reflexivity. Qed.
EXAMPLE*)
