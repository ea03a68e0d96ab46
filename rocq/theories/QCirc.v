(** Claim C64: arbitrary circuits of homomorphic operations. *)
From Verif Require Import PBase NT Spec PSum MModulus MUtils MNtt MRns MRq MBfv MKsk MGalois MRgsw MCirc SpecCirc PModulus PUtils SpecRq SpecBfv SpecKsk PRing PRq PRq2 PRq3 PRq4 PRq5 QRq PBfv PBfv2 PBfv3 QBfv PKsk PGal PRingT PMul PMul2 PKsk2 QKsk TestEnv TestBfv.

Lemma forall2_nth {A B} (R : A -> B -> Prop) l l' k da : Forall2 R l l' -> (k < length l)%nat ->
  exists b, get l' k = Ok b /\ R (nth k l da) b.
Proof.
  intros H. revert k. induction H as [|a b l l' HR H IH]; intros k Hk; cbn [length] in Hk; [lia|].
  destruct k as [|k]; [exists b; split; auto; reflexivity|]. destruct (IH k ltac:(lia)) as [b' [E R']]. exists b'. split; auto.
Qed.

Lemma forall2_comp {A B C} (R : A -> B -> Prop) (S : B -> C -> Prop) (T : A -> C -> Prop) a b c :
  Forall2 R a b -> Forall2 S b c -> (forall x y z, R x y -> S y z -> T x z) -> Forall2 T a c.
Proof.
  intros H. revert c. induction H as [|x y a b HR H IH]; intros c HS HT; inversion HS; subst; constructor; eauto.
Qed.
Lemma mapM_forall2 {A B} (f : nat -> outcome B) (R : A -> B -> Prop) (da : A) l :
  (forall k, (k < length l)%nat -> exists y, f k = Ok y /\ R (nth k l da) y) -> exists ys, mapM f (seq 0 (length l)) = Ok ys /\ Forall2 R l ys.
Proof.
  intros H. assert (G : forall l s, (forall k, (k < length l)%nat -> exists y, f (s + k)%nat = Ok y /\ R (nth k l da) y) ->
                          exists ys, mapM f (seq s (length l)) = Ok ys /\ Forall2 R l ys).
  { clear. induction l as [|a l IH]; intros s H; cbn [length seq mapM]; [exists []; split; auto|].
    destruct (H 0%nat ltac:(cbn; lia)) as [y [E Ry]]. rewrite Nat.add_0_r in E. rewrite E. cbn [bind].
    destruct (IH (S s)) as [ys [E' R']].
    { intros k Hk. destruct (H (S k) ltac:(cbn; lia)) as [y' [E' Ry']]. exists y'. split; auto. rewrite Nat.add_succ_r in E'. exact E'. }
    rewrite E'. exists (y :: ys). split; auto. }
  apply (G l 0%nat). exact H.
Qed.

Lemma carries_modt n Q t f m m' E : (forall j, (j < n)%nat -> eqm t (m j) (m' j)) -> 1 <= t -> carries n Q t f m E -> carries n Q t f m' E.
Proof.
  intros H Ht C j Hj. rewrite (C j Hj). specialize (H j Hj). apply eqm_divide in H; [|lia]. destruct H as [z Hz].
  replace (m j) with (m' j + z * t) by lia. replace (Q * (m' j + z * t) + E j) with (Q * m' j + E j + z * (t * Q)) by ring.
  apply eqm_add_mult.
Qed.


Section Circ.
Variables (pr : profile) (P : BfvParams) (i : nat) (c ec : RqContext) (sk : SecretKey) (d : CData) (K : Keys) (cts : list Ct).
Variables (B S : Z).
Hypothesis (BP : built_params P) (L : level P i c) (SP : sk_params sk = P) (SO : sk_ok sk).
Hypothesis (Hv : 1 <= bp_variance P <= 16) (SB : small_basis (rq_moduli_64 c)).
Hypothesis (HM : get (bp_e_ctxs P) i = Ok ec /\ small_basis (rq_moduli_64 ec) /\ 2 * Z.of_nat (bp_degree P) * (cx_Q c * cx_Q c) <= cx_Q ec).
Hypothesis (HS : l1norm (bp_degree P) (sk_fun sk) <= S) (S60 : S < 2 ^ 54) (HB : 0 <= B).
Hypothesis (GK : good_keys pr P i c sk d K).
Let n := bp_degree P.
Let Q := cx_Q c.
Let t := bp_t P.
Let KB := ks_bound c (2 * bp_variance P).
Let ph fs := phase n (sk_fun sk) fs.

Definition carried (ct : Ct) (m : nat -> Z) (Bd : Z) : Prop :=
  exists f0 f1 E, ct = ct_of P i c [f0; f1] /\ carries n Q t (ph [f0; f1]) m E /\ forall j, (j < n)%nat -> Z.abs (E j) <= Bd.

Hypothesis (CI : Forall2 (fun l ct => carried ct (coeffs l) B) (cd_in d) cts).

Lemma tpos : 1 <= t.
Proof. pose proof (wf_t17 P (built_params_wf P BP)). unfold t. lia. Qed.
Lemma KBpos : 0 <= KB.
Proof.
  unfold KB, ks_bound. destruct (level_wf P i c (built_params_wf P BP) L) as [_ LV]. pose proof (wf_ctx_loc _ (lv_wf _ _ _ LV)) as W.
  apply Z.mul_nonneg_nonneg; [lia|]. apply sumn_nonneg. intros l Hl. pose proof (cx_range c W l Hl). lia.
Qed.
Lemma Spos : 0 <= S.
Proof. pose proof (l1_nonneg (bp_degree P) (sk_fun sk)). lia. Qed.
Lemma noise_nonneg e : 0 <= cnoise n t B S KB d e.
Proof.
  pose proof tpos. pose proof KBpos. pose proof Spos. induction e; cbn [cnoise]; [lia|lia|lia| | | | |].
  - unfold mul_noise. set (M := Z.max _ _). assert (0 <= M) by lia. clearbody M. clear - H H0 H1 H2. 
    assert (0 <= Z.of_nat n * t * M * (S + 5)) by (repeat apply Z.mul_nonneg_nonneg; lia).
    assert (0 <= Z.of_nat n * M) by (apply Z.mul_nonneg_nonneg; lia). assert (0 <= t * (1 + S + S * S)) by (apply Z.mul_nonneg_nonneg; nia).
    assert (0 <= t * KB) by (apply Z.mul_nonneg_nonneg; lia). lia.
  - apply Z.mul_nonneg_nonneg; auto. apply l1_nonneg.
  - apply Z.mul_nonneg_nonneg; auto. lia.
  - assert (0 <= t * KB) by (apply Z.mul_nonneg_nonneg; lia). lia.
  - pose proof (l1_nonneg n (coeffs (nth k (cd_sel d) []))). assert (0 <= t * (2 * KB)) by (apply Z.mul_nonneg_nonneg; lia).
    assert (0 <= l1norm n (coeffs (nth k (cd_sel d) [])) * cnoise n t B S KB d e) by (apply Z.mul_nonneg_nonneg; auto). lia.
Qed.

Lemma run_ok e : cfits n Q t B S KB d e ->
  exists ct, run_circ pr K cts e = Ok ct /\ carried ct (cval n d e) (cnoise n t B S KB d e).
Proof.
  pose proof (built_params_wf P BP) as WB. destruct (level_wf P i c WB L) as [_ LV].
  pose proof (wf_ctx_loc _ (lv_wf _ _ _ LV)) as W. pose proof (cx_Q1 c W) as Q1. fold Q in Q1. pose proof tpos as T1. pose proof KBpos as K0.
  pose proof (cx_n8 c W) as N8. rewrite (lv_n _ _ _ LV) in N8. fold n in N8.
  destruct GK as [[rr [Rr Er]] [GG [GR GP]]].
  induction e as [k|a IHa b IHb|a IHa b IHb|a IHa b IHb|a IHa k|a IHa z|a IHa k|a IHa k]; cbn [cfits run_circ cval cnoise]; intros F.
  - apply (forall2_nth _ _ _ k [] CI F).
  - destruct F as [Fa Fb]. destruct (IHa Fa) as [x [Ex [f0 [f1 [E [-> [C N]]]]]]]. destruct (IHb Fb) as [y [Ey [g0 [g1 [E' [-> [C' N']]]]]]].
    rewrite Ex. cbn [bind]. rewrite Ey. cbn [bind]. rewrite (ct_add_ok pr P i c LV). eexists. split; [reflexivity|].
    exists (fun j => f0 j + g0 j), (fun j => f1 j + g1 j), (fun j => E j + E' j). split; [reflexivity|]. split.
    + eapply (carries_ext P c); [| | |apply (carries_add P c _ _ _ _ _ _ C C')]; auto. intros j Hj. cbv beta. unfold ph. symmetry. apply phase_add.
    + intros j Hj. specialize (N j Hj). specialize (N' j Hj). lia.
  - destruct F as [Fa Fb]. destruct (IHa Fa) as [x [Ex [f0 [f1 [E [-> [C N]]]]]]]. destruct (IHb Fb) as [y [Ey [g0 [g1 [E' [-> [C' N']]]]]]].
    rewrite Ex. cbn [bind]. rewrite Ey. cbn [bind]. rewrite (ct_sub_ok pr P i c LV). eexists. split; [reflexivity|].
    exists (fun j => f0 j - g0 j), (fun j => f1 j - g1 j), (fun j => E j - E' j). split; [reflexivity|]. split.
    + eapply (carries_ext P c); [| | |apply (carries_sub P c _ _ _ _ _ _ C C')]; auto. intros j Hj. cbv beta. unfold ph. symmetry. apply phase_sub.
    + intros j Hj. specialize (N j Hj). specialize (N' j Hj). lia.
  - destruct F as [Fa [Fb [Qa Qb]]]. destruct (IHa Fa) as [x [Ex [f0 [f1 [E [-> [C N]]]]]]]. destruct (IHb Fb) as [y [Ey [g0 [g1 [E' [-> [C' N']]]]]]].
    rewrite Ex. cbn [bind]. rewrite Ey. cbn [bind]. destruct HM as [HE [SBe HQE]].
    destruct (C36_multiply_lem pr P i c ec sk rr BP L HE SP SO Hv Rr SB SBe HQE) as [r [ER H]]. rewrite Er in ER. apply Ok_inj in ER. subst r.
    set (A := cnoise n t B S KB d a) in *. set (Bb := cnoise n t B S KB d b) in *.
    pose proof (noise_nonneg a) as PA. fold A in PA.
    destruct (H f0 f1 g0 g1 (fun j => cval n d a j mod t) (fun j => cval n d b j mod t) E E' (Z.max A Bb) S HS S60) as [h0 [h1 [E2 [EM [HC HN]]]]].
    + fold Q. lia.
    + eapply carries_modt; [| |exact C]; auto. intros. unfold eqm. rewrite Z.mod_mod by lia. reflexivity.
    + eapply carries_modt; [| |exact C']; auto. intros. unfold eqm. rewrite Z.mod_mod by lia. reflexivity.
    + intros j Hj. apply Z.mod_pos_bound. fold t. lia.
    + intros j Hj. apply Z.mod_pos_bound. fold t. lia.
    + intros j Hj. specialize (N j Hj). lia.
    + intros j Hj. specialize (N' j Hj). lia.
    + rewrite EM. eexists. split; [reflexivity|]. exists h0, h1, E2. split; auto. split.
      * eapply carries_modt; [| |exact HC]; auto. intros j Hj. cbv beta. apply (rmul_eqm n t); intros; unfold eqm; apply Z.mod_mod; lia.
      * exact HN.
  - destruct F as [Fa Fk]. destruct (IHa Fa) as [x [Ex [f0 [f1 [E [-> [C N]]]]]]]. rewrite Ex. cbn [bind].
    destruct (forall2_nth _ _ _ k [] GP Fk) as [p [Ep [P1 [P2 [P3 [P4 P5]]]]]]. rewrite Ep. cbn [bind]. rewrite <- P3 in *.
    destruct (C33_multiply_lem pr P i c f0 f1 (fun _ => 0) 0 p BP L P2 P4 P5) as [u [v [w [Eu [_ [_ [Lu [_ [_ HU]]]]]]]]]. rewrite Eu.
    destruct u as [|u0 [|u1 [|? ?]]]; try discriminate Lu. eexists. split; [reflexivity|].
    exists u0, u1, (rmul n E (coeffs (pt_values p))). split; [reflexivity|]. split.
    + eapply (carries_ext P c); [| | |apply (carries_rmul P c _ _ _ (coeffs (pt_values p)) C)]; auto. intros j Hj. symmetry. apply (HU (sk_fun sk) j).
    + intros j Hj. rewrite rmul_comm. apply rmul_bound_l1; auto; try lia. apply noise_nonneg.
  - destruct (IHa F) as [x [Ex [f0 [f1 [E [-> [C N]]]]]]]. rewrite Ex. cbn [bind].
    destruct (C33_multiply_lem pr P i c f0 f1 (fun _ => 0) z (mkPt P i EncNone []) BP L eq_refl ltac:(constructor) ltac:(cbn; lia)) as [u [v [w [_ [_ [Ew [_ [_ [Lw HU]]]]]]]]]. rewrite Ew.
    destruct w as [|u0 [|u1 [|? ?]]]; try discriminate Lw. eexists. split; [reflexivity|].
    exists u0, u1, (fun j => z * E j). split; [reflexivity|]. split.
    + eapply (carries_ext P c); [| | |apply (carries_scal P c _ _ _ z C)]; auto. intros j Hj. symmetry. apply (HU (sk_fun sk) j).
    + intros j Hj. rewrite Z.abs_mul. apply Z.mul_le_mono_nonneg_l; [lia|]. auto.
  - destruct F as [Fa Fk]. destruct (IHa Fa) as [x [Ex [f0 [f1 [E [-> [C N]]]]]]]. rewrite Ex. cbn [bind].
    destruct (forall2_nth _ _ _ k 1 GG Fk) as [gk [Ep [g [rnd [R1 [R2 [R3 [R4 R5]]]]]]]]. rewrite Ep. cbn [bind].
    set (e := nth k (cd_rot d) 1) in *.
    assert (ML : length (bp_moduli P) <> 1%nat).
    { intros E1. rewrite <- SP in E1. rewrite (C38_one_modulus_lem pr sk g i rnd E1) in R5. discriminate. }
    destruct (galois_from pr P i c sk rnd e g BP L SP SO Hv R1 R2 R3 ML R4) as [gk' [er [E2 H]]].
    rewrite R5 in E2. apply Ok_inj in E2. subst gk'.
    destruct (H f0 f1) as [h0 [h1 [E3 HP]]]. rewrite E3. eexists. split; [reflexivity|]. cbv zeta in HP. set (w := ks_noise _ _ _) in HP.
    exists h0, h1, (fun j => rsubst n (Z.to_nat e) E j + t * w j). split; [reflexivity|]. split.
    + apply (carries_shift _ _ _ (rsubst n (Z.to_nat e) (ph [f0; f1]))); auto.
      * intros j Hj. apply (HP j Hj).
      * apply carries_rsubst. exact C.
    + intros j Hj. destruct (HP j Hj) as [_ HW]. fold KB in HW.
      assert (RB : Z.abs (rsubst n (Z.to_nat e) E j) <= cnoise n t B S KB d a).
      { assert (OX : Nat.odd (Z.to_nat e) = true).
        { rewrite <- Nat.negb_even. apply negb_true_iff. destruct (Nat.even (Z.to_nat e)) eqn:EE; auto. apply Nat.even_spec in EE. destruct EE as [y Hy].
          exfalso. assert (X : e = Z.of_nat y * 2) by lia. rewrite X, Z.mod_mul in R3; lia. }
        pose proof (wl_n _ W) as EN. rewrite (lv_n _ _ _ LV) in EN. fold n in EN. pose proof (noise_nonneg a) as NN. clear IHa. rewrite EN in *.
        apply rsubst_bound; auto. }
      pose proof (Z.abs_triangle (rsubst n (Z.to_nat e) E j) (t * w j)) as TR. rewrite (Z.abs_mul t), (Z.abs_eq t) in TR by lia.
      assert (t * Z.abs (w j) <= t * KB) by (apply Z.mul_le_mono_nonneg_l; lia). lia.
  - destruct F as [Fa Fk]. destruct (IHa Fa) as [x [Ex [f0 [f1 [E [-> [C N]]]]]]]. rewrite Ex. cbn [bind].
    destruct (forall2_nth _ _ _ k [] GR Fk) as [r [Ep [p [r0 [r1 [[P1 [P2 [P3 [P4 P5]]]] [R0 [R1 RE]]]]]]]]. rewrite Ep. cbn [bind]. rewrite <- P3 in *.
    destruct (C40_external_lem pr P i c sk p r0 r1 BP L SP SO Hv R0 R1 P1 P2 P4 P5) as [r' [ER H]]. rewrite RE in ER. apply Ok_inj in ER. subst r'.
    destruct (H f0 f1) as [h0 [h1 [w [E3 HP]]]]. rewrite E3. cbn [bind ct_params ct_level ct_of]. eexists. split; [reflexivity|].
    exists h0, h1, (fun j => rmul n E (coeffs (pt_values p)) j + t * w j). split; [reflexivity|]. split.
    + apply (carries_shift _ _ _ (rmul n (ph [f0; f1]) (coeffs (pt_values p)))); auto.
      * intros j Hj. rewrite rmul_comm. apply (HP j Hj).
      * apply (carries_rmul P c). exact C.
    + intros j Hj. destruct (HP j Hj) as [_ HW]. fold KB in HW.
      assert (RB : Z.abs (rmul n E (coeffs (pt_values p)) j) <= l1norm n (coeffs (pt_values p)) * cnoise n t B S KB d a).
      { rewrite rmul_comm. apply rmul_bound_l1; auto; try lia. apply noise_nonneg. }
      pose proof (Z.abs_triangle (rmul n E (coeffs (pt_values p)) j) (t * w j)) as TR. rewrite (Z.abs_mul t), (Z.abs_eq t) in TR by lia.
      assert (t * Z.abs (w j) <= t * (2 * KB)) by (apply Z.mul_le_mono_nonneg_l; lia). lia.
Qed.
End Circ.

Definition fresh_noise (P : BfvParams) : Z := bp_t P * (2 * bp_variance P + 2).

Lemma fresh_carried pr P c sk pt rows w :
  built_params P -> level P 0 c -> sk_params sk = P -> sk_ok sk -> 1 <= bp_variance P <= 16 ->
  pt_params pt = P -> pt_level pt = 0%nat -> Forall (fun x => 0 <= x < 2 ^ 64) (pt_values pt) -> (length (pt_values pt) <= bp_degree P)%nat ->
  wf_poly (mkPoly c Ntt rows) -> (forall k, 0 <= w k < 2 ^ 64) ->
  exists ct, encrypt pr sk pt rows w = Ok ct /\ carried P 0 c sk ct (coeffs (pt_values pt)) (fresh_noise P).
Proof.
  intros B L SP SK Hv PP PL H64 Hl WR Hw.
  pose proof (built_params_wf P B) as WB. destruct (level_wf P 0 c WB L) as [Hi LV].
  destruct (pt_to_poly_ok pr P 0 c WB LV pt PP PL H64 Hl) as [u [E HU]].
  destruct (encrypt_poly_ok pr P 0 c LV sk u rows w (conj SP SK) WR Hv Hw) as [f0 [f1 [e [EE [_ [He HP]]]]]].
  unfold encrypt. rewrite E. cbn [bind]. rewrite EE. eexists. split; [reflexivity|].
  exists f0, f1, (fun j => bp_t P * u j - cx_Q c * pt_fun pt j + bp_t P * e j). split; [reflexivity|]. split.
  - eapply (carries_ext P c); [| | |apply (encode_carries P c _ _ e HU)]; intros j Hj; cbv beta; auto.
    symmetry. apply HP; auto.
  - intros j Hj. specialize (HU j Hj). specialize (He j). pose proof (wf_t17 P WB) as Rt. unfold fresh_noise.
    set (Q := cx_Q c) in *. set (t := bp_t P) in *. set (v := bp_variance P) in *. set (dd := t * u j - Q * pt_fun pt j) in *.
    assert (D : - 2 * t < dd <= 0) by (unfold dd; lia). assert (T : - (2 * t * v) <= t * e j <= 2 * t * v) by (clear - He Rt; nia).
    replace (t * (2 * v + 2)) with (2 * t * v + 2 * t) by ring. set (x := t * e j) in *. set (y := 2 * t * v) in *. clear - D T Rt. lia.
Qed.

(** C64: a circuit of any shape over ciphertexts of any level that carry
    messages with bounded noise decrypts to the circuit over the messages, as
    long as the computed noise bound stays below (almost) Q/2. *)
Lemma C64_circuit_lem :
  forall pr P i c ec sk d K cts B S e,
    built_params P -> level P i c -> sk_params sk = P -> sk_ok sk -> 1 <= bp_variance P <= 16 ->
    small_basis (rq_moduli_64 c) -> 2 * bp_t P <= cx_q c 0 ->
    get (bp_e_ctxs P) i = Ok ec /\ small_basis (rq_moduli_64 ec) /\ 2 * Z.of_nat (bp_degree P) * (cx_Q c * cx_Q c) <= cx_Q ec ->
    l1norm (bp_degree P) (sk_fun sk) <= S -> S < 2 ^ 54 -> 0 <= B ->
    good_keys pr P i c sk d K ->
    Forall2 (fun l ct => exists f0 f1 E, ct = ct_of P i c [f0; f1]
               /\ carries (bp_degree P) (cx_Q c) (bp_t P) (phase (bp_degree P) (sk_fun sk) [f0; f1]) (fun j => nth j l 0) E
               /\ forall j, (j < bp_degree P)%nat -> Z.abs (E j) <= B) (cd_in d) cts ->
    let KB := ks_bound c (2 * bp_variance P) in
    cfits (bp_degree P) (cx_Q c) (bp_t P) B S KB d e ->
    2 ^ 54 * (2 * cnoise (bp_degree P) (bp_t P) B S KB d e) <= (2 ^ 54 - 1) * cx_Q c ->
    (ct <- run_circ pr K cts e ;; decrypt pr sk ct)
    = Ok (mkPt P i EncNone (map (fun j => cval (bp_degree P) d e j mod bp_t P) (seq 0 (bp_degree P)))).
Proof.
  intros pr P i c ec sk d K cts B S e BP L SP SO Hv SB Hq HM HS S60 HB GK CI KB F HN.
  destruct (run_ok pr P i c ec sk d K cts B S BP L SP SO Hv SB HM HS S60 HB GK CI e F) as [ct [ER [f0 [f1 [E [-> [C N]]]]]]].
  rewrite ER. cbn [bind]. pose proof (built_params_wf P BP) as WB. destruct (level_wf P i c WB L) as [_ LV].
  apply (C31_decrypt_lem pr P i c sk [f0; f1] _ E); auto; [discriminate|].
  intros j Hj. eapply noise_ok_abs; [apply (cx_Q1 c (wf_ctx_loc _ (lv_wf _ _ _ LV)))|apply N; auto|exact HN].
Qed.

(** C64, end to end: fresh encryptions of the inputs at level 0. *)
Lemma C64_program_lem :
  forall pr P c ec sk d K pts cts S e,
    built_params P -> level P 0 c -> sk_params sk = P -> sk_ok sk -> 1 <= bp_variance P <= 16 ->
    small_basis (rq_moduli_64 c) -> 2 * bp_t P <= cx_q c 0 ->
    get (bp_e_ctxs P) 0 = Ok ec /\ small_basis (rq_moduli_64 ec) /\ 2 * Z.of_nat (bp_degree P) * (cx_Q c * cx_Q c) <= cx_Q ec ->
    l1norm (bp_degree P) (sk_fun sk) <= S -> S < 2 ^ 54 ->
    good_keys pr P 0 c sk d K ->
    Forall2 (good_pt P 0) (cd_in d) pts ->
    Forall2 (fun pt ct => exists rows w, wf_poly (mkPoly c Ntt rows) /\ (forall k, 0 <= w k < 2 ^ 64) /\ encrypt pr sk pt rows w = Ok ct) pts cts ->
    let KB := ks_bound c (2 * bp_variance P) in let B := bp_t P * (2 * bp_variance P + 2) in
    cfits (bp_degree P) (cx_Q c) (bp_t P) B S KB d e ->
    2 ^ 54 * (2 * cnoise (bp_degree P) (bp_t P) B S KB d e) <= (2 ^ 54 - 1) * cx_Q c ->
    (ct <- run_circ pr K cts e ;; decrypt pr sk ct)
    = Ok (mkPt P 0 EncNone (map (fun j => cval (bp_degree P) d e j mod bp_t P) (seq 0 (bp_degree P)))).
Proof.
  intros pr P c ec sk d K pts cts S e BP L SP SO Hv SB Hq HM HS S60 GK HI HC KB B F HN.
  pose proof (built_params_wf P BP) as WB. pose proof (wf_t17 P WB) as T1.
  apply (C64_circuit_lem pr P 0 c ec sk d K cts B S e); auto.
  { unfold B. apply Z.mul_nonneg_nonneg; lia. }
  eapply forall2_comp; [exact HI|exact HC|]. cbv beta.
  intros l p ct [P1 [P2 [P3 [P4 P5]]]] [rows [w [W1 [W2 E]]]]. rewrite <- P3 in *.
  destruct (fresh_carried pr P c sk p rows w BP L SP SO Hv P1 P2 P4 P5 W1 W2) as [ct' [E' CA]]. rewrite E in E'. apply Ok_inj in E'. subst ct'. exact CA.
Qed.

(** C64: the keys and encryptions the theorem speaks about can always be made. *)
Lemma C64_keys_exist_lem :
  forall pr P i c sk d pts rpts rlkr gkr rr0 rr1, built_params P -> level P i c -> sk_params sk = P -> sk_ok sk -> 1 <= bp_variance P <= 16 ->
    length (bp_moduli P) <> 1%nat -> small_degree pr (bp_degree P) -> rnd_ok c rlkr -> (forall k, rnd_ok c (gkr k)) -> (forall k, rnd_ok c (rr0 k)) -> (forall k, rnd_ok c (rr1 k)) ->
    Forall (fun x => 0 <= x /\ x mod 2 = 1) (cd_rot d) -> Forall2 (good_pt P i) (cd_pt d) pts -> Forall2 (good_pt P i) (cd_sel d) rpts ->
    exists r gks rs,
      rlk_new pr sk i rlkr = Ok r
      /\ mapM (fun k => g <- subst_new pr c (nth k (cd_rot d) 1) ;; galois_new pr sk g i (gkr k)) (seq 0 (length (cd_rot d))) = Ok gks
      /\ mapM (fun k => p <- get rpts k ;; rgsw_encrypt pr sk p (rr0 k) (rr1 k)) (seq 0 (length (cd_sel d))) = Ok rs
      /\ good_keys pr P i c sk d (mkKeys r gks rs pts).
Proof.
  intros pr P i c sk d pts rpts rlkr gkr rr0 rr1 BP L SP SO Hv ML SD RR RG R0 R1 HO HP HR.
  destruct (C39_relinearize_lem pr P i c sk rlkr BP L SP SO Hv RR) as [r [_ [Er _]]].
  destruct (mapM_forall2 (fun k => g <- subst_new pr c (nth k (cd_rot d) 1) ;; galois_new pr sk g i (gkr k))
    (fun x gk => exists g rnd, rnd_ok c rnd /\ 0 <= x /\ x mod 2 = 1 /\ subst_new pr c x = Ok g /\ galois_new pr sk g i rnd = Ok gk) 1 (cd_rot d)) as [gks [Eg FG]].
  { intros k Hk. rewrite Forall_forall in HO. destruct (HO (nth k (cd_rot d) 1) (nth_In _ _ Hk)) as [X0 X1].
    destruct (C38_galois_lem pr P i c sk (gkr k) _ BP L SP SO Hv (RG k) X0 X1 ML SD) as [g [gk [e [E1 [E2 _]]]]].
    exists gk. rewrite E1. cbn [bind]. split; auto. exists g, (gkr k). auto. }
  destruct (mapM_forall2 (fun k => p <- get rpts k ;; rgsw_encrypt pr sk p (rr0 k) (rr1 k))
    (fun l r => exists p rnd0 rnd1, good_pt P i l p /\ rnd_ok c rnd0 /\ rnd_ok c rnd1 /\ rgsw_encrypt pr sk p rnd0 rnd1 = Ok r) [] (cd_sel d)) as [rs [Es FS]].
  { intros k Hk. destruct (forall2_nth _ _ _ k [] HR Hk) as [p [Ep G]]. rewrite Ep. cbn [bind]. pose proof G as [P1 [P2 [P3 [P4 P5]]]]. rewrite <- P3 in P4, P5.
    destruct (C40_external_lem pr P i c sk p (rr0 k) (rr1 k) BP L SP SO Hv (R0 k) (R1 k) P1 P2 P4 P5) as [x [Ex _]].
    exists x. split; auto. exists p, (rr0 k), (rr1 k). auto. }
  exists r, gks, rs. split; auto. split; auto. split; auto. split; [exists rlkr; auto|]. auto.
Qed.

(*EXAMPLE
(** (a * b - a * (1 + X)) at X -> X^3, and the noise bounds of the theorem hold. *)
Definition ex_circ : circ := Rotate (Minus (Times (Input 0) (Input 1)) (TimesPt (Input 0) 0)) 0.
Definition ex_data : CData := mkCData [[2; 3]; [1; 0; 0; 0; 0; 0; 0; 1]] [[1; 1]] [3] [].
Example C64_example :
  (P <- test_bfv Debug ;; c <- tctx P ;; let sk := mkSk P [1; -1; 0; 1; 1; 0; 2; -1] in
   pa <- pt_new Debug P [2; 3] 0 EncPoly ;; pb <- pt_new Debug P [1; 0; 0; 0; 0; 0; 0; 1] 0 EncPoly ;; pc <- pt_new Debug P [1; 1] 0 EncPoly ;;
   a <- encrypt Debug sk pa (trows bms 4) (tw 5) ;; b <- encrypt Debug sk pb (trows bms 6) (tw 7) ;;
   r <- rlk_new Debug sk 0 (trnd 3) ;; g <- subst_new Debug c 3 ;; gk <- galois_new Debug sk g 0 (trnd 5) ;;
   x <- run_circ Debug (mkKeys r [gk] [] [pc]) [a; b] ex_circ ;; d <- decrypt Debug sk x ;;
   Ok (pt_values d, map (fun j => cval 8 ex_data ex_circ j mod 17) (seq 0 8),
       (2 ^ 54 * (2 * cnoise 8 17 (17 * 4) 7 (ks_bound c 2) ex_data ex_circ) <=? (2 ^ 54 - 1) * cx_Q c)))
  = Ok ([14; 0; 0; 15; 0; 2; 14; 0], [14; 0; 0; 15; 0; 2; 14; 0], true).
Proof. vm_compute. reflexivity. Qed.
EXAMPLE*)
