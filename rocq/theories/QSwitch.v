(** Claim C69: modulus switching of ciphertexts. *)
From Verif Require Import PBase NT Spec PSum MModulus MUtils MNtt MRns MRq MBfv MKsk MGalois MRgsw MCirc MSwitch SpecCirc SpecDef SpecSwitch PModulus PUtils SpecRq SpecBfv SpecKsk PRing PRingT PRq PRq2 PRq3 PRq4 PRq5 QRq PBfv PBfv2 PBfv3 QBfv PMix PKsk PKsk2 QKsk QCirc TestEnv TestBfv PDefData PDef QDef.

(** The contexts of the levels are the chain of the first one. *)
Lemma level_chain P i j c c' : built_params P -> level P i c -> level P j c' -> (i <= j)%nat -> nth_ctx c (j - i) = Some c'.
Proof.
  intros [pr [env [ext [n [t [ms [v [bd [EH [H0 [Hx [Ht [Hq E]]]]]]]]]]]]] Lc Lc' Hij.
  assert (HN : Forall (fun q => 0 <= q) ms) by (eapply Forall_impl; [|exact H0]; cbv beta; intros; lia).
  destruct (level_new _ _ _ _ _ _ _ _ _ _ _ E Lc) as [Hi Ec]. destruct (level_new _ _ _ _ _ _ _ _ _ _ _ E Lc') as [Hj Ec'].
  clear Lc Lc' E. remember (j - i)%nat as d eqn:Ed. revert i c Hij Hi Ec Ed.
  induction d as [|d IH]; intros i c Hij Hi Ec Ed; cbn [nth_ctx].
  - assert (i = j) by lia. subst i. congruence.
  - assert (HF : Forall (fun q => 0 <= q) (firstn (length ms - i) ms)).
    { apply Forall_forall. intros q Hq0. rewrite Forall_forall in HN. apply HN. eapply firstn_in; eauto. }
    destruct (C57_structure_lem pr env _ n bd c EH HF Ec) as [_ [_ [_ [_ [_ [_ [_ [_ HX]]]]]]]].
    rewrite firstn_length_le in HX by lia. destruct (rq_next c) as [c1|]; [|lia]. destruct HX as [_ HX].
    rewrite firstn_firstn in HX. replace (Nat.min (length ms - i - 1) (length ms - i)) with (length ms - S i)%nat in HX by lia.
    apply (IH (S i)); auto; lia.
Qed.

Section Msd.
Variables (n : nat) (t S : Z) (s : nat -> Z).
Hypothesis (Hn : (0 < n)%nat) (Ht : 1 <= t) (HS : l1norm n s <= S).

(** One step: q * phase' = phase - rho with |rho| <= (1 + S) q / 2. *)
Lemma round_bound q x : 2 <= q -> exists r, q * ((x + q / 2) / q) = x - r /\ 2 * Z.abs r <= q.
Proof.
  intros Hq. exists (x - q * ((x + q / 2) / q)). split; [ring|].
  pose proof (Z.div_mod (x + q / 2) q ltac:(lia)). pose proof (Z.mod_pos_bound (x + q / 2) q ltac:(lia)).
  pose proof (Z.div_mod q 2 ltac:(lia)). pose proof (Z.mod_pos_bound q 2 ltac:(lia)). lia.
Qed.
Lemma step_carries q Q' f0 f1 m E : 2 <= q -> 0 < Q' -> carries n (Q' * q) t (phase n s [f0; f1]) m E ->
  let g := fun f j => (f j + q / 2) / q in
  exists E', carries n Q' t (phase n s [g f0; g f1]) m E' /\ forall j B, (j < n)%nat -> Z.abs (E j) <= B -> 2 * q * Z.abs (E' j) <= 2 * B + q * t * (1 + S).
Proof.
  intros Hq HQ C g.
  set (r := fun f : nat -> Z => fun j => f j - q * g f j).
  assert (Hr : forall f j, 2 * Z.abs (r f j) <= q).
  { intros f j. unfold r, g. destruct (round_bound q (f j) Hq) as [x [E1 E2]]. rewrite E1. replace (f j - (f j - x)) with x by ring. auto. }
  assert (PH : forall j, q * phase n s [g f0; g f1] j = phase n s [f0; f1] j - (r f0 j + rmul n s (r f1) j)).
  { intros j. cbn [phase].
    assert (X0 : forall f, rmul n s (fun j0 => f j0 + rmul n s (fun _ => 0) j0) j = rmul n s f j).
    { intros f. apply rmul_ext; auto. intros j0 _. rewrite rmul_comm, rmul_0_l. ring. }
    rewrite !X0. assert (X1 : rmul n s (r f1) j = rmul n s f1 j - q * rmul n s (g f1) j).
    { unfold r. rewrite rmul_sub_r, rmul_scal_r. reflexivity. }
    rewrite X1. unfold r. ring. }
  set (z := fun j => (t * phase n s [f0; f1] j - (Q' * q * m j + E j)) / (t * (Q' * q))).
  assert (DZ : forall j, (j < n)%nat -> t * phase n s [f0; f1] j - (Q' * q * m j + E j) = t * (Q' * q) * z j).
  { intros j Hj. specialize (C j Hj). unfold z. apply Z_div_exact_full_2; [nia|]. rewrite Zminus_mod, C, Z.sub_diag. apply Z.mod_0_l. nia. }
  clearbody z. exists (fun j => t * phase n s [g f0; g f1] j - Q' * m j - t * Q' * z j). split.
  - intros j Hj. replace (Q' * m j + (t * phase n s [g f0; g f1] j - Q' * m j - t * Q' * z j)) with (t * phase n s [g f0; g f1] j + (- z j) * (t * Q')) by ring.
    rewrite Z.mod_add by nia. reflexivity.
  - intros j B Hj HB. specialize (DZ j Hj). specialize (PH j).
    set (E' := t * phase n s [g f0; g f1] j - Q' * m j - t * Q' * z j).
    assert (QE : q * E' = E j - t * (r f0 j + rmul n s (r f1) j)).
    { unfold E'. replace (q * (t * phase n s [g f0; g f1] j - Q' * m j - t * Q' * z j)) with (t * (q * phase n s [g f0; g f1] j) - Q' * q * m j - t * (Q' * q) * z j) by ring.
      rewrite PH, <- DZ. ring. }
    assert (RB : 2 * Z.abs (rmul n s (r f1) j) <= q * S).
    { pose proof (rmul_bound_l1 n s (fun j => 2 * r f1 j) q j Hn Hj ltac:(lia)) as RR. rewrite rmul_scal_r, Z.abs_mul in RR. change (Z.abs 2) with 2 in RR.
      assert (0 <= q) by lia. eapply Z.le_trans; [apply RR|]; [|nia]. intros k _. rewrite Z.abs_mul. change (Z.abs 2) with 2. apply Hr. }
    pose proof (Hr f0 j) as R0. set (a := r f0 j) in *. set (b := rmul n s (r f1) j) in *. clearbody a b E'. clear - QE RB R0 HB Hq Ht.
    assert (X : 2 * Z.abs (a + b) <= q * (1 + S)) by lia.
    assert (Y : 2 * (t * Z.abs (a + b)) <= q * t * (1 + S)) by nia.
    assert (W : q * Z.abs E' <= Z.abs (E j) + t * Z.abs (a + b)).
    { rewrite <- (Z.abs_eq q) at 1 by lia. rewrite <- (Z.abs_eq t) by lia. rewrite <- !Z.abs_mul, QE. lia. }
    lia.
Qed.
End Msd.

Lemma msd_carries n t S s : (0 < n)%nat -> 1 <= t -> l1norm n s <= S -> forall d c c' f0 f1 m E B,
  wf_ctx c -> nth_ctx c d = Some c' -> carries n (cx_Q c) t (phase n s [f0; f1]) m E -> 0 <= B -> (forall j, (j < n)%nat -> Z.abs (E j) <= B) ->
  exists R E', 1 <= R /\ cx_Q c = cx_Q c' * R /\ carries n (cx_Q c') t (phase n s [msd_fun c d f0; msd_fun c d f1]) m E'
    /\ forall j, (j < n)%nat -> R * Z.abs (E' j) <= B + (R - 1) * (t * (1 + S)).
Proof.
  intros Hn Ht HS. induction d as [|d IH]; intros c c' f0 f1 m E B W H C B0 HB; cbn [nth_ctx msd_fun] in *.
  - injection H as <-. exists 1, E. split; [lia|]. split; [ring|]. split; auto. intros j Hj. specialize (HB j Hj). lia.
  - destruct (rq_next c) as [c1|] eqn:EN; [|discriminate]. pose proof (wf_ctx_loc _ W) as Wl. pose proof (wf_ctx_next _ _ W EN) as W1.
    set (q := cx_q c (cx_k c - 1)). pose proof (wl_ne _ Wl) as K1.
    assert (Hq : 2 <= q) by (apply (cx_range c Wl); unfold cx_k in *; lia).
    pose proof (next_Q c c1 Wl EN) as EQ. fold q in EQ. pose proof (cx_Q1 c1 (wf_ctx_loc _ W1)) as Q1. rewrite EQ in C.
    destruct (step_carries n t S s Hn Ht HS q (cx_Q c1) f0 f1 m E Hq ltac:(lia) C) as [E1 [C1 N1]]. cbv zeta in C1.
    set (X := t * (1 + S)) in *. assert (X0 : 0 <= X) by (pose proof (l1_nonneg n s); unfold X; apply Z.mul_nonneg_nonneg; lia).
    set (B1 := (2 * B + q * X) / (2 * q)). assert (QX : 0 <= q * X) by (apply Z.mul_nonneg_nonneg; lia).
    assert (B10 : 0 <= B1) by (apply Z.div_pos; lia).
    assert (BB : 2 * q * B1 <= 2 * B + q * X) by (apply Z.mul_div_le; lia).
    destruct (IH c1 c' _ _ m E1 B1 W1 H C1 B10) as [R [E' [HR [ER [C' N']]]]].
    { intros j Hj. specialize (N1 j B Hj (HB j Hj)). apply Z.div_le_lower_bound; [lia|]. unfold X. lia. }
    exists (q * R), E'. split; [nia|]. split; [rewrite EQ, ER; ring|]. split; [exact C'|].
    intros j Hj. specialize (N' j Hj). set (e := Z.abs (E' j)) in *. clearbody e X B1. clear - N' BB Hq X0 HR.
    assert (q * (R * e) <= q * (B1 + (R - 1) * X)) by (apply Z.mul_le_mono_nonneg_l; lia).
    assert (2 * X <= q * X) by (apply Z.mul_le_mono_nonneg_r; lia).
    replace (q * R * e) with (q * (R * e)) by ring. replace (q * (B1 + (R - 1) * X)) with (q * B1 + q * R * X - q * X) in H by ring. lia.
Qed.

(** C69: switching moves a ciphertext to any deeper level; it carries the same
    message, the noise shrinks with the modulus up to the rounding term. *)
Lemma C69_switch_lem :
  forall pr P i j c c' sk f0 f1 m E B S,
    built_params P -> level P i c -> level P j c' -> (i <= j)%nat ->
    l1norm (bp_degree P) (sk_fun sk) <= S ->
    carries (bp_degree P) (cx_Q c) (bp_t P) (phase (bp_degree P) (sk_fun sk) [f0; f1]) m E ->
    0 <= B -> (forall k, (k < bp_degree P)%nat -> Z.abs (E k) <= B) ->
    exists g0 g1 E', ct_switch pr (ct_of P i c [f0; f1]) j = Ok (ct_of P j c' [g0; g1])
      /\ (cx_Q c' | cx_Q c)
      /\ carries (bp_degree P) (cx_Q c') (bp_t P) (phase (bp_degree P) (sk_fun sk) [g0; g1]) m E'
      /\ forall k, (k < bp_degree P)%nat -> Z.abs (E' k) <= switch_noise (cx_Q c / cx_Q c') (bp_t P) S B.
Proof.
  intros pr P i j c c' sk f0 f1 m E B S BP L L' Hij HS C B0 HB.
  pose proof (built_params_wf P BP) as WB. destruct (level_wf P i c WB L) as [_ LV]. destruct (level_wf P j c' WB L') as [_ LV'].
  pose proof (lv_wf _ _ _ LV) as W. pose proof (wf_ctx_loc _ W) as Wl. pose proof (wf_ctx_loc _ (lv_wf _ _ _ LV')) as Wl'.
  pose proof (cx_n8 c Wl) as N8. rewrite (lv_n _ _ _ LV) in N8. pose proof (wf_t17 P WB) as T1.
  pose proof (level_chain P i j c c' BP L L' Hij) as HC.
  destruct (msd_carries (bp_degree P) (bp_t P) S (sk_fun sk) ltac:(lia) ltac:(lia) HS (j - i) c c' f0 f1 m E B W HC C B0 HB) as [R [E' [HR [ER [C' N']]]]].
  exists (msd_fun c (j - i) f0), (msd_fun c (j - i) f1), E'. split.
  { unfold ct_switch, ct_of. cbn [ct_params ct_cts]. unfold level in L'. rewrite L'. cbn [bind map mapM].
    rewrite !(change_bwd pr c Wl). cbn [bind]. rewrite !(rep_switch_to pr c c' (j - i)) by auto. cbn [bind].
    rewrite !(change_fwd pr c' Wl'). reflexivity. }
  split; [exists R; rewrite ER; ring|]. split; auto.
  pose proof (cx_Q1 c' Wl') as Q1. intros k Hk. specialize (N' k Hk). unfold switch_noise.
  rewrite ER. rewrite Z.mul_comm, Z.div_mul by lia.
  assert (X0 : 0 <= bp_t P * (1 + S)) by (pose proof (l1_nonneg (bp_degree P) (sk_fun sk)); apply Z.mul_nonneg_nonneg; lia).
  set (X := bp_t P * (1 + S)) in *. rewrite <- Z.div_add by lia. apply Z.div_le_lower_bound; [lia|]. lia.
Qed.

(** C69: in particular it decrypts to the same message. *)
Lemma C69_decrypt_lem :
  forall pr P i j c c' sk f0 f1 m E B S,
    built_params P -> level P i c -> level P j c' -> (i <= j)%nat -> sk_params sk = P -> sk_ok sk ->
    l1norm (bp_degree P) (sk_fun sk) <= S ->
    carries (bp_degree P) (cx_Q c) (bp_t P) (phase (bp_degree P) (sk_fun sk) [f0; f1]) m E ->
    0 <= B -> (forall k, (k < bp_degree P)%nat -> Z.abs (E k) <= B) ->
    small_basis (rq_moduli_64 c') -> 2 * bp_t P <= cx_q c' 0 ->
    2 ^ 54 * (2 * switch_noise (cx_Q c / cx_Q c') (bp_t P) S B) <= (2 ^ 54 - 1) * cx_Q c' ->
    (ct <- ct_switch pr (ct_of P i c [f0; f1]) j ;; decrypt pr sk ct)
    = Ok (mkPt P j EncNone (map (fun k => m k mod bp_t P) (seq 0 (bp_degree P)))).
Proof.
  intros pr P i j c c' sk f0 f1 m E B S BP L L' Hij SP SO HS C B0 HB SB Hq HN.
  destruct (C69_switch_lem pr P i j c c' sk f0 f1 m E B S BP L L' Hij HS C B0 HB) as [g0 [g1 [E' [ES [_ [C' N']]]]]].
  rewrite ES. cbn [bind]. pose proof (built_params_wf P BP) as WB. destruct (level_wf P j c' WB L') as [_ LV].
  apply (C31_decrypt_lem pr P j c' sk [g0; g1] _ E'); auto; [discriminate|].
  intros k Hk. eapply noise_ok_abs; [apply (cx_Q1 c' (wf_ctx_loc _ (lv_wf _ _ _ LV)))|apply N'; auto|exact HN].
Qed.

(** C69: programs in stages. *)
Lemma cnoise_le_stage P c S B d es e : In e es -> cnoise (bp_degree P) (bp_t P) B S (ks_bound c (2 * bp_variance P)) d e <= stage_noise P c S B d es.
Proof. unfold stage_noise. induction es as [|a es IH]; intros H; [contradiction|]. cbn [fold_right]. destruct H as [->|H]; [lia|]. specialize (IH H). lia. Qed.
Lemma stage_noise_nonneg P c S B d es : 0 <= stage_noise P c S B d es.
Proof. unfold stage_noise. induction es as [|a es IH]; cbn [fold_right]; lia. Qed.
Lemma mapM_Forall2 {A B C} (f : A -> outcome B) (R : C -> A -> Prop) (R' : C -> B -> Prop) ls l :
  Forall2 R ls l -> (forall x a, R x a -> exists b, f a = Ok b /\ R' x b) -> exists bs, mapM f l = Ok bs /\ Forall2 R' ls bs.
Proof.
  intros H HR. induction H as [|x a ls l H1 _ IH]; [exists []; split; [reflexivity|constructor]|].
  destruct (HR x a H1) as [b [E Rb]]. destruct IH as [bs [Es Rs]]. exists (b :: bs). cbn [mapM]. rewrite E. cbn [bind]. rewrite Es. split; [reflexivity|constructor; auto].
Qed.
Lemma C69_stages_lem :
  forall pr P sk S l i c B v i2 c2 B2 cts,
    built_params P -> level P i c -> sk_params sk = P -> sk_ok sk -> 1 <= bp_variance P <= 16 ->
    l1norm (bp_degree P) (sk_fun sk) <= S -> S < 2 ^ 54 -> 0 <= B ->
    stages_ok pr P sk S i c B v l i2 c2 B2 ->
    Forall2 (holds P i c sk B) v cts ->
    level P i2 c2 /\ exists outs, run_stages pr cts (map fst l) = Ok outs
      /\ Forall2 (holds P i2 c2 sk B2) (stages_val (bp_degree P) (bp_t P) v l) outs.
Proof.
  intros pr P sk S l. induction l as [|[s d] l IH]; intros i c B v i2 c2 B2 cts BP L SP SO Hv HS S60 B0 SK HF.
  - revert SP; inversion SK; subst; intros SP. split; auto. exists cts. split; [reflexivity|exact HF].
  - revert SP; inversion SK as [|? ? ? ? ? ? ? c' ec ? ? ? Hij L' SB HE SBe HQE GK B' FO SK']; subst; intros SP. cbn [map fst run_stages stages_val].
    destruct (mapM_Forall2 (fun ct => ct_switch pr ct (st_level s)) (holds P i c sk B) (holds P (st_level s) c' sk B') v cts HF) as [ins [EI FI]].
    { intros x a [f0 [f1 [E [-> [C N]]]]].
      destruct (C69_switch_lem pr P i (st_level s) c c' sk f0 f1 (coeffs x) E B S BP L L' Hij HS C B0 N) as [g0 [g1 [E' [ES [_ [C' N']]]]]].
      eexists. split; [exact ES|]. exists g0, g1, E'. auto. }
    rewrite EI. cbn [bind].
    assert (B0' : 0 <= B').
    { unfold B', switch_noise. pose proof (built_params_wf P BP) as WB. destruct (level_wf P i c WB L) as [_ LV]. destruct (level_wf P _ c' WB L') as [_ LV'].
      pose proof (wf_t17 P WB). pose proof (l1_nonneg (bp_degree P) (sk_fun sk)).
      assert (0 <= cx_Q c / cx_Q c') by (apply Z.div_pos; [pose proof (cx_Q1 c (wf_ctx_loc _ (lv_wf _ _ _ LV)))|pose proof (cx_Q1 c' (wf_ctx_loc _ (lv_wf _ _ _ LV')))]; lia).
      assert (0 <= bp_t P * (1 + S)) by (apply Z.mul_nonneg_nonneg; lia).
      assert (0 <= B / (cx_Q c / cx_Q c')); [|lia]. destruct (Z.eq_dec (cx_Q c / cx_Q c') 0) as [->|]; [rewrite Zdiv_0_r; lia|apply Z.div_pos; lia]. }
    set (dd := with_inputs v d) in *.
    destruct (mapM_Forall2 (run_circ pr (st_keys s) ins) (fun x e => In e (st_out s) /\ x = map (fun j => cval (bp_degree P) dd e j mod bp_t P) (seq 0 (bp_degree P)))
      (holds P (st_level s) c' sk (stage_noise P c' S B' dd (st_out s))) (stage_vals (bp_degree P) (bp_t P) dd (st_out s)) (st_out s)) as [outs [EO FO']].
    { unfold stage_vals. assert (G : forall es, incl es (st_out s) -> Forall2 (fun x e => In e (st_out s) /\ x = map (fun j => cval (bp_degree P) dd e j mod bp_t P) (seq 0 (bp_degree P)))
        (map (fun e => map (fun j => cval (bp_degree P) dd e j mod bp_t P) (seq 0 (bp_degree P))) es) es).
      { induction es as [|e es IHe]; intros HI; cbn [map]; constructor; [split; auto; apply HI; left; auto|apply IHe; intros x Hx; apply HI; right; auto]. }
      apply G. intros x Hx. exact Hx. }
    { intros x e [He ->]. rewrite Forall_forall in FO. specialize (FO e He).
      destruct (run_ok pr P (st_level s) c' ec sk dd (st_keys s) ins B' S BP L' SP SO Hv SB (conj HE (conj SBe HQE)) HS S60 B0' GK FI e FO) as [ct [ER [f0 [f1 [E [-> [C N]]]]]]].
      eexists. split; [exact ER|]. exists f0, f1, E. split; [reflexivity|]. split.
      - pose proof (wf_t17 P (built_params_wf P BP)). eapply carries_modt; [| |exact C]; [|lia]. intros j Hj. unfold coeffs, eqm.
        rewrite nth_map_seq by auto. rewrite Z.mod_mod by lia. reflexivity.
      - intros j Hj. eapply Z.le_trans; [apply N; auto|]. apply cnoise_le_stage. auto. }
    rewrite EO. cbn [bind]. apply (IH (st_level s) c' _ _ i2 c2 B2 outs BP L' SP SO Hv HS S60 (stage_noise_nonneg _ _ _ _ _ _) SK' FO').
Qed.

(** C69: the outputs of a program in stages decrypt to the plain computation. *)
Lemma C69_stages_decrypt_lem :
  forall pr P sk S l i c B v i2 c2 B2 cts,
    built_params P -> level P i c -> sk_params sk = P -> sk_ok sk -> 1 <= bp_variance P <= 16 ->
    l1norm (bp_degree P) (sk_fun sk) <= S -> S < 2 ^ 54 -> 0 <= B ->
    stages_ok pr P sk S i c B v l i2 c2 B2 ->
    Forall2 (holds P i c sk B) v cts ->
    small_basis (rq_moduli_64 c2) -> 2 * bp_t P <= cx_q c2 0 ->
    2 ^ 54 * (2 * B2) <= (2 ^ 54 - 1) * cx_Q c2 ->
    (outs <- run_stages pr cts (map fst l) ;; mapM (decrypt pr sk) outs)
    = Ok (map (fun x => mkPt P i2 EncNone (map (fun j => nth j x 0 mod bp_t P) (seq 0 (bp_degree P)))) (stages_val (bp_degree P) (bp_t P) v l)).
Proof.
  intros pr P sk S l i c B v i2 c2 B2 cts BP L SP SO Hv HS S60 B0 SK HF SB Hq HN.
  destruct (C69_stages_lem pr P sk S l i c B v i2 c2 B2 cts BP L SP SO Hv HS S60 B0 SK HF) as [L2 [outs [ER FO]]].
  rewrite ER. cbn [bind]. clear ER SK HF. pose proof (built_params_wf P BP) as WB. destruct (level_wf P i2 c2 WB L2) as [_ LV].
  induction FO as [|x ct xs cts' [f0 [f1 [E [-> [C N]]]]] _ IH]; [reflexivity|]. cbn [mapM map].
  rewrite (C31_decrypt_lem pr P i2 c2 sk [f0; f1] (coeffs x) E); auto; [|discriminate|].
  - cbn [bind]. rewrite IH. reflexivity.
  - intros k Hk. eapply noise_ok_abs; [apply (cx_Q1 c2 (wf_ctx_loc _ (lv_wf _ _ _ LV)))|apply N; auto|exact HN].
Qed.

(** C69: there is no way back up. *)
Lemma C69_guard_lem :
  forall pr P i j c c' f fs, built_params P -> level P i c -> level P j c' -> (j < i)%nat ->
    ct_switch pr (ct_of P i c (f :: fs)) j = Panic.
Proof.
  intros pr P i j c c' f fs BP L L' Hij.
  pose proof (built_params_wf P BP) as WB. destruct (level_wf P i c WB L) as [_ LV]. pose proof (lv_wf _ _ _ LV) as W.
  unfold ct_switch, ct_of. cbn [ct_params ct_cts]. unfold level in L'. rewrite L'. cbn [bind map mapM].
  rewrite (change_bwd pr c (wf_ctx_loc _ W)). cbn [bind].
  destruct (level_wf P j c' WB L') as [_ LV'].
  assert (KK : (cx_k c < cx_k c')%nat).
  { pose proof (wl_ne _ (wf_ctx_loc _ W)) as NE. unfold cx_k in *. rewrite (lv_ms _ _ _ LV), (lv_ms _ _ _ LV'), !firstn_length in *. lia. }
  unfold mod_switch_to, switch_iterations. cbn [p_ctx rep].
  destruct (switch_loop_spec c c' 0 W) as [[d [_ [Hd [EM _]]]]|[E _]]; [|rewrite E; reflexivity]. exfalso.
  revert KK. unfold cx_k at 2. rewrite EM, firstn_length. fold (cx_k c). lia.
Qed.

Lemma chain_div d : forall c c', wf_ctx c -> nth_ctx c d = Some c' -> (cx_Q c' | cx_Q c).
Proof.
  induction d as [|d IH]; intros c c' W H; cbn [nth_ctx] in H; [injection H as <-; apply Z.divide_refl|].
  destruct (rq_next c) as [c1|] eqn:EN; [|discriminate]. rewrite (next_Q c c1 (wf_ctx_loc _ W) EN).
  apply Z.divide_mul_l. apply IH; auto. eapply wf_ctx_next; eauto.
Qed.

(** C69: with the default parameters, the result of every circuit of height at
    most 2k-2 can be switched to any of the k levels, down to a single modulus,
    and still decrypts to the value of the circuit. *)
Lemma C69_default_lem :
  forall pr env k n bd P c j w0 sk d K pts cts e,
    env_exact env -> (2 <= k <= 31)%nat -> bfv_default pr env k n bd = Ok P -> level P 0 c -> (j < k)%nat ->
    (forall x, 0 <= w0 x < 2 ^ 64) -> sk_generate pr P w0 = Ok sk ->
    good_keys pr P 0 c sk d K -> Forall2 (good_pt P 0) (cd_in d) pts ->
    Forall2 (fun pt ct => exists rows w, wf_poly (mkPoly c Ntt rows) /\ (forall j, 0 <= w j < 2 ^ 64) /\ encrypt pr sk pt rows w = Ok ct) pts cts ->
    cplain 1153 d e -> (height e <= 2 * k - 2)%nat ->
    (ct <- run_circ pr K cts e ;; s <- ct_switch pr ct j ;; decrypt pr sk s)
    = Ok (mkPt P j EncNone (map (fun x => cval n d e x mod 1153) (seq 0 n))).
Proof.
  intros pr env k n bd P c j w0 sk d K pts cts e EX Hk E L Hj Hw0 ES GK HI HC HP HH.
  destruct (default_inv pr env k n bd P EX ltac:(lia) E) as [B [D1 [D2 [D3 [D4 [D5 [_ [_ [DG _]]]]]]]]].
  destruct (default_level pr env k n bd P 0 c EX ltac:(lia) E L) as [SB [_ [HQ [HK [ec HE]]]]]. rewrite Nat.sub_0_r in *.
  pose proof (built_params_wf P B) as WB. destruct (level_wf P 0 c WB L) as [_ LV].
  destruct (wb_lv _ WB j ltac:(lia)) as [c' LV']. pose proof (lv_ctx _ _ _ LV') as L'. change (level P j c') in L'.
  destruct (default_level pr env k n bd P j c' EX ltac:(lia) E L') as [SB' [Hq' [HQ' _]]].
  destruct (C30_keygen_lem pr P w0 B ltac:(lia) Hw0) as [sk' [ES' [SP [SO [SL SF]]]]]. rewrite ES in ES'. apply Ok_inj in ES'. subst sk'.
  assert (Hn : (1 <= n <= 64)%nat) by (destruct DG as [-> |[-> |[-> | ->]]]; lia).
  assert (K0 : 0 <= ks_bound c 20).
  { unfold ks_bound. apply Z.mul_nonneg_nonneg; [lia|]. apply sumn_nonneg. intros i Hi. pose proof (cx_range c (wf_ctx_loc _ (lv_wf P 0 c LV)) i Hi). lia. }
  assert (L1 : l1norm (bp_degree P) (sk_fun sk) <= 20 * Z.of_nat n).
  { unfold l1norm. rewrite D1. clear - SF D3. rewrite D3 in SF. induction n as [|m IH]; cbn [sumn]; [lia|].
    assert (Z.abs (sk_fun sk m) <= 20); [|lia]. unfold sk_fun. destruct (nth_in_or_default m (sk_coeffs sk) 0) as [I| ->]; [|lia].
    rewrite Forall_forall in SF. specialize (SF _ I). lia. }
  pose proof (hnoise_fits k (height e) (cx_Q c) ltac:(lia) HH HQ) as HF. pose proof (hnoise_low k (height e)) as HLo.
  pose proof (cnoise_height n k (ks_bound c 20) d e Hn ltac:(lia) (conj K0 HK) HP) as CN.
  assert (CI : Forall2 (fun l ct => carried P 0 c sk ct (coeffs l) (fresh_noise P)) (cd_in d) cts).
  { eapply forall2_comp; [exact HI|exact HC|]. cbv beta.
    intros l p ct [P1 [P2 [P3 [P4 P5]]]] [rows [w [W1 [W2 E0]]]]. rewrite <- P3 in *.
    destruct (fresh_carried pr P c sk p rows w B L SP SO ltac:(lia) P1 P2 P4 P5 W1 W2) as [ct' [E' CA]]. rewrite E0 in E'. apply Ok_inj in E'. subst ct'. exact CA. }
  assert (FR : fresh_noise P = 1153 * 22) by (unfold fresh_noise; rewrite D2, D3; reflexivity). rewrite FR in CI.
  destruct (run_ok pr P 0 c ec sk d K cts (1153 * 22) (20 * Z.of_nat n) B L SP SO ltac:(lia) SB HE L1 ltac:(lia) ltac:(lia) GK CI e)
    as [ct [ER [f0 [f1 [E0 [-> [C N]]]]]]].
  { rewrite D1, D2, D3. apply (cfits_height n k); auto; lia. }
  rewrite ER. cbn [bind]. rewrite D1, D2, D3 in N. change (2 * 10) with 20 in N. set (BB := cnoise n 1153 (1153 * 22) (20 * Z.of_nat n) (ks_bound c 20) d e) in *.
  rewrite (C69_decrypt_lem pr P 0 j c c' sk f0 f1 (cval n d e) E0 BB (20 * Z.of_nat n) B L L' ltac:(lia) SP SO L1); auto.
  - rewrite D1, D2. reflexivity.
  - rewrite D1 in C |- *. exact C.
  - specialize (N 0%nat ltac:(lia)). lia.
  - rewrite D1. intros x Hx. apply N. exact Hx.
  - rewrite D2. unfold switch_noise. destruct (chain_div (j - 0) c c' (lv_wf _ _ _ LV) (level_chain P 0 j c c' B L L' ltac:(lia))) as [R ER'].
    pose proof (cx_Q1 c (wf_ctx_loc _ (lv_wf _ _ _ LV))) as Q1. pose proof (cx_Q1 c' (wf_ctx_loc _ (lv_wf _ _ _ LV'))) as Q1'.
    rewrite ER', Z.div_mul by lia. rewrite ER' in HF, Q1. assert (R0 : 0 < R) by (clear - Q1 Q1'; nia).
    assert (Q61 : 2305843009213693952 <= cx_Q c').
    { eapply Z.le_trans; [|exact HQ']. change 2305843009213693952 with (2 ^ 61). apply Z.pow_le_mono_r; lia. }
    assert (BR : 4 * (BB / R) <= cx_Q c').
    { apply Z.mul_le_mono_pos_l with R; auto. pose proof (Z.mul_div_le BB R R0). replace (R * (4 * (BB / R))) with (4 * (R * (BB / R))) by ring. lia. }
    change (2 ^ 54) with 18014398509481984. set (y := BB / R) in *. clearbody y. clear - Q61 BR Hn. lia.
Qed.

(** The conditions on a program in two stages can be met. *)
Lemma stages_hyps pr : exists P c sk l c2 B2, built_params P /\ level P 0 c /\ sk_params sk = P /\ sk_ok sk /\ bp_variance P = 10
  /\ l1norm (bp_degree P) (sk_fun sk) <= 160 /\ map (fun x => st_level (fst x)) l = [0; 1]%nat
  /\ stages_ok pr P sk 160 0 c (fresh_noise P) [[2; 3]; [1; 0; 0; 1]] l 1 c2 B2
  /\ small_basis (rq_moduli_64 c2) /\ 2 * bp_t P <= cx_q c2 0 /\ 2 ^ 54 * (2 * B2) <= (2 ^ 54 - 1) * cx_Q c2
  /\ stages_val (bp_degree P) (bp_t P) [[2; 3]; [1; 0; 0; 1]] l = [[0; 3; 0; 0; 3; 0; 0; 0]].
Proof.
  destruct (default_exists pr 2 8 (mkBD 4 5) ltac:(left; reflexivity) ltac:(lia)) as [P E].
  destruct (default_inv pr denv 2 8 _ P denv_exact ltac:(lia) E) as [B [D1 [D2 [D3 [D4 [D5 _]]]]]].
  pose proof (built_params_wf P B) as WB.
  destruct (wb_lv _ WB 0 ltac:(lia)) as [c LV]. pose proof (lv_ctx _ _ _ LV) as L. change (level P 0 c) in L.
  destruct (wb_lv _ WB 1 ltac:(lia)) as [c' LV']. pose proof (lv_ctx _ _ _ LV') as L'. change (level P 1 c') in L'.
  destruct (default_level pr denv 2 8 _ P 0 c denv_exact ltac:(lia) E L) as [SB [_ [HQ [HK [ec [GE [SE HE]]]]]]].
  destruct (default_level pr denv 2 8 _ P 1 c' denv_exact ltac:(lia) E L') as [SB' [Hq' [HQ' [HK' [ec' [GE' [SE' HE']]]]]]].
  set (w0 := fun _ : nat => 7). assert (Hw : forall j : nat, 0 <= w0 j < 2 ^ 64) by (intros; unfold w0; lia).
  destruct (C30_keygen_lem pr P w0 B ltac:(lia) Hw) as [sk [ES [SP [SO [SL SF]]]]].
  assert (RK : forall c, wf_ctx c -> rnd_ok c (mkRnd (fun _ => p_rows (rep c Ntt (fun _ => 0))) (fun _ => w0))).
  { intros x W. split; cbn [rnd_rows rnd_words]; auto. intros _ _. exact (rep_wf x (wf_ctx_loc _ W) Ntt (fun _ => 0)). }
  set (v := [[2; 3]; [1; 0; 0; 1]]). set (sd := mkSData [] [] []). set (d := with_inputs v sd).
  set (es := [Minus (Times (Input 0) (Input 1)) (Input 1); Input 1]). set (v' := stage_vals 8 1153 d es). set (d' := with_inputs v' sd).
  pose proof (RK c (lv_wf _ _ _ LV)) as R0. pose proof (RK c' (lv_wf _ _ _ LV')) as R1.
  destruct (C64_keys_exist_lem pr P 0 c sk d [] [] _ (fun _ => _) (fun _ => _) (fun _ => _) B L SP SO ltac:(lia) ltac:(lia) ltac:(right; lia) R0 (fun _ => R0) (fun _ => R0) (fun _ => R0))
    as [r [gks [rs [_ [_ [_ GK]]]]]]; [constructor|constructor|constructor|].
  destruct (C64_keys_exist_lem pr P 1 c' sk d' [] [] _ (fun _ => _) (fun _ => _) (fun _ => _) B L' SP SO ltac:(lia) ltac:(lia) ltac:(right; lia) R1 (fun _ => R1) (fun _ => R1) (fun _ => R1))
    as [r' [gks' [rs' [_ [_ [_ GK']]]]]]; [constructor|constructor|constructor|].
  set (l := [(mkStage 0 (mkKeys r gks rs []) es, sd); (mkStage 1 (mkKeys r' gks' rs' []) [Minus (Input 0) (Input 1)], sd)]).
  destruct (default_inv pr denv 2 8 _ P denv_exact ltac:(lia) E) as [_ [_ [_ [_ [_ [_ [_ [_ [_ HL]]]]]]]]].
  destruct (HL 1%nat c' L') as [_ [_ [LC' [_ [FC' _]]]]]. pose proof (zprod_bounds 8 _ FC') as [_ ZC']. rewrite LC' in ZC'. fold (cx_Q c') in ZC'.
  cbn [Nat.sub] in HQ, HQ', HK, HK', ZC'. change (2 ^ (61 * Z.of_nat 2)) with 5316911983139663491615228241121378304 in HQ.
  change (2 ^ (61 * Z.of_nat 1)) with 2305843009213693952 in HQ'. change (2 ^ (62 * Z.of_nat 1)) with 4611686018427387904 in ZC'.
  destruct (chain_div (1 - 0) c c' (lv_wf _ _ _ LV) (level_chain P 0 1 c c' B L L' ltac:(lia))) as [R ER].
  assert (HR : 1152921504606846976 <= R).
  { rewrite ER in HQ. clear - HQ HQ' ZC'. assert (~ R < 1152921504606846976); [|lia]. intros H. assert (0 < R) by nia.
    assert (R * cx_Q c' <= 1152921504606846975 * 4611686018427387904) by (apply Z.mul_le_mono_nonneg; lia). lia. }
  assert (RQ : cx_Q c / cx_Q c' = R) by (rewrite ER; apply Z.div_mul; lia).
  assert (K0 : 0 <= ks_bound c 20).
  { unfold ks_bound. apply Z.mul_nonneg_nonneg; [lia|]. apply sumn_nonneg. intros i Hi. pose proof (cx_range c (wf_ctx_loc _ (lv_wf P 0 c LV)) i Hi). lia. }
  set (B1 := switch_noise (cx_Q c / cx_Q c) (bp_t P) 160 (fresh_noise P)).
  assert (EB1 : B1 = 210999).
  { unfold B1, switch_noise, fresh_noise. rewrite Z.div_same by lia. rewrite D2, D3. reflexivity. }
  set (B2 := stage_noise P c 160 B1 d es).
  assert (HB2 : 0 <= B2 <= 2417851639229258349412352).
  { unfold B2, stage_noise, es. cbn [fold_right cnoise]. rewrite EB1, D1, D2, D3. unfold mul_noise. rewrite Z.max_id. change (2 * 10) with 20. lia. }
  set (B3 := switch_noise (cx_Q c / cx_Q c') (bp_t P) 160 B2).
  assert (HB3 : 0 <= B3 <= 2300000).
  { unfold B3, switch_noise. rewrite RQ, D2. assert (0 <= B2 / R <= 2097152); [|lia]. split; [apply Z.div_pos; lia|].
    apply Z.div_le_upper_bound; [lia|]. lia. }
  set (B4 := stage_noise P c' 160 B3 d' [Minus (Input 0) (Input 1)]).
  assert (HB4 : B4 = 2 * B3) by (unfold B4, stage_noise; cbn [fold_right cnoise]; lia).
  exists P, c, sk, l, c', B4. split; auto. split; auto. split; auto. split; auto. split; auto. split.
  { unfold l1norm. rewrite D1. clear - SF D3. rewrite D3 in SF. assert (G : forall j, Z.abs (sk_fun sk j) <= 20).
    { intros j. unfold sk_fun. destruct (nth_in_or_default j (sk_coeffs sk) 0) as [I| ->]; [|lia]. rewrite Forall_forall in SF. specialize (SF _ I). lia. }
    pose proof (G 0%nat). pose proof (G 1%nat). pose proof (G 2%nat). pose proof (G 3%nat). pose proof (G 4%nat). pose proof (G 5%nat). pose proof (G 6%nat). pose proof (G 7%nat).
    cbn [sumn]. lia. }
  split; [reflexivity|]. split.
  { unfold l. apply so_cons with c ec; cbn [st_level st_keys st_out]; auto. 
    { fold d B1. unfold es. rewrite D1, D2. repeat constructor; cbn [d with_inputs v cd_in length sd]; try lia; cbn [cnoise]; lia. }
    fold d B1 B2. rewrite D1, D2. fold v'. apply so_cons with c' ec'; cbn [st_level st_keys st_out]; auto.
    { fold d'. repeat constructor; cbn; lia. }
    fold d' B3 B4. apply so_nil. }
  split; auto. split; auto. split; [rewrite HB4; change (2 ^ 54) with 18014398509481984; lia|].
  rewrite D1, D2. vm_compute. reflexivity.
Qed.

(*EXAMPLE
(** Two moduli to one: the coefficients carry over and decryption agrees; the
    bounds of the theorem hold for the concrete noise. *)
Example C69_example :
  (P <- test_bfv Debug ;; c <- tctx P ;; c1 <- get (bp_q_ctxs P) 1 ;; let sk := mkSk P [1; -1; 0; 1; 1; 0; 2; -1] in
   pa <- pt_new Debug P [2; 3; 16] 0 EncPoly ;; a <- encrypt Debug sk pa (trows bms 4) (tw 5) ;;
   s <- ct_switch Debug a 1 ;; d <- decrypt Debug sk s ;;
   Ok (map (fun p => map (@length Z) (p_rows p)) (ct_cts s), ct_level s, pt_level d, pt_values d,
       (2 ^ 54 * (2 * switch_noise (cx_Q c / cx_Q c1) 17 7 (fresh_noise P)) <=? (2 ^ 54 - 1) * cx_Q c1)))
  = Ok ([[8%nat]; [8%nat]], 1%nat, 1%nat, [2; 3; 16; 0; 0; 0; 0; 0], true).
Proof. vm_compute. reflexivity. Qed.
(** A program in two stages: a sum on two moduli, the difference on one. *)
Example C69_stages_example :
  (P <- test_bfv Debug ;; let sk := mkSk P [1; -1; 0; 1; 1; 0; 2; -1] in
   pa <- pt_new Debug P [2; 3; 16] 0 EncPoly ;; pb <- pt_new Debug P [1; 0; 0; 5] 0 EncPoly ;;
   a <- encrypt Debug sk pa (trows bms 4) (tw 5) ;; b <- encrypt Debug sk pb (trows bms 6) (tw 7) ;;
   r <- rlk_new Debug sk 0 (trnd 3) ;; let K := mkKeys r [] [] [] in
   let l := [(mkStage 0 K [Plus (Input 0) (Input 1); Input 1], mkSData [] [] []); (mkStage 1 K [Minus (Input 0) (Input 1)], mkSData [] [] [])] in
   outs <- run_stages Debug [a; b] (map fst l) ;; ds <- mapM (decrypt Debug sk) outs ;;
   Ok (map pt_values ds, stages_val 8 17 [[2; 3; 16]; [1; 0; 0; 5]] l))
  = Ok ([[2; 3; 16; 0; 0; 0; 0; 0]], [[2; 3; 16; 0; 0; 0; 0; 0]]).
Proof. vm_compute. reflexivity. Qed.
(** The hypotheses of the theorems on stages can be met, for keys and inputs of a
    program with a product on two moduli and a subtraction on one. *)
Example C69_stages_ok_example pr : exists P c sk l c2 B2, built_params P /\ level P 0 c /\ sk_params sk = P /\ sk_ok sk /\ bp_variance P = 10
  /\ l1norm (bp_degree P) (sk_fun sk) <= 160 /\ map (fun x => st_level (fst x)) l = [0; 1]%nat
  /\ stages_ok pr P sk 160 0 c (fresh_noise P) [[2; 3]; [1; 0; 0; 1]] l 1 c2 B2
  /\ small_basis (rq_moduli_64 c2) /\ 2 * bp_t P <= cx_q c2 0 /\ 2 ^ 54 * (2 * B2) <= (2 ^ 54 - 1) * cx_Q c2
  /\ stages_val (bp_degree P) (bp_t P) [[2; 3]; [1; 0; 0; 1]] l = [[0; 3; 0; 0; 3; 0; 0; 0]].
Proof. exact (stages_hyps pr). Qed.
(** ... and so can those of the theorem on the default parameters. *)
Example C69_default_example pr : exists P sk K cts,
  (ct <- run_circ pr K cts (Times (Input 0) (Input 1)) ;; s <- ct_switch pr ct 1 ;; decrypt pr sk s) = Ok (mkPt P 1 EncNone [2; 3; 0; 2; 3; 0; 0; 0]).
Proof.
  destruct (circuit_hyps pr) as [P [c [w0 [sk [d [K [pts [cts [H1 [H2 [H3 [H4 [H5 [H6 [H7 [H8 H9]]]]]]]]]]]]]]]]. exists P, sk, K, cts.
  rewrite (C69_default pr denv 2 8 (mkBD 4 5) P c 1 w0 sk d K pts cts _ denv_exact ltac:(lia) H1 H2 ltac:(lia) H3 H4 H5 H6 H7 H9 ltac:(cbn [height]; lia)).
  cbn [cval]. rewrite H8. vm_compute. reflexivity.
Qed.
EXAMPLE*)
