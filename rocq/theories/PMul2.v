(** Ciphertext multiplication of the model (src/bfv.rs [multiply_with_strategy]). *)
From Verif Require Import PBase NT Spec PSum MModulus MUtils MNtt MRns MRq MBfv MKsk MGalois PModulus PUtils PNttMath PNtt PNttNew PCrt PRns PRnsScale PUtils2 SpecRq SpecBfv SpecKsk PRing PRq PRq2 PRq3 PRq4 PRq5 PBfv PBfv2 PKsk PGal PRingT PMul.

Local Notation big := 18014398509481984. (* 2^54 *)

Lemma up_coeff Q f y : scaled_coeff 68 Q 1 1 f y -> eqm Q y f /\ 4 * big * Z.abs y <= (2 * big + 1) * Q.
Proof.
  intros [x [X1 [X2 [_ [_ X5]]]]]. specialize (X5 eq_refl). subst y. split; [exact X1|].
  change (2 ^ (191 - 2 * 68)) with (2 * big) in X2. lia.
Qed.

Lemma up3 Q y : 0 <= Q -> 4 * big * Z.abs y <= (2 * big + 1) * Q -> 3 * Z.abs y <= 2 * Q.
Proof. lia. Qed.

Lemma down_coeff QE t Q C y : 1 <= QE -> 0 <= t -> 1 <= Q -> scaled_coeff 68 QE t Q C y -> 9 * Z.abs C <= 4 * QE ->
  2 * big * Z.abs (Q * y - t * C) <= (big + 1) * Q.
Proof.
  intros HE Ht HQ [x [X1 [X2 [Y1 [Y2 _]]]]] HC. change (2 ^ (191 - 2 * 68)) with (2 * big) in X2. change (2 ^ (125 - 68)) with (8 * big) in Y2.
  assert (EX : x = C).
  { change (eqm QE x C) in X1. apply eqm_divide in X1; [|lia]. destruct X1 as [z Z0].
    assert (Z.abs (z * QE) < 1 * QE) by (rewrite <- Z0; lia). rewrite Z.abs_mul, (Z.abs_eq QE) in H by lia.
    apply Z.mul_lt_mono_pos_r in H; [|lia]. assert (z = 0) by lia. subst z. lia. }
  subst x. replace (2 * t * C) with (2 * (t * C)) in * by ring. replace (2 * Q * y) with (2 * (Q * y)) in * by ring.
  set (u := t * C) in *. set (v := Q * y) in *. clearbody u v. lia.
Qed.

Lemma prod_small n f g Q j : (0 < n)%nat -> (j < n)%nat -> 0 <= Q ->
  (forall i, (i < n)%nat -> 4 * big * Z.abs (f i) <= (2 * big + 1) * Q) ->
  (forall i, (i < n)%nat -> 4 * big * Z.abs (g i) <= (2 * big + 1) * Q) ->
  9 * Z.abs (rmul n f g j) <= 4 * (Z.of_nat n * (Q * Q)).
Proof.
  intros Hn Hj HQ Hf Hg.
  assert (B : Z.abs (rmul n (fun i => 3 * f i) (fun i => 3 * g i) j) <= Z.of_nat n * (2 * Q * (2 * Q))).
  { apply rmul_bound; auto; [lia| |]; intros i Hi; rewrite Z.abs_mul; apply up3; auto. }
  rewrite rmul_scal_l, rmul_scal_r, !Z.abs_mul in B. change (Z.abs 3) with 3 in B. lia.
Qed.

Section Mul.
Variables (pr : profile) (P : BfvParams) (i0 : nat) (c : RqContext).
Hypothesis WB : wf_bfv P.
Hypothesis LV : wf_level P i0 c.
Let W : wf_loc c := wf_ctx_loc _ (lv_wf _ _ _ LV).
Let n := rq_degree c.
Let Q := cx_Q c.
Let t := bp_t P.

Lemma multiply_ok ec r s er f0 f1 g0 g1 m m' E E' B S Be :
  get (bp_e_ctxs P) i0 = Ok ec -> small_basis (rq_moduli_64 c) -> small_basis (rq_moduli_64 ec) ->
  2 * Z.of_nat n * (Q * Q) <= cx_Q ec ->
  rlk_params r = P -> ksk_for P c (rlk_ksk r) s (rmul n s s) er ->
  (forall i j, Z.abs (er i j) <= Be) -> l1norm n s <= S -> S < 2 ^ 54 -> 0 <= B <= Q ->
  carries n Q t (phase n s [f0; f1]) m E -> carries n Q t (phase n s [g0; g1]) m' E' ->
  (forall j, (j < n)%nat -> 0 <= m j < t) -> (forall j, (j < n)%nat -> 0 <= m' j < t) ->
  (forall j, (j < n)%nat -> Z.abs (E j) <= B) -> (forall j, (j < n)%nat -> Z.abs (E' j) <= B) ->
  exists h0 h1 E'', multiply_with_strategy pr (ct_of P i0 c [f0; f1]) (ct_of P i0 c [g0; g1]) r = Ok (ct_of P i0 c [h0; h1])
    /\ carries n Q t (phase n s [h0; h1]) (rmul n m m') E''
    /\ forall j, (j < n)%nat -> Z.abs (E'' j) <= mul_noise n t B S + t * ks_bound c Be.
Proof.
  intros GE SB SE HE RP HK HBe HS HS2 HB CF CG Hm Hm' BE BE'.
  destruct (lv_mu _ _ _ LV) as [mu [e [ext [Gm [Ge [_ [_ [We [_ [De [_ [Up Dn]]]]]]]]]]]].
  rewrite GE in Ge. apply Ok_inj in Ge. subst e. specialize (Up SB pr). specialize (Dn SE pr).
  pose proof (wf_ctx_loc _ We) as WE. pose proof (cx_n8 c W) as Hn8. fold n in Hn8. assert (Hn : (0 < n)%nat) by lia.
  pose proof (cx_Q1 c W) as HQ. fold Q in HQ. pose proof (cx_Q1 ec WE) as HQE.
  pose proof (wf_t17 P WB) as Rt. fold t in Rt.
  assert (Dn' : rq_degree ec = n) by (rewrite De; symmetry; apply (lv_n _ _ _ LV)).
  set (F0 := scale_fun (mu_up mu) c 1 1 f0). set (F1 := scale_fun (mu_up mu) c 1 1 f1).
  set (G0 := scale_fun (mu_up mu) c 1 1 g0). set (G1 := scale_fun (mu_up mu) c 1 1 g1).
  set (D0 := scale_fun (mu_down mu) ec t Q (rmul n F0 G0)).
  set (D1 := scale_fun (mu_down mu) ec t Q (fun j => rmul n F0 G1 j + rmul n G0 F1 j)).
  set (D2 := scale_fun (mu_down mu) ec t Q (rmul n F1 G1)).
  assert (UP : forall f j, eqm Q (scale_fun (mu_up mu) c 1 1 f j) (f j) /\ 4 * big * Z.abs (scale_fun (mu_up mu) c 1 1 f j) <= (2 * big + 1) * Q).
  { intros f j. apply up_coeff. apply (scale_fun_spec pr 68 (mu_up mu) c ec 1 1 W Up). }
  assert (DN : forall f j, 9 * Z.abs (f j) <= 4 * cx_Q ec -> 2 * big * Z.abs (Q * scale_fun (mu_down mu) ec t Q f j - t * f j) <= (big + 1) * Q).
  { intros f j Hf. apply down_coeff with (cx_Q ec); auto; [lia..|]. apply (scale_fun_spec pr 68 (mu_down mu) ec c t Q WE Dn). }
  assert (PS : forall f g j, (j < n)%nat -> 9 * Z.abs (rmul n (scale_fun (mu_up mu) c 1 1 f) (scale_fun (mu_up mu) c 1 1 g) j) <= 4 * (Z.of_nat n * (Q * Q))).
  { intros f g j Hj. apply prod_small; auto; [lia| |]; intros i Hi; apply UP. }
  assert (PH : forall a0 a1 j, (j < n)%nat -> eqm Q (phase n s [scale_fun (mu_up mu) c 1 1 a0; scale_fun (mu_up mu) c 1 1 a1] j) (phase n s [a0; a1] j)).
  { intros a0 a1 j Hj. unfold n. rewrite !phase2. apply eqm_add; [apply UP|]. apply rmul_eqm; [intros; reflexivity|]. intros i Hi. apply UP. }
  assert (CV : forall x y a b, (forall j, (j < n)%nat -> eqm Q (x j) (y j)) -> carries n Q t y a b -> carries n Q t x a b).
  { intros x y a b HXY HC j Hj. rewrite <- (HC j Hj). specialize (HXY j Hj). apply eqm_divide in HXY; [|lia]. destruct HXY as [z Z0].
    replace (t * x j) with (t * y j + z * (t * Q)) by (replace (x j) with (y j + z * Q) by lia; ring). apply eqm_add_mult. }
  destruct (mul_carries n Hn Q t S B s ltac:(lia) ltac:(lia) HS HS2 HB F0 F1 G0 G1 D0 D1 D2 m m' E E') as [E2 [C2 B2]]; auto.
  1-4: intros j Hj; apply UP.
  { eapply CV; [|exact CF]. intros; apply PH; auto. }
  { eapply CV; [|exact CG]. intros; apply PH; auto. }
  { intros j Hj. apply DN. pose proof (PS f0 g0 j Hj). unfold F0, G0. lia. }
  { intros j Hj. apply (DN (fun j => rmul n F0 G1 j + rmul n G0 F1 j)). pose proof (PS f0 g1 j Hj). pose proof (PS g0 f1 j Hj). unfold F0, G1, G0, F1.
    pose proof (Z.abs_triangle (rmul n (scale_fun (mu_up mu) c 1 1 f0) (scale_fun (mu_up mu) c 1 1 g1) j) (rmul n (scale_fun (mu_up mu) c 1 1 g0) (scale_fun (mu_up mu) c 1 1 f1) j)). lia. }
  { intros j Hj. apply DN. pose proof (PS f1 g1 j Hj). unfold F1, G1. lia. }
  destruct (relinearize_ok pr P i0 c LV r s (rmul n s s) er D2 Ntt HK ltac:(discriminate)) as [k0 [k1 [ER PR]]].
  exists (fun j => D0 j + k0 j), (fun j => D1 j + k1 j), (fun j => E2 j + t * ks_noise c er D2 j). split; [|split].
  - unfold multiply_with_strategy. cbn [ct_of ct_params ct_level ct_cts map]. rewrite Nat.eqb_refl, RP, params_eqb_refl. cbn [rassert bind length Nat.eqb].
    rewrite Gm. cbn [bind]. change (get [rep c Ntt f0; rep c Ntt f1] 0) with (Ok (rep c Ntt f0)). change (get [rep c Ntt f0; rep c Ntt f1] 1) with (Ok (rep c Ntt f1)).
    change (get [rep c Ntt g0; rep c Ntt g1] 0) with (Ok (rep c Ntt g0)). change (get [rep c Ntt g0; rep c Ntt g1] 1) with (Ok (rep c Ntt g1)). cbn [bind].
    rewrite !(rep_scale pr 68 (mu_up mu) c ec 1 1 W WE Up) by discriminate. cbn [bind]. fold F0 F1 G0 G1.
    repeat (rewrite (rep_mul pr ec WE); cbn [bind]). rewrite (rep_add pr ec WE). cbn [bind]. rewrite Dn'.
    rewrite !(rep_scale pr 68 (mu_down mu) ec c t Q WE W Dn) by discriminate. cbn [bind]. fold D0 D1 D2.
    rewrite ER. cbn [bind]. rewrite !(rep_add pr c W). reflexivity.
  - intros j Hj. pose proof (C2 j Hj) as C. specialize (PR j Hj). unfold n in PR. rewrite phase2 in PR. fold n in PR.
    change (eqm (t * Q) (t * phase n s [fun j => D0 j + k0 j; fun j => D1 j + k1 j] j) (Q * rmul n m m' j + (E2 j + t * ks_noise c er D2 j))).
    change (eqm (t * Q) (t * phase n s [D0; D1; D2] j) (Q * rmul n m m' j + E2 j)) in C.
    apply eqm_divide in PR; [|lia]. destruct PR as [z Z0].
    assert (EP : phase n s [fun j => D0 j + k0 j; fun j => D1 j + k1 j] j = phase n s [D0; D1; D2] j + ks_noise c er D2 j + z * Q).
    { rewrite (phase_eq3 n Hn s D0 D1 D2 j Hj). unfold radd. unfold n. rewrite phase2. rewrite rmul_add_r. fold n.
      rewrite <- (rmul_comm n D2 (rmul n s s)) . lia. }
    rewrite EP. replace (t * (phase n s [D0; D1; D2] j + ks_noise c er D2 j + z * Q)) with (t * phase n s [D0; D1; D2] j + t * ks_noise c er D2 j + z * (t * Q)) by ring.
    rewrite eqm_add_mult. rewrite Z.add_assoc. apply eqm_add; [exact C|reflexivity].
  - intros j Hj. eapply Z.le_trans; [apply ar_lin; lia|]. apply Z.add_le_mono; [apply B2; auto|]. apply Z.mul_le_mono_nonneg_l; [lia|].
    apply (ks_noise_bound P i0 c LV); auto. pose proof (HBe 0%nat 0%nat). lia.
Qed.
End Mul.
