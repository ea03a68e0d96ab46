(** The RGSW ciphertext assembled by the server (src/evaluations.rs:129-148). *)
From Verif Require Import PBase NT Spec PSum MModulus MUtils MNtt MRns MRq MBfv MKsk MGalois MRgsw PModulus PUtils PNttMath PNtt PNttNew PCrt PRns PRnsScale PUtils2 SpecRq SpecBfv SpecKsk PRing PRq PRq2 PRq3 PRq4 PRq5 PBfv PBfv2 PBfv3 PKsk PGal PRingT PKsk2 MEval.

Lemma abs3 x y z A B : Z.abs x <= A -> Z.abs y <= B -> Z.abs z <= B -> Z.abs (x + (y + z)) <= A + 2 * B.
Proof. lia. Qed.

Lemma mapM_post {A B C} (f : A -> outcome B) (g : B -> C) l r : mapM f l = Ok r -> mapM (fun x => y <- f x ;; Ok (g y)) l = Ok (map g r).
Proof.
  revert r. induction l as [|x l IH]; cbn [mapM]; intros r H; [apply Ok_inj in H; subst; reflexivity|].
  apply bind_inv in H. destruct H as [y [E1 H]]. apply bind_inv in H. destruct H as [ys [E2 H]]. apply Ok_inj in H. subst r.
  rewrite E1. cbn [bind]. rewrite (IH ys E2). reflexivity.
Qed.

Lemma build_rgsw_ok pr P c (LV : wf_level P 0 c) rs s e0 e1 b a G u e Be Bs S V vals i :
  let n := rq_degree c in
  ksk_for P c (rg_ksk0 rs) s (rmul n s s) e0 -> ksk_for P c (rg_ksk1 rs) s s e1 -> 0 <= V ->
  (forall i j, Z.abs (e0 i j) <= V) -> (forall i j, Z.abs (e1 i j) <= V) -> gadget c G ->
  (forall k j, (k < cx_k c)%nat -> (j < n)%nat -> phase n s [b k; a k] j mod cx_Q c = (G k * u j + e k j) mod cx_Q c) ->
  (forall k j, Z.abs (e k j) <= Be) -> l1norm n s <= S -> Bs = S * Be + 2 * ks_bound c V ->
  mapM (fun v => get v i) vals = Ok (map (fun k => ct_of P 0 c [b k; a k]) (seq 0 (cx_k c))) ->
  exists r, build_rgsw pr P rs vals i = Ok r
    /\ forall f0 f1, exists h0 h1 w, external_product pr r (ct_of P 0 c [f0; f1]) = Ok (rep c Ntt h0, rep c Ntt h1)
         /\ forall j, (j < n)%nat -> phase n s [h0; h1] j mod cx_Q c = (rmul n u (phase n s [f0; f1]) j + w j) mod cx_Q c
              /\ Z.abs (w j) <= ks_bound c Be + ks_bound c Bs.
Proof.
  intros n H0 H1 V0 N0 N1 HG HP HE HS HBs HV. subst n.
  assert (Be0 : 0 <= Be) by (pose proof (HE 0%nat 0%nat); lia).
  pose proof (cx_n8 c (wf_ctx_loc _ (lv_wf _ _ _ LV))) as N8.
  destruct (external_digits pr P c LV rs s e0 e1 b a G u e H0 H1 HG HP) as [b' [a' [EX HP']]].
  destruct (from_rlwes_ok P c LV b a G u e s HG HP) as [k1 [EK1 HK1]].
  set (e' := fun k j => if (j <? rq_degree c)%nat then rmul (rq_degree c) s (e k) j + (ks_noise c e0 (a k) j + ks_noise c e1 (b k) j) else 0).
  assert (HP2 : forall k j, (k < cx_k c)%nat -> (j < rq_degree c)%nat ->
    phase (rq_degree c) s [b' k; a' k] j mod cx_Q c = (G k * rmul (rq_degree c) s u j + e' k j) mod cx_Q c).
  { intros k j Hk Hj. unfold e'. apply Nat.ltb_lt in Hj as Hj'. rewrite Hj'. apply HP'; auto. }
  destruct (from_rlwes_ok P c LV b' a' G (rmul (rq_degree c) s u) e' s HG HP2) as [k0 [EK0 HK0]].
  exists (mkRgsw k0 k1). split.
  - unfold build_rgsw. rewrite HV. cbn [bind].
    assert (EU : mapM (fun c0 => '(c1, c2) <- external_product pr rs c0 ;; Ok (mkCt P [c1; c2] 0)) (map (fun k => ct_of P 0 c [b k; a k]) (seq 0 (cx_k c)))
      = Ok (digit_cts P c b' a')).
    { apply (mapM_post _ (fun y : Poly * Poly => mkCt P [fst y; snd y] 0)) in EX. unfold digit_cts in EX |- *. rewrite map_map in EX. cbn [fst snd] in EX.
      etransitivity; [|exact EX]. apply mapM_mapM_ext. intros x _. destruct (external_product pr rs x) as [[? ?]| | |]; reflexivity. }
    rewrite EU. cbn [bind]. fold (digit_cts P c b a). rewrite EK1. cbn [bind]. rewrite EK0. reflexivity.
  - intros f0 f1. destruct (external_ok pr P 0 c LV (mkRgsw k0 k1) s u e' e f0 f1 HK0 HK1) as [h0 [h1 [EE HPE]]].
    exists h0, h1, (fun j => ks_noise c e' f1 j + ks_noise c e f0 j). split; auto. intros j Hj. split; [apply (HPE j Hj)|].
    assert (KB : 0 <= ks_bound c V).
    { pose proof (ks_noise_bound P 0 c LV e0 V f1 j Hj V0 ltac:(auto)). lia. }
    assert (HS0 : 0 <= S) by (pose proof (l1_nonneg (rq_degree c) s); lia).
    assert (Bs0 : 0 <= Bs) by (subst Bs; apply Z.add_nonneg_nonneg; [apply Z.mul_nonneg_nonneg; lia|lia]).
    pose proof (ks_noise_bound P 0 c LV e Be f0 j Hj Be0 ltac:(auto)).
    assert (NE : forall k l, (k < cx_k c)%nat -> Z.abs (e' k l) <= Bs).
    { intros k l Hk. unfold e'. destruct (Nat.ltb_spec l (rq_degree c)) as [Hl|]; [|lia].
      pose proof (ks_noise_bound P 0 c LV e0 V (a k) l Hl V0 ltac:(auto)).
      pose proof (ks_noise_bound P 0 c LV e1 V (b k) l Hl V0 ltac:(auto)).
      pose proof (rmul_bound_l1 (rq_degree c) s (e k) Be l (Nat.lt_le_trans 0 8 _ ltac:(repeat constructor) N8) Hl Be0 ltac:(auto)) as RB.
      assert (l1norm (rq_degree c) s * Be <= S * Be) by (apply Z.mul_le_mono_nonneg_r; auto).
      subst Bs. apply abs3; auto. eapply Z.le_trans; eassumption. }
    pose proof (ks_noise_bound P 0 c LV e' Bs f1 j Hj Bs0 NE). lia.
Qed.
