(** Claim C67: keys made from keys with the external product. *)
From Verif Require Import PBase NT Spec PSum MModulus MUtils MNtt MRns MRq MBfv MKsk MGalois MRgsw MRgswT PModulus PUtils PNttMath PNtt PNttNew PCrt PRns PRnsScale PUtils2 SpecRq SpecBfv SpecKsk PRing PRq PRq2 PRq3 PRq4 PRq5 PBfv PBfv2 PBfv3 QBfv PKsk PGal PRingT PKsk2 MEval PAsm QKsk TestBfv.

Lemma combine_map_seq {A B} (f : nat -> A) (g : nat -> B) l : combine (map f l) (map g l) = map (fun i => (f i, g i)) l.
Proof. induction l as [|x l IH]; cbn [map combine]; [reflexivity|]. rewrite IH. reflexivity. Qed.

Section T.
Variables (pr : profile) (P : BfvParams) (i0 : nat) (c : RqContext).
Hypothesis WB : wf_bfv P.
Hypothesis LV : wf_level P i0 c.
Let n := rq_degree c.

Lemma ks_bound_nonneg V : 0 <= V -> 0 <= ks_bound c V.
Proof.
  intros HV. pose proof (cx_n8 c (wf_ctx_loc _ (lv_wf _ _ _ LV))) as N8.
  eapply Z.le_trans; [apply Z.abs_nonneg|]. apply (ks_noise_bound P i0 c LV (fun _ _ => 0) V (fun _ => 0) 0%nat); [lia|exact HV|].
  intros; exact HV.
Qed.

Lemma transform_digits r s m e0 e1 V b a G u e Be : ksk_for P c (rg_ksk0 r) s (rmul n s m) e0 -> ksk_for P c (rg_ksk1 r) s m e1 ->
  0 <= V -> (forall i j, Z.abs (e0 i j) <= V) -> (forall i j, Z.abs (e1 i j) <= V) -> gadget c G ->
  (forall i j, (i < cx_k c)%nat -> (j < n)%nat -> phase n s [b i; a i] j mod cx_Q c = (G i * u j + e i j) mod cx_Q c) ->
  (forall i j, Z.abs (e i j) <= Be) ->
  exists b' a' e', (forall i, (i < cx_k c)%nat -> external_product pr r (mkCt P [rep c Ntt (b i); rep c Ntt (a i)] 0) = Ok (rep c Ntt (b' i), rep c Ntt (a' i)))
    /\ (forall i j, (i < cx_k c)%nat -> (j < n)%nat -> phase n s [b' i; a' i] j mod cx_Q c = (G i * rmul n m u j + e' i j) mod cx_Q c)
    /\ forall i j, Z.abs (e' i j) <= l1norm n m * Be + 2 * ks_bound c V.
Proof.
  intros H0 H1 V0 N0 N1 HG HP HE. pose proof (cx_n8 c (wf_ctx_loc _ (lv_wf _ _ _ LV))) as N8. fold n in N8.
  destruct (fin_choice (fun _ : nat => 0, fun _ : nat => 0) (fun i (x : (nat -> Z) * (nat -> Z)) =>
      external_product pr r (ct_of P i0 c [b i; a i]) = Ok (rep c Ntt (fst x), rep c Ntt (snd x))
      /\ forall j, (j < n)%nat -> eqm (cx_Q c) (phase n s [fst x; snd x] j) (rmul n m (phase n s [b i; a i]) j + (ks_noise c e0 (a i) j + ks_noise c e1 (b i) j))) (cx_k c)) as [x Hx].
  { intros i Hi. destruct (external_ok pr P i0 c LV r s m e0 e1 (b i) (a i) H0 H1) as [h0 [h1 [EE HH]]]. exists (h0, h1). auto. }
  exists (fun i => fst (x i)), (fun i => snd (x i)),
    (fun i j => if ((j <? n) && (i <? cx_k c))%nat then rmul n m (e i) j + (ks_noise c e0 (a i) j + ks_noise c e1 (b i) j) else 0).
  split; [|split].
  - intros i Hi. destruct (Hx i Hi) as [E _]. exact E.
  - intros i j Hi Hj. destruct (Hx i Hi) as [_ H]. apply Nat.ltb_lt in Hj as Hj'. apply Nat.ltb_lt in Hi as Hi'. rewrite Hj', Hi'. cbn [andb].
    change (eqm (cx_Q c) (phase n s [fst (x i); snd (x i)] j) (G i * rmul n m u j + (rmul n m (e i) j + (ks_noise c e0 (a i) j + ks_noise c e1 (b i) j)))).
    rewrite (H j Hj). rewrite (Z.add_assoc (G i * _)). apply eqm_add; [|reflexivity].
    rewrite <- rmul_scal_r, <- rmul_add_r. apply rmul_eqm; [intros; reflexivity|]. intros l Hl. apply (HP i l Hi Hl).
  - intros i j. assert (Be0 : 0 <= Be) by (pose proof (HE 0%nat 0%nat); lia). pose proof (ks_bound_nonneg V V0) as KB.
    assert (LN : 0 <= l1norm n m * Be) by (apply Z.mul_nonneg_nonneg; auto; apply l1_nonneg).
    destruct (Nat.ltb_spec j n) as [Hj|]; cbn [andb]; [|change (Z.abs 0) with 0; lia].
    destruct (Nat.ltb_spec i (cx_k c)) as [Hi|]; [|change (Z.abs 0) with 0; lia].
    apply abs3.
    + apply rmul_bound_l1; auto. lia.
    + apply (ks_noise_bound P i0 c LV e0 V (a i) j Hj V0 ltac:(auto)).
    + apply (ks_noise_bound P i0 c LV e1 V (b i) j Hj V0 ltac:(auto)).
Qed.

Lemma transform_ok r s m e0 e1 V k u e Be : ksk_for P c (rg_ksk0 r) s (rmul n s m) e0 -> ksk_for P c (rg_ksk1 r) s m e1 ->
  0 <= V -> (forall i j, Z.abs (e0 i j) <= V) -> (forall i j, Z.abs (e1 i j) <= V) ->
  ksk_for P c k s u e -> (forall i j, Z.abs (e i j) <= Be) ->
  exists k' e', ksk_transform pr r k = Ok k' /\ ksk_for P c k' s (rmul n m u) e'
    /\ forall i j, Z.abs (e' i j) <= l1norm n m * Be + 2 * ks_bound c V.
Proof.
  intros H0 H1 V0 N0 N1 [K1 [K2 [K3 [b [a [G [HG [E0 [E1 HP]]]]]]]]] HE.
  destruct (transform_digits r s m e0 e1 V b a G u e Be H0 H1 V0 N0 N1 HG HP HE) as [b' [a' [e' [EX [HP' HE']]]]].
  unfold ksk_transform. rewrite K1, K2, K3, E0, E1, combine_map_seq.
  rewrite (mapM_seq _ _ (fun i => (rep c Ntt (b' i), rep c Ntt (a' i)))) by (intros i Hi; cbn [fst snd]; apply EX; auto).
  cbn [bind]. rewrite !map_map. cbn [fst snd]. eexists. exists e'. split; [reflexivity|]. split; [|exact HE'].
  split; [reflexivity|]. split; [reflexivity|]. split; [reflexivity|]. exists b', a', G. auto.
Qed.

Lemma acts_ok r s m e0 e1 B0 B1 : ksk_for P c (rg_ksk0 r) s (rmul n s m) e0 -> ksk_for P c (rg_ksk1 r) s m e1 ->
  0 <= B0 -> 0 <= B1 -> (forall i j, Z.abs (e0 i j) <= B0) -> (forall i j, Z.abs (e1 i j) <= B1) ->
  forall f0 f1, exists h0 h1 w, external_product pr r (ct_of P i0 c [f0; f1]) = Ok (rep c Ntt h0, rep c Ntt h1)
    /\ forall j, (j < n)%nat -> phase n s [h0; h1] j mod cx_Q c = (rmul n m (phase n s [f0; f1]) j + w j) mod cx_Q c
         /\ Z.abs (w j) <= ks_bound c B0 + ks_bound c B1.
Proof.
  intros H0 H1 P0 P1 N0 N1 f0 f1. destruct (external_ok pr P i0 c LV r s m e0 e1 f0 f1 H0 H1) as [h0 [h1 [EE HH]]].
  exists h0, h1, (fun j => ks_noise c e0 f1 j + ks_noise c e1 f0 j). split; [exact EE|]. intros j Hj. split; [apply (HH j Hj)|].
  pose proof (ks_noise_bound P i0 c LV e0 B0 f1 j Hj P0 ltac:(auto)). pose proof (ks_noise_bound P i0 c LV e1 B1 f0 j Hj P1 ltac:(auto)). lia.
Qed.
End T.

(** C67: a key-switching key for u, multiplied by an RGSW encryption of m, is a
    key-switching key for m*u. *)
Lemma C67_transform_lem :
  forall pr P i c sk m u rnd rnd0 rnd1, built_params P -> level P i c -> sk_params sk = P -> sk_ok sk ->
    1 <= bp_variance P <= 16 -> rnd_ok c rnd -> rnd_ok c rnd0 -> rnd_ok c rnd1 ->
    let n := bp_degree P in let V := 2 * bp_variance P in
    exists r k k', rgsw_encrypt_poly pr sk (rep c Ntt m) rnd0 rnd1 = Ok r /\ ksk_new pr sk (rep c Ntt u) i i rnd = Ok k
      /\ ksk_transform pr r k = Ok k'
      /\ forall p, exists h0 h1 w, key_switch pr k' (rep c PowerBasis p) = Ok (rep c Ntt h0, rep c Ntt h1)
           /\ forall j, (j < n)%nat -> phase n (sk_fun sk) [h0; h1] j mod cx_Q c = (rmul n p (rmul n m u) j + w j) mod cx_Q c
                /\ Z.abs (w j) <= ks_bound c (l1norm n m * V + 2 * ks_bound c V).
Proof.
  intros pr P i c sk m u rnd rnd0 rnd1 BP L SP SO Hv HR R0 R1. cbv zeta.
  pose proof (built_params_wf P BP) as WB. destruct (level_wf P i c WB L) as [_ LV]. assert (SK : sk_of P sk) by (split; auto).
  destruct (rgsw_poly_ok pr P i c WB LV sk m rnd0 rnd1 SK Hv R0 R1) as [r [e0 [e1 [ER [K0 [K1 [N0 N1]]]]]]].
  destruct (ksk_new_ok pr P i c LV sk u rnd SK Hv HR) as [k [e [EK [HK HE]]]].
  destruct (transform_ok pr P i c LV r (sk_fun sk) m e0 e1 (2 * bp_variance P) k u e (2 * bp_variance P) K0 K1 ltac:(lia) N0 N1 HK HE) as [k' [e' [ET [HK' HE']]]].
  exists r, k, k'. split; [exact ER|]. split; [exact EK|]. split; [exact ET|]. intros p.
  destruct (key_switch_ok pr P i c LV k' (sk_fun sk) _ e' p HK') as [h0 [h1 [ES HS]]]. rewrite (lv_n _ _ _ LV) in HS, HE'.
  exists h0, h1, (ks_noise c e' p). split; [exact ES|]. intros j Hj. split; [apply (HS j Hj)|].
  apply (ks_noise_bound P i c LV); [rewrite (lv_n _ _ _ LV); exact Hj| |auto]. pose proof (HE' 0%nat 0%nat). lia.
Qed.

(** C67: the product of RGSW encryptions of m1 and m2 acts as m1*m2. *)
Lemma C67_product_lem :
  forall pr P i c sk m1 m2 rnd0 rnd1 rnd2 rnd3, built_params P -> level P i c -> sk_params sk = P -> sk_ok sk ->
    1 <= bp_variance P <= 16 -> rnd_ok c rnd0 -> rnd_ok c rnd1 -> rnd_ok c rnd2 -> rnd_ok c rnd3 ->
    let n := bp_degree P in let V := 2 * bp_variance P in
    exists r1 r2 r, rgsw_encrypt_poly pr sk (rep c Ntt m1) rnd0 rnd1 = Ok r1 /\ rgsw_encrypt_poly pr sk (rep c Ntt m2) rnd2 rnd3 = Ok r2
      /\ rgsw_product pr r1 r2 = Ok r
      /\ forall f0 f1, exists h0 h1 w, external_product pr r (ct_of P i c [f0; f1]) = Ok (rep c Ntt h0, rep c Ntt h1)
           /\ forall j, (j < n)%nat ->
                phase n (sk_fun sk) [h0; h1] j mod cx_Q c = (rmul n (rmul n m1 m2) (phase n (sk_fun sk) [f0; f1]) j + w j) mod cx_Q c
                /\ Z.abs (w j) <= 2 * ks_bound c (l1norm n m1 * V + 2 * ks_bound c V).
Proof.
  intros pr P i c sk m1 m2 rnd0 rnd1 rnd2 rnd3 BP L SP SO Hv R0 R1 R2 R3. cbv zeta.
  pose proof (built_params_wf P BP) as WB. destruct (level_wf P i c WB L) as [_ LV]. assert (SK : sk_of P sk) by (split; auto).
  pose proof (cx_n8 c (wf_ctx_loc _ (lv_wf _ _ _ LV))) as N8.
  destruct (rgsw_poly_ok pr P i c WB LV sk m1 rnd0 rnd1 SK Hv R0 R1) as [r1 [e0 [e1 [ER1 [K0 [K1 [N0 N1]]]]]]].
  destruct (rgsw_poly_ok pr P i c WB LV sk m2 rnd2 rnd3 SK Hv R2 R3) as [r2 [e2 [e3 [ER2 [K2 [K3 [N2 N3]]]]]]].
  assert (V0 : 0 <= 2 * bp_variance P) by lia.
  destruct (transform_ok pr P i c LV r1 (sk_fun sk) m1 e0 e1 _ _ _ e2 _ K0 K1 V0 N0 N1 K2 N2) as [k0 [e0' [ET0 [HK0 HE0]]]].
  destruct (transform_ok pr P i c LV r1 (sk_fun sk) m1 e0 e1 _ _ _ e3 _ K0 K1 V0 N0 N1 K3 N3) as [k1 [e1' [ET1 [HK1 HE1]]]].
  exists r1, r2, (mkRgsw k0 k1). split; [exact ER1|]. split; [exact ER2|]. split.
  { unfold rgsw_product. rewrite ET0. cbn [bind]. rewrite ET1. reflexivity. }
  assert (HK0' : ksk_for P c k0 (sk_fun sk) (rmul (rq_degree c) (sk_fun sk) (rmul (rq_degree c) m1 m2)) e0').
  { destruct HK0 as [A1 [A2 [A3 [b [a [G [HG [E0 [E1 HP]]]]]]]]]. split; auto. split; auto. split; auto. exists b, a, G. split; auto. split; auto. split; auto.
    intros l j Hl Hj. rewrite (HP l j Hl Hj). do 3 f_equal.
    rewrite <- (rmul_assoc (rq_degree c) ltac:(lia) m1 (sk_fun sk) m2). rewrite <- (rmul_assoc (rq_degree c) ltac:(lia) (sk_fun sk) m1 m2).
    apply rmul_ext; auto. intros q Hq. apply rmul_comm. }
  intros f0 f1. rewrite (lv_n _ _ _ LV) in *.
  assert (B0 : 0 <= l1norm (bp_degree P) m1 * (2 * bp_variance P) + 2 * ks_bound c (2 * bp_variance P)) by (pose proof (HE0 0%nat 0%nat); lia).
  destruct (acts_ok pr P i c LV (mkRgsw k0 k1) (sk_fun sk) (rmul (bp_degree P) m1 m2) e0' e1' _ _ ltac:(rewrite (lv_n _ _ _ LV); exact HK0') HK1 B0 B0 HE0 HE1 f0 f1) as [h0 [h1 [w [EE HH]]]].
  rewrite (lv_n _ _ _ LV) in HH. exists h0, h1, w. split; [exact EE|]. intros j Hj. destruct (HH j Hj) as [A B]. split; [exact A|]. lia.
Qed.

(** C67: a full RGSW ciphertext assembled from its lower half and the encrypted
    secret key. *)
Lemma C67_full_from_half_lem :
  forall pr P c sk u rnd rnd0 rnd1, built_params P -> level P 0 c -> sk_params sk = P -> sk_ok sk ->
    1 <= bp_variance P <= 16 -> rnd_ok c rnd -> rnd_ok c rnd0 -> rnd_ok c rnd1 ->
    let n := bp_degree P in let V := 2 * bp_variance P in
    exists rs k r, (s <- sk_ntt pr c (sk_coeffs sk) ;; rgsw_encrypt_poly pr sk s rnd0 rnd1) = Ok rs
      /\ ksk_new pr sk (rep c Ntt u) 0 0 rnd = Ok k /\ full_from_half pr P rs k = Ok r
      /\ forall f0 f1, exists h0 h1 w, external_product pr r (ct_of P 0 c [f0; f1]) = Ok (rep c Ntt h0, rep c Ntt h1)
           /\ forall j, (j < n)%nat -> phase n (sk_fun sk) [h0; h1] j mod cx_Q c = (rmul n u (phase n (sk_fun sk) [f0; f1]) j + w j) mod cx_Q c
                /\ Z.abs (w j) <= ks_bound c (l1norm n (sk_fun sk) * V + 2 * ks_bound c V) + ks_bound c V.
Proof.
  intros pr P c sk u rnd rnd0 rnd1 BP L SP SO Hv HR R0 R1. cbv zeta.
  pose proof (built_params_wf P BP) as WB. destruct (level_wf P 0 c WB L) as [_ LV]. assert (SK : sk_of P sk) by (split; auto).
  assert (V0 : 0 <= 2 * bp_variance P) by lia.
  destruct (rgsw_poly_ok pr P 0 c WB LV sk (sk_fun sk) rnd0 rnd1 SK Hv R0 R1) as [rs [e0 [e1 [ER [K0 [K1 [N0 N1]]]]]]].
  destruct (ksk_new_ok pr P 0 c LV sk u rnd SK Hv HR) as [k [e [EK [HK HE]]]].
  pose proof HK as [A1 [A2 [A3 [b [a [G [HG [E0 [E1 HP]]]]]]]]].
  destruct (transform_digits pr P 0 c LV rs (sk_fun sk) (sk_fun sk) e0 e1 _ b a G u e _ K0 K1 V0 N0 N1 HG HP HE) as [b' [a' [e' [EX [HP' HE']]]]].
  destruct (from_rlwes_ok P c LV b' a' G _ e' (sk_fun sk) HG HP') as [k0 [EK0 HK0]].
  exists rs, k, (mkRgsw k0 k). split.
  { destruct SO as [S1 S2]. rewrite SP in S2. rewrite (sk_ntt_ok pr P 0 c LV) by auto. cbn [bind]. exact ER. }
  split; [exact EK|]. split.
  { unfold full_from_half. rewrite E0, E1, combine_map_seq.
    rewrite (mapM_seq _ _ (fun i => ct_of P 0 c [b' i; a' i])) by (intros i Hi; cbn [fst snd]; rewrite EX by auto; reflexivity).
    cbn [bind]. fold (digit_cts P c b' a'). rewrite EK0. reflexivity. }
  intros f0 f1. rewrite (lv_n _ _ _ LV) in *.
  assert (B0 : 0 <= l1norm (bp_degree P) (sk_fun sk) * (2 * bp_variance P) + 2 * ks_bound c (2 * bp_variance P)) by (pose proof (HE' 0%nat 0%nat); lia).
  destruct (acts_ok pr P 0 c LV (mkRgsw k0 k) (sk_fun sk) u e' e _ _ ltac:(rewrite (lv_n _ _ _ LV); exact HK0) HK B0 V0 HE' HE f0 f1) as [h0 [h1 [w [EE HH]]]].
  rewrite (lv_n _ _ _ LV) in HH. exists h0, h1, w. split; [exact EE|]. exact HH.
Qed.

(*EXAMPLE
(** RGSW(1 + X) * RGSW(X^7 + 2) on an encryption of 2 + 3X; RGSW(1 + X)
    completed from its lower half on the same encryption; and the sequence of
    the test [construct_full_from_half] with b = 1, m = 2 + 3X: the lower half
    made from a plaintext carries the scaled b and the unscaled m is encrypted,
    so what decrypts is b * (m + e), e the encryption error of m. *)
Example C67_example :
  (P <- test_bfv3 Release ;; c <- tctx P ;; let sk := mkSk P [1; -1; 0; 1; 1; 0; 2; -1] in
   pa <- pt_new Release P [2; 3] 0 EncPoly ;; p1 <- pt_new Release P [1; 1] 0 EncPoly ;; p2 <- pt_new Release P [2; 0; 0; 0; 0; 0; 0; 1] 0 EncPoly ;;
   a <- encrypt Release sk pa (trows bms3 4) (tw 5) ;;
   r1 <- rgsw_encrypt Release sk p1 (trnd3 3) (trnd3 4) ;; r2 <- rgsw_encrypt Release sk p2 (trnd3 5) (trnd3 6) ;;
   r <- rgsw_product Release r1 r2 ;;
   '(c0, c1) <- external_product Release r a ;; d <- decrypt Release sk (mkCt P [c0; c1] 0) ;;
   s <- sk_ntt Release c (sk_coeffs sk) ;; rs <- rgsw_encrypt_poly Release sk s (trnd3 7) (trnd3 8) ;;
   let after k a := (r' <- full_from_half Release P rs k ;; '(d0, d1) <- external_product Release r' a ;;
                     d' <- decrypt Release sk (mkCt P [d0; d1] 0) ;; Ok (pt_values d')) in
   u <- poly_from_i64 Release c [1; 1] ;; u <- change_repr Release u Ntt ;; k <- ksk_new Release sk u 0 0 (trnd3 9) ;; v1 <- after k a ;;
   pb <- pt_new Release P [1] 0 EncPoly ;; k <- ksk_new_with_pt Release sk pb 0 0 (trnd3 9) ;;
   m <- poly_from_i64 Release c [2; 3] ;; m <- change_repr Release m Ntt ;; mc <- encrypt_poly Release sk m (trows bms3 4) (tw 5) ;; v2 <- after k mc ;;
   Ok (pt_values d, v1, v2))
  = Ok ([16; 7; 6; 0; 0; 0; 0; 2], [2; 5; 3; 0; 0; 0; 0; 0], [1; 2; 0; 0; 0; 0; 16; 16]).
Proof. vm_compute. reflexivity. Qed.
EXAMPLE*)
