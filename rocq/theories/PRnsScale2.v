(** RnsScaler::scale (src/rns.rs:298-431). *)
From Verif Require Import PBase NT Spec PSum MModulus MUtils MRns PModulus PUtils PU256 PCrt PRns PRnsScale.

(** ** Pure arithmetic facts *)
Lemma mul_w64 a b : 0 <= a < W64 -> 0 <= b < W64 -> 0 <= a * b <= (W64 - 1) * (W64 - 1).
Proof. intros. nia. Qed.
Lemma word3_val r lo hi : 0 <= r < W64 -> 0 <= lo < W64 -> 0 <= hi < W64 ->
  let l := r * lo in let h := r * hi + l / W64 in
  as64 l + as64 h * W64 + as64 (h / W64) * W128 = r * (lo + hi * W64)
  /\ 0 <= h < W128.
Proof.
  intros Hr Hl Hh l h. pose proof (mul_w64 r lo Hr Hl) as Bl. pose proof (mul_w64 r hi Hr Hh) as Bh.
  replace (r * (lo + hi * W64)) with (l + r * hi * W64) by (unfold l; ring).
  assert (HB : 0 <= h < W128).
  { unfold h, l in *. clear -Bl Bh. set (a := r * lo) in *. set (b := r * hi) in *. clearbody a b. dlia. }
  split; auto. unfold h in *. clear h. fold l in Bl. set (b := r * hi) in *. clearbody l b.
  unfold as64. clear Hr Hl Hh. change W128 with (W64 * W64) in *.
  pose proof (Z.div_mod l W64 ltac:(lia)). pose proof (Z.mod_pos_bound l W64 ltac:(lia)).
  set (x := b + l / W64) in *.
  pose proof (Z.div_mod x W64 ltac:(lia)). pose proof (Z.mod_pos_bound x W64 ltac:(lia)).
  rewrite (Z.mod_small (x / W64)) by (clear - HB; dlia). unfold x in *. nia.
Qed.

Lemma round2 T sh : 1 <= sh -> 0 <= T -> (T / 2 ^ (sh - 1) + 2 - 1) / 2 = (T + 2 ^ (sh - 1)) / 2 ^ sh.
Proof.
  intros Hs HT. replace (2 ^ sh) with (2 ^ (sh - 1) * 2).
  2:{ rewrite <- (Z.pow_succ_r 2 (sh - 1)) || idtac. replace sh with (Z.succ (sh - 1)) at 2 by lia. rewrite Z.pow_succ_r by lia. ring. }
  assert (0 < 2 ^ (sh - 1)) by (apply Z.pow_pos_nonneg; lia).
  set (b := 2 ^ (sh - 1)) in *. clearbody b. rewrite <- Z.div_div by lia.
  f_equal. replace (T + b) with (T + 1 * b) by ring. rewrite Z.div_add by lia. lia.
Qed.

Lemma round_neg T : (( - T - 1) / 2 ^ 126 + 1) / 2 = - ((T + 2 ^ 126) / 2 ^ 127).
Proof. dlia. Qed.

Lemma word_v_val pr v lo hi : 0 <= v < 2 ^ 65 -> 0 <= lo < W64 -> 0 <= hi < W64 -> lo + hi * W64 <= 2 ^ 126 ->
  exists ll lh hl hh mi1 mi h1 h,
    mul128 pr (as64 v) lo = Ok ll /\ mul128 pr (as64 v) hi = Ok lh /\
    mul128 pr (Z.shiftr v 64) lo = Ok hl /\ mul128 pr (Z.shiftr v 64) hi = Ok hh /\
    add128 pr (Z.shiftr ll 64) (as64 lh) = Ok mi1 /\ add128 pr mi1 (as64 hl) = Ok mi /\
    add128 pr (Z.shiftr lh 64) (Z.shiftr mi 64) = Ok h1 /\ add128 pr h1 (as64 hh) = Ok h /\
    u256_ok (u256_of4 (as64 ll) (as64 mi) (as64 h) 0) /\
    u256_val (u256_of4 (as64 ll) (as64 mi) (as64 h) 0) = v * (lo + hi * W64).
Proof.
  intros Hv Hl Hh Hs.
  pose proof (Z.div_mod v W64 ltac:(lia)) as DV. pose proof (Z.mod_pos_bound v W64 ltac:(lia)) as MV.
  assert (HV : 0 <= v / W64 <= 1) by (clear - Hv; dlia).
  set (v0 := v mod W64) in *. set (v1 := v / W64) in *.
  assert (Hh2 : hi <= 2 ^ 62) by nia.
  pose proof (mul_w64 v0 lo MV Hl) as B1. pose proof (mul_w64 v0 hi MV Hh) as B2.
  assert (V1 : v1 = 0 \/ v1 = 1) by lia.
  assert (B3 : 0 <= v1 * lo < W64) by (destruct V1 as [-> | ->]; lia).
  assert (B4 : 0 <= v1 * hi < W64) by (destruct V1 as [-> | ->]; lia).
  rewrite shiftr64. unfold as64 at 1 2. fold v0 v1.
  exists (v0 * lo), (v0 * hi), (v1 * lo), (v1 * hi).
  rewrite !mul128_ok by lia.
  set (a := v0 * lo) in *. set (b := v0 * hi) in *. set (c := v1 * lo) in *. set (d := v1 * hi) in *.
  assert (EV : v * (lo + hi * W64) = a + (b + c) * W64 + d * W128).
  { rewrite DV. unfold a, b, c, d. change W128 with (W64 * W64). ring. }
  assert (HM : a + (b + c) * W64 + d * W128 < W192).
  { rewrite <- EV. revert Hs. generalize (lo + hi * W64) (Z.add_nonneg_nonneg lo (hi * W64) ltac:(lia) ltac:(lia)). clear - Hv.
    intros t Ht Hs. assert (v * t <= 2 ^ 65 * 2 ^ 126) by (apply Z.mul_le_mono_nonneg; lia). lia. }
  rewrite EV. clear EV DV MV HV Hs Hh2. rewrite !shiftr64. unfold as64 at 1.
  exists (a / W64 + b mod W64), (a / W64 + b mod W64 + c),
    (b / W64 + (a / W64 + b mod W64 + c) / W64), (b / W64 + (a / W64 + b mod W64 + c) / W64 + d).
  rewrite (as64_small c), (as64_small d) by auto.
  clearbody a b c d. clear Hv Hl Hh V1 v0 v1.
  assert (D1 : 0 <= a / W64 < W64) by (clear - B1; dlia).
  assert (D2 : 0 <= b / W64 < W64) by (clear - B2; dlia).
  pose proof (Z.div_mod b W64 ltac:(lia)) as E2. pose proof (Z.mod_pos_bound b W64 ltac:(lia)) as E3.
  pose proof (Z.div_mod a W64 ltac:(lia)) as E4. pose proof (Z.mod_pos_bound a W64 ltac:(lia)) as E5.
  set (m := a / W64 + b mod W64 + c) in *.
  assert (D3 : 0 <= m < 3 * W64) by (unfold m; lia).
  assert (D4 : 0 <= m / W64 < 3) by (clearbody m; clear - D3; dlia).
  pose proof (Z.div_mod m W64 ltac:(lia)) as E6. pose proof (Z.mod_pos_bound m W64 ltac:(lia)) as E7.
  rewrite !shiftr64. fold m.
  split; [auto|]. split; [auto|]. split; [auto|]. split; [auto|].
  split; [apply add128_ok; lia|]. split; [apply add128_ok; unfold m in D3; lia|].
  split; [apply add128_ok; lia|]. split; [apply add128_ok; lia|].
  unfold u256_of4, u256_ok, u256_val. cbn [u0 u1 u2 u3]. unfold as64.
  split; [repeat split; try (apply Z.mod_pos_bound; lia); lia|].
  rewrite (Z.mod_small (b / W64 + m / W64 + d)).
  2:{ unfold m in *. change W192 with (W64 * W128) in HM. change W128 with (W64 * W64) in *. lia. }
  change W128 with (W64 * W64). unfold m in *. lia.
Qed.

Lemma word_v_zero pr v : 0 <= v < W128 ->
  exists ll lh hl hh mi1 mi h1 h,
    mul128 pr (as64 v) 0 = Ok ll /\ mul128 pr (as64 v) 0 = Ok lh /\
    mul128 pr (Z.shiftr v 64) 0 = Ok hl /\ mul128 pr (Z.shiftr v 64) 0 = Ok hh /\
    add128 pr (Z.shiftr ll 64) (as64 lh) = Ok mi1 /\ add128 pr mi1 (as64 hl) = Ok mi /\
    add128 pr (Z.shiftr lh 64) (Z.shiftr mi 64) = Ok h1 /\ add128 pr h1 (as64 hh) = Ok h /\
    u256_ok (u256_of4 (as64 ll) (as64 mi) (as64 h) 0) /\
    u256_val (u256_of4 (as64 ll) (as64 mi) (as64 h) 0) = v * (0 + 0 * W64).
Proof.
  intros Hv. exists 0, 0, 0, 0, 0, 0, 0, 0. rewrite !mul128_ok by (rewrite Z.mul_0_r; lia). rewrite !Z.mul_0_r.
  change (Z.shiftr 0 64) with 0. change (as64 0) with 0. rewrite !add128_ok by lia. change (0 + 0) with 0.
  repeat (split; [reflexivity|]). split; [unfold u256_ok, u256_of4; cbn [u0 u1 u2 u3]; lia|]. unfold u256_val, u256_of4. cbn [u0 u1 u2 u3]. lia.
Qed.

(** Distinct integers below B are at most B many. *)
Lemma nodup_bound l B : 0 <= B -> NoDup l -> (forall x, In x l -> 0 <= x < B) -> Z.of_nat (length l) <= B.
Proof.
  intros HB ND H. assert (E : exists b, B = Z.of_nat b) by (exists (Z.to_nat B); lia). destruct E as [b ->]. clear HB.
  apply inj_le. rewrite <- (map_length Z.to_nat l). apply Nat.le_trans with (length (seq 0 b)); [|rewrite seq_length; lia]. apply NoDup_incl_length.
  - clear - ND H. induction ND as [|x l Hx ND IH]; cbn [map]; constructor.
    + intros Hi. apply in_map_iff in Hi. destruct Hi as [y [E Hy]]. apply Hx. assert (x = y); [|subst; auto].
      pose proof (H x (or_introl eq_refl)). pose proof (H y (or_intror Hy)). lia.
    + apply IH. intros. apply H. right. auto.
  - intros y Hy. apply in_map_iff in Hy. destruct Hy as [x [<- Hx]]. specialize (H x Hx). apply in_seq. lia.
Qed.

Lemma rns_k_bound c ms : wf_rns c ms -> Z.of_nat (length ms) <= 2 ^ 64.
Proof.
  intros W. apply Z.le_trans with (2 ^ 62); [|lia]. pose proof (wr_range _ _ W) as R. rewrite Forall_forall in R.
  apply nodup_bound; [lia| |intros x Hx; specialize (R x Hx); lia].
  apply (NoDup_nth ms 1). intros i j Hi Hj E. destruct (Nat.eq_dec i j) as [|Hne]; auto. exfalso.
  pose proof (wr_pw _ _ W i j Hi Hj Hne) as G. rewrite <- E in G. apply Zgcd_1_rel_prime in G. rewrite Z.gcd_diag in G.
  specialize (R (nth i ms 1) (nth_In ms 1 Hi)). lia.
Qed.

Lemma scale_inner_ok pr q rests gs f yi : valid_mod q -> length rests = length gs ->
  (forall i, (i < length rests)%nat -> 0 <= nth i rests 0 < W64) -> 0 <= yi ->
  yi + 2 * mp q * Z.of_nat (length rests) < W128 ->
  exists y, scale_inner pr q rests (map (fun g => f g mod mp q) gs) (map (fun g => shoup_of (mp q) (f g mod mp q)) gs) yi = Ok y
    /\ yi <= y <= yi + 2 * mp q * Z.of_nat (length rests)
    /\ eqm (mp q) y (yi + sumn (length rests) (fun i => nth i rests 0 * f (nth i gs 0))).
Proof.
  intros V. pose proof (valid_range q V) as Hq. revert gs yi.
  induction rests as [|r rests IH]; intros [|g gs] yi HL HR H0 HB; simpl in HL; try lia.
  - cbn [scale_inner map length sumn]. exists yi. split; auto. split; [lia|]. apply eq_eqm. lia.
  - cbn [scale_inner map length] in *.
    destruct (lazy_mul_shoup_ok pr q r (f g mod mp q) V (HR 0%nat ltac:(lia))) as [t [Et [Rt Ct]]].
    { apply Z.mod_pos_bound. lia. }
    rewrite Et. cbn [bind]. rewrite add128_ok by nia. cbn [bind].
    destruct (IH gs (yi + t)) as [y [Ey [Ry Cy]]]; try lia.
    { intros i Hi. apply (HR (S i)). lia. }
    exists y. split; auto. split; [lia|]. rewrite Cy, Ct, sumn_S_l. cbn [nth].
    rewrite (eqm_mod (mp q) (f g)). apply eq_eqm. ring.
Qed.

Section Scale.
Variable pr : profile.

Lemma sum_theta_garner_ok los his rests acc :
  length los = length rests -> length his = length rests ->
  (forall i, (i < length rests)%nat -> 0 <= nth i los 0 < W64 /\ 0 <= nth i his 0 < W64 /\ 0 <= nth i rests 0 < W64) ->
  0 <= acc ->
  acc + sumn (length rests) (fun i => nth i rests 0 * (nth i los 0 + nth i his 0 * W64)) < W192 ->
  sum_theta_garner pr los his rests acc
   = Ok (acc + sumn (length rests) (fun i => nth i rests 0 * (nth i los 0 + nth i his 0 * W64))).
Proof.
  revert his rests acc. induction los as [|lo los IH]; intros [|hi his] [|r rests] acc L1 L2 H H0 HS; simpl in L1, L2; try lia.
  - cbn [sum_theta_garner length sumn]. f_equal. lia.
  - cbn [sum_theta_garner length] in *. rewrite sumn_S_l in *. cbn [nth] in *.
    destruct (H 0%nat ltac:(lia)) as [B1 [B2 B3]]. cbn [nth] in B1, B2, B3.
    destruct (word3_val r lo hi B3 B1 B2) as [WV WB]. cbv zeta in WV, WB.
    pose proof (mul_w64 r lo B3 B1) as Bl. pose proof (mul_w64 r hi B3 B2) as Bh.
    rewrite !mul128_ok by lia. cbn [bind]. rewrite shiftr64. rewrite add128_ok by lia. cbn [bind].
    rewrite shiftr64, WV.
    set (rest := sumn (length rests) (fun i => nth i rests 0 * (nth i los 0 + nth i his 0 * W64))) in *.
    assert (Hnn : 0 <= rest).
    { apply sumn_nonneg. intros i Hi. destruct (H (S i) ltac:(lia)) as [C1 [C2 C3]]. cbn [nth] in C1, C2, C3. nia. }
    assert (Hp : 0 <= r * (lo + hi * W64)) by nia.
    rewrite Z.mod_small by (clearbody rest; lia).
    rewrite IH; [fold rest; clearbody rest; f_equal; lia|lia|lia|intros i Hi; apply (H (S i)); lia|lia|fold rest; clearbody rest; lia].
Qed.

Lemma sum_theta_omega_ok los his sgs rests acc :
  length los = length rests -> length his = length rests -> length sgs = length rests ->
  (forall i, (i < length rests)%nat -> 0 <= nth i los 0 < W64 /\ 0 <= nth i his 0 < W64 /\ 0 <= nth i rests 0 < W64) ->
  u256_ok acc ->
  exists a, sum_theta_omega pr los his sgs rests acc = Ok a /\ u256_ok a /\
    eqm W256 (u256_val a) (u256_val acc +
      sumn (length rests) (fun i => nth i rests 0 * tsigned (nth i sgs false) (nth i los 0) (nth i his 0))).
Proof.
  revert his sgs rests acc. induction los as [|lo los IH]; intros [|hi his] [|sg sgs] [|r rests] acc L1 L2 L3 H OK;
    simpl in L1, L2, L3; try lia.
  - cbn [sum_theta_omega length sumn]. exists acc. split; auto. split; auto. apply eq_eqm. lia.
  - cbn [sum_theta_omega length] in *. rewrite sumn_S_l. cbn [nth] in *.
    destruct (H 0%nat ltac:(lia)) as [B1 [B2 B3]]. cbn [nth] in B1, B2, B3.
    destruct (word3_val r lo hi B3 B1 B2) as [WV WB]. cbv zeta in WV, WB.
    pose proof (mul_w64 r lo B3 B1) as Bl. pose proof (mul_w64 r hi B3 B2) as Bh.
    rewrite !mul128_ok by lia. cbn [bind]. rewrite shiftr64. rewrite add128_ok by lia. cbn [bind].
    rewrite shiftr64.
    set (word := u256_of4 _ _ _ 0).
    assert (Wok : u256_ok word /\ u256_val word = r * (lo + hi * W64)).
    { unfold word, u256_of4, u256_ok, u256_val. cbn [u0 u1 u2 u3]. rewrite Z.mul_0_l, Z.add_0_r, WV.
      split; [|reflexivity]. unfold as64. repeat split; try (apply Z.mod_pos_bound; lia); lia. }
    destruct Wok as [W1 W2]. clearbody word.
    set (acc' := if sg then u256_sub acc word else u256_add acc word).
    assert (A : u256_ok acc' /\ eqm W256 (u256_val acc') (u256_val acc + r * tsigned sg lo hi)).
    { unfold acc', tsigned. destruct sg.
      - destruct (u256_sub_spec acc word OK W1) as [A1 A2]. split; auto. rewrite A2, W2.
        rewrite eqm_mod. apply eq_eqm. ring.
      - destruct (u256_add_spec acc word OK W1) as [A1 A2]. split; auto. rewrite A2, W2.
        rewrite eqm_mod. apply eq_eqm. ring. }
    destruct A as [A1 A2]. clearbody acc'.
    destruct (IH his sgs rests acc') as [a [E [Ha Va]]]; try lia; auto.
    { intros i Hi. apply (H (S i)). lia. }
    exists a. split; auto. split; auto. rewrite Va, A2. apply eq_eqm. ring.
Qed.

Variables (s : RnsScaler) (from to : RnsContext) (ms mt : list Z) (N D : Z).
Hypothesis W : wf_scaler s from to ms mt N D.
Let k := length ms.
Let Q := zprod ms.
Let sh := rs_theta_garner_shift s.
Let tg i := nth i (rs_theta_garner_lo s) 0 + nth i (rs_theta_garner_hi s) 0 * W64.
Variable rests : list Z.
Hypothesis HL : length rests = k.
Hypothesis HR : forall i, (i < k)%nat -> 0 <= nth i rests 0 < nth i ms 1.
Variable L : Z.
Hypothesis HRM : scale_room L N D ms.
Let r i := nth i rests 0.
Let R := sumn k r.
Let S := sumn k (fun i => r i * nth i (rns_garner from) 0).
Let T := sumn k (fun i => r i * tg i).
Let V := (T + 2 ^ (sh - 1)) / 2 ^ sh.

Lemma sc_q i : (i < k)%nat -> 2 <= nth i ms 1 < P62.
Proof. intros Hi. apply (range_nth ms i (wr_range _ _ (wc_wf _ _ _ _ _ _ _ W)) Hi). Qed.
Lemma sc_Q : 1 <= Q.
Proof. apply (wr_Q _ _ (wc_wf _ _ _ _ _ _ _ W)). Qed.
Lemma sc_r i : (i < k)%nat -> 0 <= r i < P62.
Proof. intros Hi. pose proof (HR i Hi). pose proof (sc_q i Hi). unfold r. lia. Qed.
Lemma sc_L : 65 <= L <= 94.
Proof. apply HRM. Qed.
Lemma sc_sh : 191 - L <= sh <= 127.
Proof. destruct (wc_sh _ _ _ _ _ _ _ W) as [H1 [_ H3]]. pose proof sc_L as HL0. split; [apply H3; [clear - HL0; lia|apply HRM]|apply H1]. Qed.
Lemma sc_2L : 2 ^ 65 <= 2 ^ L <= 2 ^ 94.
Proof. pose proof sc_L. split; apply Z.pow_le_mono_r; lia. Qed.

(** Sum of the residues is small. *)
Lemma sc_Rb e : 0 <= e -> (forall q, In q ms -> q * Z.of_nat k <= 2 ^ e) -> 0 <= R < 2 ^ e.
Proof.
  intros He HB. assert (P0 : 0 < 2 ^ e) by (apply Z.pow_pos_nonneg; lia).
  enough (G : 0 <= R /\ (k <> O -> R + Z.of_nat k <= 2 ^ e) /\ (k = O -> R = 0)).
  { destruct G as [G1 [G2 G3]]. split; auto. destruct (Nat.eq_dec k 0) as [E|E]; [rewrite G3 by auto; exact P0|].
    specialize (G2 E). revert G2 E. generalize R k. clear. intros. lia. }
  split; [|split; [|intros E; unfold R; rewrite E; reflexivity]]; [apply sumn_nonneg; intros i Hi; apply sc_r; auto|].
  intros E.
  assert (A : (R + Z.of_nat k) * Z.of_nat k <= Z.of_nat k * 2 ^ e).
  { rewrite <- (sumn_const k (2 ^ e)).
    replace (R + Z.of_nat k) with (sumn k (fun i => r i + 1)).
    2:{ rewrite sumn_add, sumn_const. unfold R. lia. }
    rewrite <- sumn_mul_r. apply sumn_le. intros i Hi.
    specialize (HB (nth i ms 1) (nth_In ms 1 Hi)). pose proof (HR i Hi). unfold r. clear - HB H. nia. }
  revert A P0. generalize (2 ^ e). clear - E. intros. nia.
Qed.
Lemma sc_R : 0 <= R < 2 ^ L.
Proof. pose proof sc_L as HL0. apply sc_Rb; [clear - HL0; lia|apply HRM]. Qed.

Lemma sc_tg i : (i < k)%nat ->
  tg i = (nth i (rns_garner from) 0 * 2 ^ sh + Q / 2) / Q /\ 0 <= tg i <= 2 ^ sh
  /\ 2 * Z.abs (tg i * Q - nth i (rns_garner from) 0 * 2 ^ sh) <= Q.
Proof.
  intros Hi. destruct (wc_tgi _ _ _ _ _ _ _ W i Hi) as [_ [_ E]]. fold sh Q in E. fold (tg i) in E.
  split; auto. pose proof sc_sh as Bs. pose proof sc_L as HL0. pose proof sc_Q as HQ.
  destruct (wr_g _ _ (wc_wf _ _ _ _ _ _ _ W) i Hi) as [G _]. fold Q in G.
  split; [rewrite E; apply tgarner_bound; [auto|lia]|].
  rewrite E. clear E. set (a := nth i (rns_garner from) 0 * 2 ^ sh). clearbody a. clearbody Q. clear - HQ.
  pose proof (floor_bounds (a + Q / 2) Q ltac:(lia)) as F. set (y := (a + Q / 2) / Q) in *. clearbody y.
  dlia.
Qed.

Lemma sc_T : 0 <= T <= R * 2 ^ sh.
Proof.
  split.
  - apply sumn_nonneg. intros i Hi. pose proof (sc_r i Hi). destruct (sc_tg i Hi) as [_ [H1 _]]. nia.
  - unfold R. rewrite <- sumn_mul_r. apply sumn_le. intros i Hi.
    pose proof (sc_r i Hi). destruct (sc_tg i Hi) as [_ [H1 _]]. nia.
Qed.

Lemma sc_TS : 2 * Z.abs (T * Q - S * 2 ^ sh) <= R * Q.
Proof.
  assert (E : T * Q - S * 2 ^ sh = sumn k (fun i => r i * (tg i * Q - nth i (rns_garner from) 0 * 2 ^ sh))).
  { unfold T, S. rewrite <- !sumn_mul_r, <- sumn_sub. apply sumn_ext. intros. ring. }
  rewrite E. eapply Z.le_trans; [apply Z.mul_le_mono_nonneg_l; [lia|]; apply sumn_abs|].
  rewrite <- sumn_mul_l. unfold R. rewrite <- sumn_mul_r. apply sumn_le. intros i Hi.
  pose proof (sc_r i Hi). destruct (sc_tg i Hi) as [_ [_ H2]]. rewrite Z.abs_mul.
  rewrite (Z.abs_eq (r i)) by lia.
  set (z := Z.abs _) in *. clearbody z. clear - H H2. nia.
Qed.

Lemma sc_pow : 2 ^ sh = 2 * 2 ^ (sh - 1) /\ 0 < 2 ^ (sh - 1).
Proof.
  pose proof sc_sh. pose proof sc_L. split; [|apply Z.pow_pos_nonneg; lia].
  rewrite <- Z.pow_succ_r by lia. f_equal. lia.
Qed.

Lemma sc_V : 0 <= V <= R.
Proof.
  pose proof sc_pow as [P1 P2]. pose proof sc_T as HT. pose proof (proj1 sc_R) as HR0. unfold V.
  rewrite P1 in HT |- *. revert HT P2 HR0. generalize (2 ^ (sh - 1)) T R. clear. intros b TT RR HT P2 HR0. split; [apply Z.div_pos; lia|].
  apply Z.lt_succ_r. apply Z.div_lt_upper_bound; nia.
Qed.

Lemma scale_v_ok : scale_v pr s rests = Ok V.
Proof.
  unfold scale_v. pose proof sc_sh as Bs. pose proof sc_L as HL0. pose proof sc_2L as HL2. pose proof sc_T as HT. pose proof sc_R as HR0. pose proof sc_pow as [P1 P2].
  destruct (wc_tgl _ _ _ _ _ _ _ W) as [L1 L2].
  assert (TW : T < W192).
  { destruct (wc_sh _ _ _ _ _ _ _ W) as [_ [H2 _]]. fold sh in H2. pose proof (sc_Rb (191 - sh) ltac:(lia) H2) as HRb.
    assert (P3 : 2 ^ (191 - sh) * 2 ^ sh = 2 ^ 191) by (rewrite <- Z.pow_add_r by lia; f_equal; lia).
    change (2 ^ 191) with (2 ^ 191) in P3. assert (P4 : 0 < 2 ^ sh) by lia.
    revert HT HRb P3 P4. generalize (2 ^ (191 - sh)) (2 ^ sh) T R. clear. intros a b TT RR HT HRb P3 P4.
    assert (RR * b <= a * b) by nia. lia. }
  assert (ES : sumn (length rests) (fun i => nth i rests 0 * (nth i (rs_theta_garner_lo s) 0 + nth i (rs_theta_garner_hi s) 0 * W64)) = T).
  { rewrite HL. reflexivity. }
  rewrite sum_theta_garner_ok; try (rewrite HL; auto; fail); try lia.
  2:{ intros i Hi. rewrite HL in Hi. destruct (wc_tgi _ _ _ _ _ _ _ W i Hi) as [A1 [A2 _]]. pose proof (sc_r i Hi). unfold r in *. lia. }
  rewrite ES, Z.add_0_l. cbn [bind]. fold sh.
  rewrite sub64_ok by lia. cbn [bind]. rewrite (shiftr_div T) by lia.
  set (x := T / 2 ^ (sh - 1)).
  assert (Bx : 0 <= x < 2 ^ 96).
  { unfold x. split; [apply Z.div_pos; lia|]. apply Z.div_lt_upper_bound; [lia|].
    set (b := 2 ^ (sh - 1)) in *. rewrite P1 in HT. revert HT HR0 P2 HL2. generalize b T R (2 ^ L). clear. intros b TT RR l HT HR0 P2 HL2.
    assert (RR < 2 ^ 94) by lia. nia. }
  rewrite shiftr64.
  assert (EV : Z.lor (as64 x) (Z.shiftl (as64 (x / W64)) 64) = x).
  { unfold as64. rewrite (Z.mod_small (x / W64)) by (clear - Bx; clearbody x; dlia).
    rewrite lor_disjoint; [|lia|]. 2:{ apply Z.mod_pos_bound. lia. }
    change (2 ^ 64) with W64. pose proof (Z.div_mod x W64 ltac:(lia)). lia. }
  rewrite EV. clear EV. rewrite div_ceil_ok; [|lia|lia|clear - Bx; clearbody x; lia].
  f_equal. unfold x, V. apply round2; lia.
Qed.

(** The represented value used by the code. *)
Definition xrep := S - V * Q.

Lemma xrep_bound : 2 ^ (191 - 2 * L) * (2 * Z.abs xrep - Q) <= Q.
Proof.
  pose proof sc_TS as H1. pose proof sc_pow as [P1 P2]. pose proof sc_sh as Bs. pose proof sc_Q as HQ. pose proof sc_L as HL0.
  destruct sc_R as [R0 R1]. unfold xrep.
  assert (F1 : V * 2 ^ sh <= T + 2 ^ (sh - 1) < V * 2 ^ sh + 2 ^ sh).
  { unfold V. apply floor_bounds. lia. }
  destruct (Z_le_dec 0 (191 - 2 * L)) as [HN|HN].
  2:{ rewrite Z.pow_neg_r by (clear - HN; lia). clear - HQ. lia. }
  assert (P3 : 2 ^ (191 - 2 * L) * 2 ^ L <= 2 * 2 ^ (sh - 1)).
  { rewrite <- Z.pow_add_r, <- Z.pow_succ_r by (clear - HL0 HN Bs; lia). apply Z.pow_le_mono_r; clear - HL0 HN Bs; lia. }
  assert (P4 : 0 < 2 ^ (191 - 2 * L)) by (apply Z.pow_pos_nonneg; [reflexivity|exact HN]).
  rewrite P1 in H1, F1. revert H1 P2 P3 P4 HQ R0 R1 F1. generalize (2 ^ (191 - 2 * L)) (2 ^ L) (2 ^ (sh - 1)) T R S V Q. clear.
  intros w l b TT RR SS VV QQ H1 P2 P3 P4 HQ R0 R1 F1.
  assert (A : 2 * b * Z.abs (SS - VV * QQ) <= Z.abs (TT * QQ - SS * (2 * b)) + b * QQ) by nia.
  assert (B : 4 * b * Z.abs (SS - VV * QQ) <= RR * QQ + 2 * b * QQ) by nia.
  assert (C : 2 * b * (2 * Z.abs (SS - VV * QQ) - QQ) <= l * QQ) by nia.
  set (y := 2 * Z.abs (SS - VV * QQ) - QQ) in *. clearbody y. clear - C P2 P3 P4 HQ R0 R1.
  destruct (Z_le_dec y 0); [nia|].
  assert (w * (2 * b * y) <= w * (l * QQ)) by nia.
  assert (w * l * QQ <= 2 * b * QQ) by nia. nia.
Qed.

Lemma xrep_eqm x : (forall i, (i < k)%nat -> eqm (nth i ms 1) x (r i)) -> eqm Q xrep x.
Proof.
  intros Hx. pose proof (wc_wf _ _ _ _ _ _ _ W) as WF. transitivity S.
  - unfold xrep. rewrite <- (Z.add_0_r S) at 2. rewrite <- Z.add_opp_r. apply eqm_add; [reflexivity|].
    apply eqm_divide; [pose proof sc_Q as HQ; revert HQ; generalize Q; clear; intros; lia|]. exists (- V). ring.
  - apply (crt_unique from ms WF). intros j Hj. fold k in Hj. rewrite (Hx j Hj).
    rewrite <- (crt_sum_res from ms WF r j Hj). apply eq_eqm. unfold S, crt_sum. apply sumn_ext. intros. ring.
Qed.

(** *** The correction term *)
Let th i := tsigned (nth i (rs_theta_omega_sign s) false) (nth i (rs_theta_omega_lo s) 0) (nth i (rs_theta_omega_hi s) 0).
Let thg := tsigned (rs_theta_gamma_sign s) (rs_theta_gamma_lo s) (rs_theta_gamma_hi s).
Let STO := sumn k (fun i => r i * th i) - V * thg.
Let Wc := (STO + 2 ^ 126) / 2 ^ 127.

Lemma tsigned_abs sg lo hi B : 0 <= lo + hi * W64 <= B -> Z.abs (tsigned sg lo hi) <= B.
Proof. unfold tsigned. destruct sg; lia. Qed.

Lemma sc_STO : Z.abs STO <= 2 ^ 221.
Proof.
  pose proof sc_R as B. pose proof sc_2L as HL2. pose proof sc_V as BV. unfold STO.
  assert (A1 : Z.abs (sumn k (fun i => r i * th i)) <= R * 2 ^ 126).
  { eapply Z.le_trans; [apply sumn_abs|]. unfold R. rewrite <- sumn_mul_r. apply sumn_le. intros i Hi.
    pose proof (sc_r i Hi) as Hr. destruct (wc_to_ _ _ _ _ _ _ _ W i Hi) as [B1 [B2 [B3 _]]].
    rewrite Z.abs_mul, (Z.abs_eq (r i)) by apply Hr.
    apply Z.mul_le_mono_nonneg_l; [apply Hr|]. apply tsigned_abs. lia. }
  assert (A2 : Z.abs thg <= 2 ^ 126).
  { destruct (wc_tg _ _ _ _ _ _ _ W) as [B1 [B2 [B3 _]]]. apply tsigned_abs. lia. }
  revert B BV A1 A2 HL2. generalize (2 ^ L) R V (sumn k (fun i => r i * th i)) thg. clear. intros l R V a b B BV A1 A2 HL2.
  assert (Z.abs (V * b) <= 2 ^ 94 * 2 ^ 126) by (rewrite Z.abs_mul; nia).
  assert (R * 2 ^ 126 <= 2 ^ 94 * 2 ^ 126) by nia. lia.
Qed.

Lemma scale_w_ok : N <> D -> exists sg w, scale_w pr s rests V = Ok (sg, w) /\ 0 <= w < 2 ^ 96 /\
   (if sg then - w else w) = Wc.
Proof.
  intros Hne. unfold scale_w. rewrite (wc_one _ _ _ _ _ _ _ W).
  replace (N =? D) with false by (symmetry; apply Z.eqb_neq; auto).
  destruct (wc_tol _ _ _ _ _ _ _ W) as [L1 [L2 L3]]. fold k in L1, L2, L3.
  destruct u256_zero_spec as [Z1 Z2].
  destruct (sum_theta_omega_ok (rs_theta_omega_lo s) (rs_theta_omega_hi s) (rs_theta_omega_sign s) rests u256_zero)
    as [a [Ea [Oa Va]]]; try congruence.
  { intros i Hi. rewrite HL in Hi. destruct (wc_to_ _ _ _ _ _ _ _ W i Hi) as [B1 [B2 _]]. pose proof (sc_r i Hi) as B3.
    unfold r in B3. split; [auto|]. split; [auto|]. split; [apply B3|]. eapply Z.lt_trans; [apply B3|]. reflexivity. }
  rewrite Ea. cbn [bind]. clear Ea. rewrite Z2, Z.add_0_l, HL in Va.
  change (eqm W256 (u256_val a) (sumn k (fun i => r i * th i))) in Va.
  pose proof sc_R as BR. pose proof sc_V as BV.
  destruct (wc_tg _ _ _ _ _ _ _ W) as [G1 [G2 [G3 _]]].
  assert (WVV : exists ll lh hl hh mi1 mi h1 h,
    mul128 pr (as64 V) (rs_theta_gamma_lo s) = Ok ll /\ mul128 pr (as64 V) (rs_theta_gamma_hi s) = Ok lh /\
    mul128 pr (Z.shiftr V 64) (rs_theta_gamma_lo s) = Ok hl /\ mul128 pr (Z.shiftr V 64) (rs_theta_gamma_hi s) = Ok hh /\
    add128 pr (Z.shiftr ll 64) (as64 lh) = Ok mi1 /\ add128 pr mi1 (as64 hl) = Ok mi /\
    add128 pr (Z.shiftr lh 64) (Z.shiftr mi 64) = Ok h1 /\ add128 pr h1 (as64 hh) = Ok h /\
    u256_ok (u256_of4 (as64 ll) (as64 mi) (as64 h) 0) /\
    u256_val (u256_of4 (as64 ll) (as64 mi) (as64 h) 0) = V * (rs_theta_gamma_lo s + rs_theta_gamma_hi s * W64)).
  { destruct HRM as [_ [_ [E65|HDv]]].
    - apply word_v_val; auto. rewrite E65 in BR. split; [apply BV|]. eapply Z.le_lt_trans; [apply BV|apply BR].
    - assert (RR0 : rr N D Q = 0).
      { pose proof (wc_D _ _ _ _ _ _ _ W) as HD. destruct HDv as [z Hz]. unfold rr, rq, Q. rewrite Hz. clear - HD.
        rewrite Z.div_add_l by lia. rewrite (Z.div_small (D / 2)) by dlia. ring. }
      assert (T0 : rs_theta_gamma_lo s = 0 /\ rs_theta_gamma_hi s = 0).
      { destruct (wc_tg _ _ _ _ _ _ _ W) as [_ [_ [_ G4]]]. fold Q in G4. rewrite RR0 in G4. pose proof (wc_D _ _ _ _ _ _ _ W) as HD.
        unfold theta_ok, tsigned in G4. clear - G1 G2 G4 HD. assert (X : rs_theta_gamma_lo s + rs_theta_gamma_hi s * W64 = 0).
        { destruct (rs_theta_gamma_sign s); nia. }
        revert X G1 G2. generalize (rs_theta_gamma_lo s) (rs_theta_gamma_hi s). intros. lia. }
      destruct T0 as [-> ->]. apply word_v_zero. pose proof sc_2L as HL2. split; [apply BV|].
      revert BR BV HL2. generalize R V (2 ^ L). clear. intros. lia. }
  destruct WVV as [ll [lh [hl [hh [mi1 [mi [h1 [h [E1 [E2 [E3 [E4 [E5 [E6 [E7 [E8 [WO WV]]]]]]]]]]]]]]]]].
  cbv zeta. rewrite E1; cbn [bind]. rewrite E2; cbn [bind]. rewrite E3; cbn [bind]. rewrite E4; cbn [bind].
  rewrite E5; cbn [bind]. rewrite E6; cbn [bind]. rewrite E7; cbn [bind]. rewrite E8; cbn [bind].
  clear E1 E2 E3 E4 E5 E6 E7 E8.
  set (word := u256_of4 (as64 ll) (as64 mi) (as64 h) 0) in *. clearbody word.
  set (sto := if rs_theta_gamma_sign s then u256_add a word else u256_sub a word).
  assert (HS : u256_ok sto /\ eqm W256 (u256_val sto) STO).
  { unfold sto, STO, thg, tsigned. destruct (rs_theta_gamma_sign s).
    - destruct (u256_add_spec a word Oa WO) as [A1 A2]. split; auto. rewrite A2, WV, eqm_mod, Va.
      apply eq_eqm. ring.
    - destruct (u256_sub_spec a word Oa WO) as [A1 A2]. split; auto. rewrite A2, WV, eqm_mod, Va.
      apply eq_eqm. ring. }
  destruct HS as [OS VS]. clearbody sto. clear Va WV WO.
  pose proof sc_STO as BS. unfold Wc.
  pose proof (u256_val_range sto OS) as RS. rewrite u256_msb_spec by auto.
  revert VS BS. generalize STO. intros X VS BS.
  assert (CASE : (X < 0 /\ u256_val sto = X + W256) \/ (0 <= X /\ u256_val sto = X)).
  { unfold eqm in VS. rewrite Z.mod_small in VS by auto. clear - VS BS RS.
    destruct (Z_lt_dec X 0) as [L|L]; [left|right]; (split; [lia|]); rewrite VS.
    - symmetry. apply Z.mod_unique with (-1); lia.
    - apply Z.mod_small. lia. }
  destruct CASE as [[C1 C2]|[C1 C2]].
  - assert (M : 0 <? u256_val sto / 2 ^ 255 = true).
    { apply Z.ltb_lt. apply Z.div_str_pos. lia. }
    rewrite M. destruct (u256_not_spec sto OS) as [NO NV].
    destruct (u256_shr_spec pr (u256_not sto) 126 ltac:(lia) NO) as [y [Ey [Oy Vy]]].
    rewrite Ey. cbn [bind]. rewrite NV, C2 in Vy.
    replace (W256 - 1 - (X + W256)) with (- X - 1) in Vy by lia.
    assert (By : 0 <= u256_val y < 2 ^ 96) by (rewrite Vy; clear - C1 BS; dlia).
    rewrite u256_to_u128_spec by (auto; lia). cbn [bind]. rewrite add128_ok by lia. cbn [bind].
    eexists true, _. split; [reflexivity|]. rewrite Vy in By |- *. split; [clear - By; dlia|].
    rewrite round_neg. ring.
  - assert (M : 0 <? u256_val sto / 2 ^ 255 = false).
    { rewrite C2, Z.div_small by lia. reflexivity. }
    rewrite M.
    destruct (u256_shr_spec pr sto 126 ltac:(lia) OS) as [y [Ey [Oy Vy]]].
    rewrite Ey. cbn [bind]. rewrite C2 in Vy.
    assert (By : 0 <= u256_val y < 2 ^ 96) by (rewrite Vy; clear - C1 BS; dlia).
    rewrite u256_to_u128_spec by (auto; lia). cbn [bind]. rewrite div_ceil_ok by lia. cbn [bind].
    eexists false, _. split; [reflexivity|]. rewrite Vy in By |- *. split; [clear - By; dlia|].
    change 126 with (127 - 1). rewrite round2 by lia. reflexivity.
Qed.

Let om i := rq N D (nth i (rns_garner from) 0).
Let gam := rq N D Q.
(** The integer whose residues are produced. *)
Definition yrep := sumn k (fun i => r i * om i) - V * gam + (if N =? D then 0 else Wc).

Lemma scale_out_ok (sg : bool) w i : (i < length mt)%nat -> 0 <= w < 2 ^ 96 ->
  (N <> D -> (if sg then - w else w) = Wc) ->
  scale_out pr s rests V (sg, w) i = Ok (yrep mod nth i mt 1).
Proof.
  intros Hi Hw HW. unfold scale_out.
  pose proof (wc_wt _ _ _ _ _ _ _ W) as WT. pose proof (wc_wf _ _ _ _ _ _ _ W) as WF.
  pose proof (rns_mods_length _ _ WT) as LT.
  destruct (forall2_nth _ _ _ 1 dmod i (wr_mod _ _ WT) Hi) as [VM Em].
  set (qm := nth i (rns_moduli to) dmod) in *. pose proof (valid_range qm VM) as Bq.
  rewrite (wc_to _ _ _ _ _ _ _ W), (getu_ok _ i dmod) by congruence. cbn [bind]. fold qm.
  rewrite (wc_omega _ _ _ _ _ _ _ W), (getu_ok _ i []) by (rewrite map_length; auto). cbn [bind].
  rewrite (wc_omegas _ _ _ _ _ _ _ W), (getu_ok _ i []) by (rewrite map_length; auto). cbn [bind].
  rewrite (wc_gamma _ _ _ _ _ _ _ W), (getu_ok _ i 0) by (rewrite map_length; auto). cbn [bind].
  rewrite (wc_gammas _ _ _ _ _ _ _ W), (getu_ok _ i 0) by (rewrite map_length; auto). cbn [bind].
  rewrite !(nth_map' _ mt 1) by auto. rewrite <- Em. fold Q.
  pose proof sc_R as BR. pose proof sc_V as BV.
  assert (BV2 : 0 <= V < 2 ^ 94) by (split; [apply BV|eapply Z.le_lt_trans; [apply BV|eapply Z.lt_le_trans; [apply BR|apply sc_2L]]]).
  rewrite mul64_ok by (clear - Bq; lia). cbn [bind].
  rewrite mreduce_u128_ok; [|auto|revert BV2; generalize V; clear; intros; lia]. cbn [bind].
  pose proof (Z.mod_pos_bound V (mp qm) ltac:(clear - Bq; lia)) as BVm.
  destruct (lazy_mul_shoup_ok pr qm (V mod mp qm) (rq N D Q mod mp qm) VM) as [g [Eg [Rg Cg]]].
  { split; [apply BVm|]. eapply Z.lt_trans; [apply BVm|]. clear - Bq; lia. }
  { apply Z.mod_pos_bound. clear - Bq; lia. }
  rewrite Eg. cbn [bind]. rewrite sub64_ok by (clear - Bq Rg; lia). cbn [bind].
  rewrite !map_length, (wr_gl _ _ WF), HL.
  rewrite (wc_one _ _ _ _ _ _ _ W).
  assert (E1 : exists y1, (if N =? D then Ok (mp qm * 2 - g)
      else wi <- lazy_reduce_u128 pr qm w ;;
           t <- (if sg then sub64 pr (mp qm * 2) wi else Ok wi) ;; add128 pr (mp qm * 2 - g) t) = Ok y1
      /\ 0 <= y1 <= 4 * mp qm /\ eqm (mp qm) y1 (- V * gam + (if N =? D then 0 else Wc))).
  { assert (CG : eqm (mp qm) (mp qm * 2 - g) (- V * gam)).
    { rewrite Cg. rewrite (eqm_mod (mp qm) V), (eqm_mod (mp qm) (rq N D Q)). fold gam.
      apply eqm_divide; [clear - Bq; lia|]. exists 2. ring. }
    destruct (N =? D) eqn:End.
    - eexists. split; [reflexivity|]. split; [clear - Bq Rg; lia|]. rewrite CG. apply eq_eqm. ring.
    - apply Z.eqb_neq in End. specialize (HW End).
      destruct (lazy_reduce_u128_val qm w VM ltac:(clear - Hw; lia) pr) as [wi [Ew [Rw Cw]]].
      rewrite Ew. cbn [bind]. rewrite <- HW. destruct sg.
      + rewrite sub64_ok by (clear - Bq Rw; lia). cbn [bind]. rewrite add128_ok by (clear - Bq Rw Rg; lia).
        eexists. split; [reflexivity|]. split; [clear - Bq Rg Rw; lia|]. rewrite CG, Cw.
        apply eqm_divide; [clear - Bq; lia|]. exists 2. ring.
      + cbn [bind]. rewrite add128_ok by (clear - Bq Rw Rg; lia).
        eexists. split; [reflexivity|]. split; [clear - Bq Rg Rw; lia|]. rewrite CG, Cw. reflexivity. }
  destruct E1 as [y1 [E1 [R1 C1]]]. rewrite E1. cbn [bind]. clear E1.
  rewrite !dassert_true by apply Nat.leb_refl. cbn [bind].
  assert (BK : Z.of_nat k <= 2 ^ 64).
  { apply (rns_k_bound from). exact WF. }
  destruct (scale_inner_ok pr qm rests (rns_garner from) (fun g => rq N D g) y1 VM) as [y [Ey [Ry Cy]]].
  { rewrite (wr_gl _ _ WF). apply HL. }
  { intros j Hj. rewrite HL in Hj. pose proof (sc_r j Hj) as H. unfold r in H. split; [apply H|]. eapply Z.lt_trans; [apply H|reflexivity]. }
  { apply R1. }
  { rewrite HL. revert BK. generalize (Z.of_nat k). clear - Bq R1. intros. nia. }
  rewrite Ey. cbn [bind].
  assert (By : 0 <= y < W128).
  { rewrite HL in Ry. revert BK Ry. generalize (Z.of_nat k). clear - Bq R1. intros. nia. }
  rewrite mreduce_u128_ok by auto. f_equal.
  change (eqm (mp qm) y yrep). rewrite Cy, C1, HL. unfold yrep. apply eq_eqm.
  change (sumn k (fun i0 => nth i0 rests 0 * rq N D (nth i0 (rns_garner from) 0))) with (sumn k (fun i => r i * om i)). ring.
Qed.

Lemma rns_scale_ok out_len start : (out_len <> 0)%nat -> (start + out_len <= length mt)%nat ->
  rns_scale pr s rests out_len start = Ok (map (fun i => yrep mod nth (start + i) mt 1) (seq 0 out_len)).
Proof.
  intros H0 H1. unfold rns_scale.
  rewrite (wc_from _ _ _ _ _ _ _ W), (wc_to _ _ _ _ _ _ _ W), (wr_ms _ _ (wc_wf _ _ _ _ _ _ _ W)), (wr_ms _ _ (wc_wt _ _ _ _ _ _ _ W)).
  rewrite !dassert_true; [|apply Nat.leb_le; auto|apply negb_true_iff, Nat.eqb_neq; auto|apply Nat.eqb_eq; exact HL].
  cbn [bind]. rewrite scale_v_ok. cbn [bind].
  assert (EW : exists sg w, scale_w pr s rests V = Ok (sg, w) /\ 0 <= w < 2 ^ 96 /\ (N <> D -> (if sg then - w else w) = Wc)).
  { destruct (Z.eq_dec N D) as [E|E].
    - exists false, 0. unfold scale_w. rewrite (wc_one _ _ _ _ _ _ _ W), E, Z.eqb_refl.
      split; auto. split; [clear; lia|]. intros C. congruence.
    - destruct (scale_w_ok E) as [sg [w [E1 [E2 E3]]]]. exists sg, w. auto. }
  destruct EW as [sg [w [Ew [Bw Cw]]]]. rewrite Ew. cbn [bind].
  apply mapM_ok. intros i Hi. apply in_seq in Hi. apply scale_out_ok; auto.
  clear - H1 Hi. lia.
Qed.

Lemma yrep_one : N = D -> yrep = xrep.
Proof.
  intros E. pose proof (wc_D _ _ _ _ _ _ _ W) as HD. unfold yrep, xrep. rewrite E, Z.eqb_refl.
  assert (RQ : forall x, rq N D x = x).
  { intros x. unfold rq. rewrite E. rewrite Z.mul_comm, Z.div_add_l, (Z.div_small (D / 2)); [clear; lia| |clear - HD; lia].
    clear - HD. dlia. }
  unfold om, gam. rewrite RQ. rewrite Z.add_0_r. unfold S. f_equal. apply sumn_ext. intros i Hi. rewrite RQ. reflexivity.
Qed.

Lemma yrep_bound : 2 * N * xrep - 2 * D * yrep < D /\ 2 ^ (125 - L) * (2 * D * yrep - 2 * N * xrep - D) < D.
Proof.
  pose proof sc_L as HL0. assert (PL : 2 ^ (125 - L) * 2 ^ L = 2 ^ 125) by (rewrite <- Z.pow_add_r by (clear - HL0; lia); f_equal; clear; lia).
  assert (PP : 0 < 2 ^ (125 - L)) by (apply Z.pow_pos_nonneg; clear - HL0; lia).
  pose proof (wc_D _ _ _ _ _ _ _ W) as HD.
  destruct (Z.eq_dec N D) as [E|E].
  { rewrite yrep_one by auto. rewrite E. generalize xrep. clear - HD PP. intros x. replace (2 * D * x - 2 * D * x - D) with (- D) by ring. split; [lia|nia]. }
  pose proof sc_R as BR. pose proof sc_V as BV.
  set (EE := sumn k (fun i => r i * rr N D (nth i (rns_garner from) 0)) - V * rr N D Q).
  assert (E1 : N * xrep = D * (sumn k (fun i => r i * om i) - V * gam) + EE).
  { unfold xrep, EE, S. rewrite !Z.mul_sub_distr_l, <- !sumn_mul_l.
    replace (N * (V * Q)) with (V * (D * gam) + V * rr N D Q) by (unfold rr, gam; ring).
    replace (sumn k (fun i => N * (r i * nth i (rns_garner from) 0))) with
      (sumn k (fun i => D * (r i * om i)) + sumn k (fun i => r i * rr N D (nth i (rns_garner from) 0))).
    2:{ rewrite <- sumn_add. apply sumn_ext. intros i Hi. unfold om, rr. ring. }
    ring. }
  assert (E2 : 2 ^ 127 * EE <= D * STO <= 2 ^ 127 * EE + (R + V) * D).
  { destruct (wc_tg _ _ _ _ _ _ _ W) as [_ [_ [_ G]]]. unfold theta_ok in G. fold Q thg in G.
    assert (A1 : 2 ^ 127 * sumn k (fun i => r i * rr N D (nth i (rns_garner from) 0)) <= D * sumn k (fun i => r i * th i)).
    { rewrite <- !sumn_mul_l. apply sumn_le. intros i Hi. destruct (wc_to_ _ _ _ _ _ _ _ W i Hi) as [_ [_ [_ T1]]].
      fold (th i) in T1. unfold theta_ok in T1. pose proof (sc_r i Hi) as Hr. revert Hr T1. generalize (r i) (th i) (rr N D (nth i (rns_garner from) 0)).
      clear. intros. nia. }
    assert (A2 : D * sumn k (fun i => r i * th i) <= 2 ^ 127 * sumn k (fun i => r i * rr N D (nth i (rns_garner from) 0)) + R * D).
    { unfold R. rewrite <- sumn_mul_r, <- !sumn_mul_l, <- sumn_add. apply sumn_le. intros i Hi. destruct (wc_to_ _ _ _ _ _ _ _ W i Hi) as [_ [_ [_ T1]]].
      fold (th i) in T1. unfold theta_ok in T1. pose proof (sc_r i Hi) as Hr. revert Hr T1. generalize (r i) (th i) (rr N D (nth i (rns_garner from) 0)).
      clear. intros. nia. }
    unfold EE, STO. revert A1 A2 G BV. generalize (sumn k (fun i => r i * th i)) (sumn k (fun i => r i * rr N D (nth i (rns_garner from) 0))) V R thg (rr N D Q).
    clear - HD. intros. nia. }
  assert (F : Wc * 2 ^ 127 <= STO + 2 ^ 126 < Wc * 2 ^ 127 + 2 ^ 127) by (unfold Wc; apply floor_bounds; reflexivity).
  assert (E3 : yrep = sumn k (fun i => r i * om i) - V * gam + Wc).
  { unfold yrep. replace (N =? D) with false by (symmetry; apply Z.eqb_neq; auto). reflexivity. }
  rewrite E3. rewrite <- !Z.mul_assoc, E1. clear E1 E3.
  revert E2 F BR BV PL PP. generalize (2 ^ (125 - L)) (2 ^ L) EE STO Wc R V (sumn k (fun i => r i * om i) - V * gam). clear - HD.
  intros a l e t w R V B E2 F BR BV PL PP.
  assert (G1 : (R + V) * D < 2 * l * D) by nia.
  assert (G2 : D * (w * 2 ^ 127) <= D * (t + 2 ^ 126)) by nia.
  assert (G3 : D * (t + 2 ^ 126) < D * (w * 2 ^ 127 + 2 ^ 127)) by nia.
  split; [clear G1; lia|].
  replace (2 * (D * (B + w)) - 2 * (D * B + e) - D) with (2 * (D * w) - 2 * e - D) by ring.
  set (y := 2 * (D * w) - 2 * e - D).
  assert (Y : 2 ^ 126 * y < 2 * l * D) by (unfold y; lia). clearbody y. clear - Y PL PP HD BR.
  assert (a * (2 ^ 126 * y) < a * (2 * l * D)) by (apply Z.mul_lt_mono_pos_l; auto).
  replace (a * (2 * l * D)) with (2 * D * (a * l)) in H by ring. rewrite PL in H. replace (a * (2 ^ 126 * y)) with (2 ^ 126 * (a * y)) in H by ring. set (z := a * y) in *. clearbody z. clear - H. lia.
Qed.
End Scale.
