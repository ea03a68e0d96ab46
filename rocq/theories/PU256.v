(** Proofs about the 256-bit accumulator (MUtils). *)
From Verif Require Import PBase NT MUtils PModulus.

Definition u256_val (x : U256) : Z := u0 x + u1 x * W64 + u2 x * W128 + u3 x * W192.
Definition u256_ok (x : U256) : Prop :=
  (0 <= u0 x < W64) /\ (0 <= u1 x < W64) /\ (0 <= u2 x < W64) /\ (0 <= u3 x < W64).

Lemma u256_val_range x : u256_ok x -> 0 <= u256_val x < W256.
Proof. unfold u256_ok, u256_val. lia. Qed.

Lemma u256_val_inj x y : u256_ok x -> u256_ok y -> u256_val x = u256_val y -> x = y.
Proof.
  destruct x as [a b c d], y as [a' b' c' d']. unfold u256_ok, u256_val; cbn [u0 u1 u2 u3].
  intros H H' E. f_equal; lia.
Qed.

Lemma ovf_add_spec a b s c : 0 <= a < W64 -> 0 <= b < W64 -> ovf_add a b = (s, c) ->
  0 <= s < W64 /\ s + b2z c * W64 = a + b.
Proof.
  intros Ha Hb H. unfold ovf_add in H. injection H as <- <-.
  destruct (W64 <=? a + b) eqn:E; unfold b2z.
  - assert ((a + b) mod W64 = a + b - W64) by (symmetry; apply Z.mod_unique with 1; lia). lia.
  - rewrite Z.mod_small by lia. lia.
Qed.
Lemma ovf_sub_spec a b s c : 0 <= a < W64 -> 0 <= b < W64 -> ovf_sub a b = (s, c) ->
  0 <= s < W64 /\ s - b2z c * W64 = a - b.
Proof.
  intros Ha Hb H. unfold ovf_sub in H. injection H as <- <-.
  destruct (a <? b) eqn:E; unfold b2z.
  - assert ((a - b) mod W64 = a - b + W64) by (symmetry; apply Z.mod_unique with (-1); lia). lia.
  - rewrite Z.mod_small by lia. lia.
Qed.
Lemma b2z_range c : 0 <= b2z c < W64.
Proof. destruct c; simpl; lia. Qed.

Lemma u256_add_spec x y : u256_ok x -> u256_ok y ->
  u256_ok (u256_add x y) /\ u256_val (u256_add x y) = (u256_val x + u256_val y) mod W256.
Proof.
  destruct x as [x0 x1 x2 x3], y as [y0 y1 y2 y3].
  intros [X0 [X1 [X2 X3]]] [Y0 [Y1 [Y2 Y3]]]; cbn [u0 u1 u2 u3] in *.
  unfold u256_add; cbn [u0 u1 u2 u3].
  destruct (ovf_add x0 y0) as [a c1] eqn:E1. apply ovf_add_spec in E1; auto.
  destruct (ovf_add x1 y1) as [b c2] eqn:E2. apply ovf_add_spec in E2; auto.
  destruct (ovf_add b (b2z c1)) as [c c3] eqn:E3.
  apply ovf_add_spec in E3; [|lia|apply b2z_range].
  destruct (ovf_add x2 y2) as [d c4] eqn:E4. apply ovf_add_spec in E4; auto.
  destruct (ovf_add d (b2z (c2 || c3))) as [e c5] eqn:E5.
  apply ovf_add_spec in E5; [|lia|apply b2z_range].
  assert (H23 : b2z (c2 || c3) = b2z c2 + b2z c3).
  { destruct c1, c2, c3; simpl b2z in *; cbn; lia. }
  assert (H45 : b2z (c4 || c5) = b2z c4 + b2z c5).
  { destruct c2, c3, c4, c5; simpl b2z in *; cbn; lia. }
  rewrite H23 in E5. rewrite H45.
  rewrite Zplus_mod_idemp_l.
  pose proof (Z.mod_pos_bound (x3 + y3 + (b2z c4 + b2z c5)) W64 ltac:(lia)) as B.
  pose proof (Z.div_mod (x3 + y3 + (b2z c4 + b2z c5)) W64 ltac:(lia)) as D.
  split.
  - unfold u256_ok; cbn [u0 u1 u2 u3]. lia.
  - unfold u256_val; cbn [u0 u1 u2 u3].
    apply Z.mod_unique with ((x3 + y3 + (b2z c4 + b2z c5)) / W64); lia.
Qed.

Lemma u256_sub_spec x y : u256_ok x -> u256_ok y ->
  u256_ok (u256_sub x y) /\ u256_val (u256_sub x y) = (u256_val x - u256_val y) mod W256.
Proof.
  destruct x as [x0 x1 x2 x3], y as [y0 y1 y2 y3].
  intros [X0 [X1 [X2 X3]]] [Y0 [Y1 [Y2 Y3]]]; cbn [u0 u1 u2 u3] in *.
  unfold u256_sub; cbn [u0 u1 u2 u3].
  destruct (ovf_sub x0 y0) as [a c1] eqn:E1. apply ovf_sub_spec in E1; auto.
  destruct (ovf_sub x1 y1) as [b c2] eqn:E2. apply ovf_sub_spec in E2; auto.
  destruct (ovf_sub b (b2z c1)) as [c c3] eqn:E3.
  apply ovf_sub_spec in E3; [|lia|apply b2z_range].
  destruct (ovf_sub x2 y2) as [d c4] eqn:E4. apply ovf_sub_spec in E4; auto.
  destruct (ovf_sub d (b2z (c2 || c3))) as [e c5] eqn:E5.
  apply ovf_sub_spec in E5; [|lia|apply b2z_range].
  assert (H23 : b2z (c2 || c3) = b2z c2 + b2z c3).
  { destruct c1, c2, c3; simpl b2z in *; cbn; lia. }
  assert (H45 : b2z (c4 || c5) = b2z c4 + b2z c5).
  { destruct c2, c3, c4, c5; simpl b2z in *; cbn; lia. }
  rewrite H23 in E5. rewrite H45.
  rewrite Zminus_mod_idemp_l.
  pose proof (Z.mod_pos_bound (x3 - y3 - (b2z c4 + b2z c5)) W64 ltac:(lia)) as B.
  pose proof (Z.div_mod (x3 - y3 - (b2z c4 + b2z c5)) W64 ltac:(lia)) as D.
  split.
  - unfold u256_ok; cbn [u0 u1 u2 u3]. lia.
  - unfold u256_val; cbn [u0 u1 u2 u3].
    apply Z.mod_unique with ((x3 - y3 - (b2z c4 + b2z c5)) / W64); lia.
Qed.

Lemma u256_not_spec x : u256_ok x -> u256_ok (u256_not x) /\ u256_val (u256_not x) = W256 - 1 - u256_val x.
Proof. unfold u256_ok, u256_val, u256_not; cbn [u0 u1 u2 u3]. lia. Qed.

Lemma u256_zero_spec : u256_ok u256_zero /\ u256_val u256_zero = 0.
Proof. unfold u256_ok, u256_val, u256_zero; cbn [u0 u1 u2 u3]; lia. Qed.

Lemma u256_msb_spec x : u256_ok x -> u256_msb x = u256_val x / 2 ^ 255.
Proof.
  intros H. unfold u256_msb. rewrite shiftr_div by lia.
  change (2 ^ 255) with (W192 * W63). rewrite <- Z.div_div by lia. change (2 ^ 63) with W63. f_equal.
  unfold u256_val, u256_ok in *. apply Z.div_unique with (u0 x + u1 x * W64 + u2 x * W128); lia.
Qed.

Lemma u256_of2_spec a b : 0 <= a < W128 -> 0 <= b < W128 ->
  u256_ok (u256_of2 a b) /\ u256_val (u256_of2 a b) = a + b * W128.
Proof.
  intros Ha Hb. unfold u256_of2. rewrite !shiftr64.
  pose proof (div_range64 a W64 ltac:(lia)). pose proof (div_range64 b W64 ltac:(lia)).
  rewrite (as64_small (a / W64)), (as64_small (b / W64)) by auto.
  unfold as64, u256_ok, u256_val; cbn [u0 u1 u2 u3].
  pose proof (Z.div_mod a W64 ltac:(lia)). pose proof (Z.div_mod b W64 ltac:(lia)).
  pose proof (Z.mod_pos_bound a W64 ltac:(lia)). pose proof (Z.mod_pos_bound b W64 ltac:(lia)). lia.
Qed.

Lemma u256_to2_spec pr x : u256_ok x ->
  u256_to2 pr x = Ok (u256_val x mod W128, u256_val x / W128).
Proof.
  intros H. unfold u256_ok in H. unfold u256_to2. rewrite !shiftl64.
  rewrite add128_ok by lia. cbn [bind]. rewrite add128_ok by lia. cbn [bind].
  do 2 f_equal.
  - unfold u256_val. apply Z.mod_unique with (u2 x + u3 x * W64); lia.
  - unfold u256_val. apply Z.div_unique with (u0 x + u1 x * W64); lia.
Qed.

Lemma u256_to_u128_spec pr x : u256_ok x -> u256_val x < W128 ->
  u256_to_u128 pr x = Ok (u256_val x).
Proof.
  intros H L. unfold u256_ok in H. unfold u256_to_u128. rewrite shiftl64.
  assert (u2 x = 0 /\ u3 x = 0) as [E2 E3] by (unfold u256_val in L; lia).
  rewrite dassert_true by lia. cbn [bind]. rewrite add128_ok by lia.
  f_equal. unfold u256_val. lia.
Qed.

Lemma div_shrink a P B : 0 <= a < B -> 0 < P -> 0 <= a / P < B.
Proof.
  intros Ha HP. split; [apply Z.div_pos; lia|]. apply Z.div_lt_upper_bound; [lia|]. nia.
Qed.

Lemma land_disjoint a b k : 0 <= k -> 0 <= a < 2 ^ k -> Z.land a (Z.shiftl b k) = 0.
Proof.
  intros Hk Ha. apply Z.bits_inj'. intros n Hn.
  rewrite Z.land_spec, Z.bits_0.
  destruct (Z_lt_dec n k) as [H|H].
  - rewrite Z.shiftl_spec_low by auto. apply andb_false_r.
  - replace (Z.testbit a n) with false; auto. symmetry.
    rewrite <- (Z.mod_small a (2 ^ k)) by auto.
    apply Z.mod_pow2_bits_high. lia.
Qed.

Lemma lor_disjoint a b k : 0 <= k -> 0 <= a < 2 ^ k -> Z.lor a (Z.shiftl b k) = a + b * 2 ^ k.
Proof.
  intros Hk Ha. pose proof (land_disjoint a b k Hk Ha) as H0.
  rewrite <- Z.shiftl_mul_pow2 by auto.
  rewrite <- Z.lxor_lor by auto. symmetry. apply Z.add_nocarry_lxor. auto.
Qed.

Lemma shl64_spec b s : 0 <= s <= 64 -> shl64 b (64 - s) = Z.shiftl (b mod 2 ^ s) (64 - s).
Proof.
  intros Hs. unfold shl64, as64. rewrite !Z.shiftl_mul_pow2 by lia.
  change W64 with (2 ^ 64). replace 64 with (s + (64 - s)) at 2 by ring.
  rewrite Z.pow_add_r by lia. rewrite Zmult_mod_distr_r. reflexivity.
Qed.

(** One limb of a right shift. *)
Lemma shr_limb a b s : 0 < s < 64 -> 0 <= a < W64 ->
  Z.lor (Z.shiftr a s) (shl64 b (64 - s)) = a / 2 ^ s + b mod 2 ^ s * 2 ^ (64 - s).
Proof.
  intros Hs Ha. rewrite shl64_spec by lia. rewrite shiftr_div by lia.
  apply lor_disjoint; [lia|]. 
  split; [apply Z.div_pos; lia|]. apply Z.div_lt_upper_bound; [lia|].
  rewrite <- Z.pow_add_r by lia. replace (s + (64 - s)) with 64 by ring. apply Ha.
Qed.

Lemma shr_limb_range a b s : 0 < s < 64 -> 0 <= a < W64 ->
  0 <= a / 2 ^ s + b mod 2 ^ s * 2 ^ (64 - s) < W64.
Proof.
  intros Hs Ha.
  assert (E : 2 ^ s * 2 ^ (64 - s) = W64) by (rewrite <- Z.pow_add_r by lia; replace (s + (64 - s)) with 64 by ring; reflexivity).
  pose proof (Z.mod_pos_bound b (2 ^ s) ltac:(lia)) as Hb.
  assert (Hd : 0 <= a / 2 ^ s < 2 ^ (64 - s)).
  { split; [apply Z.div_pos; lia|]. apply Z.div_lt_upper_bound; lia. }
  set (P := 2 ^ s) in *. set (R := 2 ^ (64 - s)) in *. nia.
Qed.

Lemma shr_lt64 x s : 0 < s < 64 -> u256_ok x ->
  let P := 2 ^ s in let R := 2 ^ (64 - s) in
  u256_val x / P =
  (u0 x / P + u1 x mod P * R) + (u1 x / P + u2 x mod P * R) * W64
  + (u2 x / P + u3 x mod P * R) * W128 + u3 x / P * W192.
Proof.
  intros Hs Hx P R.
  assert (E : P * R = W64).
  { unfold P, R. rewrite <- Z.pow_add_r by lia. replace (s + (64 - s)) with 64 by ring. reflexivity. }
  assert (HP : 0 < P) by (unfold P; lia).
  unfold u256_val. symmetry.
  apply Z.div_unique with (u0 x mod P).
  - left. apply Z.mod_pos_bound. auto.
  - change W192 with (W64 * W64 * W64). change W128 with (W64 * W64).
    pose proof (Z.div_mod (u0 x) P ltac:(lia)) as D0.
    pose proof (Z.div_mod (u1 x) P ltac:(lia)) as D1.
    pose proof (Z.div_mod (u2 x) P ltac:(lia)) as D2.
    pose proof (Z.div_mod (u3 x) P ltac:(lia)) as D3.
    revert D0 D1 D2 D3.
    generalize (u0 x / P) (u0 x mod P) (u1 x / P) (u1 x mod P) (u2 x / P) (u2 x mod P) (u3 x / P) (u3 x mod P).
    intros q0 r0 q1 r1 q2 r2 q3 r3 D0 D1 D2 D3.
    rewrite D0, D1, D2, D3, <- E. ring.
Qed.

Lemma u256_shr_spec pr x s : 0 <= s < 256 -> u256_ok x ->
  exists y, u256_shr pr x s = Ok y /\ u256_ok y /\ u256_val y = u256_val x / 2 ^ s.
Proof.
  intros Hs Hx. unfold u256_shr. rewrite dassert_true by lia. cbn [bind].
  pose proof Hx as Hx'. destruct Hx' as [X0 [X1 [X2 X3]]].
  destruct (192 <=? s) eqn:C1.
  { eexists. split; [reflexivity|]. rewrite Z.mod_small by lia. rewrite shiftr_div by lia.
    assert (E : u256_val x / 2 ^ s = u3 x / 2 ^ (s - 192)).
    { replace s with (192 + (s - 192)) at 1 by ring. rewrite Z.pow_add_r by lia.
      rewrite <- Z.div_div by lia. f_equal. change (2 ^ 192) with W192. unfold u256_val.
      symmetry. apply Z.div_unique with (u0 x + u1 x * W64 + u2 x * W128); lia. }
    rewrite E. unfold u256_ok, u256_val; cbn [u0 u1 u2 u3].
    assert (0 <= u3 x / 2 ^ (s - 192) < W64).
    { apply div_shrink; [auto | lia]. }
    repeat split; lia. }
  destruct (128 <? s) eqn:C2.
  { eexists. split; [reflexivity|]. 
    replace (192 - s) with (64 - (s - 128)) by ring. rewrite shr_limb by lia.
    rewrite shiftr_div by lia.
    pose proof (shr_limb_range (u2 x) (u3 x) (s - 128) ltac:(lia) X2) as B1.
    assert (B2 : 0 <= u3 x / 2 ^ (s - 128) < W64).
    { apply div_shrink; [auto | lia]. }
    split; [unfold u256_ok; cbn [u0 u1 u2 u3]; repeat split; lia|].
    replace (2 ^ s) with (W128 * 2 ^ (s - 128)).
    2:{ change W128 with (2 ^ 128). rewrite <- Z.pow_add_r by lia. f_equal. ring. }
    rewrite <- Z.div_div by lia.
    assert (E : u256_val x / W128 = u256_val (mkU256 (u2 x) (u3 x) 0 0)).
    { unfold u256_val; cbn [u0 u1 u2 u3]. symmetry. apply Z.div_unique with (u0 x + u1 x * W64); lia. }
    rewrite E. rewrite shr_lt64; [|lia|unfold u256_ok; cbn [u0 u1 u2 u3]; lia].
    unfold u256_val; cbn [u0 u1 u2 u3]. rewrite Z.mod_0_l, Z.div_0_l by lia. ring. }
  destruct (s =? 128) eqn:C3.
  { apply Z.eqb_eq in C3. subst s. eexists. split; [reflexivity|].
    split; [unfold u256_ok; cbn [u0 u1 u2 u3]; lia|].
    change (2 ^ 128) with W128. unfold u256_val; cbn [u0 u1 u2 u3].
    apply Z.div_unique with (u0 x + u1 x * W64); lia. }
  destruct (64 <? s) eqn:C4.
  { eexists. split; [reflexivity|]. 
    replace (128 - s) with (64 - (s - 64)) by ring. rewrite !shr_limb by lia.
    rewrite shiftr_div by lia.
    pose proof (shr_limb_range (u1 x) (u2 x) (s - 64) ltac:(lia) X1) as B1.
    pose proof (shr_limb_range (u2 x) (u3 x) (s - 64) ltac:(lia) X2) as B1'.
    assert (B2 : 0 <= u3 x / 2 ^ (s - 64) < W64).
    { apply div_shrink; [auto | lia]. }
    split; [unfold u256_ok; cbn [u0 u1 u2 u3]; repeat split; lia|].
    replace (2 ^ s) with (W64 * 2 ^ (s - 64)).
    2:{ change W64 with (2 ^ 64). rewrite <- Z.pow_add_r by lia. f_equal. ring. }
    rewrite <- Z.div_div by lia.
    assert (E : u256_val x / W64 = u256_val (mkU256 (u1 x) (u2 x) (u3 x) 0)).
    { unfold u256_val; cbn [u0 u1 u2 u3]. symmetry. apply Z.div_unique with (u0 x); lia. }
    rewrite E. rewrite shr_lt64; [|lia|unfold u256_ok; cbn [u0 u1 u2 u3]; lia].
    unfold u256_val; cbn [u0 u1 u2 u3]. rewrite Z.mod_0_l, Z.div_0_l by lia. ring. }
  destruct (s =? 64) eqn:C5.
  { apply Z.eqb_eq in C5. subst s. eexists. split; [reflexivity|].
    split; [unfold u256_ok; cbn [u0 u1 u2 u3]; lia|].
    change (2 ^ 64) with W64. unfold u256_val; cbn [u0 u1 u2 u3].
    apply Z.div_unique with (u0 x); lia. }
  destruct (0 <? s) eqn:C6.
  { eexists. split; [reflexivity|]. rewrite !shr_limb by lia. rewrite shiftr_div by lia.
    pose proof (shr_limb_range (u0 x) (u1 x) s ltac:(lia) X0) as B0.
    pose proof (shr_limb_range (u1 x) (u2 x) s ltac:(lia) X1) as B1.
    pose proof (shr_limb_range (u2 x) (u3 x) s ltac:(lia) X2) as B1'.
    assert (B2 : 0 <= u3 x / 2 ^ s < W64).
    { apply div_shrink; [auto | lia]. }
    split; [unfold u256_ok; cbn [u0 u1 u2 u3]; repeat split; lia|].
    rewrite shr_lt64 by (auto; lia). reflexivity. }
  assert (s = 0) by lia. subst s. exists x. change (2 ^ 0) with 1. rewrite Z.div_1_r. auto.
Qed.
