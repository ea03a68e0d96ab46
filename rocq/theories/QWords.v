(** Claim C73: word operations called outside their documented ranges
    (src/modulus.rs, src/ntt.rs, src/utils.rs). *)
From Verif Require Import PBase NT MModulus MUtils MNtt PModulus.

(** [chk] in a release build wraps. *)
Lemma chk_rel w x : 0 < w -> chk Release w x = Ok (x mod w).
Proof.
  intros Hw. unfold chk. destruct ((0 <=? x) && (x <? w)) eqn:E; auto.
  rewrite Z.mod_small by lia. reflexivity.
Qed.

Lemma reduce_ct_rel x p : 0 <= x < W64 -> 0 < p <= W63 ->
  reduce_ct Release x p = Ok (if (p <=? x) && (x <? p + W63) then x - p else x).
Proof.
  intros Hx Hp. unfold reduce_ct. cbn [dassert bind]. rewrite lxor_cancel. f_equal.
  rewrite (shiftr_div _ 63) by lia. change (2 ^ 63) with W63.
  destruct (Z.leb_spec p x) as [H1|H1]; cbn [andb].
  - rewrite (Z.mod_small (x - p)) by lia. destruct (Z.ltb_spec x (p + W63)) as [H2|H2].
    + rewrite (Z.div_small (x - p)) by lia. change ((0 - 1) mod W64) with (Z.ones 64).
      change (W64 - 1 - Z.ones 64) with 0. rewrite Z.land_0_l, Z.lor_0_r.
      rewrite Z.land_comm, Z.land_ones by lia. change (2 ^ 64) with W64. apply Z.mod_small. lia.
    + replace ((x - p) / W63) with 1 by (apply Z.div_unique with (x - p - W63); lia).
      change ((1 - 1) mod W64) with 0. rewrite Z.land_0_l, Z.lor_0_l. change (W64 - 1 - 0) with (Z.ones 64).
      rewrite Z.land_comm, Z.land_ones by lia. change (2 ^ 64) with W64. apply Z.mod_small. lia.
  - replace ((x - p) mod W64) with (x - p + W64) by (apply Z.mod_unique with (-1); lia).
    replace ((x - p + W64) / W63) with 1 by (apply Z.div_unique with (x - p + W63); lia).
    change ((1 - 1) mod W64) with 0. rewrite Z.land_0_l, Z.lor_0_l. change (W64 - 1 - 0) with (Z.ones 64).
    rewrite Z.land_comm, Z.land_ones by lia. change (2 ^ 64) with W64. apply Z.mod_small. lia.
Qed.

Lemma mmul_rel m a b : valid_mod m -> 0 <= a < W64 -> 0 <= b < W64 -> mmul Release m a b = Ok ((a * b) mod mp m).
Proof.
  intros V Ha Hb. unfold mmul. cbn [dassert bind]. pose proof (mul_range64 a b Ha Hb).
  assert (0 <= a * b < W128) by lia. rewrite mul128_ok by auto. cbn [bind]. apply mreduce_u128_ok; auto.
Qed.


Lemma pow_loop_rel' m a r k : valid_mod m -> 0 <= a < W64 -> 0 <= r ->
  forall val, 0 <= val < W64 -> eqm (mp m) val (a ^ (r / 2 ^ Z.of_nat k)) ->
  ((0 < k)%nat \/ 0 <= val < mp m) ->
  pow_loop Release m a r k val = Ok (a ^ r mod mp m).
Proof.
  intros V Ha Hr. pose proof (valid_range m V) as Hp. assert (Hm : mp m <> 0) by (clear - Hp; lia).
  assert (RM : forall z, 0 <= z mod mp m < W64) by (intros z; pose proof (Z.mod_pos_bound z (mp m) ltac:(clear - Hp; lia)); clear - H Hp; lia).
  assert (RP : forall z, 0 <= z mod mp m < mp m) by (intros z; apply Z.mod_pos_bound; clear - Hp; lia).
  induction k as [|k IH]; intros val Bv Ev Hk; cbn [pow_loop].
  - destruct Hk as [Hk|Hk]; [clear - Hk; lia|]. change (2 ^ Z.of_nat 0) with 1 in Ev. rewrite Z.div_1_r in Ev.
    unfold eqm in Ev. rewrite Z.mod_small in Ev by exact Hk. rewrite Ev. reflexivity.
  - rewrite mmul_rel by auto. cbn [bind].
    rewrite shiftr_div by (clear; lia).
    change (Z.land (r / 2 ^ Z.of_nat k) 1) with (Z.land (r / 2 ^ Z.of_nat k) (Z.ones 1)).
    rewrite Z.land_ones by (clear; lia). change (2 ^ 1) with 2.
    pose proof (Z.mod_pos_bound (r / 2 ^ Z.of_nat k) 2 ltac:(clear; lia)) as Bb.
    pose proof (pow2_split r k Hr) as Hq.
    assert (Q0 : 0 <= r / 2 ^ Z.of_nat (S k)) by (apply Z.div_pos; [exact Hr|apply Z.pow_pos_nonneg; clear; lia]).
    specialize (fun v => IH v). revert Ev Hq Q0 Bb IH.
    generalize ((r / 2 ^ Z.of_nat k) mod 2) as b. generalize (r / 2 ^ Z.of_nat (S k)) as q. generalize (r / 2 ^ Z.of_nat k) as q'.
    intros q' q b Ev Hq Q0 Bb IH.
    assert (Hs : eqm (mp m) (val * val) (a ^ (q + q))).
    { rewrite Z.pow_add_r by exact Q0. unfold eqm in *. rewrite Z.mul_mod, Ev, <- Z.mul_mod by exact Hm. reflexivity. }
    destruct (Z.eqb_spec b 1) as [Eb|Eb].
    + rewrite mmul_rel by auto. cbn [bind].
      apply IH; [apply RM| |right; apply RP]. unfold eqm in *. rewrite Z.mod_mod, Z.mul_mod_idemp_l, Z.mul_mod, Hs, <- Z.mul_mod by exact Hm.
      replace q' with ((q + q) + 1) by (clear - Hq Eb; lia). rewrite (Z.pow_add_r a (q + q) 1) by (clear - Q0; lia). rewrite Z.pow_1_r. reflexivity.
    + cbn [bind]. apply IH; [apply RM| |right; apply RP]. unfold eqm in *. rewrite Z.mod_mod, Hs by exact Hm.
      replace q' with (q + q) by (clear - Hq Eb Bb; lia). reflexivity.
Qed.

Lemma mpow_rel m a r : valid_mod m -> 0 <= a < W64 -> 0 <= r < W64 ->
  mpow Release m a r = Ok (if r =? 0 then 1 else if r =? 1 then a else a ^ r mod mp m).
Proof.
  intros V Ha Hr. pose proof (valid_range m V) as Hp. unfold mpow. cbn [dassert bind].
  destruct (Z.eqb_spec r 0) as [E0|E0]; auto. destruct (Z.eqb_spec r 1) as [E1|E1]; auto.
  unfold leading_zeros. rewrite bitlen_log2 by lia.
  assert (L : 0 < Z.log2 r) by (apply Z.log2_pos; lia).
  assert (Eb : Z.of_nat (Z.to_nat (62 - (64 - (Z.log2 r + 1)) + 1)) = Z.log2 r) by lia.
  apply pow_loop_rel'; auto; [clear - Hr; lia| |left; clear - L; lia]. rewrite Eb.
  pose proof (Z.log2_spec r ltac:(lia)) as [L1 L2].
  replace (r / 2 ^ Z.log2 r) with 1. 2:{ apply Z.div_unique with (r - 2 ^ Z.log2 r); [|lia]. rewrite Z.pow_succ_r in L2 by lia. lia. }
  rewrite Z.pow_1_r. reflexivity.
Qed.

(** C73: in a release build the operations are total on words.  Products and
    powers are right for unreduced operands; sums and differences are computed
    modulo 2^64 and then one conditional subtraction of p is made, by the sign
    bit of the difference. *)
Lemma C73_release_lem :
  forall p m a b, 0 <= p -> modulus_new p = Ok m -> 0 <= a < 2 ^ 64 -> 0 <= b < 2 ^ 64 ->
    let once x := if (p <=? x) && (x <? p + 2 ^ 63) then x - p else x in
    reduce_ct Release a p = Ok (once a)
    /\ madd Release m a b = Ok (once ((a + b) mod 2 ^ 64))
    /\ msub Release m a b = Ok (once ((a - b + p) mod 2 ^ 64))
    /\ mneg Release m a = Ok (once ((p - a) mod 2 ^ 64))
    /\ mmul Release m a b = Ok ((a * b) mod p)
    /\ mpow Release m a b = Ok (if b =? 0 then 1 else if b =? 1 then a else a ^ b mod p)
    /\ minv Release m a = Ok (if p =? 2 then 1 else if p =? 3 then a else a ^ (p - 2) mod p)
    /\ shoup Release m a = Ok ((a * 2 ^ 64 / p) mod 2 ^ 64).
Proof.
  intros p m a b H0 Hm Ha Hb once. destruct (modulus_new_valid p m H0 Hm) as [V Ep].
  pose proof (valid_range m V) as Hp. rewrite Ep in Hp.
  assert (RC : forall x, 0 <= x < W64 -> reduce_ct Release x p = Ok (once x)).
  { intros x Hx. unfold once. change (2 ^ 63) with W63. apply reduce_ct_rel; lia. }
  assert (RW : forall x, 0 <= x mod W64 < W64) by (intros x; apply Z.mod_pos_bound; lia).
  change (2 ^ 64) with W64 in *.
  split; [auto|]. split.
  { unfold madd. cbn [dassert bind]. unfold add64. rewrite chk_rel by lia. cbn [bind]. rewrite Ep. auto. }
  split.
  { unfold msub. cbn [dassert bind]. unfold add64, sub64. rewrite chk_rel by lia. cbn [bind]. rewrite chk_rel by lia. cbn [bind]. rewrite Ep.
    rewrite RC by auto. rewrite Z.add_mod_idemp_r by lia. do 3 f_equal. lia. }
  split.
  { unfold mneg. cbn [dassert bind]. unfold sub64. rewrite chk_rel by lia. cbn [bind]. rewrite Ep. auto. }
  split; [rewrite mmul_rel, Ep by auto; reflexivity|].
  split; [rewrite mpow_rel, Ep by auto; reflexivity|].
  split.
  { unfold minv. cbn [dassert bind]. unfold sub64. rewrite chk_rel by lia. rewrite Ep, Z.mod_small by lia. cbn [bind].
    rewrite mpow_rel, Ep by (auto; lia).
    replace (p - 2 =? 0) with (p =? 2) by (destruct (Z.eqb_spec p 2), (Z.eqb_spec (p - 2) 0); auto; lia).
    replace (p - 2 =? 1) with (p =? 3) by (destruct (Z.eqb_spec p 3), (Z.eqb_spec (p - 2) 1); auto; lia). reflexivity. }
  unfold shoup. cbn [dassert bind]. rewrite Ep. unfold udiv. replace (p =? 0) with false by (symmetry; apply Z.eqb_neq; lia). cbn [bind].
  rewrite shiftl64. reflexivity.
Qed.

(** C73: the release results are congruent to the right value whenever nothing
    wraps, and reduced whenever one subtraction is enough. *)
Lemma C73_congruent_lem :
  forall p m a b, 0 <= p -> modulus_new p = Ok m -> 0 <= a < 2 ^ 64 -> 0 <= b < 2 ^ 64 ->
    (a + b < 2 ^ 64 -> exists v, madd Release m a b = Ok v /\ v mod p = (a + b) mod p /\ (a + b < 2 * p -> v < p))
    /\ (0 <= a - b + p < 2 ^ 64 -> exists v, msub Release m a b = Ok v /\ v mod p = (a - b) mod p /\ (a - b < p -> v < p))
    /\ (a <= p -> mneg Release m a = Ok ((- a) mod p)).
Proof.
  intros p m a b H0 Hm Ha Hb. destruct (C73_release_lem p m a b H0 Hm Ha Hb) as [_ [E1 [E2 [E3 _]]]].
  destruct (modulus_new_valid p m H0 Hm) as [V Ep]. pose proof (valid_range m V) as Hp. rewrite Ep in Hp. clear V Ep Hm.
  change (2 ^ 64) with W64 in *. change (2 ^ 63) with W63 in *.
  assert (MP : forall x, (x - p) mod p = x mod p).
  { intros x. replace (x - p) with (x + (-1) * p) by lia. apply Z.mod_add. lia. }
  assert (MQ : forall x, (x + p) mod p = x mod p).
  { intros x. replace (x + p) with (x + 1 * p) by lia. apply Z.mod_add. lia. }
  split; [|split].
  - intros H. rewrite Z.mod_small in E1 by lia. eexists. split; [exact E1|].
    destruct (Z.leb_spec p (a + b)), (Z.ltb_spec (a + b) (p + W63)); cbn [andb]; rewrite ?MP; split; auto; lia.
  - intros H. rewrite Z.mod_small in E2 by lia. eexists. split; [exact E2|].
    destruct (Z.leb_spec p (a - b + p)), (Z.ltb_spec (a - b + p) (p + W63)); cbn [andb]; rewrite ?MP, ?MQ; split; auto; lia.
  - intros H. rewrite E3. rewrite Z.mod_small by lia. f_equal.
    destruct (Z.leb_spec p (p - a)) as [H1|H1]; cbn [andb].
    + replace a with 0 by lia. replace (p - 0 <? p + W63) with true by (symmetry; apply Z.ltb_lt; lia). change (- 0) with 0. rewrite Z.mod_0_l by lia. lia.
    + apply Z.mod_unique with (-1); lia.
Qed.

(** C73: the lazy product for any word in place of the precomputed one. *)
Lemma C73_lazy_mul_lem :
  forall p m a b w, 0 <= p -> modulus_new p = Ok m -> 0 <= a < 2 ^ 64 -> 0 <= b < 2 ^ 64 -> 0 <= w < 2 ^ 64 ->
    lazy_mul_shoup Release m a b w = Ok ((a * b - a * w / 2 ^ 64 * p) mod 2 ^ 64).
Proof.
  intros p m a b w H0 Hm Ha Hb Hw. destruct (modulus_new_valid p m H0 Hm) as [V Ep]. pose proof (valid_range m V) as Hp. rewrite Ep in Hp.
  change (2 ^ 64) with W64 in *. unfold lazy_mul_shoup. cbn [dassert bind]. unfold mul128, sub128. rewrite !chk_rel by lia. cbn [bind].
  rewrite !chk_rel by lia. cbn [bind]. rewrite Ep. unfold as64. f_equal.
  pose proof (mul_range64 a w Ha Hw). rewrite (Z.mod_small (a * w)) by lia. rewrite shiftr_div by lia. change (2 ^ 64) with W64.
  rewrite chk_rel by lia. cbn [bind]. f_equal. rewrite <- Zminus_mod. assert (D : (W64 | W128)) by (exists W64; reflexivity).
  rewrite <- (Znumtheory.Zmod_div_mod W64 W128) by (auto; lia). reflexivity.
Qed.

(** C73: in a debug build every such call panics. *)
Lemma C73_debug_lem :
  forall p m a b, 0 <= p -> modulus_new p = Ok m -> 0 <= a < 2 ^ 64 -> 0 <= b < 2 ^ 64 ->
    (2 * p <= a -> reduce_ct Debug a p = Panic)
    /\ (p <= a \/ p <= b -> mpow Debug m a b = Panic)
    /\ (p <= a \/ a = 0 -> minv Debug m a = Panic)
    /\ (p <= a -> shoup Debug m a = Panic)
    /\ (forall w, p <= b \/ w <> (b * 2 ^ 64 / p) mod 2 ^ 64 -> lazy_mul_shoup Debug m a b w = Panic /\ mul_shoup Debug m a b w = Panic)
    /\ (4 * p <= a -> reduce_4p Debug a m = Panic).
Proof.
  intros p m a b H0 Hm Ha Hb. destruct (modulus_new_valid p m H0 Hm) as [V Ep]. pose proof (valid_range m V) as Hp. rewrite Ep in Hp.
  change (2 ^ 64) with W64 in *.
  assert (SH : forall x, p <= x -> shoup Debug m x = Panic).
  { intros x H. unfold shoup. rewrite Ep. replace (x <? p) with false by (symmetry; apply Z.ltb_ge; lia). reflexivity. }
  split.
  { intros H. unfold reduce_ct. cbn [dassert]. destruct (Z.shiftr p 63 =? 0); [|reflexivity]. cbn [rassert bind].
    replace (a <? 2 * p) with false by (symmetry; apply Z.ltb_ge; lia). reflexivity. }
  split.
  { intros H. unfold mpow. rewrite Ep. replace ((a <? p) && (b <? p)) with false; [reflexivity|]. symmetry. lia. }
  split.
  { intros H. unfold minv. rewrite Ep. replace ((a <? p) && negb (a =? 0)) with false; [reflexivity|]. symmetry. lia. }
  split; [auto|]. split.
  { intros w H. assert (E : lazy_mul_shoup Debug m a b w = Panic).
    { unfold lazy_mul_shoup. rewrite Ep. cbn [dassert]. destruct (Z.ltb_spec b p) as [H1|H1]; [|reflexivity]. cbn [rassert bind].
      unfold shoup. rewrite Ep. replace (b <? p) with true by (symmetry; apply Z.ltb_lt; auto). cbn [dassert rassert bind].
      unfold udiv. replace (p =? 0) with false by (symmetry; apply Z.eqb_neq; lia). cbn [bind]. rewrite shiftl64. unfold as64.
      destruct H as [H|H]; [lia|]. apply Z.eqb_neq in H. rewrite H. reflexivity. }
    split; auto. unfold mul_shoup. rewrite E. reflexivity. }
  intros H. unfold reduce_4p. rewrite Ep. rewrite mul64_ok by lia. cbn [bind].
  replace (a <? p * 4) with false by (symmetry; apply Z.ltb_ge; lia). reflexivity.
Qed.

(** C73: sequences of different lengths.  The longer tail is left as it was. *)
Lemma zip_prefix (f : Z -> Z -> outcome Z) (g : Z -> Z -> Z) : forall a b,
  (forall x y, In x a -> In y b -> f x y = Ok (g x y)) ->
  zipM_upd f a b = Ok (map (fun xy => g (fst xy) (snd xy)) (combine a b) ++ skipn (length b) a).
Proof.
  induction a as [|x a IH]; intros [|y b] H; try reflexivity.
  cbn [zipM_upd combine map length skipn app fst snd]. rewrite H by (left; auto). cbn [bind].
  rewrite IH by (intros; apply H; right; auto). reflexivity.
Qed.
Lemma C73_vec_lengths_lem :
  forall pr p m a b, 0 <= p -> modulus_new p = Ok m ->
    (forall x, In x a -> 0 <= x < p) -> (forall x, In x b -> 0 <= x < p) ->
    add_vec pr m a b = Ok (map (fun xy => (fst xy + snd xy) mod p) (combine a b) ++ skipn (length b) a)
    /\ sub_vec pr m a b = Ok (map (fun xy => (fst xy - snd xy) mod p) (combine a b) ++ skipn (length b) a)
    /\ mul_vec pr m a b = Ok (map (fun xy => (fst xy * snd xy) mod p) (combine a b) ++ skipn (length b) a).
Proof.
  intros pr p m a b H0 Hm Ha Hb. destruct (modulus_new_valid p m H0 Hm) as [V <-]. split; [|split].
  - apply (zip_prefix (madd pr m) (fun x y => (x + y) mod mp m)). intros. apply madd_ok; auto.
  - apply (zip_prefix (msub pr m) (fun x y => (x - y) mod mp m)). intros. apply msub_ok; auto.
  - apply (zip_prefix (mmul pr m) (fun x y => (x * y) mod mp m)). intros. apply mmul_ok; auto.
Qed.

(** C73: 256-bit shifts by 256 or more, and conversions that lose words. *)
Lemma C73_u256_lem :
  forall x s, (forall l, In l [u0 x; u1 x; u2 x; u3 x] -> 0 <= l < 2 ^ 64) ->
    (256 <= s -> u256_shr Debug x s = Panic /\ u256_shr Release x s = Ok (mkU256 (u3 x / 2 ^ (s mod 64)) 0 0 0))
    /\ (u2 x <> 0 \/ u3 x <> 0 -> u256_to_u128 Debug x = Panic)
    /\ u256_to_u128 Release x = Ok (u0 x + u1 x * 2 ^ 64).
Proof.
  intros x s H. split; [|split].
  - intros Hs. split.
    + unfold u256_shr. replace (s <? 256) with false by (symmetry; apply Z.ltb_ge; lia). reflexivity.
    + unfold u256_shr. cbn [dassert bind]. replace (192 <=? s) with true by (symmetry; apply Z.leb_le; lia).
      replace ((s - 192) mod 64) with (s mod 64). 2:{ replace (s - 192) with (s + (-3) * 64) by lia. rewrite Z.mod_add by lia. reflexivity. }
      pose proof (Z.mod_pos_bound s 64 ltac:(lia)). rewrite shiftr_div by lia. reflexivity.
  - intros Hx. unfold u256_to_u128. cbn [dassert]. replace ((u2 x =? 0) && (u3 x =? 0)) with false; [reflexivity|]. symmetry. lia.
  - unfold u256_to_u128. cbn [dassert bind]. rewrite shiftl64. change (2 ^ 64) with W64 in *.
    pose proof (H (u0 x) ltac:(simpl; auto)). pose proof (H (u1 x) ltac:(simpl; auto)). apply add128_ok. lia.
Qed.

(*EXAMPLE
Example C73_example :
  exists m, modulus_new 97 = Ok m
    /\ madd Release m 97 100 = Ok 100 /\ msub Release m 0 200 = Ok (2 ^ 64 - 103) /\ mneg Release m 97 = Ok 0
    /\ mmul Release m (2 ^ 64 - 1) (2 ^ 64 - 1) = Ok 11
    /\ mpow Release m 98 1 = Ok 98 /\ mpow Release m 98 2 = Ok 1 /\ mpow Debug m 98 2 = Panic
    /\ minv Release m 0 = Ok 0 /\ minv Debug m 0 = Panic
    /\ shoup Release m 97 = Ok 0 /\ shoup Debug m 97 = Panic /\ shoup Debug m 96 = Ok ((96 * 2 ^ 64) / 97)
    /\ reduce_ct Release 194 97 = Ok 97 /\ reduce_ct Debug 194 97 = Panic
    /\ add_vec Debug m [1; 2; 96] [96; 96] = Ok [0; 1; 96]
    /\ u256_shr Release (mkU256 1 2 3 4) 321 = Ok (mkU256 2 0 0 0) /\ u256_shr Debug (mkU256 1 2 3 4) 321 = Panic.
Proof. eexists. split; [vm_compute; reflexivity|]. repeat split; vm_compute; reflexivity. Qed.
EXAMPLE*)
