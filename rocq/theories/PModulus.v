(** Proofs about MModulus. *)
From Verif Require Import PBase NT MModulus.

Lemma div_mul_le a b : 0 < b -> a / b * b <= a.
Proof. intros. rewrite Z.mul_comm. apply Z.mul_div_le. auto. Qed.
Lemma div_mul_gt a b : 0 < b -> a < (a / b + 1) * b.
Proof. intros. rewrite Z.mul_comm. apply Z.mul_succ_div_gt. auto. Qed.

Lemma le_mul_pos n p a : 0 <= n -> 1 <= p -> n * p <= a -> n <= a.
Proof. nia. Qed.
Lemma mul_range a b A B : 0 <= a < A -> 0 <= b < B -> 0 <= a * b < A * B.
Proof. nia. Qed.

(** Invariant of every constructed modulus. *)
Record valid_mod (m : Modulus) : Prop := {
  vm_range : 2 <= mp m < 2 ^ 62;
  vm_r : barret_hi m * W64 + barret_lo m = W128 / mp m;
  vm_hi : 0 <= barret_hi m < W64;
  vm_lo : 0 <= barret_lo m < W64;
  vm_sum : barret_hi m + barret_lo m <= W64 - 1 }.

Notation P62 := 4611686018427387904 (only parsing).

Lemma valid_range m : valid_mod m -> 2 <= mp m < P62.
Proof. intros H. apply vm_range in H. change (2 ^ 62) with P62 in H. lia. Qed.

Lemma barret_bound p W hi lo :
  1 < p -> 1 < W -> p < W ->
  hi * W + lo = (W * W) / p -> 0 <= lo < W -> 0 <= hi ->
  hi + lo <= W - 1.
Proof.
  intros Hp HW HpW E Hlo Hhi.
  assert (E1 : (hi * W + lo) * p <= W * W).
  { rewrite E. apply div_mul_le. lia. }
  assert (E2 : W * W < (hi * W + lo + 1) * p).
  { rewrite E. apply div_mul_gt. lia. }
  assert (H1 : hi * p <= W) by nia.
  destruct (Z.eq_dec (hi * p) W) as [E3|E3].
  - assert (lo = 0) by nia. nia.
  - assert (H2 : hi * p + 1 <= W) by lia.
    assert (H4 : W < (hi + 1) * p) by nia.
    assert (H5 : lo * p <= (W - hi * p) * W) by nia.
    assert (H6 : W - hi * p <= p - 1) by nia.
    (* lo * p <= (p-1) W  and hi < W / p *)
    assert (H7 : (hi + lo) * p <= hi * p + (p - 1) * W) by nia.
    assert ((hi + lo) * p < W * p) by nia.
    nia.
Qed.

Lemma modulus_new_ok p : 2 <= p < P62 ->
  exists m, modulus_new p = Ok m /\ mp m = p /\ valid_mod m.
Proof.
  intros Hp. unfold modulus_new.
  rewrite rassert_true.
  2:{ rewrite shiftr_div by lia. change (2 ^ 62) with P62. rewrite Z.div_small by lia.
      rewrite orb_true_r. reflexivity. }
  cbn [bind]. rewrite udiv_ok by lia. cbn [bind].
  assert (B : 0 <= W128 / p < W128).
  { split; [apply Z.div_pos; lia|]. apply Z.div_lt; lia. }
  rewrite to_u128_ok by auto. cbn [unwrap bind].
  assert (Ehi : Z.shiftr (W128 / p) 64 = W128 / p / W64) by apply shiftr64.
  assert (Bhi : 0 <= W128 / p / W64 < W64).
  { split; [apply Z.div_pos; lia|]. apply Z.div_lt_upper_bound; lia. }
  eexists. split; [reflexivity|]. split; [reflexivity|].
  assert (Hlo : 0 <= as64 (W128 / p) < W64) by (unfold as64; apply Z.mod_pos_bound; lia).
  assert (Er : as64 (Z.shiftr (W128 / p) 64) * W64 + as64 (W128 / p) = W128 / p).
  { rewrite Ehi. rewrite as64_small by auto. unfold as64.
    pose proof (Z.div_mod (W128 / p) W64 ltac:(lia)). lia. }
  assert (Hhi : 0 <= as64 (Z.shiftr (W128 / p) 64) < W64).
  { rewrite Ehi, as64_small; auto. }
  constructor; cbn [mp barret_hi barret_lo]; auto.
  apply (barret_bound p W64); try lia; auto.
Qed.

Lemma modulus_new_panic p : 0 <= p -> ~ (2 <= p < P62) -> modulus_new p = Panic.
Proof.
  intros H0 Hp. unfold modulus_new.
  destruct (Z.eq_dec p 0) as [->|N0]; [reflexivity|].
  destruct (Z.eq_dec p 1) as [->|N1]; [vm_compute; reflexivity|].
  assert (Hge : P62 <= p) by lia.
  assert (E : (p <? 2) || (Z.shiftr p 62 =? 0) = false).
  { rewrite shiftr_div by lia. change (2 ^ 62) with P62.
    assert (1 <= p / P62) by (apply Z.div_le_lower_bound; lia). lia. }
  rewrite E. reflexivity.
Qed.

Lemma modulus_new_valid p m : 0 <= p -> modulus_new p = Ok m -> valid_mod m /\ mp m = p.
Proof.
  intros H0 H. destruct (Z_le_dec 2 p) as [H2|H2]; destruct (Z_lt_dec p P62) as [H3|H3];
    try (rewrite modulus_new_panic in H by lia; discriminate).
  destruct (modulus_new_ok p) as [m' [E [E1 V]]]; [lia|].
  rewrite E in H. injection H as <-. auto.
Qed.

(** Barrett quotient estimate. *)
Lemma barrett_range W p r a num :
  0 < W -> 0 < p -> r = W / p -> 0 <= a < W -> num = (a * r) / W ->
  num * p <= a /\ a - num * p < 2 * p /\ 0 <= num.
Proof.
  intros HW Hp Er Ha En.
  assert (R1 : r * p <= W) by (subst r; apply div_mul_le; lia).
  assert (R2 : W < (r + 1) * p) by (subst r; apply div_mul_gt; lia).
  assert (R0 : 0 <= r) by (subst r; apply Z.div_pos; lia).
  assert (N0 : 0 <= num) by (subst num; apply Z.div_pos; nia).
  assert (N1 : num * W <= a * r) by (subst num; apply div_mul_le; lia).
  assert (N2 : a * r < (num + 1) * W) by (subst num; apply div_mul_gt; lia).
  split; [|split; auto].
  - assert (num * p * W <= a * W) by nia. nia.
  - assert (H : (a - num * p) * W < (2 * p) * W); [|nia].
    assert (a * r * p < (num + 1) * W * p) by nia.
    assert (a * W <= a * ((r + 1) * p)) by nia.
    assert (a * p < W * p) by nia. nia.
Qed.

Lemma W64_sq : W128 = W64 * W64. Proof. reflexivity. Qed.

Lemma barrett64_num a hi lo : 
  (a * hi + a * lo / W64) / W64 = a * (hi * W64 + lo) / W128.
Proof.
  rewrite W64_sq. rewrite <- Z.div_div by lia. f_equal.
  replace (a * (hi * W64 + lo)) with (a * lo + (a * hi) * W64) by ring.
  rewrite Z.div_add by lia. ring.
Qed.

Lemma barrett128_num ahi alo hi lo :
  (alo * hi + ahi * lo + alo * lo / W64) / W64 + ahi * hi
  = (ahi * W64 + alo) * (hi * W64 + lo) / W128.
Proof.
  rewrite W64_sq. rewrite <- Z.div_div by lia.
  replace ((ahi * W64 + alo) * (hi * W64 + lo))
    with (alo * lo + (alo * hi + ahi * lo + ahi * hi * W64) * W64) by ring.
  rewrite Z.div_add by lia.
  replace (alo * lo / W64 + (alo * hi + ahi * lo + ahi * hi * W64))
    with (alo * hi + ahi * lo + alo * lo / W64 + ahi * hi * W64) by ring.
  rewrite Z.div_add by lia. ring.
Qed.

Lemma mul_range64 a b : 0 <= a < W64 -> 0 <= b < W64 -> 0 <= a * b <= (W64 - 1) * (W64 - 1).
Proof. intros. split; [apply Z.mul_nonneg_nonneg; lia | apply Z.mul_le_mono_nonneg; lia]. Qed.

Lemma div_range64 a B : 0 <= a < B * W64 -> 0 <= a / W64 < B.
Proof. intros. split; [apply Z.div_pos; lia | apply Z.div_lt_upper_bound; lia]. Qed.

Lemma cross_sum alo ahi hi lo : 0 <= alo < W64 -> 0 <= ahi < W64 -> 0 <= hi -> 0 <= lo ->
  hi + lo <= W64 - 1 -> alo * hi + ahi * lo <= (W64 - 1) * (W64 - 1).
Proof.
  intros H1 H2 H3 H4 H5.
  assert (alo * hi <= (W64 - 1) * hi) by (apply Z.mul_le_mono_nonneg_r; lia).
  assert (ahi * lo <= (W64 - 1) * lo) by (apply Z.mul_le_mono_nonneg_r; lia). lia.
Qed.

Lemma lazy_reduce_ct_val m a : valid_mod m -> 0 <= a < W64 ->
  forall pr, exists v, lazy_reduce_ct pr m a = Ok v /\ 0 <= v < 2 * mp m /\ eqm (mp m) v a.
Proof.
  intros V Ha pr. pose proof (valid_range m V) as Vr. destruct V as [_ Vb Vhi Vlo _].
  unfold lazy_reduce_ct.
  pose proof (mul_range64 a (barret_lo m) Ha Vlo) as L0.
  pose proof (mul_range64 a (barret_hi m) Ha Vhi) as H0.
  rewrite mul128_ok by lia. cbn [bind]. rewrite shiftr64.
  pose proof (div_range64 (a * barret_lo m) W64 ltac:(lia)) as L1.
  rewrite mul128_ok by lia. cbn [bind].
  rewrite add128_ok by lia. cbn [bind]. rewrite shiftr64.
  rewrite barrett64_num, Vb.
  destruct (barrett_range W128 (mp m) (W128 / mp m) a (a * (W128 / mp m) / W128)) as [B1 [B2 B3]];
    [reflexivity | clear - Vr; lia | reflexivity | clear - Ha; lia | reflexivity |].
  set (num := a * (W128 / mp m) / W128) in *. clearbody num. clear L0 H0 L1 Vb Vhi Vlo.
  pose proof (Z.mul_nonneg_nonneg num (mp m) B3 ltac:(lia)) as B5.
  rewrite mul128_ok by lia. cbn [bind].
  rewrite sub128_ok by lia. cbn [bind].
  eexists. split; [reflexivity|]. rewrite as64_small by lia. split; [lia|].
  replace (a - num * mp m) with (a + (- num) * mp m) by ring. apply eqm_add_mult.
Qed.

Lemma lazy_reduce_u128_val m a : valid_mod m -> 0 <= a < W128 ->
  forall pr, exists v, lazy_reduce_u128 pr m a = Ok v /\ 0 <= v < 2 * mp m /\ eqm (mp m) v a.
Proof.
  intros V Ha pr. pose proof (valid_range m V) as Vr. destruct V as [_ Vb Vhi Vlo Vs].
  unfold lazy_reduce_u128. rewrite shiftr64.
  pose proof (div_range64 a W64 ltac:(lia)) as Bhi.
  rewrite (as64_small (a / W64)) by auto.
  assert (Blo : 0 <= as64 a < W64) by (unfold as64; apply Z.mod_pos_bound; lia).
  assert (Ea : a = a / W64 * W64 + as64 a).
  { unfold as64. pose proof (Z.div_mod a W64 ltac:(lia)). lia. }
  set (ahi := a / W64) in *. set (alo := as64 a) in *. clearbody ahi alo.
  pose proof (mul_range64 alo (barret_lo m) Blo Vlo) as P1.
  pose proof (mul_range64 alo (barret_hi m) Blo Vhi) as P2.
  pose proof (mul_range64 ahi (barret_lo m) Bhi Vlo) as P3.
  pose proof (mul_range64 ahi (barret_hi m) Bhi Vhi) as P4.
  pose proof (cross_sum alo ahi (barret_hi m) (barret_lo m) Blo Bhi ltac:(lia) ltac:(lia) Vs) as P5.
  rewrite mul128_ok by lia. cbn [bind]. rewrite shiftr64.
  pose proof (div_range64 (alo * barret_lo m) W64 ltac:(lia)) as L1.
  rewrite mul128_ok by lia. cbn [bind].
  rewrite mul128_ok by lia. cbn [bind].
  rewrite mul128_ok by lia. cbn [bind].
  rewrite add128_ok by lia. cbn [bind].
  rewrite add128_ok by lia. cbn [bind]. rewrite shiftr64.
  pose proof (barrett128_num ahi alo (barret_hi m) (barret_lo m)) as En.
  rewrite Vb, <- Ea in En.
  destruct (barrett_range W128 (mp m) (W128 / mp m) a (a * (W128 / mp m) / W128)) as [B1 [B2 B3]];
    [reflexivity | clear - Vr; lia | reflexivity | clear - Ha; lia | reflexivity |].
  rewrite <- En in *.
  set (num := (alo * barret_hi m + ahi * barret_lo m + alo * barret_lo m / W64) / W64
              + ahi * barret_hi m) in *. 
  assert (B4 : num <= a) by (apply (le_mul_pos num (mp m)); [exact B3 | clear - Vr; lia | exact B1]).
  rewrite add128_ok by (fold num; clear - B3 B4 Ha; clearbody num; lia). cbn [bind]. fold num.
  clearbody num. clear - B1 B2 B3 B4 Vr Ha.
  pose proof (Z.mul_nonneg_nonneg num (mp m) B3 ltac:(lia)) as B5.
  rewrite mul128_ok by lia. cbn [bind].
  rewrite sub128_ok by lia. cbn [bind].
  eexists. split; [reflexivity|]. rewrite as64_small by lia. split; [lia|].
  replace (a - num * mp m) with (a + (- num) * mp m) by ring. apply eqm_add_mult.
Qed.

Lemma lxor_cancel x y p : Z.lxor x (Z.lxor (Z.lxor x p) (Z.lxor y p)) = y.
Proof.
  apply Z.bits_inj'. intros n Hn. rewrite !Z.lxor_spec.
  destruct (Z.testbit x n), (Z.testbit y n), (Z.testbit p n); reflexivity.
Qed.

Lemma reduce_ct_ok pr x p : 0 < p < W63 -> 0 <= x < 2 * p -> reduce_ct pr x p = Ok (x mod p).
Proof.
  intros Hp Hx. unfold reduce_ct.
  rewrite dassert_true.
  2:{ rewrite shiftr_div by lia. change (2 ^ 63) with W63. rewrite Z.div_small by lia. reflexivity. }
  cbn [bind]. rewrite dassert_true by lia. cbn [bind].
  rewrite lxor_cancel.
  assert (E : Z.lor (Z.land ((Z.shiftr ((x - p) mod W64) 63 - 1) mod W64) ((x - p) mod W64))
                    (Z.land (W64 - 1 - (Z.shiftr ((x - p) mod W64) 63 - 1) mod W64) x) = x mod p).
  { rewrite (shiftr_div _ 63) by lia. change (2 ^ 63) with W63.
    destruct (Z_le_dec p x) as [Hle|Hlt].
    - rewrite (Z.mod_small (x - p)) by lia.
      rewrite (Z.div_small (x - p)) by lia.
      change ((0 - 1) mod W64) with (Z.ones 64).
      change (W64 - 1 - Z.ones 64) with 0. rewrite Z.land_0_l, Z.lor_0_r.
      rewrite Z.land_comm, Z.land_ones by lia. change (2 ^ 64) with W64.
      rewrite Z.mod_small by lia.
      apply Z.mod_unique with 1; lia.
    - assert (E1 : (x - p) mod W64 = x - p + W64).
      { symmetry. apply Z.mod_unique with (-1); lia. }
      rewrite E1.
      assert (E2 : (x - p + W64) / W63 = 1).
      { symmetry. apply Z.div_unique with (x - p + W63); lia. }
      rewrite E2. change ((1 - 1) mod W64) with 0.
      rewrite Z.land_0_l, Z.lor_0_l. change (W64 - 1 - 0) with (Z.ones 64).
      rewrite Z.land_comm, Z.land_ones by lia. change (2 ^ 64) with W64.
      rewrite !Z.mod_small by lia. reflexivity. }
  rewrite E. rewrite dassert_true by (apply Z.eqb_refl). reflexivity.
Qed.

Lemma mreduce_ok pr m a : valid_mod m -> 0 <= a < W64 -> mreduce pr m a = Ok (a mod mp m).
Proof.
  intros V Ha. unfold mreduce. destruct (lazy_reduce_ct_val m a V Ha pr) as [v [E [R C]]].
  pose proof (valid_range m V).
  rewrite E. cbn [bind]. rewrite reduce_ct_ok by lia. f_equal. auto.
Qed.

Lemma mreduce_u128_ok pr m a : valid_mod m -> 0 <= a < W128 -> mreduce_u128 pr m a = Ok (a mod mp m).
Proof.
  intros V Ha. unfold mreduce_u128. destruct (lazy_reduce_u128_val m a V Ha pr) as [v [E [R C]]].
  pose proof (valid_range m V).
  rewrite E. cbn [bind]. rewrite reduce_ct_ok by lia. f_equal. auto.
Qed.

Lemma reduce_biguint_ok m a : valid_mod m -> reduce_biguint m a = Ok (a mod mp m).
Proof.
  intros V. pose proof (valid_range m V). unfold reduce_biguint.
  rewrite umod_ok by lia. cbn [bind].
  pose proof (Z.mod_pos_bound a (mp m) ltac:(lia)).
  rewrite to_u64_ok by lia. reflexivity.
Qed.

Lemma reduce_i64_ok pr m a : valid_mod m -> - W63 <= a < W63 -> reduce_i64 pr m a = Ok (a mod mp m).
Proof.
  intros V Ha. pose proof (valid_range m V). unfold reduce_i64. rewrite shiftl64.
  unfold as128. rewrite Z.mod_small by lia.
  rewrite mreduce_u128_ok by (auto; lia). f_equal.
  rewrite Z.add_comm, Z.mul_comm. apply Z_mod_plus_full.
Qed.


Lemma madd_ok pr m a b : valid_mod m -> 0 <= a < mp m -> 0 <= b < mp m ->
  madd pr m a b = Ok ((a + b) mod mp m).
Proof.
  intros V Ha Hb. pose proof (valid_range m V). unfold madd.
  rewrite !dassert_true by lia. cbn [bind]. rewrite add64_ok by lia. cbn [bind].
  apply reduce_ct_ok; lia.
Qed.
Lemma msub_ok pr m a b : valid_mod m -> 0 <= a < mp m -> 0 <= b < mp m ->
  msub pr m a b = Ok ((a - b) mod mp m).
Proof.
  intros V Ha Hb. pose proof (valid_range m V). unfold msub.
  rewrite !dassert_true by lia. cbn [bind]. rewrite sub64_ok by lia. cbn [bind].
  rewrite add64_ok by lia. cbn [bind]. rewrite reduce_ct_ok by lia. f_equal.
  replace (a + (mp m - b)) with (a - b + 1 * mp m) by ring. apply Z_mod_plus_full.
Qed.
Lemma mmul_ok pr m a b : valid_mod m -> 0 <= a < mp m -> 0 <= b < mp m ->
  mmul pr m a b = Ok ((a * b) mod mp m).
Proof.
  intros V Ha Hb. pose proof (valid_range m V). unfold mmul.
  rewrite !dassert_true by lia. cbn [bind].
  assert (0 <= a * b < W128) by nia.
  rewrite mul128_ok by auto. cbn [bind]. apply mreduce_u128_ok; auto.
Qed.
Lemma mneg_ok pr m a : valid_mod m -> 0 <= a < mp m -> mneg pr m a = Ok ((- a) mod mp m).
Proof.
  intros V Ha. pose proof (valid_range m V). unfold mneg.
  rewrite !dassert_true by lia. cbn [bind]. rewrite sub64_ok by lia. cbn [bind].
  rewrite reduce_ct_ok by lia. f_equal.
  replace (mp m - a) with (- a + 1 * mp m) by ring. apply Z_mod_plus_full.
Qed.

(** Exponentiation *)
Lemma pow_step p a v q b : 0 < p -> 0 <= q -> b = 0 \/ b = 1 -> v = a ^ q mod p ->
  (if b =? 1 then ((v * v) mod p * a) mod p else (v * v) mod p) = a ^ (2 * q + b) mod p.
Proof.
  intros Hp Hq Hb Ev.
  assert (Esq : eqm p ((v * v) mod p) (a ^ (2 * q))).
  { rewrite eqm_mod. replace (2 * q) with (q + q) by ring. rewrite Z.pow_add_r by lia.
    rewrite Ev. apply eqm_mul; apply eqm_mod. }
  destruct Hb as [-> | ->].
  - change (0 =? 1) with false. cbv iota. rewrite Z.add_0_r.
    unfold eqm in Esq. rewrite Zmod_mod in Esq. auto.
  - change (1 =? 1) with true. cbv iota. rewrite Z.pow_add_r by lia. rewrite Z.pow_1_r.
    apply eqm_mod_eq. rewrite Esq. reflexivity.
Qed.

Lemma pow2_split r k : 0 <= r ->
  r / 2 ^ Z.of_nat k = 2 * (r / 2 ^ Z.of_nat (S k)) + (r / 2 ^ Z.of_nat k) mod 2.
Proof.
  intros Hr. replace (2 ^ Z.of_nat (S k)) with (2 ^ Z.of_nat k * 2).
  2:{ rewrite Nat2Z.inj_succ, Z.pow_succ_r by lia. ring. }
  rewrite <- Z.div_div by lia. apply Z.div_mod. lia.
Qed.

Lemma pow_loop_ok pr m a r k : valid_mod m -> 0 <= a < mp m -> 0 <= r ->
  forall val, val = (a ^ (r / 2 ^ Z.of_nat k)) mod mp m ->
  pow_loop pr m a r k val = Ok (a ^ r mod mp m).
Proof.
  intros V Ha Hr. pose proof (valid_range m V) as Hp.
  induction k as [|k IH]; intros val Ev; simpl pow_loop.
  - rewrite Ev. change (2 ^ Z.of_nat 0) with 1. rewrite Z.div_1_r. reflexivity.
  - assert (Bv : 0 <= val < mp m) by (rewrite Ev; apply Z.mod_pos_bound; lia).
    rewrite mmul_ok by auto. cbn [bind].
    pose proof (Z.mod_pos_bound (val * val) (mp m) ltac:(lia)) as Bs.
    rewrite shiftr_div by lia.
    change (Z.land (r / 2 ^ Z.of_nat k) 1) with (Z.land (r / 2 ^ Z.of_nat k) (Z.ones 1)).
    rewrite Z.land_ones by lia. change (2 ^ 1) with 2.
    pose proof (Z.mod_pos_bound (r / 2 ^ Z.of_nat k) 2 ltac:(lia)) as Bb.
    pose proof (pow2_split r k Hr) as Hq.
    assert (Q0 : 0 <= r / 2 ^ Z.of_nat (S k)) by (apply Z.div_pos; lia).
    set (b := (r / 2 ^ Z.of_nat k) mod 2) in *.
    assert (Hb : b = 0 \/ b = 1) by lia.
    pose proof (pow_step (mp m) a val _ b ltac:(lia) Q0 Hb Ev) as Hs.
    rewrite <- Hq in Hs.
    destruct (b =? 1).
    + rewrite mmul_ok by auto. cbn [bind]. apply IH. auto.
    + cbn [bind]. apply IH. auto.
Qed.

Lemma bitlen_log2 x : 0 < x -> bitlen x = Z.log2 x + 1.
Proof. intros. unfold bitlen. destruct (x =? 0) eqn:E; auto. lia. Qed.

Lemma mpow_ok pr m a r : valid_mod m -> 0 <= a < mp m -> 0 <= r < mp m ->
  mpow pr m a r = Ok (a ^ r mod mp m).
Proof.
  intros V Ha Hr. pose proof (valid_range m V) as Hp. unfold mpow.
  rewrite dassert_true by lia. cbn [bind].
  destruct (r =? 0) eqn:E0.
  { apply Z.eqb_eq in E0. subst. change (a ^ 0) with 1. rewrite Z.mod_small by lia. reflexivity. }
  destruct (r =? 1) eqn:E1.
  { apply Z.eqb_eq in E1. subst. rewrite Z.pow_1_r, Z.mod_small by lia. reflexivity. }
  apply pow_loop_ok; auto; [lia|].
  unfold leading_zeros. rewrite bitlen_log2 by lia.
  assert (L : 0 < Z.log2 r) by (apply Z.log2_pos; lia).
  assert (Eb : Z.of_nat (Z.to_nat (62 - (64 - (Z.log2 r + 1)) + 1)) = Z.log2 r) by lia.
  rewrite Eb.
  pose proof (Z.log2_spec r ltac:(lia)) as [L1 L2].
  assert (E : r / 2 ^ Z.log2 r = 1).
  { symmetry. apply Z.div_unique with (r - 2 ^ Z.log2 r).
    - rewrite Z.pow_succ_r in L2 by lia. lia.
    - lia. }
  rewrite E, Z.pow_1_r, Z.mod_small by lia. reflexivity.
Qed.

Lemma minv_ok pr m a : valid_mod m -> 0 < a < mp m ->
  minv pr m a = Ok (a ^ (mp m - 2) mod mp m).
Proof.
  intros V Ha. pose proof (valid_range m V) as Hp. unfold minv.
  rewrite dassert_true by lia. cbn [bind]. rewrite sub64_ok by lia. cbn [bind].
  apply mpow_ok; auto; lia.
Qed.

Lemma minv_correct pr m a : valid_mod m -> prime (mp m) -> 0 < a < mp m ->
  exists v, minv pr m a = Ok v /\ 0 <= v < mp m /\ eqm (mp m) (a * v) 1.
Proof.
  intros V P Ha. rewrite minv_ok by auto. eexists. split; [reflexivity|].
  split; [apply Z.mod_pos_bound; lia|]. rewrite eqm_mod. apply fermat_inv; auto.
Qed.

(** Shoup multiplication *)
Definition shoup_of (p a : Z) : Z := a * W64 / p.

Lemma shoup_ok pr m a : valid_mod m -> 0 <= a < mp m -> shoup pr m a = Ok (shoup_of (mp m) a).
Proof.
  intros V Ha. pose proof (valid_range m V) as Hp. unfold shoup, shoup_of.
  rewrite dassert_true by lia. cbn [bind]. rewrite shiftl64, udiv_ok by lia. cbn [bind].
  rewrite as64_small; auto.
  split; [apply Z.div_pos; lia | apply Z.div_lt_upper_bound; nia].
Qed.

Lemma shoup_of_range m a : valid_mod m -> 0 <= a < mp m -> 0 <= shoup_of (mp m) a < W64.
Proof.
  intros V Ha. pose proof (valid_range m V) as Hp. unfold shoup_of.
  split; [apply Z.div_pos; lia | apply Z.div_lt_upper_bound; nia].
Qed.

Lemma lazy_mul_shoup_ok pr m a b : valid_mod m -> 0 <= a < W64 -> 0 <= b < mp m ->
  exists v, lazy_mul_shoup pr m a b (shoup_of (mp m) b) = Ok v
            /\ 0 <= v < 2 * mp m /\ eqm (mp m) v (a * b).
Proof.
  intros V Ha Hb. pose proof (valid_range m V) as Hp.
  pose proof (shoup_of_range m b V Hb) as Bs.
  unfold lazy_mul_shoup. rewrite dassert_true by lia. cbn [bind].
  assert (E : (match pr with
   | Debug => s <- shoup pr m b ;; rassert (shoup_of (mp m) b =? s)
   | Release => Ok tt end) = Ok tt).
  { destruct pr; auto. rewrite shoup_ok by auto. cbn [bind]. rewrite Z.eqb_refl. reflexivity. }
  rewrite E. cbn [bind]. clear E.
  set (s := shoup_of (mp m) b) in *. set (p := mp m) in *.
  assert (S1 : s * p <= b * W64).
  { unfold s, shoup_of. fold p. apply div_mul_le. lia. }
  assert (S2 : b * W64 < (s + 1) * p).
  { unfold s, shoup_of. fold p. apply div_mul_gt. lia. }
  rewrite mul128_ok by nia. cbn [bind]. rewrite shiftr64.
  set (q := a * s / W64).
  assert (Q0 : 0 <= q) by (apply Z.div_pos; nia).
  assert (Q1 : q * W64 <= a * s) by (unfold q; apply div_mul_le; lia).
  assert (Q2 : a * s < (q + 1) * W64) by (unfold q; apply div_mul_gt; lia).
  assert (R1 : q * p <= a * b).
  { assert (q * p * W64 <= a * b * W64) by nia. nia. }
  assert (R2 : a * b - q * p < 2 * p).
  { assert (a * s * p <= (q + 1) * W64 * p) by nia.
    assert (a * (b * W64) <= a * ((s + 1) * p)) by nia.
    assert ((a * b - q * p) * W64 < 2 * p * W64) by nia. nia. }
  assert (0 <= a * b < W128) by nia.
  rewrite mul128_ok by nia. cbn [bind].
  rewrite mul128_ok by nia. cbn [bind].
  rewrite sub128_ok by nia. cbn [bind].
  rewrite as64_small by nia.
  rewrite dassert_true by lia. cbn [bind].
  eexists. split; [reflexivity|]. split; [lia|].
  replace (a * b - q * p) with (a * b + (- q) * p) by ring. apply eqm_add_mult.
Qed.

Lemma mul_shoup_ok pr m a b : valid_mod m -> 0 <= a < W64 -> 0 <= b < mp m ->
  mul_shoup pr m a b (shoup_of (mp m) b) = Ok ((a * b) mod mp m).
Proof.
  intros V Ha Hb. pose proof (valid_range m V) as Hp. unfold mul_shoup.
  destruct (lazy_mul_shoup_ok pr m a b V Ha Hb) as [v [E [R C]]].
  rewrite E. cbn [bind]. rewrite reduce_ct_ok by lia. f_equal. auto.
Qed.

Lemma scalar_mul_vec_lazy pr m a b : valid_mod m -> Forall (fun x => 0 <= x < W64) a -> 0 <= b < mp m ->
  exists r, scalar_mul_vec pr m a b = Ok r /\
    Forall2 (fun x v => 0 <= v < 2 * mp m /\ eqm (mp m) v (x * b)) a r.
Proof.
  intros V Ha Hb. unfold scalar_mul_vec. rewrite shoup_ok by auto. cbn [bind].
  apply mapM_exists. intros x Hx. rewrite Forall_forall in Ha.
  apply lazy_mul_shoup_ok; auto.
Qed.

(** Vector forms *)
Definition allr (p : Z) (l : list Z) : Prop := Forall (fun x => 0 <= x < p) l.

Lemma vec2_ok f m (g : Z -> Z -> Z) a b :
  (forall x y, 0 <= x < mp m -> 0 <= y < mp m -> f x y = Ok (g x y)) ->
  allr (mp m) a -> allr (mp m) b -> length a = length b ->
  zipM_upd f a b = Ok (map (fun p => g (fst p) (snd p)) (combine a b)).
Proof.
  intros Hf Ha Hb HL. apply zipM_upd_ok; auto.
  intros x y Hin. unfold allr in *. rewrite Forall_forall in Ha, Hb.
  apply Hf; [apply Ha; eapply in_combine_l; eauto | apply Hb; eapply in_combine_r; eauto].
Qed.

Lemma add_vec_ok pr m a b : valid_mod m -> allr (mp m) a -> allr (mp m) b -> length a = length b ->
  add_vec pr m a b = Ok (map (fun p => (fst p + snd p) mod mp m) (combine a b)).
Proof. intros V Ha Hb HL. apply (vec2_ok _ m (fun x y => (x + y) mod mp m)); auto. intros. apply madd_ok; auto. Qed.
Lemma sub_vec_ok pr m a b : valid_mod m -> allr (mp m) a -> allr (mp m) b -> length a = length b ->
  sub_vec pr m a b = Ok (map (fun p => (fst p - snd p) mod mp m) (combine a b)).
Proof. intros V Ha Hb HL. apply (vec2_ok _ m (fun x y => (x - y) mod mp m)); auto. intros. apply msub_ok; auto. Qed.
Lemma mul_vec_ok pr m a b : valid_mod m -> allr (mp m) a -> allr (mp m) b -> length a = length b ->
  mul_vec pr m a b = Ok (map (fun p => (fst p * snd p) mod mp m) (combine a b)).
Proof. intros V Ha Hb HL. apply (vec2_ok _ m (fun x y => (x * y) mod mp m)); auto. intros. apply mmul_ok; auto. Qed.
Lemma neg_vec_ok pr m a : valid_mod m -> allr (mp m) a ->
  neg_vec pr m a = Ok (map (fun x => (- x) mod mp m) a).
Proof.
  intros V Ha. apply mapM_ok. unfold allr in Ha. rewrite Forall_forall in Ha. intros. apply mneg_ok; auto.
Qed.

Lemma reduce_vec_u64_ok pr m a : valid_mod m -> allr W64 a ->
  reduce_vec_u64 pr m a = Ok (map (fun x => x mod mp m) a).
Proof. intros V Ha. apply mapM_ok. unfold allr in Ha. rewrite Forall_forall in Ha. intros. apply mreduce_ok; auto. Qed.
Lemma reduce_vec_i64_ok pr m a : valid_mod m -> Forall (fun x => - W63 <= x < W63) a ->
  reduce_vec_i64 pr m a = Ok (map (fun x => x mod mp m) a).
Proof. intros V Ha. apply mapM_ok. rewrite Forall_forall in Ha. intros. apply reduce_i64_ok; auto. Qed.
Lemma reduce_vec_biguint_ok m a : valid_mod m ->
  reduce_vec_biguint m a = Ok (map (fun x => x mod mp m) a).
Proof. intros V. apply mapM_ok. intros. apply reduce_biguint_ok; auto. Qed.

(** Debug assertions reject unreduced operands. *)
Lemma madd_debug_oob m a b : mp m <= a \/ mp m <= b -> madd Debug m a b = Panic.
Proof.
  intros H. unfold madd, dassert, rassert.
  destruct (a <? mp m) eqn:E1; [|reflexivity]. destruct (b <? mp m) eqn:E2; [lia|reflexivity].
Qed.
Lemma msub_debug_oob m a b : mp m <= a \/ mp m <= b -> msub Debug m a b = Panic.
Proof.
  intros H. unfold msub, dassert, rassert.
  destruct (a <? mp m) eqn:E1; [|reflexivity]. destruct (b <? mp m) eqn:E2; [lia|reflexivity].
Qed.
Lemma mmul_debug_oob m a b : mp m <= a \/ mp m <= b -> mmul Debug m a b = Panic.
Proof.
  intros H. unfold mmul, dassert, rassert.
  destruct (a <? mp m) eqn:E1; [|reflexivity]. destruct (b <? mp m) eqn:E2; [lia|reflexivity].
Qed.
Lemma mneg_debug_oob m a : mp m <= a -> mneg Debug m a = Panic.
Proof. intros H. unfold mneg, dassert, rassert. destruct (a <? mp m) eqn:E1; [lia|reflexivity]. Qed.

Lemma modulus_bits_eq m : valid_mod m -> modulus_bits m = 2 ^ 64 - 65 + bitlen (mp m).
Proof. intros V. unfold modulus_bits, leading_zeros. change (2 ^ 64) with W64. lia. Qed.
