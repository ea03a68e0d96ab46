(** Claims C01-C07: modular arithmetic (src/modulus.rs). *)
From Verif Require Import PBase NT MModulus PModulus.

(** C01: construction succeeds exactly on [2, 2^62). *)
Lemma C01_modulus_new_lem :
  forall p, 0 <= p < 2 ^ 64 ->
    (2 <= p < 2 ^ 62 -> exists m, modulus_new p = Ok m /\ mp m = p)
    /\ (~ (2 <= p < 2 ^ 62) -> modulus_new p = Panic).
Proof.
  intros p Hp. change (2 ^ 62) with 4611686018427387904. split; intros H.
  - destruct (modulus_new_ok p H) as [m [E [E1 _]]]. eauto.
  - apply modulus_new_panic; lia.
Qed.

(** C02: [reduce] and [reduce_u128] compute the remainder on the whole word
    range, in both build profiles (so nothing overflows, no assertion fails). *)
Lemma C02_reduce_lem :
  forall pr p m a, 0 <= p -> modulus_new p = Ok m -> 0 <= a < 2 ^ 64 ->
    mreduce pr m a = Ok (a mod p).
Proof.
  intros pr p m a H0 Hm Ha. destruct (modulus_new_valid p m H0 Hm) as [V <-].
  apply mreduce_ok; auto.
Qed.

Lemma C02_reduce_u128_lem :
  forall pr p m a, 0 <= p -> modulus_new p = Ok m -> 0 <= a < 2 ^ 128 ->
    mreduce_u128 pr m a = Ok (a mod p).
Proof.
  intros pr p m a H0 Hm Ha. destruct (modulus_new_valid p m H0 Hm) as [V <-].
  apply mreduce_u128_ok; auto.
Qed.

Lemma C02_lazy_reduce_lem :
  forall pr p m a, 0 <= p -> modulus_new p = Ok m ->
    (0 <= a < 2 ^ 64 -> exists v, lazy_reduce_ct pr m a = Ok v /\ 0 <= v < 2 * p /\ v mod p = a mod p)
    /\ (0 <= a < 2 ^ 128 -> exists v, lazy_reduce_u128 pr m a = Ok v /\ 0 <= v < 2 * p /\ v mod p = a mod p).
Proof.
  intros pr p m a H0 Hm. destruct (modulus_new_valid p m H0 Hm) as [V <-].
  split; intros Ha.
  - apply (lazy_reduce_ct_val m a V Ha pr).
  - apply (lazy_reduce_u128_val m a V Ha pr).
Qed.

(** C02: the final conditional subtraction, for any p below 2^63. *)
Lemma C02_reduce_ct_lem :
  forall pr x p, 0 < p < 2 ^ 63 -> 0 <= x < 2 * p -> reduce_ct pr x p = Ok (x mod p).
Proof.
  intros pr x p Hp Hx. apply reduce_ct_ok; auto.
Qed.

(** C02: big integer reduction. *)
Lemma C02_reduce_biguint_lem :
  forall p m a, 0 <= p -> modulus_new p = Ok m -> reduce_biguint m a = Ok (a mod p).
Proof.
  intros p m a H0 Hm. destruct (modulus_new_valid p m H0 Hm) as [V <-].
  apply reduce_biguint_ok; auto.
Qed.

(*EXAMPLE
(** The hypotheses are met by the largest modulus and extreme words. *)
Example C02_example :
  exists m, modulus_new (2 ^ 62 - 1) = Ok m
    /\ mreduce Debug m (2 ^ 64 - 1) = Ok 3
    /\ mreduce_u128 Debug m (2 ^ 128 - 1) = Ok 15
    /\ mreduce_u128 Release m (2 ^ 128 - 1) = Ok 15.
Proof. eexists. split; [vm_compute; reflexivity|]. vm_compute. auto. Qed.
EXAMPLE*)

(** C03: signed reduction, for every i64. *)
Lemma C03_reduce_i64_lem :
  forall pr p m l, 0 <= p -> modulus_new p = Ok m ->
    (forall a, In a l -> - 2 ^ 63 <= a < 2 ^ 63) ->
    reduce_vec_i64 pr m l = Ok (map (fun a => a mod p) l)
    /\ (forall a, In a l -> 0 <= a mod p < p /\ (p | a - a mod p)).
Proof.
  intros pr p m l H0 Hm Hl. destruct (modulus_new_valid p m H0 Hm) as [V <-].
  pose proof (valid_range m V). split.
  - apply reduce_vec_i64_ok; auto. apply Forall_forall. auto.
  - intros a _. split; [apply Z.mod_pos_bound; lia|].
    exists (a / mp m). pose proof (Z.div_mod a (mp m) ltac:(lia)). lia.
Qed.

(*EXAMPLE
Example C03_example :
  exists m, modulus_new 17 = Ok m /\ reduce_vec_i64 Debug m [-1; 5; - 2 ^ 63] = Ok [16; 5; 8].
Proof. eexists. split; [vm_compute; reflexivity|]. vm_compute; reflexivity. Qed.
EXAMPLE*)

(** C04: reduced operands. *)
Lemma C04_ops_lem :
  forall pr p m a b, 0 <= p -> modulus_new p = Ok m -> 0 <= a < p -> 0 <= b < p ->
    madd pr m a b = Ok ((a + b) mod p)
    /\ msub pr m a b = Ok ((a - b) mod p)
    /\ mmul pr m a b = Ok ((a * b) mod p)
    /\ mneg pr m a = Ok ((- a) mod p)
    /\ 0 <= (a + b) mod p < p /\ 0 <= (a - b) mod p < p
    /\ 0 <= (a * b) mod p < p /\ 0 <= (- a) mod p < p.
Proof.
  intros pr p m a b H0 Hm Ha Hb. destruct (modulus_new_valid p m H0 Hm) as [V <-].
  rewrite madd_ok, msub_ok, mmul_ok, mneg_ok by auto.
  pose proof (valid_range m V). repeat split; try reflexivity; apply Z.mod_pos_bound; lia.
Qed.

(** C04: the vector forms are elementwise. *)
Lemma C04_vec_lem :
  forall pr p m a b, 0 <= p -> modulus_new p = Ok m ->
    (forall x, In x a -> 0 <= x < p) -> (forall x, In x b -> 0 <= x < p) ->
    length a = length b ->
    add_vec pr m a b = Ok (map (fun xy => (fst xy + snd xy) mod p) (combine a b))
    /\ sub_vec pr m a b = Ok (map (fun xy => (fst xy - snd xy) mod p) (combine a b))
    /\ mul_vec pr m a b = Ok (map (fun xy => (fst xy * snd xy) mod p) (combine a b))
    /\ neg_vec pr m a = Ok (map (fun x => (- x) mod p) a).
Proof.
  intros pr p m a b H0 Hm Ha Hb HL. destruct (modulus_new_valid p m H0 Hm) as [V <-].
  apply Forall_forall in Ha, Hb.
  rewrite add_vec_ok, sub_vec_ok, mul_vec_ok, neg_vec_ok by auto. auto.
Qed.

(** C04: unreduced operands are caught in a debug build. *)
Lemma C04_debug_guard_lem :
  forall p m a b, 0 <= p -> modulus_new p = Ok m -> p <= a \/ p <= b ->
    madd Debug m a b = Panic /\ msub Debug m a b = Panic /\ mmul Debug m a b = Panic
    /\ (p <= a -> mneg Debug m a = Panic).
Proof.
  intros p m a b H0 Hm Ha. destruct (modulus_new_valid p m H0 Hm) as [V <-].
  rewrite madd_debug_oob, msub_debug_oob, mmul_debug_oob by auto. repeat split; auto.
  apply mneg_debug_oob.
Qed.

(*EXAMPLE
Example C04_example :
  exists m, modulus_new 97 = Ok m /\ madd Debug m 96 95 = Ok 94 /\ msub Debug m 3 90 = Ok 10
    /\ mmul Debug m 96 96 = Ok 1 /\ mneg Debug m 0 = Ok 0 /\ mneg Debug m 97 = Panic.
Proof. eexists. split; [vm_compute; reflexivity|]. vm_compute; auto 10. Qed.
EXAMPLE*)

(** C05 *)
Lemma C05_pow_lem :
  forall pr p m a r, 0 <= p -> modulus_new p = Ok m -> 0 <= a < p -> 0 <= r < p ->
    mpow pr m a r = Ok (a ^ r mod p).
Proof.
  intros pr p m a r H0 Hm Ha Hr. destruct (modulus_new_valid p m H0 Hm) as [V <-].
  apply mpow_ok; auto.
Qed.

Lemma C05_inv_lem :
  forall pr p m a, modulus_new p = Ok m -> prime p -> 1 <= a < p ->
    exists v, minv pr m a = Ok v /\ 0 <= v < p /\ (a * v) mod p = 1.
Proof.
  intros pr p m a Hm Pp Ha. pose proof (prime_ge_2 p Pp) as Hp2.
  destruct (modulus_new_valid p m) as [V E]; [lia|auto|]. subst p.
  destruct (minv_correct pr m a V Pp) as [v [E [R C]]]; [lia|].
  exists v. split; auto. split; auto. rewrite C. apply Z.mod_1_l. lia.
Qed.

(*EXAMPLE
Example C05_example :
  exists m, modulus_new 1153 = Ok m /\ mpow Debug m 1152 1151 = Ok 1152 /\ minv Debug m 2 = Ok 577.
Proof. eexists. split; [vm_compute; reflexivity|]. vm_compute; auto. Qed.
EXAMPLE*)

(** C06 *)
Lemma C06_shoup_lem :
  forall pr p m a b, 0 <= p -> modulus_new p = Ok m -> 0 <= a < 2 ^ 64 -> 0 <= b < p ->
    exists s, shoup pr m b = Ok s
      /\ (exists v, lazy_mul_shoup pr m a b s = Ok v /\ 0 <= v < 2 * p /\ v mod p = (a * b) mod p)
      /\ mul_shoup pr m a b s = Ok ((a * b) mod p).
Proof.
  intros pr p m a b H0 Hm Ha Hb. destruct (modulus_new_valid p m H0 Hm) as [V <-].
  exists (shoup_of (mp m) b). split; [apply shoup_ok; auto|]. split.
  - apply lazy_mul_shoup_ok; auto.
  - apply mul_shoup_ok; auto.
Qed.

(*EXAMPLE
Example C06_example :
  exists m s, modulus_new 1153 = Ok m /\ shoup Debug m 1000 = Ok s
    /\ mul_shoup Debug m (2 ^ 64 - 1) 1000 s = Ok (((2 ^ 64 - 1) * 1000) mod 1153).
Proof.
  do 2 eexists. split; [vm_compute; reflexivity|]. split; [vm_compute; reflexivity|].
  vm_compute. reflexivity.
Qed.
EXAMPLE*)

(** C07 is false of the code: [scalar_mul_vec] uses the lazy product, so an
    element can be returned unreduced. *)
Lemma C07_scalar_mul_vec_refuted_lem :
  exists p m a b v, modulus_new p = Ok m /\ 0 <= a < p /\ 0 <= b < p
    /\ (forall pr, scalar_mul_vec pr m [a] b = Ok [v]) /\ ~ (0 <= v < p).
Proof.
  exists 4611686018427387847, (mkModulus 4611686018427387847 4 912),
    2282604039104581146, 1745812264702819740, 4660097895464408993.
  split; [vm_compute; reflexivity|]. split; [lia|]. split; [lia|]. split.
  - intros [|]; vm_compute; reflexivity.
  - lia.
Qed.

(** C07, the part that holds: every element is congruent and below 2p. *)
Lemma C07_scalar_mul_vec_partial_lem :
  forall pr p m a b, 0 <= p -> modulus_new p = Ok m ->
    (forall x, In x a -> 0 <= x < 2 ^ 64) -> 0 <= b < p ->
    exists r, scalar_mul_vec pr m a b = Ok r
      /\ Forall2 (fun x v => 0 <= v < 2 * p /\ v mod p = (x * b) mod p) a r.
Proof.
  intros pr p m a b H0 Hm Ha Hb. destruct (modulus_new_valid p m H0 Hm) as [V <-].
  apply scalar_mul_vec_lazy; auto. apply Forall_forall. auto.
Qed.

Lemma lazy_mul_shoup_val pr m a b : valid_mod m -> 0 <= a < W64 -> 0 <= b < mp m ->
  lazy_mul_shoup pr m a b (shoup_of (mp m) b) = Ok (a * b - a * (b * W64 / mp m) / W64 * mp m).
Proof.
  intros V Ha Hb. pose proof (valid_range m V) as Hp.
  pose proof (shoup_of_range m b V Hb) as Bs.
  unfold lazy_mul_shoup. rewrite dassert_true by lia. cbn [bind].
  assert (E : (match pr with
   | Debug => s <- shoup pr m b ;; rassert (shoup_of (mp m) b =? s)
   | Release => Ok tt end) = Ok tt).
  { destruct pr; auto. rewrite shoup_ok by auto. cbn [bind]. rewrite Z.eqb_refl. reflexivity. }
  rewrite E. cbn [bind]. clear E.
  set (s := shoup_of (mp m) b) in *. set (p := mp m) in *.
  assert (S1 : s * p <= b * W64).
  { unfold s, shoup_of. fold p. apply div_mul_le. lia. }
  assert (S2 : b * W64 < (s + 1) * p).
  { unfold s, shoup_of. fold p. apply div_mul_gt. lia. }
  rewrite mul128_ok by nia. cbn [bind]. rewrite shiftr64.
  set (q := a * s / W64).
  assert (Q0 : 0 <= q) by (apply Z.div_pos; nia).
  assert (Q1 : q * W64 <= a * s) by (unfold q; apply div_mul_le; lia).
  assert (Q2 : a * s < (q + 1) * W64) by (unfold q; apply div_mul_gt; lia).
  assert (R1 : q * p <= a * b).
  { assert (q * p * W64 <= a * b * W64) by nia. nia. }
  assert (R2 : a * b - q * p < 2 * p).
  { assert (a * s * p <= (q + 1) * W64 * p) by nia.
    assert (a * (b * W64) <= a * ((s + 1) * p)) by nia.
    assert ((a * b - q * p) * W64 < 2 * p * W64) by nia. nia. }
  assert (0 <= a * b < W128) by nia.
  rewrite mul128_ok by nia. cbn [bind].
  rewrite mul128_ok by nia. cbn [bind].
  rewrite sub128_ok by nia. cbn [bind].
  rewrite as64_small by nia.
  rewrite dassert_true by lia. cbn [bind].
  reflexivity.
Qed.

(** C07, the values actually returned: x*b minus p times the estimated quotient. *)
Lemma C07_scalar_mul_vec_actual_lem :
  forall pr p m a b, 0 <= p -> modulus_new p = Ok m ->
    (forall x, In x a -> 0 <= x < 2 ^ 64) -> 0 <= b < p ->
    scalar_mul_vec pr m a b = Ok (map (fun x => x * b - x * (b * 2 ^ 64 / p) / 2 ^ 64 * p) a).
Proof.
  intros pr p m a b H0 Hm Ha Hb. destruct (modulus_new_valid p m H0 Hm) as [V EP]. rewrite <- EP in *. clear EP.
  unfold scalar_mul_vec. rewrite shoup_ok by auto. cbn [bind]. apply mapM_ok. intros x Hx. specialize (Ha x Hx).
  apply lazy_mul_shoup_val; auto.
Qed.

(** C07 for moduli up to 2^32 and reduced elements: only p itself can be
    returned unreduced, and only when p divides the product; so never for a
    prime modulus. *)
Lemma C07_small_modulus_lem :
  forall pr p m a b, 0 <= p <= 2 ^ 32 -> modulus_new p = Ok m ->
    (forall x, In x a -> 0 <= x < p) -> 0 <= b < p -> (forall x, In x a -> (x * b) mod p = 0 -> x = 0 \/ b = 0) ->
    scalar_mul_vec pr m a b = Ok (map (fun x => (x * b) mod p) a).
Proof.
  intros pr p m a b H0 Hm Ha Hb HP. rewrite (C07_scalar_mul_vec_actual_lem pr p m a b ltac:(lia) Hm); auto.
  2:{ intros x Hx. specialize (Ha x Hx). change (2 ^ 32) with 4294967296 in H0. change (2 ^ 64) with 18446744073709551616. lia. }
  f_equal. apply map_ext_in. intros x Hx. specialize (Ha x Hx). specialize (HP x Hx).
  change (2 ^ 32) with 4294967296 in H0. change (2 ^ 64) with 18446744073709551616.
  pose proof (Z.div_mod (b * 18446744073709551616) p ltac:(lia)) as D1. pose proof (Z.mod_pos_bound (b * 18446744073709551616) p ltac:(lia)) as B1.
  set (s := b * 18446744073709551616 / p) in *. set (e := (b * 18446744073709551616) mod p) in *.
  pose proof (Z.div_mod (x * s) 18446744073709551616 ltac:(lia)) as D2. pose proof (Z.mod_pos_bound (x * s) 18446744073709551616 ltac:(lia)) as B2.
  set (q := x * s / 18446744073709551616) in *. set (f := (x * s) mod 18446744073709551616) in *. clearbody s e q f.
  assert (XE : 0 <= x * e < 18446744073709551616) by nia.
  assert (KEY : 18446744073709551616 * (x * b - q * p) = f * p + x * e).
  { transitivity (x * (b * 18446744073709551616) - 18446744073709551616 * q * p); [ring|]. rewrite D1.
    replace (18446744073709551616 * q) with (x * s - f) by lia. ring. }
  set (r := x * b - q * p) in *. assert (R0 : 0 <= r) by nia. assert (R1 : r <= p) by nia.
  assert (ER : (x * b) mod p = r mod p). { unfold r. rewrite <- (Z.mod_add (x * b) (- q) p) by lia. f_equal. ring. }
  rewrite ER. destruct (Z.eq_dec r p) as [E|N]; [|rewrite Z.mod_small; lia]. exfalso.
  rewrite E, Z.mod_same in ER by lia. destruct (HP ER) as [Z0|Z0].
  - subst x. unfold r in *. assert (q = 0) by nia. lia.
  - assert (s = 0) by nia. assert (q = 0) by nia. unfold r in E. nia.
Qed.

(*EXAMPLE
(** 97 is prime; modulo 15 the product 5*6 comes back as 15. *)
Example C07_small_example :
  (m <- modulus_new 97 ;; scalar_mul_vec Debug m [96; 1; 50; 0] 95) = Ok [2; 95; 94; 0]
  /\ (forall x, In x [96; 1; 50; 0] -> (x * 95) mod 97 = 0 -> x = 0 \/ 95 = 0).
Proof. split; [vm_compute; reflexivity|]. cbn. intros x [H|[H|[H|[H|[]]]]] E; subst; vm_compute in E; first [left; reflexivity|discriminate E]. Qed.
Example C07_composite_example : (m <- modulus_new 15 ;; scalar_mul_vec Debug m [6; 3] 5) = Ok [15; 15].
Proof. vm_compute. reflexivity. Qed.
EXAMPLE*)
