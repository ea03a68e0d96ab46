(** Property theorems; the proofs are in QModulus.v. *)
From Verif Require Import PBase NT MModulus PModulus QModulus.

(** C01: construction succeeds exactly on [2, 2^62). *)
Theorem C01_modulus_new :
  forall p, 0 <= p < 2 ^ 64 ->
    (2 <= p < 2 ^ 62 -> exists m, modulus_new p = Ok m /\ mp m = p)
    /\ (~ (2 <= p < 2 ^ 62) -> modulus_new p = Panic).
Proof. exact C01_modulus_new_lem. Qed.
Print Assumptions C01_modulus_new.

(** C02: [reduce] and [reduce_u128] compute the remainder on the whole word
    range, in both build profiles (so nothing overflows, no assertion fails). *)
Theorem C02_reduce :
  forall pr p m a, 0 <= p -> modulus_new p = Ok m -> 0 <= a < 2 ^ 64 ->
    mreduce pr m a = Ok (a mod p).
Proof. exact C02_reduce_lem. Qed.
Print Assumptions C02_reduce.

Theorem C02_reduce_u128 :
  forall pr p m a, 0 <= p -> modulus_new p = Ok m -> 0 <= a < 2 ^ 128 ->
    mreduce_u128 pr m a = Ok (a mod p).
Proof. exact C02_reduce_u128_lem. Qed.
Print Assumptions C02_reduce_u128.

Theorem C02_lazy_reduce :
  forall pr p m a, 0 <= p -> modulus_new p = Ok m ->
    (0 <= a < 2 ^ 64 -> exists v, lazy_reduce_ct pr m a = Ok v /\ 0 <= v < 2 * p /\ v mod p = a mod p)
    /\ (0 <= a < 2 ^ 128 -> exists v, lazy_reduce_u128 pr m a = Ok v /\ 0 <= v < 2 * p /\ v mod p = a mod p).
Proof. exact C02_lazy_reduce_lem. Qed.
Print Assumptions C02_lazy_reduce.

(** C02: the final conditional subtraction, for any p below 2^63. *)
Theorem C02_reduce_ct :
  forall pr x p, 0 < p < 2 ^ 63 -> 0 <= x < 2 * p -> reduce_ct pr x p = Ok (x mod p).
Proof. exact C02_reduce_ct_lem. Qed.
Print Assumptions C02_reduce_ct.

(** C02: big integer reduction. *)
Theorem C02_reduce_biguint :
  forall p m a, 0 <= p -> modulus_new p = Ok m -> reduce_biguint m a = Ok (a mod p).
Proof. exact C02_reduce_biguint_lem. Qed.
Print Assumptions C02_reduce_biguint.

(** The hypotheses are met by the largest modulus and extreme words. *)
Example C02_example :
  exists m, modulus_new (2 ^ 62 - 1) = Ok m
    /\ mreduce Debug m (2 ^ 64 - 1) = Ok 3
    /\ mreduce_u128 Debug m (2 ^ 128 - 1) = Ok 15
    /\ mreduce_u128 Release m (2 ^ 128 - 1) = Ok 15.
Proof. eexists. split; [vm_compute; reflexivity|]. vm_compute. auto. Qed.

(** C03: signed reduction, for every i64. *)
Theorem C03_reduce_i64 :
  forall pr p m l, 0 <= p -> modulus_new p = Ok m ->
    (forall a, In a l -> - 2 ^ 63 <= a < 2 ^ 63) ->
    reduce_vec_i64 pr m l = Ok (map (fun a => a mod p) l)
    /\ (forall a, In a l -> 0 <= a mod p < p /\ (p | a - a mod p)).
Proof. exact C03_reduce_i64_lem. Qed.
Print Assumptions C03_reduce_i64.

Example C03_example :
  exists m, modulus_new 17 = Ok m /\ reduce_vec_i64 Debug m [-1; 5; - 2 ^ 63] = Ok [16; 5; 8].
Proof. eexists. split; [vm_compute; reflexivity|]. vm_compute; reflexivity. Qed.

(** C04: reduced operands. *)
Theorem C04_ops :
  forall pr p m a b, 0 <= p -> modulus_new p = Ok m -> 0 <= a < p -> 0 <= b < p ->
    madd pr m a b = Ok ((a + b) mod p)
    /\ msub pr m a b = Ok ((a - b) mod p)
    /\ mmul pr m a b = Ok ((a * b) mod p)
    /\ mneg pr m a = Ok ((- a) mod p)
    /\ 0 <= (a + b) mod p < p /\ 0 <= (a - b) mod p < p
    /\ 0 <= (a * b) mod p < p /\ 0 <= (- a) mod p < p.
Proof. exact C04_ops_lem. Qed.
Print Assumptions C04_ops.

(** C04: the vector forms are elementwise. *)
Theorem C04_vec :
  forall pr p m a b, 0 <= p -> modulus_new p = Ok m ->
    (forall x, In x a -> 0 <= x < p) -> (forall x, In x b -> 0 <= x < p) ->
    length a = length b ->
    add_vec pr m a b = Ok (map (fun xy => (fst xy + snd xy) mod p) (combine a b))
    /\ sub_vec pr m a b = Ok (map (fun xy => (fst xy - snd xy) mod p) (combine a b))
    /\ mul_vec pr m a b = Ok (map (fun xy => (fst xy * snd xy) mod p) (combine a b))
    /\ neg_vec pr m a = Ok (map (fun x => (- x) mod p) a).
Proof. exact C04_vec_lem. Qed.
Print Assumptions C04_vec.

(** C04: unreduced operands are caught in a debug build. *)
Theorem C04_debug_guard :
  forall p m a b, 0 <= p -> modulus_new p = Ok m -> p <= a \/ p <= b ->
    madd Debug m a b = Panic /\ msub Debug m a b = Panic /\ mmul Debug m a b = Panic
    /\ (p <= a -> mneg Debug m a = Panic).
Proof. exact C04_debug_guard_lem. Qed.
Print Assumptions C04_debug_guard.

Example C04_example :
  exists m, modulus_new 97 = Ok m /\ madd Debug m 96 95 = Ok 94 /\ msub Debug m 3 90 = Ok 10
    /\ mmul Debug m 96 96 = Ok 1 /\ mneg Debug m 0 = Ok 0 /\ mneg Debug m 97 = Panic.
Proof. eexists. split; [vm_compute; reflexivity|]. vm_compute; auto 10. Qed.

(** C05 *)
Theorem C05_pow :
  forall pr p m a r, 0 <= p -> modulus_new p = Ok m -> 0 <= a < p -> 0 <= r < p ->
    mpow pr m a r = Ok (a ^ r mod p).
Proof. exact C05_pow_lem. Qed.
Print Assumptions C05_pow.

Theorem C05_inv :
  forall pr p m a, modulus_new p = Ok m -> prime p -> 1 <= a < p ->
    exists v, minv pr m a = Ok v /\ 0 <= v < p /\ (a * v) mod p = 1.
Proof. exact C05_inv_lem. Qed.
Print Assumptions C05_inv.

Example C05_example :
  exists m, modulus_new 1153 = Ok m /\ mpow Debug m 1152 1151 = Ok 1152 /\ minv Debug m 2 = Ok 577.
Proof. eexists. split; [vm_compute; reflexivity|]. vm_compute; auto. Qed.

(** C06 *)
Theorem C06_shoup :
  forall pr p m a b, 0 <= p -> modulus_new p = Ok m -> 0 <= a < 2 ^ 64 -> 0 <= b < p ->
    exists s, shoup pr m b = Ok s
      /\ (exists v, lazy_mul_shoup pr m a b s = Ok v /\ 0 <= v < 2 * p /\ v mod p = (a * b) mod p)
      /\ mul_shoup pr m a b s = Ok ((a * b) mod p).
Proof. exact C06_shoup_lem. Qed.
Print Assumptions C06_shoup.

Example C06_example :
  exists m s, modulus_new 1153 = Ok m /\ shoup Debug m 1000 = Ok s
    /\ mul_shoup Debug m (2 ^ 64 - 1) 1000 s = Ok (((2 ^ 64 - 1) * 1000) mod 1153).
Proof.
  do 2 eexists. split; [vm_compute; reflexivity|]. split; [vm_compute; reflexivity|].
  vm_compute. reflexivity.
Qed.

(** C07 is false of the code: [scalar_mul_vec] uses the lazy product, so an
    element can be returned unreduced. *)
Theorem C07_scalar_mul_vec_refuted :
  exists p m a b v, modulus_new p = Ok m /\ 0 <= a < p /\ 0 <= b < p
    /\ (forall pr, scalar_mul_vec pr m [a] b = Ok [v]) /\ ~ (0 <= v < p).
Proof. exact C07_scalar_mul_vec_refuted_lem. Qed.
Print Assumptions C07_scalar_mul_vec_refuted.

(** C07, the part that holds: every element is congruent and below 2p. *)
Theorem C07_scalar_mul_vec_partial :
  forall pr p m a b, 0 <= p -> modulus_new p = Ok m ->
    (forall x, In x a -> 0 <= x < 2 ^ 64) -> 0 <= b < p ->
    exists r, scalar_mul_vec pr m a b = Ok r
      /\ Forall2 (fun x v => 0 <= v < 2 * p /\ v mod p = (x * b) mod p) a r.
Proof. exact C07_scalar_mul_vec_partial_lem. Qed.
Print Assumptions C07_scalar_mul_vec_partial.

(** C07, the values actually returned: x*b minus p times the estimated quotient. *)
Theorem C07_scalar_mul_vec_actual :
  forall pr p m a b, 0 <= p -> modulus_new p = Ok m ->
    (forall x, In x a -> 0 <= x < 2 ^ 64) -> 0 <= b < p ->
    scalar_mul_vec pr m a b = Ok (map (fun x => x * b - x * (b * 2 ^ 64 / p) / 2 ^ 64 * p) a).
Proof. exact C07_scalar_mul_vec_actual_lem. Qed.
Print Assumptions C07_scalar_mul_vec_actual.

(** C07 for moduli up to 2^32 and reduced elements: only p itself can be
    returned unreduced, and only when p divides the product; so never for a
    prime modulus. *)
Theorem C07_small_modulus :
  forall pr p m a b, 0 <= p <= 2 ^ 32 -> modulus_new p = Ok m ->
    (forall x, In x a -> 0 <= x < p) -> 0 <= b < p -> (forall x, In x a -> (x * b) mod p = 0 -> x = 0 \/ b = 0) ->
    scalar_mul_vec pr m a b = Ok (map (fun x => (x * b) mod p) a).
Proof. exact C07_small_modulus_lem. Qed.
Print Assumptions C07_small_modulus.

(** 97 is prime; modulo 15 the product 5*6 comes back as 15. *)
Example C07_small_example :
  (m <- modulus_new 97 ;; scalar_mul_vec Debug m [96; 1; 50; 0] 95) = Ok [2; 95; 94; 0]
  /\ (forall x, In x [96; 1; 50; 0] -> (x * 95) mod 97 = 0 -> x = 0 \/ 95 = 0).
Proof. split; [vm_compute; reflexivity|]. cbn. intros x [H|[H|[H|[H|[]]]]] E; subst; vm_compute in E; first [left; reflexivity|discriminate E]. Qed.
Example C07_composite_example : (m <- modulus_new 15 ;; scalar_mul_vec Debug m [6; 3] 5) = Ok [15; 15].
Proof. vm_compute. reflexivity. Qed.
