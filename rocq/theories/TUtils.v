(** Property theorems; the proofs are in QUtils.v. *)
From Verif Require Import PBase NT Spec PSum MModulus MUtils PModulus PU256 PUtils PUtils2 QUtils.

(** C15: addition, subtraction and complement modulo 2^256. *)
Theorem C15_add_sub_not :
  forall x y,
    (forall l, In l [u0 x; u1 x; u2 x; u3 x; u0 y; u1 y; u2 y; u3 y] -> 0 <= l < 2 ^ 64) ->
    let val z := u0 z + u1 z * 2 ^ 64 + u2 z * 2 ^ 128 + u3 z * 2 ^ 192 in
    let wf z := forall l, In l [u0 z; u1 z; u2 z; u3 z] -> 0 <= l < 2 ^ 64 in
    (wf (u256_add x y) /\ val (u256_add x y) = (val x + val y) mod 2 ^ 256)
    /\ (wf (u256_sub x y) /\ val (u256_sub x y) = (val x - val y) mod 2 ^ 256)
    /\ (wf (u256_not x) /\ val (u256_not x) = 2 ^ 256 - 1 - val x)
    /\ u256_msb x = val x / 2 ^ 255
    /\ val u256_zero = 0.
Proof. exact C15_add_sub_not_lem. Qed.
Print Assumptions C15_add_sub_not.

(** C15: right shift by any s in [0,256). *)
Theorem C15_shr :
  forall pr x s,
    (forall l, In l [u0 x; u1 x; u2 x; u3 x] -> 0 <= l < 2 ^ 64) -> 0 <= s < 256 ->
    let val z := u0 z + u1 z * 2 ^ 64 + u2 z * 2 ^ 128 + u3 z * 2 ^ 192 in
    exists y, u256_shr pr x s = Ok y /\ val y = val x / 2 ^ s
      /\ (forall l, In l [u0 y; u1 y; u2 y; u3 y] -> 0 <= l < 2 ^ 64).
Proof. exact C15_shr_lem. Qed.
Print Assumptions C15_shr.

(** C15: conversions. *)
Theorem C15_conversions :
  forall pr a b, 0 <= a < 2 ^ 128 -> 0 <= b < 2 ^ 128 ->
    u256_to2 pr (u256_of2 a b) = Ok (a, b)
    /\ u256_to_u128 pr (u256_of2 a 0) = Ok a.
Proof. exact C15_conversions_lem. Qed.
Print Assumptions C15_conversions.

Example C15_example :
  let m := 2 ^ 64 - 1 in
  u256_add (mkU256 m m m m) (mkU256 1 0 0 0) = mkU256 0 0 0 0
  /\ u256_sub (mkU256 0 0 0 0) (mkU256 1 0 0 0) = mkU256 m m m m
  /\ u256_shr Debug (mkU256 m m m m) 65 = Ok (mkU256 m m (2 ^ 63 - 1) 0)
  /\ u256_shr Debug (mkU256 m m m m) 256 = Panic.
Proof. vm_compute. auto. Qed.

(** C22: bit vector: bit j of m at position j; m must fit. *)
Theorem C22_bit_vector :
  forall bits m, 0 <= bits < 2 ^ 63 -> 0 <= m < 2 ^ 64 ->
    (m < 2 ^ bits ->
       bit_vector bits m = Ok (map (fun j => Z.testbit m (Z.of_nat j)) (seq 0 (Z.to_nat bits))))
    /\ (2 ^ bits <= m -> bit_vector bits m = Panic).
Proof. exact C22_bit_vector_lem. Qed.
Print Assumptions C22_bit_vector.

(** C22: digits of decompose_bits recompose to m. *)
Theorem C22_decompose_bits :
  forall pr bits m d, 0 <= bits < 2 ^ 63 -> 0 <= m < 2 ^ 64 -> (0 < d)%nat ->
    (m < 2 ^ bits ->
       exists ds, decompose_bits pr m bits d = Ok ds
         /\ Z.of_nat (length ds) = (bits + Z.of_nat d - 1) / Z.of_nat d
         /\ (forall i, (i < length ds)%nat ->
               nth i ds 0 = (m / 2 ^ (Z.of_nat i * Z.of_nat d)) mod 2 ^ Z.of_nat d)
         /\ sumn (length ds) (fun i => nth i ds 0 * 2 ^ (Z.of_nat i * Z.of_nat d)) = m)
    /\ (2 ^ bits <= m -> decompose_bits pr m bits d = Panic).
Proof. exact C22_decompose_bits_lem. Qed.
Print Assumptions C22_decompose_bits.

(** C22: a zero digit size panics (chunks(0)). *)
Theorem C22_zero_digit :
  forall pr bits m, 0 <= bits < 2 ^ 63 -> 0 <= m < 2 ^ 64 -> decompose_bits pr m bits 0 = Panic.
Proof. exact C22_zero_digit_lem. Qed.
Print Assumptions C22_zero_digit.

Example C22_example :
  decompose_bits Debug (2 ^ 64 - 2) 64 4 = Ok (14 :: repeat 15 15)
  /\ bit_vector 3 6 = Ok [false; true; true] /\ bit_vector 2 6 = Panic.
Proof. vm_compute. auto. Qed.

(** C24: the sampler consumes 4v fresh stream bits per sample. *)
Theorem C24_sample_vec_cbd :
  forall pr size v w, (1 <= v <= 16)%nat -> (forall i, 0 <= w i < 2 ^ 64) ->
    exists l, sample_vec_cbd pr size (Z.of_nat v) w = Ok l /\ length l = size
      /\ forall i, (i < size)%nat ->
           nth i l 0 = sumn (2 * v) (fun j => stream_bit w (4 * v * i + j))
                       - sumn (2 * v) (fun j => stream_bit w (4 * v * i + 2 * v + j))
           /\ Z.abs (nth i l 0) <= 2 * Z.of_nat v.
Proof. exact C24_sample_vec_cbd_lem. Qed.
Print Assumptions C24_sample_vec_cbd.

Theorem C24_variance_guard :
  forall pr size v w, ~ (1 <= v <= 16) -> sample_vec_cbd pr size v w = Panic.
Proof. exact C24_variance_guard_lem. Qed.
Print Assumptions C24_variance_guard.

Example C24_example :
  sample_vec_cbd Debug 3 16 (fun k => 2 ^ 32 - 1) = Ok [32; 32; 32]
  /\ sample_vec_cbd Debug 4 10 (fun k => 2 ^ 64 - 1 - 2 ^ 50) = Ok [0; -1; 1; 0]
  /\ sample_vec_cbd Debug 3 17 (fun k => 0) = Panic.
Proof. vm_compute. auto. Qed.

(** C25: the largest admissible prime, or None when there is none. *)
Theorem C25_generate_prime :
  forall pr is_prime b m ub,
    10 <= b <= 62 -> 2 <= m -> 1 <= ub <= 2 ^ b ->
    (forall x, 0 <= x < 2 ^ 64 -> (is_prime x = true <-> prime x)) ->
    let adm x := prime x /\ 2 ^ (b - 1) <= x < 2 ^ b /\ x mod m = 1 /\ x < ub in
    (exists r, generate_prime pr is_prime b m ub = Ok (Some r) /\ adm r /\ forall x, adm x -> x <= r)
    \/ (generate_prime pr is_prime b m ub = Ok None /\ forall x, ~ adm x).
Proof. exact C25_generate_prime_lem. Qed.
Print Assumptions C25_generate_prime.

Theorem C25_bits_guard :
  forall pr is_prime b m ub, ~ (10 <= b <= 62) -> generate_prime pr is_prime b m ub = Ok None.
Proof. exact C25_bits_guard_lem. Qed.
Print Assumptions C25_bits_guard.

(** 10-bit primes that are 1 mod 16, below 900 and below 113's range. *)
Definition trial (x : Z) : bool :=
  (2 <=? x) && forallb (fun d => negb (x mod Z.of_nat d =? 0)) (seq 2 (Z.to_nat (Z.sqrt x) - 1)).
Example C25_example :
  generate_prime Debug trial 10 16 1024 = Ok (Some 1009)
  /\ generate_prime Debug trial 10 16 1009 = Ok (Some 977)
  /\ generate_prime Debug trial 10 16 570 = Ok None
  /\ generate_prime Debug trial 63 16 900 = Ok None.
Proof. vm_compute. auto. Qed.

(** C50 *)
Theorem C50_ilog2 :
  forall pr w v, w = 64 \/ w = 128 -> 0 < v < 2 ^ w ->
    exists r, ilog2 pr w v = Ok r /\ 2 ^ r <= v < 2 ^ (r + 1).
Proof. exact C50_ilog2_lem. Qed.
Print Assumptions C50_ilog2.

Theorem C50_div_ceil :
  forall pr bound a b, 0 <= a -> 0 < b -> a + b < bound ->
    exists q, div_ceil pr bound a b = Ok q /\ b * (q - 1) < a <= b * q.
Proof. exact C50_div_ceil_lem. Qed.
Print Assumptions C50_div_ceil.

Theorem C50_div_ceil_zero :
  forall pr bound a, div_ceil pr bound a 0 = Panic.
Proof. exact C50_div_ceil_zero_lem. Qed.
Print Assumptions C50_div_ceil_zero.

Theorem C50_mod_inverse :
  forall v q, 1 < q < 2 ^ 64 ->
    (Z.gcd v q = 1 -> exists x, mod_inverse v q = Some x /\ 0 <= x < q /\ (v * x) mod q = 1)
    /\ (Z.gcd v q <> 1 -> mod_inverse v q = None).
Proof. exact C50_mod_inverse_lem. Qed.
Print Assumptions C50_mod_inverse.

Example C50_example :
  ilog2 Debug 64 1023 = Ok 9 /\ ilog2 Debug 64 1024 = Ok 10 /\ ilog2 Debug 64 0 = Panic
  /\ div_ceil Debug (2 ^ 64) 7 3 = Ok 3 /\ div_ceil Debug (2 ^ 64) 6 3 = Ok 2
  /\ mod_inverse 3 7 = Some 5 /\ mod_inverse 6 9 = None.
Proof. vm_compute. auto 10. Qed.
