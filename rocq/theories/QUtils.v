(** Claims C15, C22-C25, C50: helpers of src/utils.rs. *)
From Verif Require Import PBase NT Spec PSum MModulus MUtils PModulus PU256 PUtils PUtils2.


(** C15: addition, subtraction and complement modulo 2^256. *)
Lemma C15_add_sub_not_lem :
  forall x y,
    (forall l, In l [u0 x; u1 x; u2 x; u3 x; u0 y; u1 y; u2 y; u3 y] -> 0 <= l < 2 ^ 64) ->
    let val z := u0 z + u1 z * 2 ^ 64 + u2 z * 2 ^ 128 + u3 z * 2 ^ 192 in
    let wf z := forall l, In l [u0 z; u1 z; u2 z; u3 z] -> 0 <= l < 2 ^ 64 in
    (wf (u256_add x y) /\ val (u256_add x y) = (val x + val y) mod 2 ^ 256)
    /\ (wf (u256_sub x y) /\ val (u256_sub x y) = (val x - val y) mod 2 ^ 256)
    /\ (wf (u256_not x) /\ val (u256_not x) = 2 ^ 256 - 1 - val x)
    /\ u256_msb x = val x / 2 ^ 255
    /\ val u256_zero = 0.
Proof.
  intros x y H val wf.
  assert (Hx : u256_ok x) by (unfold u256_ok; repeat split; apply (H _); simpl; auto 10).
  assert (Hy : u256_ok y) by (unfold u256_ok; repeat split; apply (H _); simpl; auto 10).
  assert (W : forall z, u256_ok z -> wf z).
  { intros z [Z0 [Z1 [Z2 Z3]]] l Hl. simpl in Hl. destruct Hl as [<-|[<-|[<-|[<-|[]]]]]; auto. }
  destruct (u256_add_spec x y Hx Hy). destruct (u256_sub_spec x y Hx Hy). destruct (u256_not_spec x Hx).
  split; [split; [apply W|]; auto|]. split; [split; [apply W|]; auto|]. split; [split; [apply W|]; auto|].
  split; [apply u256_msb_spec; auto | reflexivity].
Qed.

(** C15: right shift by any s in [0,256). *)
Lemma C15_shr_lem :
  forall pr x s,
    (forall l, In l [u0 x; u1 x; u2 x; u3 x] -> 0 <= l < 2 ^ 64) -> 0 <= s < 256 ->
    let val z := u0 z + u1 z * 2 ^ 64 + u2 z * 2 ^ 128 + u3 z * 2 ^ 192 in
    exists y, u256_shr pr x s = Ok y /\ val y = val x / 2 ^ s
      /\ (forall l, In l [u0 y; u1 y; u2 y; u3 y] -> 0 <= l < 2 ^ 64).
Proof.
  intros pr x s H Hs val.
  assert (Hx : u256_ok x) by (unfold u256_ok; repeat split; apply (H _); simpl; auto 10).
  destruct (u256_shr_spec pr x s Hs Hx) as [y [E [[Z0 [Z1 [Z2 Z3]]] V]]]. exists y. split; auto. split; auto.
  intros l Hl. simpl in Hl. destruct Hl as [<-|[<-|[<-|[<-|[]]]]]; auto.
Qed.

(** C15: conversions. *)
Lemma C15_conversions_lem :
  forall pr a b, 0 <= a < 2 ^ 128 -> 0 <= b < 2 ^ 128 ->
    u256_to2 pr (u256_of2 a b) = Ok (a, b)
    /\ u256_to_u128 pr (u256_of2 a 0) = Ok a.
Proof.
  intros pr a b Ha Hb. destruct (u256_of2_spec a b Ha Hb) as [O V].
  destruct (u256_of2_spec a 0 Ha ltac:(lia)) as [O' V'].
  split.
  - rewrite u256_to2_spec by auto. rewrite V. do 2 f_equal.
    + symmetry. apply Z.mod_unique with b; lia.
    + symmetry. apply Z.div_unique with a; lia.
  - rewrite u256_to_u128_spec; auto; rewrite V'; [f_equal; lia | lia].
Qed.

(*EXAMPLE
Example C15_example :
  let m := 2 ^ 64 - 1 in
  u256_add (mkU256 m m m m) (mkU256 1 0 0 0) = mkU256 0 0 0 0
  /\ u256_sub (mkU256 0 0 0 0) (mkU256 1 0 0 0) = mkU256 m m m m
  /\ u256_shr Debug (mkU256 m m m m) 65 = Ok (mkU256 m m (2 ^ 63 - 1) 0)
  /\ u256_shr Debug (mkU256 m m m m) 256 = Panic.
Proof. vm_compute. auto. Qed.
EXAMPLE*)

(** C22: bit vector: bit j of m at position j; m must fit. *)
Lemma C22_bit_vector_lem :
  forall bits m, 0 <= bits < 2 ^ 63 -> 0 <= m < 2 ^ 64 ->
    (m < 2 ^ bits ->
       bit_vector bits m = Ok (map (fun j => Z.testbit m (Z.of_nat j)) (seq 0 (Z.to_nat bits))))
    /\ (2 ^ bits <= m -> bit_vector bits m = Panic).
Proof.
  intros bits m Hb Hm. split; intros H.
  - apply bit_vector_ok; auto.
  - apply bit_vector_panic; auto.
Qed.

(** C22: digits of decompose_bits recompose to m. *)
Lemma C22_decompose_bits_lem :
  forall pr bits m d, 0 <= bits < 2 ^ 63 -> 0 <= m < 2 ^ 64 -> (0 < d)%nat ->
    (m < 2 ^ bits ->
       exists ds, decompose_bits pr m bits d = Ok ds
         /\ Z.of_nat (length ds) = (bits + Z.of_nat d - 1) / Z.of_nat d
         /\ (forall i, (i < length ds)%nat ->
               nth i ds 0 = (m / 2 ^ (Z.of_nat i * Z.of_nat d)) mod 2 ^ Z.of_nat d)
         /\ sumn (length ds) (fun i => nth i ds 0 * 2 ^ (Z.of_nat i * Z.of_nat d)) = m)
    /\ (2 ^ bits <= m -> decompose_bits pr m bits d = Panic).
Proof.
  intros pr bits m d Hb Hm Hd. split; intros H.
  - rewrite decompose_bits_ok by auto. eexists. split; [reflexivity|].
    rewrite map_length, seq_length.
    assert (EL : Z.of_nat (nchunks (Z.to_nat bits) d) = (bits + Z.of_nat d - 1) / Z.of_nat d).
    { unfold nchunks. rewrite Nat2Z.inj_div. f_equal. lia. }
    split; [auto|].
    assert (EN : forall i, (i < nchunks (Z.to_nat bits) d)%nat ->
      nth i (map (fun i => (m / 2 ^ Z.of_nat (i * d)) mod 2 ^ Z.of_nat d) (seq 0 (nchunks (Z.to_nat bits) d))) 0
      = (m / 2 ^ (Z.of_nat i * Z.of_nat d)) mod 2 ^ Z.of_nat d).
    { intros i Hi. rewrite nth_map_seq by auto. rewrite Nat2Z.inj_mul. reflexivity. }
    split; [auto|].
    erewrite sumn_ext; [|intros i Hi; rewrite EN by auto; reflexivity].
    rewrite digits_recompose by lia.
    apply Z.mod_small. split; [lia|]. eapply Z.lt_le_trans; [apply H|].
    apply Z.pow_le_mono_r; [lia|]. rewrite EL.
    pose proof (ceil_spec bits (Z.of_nat d) ltac:(lia)). lia.
  - unfold decompose_bits. rewrite bit_vector_panic by auto. reflexivity.
Qed.

(** C22: a zero digit size panics (chunks(0)). *)
Lemma C22_zero_digit_lem :
  forall pr bits m, 0 <= bits < 2 ^ 63 -> 0 <= m < 2 ^ 64 -> decompose_bits pr m bits 0 = Panic.
Proof.
  intros pr bits m Hb Hm. unfold decompose_bits.
  destruct (Z_lt_dec m (2 ^ bits)) as [H|H].
  - rewrite bit_vector_ok by auto. reflexivity.
  - rewrite bit_vector_panic by (auto; lia). reflexivity.
Qed.

(*EXAMPLE
Example C22_example :
  decompose_bits Debug (2 ^ 64 - 2) 64 4 = Ok (14 :: repeat 15 15)
  /\ bit_vector 3 6 = Ok [false; true; true] /\ bit_vector 2 6 = Panic.
Proof. vm_compute. auto. Qed.
EXAMPLE*)

(** C24: the sampler consumes 4v fresh stream bits per sample. *)
Lemma C24_sample_vec_cbd_lem :
  forall pr size v w, (1 <= v <= 16)%nat -> (forall i, 0 <= w i < 2 ^ 64) ->
    exists l, sample_vec_cbd pr size (Z.of_nat v) w = Ok l /\ length l = size
      /\ forall i, (i < size)%nat ->
           nth i l 0 = sumn (2 * v) (fun j => stream_bit w (4 * v * i + j))
                       - sumn (2 * v) (fun j => stream_bit w (4 * v * i + 2 * v + j))
           /\ Z.abs (nth i l 0) <= 2 * Z.of_nat v.
Proof.
  intros pr size v w Hv Hw. rewrite sample_vec_cbd_ok by (auto; lia).
  eexists. split; [reflexivity|]. rewrite map_length, seq_length. split; [reflexivity|].
  intros i Hi. rewrite nth_map_seq by auto. rewrite Nat2Z.id. split; [reflexivity|].
  apply cbd_sample_bound.
Qed.

Lemma C24_variance_guard_lem :
  forall pr size v w, ~ (1 <= v <= 16) -> sample_vec_cbd pr size v w = Panic.
Proof.
  exact sample_vec_cbd_panic.
Qed.

(*EXAMPLE
Example C24_example :
  sample_vec_cbd Debug 3 16 (fun k => 2 ^ 32 - 1) = Ok [32; 32; 32]
  /\ sample_vec_cbd Debug 4 10 (fun k => 2 ^ 64 - 1 - 2 ^ 50) = Ok [0; -1; 1; 0]
  /\ sample_vec_cbd Debug 3 17 (fun k => 0) = Panic.
Proof. vm_compute. auto. Qed.
EXAMPLE*)

(** C25: the largest admissible prime, or None when there is none. *)
Lemma C25_generate_prime_lem :
  forall pr is_prime b m ub,
    10 <= b <= 62 -> 2 <= m -> 1 <= ub <= 2 ^ b ->
    (forall x, 0 <= x < 2 ^ 64 -> (is_prime x = true <-> prime x)) ->
    let adm x := prime x /\ 2 ^ (b - 1) <= x < 2 ^ b /\ x mod m = 1 /\ x < ub in
    (exists r, generate_prime pr is_prime b m ub = Ok (Some r) /\ adm r /\ forall x, adm x -> x <= r)
    \/ (generate_prime pr is_prime b m ub = Ok None /\ forall x, ~ adm x).
Proof.
  intros pr ip b m ub Hb Hm Hu Hip. exact (generate_prime_spec pr ip b m ub Hb Hm Hu Hip).
Qed.

Lemma C25_bits_guard_lem :
  forall pr is_prime b m ub, ~ (10 <= b <= 62) -> generate_prime pr is_prime b m ub = Ok None.
Proof.
  exact generate_prime_bits.
Qed.

(*EXAMPLE
(** 10-bit primes that are 1 mod 16, below 900 and below 113's range. *)
Definition trial (x : Z) : bool :=
  (2 <=? x) && forallb (fun d => negb (x mod Z.of_nat d =? 0)) (seq 2 (Z.to_nat (Z.sqrt x) - 1)).
Example C25_example :
  generate_prime Debug trial 10 16 1024 = Ok (Some 1009)
  /\ generate_prime Debug trial 10 16 1009 = Ok (Some 977)
  /\ generate_prime Debug trial 10 16 570 = Ok None
  /\ generate_prime Debug trial 63 16 900 = Ok None.
Proof. vm_compute. auto. Qed.
EXAMPLE*)

(** C50 *)
Lemma C50_ilog2_lem :
  forall pr w v, w = 64 \/ w = 128 -> 0 < v < 2 ^ w ->
    exists r, ilog2 pr w v = Ok r /\ 2 ^ r <= v < 2 ^ (r + 1).
Proof.
  intros pr w v Hw Hv. rewrite ilog2_ok by (destruct Hw; subst; lia).
  eexists. split; [reflexivity|]. rewrite Z.add_1_r. apply Z.log2_spec. lia.
Qed.

Lemma C50_div_ceil_lem :
  forall pr bound a b, 0 <= a -> 0 < b -> a + b < bound ->
    exists q, div_ceil pr bound a b = Ok q /\ b * (q - 1) < a <= b * q.
Proof.
  intros pr bound a b Ha Hb Hs. rewrite div_ceil_ok by auto. eexists. split; [reflexivity|].
  apply ceil_spec. auto.
Qed.

Lemma C50_div_ceil_zero_lem :
  forall pr bound a, div_ceil pr bound a 0 = Panic.
Proof.
  exact div_ceil_zero.
Qed.

Lemma C50_mod_inverse_lem :
  forall v q, 1 < q < 2 ^ 64 ->
    (Z.gcd v q = 1 -> exists x, mod_inverse v q = Some x /\ 0 <= x < q /\ (v * x) mod q = 1)
    /\ (Z.gcd v q <> 1 -> mod_inverse v q = None).
Proof.
  exact mod_inverse_spec.
Qed.

(*EXAMPLE
Example C50_example :
  ilog2 Debug 64 1023 = Ok 9 /\ ilog2 Debug 64 1024 = Ok 10 /\ ilog2 Debug 64 0 = Panic
  /\ div_ceil Debug (2 ^ 64) 7 3 = Ok 3 /\ div_ceil Debug (2 ^ 64) 6 3 = Ok 2
  /\ mod_inverse 3 7 = Some 5 /\ mod_inverse 6 9 = None.
Proof. vm_compute. auto 10. Qed.
EXAMPLE*)
