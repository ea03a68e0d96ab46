(** Property theorems; the proofs are in QWords.v. *)
From Verif Require Import PBase NT MModulus MUtils MNtt PModulus QWords.

(** C73: in a release build the operations are total on words.  Products and
    powers are right for unreduced operands; sums and differences are computed
    modulo 2^64 and then one conditional subtraction of p is made, by the sign
    bit of the difference. *)
Theorem C73_release :
  forall p m a b, 0 <= p -> modulus_new p = Ok m -> 0 <= a < 2 ^ 64 -> 0 <= b < 2 ^ 64 ->
    let once x := if (p <=? x) && (x <? p + 2 ^ 63) then x - p else x in
    reduce_ct Release a p = Ok (once a)
    /\ madd Release m a b = Ok (once ((a + b) mod 2 ^ 64))
    /\ msub Release m a b = Ok (once ((a - b + p) mod 2 ^ 64))
    /\ mneg Release m a = Ok (once ((p - a) mod 2 ^ 64))
    /\ mmul Release m a b = Ok ((a * b) mod p)
    /\ mpow Release m a b = Ok (if b =? 0 then 1 else if b =? 1 then a else a ^ b mod p)
    /\ minv Release m a = Ok (if p =? 2 then 1 else if p =? 3 then a else a ^ (p - 2) mod p)
    /\ shoup Release m a = Ok ((a * 2 ^ 64 / p) mod 2 ^ 64).
Proof. exact C73_release_lem. Qed.
Print Assumptions C73_release.

(** C73: the release results are congruent to the right value whenever nothing
    wraps, and reduced whenever one subtraction is enough. *)
Theorem C73_congruent :
  forall p m a b, 0 <= p -> modulus_new p = Ok m -> 0 <= a < 2 ^ 64 -> 0 <= b < 2 ^ 64 ->
    (a + b < 2 ^ 64 -> exists v, madd Release m a b = Ok v /\ v mod p = (a + b) mod p /\ (a + b < 2 * p -> v < p))
    /\ (0 <= a - b + p < 2 ^ 64 -> exists v, msub Release m a b = Ok v /\ v mod p = (a - b) mod p /\ (a - b < p -> v < p))
    /\ (a <= p -> mneg Release m a = Ok ((- a) mod p)).
Proof. exact C73_congruent_lem. Qed.
Print Assumptions C73_congruent.

(** C73: the lazy product for any word in place of the precomputed one. *)
Theorem C73_lazy_mul :
  forall p m a b w, 0 <= p -> modulus_new p = Ok m -> 0 <= a < 2 ^ 64 -> 0 <= b < 2 ^ 64 -> 0 <= w < 2 ^ 64 ->
    lazy_mul_shoup Release m a b w = Ok ((a * b - a * w / 2 ^ 64 * p) mod 2 ^ 64).
Proof. exact C73_lazy_mul_lem. Qed.
Print Assumptions C73_lazy_mul.

(** C73: in a debug build every such call panics. *)
Theorem C73_debug :
  forall p m a b, 0 <= p -> modulus_new p = Ok m -> 0 <= a < 2 ^ 64 -> 0 <= b < 2 ^ 64 ->
    (2 * p <= a -> reduce_ct Debug a p = Panic)
    /\ (p <= a \/ p <= b -> mpow Debug m a b = Panic)
    /\ (p <= a \/ a = 0 -> minv Debug m a = Panic)
    /\ (p <= a -> shoup Debug m a = Panic)
    /\ (forall w, p <= b \/ w <> (b * 2 ^ 64 / p) mod 2 ^ 64 -> lazy_mul_shoup Debug m a b w = Panic /\ mul_shoup Debug m a b w = Panic)
    /\ (4 * p <= a -> reduce_4p Debug a m = Panic).
Proof. exact C73_debug_lem. Qed.
Print Assumptions C73_debug.

Theorem C73_vec_lengths :
  forall pr p m a b, 0 <= p -> modulus_new p = Ok m ->
    (forall x, In x a -> 0 <= x < p) -> (forall x, In x b -> 0 <= x < p) ->
    add_vec pr m a b = Ok (map (fun xy => (fst xy + snd xy) mod p) (combine a b) ++ skipn (length b) a)
    /\ sub_vec pr m a b = Ok (map (fun xy => (fst xy - snd xy) mod p) (combine a b) ++ skipn (length b) a)
    /\ mul_vec pr m a b = Ok (map (fun xy => (fst xy * snd xy) mod p) (combine a b) ++ skipn (length b) a).
Proof. exact C73_vec_lengths_lem. Qed.
Print Assumptions C73_vec_lengths.

(** C73: 256-bit shifts by 256 or more, and conversions that lose words. *)
Theorem C73_u256 :
  forall x s, (forall l, In l [u0 x; u1 x; u2 x; u3 x] -> 0 <= l < 2 ^ 64) ->
    (256 <= s -> u256_shr Debug x s = Panic /\ u256_shr Release x s = Ok (mkU256 (u3 x / 2 ^ (s mod 64)) 0 0 0))
    /\ (u2 x <> 0 \/ u3 x <> 0 -> u256_to_u128 Debug x = Panic)
    /\ u256_to_u128 Release x = Ok (u0 x + u1 x * 2 ^ 64).
Proof. exact C73_u256_lem. Qed.
Print Assumptions C73_u256.

Example C73_example :
  exists m, modulus_new 97 = Ok m
    /\ madd Release m 97 100 = Ok 100 /\ msub Release m 0 200 = Ok (2 ^ 64 - 103) /\ mneg Release m 97 = Ok 0
    /\ mmul Release m (2 ^ 64 - 1) (2 ^ 64 - 1) = Ok 11
    /\ mpow Release m 98 1 = Ok 98 /\ mpow Release m 98 2 = Ok 1 /\ mpow Debug m 98 2 = Panic
    /\ minv Release m 0 = Ok 0 /\ minv Debug m 0 = Panic
    /\ shoup Release m 97 = Ok 0 /\ shoup Debug m 97 = Panic /\ shoup Debug m 96 = Ok ((96 * 2 ^ 64) / 97)
    /\ reduce_ct Release 194 97 = Ok 97 /\ reduce_ct Debug 194 97 = Panic
    /\ add_vec Debug m [1; 2; 96] [96; 96] = Ok [0; 1; 96]
    /\ u256_shr Release (mkU256 1 2 3 4) 321 = Ok (mkU256 2 0 0 0) /\ u256_shr Debug (mkU256 1 2 3 4) 321 = Panic.
Proof. eexists. split; [vm_compute; reflexivity|]. repeat split; vm_compute; reflexivity. Qed.
