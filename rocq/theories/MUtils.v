(** Model of /repo/src/utils.rs *)
From Verif Require Import Base.

(** src/utils.rs:17-28, the loop of [bit_vector]; [fuel] bounds the number of
    iterations (a u64 has at most 64 significant bits).  [bit_vec[index]]
    panics when out of range. *)
Fixpoint bit_vector_loop (fuel : nat) (v : Z) (index : nat) (bv : list bool)
  : outcome (list bool) :=
  if v =? 0 then Ok bv
  else match fuel with
       | O => NoFuel
       | S f =>
           bv' <- set bv index (Z.land v 1 =? 1) ;;
           bit_vector_loop f (Z.shiftr v 1) (S index) bv'
       end.

(** [vec![x; n]]: allocation panics ("capacity overflow") when the byte size
    exceeds isize::MAX. [esz] is the element size. *)
Definition vec_repeat {A} (x : A) (n : Z) (esz : Z) : outcome (list A) :=
  if n * esz <? W63 then Ok (repeat x (Z.to_nat n)) else Panic.

(** src/utils.rs:11-31 [bit_vector] *)
Definition bit_vector (bit_size : Z) (m : Z) : outcome (list bool) :=
  bv <- vec_repeat false bit_size 1 ;;
  bit_vector_loop 64 m 0 bv.

Section Utils.
Variable pr : profile.

(** src/utils.rs:33-48 [decompose_bits].  The inner fold is u64 arithmetic. *)
Definition decompose_bits (m parent_bits : Z) (decomp_bits : nat) : outcome (list Z) :=
  bv <- bit_vector parent_bits m ;;
  cs <- chunks decomp_bits bv ;;
  mapM (fun chunk =>
          foldM (fun acc (b : bool) =>
                   d <- mul64 pr acc 2 ;; add64 pr d (if b then 1 else 0))
                (rev chunk) 0) cs.

(** src/utils.rs:70-82, the loop of [sample_vec_cbd].  [w k] is the k-th value
    of [rng.next_u64()].  State: pool, number of bits in the pool, number of
    words already drawn. *)
Fixpoint cbd_loop (nb : Z) (mask_add mask_sub : Z) (w : nat -> Z)
         (size : nat) (pool nbits : Z) (k : nat) : outcome (list Z) :=
  match size with
  | O => Ok []
  | S size' =>
      let '(pool, nbits, k) :=
        if nbits <? nb
        then (Z.lor pool (as128 (Z.shiftl (w k) nbits)), nbits + 64, S k)
        else (pool, nbits, k) in
      dassert pr (nb <=? nbits) ;;;
      let x := popcount 128 (Z.land pool mask_add)
               - popcount 128 (Z.land pool mask_sub) in
      rest <- cbd_loop nb mask_add mask_sub w size' (Z.shiftr pool nb) (nbits - nb) k ;;
      Ok (x :: rest)
  end.

(** src/utils.rs:54-85 [sample_vec_cbd] *)
Definition sample_vec_cbd (vector_size : nat) (variance : Z) (w : nat -> Z)
  : outcome (list Z) :=
  rassert ((1 <=? variance) && (variance <=? 16)) ;;;
  let number_bits := 4 * variance in
  let mask_add := Z.shiftr (Z.shiftr (W64 - 1) (64 - number_bits)) (2 * variance) in
  let mask_sub := as128 (Z.shiftl mask_add (2 * variance)) in
  cbd_loop number_bits mask_add mask_sub w vector_size 0 0 0.

(** src/utils.rs:90-92 [ilog2] at a [w]-bit type; the usize subtraction
    underflows for 0. *)
Definition ilog2 (w : Z) (value : Z) : outcome Z :=
  sub64 pr (w - 1) (leading_zeros w value).

(** src/utils.rs:101-104 [div_ceil] at a type of [2^w = bound] values. *)
Definition div_ceil (bound : Z) (a b : Z) : outcome Z :=
  rassert (negb (b =? 0)) ;;;
  s <- chk pr bound (a + b) ;;
  s' <- chk pr bound (s - 1) ;;
  udiv s' b.

End Utils.

(** Extended Euclid, used for the external [ModInverse::mod_inverse] of
    num-bigint-dig (contract: the inverse in [0,m) when gcd = 1, else None).
    Invariant: r0 = x0 * a (mod m), r1 = x1 * a (mod m). *)
Fixpoint egcd_loop (fuel : nat) (r0 x0 r1 x1 : Z) : option (Z * Z) :=
  match fuel with
  | O => None
  | S f => if r1 =? 0 then Some (r0, x0)
           else egcd_loop f r1 x1 (r0 mod r1) (x0 - (r0 / r1) * x1)
  end.

Definition mod_inverse_big (a m : Z) : option Z :=
  match egcd_loop (Z.to_nat (2 * bitlen m + 4)) m 0 (a mod m) 1 with
  | Some (g, x) => if g =? 1 then Some (x mod m) else None
  | None => None
  end.

(** src/utils.rs:95-99 [mod_inverse] *)
Definition mod_inverse (v q : Z) : option Z :=
  match mod_inverse_big v q with
  | Some r => to_u64 r
  | None => None
  end.

(** src/utils.rs:129-131: first loop of [generate_prime]: walk down to a
    candidate congruent to 1.  Result [inr] = loop finished. *)
Definition gp_step1 (lz modulo : Z) (t : Z) : Z + Z :=
  if negb (t mod modulo =? 1) && (leading_zeros 64 t =? lz)
  then inl (t - 1) else inr t.

(** src/utils.rs:133-138: second loop: walk down by [modulo] to a prime. *)
Definition gp_step2 (is_prime : Z -> bool) (lz modulo : Z) (t : Z) : Z + Z :=
  if (leading_zeros 64 t =? lz) && negb (is_prime t) && (modulo <=? t)
  then inl (t - modulo) else inr t.

(** src/utils.rs:117-146 [generate_prime].  [is_prime] is the oracle for
    src/utils.rs:110-112.  [upper_bound - 1] underflows for 0; [% modulo]
    panics for 0.  Each loop decreases a u64, so 2^64 iterations suffice. *)
Definition generate_prime (pr : profile) (is_prime : Z -> bool)
           (num_bits modulo upper_bound : Z) : outcome (option Z) :=
  if negb ((10 <=? num_bits) && (num_bits <=? 62)) then Ok None
  else
    dassert pr (upper_bound <=? 2 ^ num_bits) ;;;
    let lz := 64 - num_bits in
    t0 <- sub64 pr upper_bound 1 ;;
    rassert (negb (modulo =? 0)) ;;;
    match iter2 64 (gp_step1 lz modulo) t0 with
    | inl _ => NoFuel
    | inr t1 =>
        match iter2 64 (gp_step2 is_prime lz modulo) t1 with
        | inl _ => NoFuel
        | inr t2 =>
            if (leading_zeros 64 t2 =? lz) && is_prime t2 then Ok (Some t2)
            else Ok None
        end
    end.

(** src/utils.rs:151-153 [struct U256]: little-endian limbs. *)
Record U256 := mkU256 { u0 : Z; u1 : Z; u2 : Z; u3 : Z }.

(** src/utils.rs:157-159 [zero] *)
Definition u256_zero := mkU256 0 0 0 0.

(** [overflowing_add] / [overflowing_sub] on u64. *)
Definition ovf_add (a b : Z) : Z * bool := ((a + b) mod W64, W64 <=? a + b).
Definition ovf_sub (a b : Z) : Z * bool := ((a - b) mod W64, a <? b).
Definition b2z (b : bool) : Z := if b then 1 else 0.

(** src/utils.rs:162-174 [wrapping_add_assign] *)
Definition u256_add (x y : U256) : U256 :=
  let '(a, c1) := ovf_add (u0 x) (u0 y) in
  let '(b, c2) := ovf_add (u1 x) (u1 y) in
  let '(c, c3) := ovf_add b (b2z c1) in
  let '(d, c4) := ovf_add (u2 x) (u2 y) in
  let '(e, c5) := ovf_add d (b2z (c2 || c3)) in
  let f := (u3 x + u3 y) mod W64 in
  let g := (f + b2z (c4 || c5)) mod W64 in
  mkU256 a c e g.

(** src/utils.rs:177-189 [wrapping_sub_assign] *)
Definition u256_sub (x y : U256) : U256 :=
  let '(a, b1) := ovf_sub (u0 x) (u0 y) in
  let '(b, b2) := ovf_sub (u1 x) (u1 y) in
  let '(c, b3) := ovf_sub b (b2z b1) in
  let '(d, b4) := ovf_sub (u2 x) (u2 y) in
  let '(e, b5) := ovf_sub d (b2z (b2 || b3)) in
  let f := (u3 x - u3 y) mod W64 in
  let g := (f - b2z (b4 || b5)) mod W64 in
  mkU256 a c e g.

(** src/utils.rs:192-194 [msb] *)
Definition u256_msb (x : U256) : Z := Z.shiftr (u3 x) 63.

(** src/utils.rs:197-201 [From<[u64;4]>] *)
Definition u256_of4 (a b c d : Z) : U256 := mkU256 a b c d.
(** src/utils.rs:203-212 [From<[u128;2]>] *)
Definition u256_of2 (a b : Z) : U256 :=
  mkU256 (as64 a) (as64 (Z.shiftr a 64)) (as64 b) (as64 (Z.shiftr b 64)).
(** src/utils.rs:220-227 [From<U256> for [u128;2]] *)
Definition u256_to2 (pr : profile) (x : U256) : outcome (Z * Z) :=
  lo <- add128 pr (u0 x) (Z.shiftl (u1 x) 64) ;;
  hi <- add128 pr (u2 x) (Z.shiftl (u3 x) 64) ;;
  Ok (lo, hi).
(** src/utils.rs:229-234 [From<&U256> for u128] *)
Definition u256_to_u128 (pr : profile) (x : U256) : outcome Z :=
  dassert pr ((u2 x =? 0) && (u3 x =? 0)) ;;;
  add128 pr (u0 x) (Z.shiftl (u1 x) 64).

(** src/utils.rs:236-242 [Not] *)
Definition u256_not (x : U256) : U256 :=
  mkU256 (W64 - 1 - u0 x) (W64 - 1 - u1 x) (W64 - 1 - u2 x) (W64 - 1 - u3 x).

(** [a << s] on u64 for 0 <= s < 64 (bits shifted out are lost). *)
Definition shl64 (a s : Z) : Z := as64 (Z.shiftl a s).

(** src/utils.rs:254-290 [ShrAssign] (also [Shr], 244-252).  Without the debug
    assertion a shift of 256 or more would make [self.3 >> (rhs - 192)] shift
    by 64 or more, which a Release build masks to 6 bits; modelled so. *)
Definition u256_shr (pr : profile) (x : U256) (rhs : Z) : outcome U256 :=
  dassert pr (rhs <? 256) ;;;
  if 192 <=? rhs then
    Ok (mkU256 (Z.shiftr (u3 x) ((rhs - 192) mod 64)) 0 0 0)
  else if 128 <? rhs then
    Ok (mkU256 (Z.lor (Z.shiftr (u2 x) (rhs - 128)) (shl64 (u3 x) (192 - rhs)))
               (Z.shiftr (u3 x) (rhs - 128)) 0 0)
  else if rhs =? 128 then
    Ok (mkU256 (u2 x) (u3 x) 0 0)
  else if 64 <? rhs then
    Ok (mkU256 (Z.lor (Z.shiftr (u1 x) (rhs - 64)) (shl64 (u2 x) (128 - rhs)))
               (Z.lor (Z.shiftr (u2 x) (rhs - 64)) (shl64 (u3 x) (128 - rhs)))
               (Z.shiftr (u3 x) (rhs - 64)) 0)
  else if rhs =? 64 then
    Ok (mkU256 (u1 x) (u2 x) (u3 x) 0)
  else if 0 <? rhs then
    Ok (mkU256 (Z.lor (Z.shiftr (u0 x) rhs) (shl64 (u1 x) (64 - rhs)))
               (Z.lor (Z.shiftr (u1 x) rhs) (shl64 (u2 x) (64 - rhs)))
               (Z.lor (Z.shiftr (u2 x) rhs) (shl64 (u3 x) (64 - rhs)))
               (Z.shiftr (u3 x) rhs))
  else Ok x.
