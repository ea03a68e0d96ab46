(** Model of /repo/src/modulus.rs *)
From Verif Require Import Base.

(** src/modulus.rs:6-11 [struct Modulus] *)
Record Modulus := mkModulus { mp : Z; barret_hi : Z; barret_lo : Z }.

(** src/modulus.rs:18-29 [Modulus::new].  [BigUint / p] panics for p = 0;
    [to_u128().unwrap()] panics when the quotient does not fit (p = 1). *)
Definition modulus_new (p : Z) : outcome Modulus :=
  rassert ((p <? 2) || (Z.shiftr p 62 =? 0)) ;;;
  q <- udiv W128 p ;;
  r <- unwrap (to_u128 q) ;;
  Ok (mkModulus p (as64 (Z.shiftr r 64)) (as64 r)).

Section Ops.
Variable pr : profile.

(** src/modulus.rs:37-47 [lazy_reduce_ct] *)
Definition lazy_reduce_ct (m : Modulus) (a : Z) : outcome Z :=
  lo <- mul128 pr a (barret_lo m) ;;
  let low := Z.shiftr lo 64 in
  high <- mul128 pr a (barret_hi m) ;;
  s <- add128 pr high low ;;
  let num := Z.shiftr s 64 in
  np <- mul128 pr num (mp m) ;;
  val <- sub128 pr a np ;;
  Ok (as64 val).

(** src/modulus.rs:49-62 [lazy_reduce_u128] *)
Definition lazy_reduce_u128 (m : Modulus) (a : Z) : outcome Z :=
  let alo := as64 a in
  let ahi := as64 (Z.shiftr a 64) in
  alo_lo0 <- mul128 pr alo (barret_lo m) ;;
  let alo_lo := Z.shiftr alo_lo0 64 in
  alo_hi <- mul128 pr alo (barret_hi m) ;;
  ahi_lo <- mul128 pr ahi (barret_lo m) ;;
  ahi_hi <- mul128 pr ahi (barret_hi m) ;;
  s1 <- add128 pr alo_hi ahi_lo ;;
  s2 <- add128 pr s1 alo_lo ;;
  num <- add128 pr (Z.shiftr s2 64) ahi_hi ;;
  np <- mul128 pr num (mp m) ;;
  val <- sub128 pr a np ;;
  Ok (as64 val).

(** src/modulus.rs:72-87 [reduce_ct].  The product [2 * p] of the second
    debug assertion cannot overflow after the first one. *)
Definition reduce_ct (x p : Z) : outcome Z :=
  dassert pr (Z.shiftr p 63 =? 0) ;;;
  dassert pr (x <? 2 * p) ;;;
  let y := (x - p) mod W64 in
  let xp := Z.lxor x p in
  let yp := Z.lxor y p in
  let xy := Z.lxor xp yp in
  let xxy := Z.lxor x xy in
  let xxy := Z.shiftr xxy 63 in
  let c := (xxy - 1) mod W64 in
  let notc := W64 - 1 - c in
  let r := Z.lor (Z.land c y) (Z.land notc x) in
  dassert pr (r =? x mod p) ;;;
  Ok r.

(** src/modulus.rs:89-91 [reduce] *)
Definition mreduce (m : Modulus) (a : Z) : outcome Z :=
  l <- lazy_reduce_ct m a ;; reduce_ct l (mp m).

(** src/modulus.rs:93-95 [reduce_u128] *)
Definition mreduce_u128 (m : Modulus) (a : Z) : outcome Z :=
  l <- lazy_reduce_u128 m a ;; reduce_ct l (mp m).

(** src/modulus.rs:98-100 [reduce_biguint] ([BigUint % u64] panics on 0). *)
Definition reduce_biguint (m : Modulus) (a : Z) : outcome Z :=
  r <- umod a (mp m) ;; unwrap (to_u64 r).

(** src/modulus.rs:103-105 [reduce_i64].  The i128 sum is in
    (-2^63, 2^126 + 2^63), so it never overflows; [as u128] wraps negatives. *)
Definition reduce_i64 (m : Modulus) (a : Z) : outcome Z :=
  mreduce_u128 m (as128 (Z.shiftl (mp m) 64 + a)).

(** src/modulus.rs:107-109 [reduce_vec_u64] *)
Definition reduce_vec_u64 (m : Modulus) (a : list Z) : outcome (list Z) :=
  mapM (mreduce m) a.
(** src/modulus.rs:111-113 [reduce_vec_i64] *)
Definition reduce_vec_i64 (m : Modulus) (a : list Z) : outcome (list Z) :=
  mapM (reduce_i64 m) a.
(** src/modulus.rs:115-117 [reduce_vec_biguint] *)
Definition reduce_vec_biguint (m : Modulus) (a : list Z) : outcome (list Z) :=
  mapM (reduce_biguint m) a.

(** src/modulus.rs:169-173 [add] *)
Definition madd (m : Modulus) (a b : Z) : outcome Z :=
  dassert pr (a <? mp m) ;;;
  dassert pr (b <? mp m) ;;;
  s <- add64 pr a b ;;
  reduce_ct s (mp m).

(** src/modulus.rs:175-180 [sub] *)
Definition msub (m : Modulus) (a b : Z) : outcome Z :=
  dassert pr (a <? mp m) ;;;
  dassert pr (b <? mp m) ;;;
  d <- sub64 pr (mp m) b ;;
  s <- add64 pr a d ;;
  reduce_ct s (mp m).

(** src/modulus.rs:182-186 [mul] *)
Definition mmul (m : Modulus) (a b : Z) : outcome Z :=
  dassert pr (a <? mp m) ;;;
  dassert pr (b <? mp m) ;;;
  ab <- mul128 pr a b ;;
  mreduce_u128 m ab.

(** src/modulus.rs:188-191 [neg] *)
Definition mneg (m : Modulus) (a : Z) : outcome Z :=
  dassert pr (a <? mp m) ;;;
  d <- sub64 pr (mp m) a ;;
  reduce_ct d (mp m).

(** src/modulus.rs:134-142, the loop of [pow]: iteration [k] handles bit
    [k-1] of the exponent. *)
Fixpoint pow_loop (m : Modulus) (a r : Z) (k : nat) (val : Z) : outcome Z :=
  match k with
  | O => Ok val
  | S b =>
      v <- mmul m val val ;;
      v' <- (if Z.land (Z.shiftr r (Z.of_nat b)) 1 =? 1 then mmul m v a else Ok v) ;;
      pow_loop m a r b v'
  end.

(** src/modulus.rs:122-145 [pow].  [62 - r.leading_zeros()] is the index of
    the second most significant bit (r >= 2). *)
Definition mpow (m : Modulus) (a r : Z) : outcome Z :=
  dassert pr ((a <? mp m) && (r <? mp m)) ;;;
  if r =? 0 then Ok 1
  else if r =? 1 then Ok a
  else
    let bits := 62 - leading_zeros 64 r in
    pow_loop m a r (Z.to_nat (bits + 1)) a.

(** src/modulus.rs:153-156 [inv] *)
Definition minv (m : Modulus) (a : Z) : outcome Z :=
  dassert pr ((a <? mp m) && negb (a =? 0)) ;;;
  e <- sub64 pr (mp m) 2 ;;
  mpow m a e.

(** src/modulus.rs:158-160 [inv_vec] *)
Definition inv_vec (m : Modulus) (a : list Z) : outcome (list Z) :=
  mapM (minv m) a.

(** src/modulus.rs:214-217 [shoup] *)
Definition shoup (m : Modulus) (a : Z) : outcome Z :=
  dassert pr (a <? mp m) ;;;
  q <- udiv (Z.shiftl a 64) (mp m) ;;
  Ok (as64 q).

(** src/modulus.rs:219-221 [shoup_vec] *)
Definition shoup_vec (m : Modulus) (a : list Z) : outcome (list Z) :=
  mapM (shoup m) a.

(** src/modulus.rs:230-242 [lazy_mul_shoup].  The debug assertions evaluate
    [self.shoup(b)] and [self.p * 2]. *)
Definition lazy_mul_shoup (m : Modulus) (a b b_shoup : Z) : outcome Z :=
  dassert pr (b <? mp m) ;;;
  (match pr with
   | Debug => s <- shoup m b ;; rassert (b_shoup =? s)
   | Release => Ok tt
   end) ;;;
  ab <- mul128 pr a b_shoup ;;
  let q := Z.shiftr ab 64 in
  ab' <- mul128 pr a b ;;
  qp <- mul128 pr q (mp m) ;;
  d <- sub128 pr ab' qp ;;
  let r := as64 d in
  dassert pr (r <? mp m * 2) ;;;
  Ok r.

(** src/modulus.rs:223-225 [mul_shoup] *)
Definition mul_shoup (m : Modulus) (a b b_shoup : Z) : outcome Z :=
  l <- lazy_mul_shoup m a b b_shoup ;; reduce_ct l (mp m).

(** src/modulus.rs:162-167 [scalar_mul_vec] *)
Definition scalar_mul_vec (m : Modulus) (a : list Z) (b : Z) : outcome (list Z) :=
  b_shoup <- shoup m b ;;
  mapM (fun ai => lazy_mul_shoup m ai b b_shoup) a.

(** src/modulus.rs:193-203 [add_vec], [sub_vec], [mul_vec] (in place on [a]) *)
Definition add_vec (m : Modulus) (a b : list Z) : outcome (list Z) :=
  zipM_upd (madd m) a b.
Definition sub_vec (m : Modulus) (a b : list Z) : outcome (list Z) :=
  zipM_upd (msub m) a b.
Definition mul_vec (m : Modulus) (a b : list Z) : outcome (list Z) :=
  zipM_upd (mmul m) a b.

(** src/modulus.rs:205-207 [neg_vec] *)
Definition neg_vec (m : Modulus) (a : list Z) : outcome (list Z) :=
  mapM (mneg m) a.

End Ops.

(** src/modulus.rs:258-260 [bits]: [u64::MAX - leading_zeros]. *)
Definition modulus_bits (m : Modulus) : Z :=
  (W64 - 1) - leading_zeros 64 (mp m).
