(** Model of the uniform sampling of /repo/src/modulus.rs and /repo/src/rq.rs.
    The generator is a list of u64 words; NoFuel means that more words are
    needed. *)
From Verif Require Import Base MModulus MRq.

(** [Uniform::from(0..p)] of rand 0.8.5 (called at src/modulus.rs:245, 250 and
    src/pvw.rs:124): panics for an empty range; [zone] is [u64::MAX] minus the
    number of words to reject. *)
Definition uniform_zone (p : Z) : outcome Z :=
  rassert (0 <? p) ;;;
  Ok (W64 - 1 - (W64 - 1 - p + 1) mod p).

(** [rng.gen_range(0..p)] of rand 0.8.5 (called at src/ntt.rs:217) uses the
    largest power of two times p instead. *)
Definition gen_range_zone (p : Z) : outcome Z :=
  rassert (0 <? p) ;;;
  Ok ((Z.shiftl p (leading_zeros 64 p) - 1) mod W64).

(** The sampling loop of both (rand 0.8.5): the high word of a 64 by 64 bit
    product is the sample, a word with a low word above [zone] is rejected. *)
Fixpoint uniform_sample (zone p : Z) (ws : list Z) : outcome (Z * list Z) :=
  match ws with
  | [] => NoFuel
  | v :: ws' =>
      let x := v * p in
      if as64 x <=? zone then Ok (Z.shiftr x 64, ws') else uniform_sample zone p ws'
  end.

(** [rng.sample_iter(dist).take(size)] *)
Fixpoint uniform_take (zone p : Z) (size : nat) (ws : list Z) : outcome (list Z * list Z) :=
  match size with
  | O => Ok ([], ws)
  | S s =>
      '(x, ws1) <- uniform_sample zone p ws ;;
      '(xs, ws2) <- uniform_take zone p s ws1 ;;
      Ok (x :: xs, ws2)
  end.

(** src/modulus.rs:244-247 [random] *)
Definition modulus_random (m : Modulus) (ws : list Z) : outcome (Z * list Z) :=
  zone <- uniform_zone (mp m) ;;
  uniform_sample zone (mp m) ws.

(** src/modulus.rs:249-252 [random_vec] *)
Definition modulus_random_vec (m : Modulus) (size : nat) (ws : list Z) : outcome (list Z * list Z) :=
  zone <- uniform_zone (mp m) ;;
  uniform_take zone (mp m) size ws.

(** src/rq.rs:466-473, 490-497: each row of the zero polynomial is overwritten
    with a vector of samples. *)
Fixpoint random_rows (degree : nat) (rows : list (list Z)) (ms : list Modulus) (ws : list Z)
  : outcome (list (list Z) * list Z) :=
  match rows, ms with
  | dst :: rows', q :: ms' =>
      '(v, ws1) <- modulus_random_vec q degree ws ;;
      rassert (length dst =? length v)%nat ;;;
      '(r, ws2) <- random_rows degree rows' ms' ws1 ;;
      Ok (v :: r, ws2)
  | _, _ => Ok (rows, ws)
  end.

(** src/rq.rs:460-476 [random] *)
Definition poly_random_gen (ctx : RqContext) (r : repr) (ws : list Z) : outcome (Poly * list Z) :=
  '(rows, ws') <- random_rows (rq_degree ctx) (zero_rows ctx) (rq_moduli ctx) ws ;;
  Ok (mkPoly ctx r rows, ws').

(** src/ntt.rs:217 [rng.gen_range(0..p.p)] *)
Definition gen_range (p : Z) (ws : list Z) : outcome (Z * list Z) :=
  zone <- gen_range_zone p ;;
  uniform_sample zone p ws.
