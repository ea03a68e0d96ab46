(** Model of /repo/src/ntt.rs *)
From Verif Require Import Base MModulus MUtils.

(** Oracles for external behaviour: [is_prime] for src/utils.rs:110-112 (the
    external [probably_prime(p, 0)]) and [draw p k] for the k-th
    [rng.gen_range(0..p)] of a ChaCha8 generator seeded with 0
    (src/ntt.rs:214-217). *)
Record Env := mkEnv { is_prime : Z -> bool; draw : Z -> nat -> Z }.

(** src/ntt.rs:7-18 [struct NttOperator] *)
Record NttOp := mkNttOp {
  nt_p : Modulus;
  nt_p_twice : Z;
  nt_omegas : list Z;
  nt_omegas_inv : list Z;
  nt_omegas_shoup : list Z;
  nt_zetas_inv : list Z;
  nt_zetas_inv_shoup : list Z;
  nt_size : nat;
  nt_size_inv : Z;
  nt_size_inv_shoup : Z }.

(** [usize::is_power_of_two] *)
Definition is_power_of_two (n : Z) : bool :=
  (0 <? n) && (Z.land n (n - 1) =? 0).

(** src/ntt.rs:201-206 [supports_ntt] *)
Definition supports_ntt (env : Env) (p : Z) (n : nat) : bool :=
  let nz := Z.of_nat n in
  if negb (is_power_of_two nz) || (nz <? 8) then false
  else (p mod (Z.shiftl nz 1) =? 1) && is_prime env p.

Section Ntt.
Variable pr : profile.
Variable env : Env.

(** src/ntt.rs:233-236 [is_primitive_root] *)
Definition is_primitive_root (v : Z) (n : Z) (p : Modulus) : outcome bool :=
  dassert pr (v <? mp p) ;;;
  x <- mpow pr p v n ;;
  if x =? 1 then y <- mpow pr p v (n / 2) ;; Ok (negb (y =? 1))
  else Ok false.

(** src/ntt.rs:216-222, the loop of [primitive_root] over the draws
    [k, k+1, ..., k+tries-1]. *)
Fixpoint primitive_root_loop (tries : nat) (k : nat) (lambda : Z) (n : nat) (p : Modulus)
  : outcome Z :=
  match tries with
  | O => Panic
  | S t =>
      root <- mpow pr p (draw env (mp p) k) lambda ;;
      ok <- is_primitive_root root (2 * Z.of_nat n) p ;;
      if ok then Ok root else primitive_root_loop t (S k) lambda n p
  end.

(** src/ntt.rs:211-226 [primitive_root] *)
Definition primitive_root (n : nat) (p : Modulus) : outcome Z :=
  pm1 <- sub64 pr (mp p) 1 ;;
  lambda <- udiv pm1 (2 * Z.of_nat n) ;;
  primitive_root_loop 100 0 lambda n p.

(** src/ntt.rs:28-37: the first [count] powers of [w], starting from [v]. *)
Fixpoint powers_loop (p : Modulus) (w : Z) (count : nat) (v : Z) : outcome (list Z) :=
  match count with
  | O => Ok []
  | S c => v' <- mmul pr p v w ;; r <- powers_loop p w c v' ;; Ok (v :: r)
  end.

(** src/ntt.rs:45 [i.reverse_bits() >> (size.leading_zeros() + 1)] (also
    rq.rs:50,214 and bfv.rs:152-154): usize is 64 bits. *)
Definition bitrev_usize (size : nat) (i : Z) : Z :=
  Z.shiftr (rev_bits 64 i) (leading_zeros 64 (Z.of_nat size) + 1).

(** src/ntt.rs:21-69 [NttOperator::new] *)
Definition ntt_new (p : Modulus) (size : nat) : outcome NttOp :=
  rassert (supports_ntt env (mp p) size) ;;;
  omega <- primitive_root size p ;;
  omega_inv <- minv pr p omega ;;
  powers <- powers_loop p omega (size + 1) 1 ;;
  powers_inv <- powers_loop p omega_inv (size + 1) 1 ;;
  let js := map (fun i => Z.to_nat (bitrev_usize size (Z.of_nat i))) (seq 0 size) in
  omegas <- mapM (fun j => get powers j) js ;;
  omegas_inv <- mapM (fun j => get powers_inv j) js ;;
  zetas_inv <- mapM (fun j => get powers_inv (j + 1)%nat) js ;;
  omegas_shoup <- shoup_vec pr p omegas ;;
  zetas_inv_shoup <- shoup_vec pr p zetas_inv ;;
  size_inv <- minv pr p (Z.of_nat size) ;;
  size_inv_shoup <- shoup pr p size_inv ;;
  p_twice <- mul64 pr (mp p) 2 ;;
  Ok (mkNttOp p p_twice omegas omegas_inv omegas_shoup zetas_inv zetas_inv_shoup
              size size_inv size_inv_shoup).

(** src/ntt.rs:163-176 [butterfly].  [self.p.p * 4] of the debug assertions is
    a u64 product. *)
Definition butterfly (op : NttOp) (x y w w_shoup : Z) : outcome (Z * Z) :=
  (match pr with
   | Debug =>
       p4 <- mul64 pr (mp (nt_p op)) 4 ;;
       rassert (x <? p4) ;;;
       rassert (y <? p4) ;;;
       rassert (w <? mp (nt_p op)) ;;;
       s <- shoup pr (nt_p op) w ;;
       rassert (w_shoup =? s)
   | Release => Ok tt
   end) ;;;
  x1 <- reduce_ct pr x (nt_p_twice op) ;;
  t <- lazy_mul_shoup pr (nt_p op) y w w_shoup ;;
  xp <- add64 pr x1 (nt_p_twice op) ;;
  y1 <- sub64 pr xp t ;;
  x2 <- add64 pr x1 t ;;
  (match pr with
   | Debug =>
       p4 <- mul64 pr (mp (nt_p op)) 4 ;;
       rassert (x2 <? p4) ;;; rassert (y1 <? p4)
   | Release => Ok tt
   end) ;;;
  Ok (x2, y1).

(** src/ntt.rs:178-192 [butterfly_inv] *)
Definition butterfly_inv (op : NttOp) (x y z_inv z_inv_shoup : Z) : outcome (Z * Z) :=
  dassert pr (x <? nt_p_twice op) ;;;
  dassert pr (y <? nt_p_twice op) ;;;
  dassert pr (z_inv <? mp (nt_p op)) ;;;
  (match pr with
   | Debug => s <- shoup pr (nt_p op) z_inv ;; rassert (z_inv_shoup =? s)
   | Release => Ok tt
   end) ;;;
  let t := x in
  yt <- add64 pr y t ;;
  x1 <- reduce_ct pr yt (nt_p_twice op) ;;
  pt <- add64 pr (nt_p_twice op) t ;;
  d <- sub64 pr pt y ;;
  y1 <- lazy_mul_shoup pr (nt_p op) d z_inv z_inv_shoup ;;
  dassert pr (x1 <? nt_p_twice op) ;;;
  dassert pr (y1 <? nt_p_twice op) ;;;
  Ok (x1, y1).

(** src/ntt.rs:241-245 [reduce_4p] *)
Definition reduce_4p (a : Z) (p : Modulus) : outcome Z :=
  (match pr with
   | Debug => p4 <- mul64 pr (mp p) 4 ;; rassert (a <? p4)
   | Release => Ok tt
   end) ;;;
  p2 <- mul64 pr 2 (mp p) ;;
  r <- reduce_ct pr a p2 ;;
  reduce_ct pr r (mp p).

(** A butterfly applied through raw pointers to cells [j1] and [j2]
    (src/ntt.rs:105-110, 140-145). *)
Definition bf_at (bf : Z -> Z -> outcome (Z * Z)) (a : list Z) (j1 j2 : nat)
  : outcome (list Z) :=
  x <- getu a j1 ;;
  y <- getu a j2 ;;
  '(x', y') <- bf x y ;;
  a1 <- setu a j1 x' ;;
  setu a1 j2 y'.

(** src/ntt.rs:88-114: one block of the forward transform.  State: the array
    and the running root index [k]. *)
Definition fwd_block (op : NttOp) (l : nat) (st : list Z * nat) (i : nat)
  : outcome (list Z * nat) :=
  let '(a, k) := st in
  omega <- getu (nt_omegas op) k ;;
  omega_shoup <- getu (nt_omegas_shoup op) k ;;
  let s := (2 * i * l)%nat in
  if (l =? 1)%nat then
    a1 <- bf_at (fun x y => butterfly op x y omega omega_shoup) a s (s + 1) ;;
    u <- getu a1 s ;;
    u' <- reduce_4p u (nt_p op) ;;
    a2 <- setu a1 s u' ;;
    v <- getu a2 (s + 1) ;;
    v' <- reduce_4p v (nt_p op) ;;
    a3 <- setu a2 (s + 1) v' ;;
    Ok (a3, S k)
  else
    a1 <- foldM (fun a j => bf_at (fun x y => butterfly op x y omega omega_shoup) a j (j + l))
                (seq s l) a ;;
    Ok (a1, S k).

(** src/ntt.rs:86-119: the layers of the forward transform. *)
Fixpoint fwd_loop (op : NttOp) (fuel : nat) (l m k : nat) (a : list Z)
  : outcome (list Z) :=
  if (l =? 0)%nat then Ok a
  else match fuel with
       | O => NoFuel
       | S f =>
           '(a', k') <- foldM (fwd_block op l) (seq 0 m) (a, k) ;;
           fwd_loop op f (Nat.div2 l) (2 * m) k' a'
       end.

(** src/ntt.rs:77-120 [forward]: [l] is halved at each layer, so 64 layers
    suffice for a usize. *)
Definition ntt_forward (op : NttOp) (a : list Z) : outcome (list Z) :=
  rassert (length a =? nt_size op)%nat ;;;
  fwd_loop op 64 (Nat.div2 (nt_size op)) 1 1 a.

(** src/ntt.rs:133-147: one block of the backward transform. *)
Definition bwd_block (op : NttOp) (l : nat) (st : list Z * nat) (i : nat)
  : outcome (list Z * nat) :=
  let '(a, k) := st in
  let s := (2 * i * l)%nat in
  zeta_inv <- getu (nt_zetas_inv op) k ;;
  zeta_inv_shoup <- getu (nt_zetas_inv_shoup op) k ;;
  a1 <- foldM (fun a j => bf_at (fun x y => butterfly_inv op x y zeta_inv zeta_inv_shoup) a j (j + l))
              (seq s l) a ;;
  Ok (a1, S k).

(** src/ntt.rs:131-151 *)
Fixpoint bwd_loop (op : NttOp) (fuel : nat) (m l k : nat) (a : list Z)
  : outcome (list Z) :=
  if (m =? 0)%nat then Ok a
  else match fuel with
       | O => NoFuel
       | S f =>
           '(a', k') <- foldM (bwd_block op l) (seq 0 m) (a, k) ;;
           bwd_loop op f (Nat.div2 m) (2 * l) k' a'
       end.

(** src/ntt.rs:122-156 [backward] *)
Definition ntt_backward (op : NttOp) (a : list Z) : outcome (list Z) :=
  rassert (length a =? nt_size op)%nat ;;;
  a1 <- bwd_loop op 64 (Nat.div2 (nt_size op)) 1 0 a ;;
  mapM (fun x => mul_shoup pr (nt_p op) x (nt_size_inv op) (nt_size_inv_shoup op)) a1.

End Ntt.
