(** The word arithmetic of /repo/src/modulus.rs and the transforms of
    /repo/src/ntt.rs once more, in a Release build, now recording what each
    function does besides computing its result: every word operation, every
    decision taken, every array cell touched and every division.  The values
    computed are those of MModulus.v and MNtt.v (C93 proves it). *)
From Verif Require Import Base MModulus MUtils MNtt.

(** Word operations whose time does not depend on their operands. *)
Inductive wop :=
| OAdd64 | OSub64 | OMul64 | OXor64 | OAnd64 | OOr64 | ONot64 | OShr64 | OCast
| OAdd128 | OSub128 | OMul128 | OShr128 | OShl128 | OAnd128 | OOr128
| OCount128 | OLz64 | ODraw | OWide.

(** One observable step.  A division is recorded with its operands, because
    its time may depend on them. *)
Inductive event :=
| EOp (o : wop)
| EDiv (a b : Z)
| EBranch (taken : bool)
| ERead (table : nat) (i : nat)
| EWrite (i : nat).

(** A recorded run: the steps in order, and how the run ended. *)
Definition run (A : Type) : Type := (list event * outcome A)%type.

Definition ret {A} (a : A) : run A := ([], Ok a).
Definition rbind {A B} (x : run A) (f : A -> run B) : run B :=
  match snd x with
  | Ok a => let r := f a in (fst x ++ fst r, snd r)
  | Panic => (fst x, Panic)
  | UB => (fst x, UB)
  | NoFuel => (fst x, NoFuel)
  end.
Definition emit (e : event) : run unit := ([e], Ok tt).

Notation "x <~ e ;~ k" := (rbind e (fun x => k))
  (at level 61, e at next level, right associativity).
Notation "' p <~ e ;~ k" := (rbind e (fun p => k))
  (at level 61, p pattern, e at next level, right associativity).
Notation "e ;;~ k" := (rbind e (fun _ => k))
  (at level 61, right associativity).

(** A word operation with result [v]. *)
Definition wd (o : wop) (v : Z) : run Z := ([EOp o], Ok v).

(** Wrapping word operations of a Release build. *)
Definition t_add64 (a b : Z) := wd OAdd64 ((a + b) mod W64).
Definition t_sub64 (a b : Z) := wd OSub64 ((a - b) mod W64).
Definition t_mul64 (a b : Z) := wd OMul64 ((a * b) mod W64).
Definition t_add128 (a b : Z) := wd OAdd128 ((a + b) mod W128).
Definition t_sub128 (a b : Z) := wd OSub128 ((a - b) mod W128).
Definition t_mul128 (a b : Z) := wd OMul128 ((a * b) mod W128).
Definition t_xor (a b : Z) := wd OXor64 (Z.lxor a b).
Definition t_and (a b : Z) := wd OAnd64 (Z.land a b).
Definition t_or (a b : Z) := wd OOr64 (Z.lor a b).
Definition t_not (a : Z) := wd ONot64 (W64 - 1 - a).
Definition t_shr64 (a k : Z) := wd OShr64 (Z.shiftr a k).
Definition t_shr128 (a k : Z) := wd OShr128 (Z.shiftr a k).
Definition t_shl128 (a k : Z) := wd OShl128 (Z.shiftl a k).
Definition t_as64 (a : Z) := wd OCast (as64 a).
Definition t_as128 (a : Z) := wd OCast (as128 a).
Definition t_div (a b : Z) : run Z := ([EDiv a b], udiv a b).
(** Array cells: [t] names the array (0: the vector worked on; 1, 2: tables). *)
Definition t_getu {A} (t : nat) (l : list A) (i : nat) : run A :=
  ([ERead t i], getu l i).
Definition t_setu {A} (l : list A) (i : nat) (v : A) : run (list A) :=
  ([EWrite i], setu l i v).
(** A decision. *)
Definition t_if {A} (b : bool) (x y : run A) : run A :=
  emit (EBranch b) ;;~ if b then x else y.
Definition t_assert (b : bool) : run unit := ([EBranch b], rassert b).

(** src/modulus.rs:37-47 [lazy_reduce_ct] *)
Definition t_lazy_reduce_ct (m : Modulus) (a : Z) : run Z :=
  lo <~ t_mul128 a (barret_lo m) ;~
  low <~ t_shr128 lo 64 ;~
  high <~ t_mul128 a (barret_hi m) ;~
  s <~ t_add128 high low ;~
  num <~ t_shr128 s 64 ;~
  np <~ t_mul128 num (mp m) ;~
  val <~ t_sub128 a np ;~
  t_as64 val.

(** src/modulus.rs:49-62 [lazy_reduce_u128] *)
Definition t_lazy_reduce_u128 (m : Modulus) (a : Z) : run Z :=
  alo <~ t_as64 a ;~
  ahi0 <~ t_shr128 a 64 ;~
  ahi <~ t_as64 ahi0 ;~
  alo_lo0 <~ t_mul128 alo (barret_lo m) ;~
  alo_lo <~ t_shr128 alo_lo0 64 ;~
  alo_hi <~ t_mul128 alo (barret_hi m) ;~
  ahi_lo <~ t_mul128 ahi (barret_lo m) ;~
  ahi_hi <~ t_mul128 ahi (barret_hi m) ;~
  s1 <~ t_add128 alo_hi ahi_lo ;~
  s2 <~ t_add128 s1 alo_lo ;~
  s3 <~ t_shr128 s2 64 ;~
  num <~ t_add128 s3 ahi_hi ;~
  np <~ t_mul128 num (mp m) ;~
  val <~ t_sub128 a np ;~
  t_as64 val.

(** src/modulus.rs:72-87 [reduce_ct] *)
Definition t_reduce_ct (x p : Z) : run Z :=
  y <~ t_sub64 x p ;~
  xp <~ t_xor x p ;~
  yp <~ t_xor y p ;~
  xy <~ t_xor xp yp ;~
  xxy0 <~ t_xor x xy ;~
  xxy <~ t_shr64 xxy0 63 ;~
  c <~ t_sub64 xxy 1 ;~
  cy <~ t_and c y ;~
  notc <~ t_not c ;~
  cx <~ t_and notc x ;~
  t_or cy cx.

(** src/modulus.rs:89-95 [reduce], [reduce_u128] *)
Definition t_reduce (m : Modulus) (a : Z) : run Z :=
  l <~ t_lazy_reduce_ct m a ;~ t_reduce_ct l (mp m).
Definition t_reduce_u128 (m : Modulus) (a : Z) : run Z :=
  l <~ t_lazy_reduce_u128 m a ;~ t_reduce_ct l (mp m).

(** src/modulus.rs:103-105 [reduce_i64]; the sum of i128 values does not
    overflow (see MModulus.v). *)
Definition t_reduce_i64 (m : Modulus) (a : Z) : run Z :=
  h <~ t_shl128 (mp m) 64 ;~
  s <~ wd OAdd128 (h + a) ;~
  u <~ t_as128 s ;~
  t_reduce_u128 m u.

(** src/modulus.rs:169-191 [add], [sub], [mul], [neg] *)
Definition t_add (m : Modulus) (a b : Z) : run Z :=
  s <~ t_add64 a b ;~ t_reduce_ct s (mp m).
Definition t_sub (m : Modulus) (a b : Z) : run Z :=
  d <~ t_sub64 (mp m) b ;~ s <~ t_add64 a d ;~ t_reduce_ct s (mp m).
Definition t_mul (m : Modulus) (a b : Z) : run Z :=
  ab <~ t_mul128 a b ;~ t_reduce_u128 m ab.
Definition t_neg (m : Modulus) (a : Z) : run Z :=
  d <~ t_sub64 (mp m) a ;~ t_reduce_ct d (mp m).

(** src/modulus.rs:134-142, the loop of [pow] *)
Fixpoint t_pow_loop (m : Modulus) (a r : Z) (k : nat) (val : Z) : run Z :=
  match k with
  | O => emit (EBranch false) ;;~ ret val
  | S b =>
      emit (EBranch true) ;;~
      v <~ t_mul m val val ;~
      sh <~ t_shr64 r (Z.of_nat b) ;~
      bit <~ t_and sh 1 ;~
      v' <~ t_if (bit =? 1) (t_mul m v a) (ret v) ;~
      t_pow_loop m a r b v'
  end.

(** src/modulus.rs:122-145 [pow] *)
Definition t_pow (m : Modulus) (a r : Z) : run Z :=
  t_if (r =? 0) (ret 1)
  (t_if (r =? 1) (ret a)
  (lz <~ wd OLz64 (leading_zeros 64 r) ;~
   t_pow_loop m a r (Z.to_nat (62 - lz + 1)) a)).

(** src/modulus.rs:153-156 [inv] *)
Definition t_inv (m : Modulus) (a : Z) : run Z :=
  e <~ t_sub64 (mp m) 2 ;~ t_pow m a e.

(** src/modulus.rs:214-217 [shoup] *)
Definition t_shoup (m : Modulus) (a : Z) : run Z :=
  h <~ t_shl128 a 64 ;~ q <~ t_div h (mp m) ;~ t_as64 q.

(** src/modulus.rs:230-242 [lazy_mul_shoup] and 223-225 [mul_shoup] *)
Definition t_lazy_mul_shoup (m : Modulus) (a b b_shoup : Z) : run Z :=
  ab <~ t_mul128 a b_shoup ;~
  q <~ t_shr128 ab 64 ;~
  ab' <~ t_mul128 a b ;~
  qp <~ t_mul128 q (mp m) ;~
  d <~ t_sub128 ab' qp ;~
  t_as64 d.
Definition t_mul_shoup (m : Modulus) (a b b_shoup : Z) : run Z :=
  l <~ t_lazy_mul_shoup m a b b_shoup ;~ t_reduce_ct l (mp m).

(** Iterators over a slice: whether another element is there is a decision;
    [i] is the index of the next element. *)
Fixpoint t_map (f : Z -> run Z) (i : nat) (l : list Z) : run (list Z) :=
  match l with
  | [] => emit (EBranch false) ;;~ ret []
  | x :: l' =>
      emit (EBranch true) ;;~ emit (ERead 0 i) ;;~
      y <~ f x ;~
      emit (EWrite i) ;;~
      ys <~ t_map f (S i) l' ;~
      ret (y :: ys)
  end.
Fixpoint t_zip (f : Z -> Z -> run Z) (i : nat) (a b : list Z) : run (list Z) :=
  match a, b with
  | x :: a', y :: b' =>
      emit (EBranch true) ;;~ emit (ERead 0 i) ;;~ emit (ERead 1 i) ;;~
      x' <~ f x y ;~
      emit (EWrite i) ;;~
      r <~ t_zip f (S i) a' b' ;~
      ret (x' :: r)
  | _, _ => emit (EBranch false) ;;~ ret a
  end.

(** src/modulus.rs:107-113 [reduce_vec_u64], [reduce_vec_i64] *)
Definition t_reduce_vec_u64 (m : Modulus) (a : list Z) := t_map (t_reduce m) 0 a.
Definition t_reduce_vec_i64 (m : Modulus) (a : list Z) := t_map (t_reduce_i64 m) 0 a.
(** src/modulus.rs:193-207 [add_vec], [sub_vec], [mul_vec], [neg_vec] *)
Definition t_add_vec (m : Modulus) (a b : list Z) := t_zip (t_add m) 0 a b.
Definition t_sub_vec (m : Modulus) (a b : list Z) := t_zip (t_sub m) 0 a b.
Definition t_mul_vec (m : Modulus) (a b : list Z) := t_zip (t_mul m) 0 a b.
Definition t_neg_vec (m : Modulus) (a : list Z) := t_map (t_neg m) 0 a.
(** src/modulus.rs:162-167 [scalar_mul_vec] *)
Definition t_scalar_mul_vec (m : Modulus) (a : list Z) (b : Z) : run (list Z) :=
  b_shoup <~ t_shoup m b ;~
  t_map (fun ai => t_lazy_mul_shoup m ai b b_shoup) 0 a.

(** A loop over a range: one decision per round and one at its end. *)
Fixpoint t_fold {A B} (f : B -> A -> run B) (l : list A) (b : B) : run B :=
  match l with
  | [] => emit (EBranch false) ;;~ ret b
  | x :: l' => emit (EBranch true) ;;~ b' <~ f b x ;~ t_fold f l' b'
  end.

(** src/ntt.rs:163-176 [butterfly] *)
Definition t_butterfly (op : NttOp) (x y w w_shoup : Z) : run (Z * Z) :=
  x1 <~ t_reduce_ct x (nt_p_twice op) ;~
  t <~ t_lazy_mul_shoup (nt_p op) y w w_shoup ;~
  xp <~ t_add64 x1 (nt_p_twice op) ;~
  y1 <~ t_sub64 xp t ;~
  x2 <~ t_add64 x1 t ;~
  ret (x2, y1).

(** src/ntt.rs:178-192 [butterfly_inv] *)
Definition t_butterfly_inv (op : NttOp) (x y z_inv z_inv_shoup : Z) : run (Z * Z) :=
  yt <~ t_add64 y x ;~
  x1 <~ t_reduce_ct yt (nt_p_twice op) ;~
  pt <~ t_add64 (nt_p_twice op) x ;~
  d <~ t_sub64 pt y ;~
  y1 <~ t_lazy_mul_shoup (nt_p op) d z_inv z_inv_shoup ;~
  ret (x1, y1).

(** src/ntt.rs:241-245 [reduce_4p] *)
Definition t_reduce_4p (a : Z) (p : Modulus) : run Z :=
  p2 <~ t_mul64 2 (mp p) ;~
  r <~ t_reduce_ct a p2 ;~
  t_reduce_ct r (mp p).

(** src/ntt.rs:105-110, 140-145: a butterfly on cells [j1] and [j2] *)
Definition t_bf_at (bf : Z -> Z -> run (Z * Z)) (a : list Z) (j1 j2 : nat)
  : run (list Z) :=
  x <~ t_getu 0 a j1 ;~
  y <~ t_getu 0 a j2 ;~
  '(x', y') <~ bf x y ;~
  a1 <~ t_setu a j1 x' ;~
  t_setu a1 j2 y'.

(** src/ntt.rs:88-114: one block of the forward transform *)
Definition t_fwd_block (op : NttOp) (l : nat) (st : list Z * nat) (i : nat)
  : run (list Z * nat) :=
  let '(a, k) := st in
  omega <~ t_getu 1 (nt_omegas op) k ;~
  omega_shoup <~ t_getu 2 (nt_omegas_shoup op) k ;~
  let s := (2 * i * l)%nat in
  t_if (l =? 1)%nat
   (a1 <~ t_bf_at (fun x y => t_butterfly op x y omega omega_shoup) a s (s + 1) ;~
    u <~ t_getu 0 a1 s ;~
    u' <~ t_reduce_4p u (nt_p op) ;~
    a2 <~ t_setu a1 s u' ;~
    v <~ t_getu 0 a2 (s + 1) ;~
    v' <~ t_reduce_4p v (nt_p op) ;~
    a3 <~ t_setu a2 (s + 1) v' ;~
    ret (a3, S k))
   (a1 <~ t_fold (fun a j => t_bf_at (fun x y => t_butterfly op x y omega omega_shoup) a j (j + l))
                 (seq s l) a ;~
    ret (a1, S k)).

(** src/ntt.rs:86-119: the layers of the forward transform *)
Fixpoint t_fwd_loop (op : NttOp) (fuel : nat) (l m k : nat) (a : list Z)
  : run (list Z) :=
  if (l =? 0)%nat then emit (EBranch false) ;;~ ret a
  else match fuel with
       | O => ([], NoFuel)
       | S f =>
           emit (EBranch true) ;;~
           '(a', k') <~ t_fold (t_fwd_block op l) (seq 0 m) (a, k) ;~
           t_fwd_loop op f (Nat.div2 l) (2 * m) k' a'
       end.

(** src/ntt.rs:77-120 [forward] *)
Definition t_forward (op : NttOp) (a : list Z) : run (list Z) :=
  t_assert (length a =? nt_size op)%nat ;;~
  t_fwd_loop op 64 (Nat.div2 (nt_size op)) 1 1 a.

(** src/ntt.rs:133-147: one block of the backward transform *)
Definition t_bwd_block (op : NttOp) (l : nat) (st : list Z * nat) (i : nat)
  : run (list Z * nat) :=
  let '(a, k) := st in
  let s := (2 * i * l)%nat in
  zeta_inv <~ t_getu 1 (nt_zetas_inv op) k ;~
  zeta_inv_shoup <~ t_getu 2 (nt_zetas_inv_shoup op) k ;~
  a1 <~ t_fold (fun a j => t_bf_at (fun x y => t_butterfly_inv op x y zeta_inv zeta_inv_shoup) a j (j + l))
               (seq s l) a ;~
  ret (a1, S k).

(** src/ntt.rs:131-151 *)
Fixpoint t_bwd_loop (op : NttOp) (fuel : nat) (m l k : nat) (a : list Z)
  : run (list Z) :=
  if (m =? 0)%nat then emit (EBranch false) ;;~ ret a
  else match fuel with
       | O => ([], NoFuel)
       | S f =>
           emit (EBranch true) ;;~
           '(a', k') <~ t_fold (t_bwd_block op l) (seq 0 m) (a, k) ;~
           t_bwd_loop op f (Nat.div2 m) (2 * l) k' a'
       end.

(** src/ntt.rs:122-156 [backward] *)
Definition t_backward (op : NttOp) (a : list Z) : run (list Z) :=
  t_assert (length a =? nt_size op)%nat ;;~
  a1 <~ t_bwd_loop op 64 (Nat.div2 (nt_size op)) 1 0 a ;~
  t_map (fun x => t_mul_shoup (nt_p op) x (nt_size_inv op) (nt_size_inv_shoup op)) 0 a1.
