(** Execution model shared by all model files (no /repo code is modelled here,
    only the Rust semantics the code relies on). *)
From Coq Require Export ZArith List Bool.
Export ListNotations.
Open Scope Z_scope.

(** Build profile: a Debug build checks integer overflow and runs
    [debug_assert!]; a Release build wraps and skips them. *)
Inductive profile := Debug | Release.

(** Result of running a Rust function. *)
Inductive outcome (A : Type) : Type :=
| Ok (a : A)      (* normal return *)
| Panic           (* any Rust panic *)
| UB              (* out-of-bounds access inside an unsafe block *)
| NoFuel.         (* the model's bound on a while loop was exhausted *)
Arguments Ok {A} a.
Arguments Panic {A}.
Arguments UB {A}.
Arguments NoFuel {A}.

Definition bind {A B} (x : outcome A) (f : A -> outcome B) : outcome B :=
  match x with
  | Ok a => f a
  | Panic => Panic
  | UB => UB
  | NoFuel => NoFuel
  end.

Notation "x <- e ;; k" := (bind e (fun x => k))
  (at level 61, e at next level, right associativity).
Notation "' p <- e ;; k" := (bind e (fun p => k))
  (at level 61, p pattern, e at next level, right associativity).
Notation "e ;;; k" := (bind e (fun _ => k))
  (at level 61, right associativity).

(** [assert!] *)
Definition rassert (b : bool) : outcome unit := if b then Ok tt else Panic.
(** [debug_assert!] *)
Definition dassert (pr : profile) (b : bool) : outcome unit :=
  match pr with Debug => rassert b | Release => Ok tt end.
(** [Option::unwrap] *)
Definition unwrap {A} (o : option A) : outcome A :=
  match o with Some a => Ok a | None => Panic end.

Notation W63  := 9223372036854775808 (only parsing).
Notation W64  := 18446744073709551616 (only parsing).
Notation W128 := 340282366920938463463374607431768211456 (only parsing).
Notation W192 := 6277101735386680763835789423207666416102355444464034512896 (only parsing).
Notation W256 := 115792089237316195423570985008687907853269984665640564039457584007913129639936 (only parsing).

(** An unsigned machine result: exact inside [0,w); outside it a Debug build
    panics and a Release build wraps. *)
Definition chk (pr : profile) (w x : Z) : outcome Z :=
  if (0 <=? x) && (x <? w) then Ok x
  else match pr with Debug => Panic | Release => Ok (x mod w) end.

Definition add64 pr (a b : Z) := chk pr W64 (a + b).
Definition sub64 pr (a b : Z) := chk pr W64 (a - b).
Definition mul64 pr (a b : Z) := chk pr W64 (a * b).
Definition add128 pr (a b : Z) := chk pr W128 (a + b).
Definition sub128 pr (a b : Z) := chk pr W128 (a - b).
Definition mul128 pr (a b : Z) := chk pr W128 (a * b).
(** [x as u64], [x as u128] *)
Definition as64 (x : Z) : Z := x mod W64.
Definition as128 (x : Z) : Z := x mod W128.
(** [BigUint::to_u64] *)
Definition to_u64 (x : Z) : option Z :=
  if (0 <=? x) && (x <? W64) then Some x else None.
Definition to_u128 (x : Z) : option Z :=
  if (0 <=? x) && (x <? W128) then Some x else None.
(** Integer division: panics on a zero divisor. *)
Definition udiv (a b : Z) : outcome Z := if b =? 0 then Panic else Ok (a / b).
Definition umod (a b : Z) : outcome Z := if b =? 0 then Panic else Ok (a mod b).

(** [leading_zeros] of a [w]-bit word and the bit length. *)
Definition bitlen (x : Z) : Z := if x =? 0 then 0 else Z.log2 x + 1.
Definition leading_zeros (w x : Z) : Z := w - bitlen x.

(** [reverse_bits] of a [w]-bit word. *)
Fixpoint rev_bits (w : nat) (x : Z) : Z :=
  match w with
  | O => 0
  | S w' => (x mod 2) * 2 ^ Z.of_nat w' + rev_bits w' (x / 2)
  end.

(** [count_ones] of a [w]-bit word. *)
Fixpoint popcount (w : nat) (x : Z) : Z :=
  match w with
  | O => 0
  | S w' => x mod 2 + popcount w' (x / 2)
  end.

(** Iteration. *)
Fixpoint foldM {A B} (f : B -> A -> outcome B) (l : list A) (b : B) : outcome B :=
  match l with
  | [] => Ok b
  | x :: l' => b' <- f b x ;; foldM f l' b'
  end.

Fixpoint mapM {A B} (f : A -> outcome B) (l : list A) : outcome (list B) :=
  match l with
  | [] => Ok []
  | x :: l' => y <- f x ;; ys <- mapM f l' ;; Ok (y :: ys)
  end.

(** [izip!(a.iter_mut(), b.iter())] with an in-place update of [a]:
    stops at the shorter sequence, the tail of [a] is untouched. *)
Fixpoint zipM_upd {A B} (f : A -> B -> outcome A) (a : list A) (b : list B)
  : outcome (list A) :=
  match a, b with
  | x :: a', y :: b' => x' <- f x y ;; r <- zipM_upd f a' b' ;; Ok (x' :: r)
  | _, _ => Ok a
  end.

(** [izip!(a, b).map(f).collect()]: stops at the shorter sequence. *)
Fixpoint zipM {A B C} (f : A -> B -> outcome C) (a : list A) (b : list B)
  : outcome (list C) :=
  match a, b with
  | x :: a', y :: b' => c <- f x y ;; r <- zipM f a' b' ;; Ok (c :: r)
  | _, _ => Ok []
  end.

(** Loop with up to [2^k] iterations (binary fuel): [step] returns either the
    next state or the final result. *)
Fixpoint iter2 {S R} (k : nat) (step : S -> S + R) (s : S) : S + R :=
  match k with
  | O => step s
  | Datatypes.S k' =>
      match iter2 k' step s with
      | inr r => inr r
      | inl s' => iter2 k' step s'
      end
  end.

(** Array element update; out-of-range indices leave the list unchanged (the
    callers below check the range first). *)
Fixpoint upd {A} (l : list A) (i : nat) (v : A) : list A :=
  match l, i with
  | [], _ => []
  | _ :: l', O => v :: l'
  | x :: l', S i' => x :: upd l' i' v
  end.

(** [a[i]] and [a[i] = v] on a slice (panic when out of range). *)
Definition get {A} (l : list A) (i : nat) : outcome A :=
  match nth_error l i with Some v => Ok v | None => Panic end.
Definition set {A} (l : list A) (i : nat) (v : A) : outcome (list A) :=
  if (i <? length l)%nat then Ok (upd l i v) else Panic.
(** The same through [get_unchecked] / a raw pointer. *)
Definition getu {A} (l : list A) (i : nat) : outcome A :=
  match nth_error l i with Some v => Ok v | None => UB end.
Definition setu {A} (l : list A) (i : nat) (v : A) : outcome (list A) :=
  if (i <? length l)%nat then Ok (upd l i v) else UB.

(** [&a[..k]] (panics when k exceeds the length). *)
Definition slice_to {A} (l : list A) (k : nat) : outcome (list A) :=
  if (k <=? length l)%nat then Ok (firstn k l) else Panic.

(** [dst[..src.len()].copy_from_slice(src)] *)
Definition copy_prefix {A} (dst src : list A) : outcome (list A) :=
  if (length src <=? length dst)%nat then Ok (src ++ skipn (length src) dst)
  else Panic.

(** [slice::chunks(k)] (k > 0). [fuel] is the length of the list. *)
Fixpoint chunks_fuel {A} (fuel k : nat) (l : list A) : list (list A) :=
  match fuel with
  | O => []
  | S f => match l with
           | [] => []
           | _ => firstn k l :: chunks_fuel f k (skipn k l)
           end
  end.
Definition chunks {A} (k : nat) (l : list A) : outcome (list (list A)) :=
  if (k =? 0)%nat then Panic else Ok (chunks_fuel (length l) k l).

Fixpoint zlist_eqb (a b : list Z) : bool :=
  match a, b with
  | [], [] => true
  | x :: a', y :: b' => (x =? y) && zlist_eqb a' b'
  | _, _ => false
  end.
