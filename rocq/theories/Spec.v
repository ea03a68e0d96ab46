(** Independent specification vocabulary.  Nothing here refers to the model. *)
From Verif Require Import Base.

(** sum_{i < n} f i *)
Fixpoint sumn (n : nat) (f : nat -> Z) : Z :=
  match n with
  | O => 0
  | S k => sumn k f + f k
  end.

(** Integer polynomials are functions [nat -> Z] (coefficient of X^i).
    [mono n k e] is the coefficient of X^k in X^e modulo X^n + 1. *)
Definition mono (n k e : nat) : Z :=
  if (e mod n =? k)%nat then (if Nat.even (e / n) then 1 else -1) else 0.

(** Product in Z[X]/(X^n+1). *)
Definition rmul (n : nat) (f g : nat -> Z) (k : nat) : Z :=
  sumn n (fun i => sumn n (fun j => f i * g j * mono n k (i + j))).

(** Image of f under X -> X^e in Z[X]/(X^n+1). *)
Definition rsubst (n e : nat) (f : nat -> Z) (k : nat) : Z :=
  sumn n (fun i => f i * mono n k (i * e)).

(** Value of a bit string stream: bit i of the concatenation of 64-bit words. *)
Definition stream_bit (w : nat -> Z) (i : nat) : Z :=
  if Z.testbit (w (i / 64)%nat) (Z.of_nat (i mod 64)) then 1 else 0.

(** Congruent coefficient by coefficient modulo Q below degree n. *)
Definition peq (n : nat) (Q : Z) (f g : nat -> Z) : Prop :=
  forall k, (k < n)%nat -> f k mod Q = g k mod Q.

(** Exact product of a list of integers. *)
Definition zprod (l : list Z) : Z := fold_right Z.mul 1 l.

(** Representative of x modulo Q in [-Q/2, Q/2). *)
Definition centred (Q x : Z) : Z :=
  let r := x mod Q in if 2 * r <? Q then r else r - Q.

(** Reversal of the low k bits of i. *)
Fixpoint bitrev (k i : nat) : nat :=
  match k with
  | O => 0
  | S k' => (i mod 2) * 2 ^ k' + bitrev k' (i / 2)
  end.

(** Evaluation of a polynomial with n coefficients at y. *)
Definition peval (n : nat) (f : nat -> Z) (y : Z) : Z :=
  sumn n (fun k => f k * y ^ Z.of_nat k).

(** The moduli leave room for scaling by N/D: every modulus times their number is
    at most 2^L.  For L = 65 (up to 8 moduli below 2^62) any factor will do,
    beyond that the product of the moduli times N must be a multiple of D. *)
Definition scale_room (L N D : Z) (ms : list Z) : Prop :=
  65 <= L <= 94 /\ (forall q, In q ms -> q * Z.of_nat (length ms) <= 2 ^ L) /\ (L = 65 \/ (D | N * zprod ms)).
