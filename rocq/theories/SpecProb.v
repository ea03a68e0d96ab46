(** Counting over the bits of a random generator (each list of m bits stands for
    one of the 2^m equally likely outcomes). *)
From Verif Require Import Base Spec.

(** Sum of [f] over all lists of [m] bits. *)
Fixpoint sumb (m : nat) (f : list bool -> Z) : Z :=
  match m with
  | O => f []
  | S m' => sumb m' (fun l => f (false :: l)) + sumb m' (fun l => f (true :: l))
  end.

(** The number of lists of [m] bits with a property. *)
Definition countb (m : nat) (p : list bool -> bool) : Z := sumb m (fun l => if p l then 1 else 0).

(** The generator words made of these bits, 64 per word, lowest first; zero
    when the bits are used up. *)
Fixpoint bits_num (l : list bool) : Z :=
  match l with [] => 0 | b :: l' => Z.b2z b + 2 * bits_num l' end.
Definition words_of (l : list bool) (k : nat) : Z := bits_num (firstn 64 (skipn (64 * k) l)).

(** Binomial coefficients, zero outside the triangle. *)
Fixpoint binom (n : nat) (k : Z) : Z :=
  match n with
  | O => if k =? 0 then 1 else 0
  | S n' => binom n' (k - 1) + binom n' k
  end.

Fixpoint prodl (l : list Z) : Z := match l with [] => 1 | x :: l' => x * prodl l' end.

(** The l-th block of M bits: the generator outcome of the l-th independent stream. *)
Definition block (M l : nat) (bits : list bool) : list bool := firstn M (skipn (l * M) bits).
