(** Specification vocabulary for addressing database entries (src/client.rs:1-8). *)
From Verif Require Import Base.

(** The query vector of a database position, by the iterated division documented in
    src/client.rs:1-8: remainder and quotient by the first dimension, then by the
    size of each further one. *)
Fixpoint digits (dim k ix : nat) : list nat :=
  match k with O => [] | S k' => (ix mod dim)%nat :: digits dim k' (ix / dim) end.
Definition address (first dim k ix : nat) : list nat := (ix mod first)%nat :: digits dim k (ix / first).
