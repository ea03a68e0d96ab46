(** Counting over lists of generator words. *)
From Verif Require Import Base Spec SpecProb MRq.

(** N uniform words, made of 64*N equally likely bits. *)
Definition words (N : nat) (bits : list bool) : list Z := map (words_of bits) (seq 0 N).

(** Which values a sampler returned, whatever words it left. *)
Definition gives {A B} (o : outcome (A * B)) (test : A -> bool) : bool :=
  match o with Ok (x, _) => test x | _ => false end.
Definition vec_is (xs : list Z) (v : list Z) : bool := zlist_eqb v xs.
Fixpoint rows_eqb (a b : list (list Z)) : bool :=
  match a, b with
  | [], [] => true
  | x :: a', y :: b' => zlist_eqb x y && rows_eqb a' b'
  | _, _ => false
  end.
Definition rows_are (rows : list (list Z)) (p : Poly) : bool := rows_eqb (p_rows p) rows.
