(** Specification vocabulary for the default parameters (C68). *)
From Coq Require Import Sorted Znumtheory.
From Verif Require Import Base MModulus MUtils MNtt MRns MRq MBfv MKsk MGalois MRgsw MCirc Spec SpecRq SpecBfv SpecKsk SpecCirc.

(** [l] lists the largest 62-bit primes that are 1 modulo 2n, in decreasing order. *)
Definition largest_primes (n : nat) (l : list Z) : Prop :=
  StronglySorted (fun a b => b < a) l /\ Forall (ntt_prime 62 n) l
  /\ forall x, ntt_prime 62 n x -> last l 0 <= x -> In x l.

(** The primality test is exact and the generator draws below its bound. *)
Definition env_exact (env : Env) : Prop :=
  (forall x, 0 <= x < 2 ^ 64 -> (is_prime env x = true <-> prime x)) /\ (forall p k, 0 < p -> 0 <= draw env p k < p).

(** One of the 100 numbers drawn for q is a quadratic non-residue. *)
Definition draws_root (env : Env) (q : Z) : Prop := exists k, (k < 100)%nat /\ draw env q k ^ ((q - 1) / 2) mod q = q - 1.

(** Height of a circuit; indices in range and plain operands below t. *)
Fixpoint height (e : circ) : nat :=
  match e with
  | Input _ => 0
  | Plus a b | Minus a b | Times a b => S (Nat.max (height a) (height b))
  | TimesPt a _ | TimesInt a _ | Rotate a _ | Select a _ => S (height a)
  end.
Fixpoint cplain (t : Z) (d : CData) (e : circ) : Prop :=
  match e with
  | Input k => (k < length (cd_in d))%nat
  | Plus a b | Minus a b | Times a b => cplain t d a /\ cplain t d b
  | TimesPt a k => cplain t d a /\ (k < length (cd_pt d))%nat /\ Forall (fun x => 0 <= x < t) (nth k (cd_pt d) [])
  | TimesInt a z => cplain t d a /\ Z.abs z < t
  | Rotate a k => cplain t d a /\ (k < length (cd_rot d))%nat
  | Select a k => cplain t d a /\ (k < length (cd_sel d))%nat /\ Forall (fun x => 0 <= x < t) (nth k (cd_sel d) [])
  end.
