(** Vocabulary for C98. *)
From Verif Require Import Base MPvw SpecPvw.

(** Ciphertexts with equally many entries. *)
Definition like_ct (c c' : PvwCt) : Prop :=
  length (pc_a c) = length (pc_a c') /\ length (pc_b c) = length (pc_b c').

(** Matrices with rows of equal lengths. *)
Definition like_mat (x y : list (list Z)) : Prop := Forall2 (fun r s => length r = length s) x y.

(** n, respectively ell residues modulo q. *)
Definition residues (q : Z) (d : nat) (x : list Z) : Prop :=
  length x = d /\ forall i, (i < d)%nat -> 0 <= nth i x 0 < q.
Definition well_ct (P : PvwParams) (c : PvwCt) : Prop :=
  residues (pv_q P) (pv_n P) (pc_a c) /\ residues (pv_q P) (pv_ell P) (pc_b c).

(** Slot l before rounding: half the modulus times the bit, plus the error. *)
Definition noisy_slot (P : PvwParams) (sk : list (list Z)) (c : PvwCt) (l : nat) : Z :=
  (nth l (pc_b c) 0 - dot (pv_n P) (nth l sk []) (pc_a c)) mod pv_q P.
