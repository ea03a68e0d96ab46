(** Specification vocabulary for PVW (src/pvw.rs). *)
From Verif Require Import Base Spec MPvw.

(** r rows of d residues modulo q. *)
Definition matrix (q : Z) (r d : nat) (x : list (list Z)) : Prop :=
  length x = r /\ forall i, (i < r)%nat -> length (nth i x []) = d /\ forall j, (j < d)%nat -> 0 <= nth j (nth i x []) 0 < q.

Definition bits (k : nat) (l : list Z) : Prop := length l = k /\ forall i, (i < k)%nat -> nth i l 0 = 0 \/ nth i l 0 = 1.

(** Integer inner product of the first d entries. *)
Definition dot (d : nat) (x y : list Z) : Z := sumn d (fun j => nth j x 0 * nth j y 0).

(** Accumulated error of message slot l: the errors selected by the bits e. *)
Definition pvw_error (P : PvwParams) (errs : nat -> list Z) (e : list Z) (l : nat) : Z :=
  sumn (pv_m P) (fun i => nth i e 0 * nth i (errs l) 0).

(** Rounding of a residue to a bit. *)
Definition pvw_round (q v : Z) : Z := ((v + q / 4) / (q / 2)) mod 2.
