(** What it means that a run gives nothing away about its data (C93). *)
From Verif Require Import Base MModulus MUtils MNtt MTrace.

(** Two runs look the same: the same steps, and they end the same way. *)
Definition looks_same {A B} (x : run A) (y : run B) : Prop :=
  fst x = fst y /\
  match snd x, snd y with
  | Ok _, Ok _ => True
  | Panic, Panic => True
  | UB, UB => True
  | NoFuel, NoFuel => True
  | _, _ => False
  end.

(** No decision, no array access, no division among the steps. *)
Definition straight {A} (x : run A) : Prop :=
  Forall (fun e => match e with EOp _ => True | _ => False end) (fst x).

(** The tables of two transforms have the same lengths. *)
Definition same_shape (o o' : NttOp) : Prop :=
  nt_size o = nt_size o' /\
  length (nt_omegas o) = length (nt_omegas o') /\
  length (nt_omegas_shoup o) = length (nt_omegas_shoup o') /\
  length (nt_zetas_inv o) = length (nt_zetas_inv o') /\
  length (nt_zetas_inv_shoup o) = length (nt_zetas_inv_shoup o').
