(** What it means that an environment draws from given generator words. *)
From Verif Require Import Base Spec MNtt MRand MChaCha.

Definition follows (env : Env) (ws : list Z) : Prop :=
  forall p k x, 0 < p < 2 ^ 64 -> kth_draw p k ws = Ok x -> draw env p k = x.
