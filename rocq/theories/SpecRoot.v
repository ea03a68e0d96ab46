(** Vocabulary for the search of [primitive_root] (src/ntt.rs:211-226). *)
From Verif Require Import Base Spec MNtt MRand MChaCha.

(** The environment whose draws are read off generator words. *)
Definition word_env (ip : Z -> bool) (ws : list Z) : Env :=
  mkEnv ip (fun p k => match kth_draw p k ws with Ok x => x | _ => 0 end).

(** The words are enough for 100 draws below p. *)
Definition completes (p : Z) (ws : list Z) : bool := match kth_draw p 99 ws with Ok _ => true | _ => false end.
Definition panics {A} (o : outcome A) : bool := match o with Panic => true | _ => false end.
