(** Vocabulary for the equality properties: values that the public
    constructors return in a given environment (the same primality test and
    the same seeded draws), in either build profile. *)
From Verif Require Import Base MModulus MNtt MRq MBfv.

Definition made (env : Env) (c : RqContext) : Prop :=
  exists pr ms n bd, rq_new pr env ms n bd = Ok c.

Definition made_params (env : Env) (P : BfvParams) : Prop :=
  exists pr n t ms v bd, bfv_new pr env n t ms v bd = Ok P.
