(** When a retrieval goes through (C99). *)
From Verif Require Import Base MModulus MUtils MNtt MRns MRq MBfv MKsk MGalois MRgsw MEval MTrace MTrace7 SpecRq SpecBfv SpecKsk SpecEval.

(** A key, a database of [first * dim ^ length qs] entries, a position
    [q0 :: qs] and randomness for which C45 gives an answer. *)
Definition goes_through (P : BfvParams) (c : RqContext) (sk : SecretKey) (first dim q0 : nat) (qs : list nat)
           (db : list Plaintext) (r : RndAll) : Prop :=
  sk_params sk = P /\ sk_ok sk
  /\ wf_poly (mkPoly c Ntt (ra_rows r)) /\ (forall k, 0 <= ra_words r k < 2 ^ 64) /\ rnd_ok c (ra_query r)
  /\ (forall i, rnd_ok c (ra_gk r i)) /\ rnd_ok c (ra_k0 r) /\ rnd_ok c (ra_k1 r)
  /\ (q0 < first)%nat /\ Forall (fun q => (q < dim)%nat) qs
  /\ length db = (first * dim ^ length qs)%nat /\ Forall (entry_ok (bp_degree P)) db.
