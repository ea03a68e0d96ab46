(** Vocabulary for queries of any content (src/evaluations.rs:109-226). *)
From Verif Require Import Base MModulus MUtils MNtt MRns MRq MBfv MKsk MGalois MRgsw MEval Spec SpecRq SpecBfv SpecKsk SpecEval.

(** A well-formed ciphertext of two components at level 0; nothing is said
    about what it encrypts. *)
Definition query_ct (P : BfvParams) (c : RqContext) (ct : Ct) : Prop :=
  exists r0 r1, ct = mkCt P [mkPoly c Ntt r0; mkPoly c Ntt r1] 0 /\ wf_poly (mkPoly c Ntt r0) /\ wf_poly (mkPoly c Ntt r1).

(** [cts] is a query with the encoding enc: the first ciphertext carries enc with scaled noise at most B0, and the k-th of
    the others the k-th gadget element times its further segments with noise at
    most B1. *)
Definition query_noise (P : BfvParams) (c : RqContext) (s : nat -> Z) (first : nat) (enc : list Z) (cts : list Ct) (B0 B1 : Z) : Prop :=
  exists h0 h1 E b a e, cts = ct_of P 0 c [h0; h1] :: map (fun k => ct_of P 0 c [b k; a k]) (seq 0 (cx_k c))
    /\ carries (rq_degree c) (cx_Q c) (bp_t P) (phase (rq_degree c) s [h0; h1]) (fun j => nth j enc 0) E
    /\ (forall j, (j < rq_degree c)%nat -> Z.abs (E j) <= B0)
    /\ forall k, (k < cx_k c)%nat -> forall j, (j < rq_degree c)%nat ->
         phase (rq_degree c) s [b k; a k] j = nth k (rns_garner (rq_rns c)) 0 * nth (first + j) enc 0 + e k j /\ Z.abs (e k j) <= B1.

(** Scaled noise of the answer to such a query. *)
Definition answer_noise (P : BfvParams) (c : RqContext) (first dim k : nat) (S M B0 B1 : Z) : Z :=
  let t := bp_t P in
  let v := bp_variance P in
  let X := expand_noise P c in
  Z.of_nat first * (Z.of_nat (rq_degree c) * ((B0 + t * X) * M))
  + t * (Z.of_nat k * (Z.of_nat dim *
         (ks_bound c (B1 + X) + ks_bound c (S * (B1 + X) + 2 * ks_bound c (2 * v))))).
