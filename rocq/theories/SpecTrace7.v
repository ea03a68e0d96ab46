(** Inputs of a retrieval (C99). *)
From Verif Require Import Base MModulus MUtils MNtt MRns MRq MBfv MKsk MGalois MRgsw MEval MTrace MTrace7 SpecTrace2 SpecTrace6.

(** A position within the bounds of a client. *)
Definition in_bounds (c : Client) (query : list nat) : Prop :=
  (nth 0 query 0 < cl_first_dim c)%nat /\ Forall (fun q => q < cl_dim c)%nat (tl query).

(** The uniform polynomials have the same shapes; the generator words of the
    errors are not related. *)
Definition rnd_like (r r' : RndAll) : Prop :=
  same_rows (ra_rows r) (ra_rows r') /\ rnds_alike (ra_query r) (ra_query r') /\
  (forall i, rnds_alike (ra_gk r i) (ra_gk r' i)) /\ rnds_alike (ra_k0 r) (ra_k0 r') /\ rnds_alike (ra_k1 r) (ra_k1 r').

(** The retrieval without the record of its steps: with a given expansion, with
    the one of the code, and with the powers of X given (src/evaluations.rs:430-460). *)
Definition retrieve_with (unpk : Evaluation -> Ct -> outcome (list Ct)) (P : BfvParams) (c : Client) (sk : SecretKey)
           (db : list Plaintext) (query : list nat) (r : RndAll) : outcome (list Ct) :=
  encoded <- client_encode Release c query (length db) ;;
  cts <- client_query Release sk P (cl_first_dim c) encoded (ra_rows r) (ra_words r) (ra_query r) ;;
  ev <- eval_build Release sk P (ra_gk r) (ra_k0 r) (ra_k1 r) ;;
  s <- server_new Release (cl_first_dim c) (cl_dim c) db P ;;
  server_decode_with Release (unpk ev) s cts ev P.
Definition retrieve := retrieve_with (unpack Release).
Definition retrieve_given (xs : list Poly) := retrieve_with (fun ev ct => unpack_core Release ev ct xs).
