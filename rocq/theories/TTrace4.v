(** Property theorems; the proofs are in QTrace4.v. *)
From Verif Require Import PBase MModulus MUtils MNtt MRns MRq MBfv MKsk MGalois MRgsw MTrace MTrace2 MTrace4 SpecTrace SpecTrace2 QTrace QTrace2 TestEnv TestBfv QTrace4.

(** Recording the steps of a Release build changes no result. *)
Theorem C97_values : forall (sk : SecretKey) (p : Poly) (a : Subst) (m : Plaintext) (l l' : nat) (r r' : RndKsk),
  snd (t_substitute p a) = poly_substitute Release p a /\
  snd (t_galois_new sk a l r) = galois_new Release sk a l r /\
  snd (t_ksk_new_with_pt sk m l l' r) = ksk_new_with_pt Release sk m l l' r /\
  snd (t_rgsw_encrypt_poly sk p r r') = rgsw_encrypt_poly Release sk p r r' /\
  snd (t_rgsw_encrypt sk m r r') = rgsw_encrypt Release sk m r r'.
Proof. exact C97_values_lem. Qed.
Print Assumptions C97_values.

(** Substitution in a secret polynomial and the generation of Galois keys: the steps depend on the exponent and the sizes, not on the key. *)
Theorem C97_galois : forall (sk sk' : SecretKey) (p q : Poly) (a : Subst) (l : nat) (r r' : RndKsk),
  (alike p q -> looks_same (t_substitute p a) (t_substitute q a)) /\
  (keys_alike sk sk' -> rnds_alike r r' -> looks_same (t_galois_new sk a l r) (t_galois_new sk' a l r')).
Proof. exact C97_galois_lem. Qed.
Print Assumptions C97_galois.

(** Key-switching keys for a plaintext and RGSW encryption: the steps depend neither on the key nor on the message nor on the randomness. *)
Theorem C97_rgsw : forall (sk sk' : SecretKey) (m m' : Plaintext) (p p' : Poly) (l l' : nat) (r r' q q' : RndKsk),
  keys_alike sk sk' -> rnds_alike r r' -> rnds_alike q q' ->
  (pts_alike m m' -> looks_same (t_ksk_new_with_pt sk m l l' r) (t_ksk_new_with_pt sk' m' l l' r') /\
                     looks_same (t_rgsw_encrypt sk m r q) (t_rgsw_encrypt sk' m' r' q')) /\
  (alike p p' -> looks_same (t_rgsw_encrypt_poly sk p r q) (t_rgsw_encrypt_poly sk' p' r' q')).
Proof. exact C97_rgsw_lem. Qed.
Print Assumptions C97_rgsw.

(** Substituting [X^3] in two polynomials: the same cells are
    touched in the same order; exponent 5 touches others. *)
Example C97_example :
  (c <- test_ctx Release [1048609] ;;
   a <- poly_from_u64 Release c [1; 2; 3; 4; 5; 6; 7; 8] ;; b <- poly_from_u64 Release c [0; 0; 90; 0; 11; 0; 0; 3] ;;
   s3 <- subst_new Release c 3 ;; s5 <- subst_new Release c 5 ;;
   let writes t := flat_map (fun e => match e with EWrite i => [i] | _ => [] end) t in
   Ok (writes (fst (t_substitute a s3)), writes (fst (t_substitute b s3)), writes (fst (t_substitute a s5))))
  = Ok ([0; 3; 6; 1; 4; 7; 2; 5], [0; 3; 6; 1; 4; 7; 2; 5], [0; 5; 2; 7; 4; 1; 6; 3])%nat.
Proof. vm_compute. reflexivity. Qed.
