(** Property theorems; the proofs are in QTrace2.v. *)
From Verif Require Import PBase MModulus MUtils MNtt MRns MRq MBfv MKsk MGalois MTrace MTrace2 SpecTrace SpecTrace2 QTrace TestEnv TestBfv QTrace2.

(** Recording the steps of a Release build changes no result. *)
Theorem C95_values : forall (P : BfvParams) (sk : SecretKey) (m : Plaintext) (p c0 c1 : Poly) (ctx : RqContext)
    (rows : list (list Z)) (w : nat -> Z) (n l l' : nat) (v : Z) (rep : repr) (rnd : RndKsk) (ct : Ct),
  snd (t_sample_vec_cbd n v w) = sample_vec_cbd Release n v w /\
  snd (t_random_small ctx rep v w) = poly_random_small Release ctx rep v w /\
  snd (t_change_repr p rep) = change_repr Release p rep /\
  snd (t_poly_add c0 c1) = poly_add Release c0 c1 /\
  snd (t_poly_sub c0 c1) = poly_sub Release c0 c1 /\
  snd (t_poly_mul c0 c1) = poly_mul Release c0 c1 /\
  snd (t_sk_generate P w) = sk_generate Release P w /\
  snd (t_to_poly m) = pt_to_poly Release m /\
  snd (t_encrypt sk m rows w) = encrypt Release sk m rows w /\
  snd (t_decrypt_trial sk c0 c1) = decrypt_trial Release sk c0 c1 /\
  snd (t_ksk_new sk p l l' rnd) = ksk_new Release sk p l l' rnd /\
  snd (t_rlk_new sk l rnd) = rlk_new Release sk l rnd /\
  (phase <- snd (t_decrypt_phase sk ct) ;;
   sc <- get (bp_scalars (sk_params sk)) (ct_level ct) ;;
   m2 <- rq_scale Release sc phase ;;
   row0 <- get (p_rows m2) 0 ;;
   v1 <- mapM (fun a => add64 Release a (bp_t (sk_params sk))) row0 ;;
   v2 <- slice_to v1 (bp_degree (sk_params sk)) ;;
   qc <- get (bp_q_ctxs (sk_params sk)) (ct_level ct) ;;
   q <- get (rq_moduli qc) 0 ;;
   v3 <- reduce_vec_u64 Release q v2 ;;
   tm <- modulus_new (bp_t (sk_params sk)) ;;
   v4 <- reduce_vec_u64 Release tm v3 ;;
   Ok (mkPt (sk_params sk) (ct_level ct) EncNone v4)) = decrypt Release sk ct.
Proof. exact C95_values_lem. Qed.
Print Assumptions C95_values.

(** Sampling small vectors and secret keys: the steps do not depend on what the generator returns. *)
Theorem C95_sampling : forall (P : BfvParams) (ctx : RqContext) (rep : repr) (n : nat) (v : Z) (w w' : nat -> Z),
  looks_same (t_sample_vec_cbd n v w) (t_sample_vec_cbd n v w') /\
  looks_same (t_random_small ctx rep v w) (t_random_small ctx rep v w') /\
  looks_same (t_sk_generate P w) (t_sk_generate P w').
Proof. exact C95_sampling_lem. Qed.
Print Assumptions C95_sampling.

(** Encryption: the steps depend neither on the message, nor on the key, nor on the randomness. *)
Theorem C95_encryption : forall (sk sk' : SecretKey) (m m' : Plaintext) (p p' : Poly) (rows rows' : list (list Z)) (w w' : nat -> Z),
  keys_alike sk sk' -> same_rows rows rows' ->
  (pts_alike m m' -> looks_same (t_to_poly m) (t_to_poly m') /\
                     looks_same (t_encrypt sk m rows w) (t_encrypt sk' m' rows' w')) /\
  (alike p p' -> looks_same (t_encrypt_poly sk p rows w) (t_encrypt_poly sk' p' rows' w')).
Proof. exact C95_encryption_lem. Qed.
Print Assumptions C95_encryption.

(** Decryption up to the scaling of the phase: the steps depend neither on the key nor on the ciphertext. *)
Theorem C95_phase : forall (sk sk' : SecretKey) (c0 c0' c1 c1' : Poly) (ct ct' : Ct),
  keys_alike sk sk' ->
  (alike c0 c0' -> alike c1 c1' -> looks_same (t_decrypt_trial sk c0 c1) (t_decrypt_trial sk' c0' c1')) /\
  (Forall2 alike (ct_cts ct) (ct_cts ct') -> looks_same (t_decrypt_phase sk ct) (t_decrypt_phase sk' ct')).
Proof. exact C95_phase_lem. Qed.
Print Assumptions C95_phase.

(** Key-switching and relinearisation keys: the steps do not depend on the secrets. *)
Theorem C95_keys : forall (sk sk' : SecretKey) (from from' : Poly) (l l' : nat) (rnd rnd' : RndKsk),
  keys_alike sk sk' -> rnds_alike rnd rnd' ->
  (alike from from' -> looks_same (t_ksk_new sk from l l' rnd) (t_ksk_new sk' from' l l' rnd')) /\
  looks_same (t_rlk_new sk l rnd) (t_rlk_new sk' l rnd').
Proof. exact C95_keys_lem. Qed.
Print Assumptions C95_keys.

(** Two encryptions of different messages under different keys with different
    randomness run through equally many steps and decisions and give different
    ciphertexts. *)
Example C95_example :
  (P <- test_bfv Release ;;
   let sk := mkSk P [1; -1; 0; 1; 1; 0; 2; -1] in let sk' := mkSk P [0; 1; 1; -1; 2; 0; 0; 1] in
   pa <- pt_new Release P [2; 3; 0; 0; 0; 0; 0; 0] 0 EncPoly ;; pb <- pt_new Release P [9; 16; 1; 4; 0; 5; 0; 12] 0 EncPoly ;;
   let x := t_encrypt sk pa (trows bms 4) (tw 5) in let y := t_encrypt sk' pb (trows bms 6) (tw 7) in
   a <- snd x ;; b <- snd y ;;
   let taken t := Z.of_nat (length (filter (fun e => match e with EBranch true => true | _ => false end) t)) in
   Ok (Z.of_nat (length (fst x)), Z.of_nat (length (fst y)), taken (fst x), taken (fst y),
       existsb (fun pq => fst pq =? snd pq) (combine (hd [] (flat_map p_rows (ct_cts a))) (hd [] (flat_map p_rows (ct_cts b))))))
  = Ok (6364, 6364, 302, 302, false).
Proof. vm_compute. reflexivity. Qed.
(** A sampler that tests the bits one by one is told apart: its steps show the sample. *)
Example C95_naive_ex :
  let naive := fun x : Z => t_if (Z.testbit x 0) (t_sub64 1 0) (ret 0) in
  snd (naive 3) = Ok 1 /\ snd (naive 2) = Ok 0 /\ ~ looks_same (naive 3) (naive 2).
Proof. cbv zeta. split; [vm_compute; reflexivity|]. split; [vm_compute; reflexivity|]. intros [H _]. vm_compute in H. discriminate H. Qed.
