(** Property theorems; the proofs are in QChaCha.v. *)
From Verif Require Import PBase NT Spec SpecProb SpecRand PSum MModulus MUtils MNtt MRns MRq MBfv MPvw MOmr MTests MTests2 MRand MChaCha SpecChaCha SpecRq SpecBfv SpecKsk SpecDef PModulus PUtils PUtils2 PRns PRq PRq2 PBfv3 PBfv PPrime PDefData PDef TestEnv QRq QDef QClue QTests QTests2 QRand QChaCha.

(** C75: a number drawn from the first blocks is below its bound and does not
    change when more blocks are generated. *)
Theorem C75_draws :
  forall p k a b x, 0 < p -> kth_draw p k (ntt_words a) = Ok x ->
    0 <= x < p /\ kth_draw p k (ntt_words (a + b)) = Ok x.
Proof. exact C75_draws_lem. Qed.
Print Assumptions C75_draws.

(** C75: with the numbers ChaCha8 gives for seed 0, [default] succeeds for the
    four degrees and up to six moduli. *)
Theorem C75_default :
  forall pr env k n bd, env_exact env -> follows env (ntt_words 1) ->
    (n = 8 \/ n = 16 \/ n = 32 \/ n = 64)%nat -> (1 <= k <= 6)%nat ->
    exists P l, bfv_default pr env k n bd = Ok P /\ largest_primes n l /\ length l = (2 * k + 1)%nat
      /\ bp_degree P = n /\ bp_t P = 1153 /\ bp_variance P = 10 /\ bp_moduli P = firstn k l.
Proof. exact C75_default_lem. Qed.
Print Assumptions C75_default.

(** C75: so do the contexts and the transform the tests build. *)
Theorem C75_contexts :
  forall pr env bd, env_exact env -> follows env (ntt_words 1) ->
    (exists c, rq_new pr env test_moduli 8 bd = Ok c) /\ (exists c, rq_new pr env [1153] 8 bd = Ok c)
    /\ (exists m op, modulus_new 1153 = Ok m /\ ntt_new pr env m 8 = Ok op).
Proof. exact C75_contexts_lem. Qed.
Print Assumptions C75_contexts.

(** C75: [process] completes. *)
Theorem C75_process :
  forall pr env, env_exact env -> follows env (ntt_words 1) -> process pr env = Ok tt.
Proof. exact C75_process_lem. Qed.
Print Assumptions C75_process.

(** C75: the test construct_ntt_operator passes. *)
Theorem C75_construct_ntt_operator :
  forall pr env, env_exact env -> follows env (ntt_words 1) -> test_construct_ntt_operator pr env = Ok tt.
Proof. exact C75_construct_ntt_operator_lem. Qed.
Print Assumptions C75_construct_ntt_operator.

(** C75: [random_from_seed] gives a well-shaped polynomial that does not depend
    on the number of blocks generated. *)
Theorem C75_seed :
  forall ctx r seed n, built ctx -> length seed = 32%nat ->
    (exists p, poly_random_from_seed ctx r seed n = Ok p /\ wf_poly p /\ p_ctx p = ctx /\ p_repr p = r
       /\ p = poly_random ctx r (p_rows p) /\ forall more, poly_random_from_seed ctx r seed (n + more) = Ok p)
    \/ poly_random_from_seed ctx r seed n = NoFuel.
Proof. exact C75_seed_lem. Qed.
Print Assumptions C75_seed.

(** C75: the residues depend only on degree, moduli and seed, not on the
    representation; fewer moduli give a prefix of the rows. *)
Theorem C75_seed_prefix :
  forall c1 c2 r1 r2 seed n j p1, built c1 -> built c2 -> length seed = 32%nat -> rq_degree c2 = rq_degree c1 ->
    (j <= cx_k c1)%nat -> rq_moduli_64 c2 = firstn j (rq_moduli_64 c1) ->
    poly_random_from_seed c1 r1 seed n = Ok p1 ->
    poly_random_from_seed c2 r2 seed n = Ok (mkPoly c2 r2 (firstn j (p_rows p1))).
Proof. exact C75_seed_prefix_lem. Qed.
Print Assumptions C75_seed_prefix.

(** Published test vectors: the first words of ChaCha20 and ChaCha8 under the
    zero key, SHA-256 of "abc" and of 32 zero bytes. *)
Example C75_vectors :
  firstn 4 (map swap32 (chacha_block 10 (repeat 0 8) 0)) = [0x76b8e0ad; 0xa0f13d90; 0x405d6ae5; 0x5386bd28]
  /\ firstn 4 (map swap32 (chacha_block 4 (repeat 0 8) 0)) = [0x3e00ef2f; 0x895f40d6; 0x7f5bb8e8; 0x1f09a5a1]
  /\ sha_block [0x61626380; 0; 0; 0; 0; 0; 0; 0; 0; 0; 0; 0; 0; 0; 0; 24]
     = [0xba7816bf; 0x8f01cfea; 0x414140de; 0x5dae2223; 0xb00361a3; 0x96177a9c; 0xb410ff61; 0xf20015ad]
  /\ map swap32 (seed_key (repeat 0 32))
     = [0x66687aad; 0xf862bd77; 0x6c8fc18b; 0x8e9f8e20; 0x08971485; 0x6ee233b3; 0x902a591d; 0x0d5f2925].
Proof. vm_compute. repeat split; reflexivity. Qed.
(** The first word of the generator of primitive_root, and its first draws
    below 1153. *)
Example C75_example :
  nth 0 (ntt_words 1) 0 = 0xb585f767a79a3b6c /\ kth_draw 1153 0 (ntt_words 1) = Ok 537.
Proof. vm_compute. split; reflexivity. Qed.
(** An environment that satisfies the hypotheses. *)
Definition cenv : Env :=
  mkEnv (fun x => if prime_dec x then true else false) (fun p k => match kth_draw p k (ntt_words 1) with Ok x => x | _ => 0 end).
Example C75_env_example : env_exact cenv /\ follows cenv (ntt_words 1).
Proof.
  split; [split|].
  - intros x _. cbn [is_prime cenv]. destruct (prime_dec x); split; intros; try discriminate; auto.
  - intros p k Hp. cbn [draw cenv]. destruct (kth_range p Hp k (ntt_words 1) (chacha_range _ 1)) as [[y [-> R]]| ->]; lia.
  - intros p k x _ E. cbn [draw cenv]. rewrite E. reflexivity.
Qed.
(** A seeded polynomial of degree 8. *)
Example C75_seed_example :
  (c <- test_ctx Release test_ms ;; p <- poly_random_from_seed c Ntt (map Z.of_nat (seq 0 32)) 4 ;;
   c' <- test_ctx Release (firstn 1 test_ms) ;; p' <- poly_random_from_seed c' PowerBasis (map Z.of_nat (seq 0 32)) 2 ;;
   Ok (map (firstn 2) (p_rows p), map (firstn 2) (p_rows p')))
  = Ok ([[353002; 98292]; [203722; 1023349]; [747331; 996544]], [[353002; 98292]]).
Proof. vm_compute. reflexivity. Qed.
