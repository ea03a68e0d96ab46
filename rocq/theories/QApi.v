(** Claims C59 and C60: statements about every program of API calls. *)
From Verif Require Import PBase MModulus MUtils MNtt MRns MRq MBfv MKsk MGalois MRgsw MEval MPvw MOmr MApi PSafe PSafe2 PSafe3 PAgree PAgree2 TestEnv.

Lemma safe_cases {A} (x : outcome A) Q : safe x Q -> (exists a, x = Ok a) \/ x = Panic.
Proof. destruct x; cbn [safe]; eauto; tauto. Qed.

(** C59: whatever sequence of API calls is made, if it completes in a debug
    build then a release build computes the same values. *)
Lemma C59_profiles_agree_lem :
  forall env prog st, run Debug env prog = Ok st -> run Release env prog = Ok st.
Proof. intros env prog st. apply ag_run. Qed.

(** C59: for well-typed arguments the only alternative is a panic of the debug
    build. *)
Lemma C59_panic_or_same_lem :
  forall env prog, Forall cmd_typed prog ->
    run Debug env prog = Panic \/ exists st, run Debug env prog = Ok st /\ run Release env prog = Ok st.
Proof.
  intros env prog H. destruct (safe_cases _ _ (sf_run Debug env prog H)) as [[st E]|E]; auto.
  right. exists st. split; auto. apply ag_run. auto.
Qed.

(** C60: no sequence of API calls reads or writes out of bounds in an unsafe
    block, and none runs forever: every run returns or panics. *)
Lemma C60_no_undefined_behaviour_lem :
  forall pr env prog, Forall cmd_typed prog -> (exists st, run pr env prog = Ok st) \/ run pr env prog = Panic.
Proof. intros. eapply safe_cases. apply sf_run. auto. Qed.

(** C60: the programs reach every function: each command makes one call, with
    the operands in the order given, in both build profiles. *)
Lemma C60_calls_words_lem :
  forall pr env,
    (forall (p : Z), exec pr env [] (KModulus p) = (r_ <- modulus_new p ;; Ok [VMod r_]))
    /\ (forall (x : Modulus) (a : Z), exec pr env [VMod x] (KMod1 ReduceCt 0 a) = (r_ <- mreduce pr x a ;; Ok [VInts [r_]]))
    /\ (forall (x : Modulus) (a : Z), exec pr env [VMod x] (KMod1 LazyReduce 0 a) = (r_ <- lazy_reduce_ct pr x a ;; Ok [VInts [r_]]))
    /\ (forall (x : Modulus) (a : Z), exec pr env [VMod x] (KMod1 ReduceU128 0 a) = (r_ <- mreduce_u128 pr x a ;; Ok [VInts [r_]]))
    /\ (forall (x : Modulus) (a : Z), exec pr env [VMod x] (KMod1 LazyReduceU128 0 a) = (r_ <- lazy_reduce_u128 pr x a ;; Ok [VInts [r_]]))
    /\ (forall (x : Modulus) (a : Z), exec pr env [VMod x] (KMod1 ReduceBig 0 a) = (r_ <- reduce_biguint x a ;; Ok [VInts [r_]]))
    /\ (forall (x : Modulus) (a : Z), exec pr env [VMod x] (KMod1 ReduceI64 0 a) = (r_ <- reduce_i64 pr x a ;; Ok [VInts [r_]]))
    /\ (forall (x : Modulus) (a : Z), exec pr env [VMod x] (KMod1 Neg 0 a) = (r_ <- mneg pr x a ;; Ok [VInts [r_]]))
    /\ (forall (x : Modulus) (a : Z), exec pr env [VMod x] (KMod1 Inv 0 a) = (r_ <- minv pr x a ;; Ok [VInts [r_]]))
    /\ (forall (x : Modulus) (a : Z), exec pr env [VMod x] (KMod1 Shoup 0 a) = (r_ <- shoup pr x a ;; Ok [VInts [r_]]))
    /\ (forall (x : Modulus) (a : Z) (b : Z), exec pr env [VMod x] (KMod2 MAdd 0 a b) = (r_ <- madd pr x a b ;; Ok [VInts [r_]]))
    /\ (forall (x : Modulus) (a : Z) (b : Z), exec pr env [VMod x] (KMod2 MSub 0 a b) = (r_ <- msub pr x a b ;; Ok [VInts [r_]]))
    /\ (forall (x : Modulus) (a : Z) (b : Z), exec pr env [VMod x] (KMod2 MMul 0 a b) = (r_ <- mmul pr x a b ;; Ok [VInts [r_]]))
    /\ (forall (x : Modulus) (a : Z) (b : Z), exec pr env [VMod x] (KMod2 MPow 0 a b) = (r_ <- mpow pr x a b ;; Ok [VInts [r_]]))
    /\ (forall (x : Modulus) (a : Z) (b : Z) (s : Z), exec pr env [VMod x] (KMulShoup 0 true a b s)
        = (r_ <- lazy_mul_shoup pr x a b s ;; Ok [VInts [r_]]))
    /\ (forall (x : Modulus) (a : Z) (b : Z) (s : Z), exec pr env [VMod x] (KMulShoup 0 false a b s)
        = (r_ <- mul_shoup pr x a b s ;; Ok [VInts [r_]]))
    /\ (forall (x : Modulus) (a : list Z), exec pr env [VMod x] (KVec1 VRedU64 0 a) = (r_ <- reduce_vec_u64 pr x a ;; Ok [VInts r_]))
    /\ (forall (x : Modulus) (a : list Z), exec pr env [VMod x] (KVec1 VRedI64 0 a) = (r_ <- reduce_vec_i64 pr x a ;; Ok [VInts r_]))
    /\ (forall (x : Modulus) (a : list Z), exec pr env [VMod x] (KVec1 VRedBig 0 a) = (r_ <- reduce_vec_biguint x a ;; Ok [VInts r_]))
    /\ (forall (x : Modulus) (a : list Z), exec pr env [VMod x] (KVec1 VInvV 0 a) = (r_ <- inv_vec pr x a ;; Ok [VInts r_]))
    /\ (forall (x : Modulus) (a : list Z), exec pr env [VMod x] (KVec1 VNegV 0 a) = (r_ <- neg_vec pr x a ;; Ok [VInts r_]))
    /\ (forall (x : Modulus) (a : list Z), exec pr env [VMod x] (KVec1 VShoupV 0 a) = (r_ <- shoup_vec pr x a ;; Ok [VInts r_]))
    /\ (forall (x : Modulus) (a : list Z) (b : list Z), exec pr env [VMod x] (KVec2 VAddV 0 a b)
        = (r_ <- add_vec pr x a b ;; Ok [VInts r_]))
    /\ (forall (x : Modulus) (a : list Z) (b : list Z), exec pr env [VMod x] (KVec2 VSubV 0 a b)
        = (r_ <- sub_vec pr x a b ;; Ok [VInts r_]))
    /\ (forall (x : Modulus) (a : list Z) (b : list Z), exec pr env [VMod x] (KVec2 VMulV 0 a b)
        = (r_ <- mul_vec pr x a b ;; Ok [VInts r_]))
    /\ (forall (x : Modulus) (a : list Z) (b : Z), exec pr env [VMod x] (KScalarMulVec 0 a b)
        = (r_ <- scalar_mul_vec pr x a b ;; Ok [VInts r_]))
    /\ (forall (n : nat) (v : Z) (w : nat -> Z), exec pr env [] (KSampleCbd n v w) = (r_ <- sample_vec_cbd pr n v w ;; Ok [VInts r_]))
    /\ (forall (b : Z) (m : Z) (ub : Z), exec pr env [] (KGenPrime b m ub)
        = (o <- generate_prime pr (is_prime env) b m ub ;; Ok [VInts (match o with Some x => [x] | None => [] end)]))
    /\ (forall (m : Z) (pb : Z) (db : nat), exec pr env [] (KDecomposeBits m pb db) = (r_ <- decompose_bits pr m pb db ;; Ok [VInts r_]))
    /\ (forall (x : Modulus) (size : nat), exec pr env [VMod x] (KNttNew 0 size) = (r_ <- ntt_new pr env x size ;; Ok [VNtt r_]))
    /\ (forall (x : NttOp) (a : list Z), exec pr env [VNtt x] (KNttForward 0 a) = (r_ <- ntt_forward pr x a ;; Ok [VInts r_]))
    /\ (forall (x : NttOp) (a : list Z), exec pr env [VNtt x] (KNttBackward 0 a) = (r_ <- ntt_backward pr x a ;; Ok [VInts r_]))
    /\ (forall (ms : list Z), exec pr env [] (KRnsNew ms) = (r_ <- rns_new ms ;; Ok [VRns r_]))
    /\ (forall (x : RnsContext) (a : Z), exec pr env [VRns x] (KRnsProject 0 a) = (r_ <- rns_project x a ;; Ok [VInts r_]))
    /\ (forall (x : RnsContext) (l : list Z), exec pr env [VRns x] (KRnsLift 0 l) = (r_ <- rns_lift x l ;; Ok [VInts [r_]])).
Proof. intros pr env. repeat split. Qed.
Lemma C60_calls_polys_lem :
  forall pr env,
    (forall (ms : list Z) (d : nat) (bd : BitDecomp), exec pr env [] (KCtxNew ms d bd) = (r_ <- rq_new pr env ms d bd ;; Ok [VCtx r_]))
    /\ (forall (x : RqContext), exec pr env [VCtx x] (KCtxNext 0) = (r_ <- unwrap (rq_next x) ;; Ok [VCtx r_]))
    /\ (forall (x : RqContext) (e : Z), exec pr env [VCtx x] (KSubstNew 0 e) = (r_ <- subst_new pr x e ;; Ok [VSubst r_]))
    /\ (forall (x : RqContext) (r : repr), exec pr env [VCtx x] (KZero 0 r) = (Ok [VPoly (poly_zero x r)]))
    /\ (forall (x : RqContext) (r : repr) (f : nat -> nat -> Z), exec pr env [VCtx x] (KRandom 0 r f)
        = (Ok [VPoly (poly_random x r (sample_rows x f))]))
    /\ (forall (x : RqContext) (r : repr) (v : Z) (w : nat -> Z), exec pr env [VCtx x] (KRandomSmall 0 r v w)
        = (r_ <- poly_random_small pr x r v w ;; Ok [VPoly r_]))
    /\ (forall (x : RqContext) (a : list Z), exec pr env [VCtx x] (KFromU64 0 a) = (r_ <- poly_from_u64 pr x a ;; Ok [VPoly r_]))
    /\ (forall (x : RqContext) (a : list Z), exec pr env [VCtx x] (KFromI64 0 a) = (r_ <- poly_from_i64 pr x a ;; Ok [VPoly r_]))
    /\ (forall (x : RqContext) (a : list Z), exec pr env [VCtx x] (KFromBig 0 a) = (r_ <- poly_from_bigint x a ;; Ok [VPoly r_]))
    /\ (forall (x : Poly) (r : repr), exec pr env [VPoly x] (KChange 0 r) = (r_ <- change_repr pr x r ;; Ok [VPoly r_]))
    /\ (forall (x : Poly), exec pr env [VPoly x] (KBitDecomp 0) = (apply_bit_decomposition pr x ;;; Ok []))
    /\ (forall (x : Poly) (a : Subst), exec pr env [VPoly x; VSubst a] (KSubstitute 0 1) = (r_ <- poly_substitute pr x a ;; Ok [VPoly r_]))
    /\ (forall (x : Poly), exec pr env [VPoly x] (KModSwitchNext 0) = (r_ <- mod_switch_down_next pr x ;; Ok [VPoly r_]))
    /\ (forall (x : Poly) (y : RqContext), exec pr env [VPoly x; VCtx y] (KModSwitchTo 0 1) = (r_ <- mod_switch_to pr x y ;; Ok [VPoly r_]))
    /\ (forall (x : Poly), exec pr env [VPoly x] (KInverse 0) = (r_ <- poly_inverse pr x ;; Ok [VPoly r_]))
    /\ (forall (x : Poly), exec pr env [VPoly x] (KNegPoly 0) = (r_ <- poly_neg pr x ;; Ok [VPoly r_]))
    /\ (forall (x : Poly) (y : Poly), exec pr env [VPoly x; VPoly y] (KPoly2 PAdd 0 1) = (r_ <- poly_add pr x y ;; Ok [VPoly r_]))
    /\ (forall (x : Poly) (y : Poly), exec pr env [VPoly x; VPoly y] (KPoly2 PSub 0 1) = (r_ <- poly_sub pr x y ;; Ok [VPoly r_]))
    /\ (forall (x : Poly) (y : Poly), exec pr env [VPoly x; VPoly y] (KPoly2 PMul 0 1) = (r_ <- poly_mul pr x y ;; Ok [VPoly r_]))
    /\ (forall (x : Poly) (k : Z), exec pr env [VPoly x] (KMulBig 0 k) = (r_ <- poly_mul_big pr x k ;; Ok [VPoly r_]))
    /\ (forall (x : Poly), exec pr env [VPoly x] (KToBig 0) = (r_ <- poly_to_big x ;; Ok [VInts r_]))
    /\ (forall (x : Poly), exec pr env [VPoly x] (KToU64 0) = (r_ <- poly_to_u64 x ;; Ok [VInts r_]))
    /\ (forall (x : RqContext) (y : RqContext) (n : Z) (d : Z), exec pr env [VCtx x; VCtx y] (KScalerNew 0 1 n d)
        = (f <- sf_new n d ;; r_ <- rq_scaler_new pr x y f ;; Ok [VScaler r_]))
    /\ (forall (x : RqScaler) (y : Poly), exec pr env [VScaler x; VPoly y] (KScale 0 1) = (r_ <- rq_scale pr x y ;; Ok [VPoly r_])).
Proof. intros pr env. repeat split. Qed.
Lemma C60_calls_bfv_lem :
  forall pr env,
    (forall (sizes : list Z) (d : nat), exec pr env [] (KGenModuli sizes d)
        = (o <- generate_moduli pr env sizes d ;; Ok [VInts (match o with Some x => x | None => [] end)]))
    /\ (forall (d : nat) (t : Z) (ms : list Z) (v : Z) (bd : BitDecomp), exec pr env [] (KBfvNew d t ms v bd)
        = (r_ <- bfv_new pr env d t ms v bd ;; Ok [VParams r_]))
    /\ (forall (n : nat) (d : nat) (bd : BitDecomp), exec pr env [] (KBfvDefault n d bd)
        = (r_ <- bfv_default pr env n d bd ;; Ok [VParams r_]))
    /\ (forall (x : BfvParams) (l : nat), exec pr env [VParams x] (KCtxAt 0 l) = (r_ <- get (bp_q_ctxs x) l ;; Ok [VCtx r_]))
    /\ (forall (x : BfvParams) (y : RqContext), exec pr env [VParams x; VCtx y] (KCtxLevel 0 1)
        = (Ok [VInts (match ctx_level x y with Some l => [Z.of_nat l] | None => [] end)]))
    /\ (forall (x : BfvParams) (vals : list Z) (l : nat) (e : encoding), exec pr env [VParams x] (KPtNew 0 vals l e)
        = (r_ <- pt_new pr x vals l e ;; Ok [VPt r_]))
    /\ (forall (x : Plaintext), exec pr env [VPt x] (KPtDecode 0) = (r_ <- pt_decode pr x ;; Ok [VInts r_]))
    /\ (forall (x : Plaintext) (e : encoding), exec pr env [VPt x] (KPtSetEncoding 0 e) = (Ok [VPt (pt_set_encoding x e)]))
    /\ (forall (x : Plaintext), exec pr env [VPt x] (KPtToPoly 0) = (r_ <- pt_to_poly pr x ;; Ok [VPoly r_]))
    /\ (forall (x : BfvParams) (w : nat -> Z), exec pr env [VParams x] (KSkGenerate 0 w) = (r_ <- sk_generate pr x w ;; Ok [VSk r_]))
    /\ (forall (x : BfvParams) (cs : list Z), exec pr env [VParams x] (KSkNew 0 cs) = (Ok [VSk (mkSk x cs)]))
    /\ (forall (x : SecretKey) (y : Poly) (f : nat -> nat -> Z) (w : nat -> Z), exec pr env [VSk x; VPoly y] (KEncryptPoly 0 1 f w)
        = (r_ <- encrypt_poly pr x y (sample_rows (p_ctx y) f) w ;; Ok [VCt r_]))
    /\ (forall (x : SecretKey) (y : Plaintext) (f : nat -> nat -> Z) (w : nat -> Z), exec pr env [VSk x; VPt y] (KEncrypt 0 1 f w)
        = (c <- get (bp_q_ctxs (pt_params y)) (pt_level y) ;; r_ <- encrypt pr x y (sample_rows c f) w ;; Ok [VCt r_]))
    /\ (forall (x : SecretKey) (y : Poly) (z : Poly), exec pr env [VSk x; VPoly y; VPoly z] (KDecryptTrial 0 1 2)
        = (r_ <- decrypt_trial pr x y z ;; Ok [VPoly r_]))
    /\ (forall (x : SecretKey) (y : Ct), exec pr env [VSk x; VCt y] (KDecrypt 0 1) = (r_ <- decrypt pr x y ;; Ok [VPt r_]))
    /\ (forall (x : SecretKey) (y : Ct), exec pr env [VSk x; VCt y] (KMeasureNoise 0 1) = (r_ <- measure_noise pr x y ;; Ok [VInts [r_]]))
    /\ (forall (x : BfvParams) (ys0 : Poly) (ys1 : Poly) (l : nat), exec pr env [VParams x; VPoly ys0; VPoly ys1] (KCtOf 0 [1; 2]%nat l)
        = (Ok [VCt (mkCt x [ys0; ys1] l)]))
    /\ (forall (x : Ct), exec pr env [VCt x] (KCtParts 0) = (Ok (map VPoly (ct_cts x))))
    /\ (forall (x : Ct) (y : Ct), exec pr env [VCt x; VCt y] (KCt2 CAdd 0 1) = (r_ <- ct_add pr x y ;; Ok [VCt r_]))
    /\ (forall (x : Ct) (y : Ct), exec pr env [VCt x; VCt y] (KCt2 CSub 0 1) = (r_ <- ct_sub pr x y ;; Ok [VCt r_]))
    /\ (forall (x : Ct) (y : Ct), exec pr env [VCt x; VCt y] (KCt2 CMul 0 1) = (r_ <- ct_mul pr x y ;; Ok [VCt r_]))
    /\ (forall (x : Ct) (y : Poly), exec pr env [VCt x; VPoly y] (KCtAddPoly 0 1) = (r_ <- ct_add_poly pr x y ;; Ok [VCt r_]))
    /\ (forall (x : Ct) (y : Plaintext), exec pr env [VCt x; VPt y] (KCtMulPt 0 1) = (r_ <- ct_mul_pt pr x y ;; Ok [VCt r_]))
    /\ (forall (x : Ct) (y : Poly), exec pr env [VCt x; VPoly y] (KCtMulPoly 0 1) = (r_ <- ct_mul_poly pr x y ;; Ok [VCt r_]))
    /\ (forall (x : Ct) (k : Z), exec pr env [VCt x] (KCtMulBig 0 k) = (r_ <- ct_mul_big pr x k ;; Ok [VCt r_]))
    /\ (forall (x : Ct) (y : Ct) (z : RelinKey), exec pr env [VCt x; VCt y; VRlk z] (KMulStrategy 0 1 2)
        = (r_ <- multiply_with_strategy pr x y z ;; Ok [VCt r_])).
Proof. intros pr env. repeat split. Qed.
Lemma C60_calls_keys_lem :
  forall pr env,
    (forall (x : SecretKey) (y : Poly) (cl : nat) (kl : nat) (r : RndF), exec pr env [VSk x; VPoly y] (KKskNew 0 1 cl kl r)
        = (c <- get (bp_q_ctxs (sk_params x)) kl ;; r_ <- ksk_new pr x y cl kl (rnd_for c r) ;; Ok [VKsk r_]))
    /\ (forall (x : SecretKey) (y : Plaintext) (cl : nat) (kl : nat) (r : RndF), exec pr env [VSk x; VPt y] (KKskNewPt 0 1 cl kl r)
        = (c <- get (bp_q_ctxs (sk_params x)) kl ;; r_ <- ksk_new_with_pt pr x y cl kl (rnd_for c r) ;; Ok [VKsk r_]))
    /\ (forall (x : Ksk) (y : Poly), exec pr env [VKsk x; VPoly y] (KKeySwitch 0 1)
        = ('(a, b) <- key_switch pr x y ;; Ok [VPoly a; VPoly b]))
    /\ (forall (x : BfvParams) (ys0 : Ct) (ys1 : Ct), exec pr env [VParams x; VCt ys0; VCt ys1] (KKskFromRlwes 0 [1; 2]%nat)
        = (r_ <- ksk_from_rlwes x [ys0; ys1] ;; Ok [VKsk r_]))
    /\ (forall (x : Ksk), exec pr env [VKsk x] (KKskParts 0) = (Ok (map VPoly (k_c0 x ++ k_c1 x))))
    /\ (forall (x : SecretKey) (y : Subst) (l : nat) (r : RndF), exec pr env [VSk x; VSubst y] (KGkNew 0 1 l r)
        = (c <- get (bp_q_ctxs (sk_params x)) l ;; r_ <- galois_new pr x y l (rnd_for c r) ;; Ok [VGk r_]))
    /\ (forall (x : GaliosKey) (y : Ct), exec pr env [VGk x; VCt y] (KGkRelin 0 1) = (r_ <- galois_relinearize pr x y ;; Ok [VCt r_]))
    /\ (forall (x : SecretKey) (l : nat) (r : RndF), exec pr env [VSk x] (KRlkNew 0 l r)
        = (c <- get (bp_q_ctxs (sk_params x)) l ;; r_ <- rlk_new pr x l (rnd_for c r) ;; Ok [VRlk r_]))
    /\ (forall (x : RelinKey) (y : Poly), exec pr env [VRlk x; VPoly y] (KRelinPoly 0 1)
        = ('(a, b) <- relinearize_poly pr x y ;; Ok [VPoly a; VPoly b]))
    /\ (forall (x : SecretKey) (y : Poly) (r0 : RndF) (r1 : RndF), exec pr env [VSk x; VPoly y] (KRgswEncPoly 0 1 r0 r1)
        = (l <- unwrap (ctx_level (sk_params x) (p_ctx y)) ;; c <- get (bp_q_ctxs (sk_params x)) l ;; r_ <- rgsw_encrypt_poly pr x y (rnd_for c r0) (rnd_for c r1) ;; Ok [VRgsw r_]))
    /\ (forall (x : SecretKey) (y : Plaintext) (r0 : RndF) (r1 : RndF), exec pr env [VSk x; VPt y] (KRgswEnc 0 1 r0 r1)
        = (c <- get (bp_q_ctxs (sk_params x)) (pt_level y) ;; r_ <- rgsw_encrypt pr x y (rnd_for c r0) (rnd_for c r1) ;; Ok [VRgsw r_]))
    /\ (forall (x : RgswCt) (y : Ct), exec pr env [VRgsw x; VCt y] (KExtProd 0 1)
        = ('(a, b) <- external_product pr x y ;; Ok [VPoly a; VPoly b]))
    /\ (forall (x : Ksk) (y : Ksk), exec pr env [VKsk x; VKsk y] (KRgswFromKsks 0 1) = (Ok [VRgsw (rgsw_from_ksks x y)])).
Proof. intros pr env. repeat split. Qed.
Lemma C60_calls_pir_lem :
  forall pr env,
    (forall (fd : nat) (d : nat) (q : list nat) (rows : nat), exec pr env [] (KClientEncode fd d q rows)
        = (r_ <- client_encode pr (mkClient fd d) q rows ;; Ok [VInts r_]))
    /\ (forall (x0 : Plaintext) (x1 : Plaintext) (y : BfvParams) (fd : nat) (d : nat), exec pr env [VPt x0; VPt x1; VParams y] (KServerNew fd d [0; 1]%nat 2)
        = (r_ <- server_new pr fd d [x0; x1] y ;; Ok [VServer r_]))
    /\ (forall (x : Server) (ys0 : Ct) (ys1 : Ct) (z : Evaluation) (w : BfvParams), exec pr env [VServer x; VCt ys0; VCt ys1; VEval z; VParams w] (KServerDecode 0 [1; 2]%nat 3 4)
        = (r <- server_decode pr x [ys0; ys1] z w ;; Ok (map VCt r)))
    /\ (forall (x : SecretKey) (y : BfvParams) (r : nat -> RndF) (r0 : RndF) (r1 : RndF), exec pr env [VSk x; VParams y] (KEvalBuild 0 1 r r0 r1)
        = (c <- get (bp_q_ctxs (sk_params x)) 0 ;; c0 <- get (bp_q_ctxs y) 0 ;; l <- unwrap (ctx_level (sk_params x) c0) ;; c1 <- get (bp_q_ctxs (sk_params x)) l ;; r_ <- eval_build pr x y (fun i => rnd_for c (r i)) (rnd_for c1 r0) (rnd_for c1 r1) ;; Ok [VEval r_]))
    /\ (forall (x : Evaluation) (y : Ct), exec pr env [VEval x; VCt y] (KUnpack 0 1) = (r <- unpack pr x y ;; Ok (map VCt r)))
    /\ (forall (sk : list (list Z)) (P : PvwParams) (a : list (list Z)) (w : nat -> nat -> Z), exec pr env [] (KPvwPk sk P a w)
        = (r_ <- pvw_gen_pk pr sk P a w ;; Ok [VPvw r_]))
    /\ (forall (pk : list PvwCt) (P : PvwParams) (m : list Z) (e : list Z), exec pr env [] (KPvwEnc pk P m e)
        = (r <- pvw_encrypt pr pk P m e ;; Ok [VPvw [r]]))
    /\ (forall (sk : list (list Z)) (P : PvwParams) (c : PvwCt), exec pr env [] (KPvwDec sk P c)
        = (r_ <- pvw_decrypt pr sk P c ;; Ok [VInts r_]))
    /\ (forall (x0 : Ct) (x1 : Ct) (y0 : Poly) (y1 : Poly), exec pr env [VCt x0; VCt x1; VPoly y0; VPoly y1] (KInnerProduct [0; 1]%nat [2; 3]%nat)
        = (r_ <- inner_product pr [x0; x1] [y0; y1] ;; Ok [VCt r_]))
    /\ (forall (P : PvwParams) (clues : list PvwCt), exec pr env [] (KProcess P clues)
        = ('(b, a) <- process_clues pr env P clues ;; Ok (map VInts (b ++ a)))).
Proof. intros pr env. repeat split. Qed.

Lemma scaler_built pr f from to s ms ms' :
  rns_new ms = Ok from -> rns_new ms' = Ok to -> rns_scaler_new pr from to f = Ok s ->
  scaler_shape s (length ms) (length ms') /\ rns_moduli_u64 (rs_from s) = ms /\ rns_moduli_u64 (rs_to s) = ms'.
Proof.
  intros E1 E2 E3.
  pose proof (sf_rns_new ms) as H1. rewrite E1 in H1. destruct H1 as [H1 M1].
  pose proof (sf_rns_new ms') as H2. rewrite E2 in H2. destruct H2 as [H2 M2].
  pose proof (sf_rns_scaler_new pr from to f H1 H2) as H3. rewrite E3 in H3. cbn [safe] in H3. rewrite M1, M2 in H3.
  split; [exact H3|]. clear - E3 M1 M2. unfold rns_scaler_new in E3.
  repeat match type of E3 with
  | bind ?x _ = Ok _ => destruct x as [?| | |] eqn:?; [|discriminate E3..]; cbn [bind] in E3
  | (let '(_, _) := ?x in _) = Ok _ => destruct x
  end; cbv zeta in E3.
  repeat match type of E3 with
  | bind ?x _ = Ok _ => destruct x as [?| | |] eqn:?; [|discriminate E3..]; cbn [bind] in E3
  end.
  injection E3 as <-. cbn [rs_from rs_to]. auto.
Qed.

(** C60: the same for [RnsScaler::scale] called directly with a scaler made by
    [RnsScaler::new], in a debug build with any arguments. *)
Lemma C60_scaler_debug_lem :
  forall pr f from to s ms ms' rests n si,
    rns_new ms = Ok from -> rns_new ms' = Ok to -> rns_scaler_new pr from to f = Ok s ->
    (exists out, rns_scale Debug s rests n si = Ok out) \/ rns_scale Debug s rests n si = Panic.
Proof.
  intros pr f from to s ms ms' rests n si E1 E2 E3.
  destruct (scaler_built _ _ _ _ _ _ _ E1 E2 E3) as [H [F T]].
  destruct (Nat.eqb_spec (length rests) (length ms)) as [L1|L1].
  2:{ right. unfold rns_scale. rewrite F. apply Nat.eqb_neq in L1. rewrite L1. reflexivity. }
  destruct (Nat.leb_spec (si + n) (length ms')) as [L2|L2].
  - eapply safe_cases. eapply sf_rns_scale; eauto. lia.
  - right. unfold rns_scale. rewrite T. apply Nat.leb_gt in L2. rewrite L2. cbn [dassert].
    destruct (_ =? _)%nat; [|reflexivity]. cbn [bind]. destruct (negb _); reflexivity.
Qed.

(** C60: and in both builds when the lengths fit the two bases. *)
Lemma C60_scaler_lem :
  forall pr pr' f from to s ms ms' rests n si,
    rns_new ms = Ok from -> rns_new ms' = Ok to -> rns_scaler_new pr from to f = Ok s ->
    (length rests <= length ms)%nat -> (si + n <= length ms')%nat ->
    (exists out, rns_scale pr' s rests n si = Ok out) \/ rns_scale pr' s rests n si = Panic.
Proof.
  intros pr pr' f from to s ms ms' rests n si E1 E2 E3 L1 L2.
  destruct (scaler_built _ _ _ _ _ _ _ E1 E2 E3) as [H _]. eapply safe_cases. eapply sf_rns_scale; eauto.
Qed.

(** C60 fails for [RnsScaler::scale] called directly in a release build: it is
    a safe [pub fn], its length checks are debug assertions, and with one
    residue too many it reads past the end of [omega]. *)
Lemma C60_scaler_release_refuted_lem :
  exists ms from f s rests,
    rns_new ms = Ok from /\ sf_new 1 2 = Ok f /\ rns_scaler_new Release from from f = Ok s /\
    rns_scale Release s rests 1 0 = UB.
Proof.
  exists [17; 97].
  destruct (rns_new [17; 97]) as [from| | |] eqn:E; [|vm_compute in E; discriminate E..].
  exists from, (mkSF 1 2 false).
  destruct (rns_scaler_new Release from from (mkSF 1 2 false)) as [s| | |] eqn:E2;
    [|vm_compute in E; injection E as <-; vm_compute in E2; discriminate E2..].
  exists s, [1; 2; 3]. repeat split.
  vm_compute in E. injection E as <-. vm_compute in E2. injection E2 as <-. vm_compute. reflexivity.
Qed.

(*EXAMPLE
(** A program: a context, two polynomials, their product, one level down. *)
Definition demo : list cmd :=
  [KCtxNew [1048609; 1048721] 8 (mkBD 4 5); KFromU64 0 [1; 2; 3; 4; 5; 6; 7; 8]; KChange 1 Ntt; KPoly2 PMul 2 2;
   KChange 3 PowerBasis; KModSwitchNext 4; KToBig 4].
(** The product modulo x^8 + 1 computed through the API. *)
Example C60_example : Forall cmd_typed demo /\
  forall pr, (st <- run pr tenv demo ;; Ok (nth_error st 6))
             = Ok (Some (VInts (map (fun x => x mod (1048609 * 1048721)) [-146; -160; -160; -144; -110; -56; 20; 120]))).
Proof. split; [unfold demo; repeat constructor|intros []; vm_compute; reflexivity]. Qed.
(** The converse of C59 fails: outside the documented domain a release build
    returns where a debug build panics. *)
Example C59_example :
  run Debug tenv [KModulus 17; KMod2 MAdd 0 40 1] = Panic /\
  (st <- run Release tenv [KModulus 17; KMod2 MAdd 0 40 1] ;; Ok (nth_error st 1)) = Ok (Some (VInts [24])).
Proof. split; vm_compute; reflexivity. Qed.
EXAMPLE*)
