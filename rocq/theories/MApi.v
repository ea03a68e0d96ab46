(** A driver for the crate: programs are sequences of calls of the functions
    modelled in the other M*.v files, on values produced by earlier calls.
    (Synthetic: it stands for any Rust code that uses /repo/src/*.rs through
    the functions and struct literals that occur there.  Each command below
    calls the modelled function of the same name, cited at its definition.) *)
From Verif Require Import Base MModulus MUtils MNtt MRns MRq MBfv MKsk MGalois MRgsw MEval MPvw MOmr.

(** Values a program can hold. *)
Inductive value :=
| VMod (m : Modulus) | VNtt (op : NttOp) | VRns (c : RnsContext)
| VCtx (c : RqContext) | VPoly (p : Poly) | VSubst (s : Subst) | VScaler (s : RqScaler)
| VParams (P : BfvParams) | VSk (k : SecretKey) | VPt (p : Plaintext) | VCt (c : Ct)
| VKsk (k : Ksk) | VGk (g : GaliosKey) | VRlk (r : RelinKey) | VRgsw (r : RgswCt)
| VEval (e : Evaluation) | VServer (s : Server)
| VInts (l : list Z) | VPvw (l : list PvwCt).

(** Operand [i] of the given type.  A missing or ill-typed operand cannot be
    written in Rust; the model panics. *)
Definition arg {A} (proj : value -> option A) (st : list value) (i : nat) : outcome A :=
  match nth_error st i with
  | Some v => match proj v with Some a => Ok a | None => Panic end
  | None => Panic
  end.
Definition args {A} (proj : value -> option A) (st : list value) (is : list nat) : outcome (list A) :=
  mapM (arg proj st) is.
Definition isMod v := match v with VMod x => Some x | _ => None end.
Definition isNtt v := match v with VNtt x => Some x | _ => None end.
Definition isRns v := match v with VRns x => Some x | _ => None end.
Definition isCtx v := match v with VCtx x => Some x | _ => None end.
Definition isPoly v := match v with VPoly x => Some x | _ => None end.
Definition isSubst v := match v with VSubst x => Some x | _ => None end.
Definition isScaler v := match v with VScaler x => Some x | _ => None end.
Definition isParams v := match v with VParams x => Some x | _ => None end.
Definition isSk v := match v with VSk x => Some x | _ => None end.
Definition isPt v := match v with VPt x => Some x | _ => None end.
Definition isCt v := match v with VCt x => Some x | _ => None end.
Definition isKsk v := match v with VKsk x => Some x | _ => None end.
Definition isGk v := match v with VGk x => Some x | _ => None end.
Definition isRlk v := match v with VRlk x => Some x | _ => None end.
Definition isRgsw v := match v with VRgsw x => Some x | _ => None end.
Definition isEval v := match v with VEval x => Some x | _ => None end.
Definition isServer v := match v with VServer x => Some x | _ => None end.

(** Randomness supplied to a call: entry [f r j] is coefficient [j] of row [r]
    of a uniform polynomial; [words] are generator words. *)
Record RndF := mkRndF { rf_rows : nat -> nat -> nat -> Z; rf_words : nat -> nat -> Z }.
Definition sample_rows (c : RqContext) (f : nat -> nat -> Z) : list (list Z) :=
  map (fun r => map (f r) (seq 0 (rq_degree c))) (seq 0 (length (rq_moduli_64 c))).
Definition rnd_for (c : RqContext) (r : RndF) : RndKsk :=
  mkRnd (fun i => sample_rows c (rf_rows r i)) (rf_words r).

Inductive mop1 := ReduceCt | LazyReduce | ReduceU128 | LazyReduceU128 | ReduceBig | ReduceI64 | Neg | Inv | Shoup.
Inductive mop2 := MAdd | MSub | MMul | MPow.
Inductive vop1 := VRedU64 | VRedI64 | VRedBig | VInvV | VNegV | VShoupV.
Inductive vop2 := VAddV | VSubV | VMulV.
Inductive pop2 := PAdd | PSub | PMul.
Inductive cop2 := CAdd | CSub | CMul.

Inductive cmd :=
(* modulus.rs, utils.rs *)
| KModulus (p : Z) | KMod1 (o : mop1) (m : nat) (a : Z) | KMod2 (o : mop2) (m : nat) (a b : Z)
| KMulShoup (m : nat) (lazy : bool) (a b s : Z) | KVec1 (o : vop1) (m : nat) (a : list Z)
| KVec2 (o : vop2) (m : nat) (a b : list Z) | KScalarMulVec (m : nat) (a : list Z) (b : Z)
| KSampleCbd (n : nat) (v : Z) (w : nat -> Z) | KGenPrime (bits modulo ub : Z)
| KDecomposeBits (m parent_bits : Z) (decomp_bits : nat)
(* ntt.rs, rns.rs *)
| KNttNew (m : nat) (size : nat) | KNttForward (op : nat) (a : list Z) | KNttBackward (op : nat) (a : list Z)
| KRnsNew (ms : list Z) | KRnsProject (c : nat) (a : Z) | KRnsLift (c : nat) (l : list Z)
(* rq.rs *)
| KCtxNew (ms : list Z) (degree : nat) (bd : BitDecomp) | KCtxNext (c : nat)
| KSubstNew (c : nat) (e : Z) | KZero (c : nat) (r : repr) | KRandom (c : nat) (r : repr) (f : nat -> nat -> Z)
| KRandomSmall (c : nat) (r : repr) (v : Z) (w : nat -> Z)
| KFromU64 (c : nat) (a : list Z) | KFromI64 (c : nat) (a : list Z) | KFromBig (c : nat) (a : list Z)
| KChange (p : nat) (r : repr) | KBitDecomp (p : nat) | KSubstitute (p s : nat)
| KModSwitchNext (p : nat) | KModSwitchTo (p c : nat) | KInverse (p : nat) | KNegPoly (p : nat)
| KPoly2 (o : pop2) (p q : nat) | KMulBig (p : nat) (k : Z) | KToBig (p : nat) | KToU64 (p : nat)
| KScalerNew (from to : nat) (num den : Z) | KScale (s p : nat)
(* bfv.rs *)
| KGenModuli (sizes : list Z) (degree : nat)
| KBfvNew (degree : nat) (t : Z) (ms : list Z) (v : Z) (bd : BitDecomp)
| KBfvDefault (num degree : nat) (bd : BitDecomp) | KCtxAt (P : nat) (level : nat) | KCtxLevel (P c : nat)
| KPtNew (P : nat) (vals : list Z) (level : nat) (e : encoding) | KPtDecode (p : nat)
| KPtSetEncoding (p : nat) (e : encoding) | KPtToPoly (p : nat)
| KSkGenerate (P : nat) (w : nat -> Z) | KSkNew (P : nat) (coeffs : list Z)
| KEncryptPoly (k p : nat) (f : nat -> nat -> Z) (w : nat -> Z)
| KEncrypt (k p : nat) (f : nat -> nat -> Z) (w : nat -> Z)
| KDecryptTrial (k p q : nat) | KDecrypt (k c : nat) | KMeasureNoise (k c : nat)
| KCtOf (P : nat) (polys : list nat) (level : nat) | KCtParts (c : nat)
| KCt2 (o : cop2) (a b : nat) | KCtAddPoly (c p : nat) | KCtMulPt (c p : nat) | KCtMulPoly (c p : nat)
| KCtMulBig (c : nat) (k : Z) | KMulStrategy (a b r : nat)
(* ksk.rs, Galois and relinearization keys, rgsw.rs *)
| KKskNew (k p : nat) (ct_level ksk_level : nat) (r : RndF)
| KKskNewPt (k p : nat) (ct_level ksk_level : nat) (r : RndF)
| KKeySwitch (k p : nat) | KKskFromRlwes (P : nat) (cts : list nat) | KKskParts (k : nat)
| KGkNew (k s : nat) (level : nat) (r : RndF) | KGkRelin (g c : nat)
| KRlkNew (k : nat) (level : nat) (r : RndF) | KRelinPoly (r p : nat)
| KRgswEncPoly (k p : nat) (r0 r1 : RndF) | KRgswEnc (k p : nat) (r0 r1 : RndF)
| KExtProd (r c : nat) | KRgswFromKsks (a b : nat)
(* evaluations.rs *)
| KClientEncode (first_dim dim : nat) (q : list nat) (rows : nat)
| KServerNew (first_dim dim : nat) (db : list nat) (P : nat)
| KServerDecode (s : nat) (cts : list nat) (e P : nat)
| KEvalBuild (k P : nat) (r : nat -> RndF) (r0 r1 : RndF) | KUnpack (e c : nat)
(* pvw.rs, omr.rs *)
| KPvwPk (sk : list (list Z)) (P : PvwParams) (a : list (list Z)) (w : nat -> nat -> Z)
| KPvwEnc (pk : list PvwCt) (P : PvwParams) (m e : list Z) | KPvwDec (sk : list (list Z)) (P : PvwParams) (c : PvwCt)
| KInnerProduct (cts polys : list nat) | KProcess (P : PvwParams) (clues : list PvwCt).

Section Exec.
Variable pr : profile.
Variable env : Env.

Definition ret1 {A} (mk : A -> value) (x : outcome A) : outcome (list value) := a <- x ;; Ok [mk a].
Definition retz (x : outcome Z) : outcome (list value) := a <- x ;; Ok [VInts [a]].

Definition exec_mod1 (o : mop1) (m : Modulus) (a : Z) : outcome Z :=
  match o with
  | ReduceCt => mreduce pr m a | LazyReduce => lazy_reduce_ct pr m a
  | ReduceU128 => mreduce_u128 pr m a | LazyReduceU128 => lazy_reduce_u128 pr m a
  | ReduceBig => reduce_biguint m a | ReduceI64 => reduce_i64 pr m a
  | Neg => mneg pr m a | Inv => minv pr m a | Shoup => shoup pr m a
  end.
Definition exec_mod2 (o : mop2) (m : Modulus) (a b : Z) : outcome Z :=
  match o with MAdd => madd pr m a b | MSub => msub pr m a b | MMul => mmul pr m a b | MPow => mpow pr m a b end.
Definition exec_vec1 (o : vop1) (m : Modulus) (a : list Z) : outcome (list Z) :=
  match o with
  | VRedU64 => reduce_vec_u64 pr m a | VRedI64 => reduce_vec_i64 pr m a | VRedBig => reduce_vec_biguint m a
  | VInvV => inv_vec pr m a | VNegV => neg_vec pr m a | VShoupV => shoup_vec pr m a
  end.
Definition exec_vec2 (o : vop2) (m : Modulus) (a b : list Z) : outcome (list Z) :=
  match o with VAddV => add_vec pr m a b | VSubV => sub_vec pr m a b | VMulV => mul_vec pr m a b end.
Definition exec_poly2 (o : pop2) (a b : Poly) : outcome Poly :=
  match o with PAdd => poly_add pr a b | PSub => poly_sub pr a b | PMul => poly_mul pr a b end.
Definition exec_ct2 (o : cop2) (a b : Ct) : outcome Ct :=
  match o with CAdd => ct_add pr a b | CSub => ct_sub pr a b | CMul => ct_mul pr a b end.

(** The values produced by one call. *)
Definition exec (st : list value) (c : cmd) : outcome (list value) :=
  match c with
  | KModulus p => ret1 VMod (modulus_new p)
  | KMod1 o m a => x <- arg isMod st m ;; retz (exec_mod1 o x a)
  | KMod2 o m a b => x <- arg isMod st m ;; retz (exec_mod2 o x a b)
  | KMulShoup m lz a b s => x <- arg isMod st m ;; retz (if lz : bool then lazy_mul_shoup pr x a b s else mul_shoup pr x a b s)
  | KVec1 o m a => x <- arg isMod st m ;; ret1 VInts (exec_vec1 o x a)
  | KVec2 o m a b => x <- arg isMod st m ;; ret1 VInts (exec_vec2 o x a b)
  | KScalarMulVec m a b => x <- arg isMod st m ;; ret1 VInts (scalar_mul_vec pr x a b)
  | KSampleCbd n v w => ret1 VInts (sample_vec_cbd pr n v w)
  | KGenPrime b m ub => o <- generate_prime pr (is_prime env) b m ub ;; Ok [VInts (match o with Some x => [x] | None => [] end)]
  | KDecomposeBits m pb db => ret1 VInts (decompose_bits pr m pb db)
  | KNttNew m size => x <- arg isMod st m ;; ret1 VNtt (ntt_new pr env x size)
  | KNttForward op a => x <- arg isNtt st op ;; ret1 VInts (ntt_forward pr x a)
  | KNttBackward op a => x <- arg isNtt st op ;; ret1 VInts (ntt_backward pr x a)
  | KRnsNew ms => ret1 VRns (rns_new ms)
  | KRnsProject c a => x <- arg isRns st c ;; ret1 VInts (rns_project x a)
  | KRnsLift c l => x <- arg isRns st c ;; retz (rns_lift x l)
  | KCtxNew ms d bd => ret1 VCtx (rq_new pr env ms d bd)
  | KCtxNext c => x <- arg isCtx st c ;; ret1 VCtx (unwrap (rq_next x))
  | KSubstNew c e => x <- arg isCtx st c ;; ret1 VSubst (subst_new pr x e)
  | KZero c r => x <- arg isCtx st c ;; Ok [VPoly (poly_zero x r)]
  | KRandom c r f => x <- arg isCtx st c ;; Ok [VPoly (poly_random x r (sample_rows x f))]
  | KRandomSmall c r v w => x <- arg isCtx st c ;; ret1 VPoly (poly_random_small pr x r v w)
  | KFromU64 c a => x <- arg isCtx st c ;; ret1 VPoly (poly_from_u64 pr x a)
  | KFromI64 c a => x <- arg isCtx st c ;; ret1 VPoly (poly_from_i64 pr x a)
  | KFromBig c a => x <- arg isCtx st c ;; ret1 VPoly (poly_from_bigint x a)
  | KChange p r => x <- arg isPoly st p ;; ret1 VPoly (change_repr pr x r)
  | KBitDecomp p => x <- arg isPoly st p ;; apply_bit_decomposition pr x ;;; Ok []
  | KSubstitute p s => x <- arg isPoly st p ;; a <- arg isSubst st s ;; ret1 VPoly (poly_substitute pr x a)
  | KModSwitchNext p => x <- arg isPoly st p ;; ret1 VPoly (mod_switch_down_next pr x)
  | KModSwitchTo p c => x <- arg isPoly st p ;; y <- arg isCtx st c ;; ret1 VPoly (mod_switch_to pr x y)
  | KInverse p => x <- arg isPoly st p ;; ret1 VPoly (poly_inverse pr x)
  | KNegPoly p => x <- arg isPoly st p ;; ret1 VPoly (poly_neg pr x)
  | KPoly2 o p q => x <- arg isPoly st p ;; y <- arg isPoly st q ;; ret1 VPoly (exec_poly2 o x y)
  | KMulBig p k => x <- arg isPoly st p ;; ret1 VPoly (poly_mul_big pr x k)
  | KToBig p => x <- arg isPoly st p ;; ret1 VInts (poly_to_big x)
  | KToU64 p => x <- arg isPoly st p ;; ret1 VInts (poly_to_u64 x)
  | KScalerNew a b n d => x <- arg isCtx st a ;; y <- arg isCtx st b ;; f <- sf_new n d ;; ret1 VScaler (rq_scaler_new pr x y f)
  | KScale s p => x <- arg isScaler st s ;; y <- arg isPoly st p ;; ret1 VPoly (rq_scale pr x y)
  | KGenModuli sizes d => o <- generate_moduli pr env sizes d ;; Ok [VInts (match o with Some x => x | None => [] end)]
  | KBfvNew d t ms v bd => ret1 VParams (bfv_new pr env d t ms v bd)
  | KBfvDefault n d bd => ret1 VParams (bfv_default pr env n d bd)
  | KCtxAt P l => x <- arg isParams st P ;; ret1 VCtx (get (bp_q_ctxs x) l)
  | KCtxLevel P c => x <- arg isParams st P ;; y <- arg isCtx st c ;;
                     Ok [VInts (match ctx_level x y with Some l => [Z.of_nat l] | None => [] end)]
  | KPtNew P vals l e => x <- arg isParams st P ;; ret1 VPt (pt_new pr x vals l e)
  | KPtDecode p => x <- arg isPt st p ;; ret1 VInts (pt_decode pr x)
  | KPtSetEncoding p e => x <- arg isPt st p ;; Ok [VPt (pt_set_encoding x e)]
  | KPtToPoly p => x <- arg isPt st p ;; ret1 VPoly (pt_to_poly pr x)
  | KSkGenerate P w => x <- arg isParams st P ;; ret1 VSk (sk_generate pr x w)
  | KSkNew P cs => x <- arg isParams st P ;; Ok [VSk (mkSk x cs)]
  | KEncryptPoly k p f w => x <- arg isSk st k ;; y <- arg isPoly st p ;;
                            ret1 VCt (encrypt_poly pr x y (sample_rows (p_ctx y) f) w)
  | KEncrypt k p f w => x <- arg isSk st k ;; y <- arg isPt st p ;;
                        c <- get (bp_q_ctxs (pt_params y)) (pt_level y) ;;
                        ret1 VCt (encrypt pr x y (sample_rows c f) w)
  | KDecryptTrial k p q => x <- arg isSk st k ;; y <- arg isPoly st p ;; z <- arg isPoly st q ;; ret1 VPoly (decrypt_trial pr x y z)
  | KDecrypt k c => x <- arg isSk st k ;; y <- arg isCt st c ;; ret1 VPt (decrypt pr x y)
  | KMeasureNoise k c => x <- arg isSk st k ;; y <- arg isCt st c ;; retz (measure_noise pr x y)
  | KCtOf P ps l => x <- arg isParams st P ;; ys <- args isPoly st ps ;; Ok [VCt (mkCt x ys l)]
  | KCtParts c => x <- arg isCt st c ;; Ok (map VPoly (ct_cts x))
  | KCt2 o a b => x <- arg isCt st a ;; y <- arg isCt st b ;; ret1 VCt (exec_ct2 o x y)
  | KCtAddPoly c p => x <- arg isCt st c ;; y <- arg isPoly st p ;; ret1 VCt (ct_add_poly pr x y)
  | KCtMulPt c p => x <- arg isCt st c ;; y <- arg isPt st p ;; ret1 VCt (ct_mul_pt pr x y)
  | KCtMulPoly c p => x <- arg isCt st c ;; y <- arg isPoly st p ;; ret1 VCt (ct_mul_poly pr x y)
  | KCtMulBig c k => x <- arg isCt st c ;; ret1 VCt (ct_mul_big pr x k)
  | KMulStrategy a b r => x <- arg isCt st a ;; y <- arg isCt st b ;; z <- arg isRlk st r ;;
                          ret1 VCt (multiply_with_strategy pr x y z)
  | KKskNew k p cl kl r => x <- arg isSk st k ;; y <- arg isPoly st p ;; c <- get (bp_q_ctxs (sk_params x)) kl ;;
                           ret1 VKsk (ksk_new pr x y cl kl (rnd_for c r))
  | KKskNewPt k p cl kl r => x <- arg isSk st k ;; y <- arg isPt st p ;; c <- get (bp_q_ctxs (sk_params x)) kl ;;
                             ret1 VKsk (ksk_new_with_pt pr x y cl kl (rnd_for c r))
  | KKeySwitch k p => x <- arg isKsk st k ;; y <- arg isPoly st p ;;
                      '(a, b) <- key_switch pr x y ;; Ok [VPoly a; VPoly b]
  | KKskFromRlwes P cs => x <- arg isParams st P ;; ys <- args isCt st cs ;; ret1 VKsk (ksk_from_rlwes x ys)
  | KKskParts k => x <- arg isKsk st k ;; Ok (map VPoly (k_c0 x ++ k_c1 x))
  | KGkNew k s l r => x <- arg isSk st k ;; y <- arg isSubst st s ;; c <- get (bp_q_ctxs (sk_params x)) l ;;
                      ret1 VGk (galois_new pr x y l (rnd_for c r))
  | KGkRelin g c => x <- arg isGk st g ;; y <- arg isCt st c ;; ret1 VCt (galois_relinearize pr x y)
  | KRlkNew k l r => x <- arg isSk st k ;; c <- get (bp_q_ctxs (sk_params x)) l ;; ret1 VRlk (rlk_new pr x l (rnd_for c r))
  | KRelinPoly r p => x <- arg isRlk st r ;; y <- arg isPoly st p ;;
                      '(a, b) <- relinearize_poly pr x y ;; Ok [VPoly a; VPoly b]
  | KRgswEncPoly k p r0 r1 => x <- arg isSk st k ;; y <- arg isPoly st p ;;
                              l <- unwrap (ctx_level (sk_params x) (p_ctx y)) ;; c <- get (bp_q_ctxs (sk_params x)) l ;;
                              ret1 VRgsw (rgsw_encrypt_poly pr x y (rnd_for c r0) (rnd_for c r1))
  | KRgswEnc k p r0 r1 => x <- arg isSk st k ;; y <- arg isPt st p ;; c <- get (bp_q_ctxs (sk_params x)) (pt_level y) ;;
                          ret1 VRgsw (rgsw_encrypt pr x y (rnd_for c r0) (rnd_for c r1))
  | KExtProd r c => x <- arg isRgsw st r ;; y <- arg isCt st c ;;
                    '(a, b) <- external_product pr x y ;; Ok [VPoly a; VPoly b]
  | KRgswFromKsks a b => x <- arg isKsk st a ;; y <- arg isKsk st b ;; Ok [VRgsw (rgsw_from_ksks x y)]
  | KClientEncode fd d q rows => ret1 VInts (client_encode pr (mkClient fd d) q rows)
  | KServerNew fd d db P => x <- args isPt st db ;; y <- arg isParams st P ;; ret1 VServer (server_new pr fd d x y)
  | KServerDecode s cs e P => x <- arg isServer st s ;; ys <- args isCt st cs ;; z <- arg isEval st e ;; w <- arg isParams st P ;;
                              r <- server_decode pr x ys z w ;; Ok (map VCt r)
  | KEvalBuild k P r r0 r1 => x <- arg isSk st k ;; y <- arg isParams st P ;; c <- get (bp_q_ctxs (sk_params x)) 0 ;;
                              c0 <- get (bp_q_ctxs y) 0 ;; l <- unwrap (ctx_level (sk_params x) c0) ;;
                              c1 <- get (bp_q_ctxs (sk_params x)) l ;;
                              ret1 VEval (eval_build pr x y (fun i => rnd_for c (r i)) (rnd_for c1 r0) (rnd_for c1 r1))
  | KUnpack e c => x <- arg isEval st e ;; y <- arg isCt st c ;; r <- unpack pr x y ;; Ok (map VCt r)
  | KPvwPk sk P a w => ret1 VPvw (pvw_gen_pk pr sk P a w)
  | KPvwEnc pk P m e => r <- pvw_encrypt pr pk P m e ;; Ok [VPvw [r]]
  | KPvwDec sk P c => ret1 VInts (pvw_decrypt pr sk P c)
  | KInnerProduct cs ps => x <- args isCt st cs ;; y <- args isPoly st ps ;; ret1 VCt (inner_product pr x y)
  | KProcess P clues => '(b, a) <- process_clues pr env P clues ;; Ok (map VInts (b ++ a))
  end.

(** A whole program; every result is appended to the store. *)
Definition run (prog : list cmd) : outcome (list value) :=
  foldM (fun st c => vs <- exec st c ;; Ok (st ++ vs)) prog [].

End Exec.

(** Arguments a Rust caller can write: [usize] degrees and sizes and u64
    arguments of the two functions whose loops depend on the value. *)
Definition cmd_typed (c : cmd) : Prop :=
  match c with
  | KNttNew _ n | KCtxNew _ n _ | KBfvNew n _ _ _ _ | KBfvDefault _ n _ | KGenModuli _ n => Z.of_nat n < 2 ^ 64
  | KGenPrime _ m ub => 0 <= m < 2 ^ 64 /\ 0 <= ub < 2 ^ 64
  | KDecomposeBits m _ _ => 0 <= m < 2 ^ 64
  | _ => True
  end.
