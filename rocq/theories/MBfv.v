(** Model of /repo/src/bfv.rs: parameters, keys, plaintexts, ciphertexts.
    (GaliosKey, RelinearizationKey and multiply_with_strategy, which need
    ksk.rs, are in MGalois.v.) *)
From Verif Require Import Base MModulus MUtils MNtt MRns MRq.

(** src/bfv.rs:229-235 [struct MultiplicationParameters] *)
Record MulParams := mkMulParams {
  mu_from : RqContext; mu_to : RqContext; mu_up : RqScaler; mu_down : RqScaler }.

(** src/bfv.rs:24-43 [struct BfvParameters] *)
Record BfvParams := mkBfv {
  bp_degree : nat;
  bp_t : Z;
  bp_pt_ctx : RqContext;
  bp_moduli : list Z;
  bp_pt_ntt : option NttOp;
  bp_q_ctxs : list RqContext;
  bp_e_ctxs : list RqContext;
  bp_mul_params : list MulParams;
  bp_delta_ts : list Poly;
  bp_q_mod_ts : list Z;
  bp_scalars : list RqScaler;
  bp_index_map : list nat;
  bp_variance : Z }.

(** Derived [PartialEq] of BfvParameters (src/bfv.rs:24).  Simplification: the
    inputs of [BfvParameters::new] are compared (degree, plaintext modulus,
    moduli, variance, bit decomposition); all other fields are computed from
    them (C76 proves that this decides equality of all fields). *)
Definition params_eqb (a b : BfvParams) : bool :=
  (bp_degree a =? bp_degree b)%nat
  && (bp_t a =? bp_t b)
  && zlist_eqb (bp_moduli a) (bp_moduli b)
  && (bp_variance a =? bp_variance b)
  && ctx_eqb (bp_pt_ctx a) (bp_pt_ctx b).

(** Subtraction of BigUint: below zero it panics. *)
Definition big_sub (a b : Z) : outcome Z := rassert (b <=? a) ;;; Ok (a - b).

(** [Vec::contains] *)
Definition zmem (x : Z) (l : list Z) : bool := existsb (Z.eqb x) l.

(** src/bfv.rs:143-158: the SIMD slot map.  State: [pos] and the map. *)
Fixpoint index_map_loop (degree : nat) (count i : nat) (pos : Z) (mp : list nat)
  : outcome (list nat) :=
  match count with
  | O => Ok mp
  | S c =>
      let row_size := Nat.div2 degree in
      let m := Z.shiftl (Z.of_nat degree) 1 in
      let index1 := Z.shiftr (pos - 1) 1 in
      let index2 := m - pos - 1 in
      mp1 <- set mp i (Z.to_nat (bitrev_usize degree index1)) ;;
      mp2 <- set mp1 (Nat.lor row_size i) (Z.to_nat (bitrev_usize degree index2)) ;;
      index_map_loop degree c (S i) (Z.land (pos * 3) (m - 1)) mp2
  end.
Definition index_map (degree : nat) : outcome (list nat) :=
  index_map_loop degree (Nat.div2 degree) 0 1 (repeat 0%nat degree).

Section Bfv.
Variable pr : profile.
Variable env : Env.

(** src/bfv.rs:54-63: extended basis.  Each iteration strictly decreases
    [upper_bound], so it yields a prime not yet in [ext]; at most
    [length moduli] iterations are skipped, hence the fuel used below. *)
Fixpoint gen_ext_loop (fuel : nat) (degree : nat) (moduli ext : list Z) (ub : Z)
  : outcome (list Z) :=
  if (length ext =? length moduli + 1)%nat then Ok ext
  else match fuel with
       | O => NoFuel
       | S f =>
           o <- generate_prime pr (is_prime env) 62 (Z.of_nat (2 * degree)) ub ;;
           ub' <- unwrap o ;;
           gen_ext_loop f degree moduli
             (if negb (zmem ub' ext) && negb (zmem ub' moduli) then ext ++ [ub'] else ext) ub'
       end.
Definition gen_ext (degree : nat) (moduli : list Z) : outcome (list Z) :=
  gen_ext_loop (2 * length moduli + 2) degree moduli [] (2 ^ 62).

(** src/bfv.rs:237-251 [MultiplicationParameters::new] *)
Definition mul_params_new (from to : RqContext) (up down : ScalingFactor) : outcome MulParams :=
  u <- rq_scaler_new pr from to up ;;
  d <- rq_scaler_new pr to from down ;;
  Ok (mkMulParams from to u d).

(** src/bfv.rs:89-139: the parameters of one level *)
Definition level_params (degree : nat) (t : Z) (moduli ext t_invs : list Z)
           (bd : BitDecomp) (pt_ctx : RqContext) (i : nat)
  : outcome (RqContext * Z * Poly * RqScaler * RqContext * MulParams) :=
  let ms := firstn (length moduli - i) moduli in
  q_ctx <- rq_new pr env ms degree bd ;;
  qm <- umod (rns_product (rq_rns q_ctx)) t ;;
  q_mod_t <- unwrap (to_u64 qm) ;;
  d <- rns_lift (rq_rns q_ctx) t_invs ;;
  dp <- poly_from_bigint q_ctx [d] ;;
  delta <- change_repr pr dp Ntt ;;
  sf <- sf_new t (rns_product (rq_rns q_ctx)) ;;
  scalar <- rq_scaler_new pr q_ctx pt_ctx sf ;;
  let size_sum := fold_left Z.add (map (fun q => 64 - leading_zeros 64 q) ms) 0 in
  count <- div_ceil pr W64 (size_sum + 60) 62 ;;
  e <- slice_to ext (Z.to_nat count) ;;
  e_ctx <- rq_new pr env (ms ++ e) degree bd ;;
  up <- sf_new 1 1 ;;
  down <- sf_new t (rns_product (rq_rns q_ctx)) ;;
  mul <- mul_params_new q_ctx e_ctx up down ;;
  Ok (q_ctx, q_mod_t, delta, scalar, e_ctx, mul).

(** src/bfv.rs:65-181: construction from a given extended basis. *)
Definition bfv_new_from (ext : list Z) (degree : nat) (t : Z) (moduli : list Z)
           (variance : Z) (bd : BitDecomp) : outcome BfvParams :=
  t_invs <- mapM (fun q => m <- modulus_new q ;; nt <- mneg pr m t ;; minv pr m nt) moduli ;;
  q0 <- get moduli 0 ;;
  pt_ctx <- rq_new pr env [q0] degree bd ;;
  lvls <- mapM (level_params degree t moduli ext t_invs bd pt_ctx) (seq 0 (length moduli)) ;;
  map_ <- index_map degree ;;
  tm <- modulus_new t ;;
  pt_ntt <- ntt_new pr env tm degree ;;
  Ok (mkBfv degree t pt_ctx moduli (Some pt_ntt)
            (map (fun '(q, _, _, _, _, _) => q) lvls)
            (map (fun '(_, _, _, _, e, _) => e) lvls)
            (map (fun '(_, _, _, _, _, m) => m) lvls)
            (map (fun '(_, _, d, _, _, _) => d) lvls)
            (map (fun '(_, qm, _, _, _, _) => qm) lvls)
            (map (fun '(_, _, _, s, _, _) => s) lvls)
            map_ variance).

(** src/bfv.rs:46-182 [BfvParameters::new] *)
Definition bfv_new (degree : nat) (t : Z) (moduli : list Z) (variance : Z) (bd : BitDecomp)
  : outcome BfvParams :=
  ext <- gen_ext degree moduli ;;
  bfv_new_from ext degree t moduli variance bd.

(** src/bfv.rs:184-191 [ctx_level] *)
Fixpoint ctx_level_loop (l : list RqContext) (of : RqContext) (i : nat) : option nat :=
  match l with
  | [] => None
  | c :: l' => if ctx_eqb of c then Some i else ctx_level_loop l' of (S i)
  end.
Definition ctx_level (P : BfvParams) (of : RqContext) : option nat :=
  ctx_level_loop (bp_q_ctxs P) of 0.

(** src/bfv.rs:211-222: inner loop of [generate_moduli] for one size; at most
    [length moduli] primes are skipped. *)
Fixpoint gen_moduli_one (fuel : nat) (size : Z) (degree : nat) (moduli : list Z) (ub : Z)
  : outcome (option Z) :=
  match fuel with
  | O => NoFuel
  | S f =>
      o <- generate_prime pr (is_prime env) size (2 * Z.of_nat degree) ub ;;
      match o with
      | None => Ok None
      | Some p => if zmem p moduli then gen_moduli_one f size degree moduli p
                  else Ok (Some p)
      end
  end.

(** src/bfv.rs:205-226 [generate_moduli] *)
Fixpoint gen_moduli_loop (sizes : list Z) (degree : nat) (moduli : list Z)
  : outcome (option (list Z)) :=
  match sizes with
  | [] => Ok (Some moduli)
  | size :: rest =>
      rassert ((size <=? 62) && (10 <=? size)) ;;;
      o <- gen_moduli_one (S (length moduli)) size degree moduli (2 ^ size) ;;
      match o with
      | None => Ok None
      | Some p => gen_moduli_loop rest degree (moduli ++ [p])
      end
  end.
Definition generate_moduli (sizes : list Z) (degree : nat) : outcome (option (list Z)) :=
  gen_moduli_loop sizes degree [].

(** src/bfv.rs:193-200 [default] *)
Definition bfv_default (num : nat) (degree : nat) (bd : BitDecomp) : outcome BfvParams :=
  o <- generate_moduli (repeat 62 num) degree ;;
  moduli <- unwrap o ;;
  bfv_new degree 1153 moduli 10 bd.

(** src/bfv.rs:567-580 [Encoding], [struct Plaintext] *)
Inductive encoding := EncPoly | EncSIMD | EncNone.
Record Plaintext := mkPt {
  pt_params : BfvParams; pt_level : nat; pt_enc : encoding; pt_values : list Z }.

(** src/bfv.rs:417-422 [struct BfvCipherText] *)
Record Ct := mkCt { ct_params : BfvParams; ct_cts : list Poly; ct_level : nat }.

(** src/bfv.rs:272-276 [struct SecretKey]; [new] 292-297 is the constructor *)
Record SecretKey := mkSk { sk_params : BfvParams; sk_coeffs : list Z }.

(** src/bfv.rs:583-609 [Plaintext::new] *)
Definition pt_new (P : BfvParams) (values : list Z) (level : nat) (enc : encoding)
  : outcome Plaintext :=
  let zeros := repeat 0 (bp_degree P) in
  vals <- match enc with
          | EncPoly => copy_prefix zeros values
          | EncSIMD =>
              v <- foldM (fun acc i =>
                            k <- get (bp_index_map P) i ;;
                            x <- get values i ;;
                            set acc k x) (seq 0 (bp_degree P)) zeros ;;
              op <- unwrap (bp_pt_ntt P) ;;
              ntt_backward pr op v
          | EncNone => Panic
          end ;;
  Ok (mkPt P level enc vals).

(** src/bfv.rs:611-628 [decode] *)
Definition pt_decode (p : Plaintext) : outcome (list Z) :=
  let P := pt_params p in
  match pt_enc p with
  | EncPoly => rassert (length (pt_values p) =? bp_degree P)%nat ;;; Ok (pt_values p)
  | EncSIMD =>
      op <- unwrap (bp_pt_ntt P) ;;
      v <- ntt_forward pr op (pt_values p) ;;
      mapM (fun i => k <- get (bp_index_map P) i ;; get v k) (seq 0 (bp_degree P))
  | EncNone => Panic
  end.

(** src/bfv.rs:630-632 [set_encoding] *)
Definition pt_set_encoding (p : Plaintext) (e : encoding) : Plaintext :=
  mkPt (pt_params p) (pt_level p) e (pt_values p).

(** src/bfv.rs:634-654 [to_poly] *)
Definition pt_to_poly (p : Plaintext) : outcome Poly :=
  let P := pt_params p in
  q_mod_t <- get (bp_q_mod_ts P) (pt_level p) ;;
  q_ctx <- get (bp_q_ctxs P) (pt_level p) ;;
  delta <- get (bp_delta_ts P) (pt_level p) ;;
  tm <- modulus_new (bp_t P) ;;
  values <- scalar_mul_vec pr tm (pt_values p) q_mod_t ;;
  poly <- poly_from_u64 pr q_ctx values ;;
  poly' <- change_repr pr poly Ntt ;;
  poly_mul pr poly' delta.

(** src/bfv.rs:279-290 [SecretKey::generate] *)
Definition sk_generate (P : BfvParams) (w : nat -> Z) : outcome SecretKey :=
  c <- sample_vec_cbd pr (bp_degree P) (bp_variance P) w ;;
  Ok (mkSk P c).

(** [Poly::try_from_vec_i64(ctx, coeffs)] changed to Ntt, as done in
    src/bfv.rs:300-301, 338-339, 348-349, 391-392 and ksk.rs:61-62. *)
Definition sk_ntt (ctx : RqContext) (coeffs : list Z) : outcome Poly :=
  s <- poly_from_i64 pr ctx coeffs ;; change_repr pr s Ntt.

(** src/bfv.rs:299-329 [encrypt_poly].  [a_rows] are the rows expanded from
    the random seed, [w] the generator words used for the error. *)
Definition encrypt_poly (sk : SecretKey) (pt : Poly) (a_rows : list (list Z)) (w : nat -> Z)
  : outcome Ct :=
  s <- sk_ntt (p_ctx pt) (sk_coeffs sk) ;;
  let a := poly_random (p_ctx pt) Ntt a_rows in
  a_s <- poly_mul pr a s ;;
  b <- poly_random_small pr (p_ctx pt) Ntt (bp_variance (sk_params sk)) w ;;
  b1 <- poly_sub pr b a_s ;;
  b2 <- poly_add pr b1 pt ;;
  Ok (mkCt (sk_params sk) [b2; a] 0).

(** src/bfv.rs:331-334 [encrypt] *)
Definition encrypt (sk : SecretKey) (pt : Plaintext) (a_rows : list (list Z)) (w : nat -> Z)
  : outcome Ct :=
  poly <- pt_to_poly pt ;; encrypt_poly sk poly a_rows w.

(** src/bfv.rs:336-345 [decrypt_trial] *)
Definition decrypt_trial (sk : SecretKey) (c0 c1 : Poly) : outcome Poly :=
  rassert (ctx_eqb (p_ctx c0) (p_ctx c1)) ;;;
  s <- sk_ntt (p_ctx c0) (sk_coeffs sk) ;;
  v <- poly_mul pr s c1 ;;
  poly_add pr v c0.

(** src/bfv.rs:353-356: accumulation of the phase; state (m, sk_i). *)
Definition phase_loop (s : Poly) (cs : list Poly) (m sk_i : Poly) : outcome (Poly * Poly) :=
  foldM (fun (st : Poly * Poly) c =>
           t <- poly_mul pr (snd st) c ;;
           m' <- poly_add pr (fst st) t ;;
           s' <- poly_mul pr (snd st) s ;;
           Ok (m', s')) cs (m, sk_i).

(** src/bfv.rs:347-382 [decrypt] *)
Definition decrypt (sk : SecretKey) (ct : Ct) : outcome Plaintext :=
  let P := sk_params sk in
  c0 <- get (ct_cts ct) 0 ;;
  s <- sk_ntt (p_ctx c0) (sk_coeffs sk) ;;
  '(m, _) <- phase_loop s (tl (ct_cts ct)) c0 s ;;
  m1 <- change_repr pr m PowerBasis ;;
  sc <- get (bp_scalars P) (ct_level ct) ;;
  m2 <- rq_scale pr sc m1 ;;
  row0 <- get (p_rows m2) 0 ;;
  v1 <- mapM (fun a => add64 pr a (bp_t P)) row0 ;;
  v2 <- slice_to v1 (bp_degree P) ;;
  qc <- get (bp_q_ctxs P) (ct_level ct) ;;
  q <- get (rq_moduli qc) 0 ;;
  v3 <- reduce_vec_u64 pr q v2 ;;
  tm <- modulus_new (bp_t P) ;;
  v4 <- reduce_vec_u64 pr tm v3 ;;
  Ok (mkPt P (ct_level ct) EncNone v4).

(** src/bfv.rs:386-409 [measure_noise]; the subtraction panics when a
    coefficient, lifted in the context of component 1, exceeds the modulus of
    the ciphertext's level. *)
Definition measure_noise (sk : SecretKey) (ct : Ct) : outcome Z :=
  pt <- decrypt sk ct ;;
  ideal <- pt_to_poly pt ;;
  ctx <- get (bp_q_ctxs (sk_params sk)) (ct_level ct) ;;
  s <- sk_ntt ctx (sk_coeffs sk) ;;
  c1 <- get (ct_cts ct) 1 ;;
  m0 <- poly_mul pr c1 s ;;
  c0 <- get (ct_cts ct) 0 ;;
  m1 <- poly_add pr m0 c0 ;;
  m2 <- poly_sub pr m1 ideal ;;
  m3 <- change_repr pr m2 PowerBasis ;;
  coeffs <- poly_to_big m3 ;;
  let Q := rns_product (rq_rns ctx) in
  foldM (fun noise c => d <- big_sub Q c ;; Ok (Z.max noise (Z.min (bitlen c) (bitlen d)))) coeffs 0.

(** src/bfv.rs:424-439 [Add<&BfvCipherText>] *)
Definition ct_add (a b : Ct) : outcome Ct :=
  rassert (params_eqb (ct_params a) (ct_params b)) ;;;
  rassert (ct_level a =? ct_level b)%nat ;;;
  a0 <- get (ct_cts a) 0 ;; b0 <- get (ct_cts b) 0 ;;
  c0 <- poly_add pr a0 b0 ;;
  a1 <- get (ct_cts a) 1 ;; b1 <- get (ct_cts b) 1 ;;
  c1 <- poly_add pr a1 b1 ;;
  Ok (mkCt (ct_params a) [c0; c1] (ct_level a)).

(** src/bfv.rs:441-455 [Add<&Poly>]: the polynomial is added to both
    components. *)
Definition ct_add_poly (a : Ct) (p : Poly) : outcome Ct :=
  a0 <- get (ct_cts a) 0 ;;
  rassert (ctx_eqb (p_ctx a0) (p_ctx p)) ;;;
  c0 <- poly_add pr a0 p ;;
  a1 <- get (ct_cts a) 1 ;;
  c1 <- poly_add pr a1 p ;;
  Ok (mkCt (ct_params a) [c0; c1] (ct_level a)).

(** src/bfv.rs:457-472 [Sub<&BfvCipherText>] *)
Definition ct_sub (a b : Ct) : outcome Ct :=
  rassert (params_eqb (ct_params a) (ct_params b)) ;;;
  rassert (ct_level a =? ct_level b)%nat ;;;
  a0 <- get (ct_cts a) 0 ;; b0 <- get (ct_cts b) 0 ;;
  c0 <- poly_sub pr a0 b0 ;;
  a1 <- get (ct_cts a) 1 ;; b1 <- get (ct_cts b) 1 ;;
  c1 <- poly_sub pr a1 b1 ;;
  Ok (mkCt (ct_params a) [c0; c1] (ct_level a)).

(** src/bfv.rs:474-514 [Mul<&BfvCipherText>]: [cs[i + j]] is overwritten, not
    accumulated.  (80 is the size of a Poly in bytes: with two empty operands a
    Release build wraps the length and the allocation panics.) *)
Definition ct_mul (a b : Ct) : outcome Ct :=
  rassert (ct_level b =? ct_level a)%nat ;;;
  mu <- get (bp_mul_params (ct_params a)) (ct_level a) ;;
  sa <- mapM (rq_scale pr (mu_up mu)) (ct_cts a) ;;
  sb <- mapM (rq_scale pr (mu_up mu)) (ct_cts b) ;;
  n <- sub64 pr (Z.of_nat (length (ct_cts a) + length (ct_cts b))) 1 ;;
  cs <- vec_repeat (poly_zero (mu_to mu) Ntt) n 80 ;;
  cs <- foldM (fun cs (ij : nat * nat) =>
                 x <- get sa (fst ij) ;;
                 y <- get sb (snd ij) ;;
                 p <- poly_mul pr x y ;;
                 set cs (fst ij + snd ij) p)
              (list_prod (seq 0 (length (ct_cts a))) (seq 0 (length (ct_cts b)))) cs ;;
  cs' <- mapM (rq_scale pr (mu_down mu)) cs ;;
  Ok (mkCt (ct_params a) cs' (ct_level a)).

(** src/bfv.rs:516-534 [Mul<&Plaintext>] *)
Definition ct_mul_pt (a : Ct) (p : Plaintext) : outcome Ct :=
  rassert (ct_level a =? pt_level p)%nat ;;;
  ctx <- get (bp_q_ctxs (ct_params a)) (ct_level a) ;;
  m <- poly_from_u64 pr ctx (pt_values p) ;;
  m' <- change_repr pr m Ntt ;;
  a0 <- get (ct_cts a) 0 ;; c0 <- poly_mul pr a0 m' ;;
  a1 <- get (ct_cts a) 1 ;; c1 <- poly_mul pr a1 m' ;;
  Ok (mkCt (ct_params a) [c0; c1] (ct_level a)).

(** src/bfv.rs:536-551 [Mul<&Poly>] *)
Definition ct_mul_poly (a : Ct) (p : Poly) : outcome Ct :=
  a0 <- get (ct_cts a) 0 ;;
  rassert (ctx_eqb (p_ctx p) (p_ctx a0)) ;;;
  rassert (repr_eqb (p_repr p) Ntt) ;;;
  c0 <- poly_mul pr a0 p ;;
  a1 <- get (ct_cts a) 1 ;; c1 <- poly_mul pr a1 p ;;
  Ok (mkCt (ct_params a) [c0; c1] (ct_level a)).

(** src/bfv.rs:553-565 [Mul<&BigUint>] *)
Definition ct_mul_big (a : Ct) (k : Z) : outcome Ct :=
  a0 <- get (ct_cts a) 0 ;; c0 <- poly_mul_big pr a0 k ;;
  a1 <- get (ct_cts a) 1 ;; c1 <- poly_mul_big pr a1 k ;;
  Ok (mkCt (ct_params a) [c0; c1] (ct_level a)).

End Bfv.
