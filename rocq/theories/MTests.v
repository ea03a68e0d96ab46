(** Model of the crate's own test programs.  Randomness (keys, samples, messages)
    is an input; the loops "for _ in 0..100" are one iteration; an [assert] that
    fails panics.  Printed values ([dbg!], [println!]) are returned. *)
From Verif Require Import Base MModulus MUtils MNtt MRns MRq MBfv MKsk MGalois MRgsw MEval MRgswT.

(** Derived [PartialEq] of Poly (src/rq.rs:259). *)
Definition poly_eqb (a b : Poly) : bool :=
  ctx_eqb (p_ctx a) (p_ctx b) && repr_eqb (p_repr a) (p_repr b)
  && (length (p_rows a) =? length (p_rows b))%nat
  && forallb (fun x => zlist_eqb (fst x) (snd x)) (combine (p_rows a) (p_rows b)).

(** Randomness of one encryption: the uniform rows and the words of the error. *)
Record RndEnc := mkRndEnc { re_rows : list (list Z); re_words : nat -> Z }.

Section Tests.
Variable pr : profile.
Variable env : Env.

(** src/ntt.rs:267-281 [bijection] *)
Definition test_bijection (vals : list Z) : outcome unit :=
  m <- modulus_new 1153 ;;
  op <- ntt_new pr env m 8 ;;
  p <- ntt_forward pr op vals ;;
  p' <- ntt_backward pr op p ;;
  rassert (zlist_eqb p' vals).

(** src/rq.rs:693-710 [change_representation] *)
Definition test_change_representation (rows : list (list Z)) : outcome unit :=
  P <- bfv_default pr env 1 8 (mkBD 4 8) ;;
  rq <- get (bp_q_ctxs P) 0 ;;
  let p := poly_random rq PowerBasis rows in
  p1 <- change_repr pr p Ntt ;;
  p2 <- change_repr pr p1 PowerBasis ;;
  rassert (poly_eqb p2 p).

(** src/rq.rs:713-726 [substitute]; returns the two printed polynomials. *)
Definition test_moduli : list Z :=
  [1153; 4611686018326724609; 4611686018309947393; 4611686018232352769; 4611686018171535361].
Definition test_substitute (rows : list (list Z)) : outcome (Poly * Poly) :=
  ctx <- rq_new pr env test_moduli 8 (mkBD 4 8) ;;
  let q := poly_random ctx PowerBasis rows in
  p <- change_repr pr q Ntt ;;
  s1 <- subst_new pr ctx 3 ;;
  p3 <- poly_substitute pr p s1 ;;
  s2 <- subst_new pr ctx 11 ;;
  p4 <- poly_substitute pr p3 s2 ;;
  p5 <- change_repr pr p4 PowerBasis ;;
  Ok (p5, q).

(** src/rq.rs:740-757: the loop of [mod_switch]. *)
Fixpoint mod_switch_test_loop (current : RqContext) (poly : Poly) (last_poly : list Z) {struct current} : outcome unit :=
  match current with
  | mkRq _ _ rns _ _ _ next _ _ _ =>
    match next with
    | None => Ok tt
    | Some current' =>
        let denom := rns_product rns in
        let num := rns_product (rq_rns current') in
        poly' <- mod_switch_down_next pr poly ;;
        rassert (ctx_eqb (p_ctx poly') current') ;;;
        p <- poly_to_big poly' ;;
        let expected := map (fun coeff => ((coeff * num + Z.shiftr denom 1) / denom) mod num) last_poly in
        rassert (zlist_eqb p expected) ;;;
        mod_switch_test_loop current' poly' expected
    end
  end.
(** src/rq.rs:730-758 [mod_switch] *)
Definition test_mod_switch (rows : list (list Z)) : outcome unit :=
  ctx <- rq_new pr env test_moduli 8 (mkBD 4 3) ;;
  let poly := poly_random ctx PowerBasis rows in
  last_poly <- poly_to_big poly ;;
  mod_switch_test_loop ctx poly last_poly.

(** src/bfv.rs:778-805 [encrypt_decrypt], one iteration after the parameters. *)
Definition test_encrypt_decrypt_poly (P : BfvParams) (sk : SecretKey) (vals : list Z) (r : RndEnc) : outcome unit :=
  pt <- pt_new pr P vals 0 EncPoly ;;
  ct <- encrypt pr sk pt (re_rows r) (re_words r) ;;
  pt' <- decrypt pr sk ct ;;
  v <- pt_decode pr (pt_set_encoding pt' EncPoly) ;;
  rassert (zlist_eqb vals v).
Definition test_encrypt_decrypt_simd (P : BfvParams) (sk : SecretKey) (vals : list Z) (r : RndEnc) : outcome unit :=
  pt <- pt_new pr P vals 0 EncSIMD ;;
  ct <- encrypt pr sk pt (re_rows r) (re_words r) ;;
  pt' <- decrypt pr sk ct ;;
  v <- pt_decode pr (pt_set_encoding pt' EncSIMD) ;;
  rassert (zlist_eqb vals v).
Definition test_encrypt_decrypt (wsk : nat -> Z) (vals : list Z) (r1 r2 : RndEnc) : outcome unit :=
  P <- bfv_default pr env 6 8 (mkBD 4 8) ;;
  sk <- sk_generate pr P wsk ;;
  test_encrypt_decrypt_poly P sk vals r1 ;;;
  test_encrypt_decrypt_simd P sk vals r2.

(** src/bfv.rs:808-832 [mul_op]; returns the printed plaintext. *)
Definition test_mul_op (wsk : nat -> Z) (r1 r2 : RndEnc) (rk : RndKsk) : outcome (list Z) :=
  P <- bfv_default pr env 6 8 (mkBD 4 8) ;;
  sk <- sk_generate pr P wsk ;;
  pt1 <- pt_new pr P [100] 0 EncPoly ;;
  ct1 <- encrypt pr sk pt1 (re_rows r1) (re_words r1) ;;
  pt2 <- pt_new pr P [200] 0 EncPoly ;;
  ct2 <- encrypt pr sk pt2 (re_rows r2) (re_words r2) ;;
  rlk <- rlk_new pr sk 0 rk ;;
  ct3 <- multiply_with_strategy pr ct1 ct2 rlk ;;
  m <- decrypt pr sk ct3 ;;
  Ok (pt_values m).

(** src/bfv.rs:835-867 [galois_key], one iteration *)
Definition test_galois_key (wsk : nat -> Z) (v : list Z) (r : RndEnc) (rk : RndKsk) : outcome unit :=
  P <- bfv_default pr env 2 8 (mkBD 4 8) ;;
  sk <- sk_generate pr P wsk ;;
  ctx <- get (bp_q_ctxs P) 0 ;;
  subs <- subst_new pr ctx 3 ;;
  gk <- galois_new pr sk subs 0 rk ;;
  pt <- pt_new pr P v 0 EncPoly ;;
  ct <- encrypt pr sk pt (re_rows r) (re_words r) ;;
  ct2 <- galois_relinearize pr gk ct ;;
  vr <- decrypt pr sk ct2 ;;
  pt_ctx <- rq_new pr env [bp_t P] (bp_degree P) (mkBD 4 8) ;;
  ex <- poly_from_u64 pr pt_ctx v ;;
  ex' <- poly_substitute pr ex subs ;;
  l <- poly_to_u64 ex' ;;
  rassert (zlist_eqb (pt_values vr) l).

(** src/ksk.rs:198-221 [ksk_with_pt]; returns the printed plaintext. *)
Definition test_ksk_with_pt (wsk : nat -> Z) (rk : RndKsk) : outcome (list Z) :=
  P <- bfv_default pr env 2 8 (mkBD 4 8) ;;
  sk <- sk_generate pr P wsk ;;
  pt <- pt_new pr P [5] 0 EncPoly ;;
  k <- ksk_new_with_pt pr sk pt 0 0 rk ;;
  ctx <- get (bp_q_ctxs P) 0 ;;
  mul_poly <- poly_from_u64 pr ctx [34] ;;
  '(c0, c1) <- key_switch pr k mul_poly ;;
  m <- decrypt pr sk (mkCt P [c0; c1] 0) ;;
  Ok (pt_values m).

(** src/ksk.rs:224-264 [ksk], one iteration; the code has [limit] = 70. *)
Definition test_ksk (limit : Z) (wsk : nat -> Z) (from_rows input_rows : list (list Z)) (rk : RndKsk) : outcome unit :=
  P <- bfv_default pr env 2 8 (mkBD 4 8) ;;
  ctx <- get (bp_q_ctxs P) 0 ;;
  sk <- sk_generate pr P wsk ;;
  sk_poly <- sk_ntt pr ctx (sk_coeffs sk) ;;
  let from_poly := poly_random ctx Ntt from_rows in
  k <- ksk_new pr sk from_poly 0 0 rk ;;
  let input := poly_random ctx PowerBasis input_rows in
  '(c0, c1) <- key_switch pr k input ;;
  product <- poly_mul pr c1 sk_poly ;;
  product' <- poly_add pr product c0 ;;
  from_poly' <- change_repr pr from_poly Ntt ;;
  input' <- change_repr pr input Ntt ;;
  product_ex <- poly_mul pr from_poly' input' ;;
  diff <- poly_sub pr product_ex product' ;;
  diff' <- change_repr pr diff PowerBasis ;;
  rns <- rns_new (bp_moduli P) ;;
  l <- poly_to_big diff' ;;
  foldM (fun _ b => rassert (Z.min (bitlen b) (bitlen (rns_product rns - b)) <=? limit)) l tt.

(** src/rgsw.rs:187-242 [construct_full_from_half]; returns the printed product
    (without the noise measurement). *)
Definition test_full_from_half (wsk : nat -> Z) (rk rk0 rk1 : RndKsk) (m_values : list Z) (r : RndEnc) : outcome (list Z) :=
  P <- bfv_default pr env 3 8 (mkBD 4 8) ;;
  sk <- sk_generate pr P wsk ;;
  ctx <- get (bp_q_ctxs P) 0 ;;
  sk_poly <- sk_ntt pr ctx (sk_coeffs sk) ;;
  sk_rgsw <- rgsw_encrypt_poly pr sk sk_poly rk0 rk1 ;;
  b_ksk <- ksk_new_with_pt pr sk (mkPt P 0 EncPoly [1]) 0 0 rk ;;
  rg <- full_from_half pr P sk_rgsw b_ksk ;;
  m0 <- poly_from_u64 pr ctx m_values ;;
  m <- change_repr pr m0 Ntt ;;
  m_ct <- encrypt_poly pr sk m (re_rows r) (re_words r) ;;
  '(c0, c1) <- external_product pr rg m_ct ;;
  product <- decrypt pr sk (mkCt P [c0; c1] 0) ;;
  Ok (pt_values product).

(** src/rgsw.rs:245-296 [contruct_ksk_from_rgsw]; returns the printed plaintext. *)
Definition test_ksk_from_rgsw (wsk : nat -> Z) (rk rk0 rk1 : RndKsk) : outcome (list Z) :=
  P <- bfv_default pr env 6 8 (mkBD 4 8) ;;
  sk <- sk_generate pr P wsk ;;
  ctx <- get (bp_q_ctxs P) 0 ;;
  m <- pt_new pr P [2] 0 EncPoly ;;
  rg <- rgsw_encrypt pr sk m rk0 rk1 ;;
  m' <- pt_new pr P [2] 0 EncPoly ;;
  ksk1 <- ksk_new_with_pt pr sk m' 0 0 rk ;;
  ksk2 <- ksk_transform pr rg ksk1 ;;
  p1 <- poly_from_u64 pr ctx [3] ;;
  '(c0, c1) <- key_switch pr ksk2 p1 ;;
  r <- decrypt pr sk (mkCt P [c0; c1] 0) ;;
  Ok (pt_values r).

(** src/rgsw.rs:299-341 [external_product], one iteration *)
Definition test_external_product (wsk : nat -> Z) (v1 v2 : list Z) (r : RndEnc) (rk0 rk1 : RndKsk) : outcome unit :=
  P <- bfv_default pr env 6 8 (mkBD 4 8) ;;
  sk <- sk_generate pr P wsk ;;
  pt <- pt_new pr P v1 0 EncPoly ;;
  ct <- encrypt pr sk pt (re_rows r) (re_words r) ;;
  ctx <- get (bp_q_ctxs P) 0 ;;
  m2 <- poly_from_u64 pr ctx v2 ;;
  m2' <- change_repr pr m2 Ntt ;;
  rg <- rgsw_encrypt_poly pr sk m2' rk0 rk1 ;;
  '(c0, c1) <- external_product pr rg ct ;;
  product <- decrypt pr sk (mkCt P [c0; c1] 0) ;;
  rp <- rq_new pr env [bp_t P] (bp_degree P) (mkBD 4 8) ;;
  p1 <- poly_from_u64 pr rp v1 ;;
  p2 <- poly_from_u64 pr rp v2 ;;
  p1' <- change_repr pr p1 Ntt ;;
  p2' <- change_repr pr p2 Ntt ;;
  ex <- poly_mul pr p1' p2' ;;
  ex' <- change_repr pr ex PowerBasis ;;
  tm <- modulus_new (bp_t P) ;;
  values <- reduce_vec_u64 pr tm (concat (p_rows ex')) ;;
  rassert (zlist_eqb (pt_values product) values).

(** The evaluation tests, from the parameters on, up to the first call of
    [unpack] (after which they return what [rest] computes). *)
Section Unpacking.
Variable A : Type.

(** src/evaluations.rs:332-417 [pack_and_construct_rgsw]; iterators are lazy, so
    the first encrypted polynomial is unpacked before the second is encrypted. *)
Definition test_pack_and_construct (P : BfvParams) (wsk : nat -> Z) (rnd : nat -> RndKsk) (rk0 rk1 : RndKsk) (rs : nat -> RndEnc)
           (rest : list (list Ct) -> outcome A) : outcome A :=
  sk <- sk_generate pr P wsk ;;
  ctx <- get (bp_q_ctxs P) 0 ;;
  q0 <- poly_from_u64 pr ctx [1; 0; 1; 0] ;;
  q <- change_repr pr q0 Ntt ;;
  ev <- eval_build pr sk P rnd rk0 rk1 ;;
  un <- mapM (fun i => g <- get (rns_garner (rq_rns ctx)) i ;;
                       qp <- poly_mul_big pr q g ;;
                       ct <- encrypt_poly pr sk qp (re_rows (rs i)) (re_words (rs i)) ;;
                       unpack pr ev ct) (seq 0 (length (rns_garner (rq_rns ctx)))) ;;
  rest un.

(** src/evaluations.rs:421-465 [query]; the database holds [i; i; i; i]. *)
Definition test_query (P : BfvParams) (wsk : nat -> Z) (r : RndEnc) (rq : RndKsk) (rnd : nat -> RndKsk) (rk0 rk1 : RndKsk)
           (rest : list Ct -> outcome A) : outcome A :=
  db <- mapM (fun i => pt_new pr P [Z.of_nat i; Z.of_nat i; Z.of_nat i; Z.of_nat i] 0 EncPoly) (seq 0 16) ;;
  sk <- sk_generate pr P wsk ;;
  enc <- client_encode pr (mkClient 4 2) [3; 1; 1]%nat (length db) ;;
  cts <- client_query pr sk P 4 enc (re_rows r) (re_words r) rq ;;
  ev <- eval_build pr sk P rnd rk0 rk1 ;;
  srv <- server_new pr 4 2 db P ;;
  out <- server_decode pr srv cts ev P ;;
  rest out.

(** src/evaluations.rs:551-591 [unpack] *)
Definition test_unpack (P : BfvParams) (wsk : nat -> Z) (vals : list Z) (r : RndEnc) (rnd : nat -> RndKsk) (rk0 rk1 : RndKsk)
           (rest : list Ct -> outcome A) : outcome A :=
  sk <- sk_generate pr P wsk ;;
  ev <- eval_build pr sk P rnd rk0 rk1 ;;
  pt <- pt_new pr P vals 0 EncPoly ;;
  ct <- encrypt pr sk pt (re_rows r) (re_words r) ;;
  un <- unpack pr ev ct ;;
  rest un.

(** src/evaluations.rs:469-498 [client_encode], with Client::default (22-29); two
    secret keys are drawn *)
Definition test_client_encode (P : BfvParams) (wsk0 wsk : nat -> Z) (r : RndEnc) (rnd : nat -> RndKsk) (rk0 rk1 : RndKsk)
           (rest : list Ct -> outcome A) : outcome A :=
  _ <- sk_generate pr P wsk0 ;;
  enc <- client_encode pr (mkClient 4 4) [3; 0; 0]%nat 64 ;;
  test_unpack P wsk enc r rnd rk0 rk1 rest.

(** src/evaluations.rs:502-548 [unpack_decomp] *)
Definition test_unpack_decomp (P : BfvParams) (wsk : nat -> Z) (vals : list Z) (r : RndEnc) (rnd : nat -> RndKsk) (rk0 rk1 : RndKsk)
           (rest : list Ct -> outcome A) : outcome A :=
  ctx <- get (bp_q_ctxs P) 0 ;;
  sk <- sk_generate pr P wsk ;;
  ev <- eval_build pr sk P rnd rk0 rk1 ;;
  p <- poly_from_u64 pr ctx vals ;;
  p1 <- change_repr pr p Ntt ;;
  p2 <- poly_mul_big pr p1 5 ;;
  ct <- encrypt_poly pr sk p2 (re_rows r) (re_words r) ;;
  un <- unpack pr ev ct ;;
  rest un.
End Unpacking.

End Tests.

(** src/utils.rs:295-306 [test_decompose_bits] *)
Definition test_decompose_bits (pr : profile) : outcome unit :=
  d <- decompose_bits pr (2 ^ 64 - 2) 64 4 ;;
  r <- foldM (fun acc b => x <- mul64 pr acc 16 ;; add64 pr x b) (rev d) 0 ;;
  rassert (2 ^ 64 - 2 =? r).
(** src/utils.rs:308-319 [test_bit_vector] *)
Definition test_bit_vector (pr : profile) : outcome unit :=
  bits <- bit_vector 64 (2 ^ 64 - 1) ;;
  r <- foldM (fun acc (b : bool) => x <- mul64 pr acc 2 ;; add64 pr x (if b then 1 else 0)) (rev bits) 0 ;;
  rassert (r =? 2 ^ 64 - 1).
