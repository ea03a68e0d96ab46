(** The crate's own tests that fail (C72), run with the repaired functions of
    MFix.v and MFix3.v.  These programs follow the cited tests of /repo; what
    differs is that they call the repaired functions.  Randomness is an input,
    the loops "for _ in 0..100" are one iteration, an [assert] that fails panics,
    and printed values ([dbg!], [println!]) are returned. *)
From Verif Require Import Base MModulus MUtils MNtt MRns MRq MBfv MKsk MGalois MRgsw MEval MFix MFix3 MTests.

Section FTests.
Variable pr : profile.
Variable env : Env.

(** src/evaluations.rs:335-342, 424-432, 471-477, 504-510, 553-559: the parameters
    of the five tests; their [sizes] and degree [n] are in the tests below. *)
Definition eval_test_params (sizes : list Z) (n : nat) : outcome BfvParams :=
  om <- generate_moduli pr env sizes n ;;
  ms <- unwrap om ;;
  bfv_new pr env n 1785857 ms 10 (mkBD 4 8).

(** src/bfv.rs:191-211 [default] and 81-189 [new] with the slot map of the repaired
    [BfvParameters::new] (MFix.v). *)
Definition mapped_default (k n : nat) : outcome BfvParams :=
  P <- bfv_default pr env k n (mkBD 4 8) ;;
  m <- index_map_fixed n ;;
  Ok (with_index_map P m).

(** src/bfv.rs:778-805 [encrypt_decrypt] *)
Definition ftest_encrypt_decrypt (wsk : nat -> Z) (vals : list Z) (r1 r2 : RndEnc) : outcome unit :=
  P <- mapped_default 6 8 ;;
  sk <- sk_generate pr P wsk ;;
  test_encrypt_decrypt_poly pr P sk vals r1 ;;;
  test_encrypt_decrypt_simd pr P sk vals r2.

(** src/bfv.rs:870-893 [simd_slot_rotations]; returns the two printed lists. *)
Definition ftest_simd_slot_rotations (wsk : nat -> Z) (vals : list Z) (r : RndEnc) (rk : RndKsk) : outcome (list Z * list Z) :=
  P <- mapped_default 6 8 ;;
  sk <- sk_generate pr P wsk ;;
  pt <- pt_new pr P vals 0 EncSIMD ;;
  ct <- encrypt pr sk pt (re_rows r) (re_words r) ;;
  ctx <- get (bp_q_ctxs P) 0 ;;
  sb <- subst_new pr ctx 15 ;;
  gk <- galois_new pr sk sb 0 rk ;;
  r_ct <- galois_relinearize pr gk ct ;;
  r_pt <- decrypt pr sk r_ct ;;
  d <- pt_decode pr (pt_set_encoding r_pt EncSIMD) ;;
  Ok (vals, d).

(** src/evaluations.rs:570-575: [values[0]] of each decrypted ciphertext *)
Definition heads (sk : SecretKey) (cts : list Ct) : outcome (list Z) :=
  mapM (fun ct => p <- decrypt pr sk ct ;; get (pt_values p) 0) cts.
(** src/evaluations.rs:577-583: the number of places where two lists differ *)
Definition mismatches (a b : list Z) : nat :=
  length (filter (fun x => negb (fst x =? snd x)) (combine a b)).

(** src/evaluations.rs:561-589 [unpack], after the parameters (sizes [50;55;55],
    degree 64); returns the two printed lists and the count. *)
Definition ftest_unpack_with (P : BfvParams) (wsk : nat -> Z) (vals : list Z) (r : RndEnc) (rnd : nat -> RndKsk) (rk0 rk1 : RndKsk)
           : outcome (list Z * list Z * nat) :=
  sk <- sk_generate pr P wsk ;;
  ev <- eval_build pr sk P rnd rk0 rk1 ;;
  pt <- pt_new pr P vals 0 EncPoly ;;
  ct <- encrypt pr sk pt (re_rows r) (re_words r) ;;
  cts <- unpack_fixed pr ev ct ;;
  r_values <- heads sk cts ;;
  Ok (vals, r_values, mismatches vals r_values).
Definition ftest_unpack (n : nat) (wsk : nat -> Z) (vals : list Z) (r : RndEnc) (rnd : nat -> RndKsk) (rk0 rk1 : RndKsk)
           : outcome (list Z * list Z * nat) :=
  P <- eval_test_params [50; 55; 55] n ;;
  ftest_unpack_with P wsk vals r rnd rk0 rk1.

(** src/evaluations.rs:469-499 [client_encode] (degree 2048); returns the query and
    [query_r]. *)
Definition ftest_client_encode (n : nat) (wsk0 wsk : nat -> Z) (r : RndEnc) (rnd : nat -> RndKsk) (rk0 rk1 : RndKsk) : outcome (list Z * list Z) :=
  P <- eval_test_params [50; 55; 55] n ;;
  _ <- sk_generate pr P wsk0 ;;
  query <- client_encode_fixed (mkClient 4 4) [3; 0; 0]%nat 64 ;;
  sk <- sk_generate pr P wsk ;;
  ev <- eval_build pr sk P rnd rk0 rk1 ;;
  pt <- pt_new pr P query 0 EncPoly ;;
  ct <- encrypt pr sk pt (re_rows r) (re_words r) ;;
  cts <- unpack_fixed pr ev ct ;;
  query_r <- heads sk cts ;;
  Ok (query, query_r).

(** src/evaluations.rs:421-466 [query] (degree 64) for a database whose entry i has
    the values [db i] (the code: [i; i; i; i]); returns the two printed values. *)
Definition ftest_query (n : nat) (db : nat -> list Z) (q0 q1 q2 : nat) (wsk : nat -> Z) (r : RndEnc) (rq : RndKsk) (rnd : nat -> RndKsk) (rk0 rk1 : RndKsk)
           : outcome (nat * list Z) :=
  P <- eval_test_params [62; 62; 62; 62] n ;;
  dbp <- mapM (fun i => pt_new pr P (db i) 0 EncPoly) (seq 0 16) ;;
  sk <- sk_generate pr P wsk ;;
  enc <- client_encode_fixed (mkClient 4 2) [q0; q1; q2]%nat (length dbp) ;;
  cts <- client_query pr sk P 4 enc (re_rows r) (re_words r) rq ;;
  ev <- eval_build pr sk P rnd rk0 rk1 ;;
  srv <- server_new pr 4 2 dbp P ;;
  out <- server_decode_fixed pr srv cts ev P ;;
  res <- get out 0 ;;
  p <- decrypt pr sk res ;;
  Ok (length out, pt_values p).

(** src/evaluations.rs:332-417 [pack_and_construct_rgsw] (degree 64) for the query
    [b; 0; 1; 0] and the ideal [b] (the code: b = 1); the products of the built and
    the ideal RGSW ciphertext must decrypt to the same values, which are returned. *)
Definition ftest_pack_and_construct (n : nat) (b : Z) (wsk : nat -> Z) (rnd : nat -> RndKsk) (rk0 rk1 : RndKsk) (rs : nat -> RndEnc)
           (ri0 ri1 : RndKsk) (m : list Z) (r1 : RndEnc) : outcome (list Z) :=
  P <- eval_test_params [62; 62; 62; 62] n ;;
  sk <- sk_generate pr P wsk ;;
  ctx <- get (bp_q_ctxs P) 0 ;;
  sk_poly <- sk_ntt pr ctx (sk_coeffs sk) ;;
  q0 <- poly_from_u64 pr ctx [b; 0; 1; 0] ;;
  q <- change_repr pr q0 Ntt ;;
  ev <- eval_build pr sk P rnd rk0 rk1 ;;
  un <- mapM (fun i => g <- get (rns_garner (rq_rns ctx)) i ;;
                       qp <- poly_mul_big pr q g ;;
                       ct <- encrypt_poly pr sk qp (re_rows (rs i)) (re_words (rs i)) ;;
                       unpack_fixed pr ev ct) (seq 0 (length (rns_garner (rq_rns ctx)))) ;;
  rgsw <- build_rgsw pr P (ev_sk_rgsw ev) un 0 ;;
  p0 <- poly_from_u64 pr ctx [b] ;;
  p_1 <- change_repr pr p0 Ntt ;;
  rgsw_ideal <- rgsw_encrypt_poly pr sk p_1 ri0 ri1 ;;
  pt <- pt_new pr P m 0 EncPoly ;;
  ct1 <- encrypt pr sk pt (re_rows r1) (re_words r1) ;;
  '(c0, c1) <- external_product pr rgsw ct1 ;;
  '(d0, d1) <- external_product pr rgsw_ideal ct1 ;;
  x <- decrypt pr sk (mkCt P [c0; c1] 0) ;;
  y <- decrypt pr sk (mkCt P [d0; d1] 0) ;;
  rassert (zlist_eqb (pt_values x) (pt_values y)) ;;;
  Ok (pt_values x).

(** src/evaluations.rs:502-548 [unpack_decomp] (degree 8), returning the printed
    numbers.  [vals0] is the second sample and [rep] the representation the
    difference is changed to (the code: [Ntt], in which it already is). *)
Definition ftest_unpack_decomp (rep : repr) (n : nat) (wsk : nat -> Z) (rnd : nat -> RndKsk) (rk0 rk1 : RndKsk) (vals vals0 : list Z) (r : RndEnc)
           : outcome (list (list Z)) :=
  P <- eval_test_params [62; 62; 62; 62] n ;;
  ctx <- get (bp_q_ctxs P) 0 ;;
  sk <- sk_generate pr P wsk ;;
  ev <- eval_build pr sk P rnd rk0 rk1 ;;
  p <- poly_from_u64 pr ctx vals ;;
  p' <- change_repr pr p Ntt ;;
  p1 <- poly_mul_big pr p' 5 ;;
  ct <- encrypt_poly pr sk p1 (re_rows r) (re_words r) ;;
  cts <- unpack_fixed pr ev ct ;;
  mapM (fun x : Ct * Z =>
          e0 <- poly_from_u64 pr ctx [snd x] ;;
          e1 <- change_repr pr e0 Ntt ;;
          ex_p <- poly_mul_big pr e1 5 ;;
          c0 <- get (ct_cts (fst x)) 0 ;;
          c1 <- get (ct_cts (fst x)) 1 ;;
          ph <- decrypt_trial pr sk c0 c1 ;;
          diff <- poly_sub pr ph ex_p ;;
          diff' <- change_repr pr diff rep ;;
          l <- poly_to_big diff' ;;
          mapM (fun coeff => d <- sub64 pr (bitlen (rns_product (rq_rns ctx))) (bitlen coeff) ;; Ok (Z.min (bitlen coeff) d)) l)
       (combine cts vals0).
End FTests.
