(** Model of the crate's test programs that print what they measure, or only
    have to run to the end: continuation of MTests.v.  Printed values are
    returned. *)
From Verif Require Import Base MModulus MUtils MNtt MRns MRq MBfv MKsk MGalois MRgsw MTests.

Section Tests2.
Variable pr : profile.
Variable env : Env.

(** src/ntt.rs:253-264 [construct_ntt_operator] *)
Definition test_construct_ntt_operator : outcome unit :=
  m <- modulus_new 4611686018427387761 ;;
  primitive_root pr env 8 m ;;;
  Ok tt.

(** src/ksk.rs:171-195 [trial]; returns the printed plaintext. *)
Definition trial_moduli : list Z := [1125899906840833; 36028797018963841; 36028797018963457].
Definition test_trial (wsk : nat -> Z) (r : RndEnc) : outcome Plaintext :=
  P <- bfv_new pr env 8 (2 ^ 20 + 2 ^ 19 + 2 ^ 17 + 2 ^ 16 + 2 ^ 14 + 1) trial_moduli 10 (mkBD 4 8) ;;
  sk <- sk_generate pr P wsk ;;
  ctx <- get (bp_q_ctxs P) 0 ;;
  g0 <- poly_from_bigint ctx [10000] ;;
  g <- change_repr pr g0 Ntt ;;
  pt <- pt_new pr P [1] 0 EncPoly ;;
  one <- encrypt pr sk pt (re_rows r) (re_words r) ;;
  one_g <- ct_mul_poly pr one g ;;
  decrypt pr sk one_g.

(** src/bfv.rs:870-893 [simd_slot_rotations]; returns the two printed lists. *)
Definition test_simd_slot_rotations (wsk : nat -> Z) (vals : list Z) (r : RndEnc) (rk : RndKsk) : outcome (list Z * list Z) :=
  P <- bfv_default pr env 6 8 (mkBD 4 8) ;;
  sk <- sk_generate pr P wsk ;;
  pt <- pt_new pr P vals 0 EncSIMD ;;
  ct <- encrypt pr sk pt (re_rows r) (re_words r) ;;
  ctx <- get (bp_q_ctxs P) 0 ;;
  sb <- subst_new pr ctx 15 ;;
  gk <- galois_new pr sk sb 0 rk ;;
  r_ct <- galois_relinearize pr gk ct ;;
  r_pt <- decrypt pr sk r_ct ;;
  d <- pt_decode pr (pt_set_encoding r_pt EncSIMD) ;;
  Ok (vals, d).

(** src/rgsw.rs:106-184 [encrypt_poly]; returns the printed numbers of bits, a
    list for each pair of the keys. *)
Definition measure (rns : RnsContext) (ex p s : list Z) : outcome (list (Z * Z * Z)) :=
  mapM (fun x : Z * Z * Z =>
          a <- big_sub (rns_product rns) (fst (fst x)) ;;
          b <- big_sub (rns_product rns) (snd (fst x)) ;;
          c <- big_sub (rns_product rns) (snd x) ;;
          Ok (bitlen a, bitlen b, bitlen c)) (combine (combine ex p) s).
Definition test_rgsw_encrypt_poly (wsk : nat -> Z) (rk0 rk1 rx0 rx1 : RndKsk) : outcome (list (list (Z * Z * Z))) :=
  ot <- generate_prime pr (is_prime env) 60 (2 * 1048576) (2 ^ 60 - 1) ;;
  t <- unwrap ot ;;
  om <- generate_moduli pr env [61; 61; 61] 64 ;;
  ms <- unwrap om ;;
  P <- bfv_new pr env 64 t ms 10 (mkBD 4 8) ;;
  sk <- sk_generate pr P wsk ;;
  ctx <- get (bp_q_ctxs P) 0 ;;
  sk_poly <- sk_ntt pr ctx (sk_coeffs sk) ;;
  m <- sk_ntt pr ctx (sk_coeffs sk) ;;
  sk_rgsw <- rgsw_encrypt_poly pr sk m rk0 rk1 ;;
  pt_one <- pt_new pr P [1] 0 EncPoly ;;
  ex_rgsw <- rgsw_encrypt pr sk pt_one rx0 rx1 ;;
  skis <- mapM (fun bc : Poly * Poly => external_product pr sk_rgsw (mkCt P [fst bc; snd bc] 0))
               (combine (k_c0 (rg_ksk1 ex_rgsw)) (k_c1 (rg_ksk1 ex_rgsw))) ;;
  mapM (fun x : (Poly * Poly) * (Poly * Poly) =>
          let '((ec0, ec1), (c0, c1)) := x in
          e0 <- poly_mul pr ec1 sk_poly ;;
          ex_poly <- poly_add pr e0 ec0 ;;
          p0 <- poly_mul pr c1 sk_poly ;;
          poly <- poly_add pr p0 c0 ;;
          sub <- poly_sub pr ex_poly poly ;;
          ex' <- change_repr pr ex_poly PowerBasis ;;
          p' <- change_repr pr poly PowerBasis ;;
          s' <- change_repr pr sub PowerBasis ;;
          rns <- rns_new (bp_moduli P) ;;
          lx <- poly_to_big ex' ;; lp <- poly_to_big p' ;; ls <- poly_to_big s' ;;
          measure rns lx lp ls)
       (combine (combine (k_c0 (rg_ksk0 ex_rgsw)) (k_c1 (rg_ksk0 ex_rgsw))) skis).
End Tests2.
