(** Model of /repo/src/rgsw.rs *)
From Verif Require Import Base MModulus MUtils MNtt MRns MRq MBfv MKsk.

(** src/rgsw.rs:22-25 [struct RgswCt] *)
Record RgswCt := mkRgsw { rg_ksk0 : Ksk; rg_ksk1 : Ksk }.

Section Rgsw.
Variable pr : profile.

(** src/rgsw.rs:28-42 [encrypt_poly] *)
Definition rgsw_encrypt_poly (sk : SecretKey) (m : Poly) (rnd0 rnd1 : RndKsk)
  : outcome RgswCt :=
  rassert (repr_eqb (p_repr m) Ntt) ;;;
  level <- unwrap (ctx_level (sk_params sk) (p_ctx m)) ;;
  s <- sk_ntt pr (p_ctx m) (sk_coeffs sk) ;;
  s_m <- poly_mul pr s m ;;
  k0 <- ksk_new pr sk s_m level level rnd0 ;;
  k1 <- ksk_new pr sk m level level rnd1 ;;
  Ok (mkRgsw k0 k1).

(** src/rgsw.rs:44-61 [encrypt] *)
Definition rgsw_encrypt (sk : SecretKey) (m : Plaintext) (rnd0 rnd1 : RndKsk)
  : outcome RgswCt :=
  rassert (params_eqb (sk_params sk) (pt_params m)) ;;;
  ctx <- get (bp_q_ctxs (sk_params sk)) (pt_level m) ;;
  mp0 <- poly_from_u64 pr ctx (pt_values m) ;;
  m_poly <- change_repr pr mp0 Ntt ;;
  s <- sk_ntt pr ctx (sk_coeffs sk) ;;
  sm <- poly_mul pr s m_poly ;;
  k0 <- ksk_new pr sk sm (pt_level m) (pt_level m) rnd0 ;;
  k1 <- ksk_new pr sk m_poly (pt_level m) (pt_level m) rnd1 ;;
  Ok (mkRgsw k0 k1).

(** src/rgsw.rs:63-78 [external_product] *)
Definition external_product (r : RgswCt) (ct : Ct) : outcome (Poly * Poly) :=
  a1 <- get (ct_cts ct) 1 ;;
  a0 <- get (ct_cts ct) 0 ;;
  c1 <- change_repr pr a1 PowerBasis ;;
  c0 <- change_repr pr a0 PowerBasis ;;
  '(c1_0, c1_1) <- key_switch pr (rg_ksk0 r) c1 ;;
  '(c0_0, c0_1) <- key_switch pr (rg_ksk1 r) c0 ;;
  d0 <- poly_add pr c0_0 c1_0 ;;
  d1 <- poly_add pr c0_1 c1_1 ;;
  Ok (d0, d1).

(** src/rgsw.rs:80-85 [try_from_ksks] *)
Definition rgsw_from_ksks (k0 k1 : Ksk) : RgswCt := mkRgsw k0 k1.

End Rgsw.
