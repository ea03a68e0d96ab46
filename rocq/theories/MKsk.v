(** Model of /repo/src/ksk.rs *)
From Verif Require Import Base MModulus MUtils MNtt MRns MRq MBfv.

(** src/ksk.rs:20-30 [struct Ksk] *)
Record Ksk := mkKsk {
  k_params : BfvParams;
  k_c0 : list Poly;
  k_c1 : list Poly;
  k_ksk_ctx : RqContext;
  k_ct_ctx : RqContext }.

(** Randomness of one [Ksk::new]: rows of the i-th uniform polynomial and the
    generator words of the i-th error polynomial. *)
Record RndKsk := mkRnd { rnd_rows : nat -> list (list Z); rnd_words : nat -> nat -> Z }.

Section Ksk.
Variable pr : profile.

(** src/ksk.rs:66-90: one entry [c0_i = e_i - c1_i s + garner_i from] *)
Definition ksk_entry (ksk_ctx : RqContext) (variance : Z) (s from : Poly)
           (w : nat -> Z) (c1 : Poly) (garner : Z) : outcome Poly :=
  a_s <- poly_mul pr c1 s ;;
  b <- poly_random_small pr ksk_ctx Ntt variance w ;;
  b1 <- poly_sub pr b a_s ;;
  m <- poly_mul_big pr from garner ;;
  poly_add pr b1 m.

(** src/ksk.rs:47-100 [Ksk::new] *)
Definition ksk_new (sk : SecretKey) (from : Poly) (ct_level ksk_level : nat) (rnd : RndKsk)
  : outcome Ksk :=
  let P := sk_params sk in
  ksk_ctx <- get (bp_q_ctxs P) ksk_level ;;
  ct_ctx <- get (bp_q_ctxs P) ct_level ;;
  let c1s := map (fun i => poly_random ksk_ctx Ntt (rnd_rows rnd i))
                 (seq 0 (length (rns_moduli (rq_rns ct_ctx)))) in
  s <- sk_ntt pr ksk_ctx (sk_coeffs sk) ;;
  c0s <- mapM (fun x : nat * (Poly * Z) =>
                 ksk_entry ksk_ctx (bp_variance P) s from (rnd_words rnd (fst x))
                           (fst (snd x)) (snd (snd x)))
              (combine (seq 0 (length c1s)) (combine c1s (rns_garner (rq_rns ct_ctx)))) ;;
  Ok (mkKsk P c0s c1s ksk_ctx ct_ctx).

(** src/ksk.rs:38-45 [new_with_pt] *)
Definition ksk_new_with_pt (sk : SecretKey) (from : Plaintext) (ct_level ksk_level : nat)
           (rnd : RndKsk) : outcome Ksk :=
  p <- pt_to_poly pr from ;; ksk_new sk p ct_level ksk_level rnd.

(** src/ksk.rs:113-122: one step of [key_switch]; state (c0, c1). *)
Definition key_switch_step (ksk_ctx : RqContext) (st : Poly * Poly) (x : list Z * (Poly * Poly))
  : outcome (Poly * Poly) :=
  d0 <- poly_from_u64 pr ksk_ctx (fst x) ;;
  d <- change_repr pr d0 Ntt ;;
  b <- poly_mul pr d (fst (snd x)) ;;
  a <- poly_mul pr d (snd (snd x)) ;;
  c0 <- poly_add pr (fst st) b ;;
  c1 <- poly_add pr (snd st) a ;;
  Ok (c0, c1).

(** src/ksk.rs:102-125 [key_switch] *)
Definition key_switch (k : Ksk) (p : Poly) : outcome (Poly * Poly) :=
  rassert (ctx_eqb (p_ctx p) (k_ct_ctx k)) ;;;
  rassert (repr_eqb (p_repr p) PowerBasis) ;;;
  foldM (key_switch_step (k_ksk_ctx k))
        (combine (p_rows p) (combine (k_c0 k) (k_c1 k)))
        (poly_zero (k_ct_ctx k) Ntt, poly_zero (k_ct_ctx k) Ntt).

(** src/ksk.rs:127-156 [try_from_decomposed_rlwes] *)
Definition ksk_from_rlwes (P : BfvParams) (cts : list Ct) : outcome Ksk :=
  c0 <- mapM (fun c => rassert (params_eqb (ct_params c) P) ;;; get (ct_cts c) 0) cts ;;
  c1 <- mapM (fun c => rassert (params_eqb (ct_params c) P) ;;; get (ct_cts c) 1) cts ;;
  ctx <- get (bp_q_ctxs P) 0 ;;
  Ok (mkKsk P c0 c1 ctx ctx).

End Ksk.
