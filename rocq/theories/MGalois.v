(** Model of /repo/src/bfv.rs, the parts that use ksk.rs. *)
From Verif Require Import Base MModulus MUtils MNtt MRns MRq MBfv MKsk.

(** src/bfv.rs:700-704 [struct GaliosKey] *)
Record GaliosKey := mkGk { gk_ksk : Ksk; gk_subst : Subst; gk_level : nat }.

(** src/bfv.rs:743-746 [struct RelinearizationKey] *)
Record RelinKey := mkRlk { rlk_ksk : Ksk; rlk_params : BfvParams }.

Section Galois.
Variable pr : profile.

(** src/bfv.rs:707-723 [GaliosKey::new] *)
Definition galois_new (sk : SecretKey) (i : Subst) (level : nat) (rnd : RndKsk)
  : outcome GaliosKey :=
  rassert (negb (length (bp_moduli (sk_params sk)) =? 1)%nat) ;;;
  ctx <- get (bp_q_ctxs (sk_params sk)) level ;;
  s <- poly_from_i64 pr ctx (sk_coeffs sk) ;;
  si <- poly_substitute pr s i ;;
  si' <- change_repr pr si Ntt ;;
  gk <- ksk_new pr sk si' level level rnd ;;
  Ok (mkGk gk i level).

(** src/bfv.rs:725-740 [GaliosKey::relinearize] *)
Definition galois_relinearize (g : GaliosKey) (ct : Ct) : outcome Ct :=
  rassert (ct_level ct =? gk_level g)%nat ;;;
  (match pr with
   | Debug => c0 <- get (ct_cts ct) 0 ;; rassert (repr_eqb (p_repr c0) Ntt)
   | Release => Ok tt
   end) ;;;
  a1 <- get (ct_cts ct) 1 ;;
  c1_r <- poly_substitute pr a1 (gk_subst g) ;;
  c1_p <- change_repr pr c1_r PowerBasis ;;
  '(c0, c1) <- key_switch pr (gk_ksk g) c1_p ;;
  a0 <- get (ct_cts ct) 0 ;;
  a0_r <- poly_substitute pr a0 (gk_subst g) ;;
  c0' <- poly_add pr c0 a0_r ;;
  Ok (mkCt (ct_params ct) [c0'; c1] (gk_level g)).

(** src/bfv.rs:749-760 [RelinearizationKey::new] *)
Definition rlk_new (sk : SecretKey) (level : nat) (rnd : RndKsk) : outcome RelinKey :=
  ctx <- get (bp_q_ctxs (sk_params sk)) level ;;
  s <- sk_ntt pr ctx (sk_coeffs sk) ;;
  s2 <- poly_mul pr s s ;;
  k <- ksk_new pr sk s2 level level rnd ;;
  Ok (mkRlk k (sk_params sk)).

(** src/bfv.rs:762-770 [relinearize_poly] *)
Definition relinearize_poly (r : RelinKey) (p : Poly) : outcome (Poly * Poly) :=
  if repr_eqb (p_repr p) Ntt then
    t <- change_repr pr p PowerBasis ;; key_switch pr (rlk_ksk r) t
  else key_switch pr (rlk_ksk r) p.

(** src/bfv.rs:657-695 [multiply_with_strategy] *)
Definition multiply_with_strategy (lhs rhs : Ct) (rlk : RelinKey) : outcome Ct :=
  rassert (ct_level lhs =? ct_level rhs)%nat ;;;
  rassert (params_eqb (ct_params lhs) (ct_params rhs)) ;;;
  rassert (params_eqb (ct_params lhs) (rlk_params rlk)) ;;;
  rassert (length (ct_cts lhs) =? 2)%nat ;;;
  rassert (length (ct_cts rhs) =? 2)%nat ;;;
  mu <- get (bp_mul_params (ct_params lhs)) (ct_level lhs) ;;
  l0 <- get (ct_cts lhs) 0 ;; l1 <- get (ct_cts lhs) 1 ;;
  r0 <- get (ct_cts rhs) 0 ;; r1 <- get (ct_cts rhs) 1 ;;
  c0_0 <- rq_scale pr (mu_up mu) l0 ;;
  c0_1 <- rq_scale pr (mu_up mu) l1 ;;
  c1_0 <- rq_scale pr (mu_up mu) r0 ;;
  c1_1 <- rq_scale pr (mu_up mu) r1 ;;
  c_0 <- poly_mul pr c0_0 c1_0 ;;
  x <- poly_mul pr c0_0 c1_1 ;;
  y <- poly_mul pr c1_0 c0_1 ;;
  c_1 <- poly_add pr x y ;;
  c_2 <- poly_mul pr c0_1 c1_1 ;;
  d0 <- rq_scale pr (mu_down mu) c_0 ;;
  d1 <- rq_scale pr (mu_down mu) c_1 ;;
  d2 <- rq_scale pr (mu_down mu) c_2 ;;
  '(cr_0, cr_1) <- relinearize_poly rlk d2 ;;
  e0 <- poly_add pr d0 cr_0 ;;
  e1 <- poly_add pr d1 cr_1 ;;
  Ok (mkCt (ct_params lhs) [e0; e1] (ct_level lhs)).

End Galois.
