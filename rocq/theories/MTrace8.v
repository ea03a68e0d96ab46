(** Modulus switching, multiplication and the remaining operations on
    ciphertexts in a Release build, with their steps recorded. *)
From Verif Require Import Base MModulus MUtils MNtt MRns MRq MBfv MKsk MGalois MRgsw MEval MOmr MTrace MTrace2 MTrace3 MTrace4 MTrace6.

(** src/rq.rs:639-655 [Neg] *)
Definition t_poly_neg (a : Poly) : run Poly :=
  let ctx := p_ctx a in
  rows <~ t_rows (fun dst (pq : list Z * Modulus) =>
                    r <~ t_neg_vec (snd pq) (fst pq) ;~
                    t_assert (length r =? length dst)%nat ;;~
                    ret r)
                 (zero_rows ctx) (combine (p_rows a) (rq_moduli ctx)) ;~
  ret (mkPoly ctx (p_repr a) rows).

(** src/rq.rs:409-420: one row of [mod_switch_down_next] *)
Definition t_msd_row (qi : Modulus) (inv inv_shoup q_last_div_2 : Z) (poly last : list Z) : run (list Z) :=
  r <~ t_reduce qi q_last_div_2 ;~
  h <~ t_sub64 (mp qi) r ;~
  t_zip (fun coeff q_last_coeff =>
           l <~ t_lazy_reduce_ct qi q_last_coeff ;~
           tmp <~ t_add64 l h ;~
           q3 <~ t_mul64 3 (mp qi) ;~
           d <~ t_sub64 q3 tmp ;~
           c <~ t_add64 coeff d ;~
           t_mul_shoup qi c inv inv_shoup) 0 poly last.

(** src/rq.rs:388-425 [mod_switch_down_next]; halving the last modulus and
    cutting off the last row depend on the context only. *)
Definition t_mod_switch_down_next (p : Poly) : run Poly :=
  let ctx := p_ctx p in
  next <~ pub (unwrap (rq_next ctx)) ;~
  t_assert (repr_eqb (p_repr p) PowerBasis) ;;~
  let q_len := length (rq_moduli ctx) in
  q_last <~ pub (unwrap (match rq_moduli ctx with [] => None | m0 :: _ => Some (last (rq_moduli ctx) m0) end)) ;~
  let q_last_div_2 := mp q_last / 2 in
  t_assert (q_len - 1 <=? length (p_rows p))%nat ;;~
  let q_polys := firstn (q_len - 1) (p_rows p) in
  lasts <~ t_each (t_map (fun c => t_add q_last c q_last_div_2) 0) (skipn (q_len - 1) (p_rows p)) ;~
  let q_poly_last := concat lasts in
  rows <~ t_rows (fun poly (t : Modulus * (Z * Z)) =>
                    t_msd_row (fst t) (fst (snd t)) (snd (snd t)) q_last_div_2 poly q_poly_last)
                 q_polys
                 (combine (rq_moduli ctx) (combine (rq_qlinv ctx) (rq_qlinv_shoup ctx))) ;~
  t_assert (q_len - 1 <? length (p_rows p))%nat ;;~
  ret (mkPoly next (p_repr p) (rows ++ skipn 1 lasts)).

(** src/rq.rs:430-432: the loop of [mod_switch_to] *)
Fixpoint t_msd_iter (n : nat) (p : Poly) : run Poly :=
  match n with
  | O => emit (EBranch false) ;;~ ret p
  | S n' => emit (EBranch true) ;;~ p' <~ t_mod_switch_down_next p ;~ t_msd_iter n' p'
  end.

(** src/rq.rs:427-433 [mod_switch_to] *)
Definition t_mod_switch_to (p : Poly) (ctx : RqContext) : run Poly :=
  n <~ pub (unwrap (switch_iterations (p_ctx p) ctx)) ;~
  t_msd_iter n p.

(** src/bfv.rs:441-455 [Add<&Poly>] *)
Definition t_ct_add_poly (a : Ct) (p : Poly) : run Ct :=
  a0 <~ t_get (ct_cts a) 0 ;~
  t_assert (ctx_eqb (p_ctx a0) (p_ctx p)) ;;~
  c0 <~ t_poly_add a0 p ;~
  a1 <~ t_get (ct_cts a) 1 ;~
  c1 <~ t_poly_add a1 p ;~
  ret (mkCt (ct_params a) [c0; c1] (ct_level a)).

(** src/bfv.rs:516-534 [Mul<&Plaintext>] *)
Definition t_ct_mul_pt (a : Ct) (p : Plaintext) : run Ct :=
  t_assert (ct_level a =? pt_level p)%nat ;;~
  ctx <~ t_get (bp_q_ctxs (ct_params a)) (ct_level a) ;~
  m <~ t_from_u64 ctx (pt_values p) ;~
  m' <~ t_change_repr m Ntt ;~
  a0 <~ t_get (ct_cts a) 0 ;~ c0 <~ t_poly_mul a0 m' ;~
  a1 <~ t_get (ct_cts a) 1 ;~ c1 <~ t_poly_mul a1 m' ;~
  ret (mkCt (ct_params a) [c0; c1] (ct_level a)).

(** src/bfv.rs:474-506: [Mul<&BfvCipherText>] before scaling down *)
Definition t_ct_tensor (a b : Ct) : run (list Poly) :=
  t_assert (ct_level b =? ct_level a)%nat ;;~
  mu <~ t_get (bp_mul_params (ct_params a)) (ct_level a) ;~
  sa <~ t_each (t_rq_scale (mu_up mu)) (ct_cts a) ;~
  sb <~ t_each (t_rq_scale (mu_up mu)) (ct_cts b) ;~
  n <~ pub (sub64 Release (Z.of_nat (length (ct_cts a) + length (ct_cts b))) 1) ;~
  cs <~ pub (vec_repeat (poly_zero (mu_to mu) Ntt) n 80) ;~
  t_fold (fun cs (ij : nat * nat) =>
            x <~ t_at 0 sa (fst ij) ;~
            y <~ t_at 1 sb (snd ij) ;~
            p <~ t_poly_mul x y ;~
            t_put cs (fst ij + snd ij) p)
         (list_prod (seq 0 (length (ct_cts a))) (seq 0 (length (ct_cts b)))) cs.

(** src/bfv.rs:474-514 [Mul<&BfvCipherText>] *)
Definition t_ct_mul (a b : Ct) : run Ct :=
  cs <~ t_ct_tensor a b ;~
  mu <~ pub (get (bp_mul_params (ct_params a)) (ct_level a)) ;~
  cs' <~ t_each (t_rq_scale (mu_down mu)) cs ;~
  ret (mkCt (ct_params a) cs' (ct_level a)).

(** src/bfv.rs:657-683: [multiply_with_strategy] before scaling down *)
Definition t_products (lhs rhs : Ct) (rlk : RelinKey) : run (Poly * Poly * Poly) :=
  t_assert (ct_level lhs =? ct_level rhs)%nat ;;~
  t_assert (params_eqb (ct_params lhs) (ct_params rhs)) ;;~
  t_assert (params_eqb (ct_params lhs) (rlk_params rlk)) ;;~
  t_assert (length (ct_cts lhs) =? 2)%nat ;;~
  t_assert (length (ct_cts rhs) =? 2)%nat ;;~
  mu <~ t_get (bp_mul_params (ct_params lhs)) (ct_level lhs) ;~
  l0 <~ t_get (ct_cts lhs) 0 ;~ l1 <~ t_get (ct_cts lhs) 1 ;~
  r0 <~ t_get (ct_cts rhs) 0 ;~ r1 <~ t_get (ct_cts rhs) 1 ;~
  c0_0 <~ t_rq_scale (mu_up mu) l0 ;~
  c0_1 <~ t_rq_scale (mu_up mu) l1 ;~
  c1_0 <~ t_rq_scale (mu_up mu) r0 ;~
  c1_1 <~ t_rq_scale (mu_up mu) r1 ;~
  c_0 <~ t_poly_mul c0_0 c1_0 ;~
  x <~ t_poly_mul c0_0 c1_1 ;~
  y <~ t_poly_mul c1_0 c0_1 ;~
  c_1 <~ t_poly_add x y ;~
  c_2 <~ t_poly_mul c0_1 c1_1 ;~
  ret (c_0, c_1, c_2).

(** src/bfv.rs:762-770 [relinearize_poly] *)
Definition t_relinearize_poly (r : RelinKey) (p : Poly) : run (Poly * Poly) :=
  t_if (repr_eqb (p_repr p) Ntt)
    (t <~ t_change_repr p PowerBasis ;~ t_key_switch (rlk_ksk r) t)
    (t_key_switch (rlk_ksk r) p).

(** src/bfv.rs:657-695 [multiply_with_strategy] *)
Definition t_multiply (lhs rhs : Ct) (rlk : RelinKey) : run Ct :=
  '(c_0, c_1, c_2) <~ t_products lhs rhs rlk ;~
  mu <~ pub (get (bp_mul_params (ct_params lhs)) (ct_level lhs)) ;~
  d0 <~ t_rq_scale (mu_down mu) c_0 ;~
  d1 <~ t_rq_scale (mu_down mu) c_1 ;~
  d2 <~ t_rq_scale (mu_down mu) c_2 ;~
  '(cr_0, cr_1) <~ t_relinearize_poly rlk d2 ;~
  e0 <~ t_poly_add d0 cr_0 ;~
  e1 <~ t_poly_add d1 cr_1 ;~
  ret (mkCt (ct_params lhs) [e0; e1] (ct_level lhs)).

(** src/omr.rs:9-19 [inner_product] *)
Definition t_inner_product (cts : list Ct) (polys : list Poly) : run Ct :=
  t_assert (length cts =? length polys)%nat ;;~
  c0 <~ t_get cts 0 ;~
  p0 <~ t_get polys 0 ;~
  prod0 <~ t_ct_mul_poly c0 p0 ;~
  t_fold (fun prod (cp : Ct * Poly) =>
            p <~ t_ct_mul_poly (fst cp) (snd cp) ;~ t_ct_add prod p)
         (combine (tl cts) (tl polys)) prod0.
