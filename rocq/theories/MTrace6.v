(** The work of the server (key switching, external products, expansion of a
    query, answering) once more, in a Release build, with its steps recorded
    (see MTrace.v, MTrace2.v, MTrace4.v). *)
From Verif Require Import Base MModulus MUtils MNtt MRns MRq MBfv MKsk MGalois MRgsw MEval MTrace MTrace2 MTrace4.

(** A computation on public parameters only (no ciphertext, key or database
    entry among its inputs) is not recorded. *)
Definition pub {A} (x : outcome A) : run A := ([], x).

(** [izip!(a, b).map(f)], with the elements read *)
Fixpoint t_izip {A B C} (f : A -> B -> run C) (i : nat) (a : list A) (b : list B) : run (list C) :=
  match a, b with
  | x :: a', y :: b' =>
      emit (EBranch true) ;;~ emit (ERead 0 i) ;;~ emit (ERead 1 i) ;;~
      c <~ f x y ;~ r <~ t_izip f (S i) a' b' ;~ ret (c :: r)
  | _, _ => emit (EBranch false) ;;~ ret []
  end.

(** src/ksk.rs:113-122 *)
Definition t_key_switch_step (ksk_ctx : RqContext) (st : Poly * Poly) (x : list Z * (Poly * Poly))
  : run (Poly * Poly) :=
  d0 <~ t_from_u64 ksk_ctx (fst x) ;~
  d <~ t_change_repr d0 Ntt ;~
  b <~ t_poly_mul d (fst (snd x)) ;~
  a <~ t_poly_mul d (snd (snd x)) ;~
  c0 <~ t_poly_add (fst st) b ;~
  c1 <~ t_poly_add (snd st) a ;~
  ret (c0, c1).

(** src/ksk.rs:102-125 [key_switch] *)
Definition t_key_switch (k : Ksk) (p : Poly) : run (Poly * Poly) :=
  t_assert (ctx_eqb (p_ctx p) (k_ct_ctx k)) ;;~
  t_assert (repr_eqb (p_repr p) PowerBasis) ;;~
  t_fold (t_key_switch_step (k_ksk_ctx k))
         (combine (p_rows p) (combine (k_c0 k) (k_c1 k)))
         (poly_zero (k_ct_ctx k) Ntt, poly_zero (k_ct_ctx k) Ntt).

(** src/ksk.rs:127-156 [try_from_decomposed_rlwes] *)
Definition t_from_rlwes (P : BfvParams) (cts : list Ct) : run Ksk :=
  c0 <~ t_each (fun c => t_assert (params_eqb (ct_params c) P) ;;~ t_get (ct_cts c) 0) cts ;~
  c1 <~ t_each (fun c => t_assert (params_eqb (ct_params c) P) ;;~ t_get (ct_cts c) 1) cts ;~
  ctx <~ t_get (bp_q_ctxs P) 0 ;~
  ret (mkKsk P c0 c1 ctx ctx).

(** src/rgsw.rs:63-78 [external_product] *)
Definition t_external_product (r : RgswCt) (ct : Ct) : run (Poly * Poly) :=
  a1 <~ t_get (ct_cts ct) 1 ;~
  a0 <~ t_get (ct_cts ct) 0 ;~
  c1 <~ t_change_repr a1 PowerBasis ;~
  c0 <~ t_change_repr a0 PowerBasis ;~
  '(c1_0, c1_1) <~ t_key_switch (rg_ksk0 r) c1 ;~
  '(c0_0, c0_1) <~ t_key_switch (rg_ksk1 r) c0 ;~
  d0 <~ t_poly_add c0_0 c1_0 ;~
  d1 <~ t_poly_add c0_1 c1_1 ;~
  ret (d0, d1).

(** src/bfv.rs:424-439, 457-472: addition and subtraction of ciphertexts *)
Definition t_ct_op (f : Poly -> Poly -> run Poly) (a b : Ct) : run Ct :=
  t_assert (params_eqb (ct_params a) (ct_params b)) ;;~
  t_assert (ct_level a =? ct_level b)%nat ;;~
  a0 <~ t_get (ct_cts a) 0 ;~ b0 <~ t_get (ct_cts b) 0 ;~
  c0 <~ f a0 b0 ;~
  a1 <~ t_get (ct_cts a) 1 ;~ b1 <~ t_get (ct_cts b) 1 ;~
  c1 <~ f a1 b1 ;~
  ret (mkCt (ct_params a) [c0; c1] (ct_level a)).
Definition t_ct_add := t_ct_op t_poly_add.
Definition t_ct_sub := t_ct_op t_poly_sub.

(** src/bfv.rs:536-551 [Mul<&Poly>] *)
Definition t_ct_mul_poly (a : Ct) (p : Poly) : run Ct :=
  a0 <~ t_get (ct_cts a) 0 ;~
  t_assert (ctx_eqb (p_ctx p) (p_ctx a0)) ;;~
  t_assert (repr_eqb (p_repr p) Ntt) ;;~
  c0 <~ t_poly_mul a0 p ;~
  a1 <~ t_get (ct_cts a) 1 ;~ c1 <~ t_poly_mul a1 p ;~
  ret (mkCt (ct_params a) [c0; c1] (ct_level a)).

(** src/bfv.rs:725-740 [GaliosKey::relinearize] *)
Definition t_galois_relinearize (g : GaliosKey) (ct : Ct) : run Ct :=
  t_assert (ct_level ct =? gk_level g)%nat ;;~
  a1 <~ t_get (ct_cts ct) 1 ;~
  c1_r <~ t_substitute a1 (gk_subst g) ;~
  c1_p <~ t_change_repr c1_r PowerBasis ;~
  '(c0, c1) <~ t_key_switch (gk_ksk g) c1_p ;~
  a0 <~ t_get (ct_cts ct) 0 ;~
  a0_r <~ t_substitute a0 (gk_subst g) ;~
  c0' <~ t_poly_add c0 a0_r ;~
  ret (mkCt (ct_params ct) [c0'; c1] (gk_level g)).

(** src/evaluations.rs:277-293 *)
Definition t_unpack_step (gk : GaliosKey) (x_pow : Poly) (i : nat) (bits : list Ct) (j : nat)
  : run (list Ct) :=
  c <~ t_at 0 bits j ;~
  c_r <~ t_galois_relinearize gk c ;~
  c_even <~ t_ct_add c c_r ;~
  x_p <~ t_change_repr x_pow Ntt ;~
  c_odd <~ t_ct_sub c c_r ;~
  o0 <~ t_get (ct_cts c_odd) 0 ;~ c0_odd <~ t_poly_mul o0 x_p ;~
  o1 <~ t_get (ct_cts c_odd) 1 ;~ c1_odd <~ t_poly_mul o1 x_p ;~
  let c_odd' := mkCt (ct_params c_odd) [c0_odd; c1_odd] (ct_level c_odd) in
  bits1 <~ t_put bits j c_even ;~
  t_put bits1 (j + 2 ^ i) c_odd'.

(** src/evaluations.rs:258-298: [unpack] after the computation of [x_pows]; the
    powers of X, the inverse of the degree and the number of rounds are public;
    looking up a key is one decision. *)
Definition t_unpack_core (ev : Evaluation) (ct : Ct) (x_pows : list Poly) : run (list Ct) :=
  let n := bp_degree (ct_params ct) in
  ctx <~ t_get (bp_q_ctxs (ct_params ct)) (ct_level ct) ;~
  n_inv <~ pub (unwrap (mod_inverse_big (Z.of_nat n) (rns_product_dig (rq_rns ctx)))) ;~
  cts <~ t_each (fun c => t_poly_mul_big c n_inv) (ct_cts ct) ;~
  let ct' := mkCt (ct_params ct) cts (ct_level ct) in
  lg <~ pub (ilog2 Release 64 (Z.of_nat n)) ;~
  bits <~ t_fold (fun bits i =>
                    let exponent := (n / 2 ^ i + 1)%nat in
                    t_fold (fun bits j =>
                              gk <~ ([EBranch true], unwrap (gk_lookup (ev_gk ev) exponent)) ;~
                              xp <~ t_at 1 x_pows i ;~
                              t_unpack_step gk xp i bits j) (seq 0 (2 ^ i)) bits)
                 (seq 0 (Z.to_nat lg)) (repeat ct' n) ;~
  t_assert (length bits =? n)%nat ;;~
  ret bits.

(** src/evaluations.rs:254-299 [unpack] *)
Definition t_unpack (ev : Evaluation) (ct : Ct) : run (list Ct) :=
  ctx <~ pub (get (bp_q_ctxs (ct_params ct)) (ct_level ct)) ;~
  x_pows <~ pub (gen_x_pows Release (bp_degree (ct_params ct)) ctx) ;~
  t_unpack_core ev ct x_pows.

(** src/evaluations.rs:168-180, 207-219 *)
Definition t_sum_cts (P : BfvParams) (l : list Ct) : run Ct :=
  match l with
  | [] => ret (mkCt P [] 0)
  | c :: l' => t_fold t_ct_add l' c
  end.

(** src/evaluations.rs:160-182 *)
Definition t_fold_first (P : BfvParams) (first_dim : nat) (cts : list Ct) (db : list Poly) : run (list Ct) :=
  ch <~ pub (chunks first_dim db) ;~
  t_each (fun polys => rows <~ t_izip t_ct_mul_poly 0 cts polys ;~ t_sum_cts P rows) ch.

(** src/evaluations.rs:192-223 *)
Definition t_ext_ct (P : BfvParams) (r : RgswCt) (c : Ct) : run Ct :=
  '(c0, c1) <~ t_external_product r c ;~ ret (mkCt P [c0; c1] 0).
Definition t_fold_dim (P : BfvParams) (dim : nat) (db : list Ct) (rgsws : list RgswCt) : run (list Ct) :=
  ch <~ pub (chunks dim db) ;~
  t_each (fun cts => rows <~ t_izip (t_ext_ct P) 0 rgsws cts ;~ t_sum_cts P rows) ch.

(** src/evaluations.rs:129-148 *)
Definition t_build_rgsw (P : BfvParams) (sk_rgsw : RgswCt) (vals : list (list Ct)) (i : nat) : run RgswCt :=
  lower <~ t_each (fun v => t_at 0 v i) vals ;~
  upper <~ t_each (t_ext_ct P sk_rgsw) lower ;~
  k1 <~ t_from_rlwes P lower ;~
  k0 <~ t_from_rlwes P upper ;~
  ret (rgsw_from_ksks k0 k1).

(** src/evaluations.rs:109-226 [Server::decode] with a given expansion *)
Definition t_server_decode_with (unpk : Ct -> run (list Ct)) (s : Server) (query_cts : list Ct) (ev : Evaluation) (P : BfvParams) : run (list Ct) :=
  ctx <~ t_get (bp_q_ctxs P) 0 ;~
  t_assert (length (rq_moduli ctx) + 1 =? length query_cts)%nat ;;~
  q0 <~ t_get query_cts 0 ;~
  u0 <~ unpk q0 ;~
  first_dim_cts <~ pub (slice_to u0 (sv_first_dim s)) ;~
  dimensions <~ pub (decode_dimensions Release s) ;~
  d1 <~ pub (sub64 Release dimensions 1) ;~
  rgsws_count <~ pub (mul64 Release d1 (Z.of_nat (sv_dim s))) ;~
  vals <~ t_each (fun q => u <~ unpk q ;~ pub (slice_toz u rgsws_count)) (tl query_cts) ;~
  rgsws <~ t_each (t_build_rgsw P (ev_sk_rgsw ev) vals) (seq 0 (Z.to_nat rgsws_count)) ;~
  by_dim <~ pub (chunks (sv_dim s) rgsws) ;~
  db <~ t_fold_first P (sv_first_dim s) first_dim_cts (sv_db_scaled s) ;~
  t_fold (fun db dim_rgsws => t_fold_dim P (sv_dim s) db dim_rgsws) by_dim db.

(** src/evaluations.rs:109-226 [Server::decode] *)
Definition t_server_decode (s : Server) (query_cts : list Ct) (ev : Evaluation) (P : BfvParams) : run (list Ct) :=
  t_server_decode_with (t_unpack ev) s query_cts ev P.
