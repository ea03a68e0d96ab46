(** Substitution, Galois keys and RGSW encryption once more, in a Release
    build, with their steps recorded (see MTrace.v, MTrace2.v). *)
From Verif Require Import Base MModulus MUtils MNtt MRns MRq MBfv MKsk MGalois MRgsw MTrace MTrace2.

(** [a[i]] and [a[i] = v] with a bounds check; the index is recorded. *)
Definition t_at {A} (t : nat) (l : list A) (i : nat) : run A := ([ERead t i], get l i).
Definition t_put {A} (l : list A) (i : nat) (v : A) : run (list A) := ([EWrite i], set l i v).

(** src/rq.rs:356-366 *)
Definition t_subst_pb_step (degree : nat) (power : Z) (j : nat) (dst : list Z) (q : Modulus) (src : list Z)
  : run (list Z) :=
  o <~ t_at 1 src j ;~
  let k := Z.to_nat (Z.land power (Z.of_nat degree - 1)) in
  t <~ t_at 0 dst k ;~
  v <~ t_if (negb (Z.land power (Z.of_nat degree) =? 0)) (t_sub q t o) (t_add q t o) ;~
  t_put dst k v.

(** src/rq.rs:350-368 *)
Fixpoint t_subst_pb_loop (degree : nat) (e : Z) (qs : list (Modulus * list Z)) (count : nat)
         (j : nat) (power : Z) (rows : list (list Z)) : run (list (list Z)) :=
  match count with
  | O => emit (EBranch false) ;;~ ret rows
  | S c =>
      emit (EBranch true) ;;~
      rows' <~ t_rows (fun dst (q : Modulus * list Z) => t_subst_pb_step degree power j dst (fst q) (snd q)) rows qs ;~
      power' <~ t_add64 power e ;~
      t_subst_pb_loop degree e qs c (S j) power' rows'
  end.

(** src/rq.rs:379-381 *)
Definition t_subst_ntt_row (js ks : list nat) (c_row p_row : list Z) : run (list Z) :=
  t_fold (fun row (jk : nat * nat) => v <~ t_at 1 c_row (fst jk) ;~ t_put row (snd jk) v)
         (combine js ks) p_row.

(** src/rq.rs:343-386 [substitute] *)
Definition t_substitute (p : Poly) (a : Subst) : run Poly :=
  let ctx := p_ctx p in
  emit (EBranch (repr_eqb (p_repr p) PowerBasis)) ;;~
  match p_repr p with
  | PowerBasis =>
      rows <~ t_subst_pb_loop (rq_degree ctx) (sub_exp a) (combine (rq_moduli ctx) (p_rows p))
                              (rq_degree ctx) 0 0 (zero_rows ctx) ;~
      ret (mkPoly ctx (p_repr p) rows)
  | _ =>
      rows <~ t_rows (fun dst src => t_subst_ntt_row (sub_powers_bitrev a) (rq_bitrev ctx) src dst)
                     (zero_rows ctx) (p_rows p) ;~
      ret (mkPoly ctx (p_repr p) rows)
  end.

(** src/bfv.rs:707-723 [GaliosKey::new] *)
Definition t_galois_new (sk : SecretKey) (i : Subst) (level : nat) (rnd : RndKsk) : run GaliosKey :=
  t_assert (negb (length (bp_moduli (sk_params sk)) =? 1)%nat) ;;~
  ctx <~ t_get (bp_q_ctxs (sk_params sk)) level ;~
  s <~ t_from_i64 ctx (sk_coeffs sk) ;~
  si <~ t_substitute s i ;~
  si' <~ t_change_repr si Ntt ;~
  gk <~ t_ksk_new sk si' level level rnd ;~
  ret (mkGk gk i level).

(** src/ksk.rs:38-45 [new_with_pt] *)
Definition t_ksk_new_with_pt (sk : SecretKey) (from : Plaintext) (ct_level ksk_level : nat) (rnd : RndKsk) : run Ksk :=
  p <~ t_to_poly from ;~ t_ksk_new sk p ct_level ksk_level rnd.

(** src/rgsw.rs:28-42 [encrypt_poly]; the search for the level of a context
    (src/bfv.rs:184-191) compares public data and is one decision here. *)
Definition t_rgsw_encrypt_poly (sk : SecretKey) (m : Poly) (rnd0 rnd1 : RndKsk) : run RgswCt :=
  t_assert (repr_eqb (p_repr m) Ntt) ;;~
  level <~ ([EBranch true], unwrap (ctx_level (sk_params sk) (p_ctx m))) ;~
  s <~ t_sk_ntt (p_ctx m) (sk_coeffs sk) ;~
  s_m <~ t_poly_mul s m ;~
  k0 <~ t_ksk_new sk s_m level level rnd0 ;~
  k1 <~ t_ksk_new sk m level level rnd1 ;~
  ret (mkRgsw k0 k1).

(** src/rgsw.rs:44-61 [encrypt] *)
Definition t_rgsw_encrypt (sk : SecretKey) (m : Plaintext) (rnd0 rnd1 : RndKsk) : run RgswCt :=
  t_assert (params_eqb (sk_params sk) (pt_params m)) ;;~
  ctx <~ t_get (bp_q_ctxs (sk_params sk)) (pt_level m) ;~
  mp0 <~ t_from_u64 ctx (pt_values m) ;~
  m_poly <~ t_change_repr mp0 Ntt ;~
  s <~ t_sk_ntt ctx (sk_coeffs sk) ;~
  sm <~ t_poly_mul s m_poly ;~
  k0 <~ t_ksk_new sk sm (pt_level m) (pt_level m) rnd0 ;~
  k1 <~ t_ksk_new sk m_poly (pt_level m) (pt_level m) rnd1 ;~
  ret (mkRgsw k0 k1).
