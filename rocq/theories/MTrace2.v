(** Sampling, polynomials, encryption and key generation once more, in a
    Release build, with their steps recorded (see MTrace.v). *)
From Verif Require Import Base MModulus MUtils MNtt MRns MRq MBfv MKsk MGalois MTrace.

(** src/utils.rs:70-82, the loop of [sample_vec_cbd].  Drawing a word counts
    as one operation. *)
Fixpoint t_cbd_loop (nb : Z) (mask_add mask_sub : Z) (w : nat -> Z)
         (size : nat) (pool nbits : Z) (k : nat) : run (list Z) :=
  match size with
  | O => emit (EBranch false) ;;~ ret []
  | S size' =>
      emit (EBranch true) ;;~
      '(pool, nbits, k) <~
        t_if (nbits <? nb)
          (x <~ wd ODraw (w k) ;~
           y <~ wd OShl128 (as128 (Z.shiftl x nbits)) ;~
           p <~ wd OOr128 (Z.lor pool y) ;~
           ret (p, nbits + 64, S k))
          (ret (pool, nbits, k)) ;~
      a <~ wd OAnd128 (Z.land pool mask_add) ;~
      ca <~ wd OCount128 (popcount 128 a) ;~
      s <~ wd OAnd128 (Z.land pool mask_sub) ;~
      cs <~ wd OCount128 (popcount 128 s) ;~
      x <~ wd OSub64 (ca - cs) ;~
      pool' <~ wd OShr128 (Z.shiftr pool nb) ;~
      rest <~ t_cbd_loop nb mask_add mask_sub w size' pool' (nbits - nb) k ;~
      ret (x :: rest)
  end.

(** src/utils.rs:54-85 [sample_vec_cbd] *)
Definition t_sample_vec_cbd (vector_size : nat) (variance : Z) (w : nat -> Z) : run (list Z) :=
  t_assert ((1 <=? variance) && (variance <=? 16)) ;;~
  let number_bits := 4 * variance in
  let mask_add := Z.shiftr (Z.shiftr (W64 - 1) (64 - number_bits)) (2 * variance) in
  let mask_sub := as128 (Z.shiftl mask_add (2 * variance)) in
  t_cbd_loop number_bits mask_add mask_sub w vector_size 0 0 0.

(** Loops over the rows of matrices: one decision per row. *)
Fixpoint t_rows {B} (f : list Z -> B -> run (list Z)) (a : list (list Z)) (b : list B)
  : run (list (list Z)) :=
  match a, b with
  | x :: a', y :: b' =>
      emit (EBranch true) ;;~ x' <~ f x y ;~ r <~ t_rows f a' b' ;~ ret (x' :: r)
  | _, _ => emit (EBranch false) ;;~ ret a
  end.
Fixpoint t_each {A B} (f : A -> run B) (l : list A) : run (list B) :=
  match l with
  | [] => emit (EBranch false) ;;~ ret []
  | x :: l' => emit (EBranch true) ;;~ y <~ f x ;~ ys <~ t_each f l' ;~ ret (y :: ys)
  end.
(** [dst[..src.len()].copy_from_slice(src)] *)
Definition t_copy (dst src : list Z) : run (list Z) :=
  (EBranch (length src <=? length dst)%nat :: map EWrite (seq 0 (length src)), copy_prefix dst src).
(** [a[i]] of a vector that is not indexed by data *)
Definition t_get {A} (l : list A) (i : nat) : run A := ([ERead 3 i], get l i).

(** src/rq.rs:524-531 [try_from_vec_i64], 515-522 [try_from_vec_u64] and
    533-540 [try_from_bigint] (a division per coefficient and modulus) *)
Definition t_from_i64 (ctx : RqContext) (a : list Z) : run Poly :=
  rows <~ t_rows (fun dst q => r <~ t_reduce_vec_i64 q a ;~ t_copy dst r) (zero_rows ctx) (rq_moduli ctx) ;~
  ret (mkPoly ctx PowerBasis rows).
Definition t_from_u64 (ctx : RqContext) (a : list Z) : run Poly :=
  rows <~ t_rows (fun dst q => r <~ t_reduce_vec_u64 q a ;~ t_copy dst r) (zero_rows ctx) (rq_moduli ctx) ;~
  ret (mkPoly ctx PowerBasis rows).
Definition t_from_bigint (ctx : RqContext) (a : list Z) : run Poly :=
  rows <~ t_rows (fun dst q => r <~ t_map (fun x => ([EDiv x (mp q)], reduce_biguint q x)) 0 a ;~ t_copy dst r)
                 (zero_rows ctx) (rq_moduli ctx) ;~
  ret (mkPoly ctx PowerBasis rows).

(** src/rq.rs:272-310 [change_representation]; the representation is tested by
    a [match]. *)
Definition t_change_repr (p : Poly) (to : repr) : run Poly :=
  emit (EBranch (repr_eqb (p_repr p) to)) ;;~
  match p_repr p, to with
  | PowerBasis, Ntt =>
      rows <~ t_rows (fun row op => t_forward op row) (p_rows p) (rq_ntt_ops (p_ctx p)) ;~
      ret (mkPoly (p_ctx p) Ntt rows)
  | PowerBasis, PowerBasis => ret p
  | Ntt, PowerBasis =>
      rows <~ t_rows (fun row op => t_backward op row) (p_rows p) (rq_ntt_ops (p_ctx p)) ;~
      ret (mkPoly (p_ctx p) PowerBasis rows)
  | Ntt, Ntt => ret p
  | _, _ => ([], Panic)
  end.

(** src/rq.rs:545-609, 630-637: addition, subtraction, product *)
Definition t_poly_op (f : Modulus -> list Z -> list Z -> run (list Z)) (a b : Poly) : run Poly :=
  t_assert (repr_eqb (p_repr a) Ntt) ;;~
  t_assert (repr_eqb (p_repr b) Ntt) ;;~
  rows <~ t_rows (fun x (yq : list Z * Modulus) => f (snd yq) x (fst yq))
                 (p_rows a) (combine (p_rows b) (rq_moduli (p_ctx a))) ;~
  ret (mkPoly (p_ctx a) (p_repr a) rows).
Definition t_poly_add := t_poly_op t_add_vec.
Definition t_poly_sub := t_poly_op t_sub_vec.
Definition t_poly_mul := t_poly_op t_mul_vec.
(** src/rq.rs:611-628 [MulAssign<&BigUint>] *)
Definition t_poly_mul_big (a : Poly) (k : Z) : run Poly :=
  r <~ t_from_bigint (p_ctx a) [k] ;~
  r' <~ t_change_repr r Ntt ;~
  t_assert (repr_eqb (p_repr a) Ntt) ;;~
  t_poly_mul a r'.
(** src/rq.rs:501-513 [random_small] *)
Definition t_random_small (ctx : RqContext) (r : repr) (variance : Z) (w : nat -> Z) : run Poly :=
  values <~ t_sample_vec_cbd (rq_degree ctx) variance w ;~
  p <~ t_from_i64 ctx values ;~
  t_change_repr p r.

(** src/bfv.rs:279-290 [SecretKey::generate] *)
Definition t_sk_generate (P : BfvParams) (w : nat -> Z) : run SecretKey :=
  c <~ t_sample_vec_cbd (bp_degree P) (bp_variance P) w ;~ ret (mkSk P c).
(** The key as a polynomial in NTT form (see [sk_ntt]). *)
Definition t_sk_ntt (ctx : RqContext) (coeffs : list Z) : run Poly :=
  s <~ t_from_i64 ctx coeffs ;~ t_change_repr s Ntt.

(** src/bfv.rs:634-654 [to_poly]; [Modulus::new] divides by the plaintext modulus. *)
Definition t_to_poly (p : Plaintext) : run Poly :=
  let P := pt_params p in
  q_mod_t <~ t_get (bp_q_mod_ts P) (pt_level p) ;~
  q_ctx <~ t_get (bp_q_ctxs P) (pt_level p) ;~
  delta <~ t_get (bp_delta_ts P) (pt_level p) ;~
  tm <~ ([EDiv W128 (bp_t P)], modulus_new (bp_t P)) ;~
  values <~ t_scalar_mul_vec tm (pt_values p) q_mod_t ;~
  poly <~ t_from_u64 q_ctx values ;~
  poly' <~ t_change_repr poly Ntt ;~
  t_poly_mul poly' delta.

(** src/bfv.rs:299-329 [encrypt_poly] and 331-334 [encrypt].  The expansion of
    the seed, which is public, is not recorded. *)
Definition t_encrypt_poly (sk : SecretKey) (pt : Poly) (a_rows : list (list Z)) (w : nat -> Z) : run Ct :=
  s <~ t_sk_ntt (p_ctx pt) (sk_coeffs sk) ;~
  let a := poly_random (p_ctx pt) Ntt a_rows in
  a_s <~ t_poly_mul a s ;~
  b <~ t_random_small (p_ctx pt) Ntt (bp_variance (sk_params sk)) w ;~
  b1 <~ t_poly_sub b a_s ;~
  b2 <~ t_poly_add b1 pt ;~
  ret (mkCt (sk_params sk) [b2; a] 0).
Definition t_encrypt (sk : SecretKey) (pt : Plaintext) (a_rows : list (list Z)) (w : nat -> Z) : run Ct :=
  poly <~ t_to_poly pt ;~ t_encrypt_poly sk poly a_rows w.

(** src/bfv.rs:336-345 [decrypt_trial] *)
Definition t_decrypt_trial (sk : SecretKey) (c0 c1 : Poly) : run Poly :=
  t_assert (ctx_eqb (p_ctx c0) (p_ctx c1)) ;;~
  s <~ t_sk_ntt (p_ctx c0) (sk_coeffs sk) ;~
  v <~ t_poly_mul s c1 ;~
  t_poly_add v c0.
(** src/bfv.rs:347-358: [decrypt] up to the scaling of the phase *)
Definition t_phase_loop (s : Poly) (cs : list Poly) (m sk_i : Poly) : run (Poly * Poly) :=
  t_fold (fun (st : Poly * Poly) c =>
            t <~ t_poly_mul (snd st) c ;~
            m' <~ t_poly_add (fst st) t ;~
            s' <~ t_poly_mul (snd st) s ;~
            ret (m', s')) cs (m, sk_i).
Definition t_decrypt_phase (sk : SecretKey) (ct : Ct) : run Poly :=
  c0 <~ t_get (ct_cts ct) 0 ;~
  s <~ t_sk_ntt (p_ctx c0) (sk_coeffs sk) ;~
  '(m, _) <~ t_phase_loop s (tl (ct_cts ct)) c0 s ;~
  t_change_repr m PowerBasis.

(** src/ksk.rs:66-90 and 47-100 [Ksk::new] *)
Definition t_ksk_entry (ksk_ctx : RqContext) (variance : Z) (s from : Poly)
           (w : nat -> Z) (c1 : Poly) (garner : Z) : run Poly :=
  a_s <~ t_poly_mul c1 s ;~
  b <~ t_random_small ksk_ctx Ntt variance w ;~
  b1 <~ t_poly_sub b a_s ;~
  m <~ t_poly_mul_big from garner ;~
  t_poly_add b1 m.
Definition t_ksk_new (sk : SecretKey) (from : Poly) (ct_level ksk_level : nat) (rnd : RndKsk) : run Ksk :=
  let P := sk_params sk in
  ksk_ctx <~ t_get (bp_q_ctxs P) ksk_level ;~
  ct_ctx <~ t_get (bp_q_ctxs P) ct_level ;~
  let c1s := map (fun i => poly_random ksk_ctx Ntt (rnd_rows rnd i))
                 (seq 0 (length (rns_moduli (rq_rns ct_ctx)))) in
  s <~ t_sk_ntt ksk_ctx (sk_coeffs sk) ;~
  c0s <~ t_each (fun x : nat * (Poly * Z) =>
                   t_ksk_entry ksk_ctx (bp_variance P) s from (rnd_words rnd (fst x))
                               (fst (snd x)) (snd (snd x)))
                (combine (seq 0 (length c1s)) (combine c1s (rns_garner (rq_rns ct_ctx)))) ;~
  ret (mkKsk P c0s c1s ksk_ctx ct_ctx).

(** src/bfv.rs:749-760 [RelinearizationKey::new] *)
Definition t_rlk_new (sk : SecretKey) (level : nat) (rnd : RndKsk) : run RelinKey :=
  ctx <~ t_get (bp_q_ctxs (sk_params sk)) level ;~
  s <~ t_sk_ntt ctx (sk_coeffs sk) ;~
  s2 <~ t_poly_mul s s ;~
  k <~ t_ksk_new sk s2 level level rnd ;~
  ret (mkRlk k (sk_params sk)).
