(** Model of /repo/src/rq.rs *)
From Verif Require Import Base MModulus MUtils MNtt MRns.

(** src/rq.rs:63-73 [BitDecomposition] *)
Record BitDecomp := mkBD { bd_base : nat; bd_l : nat }.

(** src/rq.rs:155-167 [struct RqContext] *)
Inductive RqContext := mkRq {
  rq_moduli_64 : list Z;
  rq_moduli : list Modulus;
  rq_rns : RnsContext;
  rq_ntt_ops : list NttOp;
  rq_degree : nat;
  rq_bd : BitDecomp;
  rq_next : option RqContext;
  rq_qlinv : list Z;
  rq_qlinv_shoup : list Z;
  rq_bitrev : list nat }.

(** Derived [PartialEq] of RqContext (src/rq.rs:155).  Simplification: only the
    three fields all others are computed from by [RqContext::new] are compared
    (moduli_64, degree, bit_decomposition); C76 proves that this decides equality
    of all fields. *)
Definition ctx_eqb (a b : RqContext) : bool :=
  zlist_eqb (rq_moduli_64 a) (rq_moduli_64 b)
  && (rq_degree a =? rq_degree b)%nat
  && (bd_base (rq_bd a) =? bd_base (rq_bd b))%nat
  && (bd_l (rq_bd a) =? bd_l (rq_bd b))%nat.

(** src/rq.rs:252-257 [Representation] *)
Inductive repr := PowerBasis | Ntt | NttShoup.
Definition repr_eqb (a b : repr) : bool :=
  match a, b with
  | PowerBasis, PowerBasis | Ntt, Ntt | NttShoup, NttShoup => true
  | _, _ => false
  end.

(** src/rq.rs:259-265 [struct Poly]: one row of residues per modulus.  The
    field coefficients_decomp is [None] in all code and is left out. *)
Record Poly := mkPoly {
  p_ctx : RqContext;
  p_repr : repr;
  p_rows : list (list Z) }.

(** src/rq.rs:30-34 [struct Substitution] *)
Record Subst := mkSubst { sub_exp : Z; sub_powers_bitrev : list nat }.

(** src/rq.rs:47-54: the loop computing [powers_bitrev]; [power] is advanced
    (also after the last step) by a usize addition. *)
Fixpoint subst_loop (pr : profile) (degree : nat) (mask exponent power : Z) (count : nat)
  : outcome (list nat) :=
  match count with
  | O => Ok []
  | S c =>
      let v := Z.to_nat (bitrev_usize degree (Z.land power mask)) in
      power' <- add64 pr power exponent ;;
      vs <- subst_loop pr degree mask exponent power' c ;;
      Ok (v :: vs)
  end.

(** src/rq.rs:37-60 [Substitution::new] *)
Definition subst_new (pr : profile) (ctx : RqContext) (exponent : Z) : outcome Subst :=
  e <- umod exponent (2 * Z.of_nat (rq_degree ctx)) ;;
  rassert (Z.land e 1 =? 1) ;;;
  let power := Z.shiftr (e - 1) 1 in
  let mask := Z.of_nat (rq_degree ctx) - 1 in
  v <- subst_loop pr (rq_degree ctx) mask e power (rq_degree ctx) ;;
  Ok (mkSubst e v).

(** src/rq.rs:435-442 [zero] *)
Definition zero_rows (ctx : RqContext) : list (list Z) :=
  repeat (repeat 0 (rq_degree ctx)) (length (rq_moduli ctx)).
Definition poly_zero (ctx : RqContext) (r : repr) : Poly := mkPoly ctx r (zero_rows ctx).

(** src/rq.rs:460-499 [random], [random_from_seed]: the sampled rows are an
    input here; MRand.v and MChaCha.v model how they are drawn. *)
Definition poly_random (ctx : RqContext) (r : repr) (rows : list (list Z)) : Poly :=
  mkPoly ctx r rows.

Section Rq.
Variable pr : profile.
Variable env : Env.

(** src/rq.rs:186-229 [RqContext::new].  [fuel] bounds the recursion, which
    drops one modulus per level. *)
Fixpoint rq_new_fuel (fuel : nat) (ms : list Z) (degree : nat) (bd : BitDecomp)
  : outcome RqContext :=
  match fuel with
  | O => NoFuel
  | S f =>
      rns <- rns_new ms ;;
      let moduli := rns_moduli rns in
      ntt_ops <- mapM (fun m => ntt_new pr env m degree) moduli ;;
      next <- (if (2 <=? length ms)%nat
               then c <- rq_new_fuel f (firstn (length ms - 1) ms) degree bd ;; Ok (Some c)
               else Ok None) ;;
      q_last <- unwrap (match moduli with [] => None | m0 :: _ => Some (mp (last moduli m0)) end) ;;
      invs <- mapM (fun qi =>
                      r <- mreduce pr qi q_last ;;
                      inv <- minv pr qi r ;;
                      s <- shoup pr qi inv ;;
                      Ok (inv, s)) (firstn (length moduli - 1) moduli) ;;
      let bitrev := map (fun i => Z.to_nat (bitrev_usize degree (Z.of_nat i))) (seq 0 degree) in
      Ok (mkRq ms moduli rns ntt_ops degree bd next (map fst invs) (map snd invs) bitrev)
  end.
Definition rq_new (ms : list Z) (degree : nat) (bd : BitDecomp) : outcome RqContext :=
  rq_new_fuel (S (length ms)) ms degree bd.

(** src/rq.rs:231-249 [switch_iterations] *)
Fixpoint switch_loop (curr : RqContext) (to : RqContext) (count : nat) : option nat :=
  if ctx_eqb curr to then Some count
  else match curr with
       | mkRq _ _ _ _ _ _ (Some c) _ _ _ => switch_loop c to (S count)
       | _ => None
       end.
Definition switch_iterations (ctx to : RqContext) : option nat := switch_loop ctx to 0.

(** src/rq.rs:272-310 [change_representation] *)
Definition change_repr (p : Poly) (to : repr) : outcome Poly :=
  match p_repr p, to with
  | PowerBasis, Ntt =>
      rows <- zipM_upd (fun row op => ntt_forward pr op row) (p_rows p) (rq_ntt_ops (p_ctx p)) ;;
      Ok (mkPoly (p_ctx p) Ntt rows)
  | PowerBasis, PowerBasis => Ok p
  | Ntt, PowerBasis =>
      rows <- zipM_upd (fun row op => ntt_backward pr op row) (p_rows p) (rq_ntt_ops (p_ctx p)) ;;
      Ok (mkPoly (p_ctx p) PowerBasis rows)
  | Ntt, Ntt => Ok p
  | _, _ => Panic
  end.

(** src/rq.rs:312-341 [apply_bit_decomposition]; the computed digits are
    dropped, so only its panics are observable.  [slice_mut(s![r, c, ..])]
    panics when c >= l. *)
Definition apply_bit_decomposition (p : Poly) : outcome unit :=
  foldM (fun _ (rq : list Z * Modulus) =>
           foldM (fun _ (cv : nat * Z) =>
                    decompose_bits pr (snd cv) (modulus_bits (snd rq)) (bd_base (rq_bd (p_ctx p))) ;;;
                    rassert (fst cv <? bd_l (rq_bd (p_ctx p)))%nat)
                 (combine (seq 0 (length (fst rq))) (fst rq)) tt)
        (combine (p_rows p) (rq_moduli (p_ctx p))) tt.

(** src/rq.rs:356-366 [substitute], PowerBasis branch: coefficient [j] of one
    row [src] is added to, or subtracted from, the coefficient [power & mask]
    of the row [dst]. *)
Definition subst_pb_step (degree : nat) (power : Z) (j : nat) (dst : list Z) (q : Modulus) (src : list Z)
  : outcome (list Z) :=
  o <- get src j ;;
  let k := Z.to_nat (Z.land power (Z.of_nat degree - 1)) in
  t <- get dst k ;;
  v <- (if negb (Z.land power (Z.of_nat degree) =? 0) then msub pr q t o
        else madd pr q t o) ;;
  set dst k v.

(** src/rq.rs:350-368: the loop over the columns; [power] is advanced by a
    usize addition. *)
Fixpoint subst_pb_loop (degree : nat) (e : Z) (qs : list (Modulus * list Z)) (count : nat)
         (j : nat) (power : Z) (rows : list (list Z)) : outcome (list (list Z)) :=
  match count with
  | O => Ok rows
  | S c =>
      rows' <- zipM_upd (fun dst (q : Modulus * list Z) => subst_pb_step degree power j dst (fst q) (snd q)) rows qs ;;
      power' <- add64 pr power e ;;
      subst_pb_loop degree e qs c (S j) power' rows'
  end.

(** src/rq.rs:379-381: NTT branch on one row. *)
Definition subst_ntt_row (js ks : list nat) (c_row p_row : list Z) : outcome (list Z) :=
  foldM (fun row (jk : nat * nat) => v <- get c_row (fst jk) ;; set row (snd jk) v)
        (combine js ks) p_row.

(** src/rq.rs:343-386 [substitute] *)
Definition poly_substitute (p : Poly) (a : Subst) : outcome Poly :=
  let ctx := p_ctx p in
  match p_repr p with
  | PowerBasis =>
      rows <- subst_pb_loop (rq_degree ctx) (sub_exp a) (combine (rq_moduli ctx) (p_rows p))
                            (rq_degree ctx) 0 0 (zero_rows ctx) ;;
      Ok (mkPoly ctx (p_repr p) rows)
  | _ =>
      rows <- zipM_upd (fun dst src => subst_ntt_row (sub_powers_bitrev a) (rq_bitrev ctx) src dst)
                       (zero_rows ctx) (p_rows p) ;;
      Ok (mkPoly ctx (p_repr p) rows)
  end.

(** src/rq.rs:409-420: one row of [mod_switch_down_next] *)
Definition msd_row (qi : Modulus) (inv inv_shoup q_last_div_2 : Z) (poly last : list Z)
  : outcome (list Z) :=
  r <- mreduce pr qi q_last_div_2 ;;
  h <- sub64 pr (mp qi) r ;;
  zipM_upd (fun coeff q_last_coeff =>
              l <- lazy_reduce_ct pr qi q_last_coeff ;;
              tmp <- add64 pr l h ;;
              q3 <- mul64 pr 3 (mp qi) ;;
              d <- sub64 pr q3 tmp ;;
              c <- add64 pr coeff d ;;
              mul_shoup pr qi c inv inv_shoup) poly last.

(** src/rq.rs:388-425 [mod_switch_down_next] *)
Definition mod_switch_down_next (p : Poly) : outcome Poly :=
  let ctx := p_ctx p in
  next <- unwrap (rq_next ctx) ;;
  rassert (repr_eqb (p_repr p) PowerBasis) ;;;
  let q_len := length (rq_moduli ctx) in
  q_last <- unwrap (match rq_moduli ctx with [] => None | m0 :: _ => Some (last (rq_moduli ctx) m0) end) ;;
  let q_last_div_2 := mp q_last / 2 in
  rassert (q_len - 1 <=? length (p_rows p))%nat ;;;
  let q_polys := firstn (q_len - 1) (p_rows p) in
  lasts <- mapM (mapM (fun c => madd pr q_last c q_last_div_2)) (skipn (q_len - 1) (p_rows p)) ;;
  let q_poly_last := concat lasts in
  rows <- zipM_upd (fun poly (t : Modulus * (Z * Z)) =>
                      msd_row (fst t) (fst (snd t)) (snd (snd t)) q_last_div_2 poly q_poly_last)
                   q_polys
                   (combine (rq_moduli ctx) (combine (rq_qlinv ctx) (rq_qlinv_shoup ctx))) ;;
  rassert (q_len - 1 <? length (p_rows p))%nat ;;;
  Ok (mkPoly next (p_repr p) (rows ++ skipn 1 lasts)).

(** src/rq.rs:430-432: the loop of [mod_switch_to] *)
Fixpoint msd_iter (n : nat) (p : Poly) : outcome Poly :=
  match n with
  | O => Ok p
  | S n' => p' <- mod_switch_down_next p ;; msd_iter n' p'
  end.

(** src/rq.rs:427-433 [mod_switch_to] *)
Definition mod_switch_to (p : Poly) (ctx : RqContext) : outcome Poly :=
  n <- unwrap (switch_iterations (p_ctx p) ctx) ;;
  msd_iter n p.

(** src/rq.rs:444-458 [inverse] *)
Definition poly_inverse (p : Poly) : outcome Poly :=
  let ctx := p_ctx p in
  rows <- zipM_upd (fun dst (pq : list Z * Modulus) =>
                      r <- inv_vec pr (snd pq) (fst pq) ;;
                      rassert (length r =? length dst)%nat ;;;
                      Ok r)
                   (zero_rows ctx) (combine (p_rows p) (rq_moduli ctx)) ;;
  Ok (mkPoly ctx (p_repr p) rows).

(** src/rq.rs:515-522 [try_from_vec_u64] *)
Definition poly_from_u64 (ctx : RqContext) (a : list Z) : outcome Poly :=
  rows <- zipM_upd (fun dst q => r <- reduce_vec_u64 pr q a ;; copy_prefix dst r)
                   (zero_rows ctx) (rq_moduli ctx) ;;
  Ok (mkPoly ctx PowerBasis rows).
(** src/rq.rs:524-531 [try_from_vec_i64] *)
Definition poly_from_i64 (ctx : RqContext) (a : list Z) : outcome Poly :=
  rows <- zipM_upd (fun dst q => r <- reduce_vec_i64 pr q a ;; copy_prefix dst r)
                   (zero_rows ctx) (rq_moduli ctx) ;;
  Ok (mkPoly ctx PowerBasis rows).
(** src/rq.rs:533-540 [try_from_bigint] *)
Definition poly_from_bigint (ctx : RqContext) (a : list Z) : outcome Poly :=
  rows <- zipM_upd (fun dst q => r <- reduce_vec_biguint q a ;; copy_prefix dst r)
                   (zero_rows ctx) (rq_moduli ctx) ;;
  Ok (mkPoly ctx PowerBasis rows).

(** src/rq.rs:501-513 [random_small]; [w] is the generator's word stream. *)
Definition poly_random_small (ctx : RqContext) (r : repr) (variance : Z) (w : nat -> Z)
  : outcome Poly :=
  values <- sample_vec_cbd pr (rq_degree ctx) variance w ;;
  p <- poly_from_i64 ctx values ;;
  change_repr p r.

(** src/rq.rs:545-568 [AddAssign], [Add].  Note there is no comparison of the
    contexts. *)
Definition poly_add (a b : Poly) : outcome Poly :=
  rassert (repr_eqb (p_repr a) Ntt) ;;;
  rassert (repr_eqb (p_repr b) Ntt) ;;;
  rows <- zipM_upd (fun x (yq : list Z * Modulus) => add_vec pr (snd yq) x (fst yq))
                   (p_rows a) (combine (p_rows b) (rq_moduli (p_ctx a))) ;;
  Ok (mkPoly (p_ctx a) (p_repr a) rows).
(** src/rq.rs:570-593 [SubAssign], [Sub] *)
Definition poly_sub (a b : Poly) : outcome Poly :=
  rassert (repr_eqb (p_repr a) Ntt) ;;;
  rassert (repr_eqb (p_repr b) Ntt) ;;;
  rows <- zipM_upd (fun x (yq : list Z * Modulus) => sub_vec pr (snd yq) x (fst yq))
                   (p_rows a) (combine (p_rows b) (rq_moduli (p_ctx a))) ;;
  Ok (mkPoly (p_ctx a) (p_repr a) rows).
(** src/rq.rs:595-609, 630-637 [MulAssign<&Poly>], [Mul<&Poly>] *)
Definition poly_mul (a b : Poly) : outcome Poly :=
  rassert (repr_eqb (p_repr a) Ntt) ;;;
  rassert (repr_eqb (p_repr b) Ntt) ;;;
  rows <- zipM_upd (fun x (yq : list Z * Modulus) => mul_vec pr (snd yq) x (fst yq))
                   (p_rows a) (combine (p_rows b) (rq_moduli (p_ctx a))) ;;
  Ok (mkPoly (p_ctx a) (p_repr a) rows).
(** src/rq.rs:611-628 [MulAssign<&BigUint>], [Mul<&BigUint>] *)
Definition poly_mul_big (a : Poly) (k : Z) : outcome Poly :=
  r <- poly_from_bigint (p_ctx a) [k] ;;
  r' <- change_repr r Ntt ;;
  rassert (repr_eqb (p_repr a) Ntt) ;;;
  poly_mul a r'.
(** src/rq.rs:639-655 [Neg] *)
Definition poly_neg (a : Poly) : outcome Poly :=
  let ctx := p_ctx a in
  rows <- zipM_upd (fun dst (pq : list Z * Modulus) =>
                      r <- neg_vec pr (snd pq) (fst pq) ;;
                      rassert (length r =? length dst)%nat ;;;
                      Ok r)
                   (zero_rows ctx) (combine (p_rows a) (rq_moduli ctx)) ;;
  Ok (mkPoly ctx (p_repr a) rows).

(** One column of the coefficient array ([axis_iter(Axis(1))]). *)
Definition column (rows : list (list Z)) (j : nat) : outcome (list Z) :=
  mapM (fun row => get row j) rows.

(** src/rq.rs:657-665 [From<&Poly> for Vec<BigUint>].  The number of columns
    is the context's degree for every Poly the crate can build. *)
Definition poly_to_big (p : Poly) : outcome (list Z) :=
  mapM (fun j => c <- column (p_rows p) j ;; rns_lift (rq_rns (p_ctx p)) c)
       (seq 0 (rq_degree (p_ctx p))).
(** src/rq.rs:668-677 [From<&Poly> for Vec<u64>] *)
Definition poly_to_u64 (p : Poly) : outcome (list Z) :=
  rassert (length (rq_moduli_64 (p_ctx p)) =? 1)%nat ;;;
  mapM (fun j => c <- column (p_rows p) j ;;
                 x <- rns_lift (rq_rns (p_ctx p)) c ;; unwrap (to_u64 x))
       (seq 0 (rq_degree (p_ctx p))).

(** src/rq.rs:77-83 [struct RqScaler] *)
Record RqScaler := mkRqScaler {
  sc_from : RqContext;
  sc_to : RqContext;
  sc_rns : RnsScaler;
  sc_factor : ScalingFactor;
  sc_common : nat }.

(** src/rq.rs:91-93: number of *positions* at which the moduli agree. *)
Fixpoint count_common (a b : list Z) : nat :=
  match a, b with
  | x :: a', y :: b' => (if (x =? y)%Z then 1 else 0) + count_common a' b'
  | _, _ => 0
  end%nat.

(** src/rq.rs:86-104 [RqScaler::new] *)
Definition rq_scaler_new (from to : RqContext) (sf : ScalingFactor) : outcome RqScaler :=
  rassert (rq_degree from =? rq_degree to)%nat ;;;
  let common := if sf_is_one sf then count_common (rq_moduli_64 from) (rq_moduli_64 to) else 0%nat in
  s <- rns_scaler_new pr (rq_rns from) (rq_rns to) sf ;;
  Ok (mkRqScaler from to s sf common).

(** src/rq.rs:119-150: [scale] of a PowerBasis polynomial: the first
    [number_common_moduli] rows are copied, the others computed column by
    column. *)
Definition rq_scale_pb (s : RqScaler) (p : Poly) : outcome Poly :=
  let k := sc_common s in
  rassert (k <=? length (rq_moduli (sc_to s)))%nat ;;;
  top <- slice_to (p_rows p) k ;;
  bottom <- (if (k <? length (rq_moduli_64 (sc_to s)))%nat then
               outs <- mapM (fun j =>
                               c <- column (p_rows p) j ;;
                               rns_scale pr (sc_rns s) c (length (rq_moduli (sc_to s)) - k) k)
                            (seq 0 (rq_degree (sc_to s))) ;;
               Ok (map (fun i => map (fun out => nth i out 0) outs)
                       (seq 0 (length (rq_moduli (sc_to s)) - k)))
             else Ok (repeat (repeat 0 (rq_degree (sc_to s))) (length (rq_moduli (sc_to s)) - k))) ;;
  Ok (mkPoly (sc_to s) PowerBasis (top ++ bottom)).

(** src/rq.rs:107-151 [scale] *)
Definition rq_scale (s : RqScaler) (p : Poly) : outcome Poly :=
  rassert (ctx_eqb (p_ctx p) (sc_from s)) ;;;
  match p_repr p with
  | PowerBasis => rq_scale_pb s p
  | r => tmp <- change_repr p PowerBasis ;;
         t <- rq_scale_pb s tmp ;;
         change_repr t r
  end.

End Rq.
