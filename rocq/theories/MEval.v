(** Model of /repo/src/evaluations.rs *)
From Verif Require Import Base MModulus MUtils MNtt MRns MRq MBfv MKsk MGalois MRgsw.

(** src/evaluations.rs:17-34 [struct Client]; [new] is the constructor *)
Record Client := mkClient { cl_first_dim : nat; cl_dim : nat }.

(** src/evaluations.rs:65-70 [struct Server] *)
Record Server := mkServer {
  sv_first_dim : nat; sv_dim : nat; sv_db : list Plaintext; sv_db_scaled : list Poly }.

(** src/evaluations.rs:229-232 [struct Evaluation]; the HashMap is an
    association list (last insertion first). *)
Record Evaluation := mkEval { ev_gk : list (nat * GaliosKey); ev_sk_rgsw : RgswCt }.

Definition gk_lookup (m : list (nat * GaliosKey)) (k : nat) : option GaliosKey :=
  match find (fun x => fst x =? k)%nat m with Some (_, g) => Some g | None => None end.

Section Eval.
Variable pr : profile.

(** src/evaluations.rs:44-46, 54-56: [one_hot len k] *)
Definition one_hot (len k : nat) : list Z :=
  map (fun j => if (j =? k)%nat then 1 else 0) (seq 0 len).

(** src/evaluations.rs:36-62 [Client::encode] (params and sk are unused).
    [usize::pow] overflows like a multiplication. *)
Definition client_encode (c : Client) (query_dims : list nat) (db_rows : nat)
  : outcome (list Z) :=
  q0 <- get query_dims 0 ;;
  rassert (q0 <? cl_first_dim c)%nat ;;;
  let first := one_hot (cl_first_dim c) q0 in
  k <- udiv (Z.of_nat db_rows) (Z.of_nat (cl_first_dim c)) ;;
  p <- chk pr W64 (Z.of_nat (cl_dim c) ^ Z.of_nat (length query_dims - 1)) ;;
  k' <- udiv k p ;;
  rassert (k' =? 1) ;;;
  rgsws <- mapM (fun q => rassert (q <? cl_dim c)%nat ;;; Ok (one_hot (cl_dim c) q))
                (tl query_dims) ;;
  Ok (first ++ concat rgsws).

(** src/evaluations.rs:73-93 [Server::new] *)
Definition server_new (first_dim dim : nat) (db : list Plaintext) (P : BfvParams)
  : outcome Server :=
  scaled <- mapM (fun p =>
                    ctx <- get (bp_q_ctxs P) 0 ;;
                    x <- poly_from_u64 pr ctx (pt_values p) ;;
                    change_repr pr x Ntt) db ;;
  Ok (mkServer first_dim dim db scaled).

(** src/evaluations.rs:102-105: the loop of [no_of_cts]; [len] at least halves
    when dim >= 2; for dim = 0 the division panics and for dim = 1 the Rust
    loop does not terminate (NoFuel; a Debug build would panic after 2^64
    iterations). *)
Fixpoint no_of_cts_loop (fuel : nat) (dim : nat) (len : nat) (count : Z) : outcome Z :=
  if (1 <? len)%nat then
    match fuel with
    | O => NoFuel
    | S f => if (dim =? 0)%nat then Panic
             else count' <- add64 pr count (Z.of_nat dim) ;;
                  no_of_cts_loop f dim (len / dim) count'
    end
  else Ok count.

(** src/evaluations.rs:95-107 [no_of_cts] *)
Definition no_of_cts (s : Server) : outcome Z :=
  if (sv_first_dim s =? 0)%nat then Panic
  else no_of_cts_loop 64 (sv_dim s) (length (sv_db s) / sv_first_dim s) (Z.of_nat (sv_first_dim s)).

(** src/evaluations.rs:301-313 [gen_x_pows] *)
Definition gen_x_pows (n : nat) (ctx : RqContext) : outcome (list Poly) :=
  x <- poly_from_u64 pr ctx [0; 1] ;;
  lg <- ilog2 pr 64 (Z.of_nat n) ;;
  mapM (fun i =>
          ex <- sub64 pr (Z.of_nat n) (2 ^ Z.of_nat i) ;;
          sb <- subst_new pr (p_ctx x) ex ;;
          xi <- poly_substitute pr x sb ;;
          poly_neg pr xi) (seq 0 (Z.to_nat lg)).

(** src/evaluations.rs:277-293: inner loop body of [unpack] *)
Definition unpack_step (gk : GaliosKey) (x_pow : Poly) (i : nat) (bits : list Ct) (j : nat)
  : outcome (list Ct) :=
  c <- get bits j ;;
  c_r <- galois_relinearize pr gk c ;;
  c_even <- ct_add pr c c_r ;;
  x_p <- change_repr pr x_pow Ntt ;;
  c_odd <- ct_sub pr c c_r ;;
  o0 <- get (ct_cts c_odd) 0 ;; c0_odd <- poly_mul pr o0 x_p ;;
  o1 <- get (ct_cts c_odd) 1 ;; c1_odd <- poly_mul pr o1 x_p ;;
  let c_odd' := mkCt (ct_params c_odd) [c0_odd; c1_odd] (ct_level c_odd) in
  bits1 <- set bits j c_even ;;
  set bits1 (j + 2 ^ i) c_odd'.

(** src/evaluations.rs:258-298: [unpack] after the computation of [x_pows] *)
Definition unpack_core (ev : Evaluation) (ct : Ct) (x_pows : list Poly) : outcome (list Ct) :=
  let n := bp_degree (ct_params ct) in
  ctx <- get (bp_q_ctxs (ct_params ct)) (ct_level ct) ;;
  n_inv <- unwrap (mod_inverse_big (Z.of_nat n) (rns_product_dig (rq_rns ctx))) ;;
  cts <- mapM (fun c => poly_mul_big pr c n_inv) (ct_cts ct) ;;
  let ct' := mkCt (ct_params ct) cts (ct_level ct) in
  lg <- ilog2 pr 64 (Z.of_nat n) ;;
  bits <- foldM (fun bits i =>
                   let exponent := (n / 2 ^ i + 1)%nat in
                   foldM (fun bits j =>
                            gk <- unwrap (gk_lookup (ev_gk ev) exponent) ;;
                            xp <- get x_pows i ;;
                            unpack_step gk xp i bits j) (seq 0 (2 ^ i)) bits)
                (seq 0 (Z.to_nat lg)) (repeat ct' n) ;;
  rassert (length bits =? n)%nat ;;;
  Ok bits.

(** src/evaluations.rs:254-299 [unpack] *)
Definition unpack (ev : Evaluation) (ct : Ct) : outcome (list Ct) :=
  ctx <- get (bp_q_ctxs (ct_params ct)) (ct_level ct) ;;
  x_pows <- gen_x_pows (bp_degree (ct_params ct)) ctx ;;
  (match pr with
   | Debug => lg <- ilog2 pr 64 (Z.of_nat (bp_degree (ct_params ct))) ;;
              rassert (Z.of_nat (length x_pows) =? lg)
   | Release => Ok tt
   end) ;;;
  unpack_core ev ct x_pows.

(** src/evaluations.rs:168-180, 207-219: sum of a list of ciphertexts (the
    empty sum is the component-less ciphertext). *)
Definition sum_cts (P : BfvParams) (l : list Ct) : outcome Ct :=
  match l with
  | [] => Ok (mkCt P [] 0)
  | c :: l' => foldM (ct_add pr) l' c
  end.

(** src/evaluations.rs:160-182: first dimension *)
Definition fold_first (P : BfvParams) (first_dim : nat) (cts : list Ct) (db : list Poly)
  : outcome (list Ct) :=
  ch <- chunks first_dim db ;;
  mapM (fun polys => rows <- zipM (ct_mul_poly pr) cts polys ;; sum_cts P rows) ch.

(** src/evaluations.rs:192-223: one further dimension *)
Definition fold_dim (P : BfvParams) (dim : nat) (db : list Ct) (rgsws : list RgswCt)
  : outcome (list Ct) :=
  ch <- chunks dim db ;;
  mapM (fun cts =>
          rows <- zipM (fun r c => '(c0, c1) <- external_product pr r c ;;
                                   Ok (mkCt P [c0; c1] 0)) rgsws cts ;;
          sum_cts P rows) ch.

(** src/evaluations.rs:129-148: the RGSW ciphertexts *)
Definition build_rgsw (P : BfvParams) (sk_rgsw : RgswCt) (vals : list (list Ct)) (i : nat)
  : outcome RgswCt :=
  lower <- mapM (fun v => get v i) vals ;;
  upper <- mapM (fun c => '(c0, c1) <- external_product pr sk_rgsw c ;;
                          Ok (mkCt P [c0; c1] 0)) lower ;;
  k1 <- ksk_from_rlwes P lower ;;
  k0 <- ksk_from_rlwes P upper ;;
  Ok (rgsw_from_ksks k0 k1).

(** src/evaluations.rs:121: the number of dimensions.  When the database is
    smaller than a row, [ilog2] of 0 wraps in a Release build. *)
Definition decode_dimensions (s : Server) : outcome Z :=
  rowsz <- udiv (Z.of_nat (length (sv_db s))) (Z.of_nat (sv_first_dim s)) ;;
  lr <- ilog2 pr 64 rowsz ;;
  ld <- ilog2 pr 64 (Z.of_nat (sv_dim s)) ;;
  d0 <- udiv lr ld ;;
  add64 pr d0 1.

(** [v.as_slice()[..k].to_vec()] for a usize k *)
Definition slice_toz {A} (l : list A) (k : Z) : outcome (list A) :=
  rassert (k <=? Z.of_nat (length l)) ;;; Ok (firstn (Z.to_nat k) l).

(** src/evaluations.rs:109-226 [Server::decode], given the function that
    expands a query ciphertext. *)
Definition server_decode_with (unpk : Ct -> outcome (list Ct)) (s : Server)
           (query_cts : list Ct) (ev : Evaluation) (P : BfvParams) : outcome (list Ct) :=
  ctx <- get (bp_q_ctxs P) 0 ;;
  rassert (length (rq_moduli ctx) + 1 =? length query_cts)%nat ;;;
  q0 <- get query_cts 0 ;;
  u0 <- unpk q0 ;;
  first_dim_cts <- slice_to u0 (sv_first_dim s) ;;
  dimensions <- decode_dimensions s ;;
  d1 <- sub64 pr dimensions 1 ;;
  rgsws_count <- mul64 pr d1 (Z.of_nat (sv_dim s)) ;;
  vals <- mapM (fun q => u <- unpk q ;; slice_toz u rgsws_count) (tl query_cts) ;;
  rgsws <- mapM (build_rgsw P (ev_sk_rgsw ev) vals) (seq 0 (Z.to_nat rgsws_count)) ;;
  by_dim <- chunks (sv_dim s) rgsws ;;
  db <- fold_first P (sv_first_dim s) first_dim_cts (sv_db_scaled s) ;;
  foldM (fun db dim_rgsws => fold_dim P (sv_dim s) db dim_rgsws) by_dim db.

(** src/evaluations.rs:109-226 [Server::decode] *)
Definition server_decode (s : Server) (query_cts : list Ct) (ev : Evaluation) (P : BfvParams)
  : outcome (list Ct) :=
  server_decode_with (unpack ev) s query_cts ev P.

(** src/evaluations.rs:444-453 (test [query]): how a client turns the encoded
    query into ciphertexts.  The first encrypts the whole encoding; then, for
    each element of the RNS gadget, one encrypts its multiple of the part for
    the further dimensions.  [rnd] is the randomness of the latter. *)
Definition client_query (sk : SecretKey) (P : BfvParams) (first_dim : nat) (encoded : list Z)
           (rows0 : list (list Z)) (w0 : nat -> Z) (rnd : RndKsk) : outcome (list Ct) :=
  pt <- pt_new pr P encoded 0 EncPoly ;;
  q0 <- encrypt pr sk pt rows0 w0 ;;
  ctx <- get (bp_q_ctxs P) 0 ;;
  rassert (first_dim <=? length encoded)%nat ;;;
  qs <- mapM (fun i =>
                g <- get (rns_garner (rq_rns ctx)) i ;;
                p <- poly_from_u64 pr ctx (skipn first_dim encoded) ;;
                p' <- change_repr pr p Ntt ;;
                p'' <- poly_mul_big pr p' g ;;
                encrypt_poly pr sk p'' (rnd_rows rnd i) (rnd_words rnd i))
             (seq 0 (length (rns_garner (rq_rns ctx)))) ;;
  Ok (q0 :: qs).

(** src/evaluations.rs:235-252 [Evaluation::build]; [rnd i] is the randomness
    of the i-th Galois key, [rnd0], [rnd1] that of the RGSW encryption. *)
Definition eval_build (sk : SecretKey) (P : BfvParams) (rnd : nat -> RndKsk) (rnd0 rnd1 : RndKsk)
  : outcome Evaluation :=
  let n := bp_degree P in
  lg <- ilog2 pr 64 (Z.of_nat n) ;;
  gks <- foldM (fun m i =>
                  let k := (n / 2 ^ i + 1)%nat in
                  ctx <- get (bp_q_ctxs P) 0 ;;
                  sb <- subst_new pr ctx (Z.of_nat k) ;;
                  g <- galois_new pr sk sb 0 (rnd i) ;;
                  Ok ((k, g) :: m)) (seq 0 (Z.to_nat lg)) [] ;;
  ctx <- get (bp_q_ctxs P) 0 ;;
  m <- sk_ntt pr ctx (sk_coeffs sk) ;;
  r <- rgsw_encrypt_poly pr sk m rnd0 rnd1 ;;
  Ok (mkEval gks r).

End Eval.
