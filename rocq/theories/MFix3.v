(** Variants of four functions of src/evaluations.rs with their defects (C42, C43,
    C55) repaired.  These functions are NOT in /repo; each comment says what
    differs from the code. *)
From Verif Require Import Base MModulus MUtils MNtt MRns MRq MBfv MKsk MGalois MRgsw MEval.

Section Fix3.
Variable pr : profile.

(** src/evaluations.rs:301-313 [gen_x_pows] with the monomial X^(n-2^i) written
    down instead of computed by a substitution (the code asks
    [Substitution::new] for even exponents, which it rejects). *)
Definition gen_x_pows_fixed (n : nat) (ctx : RqContext) : outcome (list Poly) :=
  lg <- ilog2 pr 64 (Z.of_nat n) ;;
  mapM (fun i =>
          ex <- sub64 pr (Z.of_nat n) (2 ^ Z.of_nat i) ;;
          xi <- poly_from_u64 pr ctx (repeat 0 (Z.to_nat ex) ++ [1]) ;;
          poly_neg pr xi) (seq 0 (Z.to_nat lg)).

(** src/evaluations.rs:254-299 [unpack] with the above. *)
Definition unpack_fixed (ev : Evaluation) (ct : Ct) : outcome (list Ct) :=
  ctx <- get (bp_q_ctxs (ct_params ct)) (ct_level ct) ;;
  x_pows <- gen_x_pows_fixed (bp_degree (ct_params ct)) ctx ;;
  (match pr with
   | Debug => lg <- ilog2 pr 64 (Z.of_nat (bp_degree (ct_params ct))) ;;
              rassert (Z.of_nat (length x_pows) =? lg)
   | Release => Ok tt
   end) ;;;
  unpack_core pr ev ct x_pows.

(** src/evaluations.rs:36-62 [Client::encode] with the check
    [db_rows == first_dim * dim^k], the product taken without overflow, instead
    of two truncated divisions. *)
Definition client_encode_fixed (c : Client) (query_dims : list nat) (db_rows : nat) : outcome (list Z) :=
  q0 <- get query_dims 0 ;;
  rassert (q0 <? cl_first_dim c)%nat ;;;
  let first := one_hot (cl_first_dim c) q0 in
  rassert (Z.of_nat db_rows =? Z.of_nat (cl_first_dim c) * Z.of_nat (cl_dim c) ^ Z.of_nat (length query_dims - 1)) ;;;
  rgsws <- mapM (fun q => rassert (q <? cl_dim c)%nat ;;; Ok (one_hot (cl_dim c) q)) (tl query_dims) ;;
  Ok (first ++ concat rgsws).

(** src/evaluations.rs:121 with the dimensions counted by divisions, as in
    [no_of_cts], instead of by logarithms; sides below 2 are rejected. *)
Fixpoint dims_loop (fuel : nat) (dim len : nat) (count : Z) : outcome Z :=
  if (1 <? len)%nat then
    match fuel with
    | O => NoFuel
    | S f => count' <- add64 pr count 1 ;; dims_loop f dim (len / dim) count'
    end
  else Ok count.
Definition decode_dimensions_fixed (s : Server) : outcome Z :=
  rassert (2 <=? sv_dim s)%nat ;;;
  rassert (negb (sv_first_dim s =? 0)%nat) ;;;
  dims_loop 64 (sv_dim s) (length (sv_db s) / sv_first_dim s) 1.

(** src/evaluations.rs:109-226 [Server::decode] with these. *)
Definition server_decode_fixed (s : Server) (query_cts : list Ct) (ev : Evaluation) (P : BfvParams) : outcome (list Ct) :=
  ctx <- get (bp_q_ctxs P) 0 ;;
  rassert (length (rq_moduli ctx) + 1 =? length query_cts)%nat ;;;
  q0 <- get query_cts 0 ;;
  u0 <- unpack_fixed ev q0 ;;
  first_dim_cts <- slice_to u0 (sv_first_dim s) ;;
  dimensions <- decode_dimensions_fixed s ;;
  d1 <- sub64 pr dimensions 1 ;;
  rgsws_count <- mul64 pr d1 (Z.of_nat (sv_dim s)) ;;
  vals <- mapM (fun q => u <- unpack_fixed ev q ;; slice_toz u rgsws_count) (tl query_cts) ;;
  rgsws <- mapM (build_rgsw pr P (ev_sk_rgsw ev) vals) (seq 0 (Z.to_nat rgsws_count)) ;;
  by_dim <- chunks (sv_dim s) rgsws ;;
  db <- fold_first pr P (sv_first_dim s) first_dim_cts (sv_db_scaled s) ;;
  foldM (fun db dim_rgsws => fold_dim pr P (sv_dim s) db dim_rgsws) by_dim db.

End Fix3.
