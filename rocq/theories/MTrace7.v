(** A whole retrieval (keys of the server, the database, the query of the
    client, the answer) in a Release build, with its steps recorded. *)
From Verif Require Import Base MModulus MUtils MNtt MRns MRq MBfv MKsk MGalois MRgsw MEval MTrace MTrace2 MTrace4 MTrace5 MTrace6.

(** src/bfv.rs:583-609 [Plaintext::new] *)
Definition t_pt_new (P : BfvParams) (values : list Z) (level : nat) (enc : encoding) : run Plaintext :=
  let zeros := repeat 0 (bp_degree P) in
  vals <~ match enc with
          | EncPoly => t_copy zeros values
          | EncSIMD =>
              v <~ t_fold (fun acc i =>
                             k <~ t_at 2 (bp_index_map P) i ;~
                             x <~ t_at 1 values i ;~
                             t_put acc k x) (seq 0 (bp_degree P)) zeros ;~
              op <~ pub (unwrap (bp_pt_ntt P)) ;~
              t_backward op v
          | EncNone => pub Panic
          end ;~
  ret (mkPt P level enc vals).

(** src/bfv.rs:611-628 [decode] *)
Definition t_pt_decode (p : Plaintext) : run (list Z) :=
  let P := pt_params p in
  match pt_enc p with
  | EncPoly => t_assert (length (pt_values p) =? bp_degree P)%nat ;;~ ret (pt_values p)
  | EncSIMD =>
      op <~ pub (unwrap (bp_pt_ntt P)) ;~
      v <~ t_forward op (pt_values p) ;~
      t_each (fun i => k <~ t_at 2 (bp_index_map P) i ;~ t_at 0 v k) (seq 0 (bp_degree P))
  | EncNone => pub Panic
  end.

(** src/evaluations.rs:444-453 (test [query]) *)
Definition t_client_query (sk : SecretKey) (P : BfvParams) (first_dim : nat) (encoded : list Z)
           (rows0 : list (list Z)) (w0 : nat -> Z) (rnd : RndKsk) : run (list Ct) :=
  pt <~ t_pt_new P encoded 0 EncPoly ;~
  q0 <~ t_encrypt sk pt rows0 w0 ;~
  ctx <~ t_get (bp_q_ctxs P) 0 ;~
  t_assert (first_dim <=? length encoded)%nat ;;~
  qs <~ t_each (fun i =>
                  g <~ t_at 2 (rns_garner (rq_rns ctx)) i ;~
                  p <~ t_from_u64 ctx (skipn first_dim encoded) ;~
                  p' <~ t_change_repr p Ntt ;~
                  p'' <~ t_poly_mul_big p' g ;~
                  t_encrypt_poly sk p'' (rnd_rows rnd i) (rnd_words rnd i))
               (seq 0 (length (rns_garner (rq_rns ctx)))) ;~
  ret (q0 :: qs).

(** src/evaluations.rs:235-252 [Evaluation::build] *)
Definition t_eval_build (sk : SecretKey) (P : BfvParams) (rnd : nat -> RndKsk) (rnd0 rnd1 : RndKsk) : run Evaluation :=
  let n := bp_degree P in
  lg <~ pub (ilog2 Release 64 (Z.of_nat n)) ;~
  gks <~ t_fold (fun m i =>
                   let k := (n / 2 ^ i + 1)%nat in
                   ctx <~ t_get (bp_q_ctxs P) 0 ;~
                   sb <~ pub (subst_new Release ctx (Z.of_nat k)) ;~
                   g <~ t_galois_new sk sb 0 (rnd i) ;~
                   ret ((k, g) :: m)) (seq 0 (Z.to_nat lg)) [] ;~
  ctx <~ t_get (bp_q_ctxs P) 0 ;~
  m <~ t_sk_ntt ctx (sk_coeffs sk) ;~
  r <~ t_rgsw_encrypt_poly sk m rnd0 rnd1 ;~
  ret (mkEval gks r).

(** src/evaluations.rs:73-93 [Server::new] *)
Definition t_server_new (first_dim dim : nat) (db : list Plaintext) (P : BfvParams) : run Server :=
  scaled <~ t_each (fun p =>
                      ctx <~ t_get (bp_q_ctxs P) 0 ;~
                      x <~ t_from_u64 ctx (pt_values p) ;~
                      t_change_repr x Ntt) db ;~
  ret (mkServer first_dim dim db scaled).

(** The randomness of one retrieval. *)
Record RndAll := mkRndAll {
  ra_rows : list (list Z); ra_words : nat -> Z; ra_query : RndKsk;
  ra_gk : nat -> RndKsk; ra_k0 : RndKsk; ra_k1 : RndKsk }.

(** src/evaluations.rs:430-460 (test [query]): from the position to the
    answer of the server, with a given expansion of the query. *)
Definition t_retrieve_with (unpk : Evaluation -> Ct -> run (list Ct)) (P : BfvParams) (c : Client) (sk : SecretKey)
           (db : list Plaintext) (query : list nat) (r : RndAll) : run (list Ct) :=
  encoded <~ t_client_encode c query (length db) ;~
  cts <~ t_client_query sk P (cl_first_dim c) encoded (ra_rows r) (ra_words r) (ra_query r) ;~
  ev <~ t_eval_build sk P (ra_gk r) (ra_k0 r) (ra_k1 r) ;~
  s <~ t_server_new (cl_first_dim c) (cl_dim c) db P ;~
  t_server_decode_with (unpk ev) s cts ev P.

(** The retrieval of the code, and the one with the powers of X given. *)
Definition t_retrieve := t_retrieve_with t_unpack.
Definition t_retrieve_given (xs : list Poly) := t_retrieve_with (fun ev ct => t_unpack_core ev ct xs).
