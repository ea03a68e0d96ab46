(** Model of /repo/src/pvw.rs *)
From Verif Require Import Base MModulus MUtils.

(** src/pvw.rs:11-17 [struct PvwParams] *)
Record PvwParams := mkPvw { pv_n : nat; pv_ell : nat; pv_m : nat; pv_q : Z; pv_variance : Z }.

(** src/pvw.rs:19-29 [Default].  (n = 450, ell = 4, m = 16000; the nat 16000 is
    kept as a product so that it is not expanded by the parser.) *)
Definition pvw_default : PvwParams := mkPvw 450 4 (160 * 100) 65537 2.

(** src/pvw.rs:152-157 [struct PvwCiphertext] *)
Record PvwCt := mkPvwCt { pc_a : list Z; pc_b : list Z }.

Section Pvw.
Variable pr : profile.

(** src/pvw.rs:40-52 [gen_sk]: the sampled rows are an input; the modulus is
    still constructed. *)
Definition pvw_gen_sk (P : PvwParams) (rows : list (list Z)) : outcome (list (list Z)) :=
  modulus_new (pv_q P) ;;; Ok rows.

(** [m[i][j]] *)
Definition get2 (m : list (list Z)) (i j : nat) : outcome Z := r <- get m i ;; get r j.

(** src/pvw.rs:71-75, 102-106: inner product of the first [n] entries of two
    vectors, given by the indexing expressions of the loop body. *)
Definition pvw_dot (q : Modulus) (n : nat) (x y : nat -> outcome Z) : outcome Z :=
  foldM (fun sum i =>
           a <- x i ;; b <- y i ;;
           p <- mmul pr q a b ;; madd pr q sum p) (seq 0 n) 0.

(** src/pvw.rs:70-80: one entry of the matrix [p]; state: the matrix. *)
Definition pvw_pk_entry (q : Modulus) (n : nat) (sk a : list (list Z)) (err : list Z) (l : nat)
           (p : list (list Z)) (m_index : nat) : outcome (list (list Z)) :=
  sum <- pvw_dot q n (get2 sk l) (get2 a m_index) ;;
  e <- get err m_index ;;
  sum' <- madd pr q sum e ;;
  row <- get p m_index ;;
  row' <- set row l sum' ;;
  set p m_index row'.

(** src/pvw.rs:56-92 [gen_pk].  [a] are the sampled rows, [w l] the generator
    words used for the errors of message slot [l]. *)
Definition pvw_gen_pk (sk : list (list Z)) (P : PvwParams) (a : list (list Z))
           (w : nat -> nat -> Z) : outcome (list PvwCt) :=
  q <- modulus_new (pv_q P) ;;
  p <- foldM (fun p l =>
                e <- sample_vec_cbd pr (pv_m P) (pv_variance P) (w l) ;;
                err <- reduce_vec_i64 pr q e ;;
                foldM (pvw_pk_entry q (pv_n P) sk a err l) (seq 0 (pv_m P)) p)
             (seq 0 (pv_ell P)) (repeat (repeat 0 (pv_ell P)) (pv_m P)) ;;
  mapM (fun index =>
          b <- get p index ;;
          a_i <- get a index ;;
          Ok (mkPvwCt a_i b)) (seq 0 (pv_m P)).

(** src/pvw.rs:94-114 [decrypt] *)
Definition pvw_decrypt (sk : list (list Z)) (P : PvwParams) (ct : PvwCt) : outcome (list Z) :=
  q <- modulus_new (pv_q P) ;;
  b <- foldM (fun b l =>
                sum <- pvw_dot q (pv_n P) (get2 sk l) (get (pc_a ct)) ;;
                bl <- get b l ;;
                d <- msub pr q bl sum ;;
                set b l d) (seq 0 (pv_ell P)) (pc_b ct) ;;
  mapM (fun v =>
          s <- add64 pr v (pv_q P / 4) ;;
          d <- udiv s (pv_q P / 2) ;;
          Ok (d mod 2)) b.

(** src/pvw.rs:132-141: adding [e] times the entries [x] to an accumulator
    (all indices of the accumulator are visited). *)
Definition pvw_acc (q : Modulus) (e : outcome Z) (x : nat -> outcome Z) (acc : list Z) : outcome (list Z) :=
  mapM (fun i =>
          xi <- x i ;;
          ei <- e ;;
          p <- mmul pr q xi ei ;;
          y <- get acc i ;;
          madd pr q y p) (seq 0 (length acc)).

(** src/pvw.rs:120-148 [encrypt]; [e] are the random bits. *)
Definition pvw_encrypt (pk : list PvwCt) (P : PvwParams) (m : list Z) (e : list Z)
  : outcome PvwCt :=
  q <- modulus_new (pv_q P) ;;
  '(b, a) <- foldM (fun (st : list Z * list Z) i =>
                      b <- pvw_acc q (get e i) (fun l => row <- get pk i ;; get (pc_b row) l) (fst st) ;;
                      a <- pvw_acc q (get e i) (fun l => row <- get pk i ;; get (pc_a row) l) (snd st) ;;
                      Ok (b, a))
                   (seq 0 (pv_m P)) (repeat 0 (pv_ell P), repeat 0 (pv_n P)) ;;
  b' <- zipM_upd (fun v m_v => t <- mul64 pr (pv_q P / 2) m_v ;; madd pr q v t) b m ;;
  Ok (mkPvwCt a b').

(** src/pvw.rs:163-178 [encrypt_decrypt], one iteration of its loop; the key,
    the matrix, the words of the errors, the message and the bits are its draws. *)
Definition test_pvw_encrypt_decrypt (sk a : list (list Z)) (w : nat -> nat -> Z) (m e : list Z) : outcome unit :=
  sk <- pvw_gen_sk pvw_default sk ;;
  pk <- pvw_gen_pk sk pvw_default a w ;;
  ct <- pvw_encrypt pk pvw_default m e ;;
  d_m <- pvw_decrypt sk pvw_default ct ;;
  rassert (zlist_eqb d_m m).

End Pvw.
