(** Making a query and PVW encryption once more, in a Release build, with
    their steps recorded (see MTrace.v, MTrace2.v, MTrace4.v). *)
From Verif Require Import Base MModulus MUtils MBfv MEval MPvw MTrace MTrace2 MTrace4.

(** src/evaluations.rs:44-46, 54-56: a comparison whose result is turned into
    a number is one word operation. *)
Definition t_one_hot (len k : nat) : run (list Z) :=
  t_each (fun j => wd OXor64 (if (j =? k)%nat then 1 else 0)) (seq 0 len).

(** src/evaluations.rs:36-62 [Client::encode] *)
Definition t_client_encode (c : Client) (query_dims : list nat) (db_rows : nat) : run (list Z) :=
  q0 <~ t_get query_dims 0 ;~
  t_assert (q0 <? cl_first_dim c)%nat ;;~
  first <~ t_one_hot (cl_first_dim c) q0 ;~
  k <~ t_div (Z.of_nat db_rows) (Z.of_nat (cl_first_dim c)) ;~
  p <~ wd OMul64 ((Z.of_nat (cl_dim c) ^ Z.of_nat (length query_dims - 1)) mod W64) ;~
  k' <~ t_div k p ;~
  t_assert (k' =? 1) ;;~
  rgsws <~ t_each (fun q => t_assert (q <? cl_dim c)%nat ;;~ t_one_hot (cl_dim c) q) (tl query_dims) ;~
  ret (first ++ concat rgsws).

(** src/modulus.rs:18-29 [Modulus::new]: a division by the modulus *)
Definition t_modulus_new (q : Z) : run Modulus := ([EDiv W128 q], modulus_new q).

(** [m[i][j]] *)
Definition t_at2 (t : nat) (m : list (list Z)) (i j : nat) : run Z := r <~ t_at t m i ;~ t_at t r j.

(** src/pvw.rs:71-75, 102-106 *)
Definition t_pvw_dot (q : Modulus) (n : nat) (x y : nat -> run Z) : run Z :=
  t_fold (fun sum i => a <~ x i ;~ b <~ y i ;~ p <~ t_mul q a b ;~ t_add q sum p) (seq 0 n) 0.

(** src/pvw.rs:70-80 *)
Definition t_pvw_pk_entry (q : Modulus) (n : nat) (sk a : list (list Z)) (err : list Z) (l : nat)
           (p : list (list Z)) (m_index : nat) : run (list (list Z)) :=
  sum <~ t_pvw_dot q n (t_at2 1 sk l) (t_at2 2 a m_index) ;~
  e <~ t_at 3 err m_index ;~
  sum' <~ t_add q sum e ;~
  row <~ t_at 0 p m_index ;~
  row' <~ t_put row l sum' ;~
  t_put p m_index row'.

(** src/pvw.rs:56-92 [gen_pk] *)
Definition t_pvw_gen_pk (sk : list (list Z)) (P : PvwParams) (a : list (list Z))
           (w : nat -> nat -> Z) : run (list PvwCt) :=
  q <~ t_modulus_new (pv_q P) ;~
  p <~ t_fold (fun p l =>
                 e <~ t_sample_vec_cbd (pv_m P) (pv_variance P) (w l) ;~
                 err <~ t_reduce_vec_i64 q e ;~
                 t_fold (t_pvw_pk_entry q (pv_n P) sk a err l) (seq 0 (pv_m P)) p)
              (seq 0 (pv_ell P)) (repeat (repeat 0 (pv_ell P)) (pv_m P)) ;~
  t_each (fun index =>
            b <~ t_at 0 p index ;~
            a_i <~ t_at 2 a index ;~
            ret (mkPvwCt a_i b)) (seq 0 (pv_m P)).

(** src/pvw.rs:94-114 [decrypt]; the remainder modulo 2 is one word operation. *)
Definition t_pvw_round (q v : Z) : run Z :=
  s <~ t_add64 v (q / 4) ;~ d <~ t_div s (q / 2) ;~ wd OAnd64 (d mod 2).
Definition t_pvw_decrypt (sk : list (list Z)) (P : PvwParams) (ct : PvwCt) : run (list Z) :=
  q <~ t_modulus_new (pv_q P) ;~
  b <~ t_fold (fun b l =>
                 sum <~ t_pvw_dot q (pv_n P) (t_at2 1 sk l) (t_at 2 (pc_a ct)) ;~
                 bl <~ t_at 0 b l ;~
                 d <~ t_sub q bl sum ;~
                 t_put b l d) (seq 0 (pv_ell P)) (pc_b ct) ;~
  t_map (t_pvw_round (pv_q P)) 0 b.

(** src/pvw.rs:132-141 *)
Definition t_pvw_acc (q : Modulus) (e : run Z) (x : nat -> run Z) (acc : list Z) : run (list Z) :=
  t_each (fun i =>
            xi <~ x i ;~
            ei <~ e ;~
            p <~ t_mul q xi ei ;~
            y <~ t_at 0 acc i ;~
            s <~ t_add q y p ;~
            emit (EWrite i) ;;~ ret s) (seq 0 (length acc)).

(** src/pvw.rs:120-148 [encrypt] *)
Definition t_pvw_encrypt (pk : list PvwCt) (P : PvwParams) (m : list Z) (e : list Z) : run PvwCt :=
  q <~ t_modulus_new (pv_q P) ;~
  '(b, a) <~ t_fold (fun (st : list Z * list Z) i =>
                       b <~ t_pvw_acc q (t_at 3 e i) (fun l => row <~ t_at 1 pk i ;~ t_at 1 (pc_b row) l) (fst st) ;~
                       a <~ t_pvw_acc q (t_at 3 e i) (fun l => row <~ t_at 1 pk i ;~ t_at 2 (pc_a row) l) (snd st) ;~
                       ret (b, a))
                    (seq 0 (pv_m P)) (repeat 0 (pv_ell P), repeat 0 (pv_n P)) ;~
  b' <~ t_zip (fun v m_v => t <~ t_mul64 (pv_q P / 2) m_v ;~ t_add q v t) 0 b m ;~
  ret (mkPvwCt a b').
