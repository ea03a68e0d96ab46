(** Claim C99, continued: a whole retrieval takes the same steps for all positions. *)
From Verif Require Import PBase MModulus MUtils MNtt MRns MRq MBfv MKsk MGalois MRgsw MEval MTrace MTrace2 MTrace4 MTrace5 MTrace6 MTrace7 SpecTrace SpecTrace2 SpecTrace6 SpecTrace7 QTrace QTrace2 QTrace4 QTrace5 QTrace6 TestEnv TestBfv.

(** ** Values *)
Lemma v_pt_new P v l e : snd (t_pt_new P v l e) = pt_new Release P v l e.
Proof.
  unfold t_pt_new, pt_new. cbv zeta. rewrite snd_bind. destruct e; [reflexivity| |reflexivity].
  rewrite snd_bind. rewrite (v_fold _ (fun acc i => k <- get (bp_index_map P) i ;; x <- get v i ;; set acc k x)) by (intros; rewrite snd_bind; cbn [t_at snd]; apply bind_ext; intros ?; rewrite snd_bind; reflexivity).
  destruct (foldM _ _ _) as [u| | |]; cbn [bind]; try reflexivity.
  rewrite snd_bind. cbn [pub snd]. destruct (unwrap (bp_pt_ntt P)) as [op| | |]; cbn [bind]; try reflexivity. rewrite v_backward. reflexivity.
Qed.
Lemma v_pt_decode p : snd (t_pt_decode p) = pt_decode Release p.
Proof.
  unfold t_pt_decode, pt_decode. cbv zeta. destruct (pt_enc p); [rewrite snd_bind; reflexivity| |reflexivity]. rewrite snd_bind. cbn [pub snd]. apply bind_ext. intros op. rewrite snd_bind, v_forward. apply bind_ext. intros v.
  apply v_each. intros i. rewrite snd_bind. reflexivity.
Qed.
Lemma v_client_query sk P d enc rows w r : snd (t_client_query sk P d enc rows w r) = client_query Release sk P d enc rows w r.
Proof.
  unfold t_client_query, client_query. rewrite snd_bind, v_pt_new. apply bind_ext. intros pt. rewrite snd_bind, QTrace2.v_encrypt. apply bind_ext. intros q0. rewrite snd_bind. cbn [t_get snd]. apply bind_ext. intros ctx. rewrite snd_bind. cbn [t_assert snd]. apply bind_ext. intros _.
  rewrite snd_bind. rewrite (v_each _ (fun i => g <- get (rns_garner (rq_rns ctx)) i ;; p <- poly_from_u64 Release ctx (skipn d enc) ;; p' <- change_repr Release p Ntt ;; p'' <- poly_mul_big Release p' g ;; encrypt_poly Release sk p'' (rnd_rows r i) (rnd_words r i))); [reflexivity|].
  intros i. rewrite snd_bind. cbn [t_at snd]. apply bind_ext. intros g. rewrite snd_bind, v_from_u64. apply bind_ext. intros p. rewrite snd_bind, v_change. apply bind_ext. intros p'. rewrite snd_bind, v_mul_big. apply bind_ext. intros; apply v_encrypt_poly.
Qed.
Lemma v_eval_build sk P r r0 r1 : snd (t_eval_build sk P r r0 r1) = eval_build Release sk P r r0 r1.
Proof.
  unfold t_eval_build, eval_build. cbv zeta. rewrite snd_bind. cbn [pub snd]. apply bind_ext. intros lg. rewrite snd_bind.
  rewrite (v_fold _ (fun m i => ctx <- get (bp_q_ctxs P) 0 ;; sb <- subst_new Release ctx (Z.of_nat (bp_degree P / 2 ^ i + 1)) ;; g <- galois_new Release sk sb 0 (r i) ;; Ok (((bp_degree P / 2 ^ i + 1)%nat, g) :: m))).
  - apply bind_ext. intros gks. rewrite snd_bind. cbn [t_get snd]. apply bind_ext. intros ctx. rewrite snd_bind, v_sk_ntt. apply bind_ext. intros m. rewrite snd_bind, v_rgsw_poly. reflexivity.
  - intros m i. rewrite snd_bind. cbn [t_get snd]. apply bind_ext. intros ctx. rewrite snd_bind. cbn [pub snd]. apply bind_ext. intros sb. rewrite snd_bind, v_galois. reflexivity.
Qed.
Lemma v_server_new f d db P : snd (t_server_new f d db P) = server_new Release f d db P.
Proof.
  unfold t_server_new, server_new. rewrite snd_bind. rewrite (v_each _ (fun p => ctx <- get (bp_q_ctxs P) 0 ;; x <- poly_from_u64 Release ctx (pt_values p) ;; change_repr Release x Ntt)); [reflexivity|].
  intros p. rewrite snd_bind. cbn [t_get snd]. apply bind_ext. intros ctx. rewrite snd_bind, v_from_u64. apply bind_ext. intros; apply v_change.
Qed.
Lemma v_retrieve_with u u' P c sk db q r : (forall ev ct, snd (u ev ct) = u' ev ct) -> snd (t_retrieve_with u P c sk db q r) = retrieve_with u' P c sk db q r.
Proof.
  intros U. unfold t_retrieve_with, retrieve_with. rewrite snd_bind, v_encode. apply bind_ext. intros e. rewrite snd_bind, v_client_query. apply bind_ext. intros cts. rewrite snd_bind, v_eval_build. apply bind_ext. intros ev. rewrite snd_bind, v_server_new. apply bind_ext. intros; apply v_with, U.
Qed.

(** The recorded runs compute what the model computes in a Release build. *)
Lemma C99_retrieve_values_lem :
  (forall P v l e, snd (t_pt_new P v l e) = pt_new Release P v l e)
  /\ (forall p, snd (t_pt_decode p) = pt_decode Release p)
  /\ (forall sk P d e rows w r, snd (t_client_query sk P d e rows w r) = client_query Release sk P d e rows w r)
  /\ (forall sk P r r0 r1, snd (t_eval_build sk P r r0 r1) = eval_build Release sk P r r0 r1)
  /\ (forall f d db P, snd (t_server_new f d db P) = server_new Release f d db P)
  /\ (forall P c sk db q r, snd (t_retrieve P c sk db q r) = retrieve P c sk db q r)
  /\ (forall xs P c sk db q r, snd (t_retrieve_given xs P c sk db q r) = retrieve_given xs P c sk db q r).
Proof.
  split; [exact v_pt_new|]. split; [exact v_pt_decode|]. split; [exact v_client_query|]. split; [exact v_eval_build|]. split; [exact v_server_new|].
  split; intros; apply v_retrieve_with; intros; [apply v_unpack|apply v_core].
Qed.

(** ** Steps *)
Definition ptx (m m' : Plaintext) : Prop := pts_alike m m' /\ pt_enc m = pt_enc m'.
Lemma r_pt_new P v v' l e : length v = length v' -> rel ptx (t_pt_new P v l e) (t_pt_new P v' l e).
Proof.
  intros L. unfold t_pt_new. cbv zeta. eapply rel_bind with (R := samelen); [|intros x y H; apply rel_ret; repeat split; exact H]. destruct e.
  - apply r_copy; [reflexivity|exact L].
  - eapply rel_bind; [apply (r_fold samelen); [|reflexivity]|].
    + intros b c i H. eapply rel_bind; [apply (r_getA eq), F2_eq|]. intros k ? <-. eapply rel_bind; [apply r_at, L|]. intros x y _. apply r_put, H.
    + intros b c H. eapply rel_bind; [apply r_pub|]. intros op ? <-. apply r_backward; [apply shape_refl|exact H].
  - split; [reflexivity|exact I].
Qed.
Lemma r_pt_decode p p' : ptx p p' -> rel any (t_pt_decode p) (t_pt_decode p').
Proof.
  intros [(P & L & N) E]. unfold t_pt_decode. cbv zeta. rewrite P, N, E. destruct (pt_enc p').
  - eapply rel_bind; [apply r_assert|]. intros; apply rel_ret; exact I.
  - eapply rel_bind; [apply r_pub|]. intros op ? <-. eapply rel_bind; [apply r_forward; [apply shape_refl|exact N]|]. intros v v' H.
    eapply rel_weak; [|apply (r_each eq any); [|apply F2_eq]]; [intros; exact I|]. intros i ? <-. eapply rel_bind; [apply (r_getA eq), F2_eq|]. intros k ? <-. apply r_at, H.
  - split; [reflexivity|exact I].
Qed.
Lemma skip_len {A B} (a : list A) (b : list B) k : length a = length b -> length (skipn k a) = length (skipn k b).
Proof. intros H. rewrite !skipn_length, H. reflexivity. Qed.
Lemma r_client_query sk sk' P d e e' rows rows' w w' r r' : keys_alike sk sk' -> length e = length e' -> same_rows rows rows' -> rnds_alike r r' ->
  rel (Forall2 ct_like) (t_client_query sk P d e rows w r) (t_client_query sk' P d e' rows' w' r').
Proof.
  intros K L HR R. unfold t_client_query. rewrite L. eapply rel_bind; [apply r_pt_new, L|]. intros m m' [M _]. eapply rel_bind; [apply QTrace2.r_encrypt; eassumption|]. intros q q' Q. eapply rel_bind; [apply r_get_same|]. intros ctx ? <-. eapply rel_bind; [apply r_assert|]. intros _ _ _.
  eapply rel_bind; [apply (r_each eq ct_like); [|apply F2_eq]|].
  - intros i ? <-. eapply rel_bind; [apply (r_getA eq), F2_eq|]. intros g ? <-. eapply rel_bind; [apply r_from_u64, skip_len, L|]. intros p p' Hp. eapply rel_bind; [apply r_change, Hp|]. intros u u' Hu. eapply rel_bind; [apply r_mul_big, Hu|]. intros v v' Hv. apply r_encrypt_poly; [exact K|exact Hv|apply R].
  - intros qs qs' QS. apply rel_ret. apply Forall2_cons; assumption.
Qed.
Lemma r_ksk_new' sk sk' f f' a b r r' : keys_alike sk sk' -> alike f f' -> rnds_alike r r' -> rel ksk_like (t_ksk_new sk f a b r) (t_ksk_new sk' f' a b r').
Proof.
  intros [K1 K2] Hf Hr. unfold t_ksk_new. cbv zeta. rewrite K1. eapply rel_bind; [apply r_get_same|]. intros kc ? <-. eapply rel_bind; [apply r_get_same|]. intros cc ? <-. eapply rel_bind; [apply r_sk_ntt, K2|]. intros s s' Hs. eapply rel_bind.
  - rewrite !map_length. apply (r_each (fun x y : nat * (Poly * Z) => fst x = fst y /\ (alike (fst (snd x)) (fst (snd y)) /\ snd (snd x) = snd (snd y))) alike).
    + intros [i [p g]] [i' [p' g']] [E [Hp Hg]]. cbn [fst snd] in *. subst. apply QTrace2.r_entry; assumption.
    + apply (F2_combine_r (fun x y : Poly * Z => alike (fst x) (fst y) /\ snd x = snd y)), (F2_combine alike), F2_map_rnd, Hr.
  - intros c0 c0' H0. apply rel_ret. split; [reflexivity|]. split; [reflexivity|]. split; [exact H0|]. apply F2_map_rnd, Hr.
Qed.
Lemma r_galois' sk sk' i l r r' : keys_alike sk sk' -> rnds_alike r r' -> rel gk_like (t_galois_new sk i l r) (t_galois_new sk' i l r').
Proof.
  intros K R. pose proof K as [K1 K2]. unfold t_galois_new. rewrite K1. eapply rel_bind; [apply r_assert|]. intros _ _ _. eapply rel_bind; [apply r_get_same|]. intros c ? <-. eapply rel_bind; [apply r_from_i64, K2|]. intros s s' Hs.
  eapply rel_bind; [apply r_substitute, Hs|]. intros t t' Ht. eapply rel_bind; [apply r_change, Ht|]. intros u u' Hu. eapply rel_bind; [apply r_ksk_new'; eassumption|]. intros k k' Hk. apply rel_ret. split; [reflexivity|]. split; [reflexivity|exact Hk].
Qed.
Lemma r_rgsw_poly' sk sk' m m' r r' q q' : keys_alike sk sk' -> alike m m' -> rnds_alike r r' -> rnds_alike q q' -> rel rgsw_like (t_rgsw_encrypt_poly sk m r q) (t_rgsw_encrypt_poly sk' m' r' q').
Proof.
  intros K M R Q. pose proof K as [K1 K2]. pose proof M as [C [E H]]. unfold t_rgsw_encrypt_poly. rewrite K1, C, E. eapply rel_bind; [apply r_assert|]. intros _ _ _. eapply rel_bind; [apply (rel_refl eq); reflexivity|]. intros l ? <-.
  eapply rel_bind; [apply r_sk_ntt, K2|]. intros s s' Hs. eapply rel_bind; [apply r_pmul; eassumption|]. intros t t' Ht. eapply rel_bind; [apply r_ksk_new'; eassumption|]. intros k k' Hk. eapply rel_bind; [apply r_ksk_new'; eassumption|]. intros j j' Hj. apply rel_ret. split; assumption.
Qed.
Lemma r_eval_build sk sk' P r r' r0 r0' r1 r1' : keys_alike sk sk' -> (forall i, rnds_alike (r i) (r' i)) -> rnds_alike r0 r0' -> rnds_alike r1 r1' ->
  rel ev_like (t_eval_build sk P r r0 r1) (t_eval_build sk' P r' r0' r1').
Proof.
  intros K R R0 R1. unfold t_eval_build. cbv zeta. eapply rel_bind; [apply r_pub|]. intros lg ? <-.
  eapply rel_bind; [apply (r_fold (Forall2 (fun x y : nat * GaliosKey => fst x = fst y /\ gk_like (snd x) (snd y)))); [|apply Forall2_nil]|].
  - intros m m' i M. eapply rel_bind; [apply r_get_same|]. intros ctx ? <-. eapply rel_bind; [apply r_pub|]. intros sb ? <-. eapply rel_bind; [apply r_galois'; [exact K|apply R]|]. intros g g' G. apply rel_ret. apply Forall2_cons; [split; [reflexivity|exact G]|exact M].
  - intros gks gks' G. eapply rel_bind; [apply r_get_same|]. intros ctx ? <-. eapply rel_bind; [apply r_sk_ntt, K|]. intros m m' M. eapply rel_bind; [apply r_rgsw_poly'; eassumption|]. intros rg rg' RG. apply rel_ret. split; assumption.
Qed.
Lemma r_server_new f d db db' P : Forall2 pts_alike db db' -> rel server_like (t_server_new f d db P) (t_server_new f d db' P).
Proof.
  intros D. unfold t_server_new. eapply rel_bind; [apply (r_each pts_alike alike); [|exact D]|].
  - intros m m' (_ & _ & N). eapply rel_bind; [apply r_get_same|]. intros ctx ? <-. eapply rel_bind; [apply r_from_u64, N|]. intros x x' X. apply r_change, X.
  - intros sc sc' S. apply rel_ret. split; [reflexivity|]. split; [reflexivity|]. split; [exact (F2n _ _ _ D)|exact S].
Qed.
Lemma concat_len {A B} (a : list (list A)) (b : list (list B)) : Forall2 (Forall2 any) a b -> length (concat a) = length (concat b).
Proof. induction 1 as [|x y a b H _ IH]; [reflexivity|]. cbn [concat]. rewrite !app_length, (F2n _ _ _ H), IH. reflexivity. Qed.
Lemma bounds_F2 d a b : length a = length b -> Forall (fun q => q < d)%nat a -> Forall (fun q => q < d)%nat b -> Forall2 (fun x y => (x <? d)%nat = (y <? d)%nat) a b.
Proof.
  revert b. induction a as [|x a IH]; intros [|y b] L HA HB; try discriminate L; [constructor|]. inversion HA; inversion HB; subst. constructor; [|apply IH; auto].
  transitivity true; [|symmetry]; apply Nat.ltb_lt; assumption.
Qed.
Lemma r_encode c q q' n : in_bounds c q -> in_bounds c q' -> length q = length q' -> rel samelen (t_client_encode c q n) (t_client_encode c q' n).
Proof.
  intros [A1 A2] [B1 B2] L. unfold t_client_encode. rewrite L. destruct q as [|x q], q' as [|y q']; try discriminate L; [split; [reflexivity|exact I]|]. cbn [nth tl] in *.
  eapply rel_bind with (R := fun a b => (a < cl_first_dim c)%nat /\ (b < cl_first_dim c)%nat); [split; [reflexivity|split; assumption]|].
  intros a b [Ha Hb]. apply Nat.ltb_lt in Ha, Hb. rewrite Ha, Hb. eapply rel_bind; [apply r_assert|]. intros _ _ _. eapply rel_bind; [apply r_one_hot|]. intros f f' F.
  eapply rel_bind; [apply (rel_refl eq); reflexivity|]. intros k ? <-. eapply rel_bind; [apply (rel_refl eq); reflexivity|]. intros p ? <-. eapply rel_bind; [apply (rel_refl eq); reflexivity|]. intros k' ? <-.
  eapply rel_bind; [apply r_assert|]. intros _ _ _. eapply rel_bind.
  - apply (r_each (fun x y => (x <? cl_dim c)%nat = (y <? cl_dim c)%nat) (Forall2 any)); [|apply bounds_F2; [injection L; auto|assumption|assumption]].
    intros u v Huv. cbn beta in Huv |- *. rewrite Huv. eapply rel_bind; [apply r_assert|]. intros _ _ _. apply r_one_hot.
  - intros g g' G. apply rel_ret. unfold samelen. rewrite !app_length, (F2n _ _ _ F), (concat_len _ _ G). reflexivity.
Qed.
Lemma r_retrieve u u' P c sk sk' db db' q q' r r' : (forall ev ev' ct ct', ev_like ev ev' -> ct_like ct ct' -> rel (Forall2 ct_like) (u ev ct) (u' ev' ct')) -> keys_alike sk sk' -> Forall2 pts_alike db db' -> in_bounds c q -> in_bounds c q' -> length q = length q' -> rnd_like r r' ->
  rel (Forall2 ct_like) (t_retrieve_with u P c sk db q r) (t_retrieve_with u' P c sk' db' q' r').
Proof.
  intros U K D Q Q' L (R1 & R2 & R3 & R4 & R5). unfold t_retrieve_with. rewrite (F2n _ _ _ D). eapply rel_bind; [apply r_encode; assumption|]. intros e e' E. eapply rel_bind; [apply r_client_query; assumption|]. intros cs cs' C. eapply rel_bind; [apply r_eval_build; assumption|]. intros ev ev' V.
  eapply rel_bind; [apply r_server_new, D|]. intros s s' S. apply r_with; try assumption. intros; apply U; assumption.
Qed.

(** Encoding and decoding of plaintexts, the query of a client, the keys of
    the server and the preparation of the database give away sizes only. *)
Lemma C99_parts_lem :
  (forall P v v' l e, length v = length v' -> looks_same (t_pt_new P v l e) (t_pt_new P v' l e))
  /\ (forall p p', pts_alike p p' -> pt_enc p = pt_enc p' -> looks_same (t_pt_decode p) (t_pt_decode p'))
  /\ (forall sk sk' P d e e' rows rows' w w' r r', keys_alike sk sk' -> length e = length e' -> same_rows rows rows' -> rnds_alike r r' ->
        looks_same (t_client_query sk P d e rows w r) (t_client_query sk' P d e' rows' w' r'))
  /\ (forall sk sk' P r r' r0 r0' r1 r1', keys_alike sk sk' -> (forall i, rnds_alike (r i) (r' i)) -> rnds_alike r0 r0' -> rnds_alike r1 r1' ->
        looks_same (t_eval_build sk P r r0 r1) (t_eval_build sk' P r' r0' r1'))
  /\ (forall f d db db' P, Forall2 pts_alike db db' -> looks_same (t_server_new f d db P) (t_server_new f d db' P)).
Proof.
  split; [|split; [|split; [|split]]]; intros.
  - apply (rel_looks ptx), r_pt_new; assumption.
  - apply (rel_looks any), r_pt_decode; split; assumption.
  - apply (rel_looks (Forall2 ct_like)), r_client_query; assumption.
  - apply (rel_looks ev_like), r_eval_build; assumption.
  - apply (rel_looks server_like), r_server_new; assumption.
Qed.

(** A retrieval, from the position to the answer of the server, takes the same
    steps for any two positions within bounds, secret keys, databases of the
    same shape and outputs of the generator; the answers have the same shape.
    As [unpack] of the code stops in the computation of the powers of X (C42),
    this is stated for the code and for the powers of X given. *)
Lemma C99_retrieve_lem :
  forall P c sk sk' db db' q q' r r', keys_alike sk sk' -> Forall2 pts_alike db db' -> in_bounds c q -> in_bounds c q' -> length q = length q' -> rnd_like r r' ->
    looks_same (t_retrieve P c sk db q r) (t_retrieve P c sk' db' q' r')
    /\ forall xs, looks_same (t_retrieve_given xs P c sk db q r) (t_retrieve_given xs P c sk' db' q' r')
         /\ forall a a', retrieve_given xs P c sk db q r = Ok a -> retrieve_given xs P c sk' db' q' r' = Ok a' -> Forall2 ct_like a a'.
Proof.
  intros P c sk sk' db db' q q' r r' K D Q Q' L R. split.
  - apply (rel_looks (Forall2 ct_like)), r_retrieve; try assumption. intros; apply r_unpack; assumption.
  - intros xs. assert (H : rel (Forall2 ct_like) (t_retrieve_given xs P c sk db q r) (t_retrieve_given xs P c sk' db' q' r')) by (apply r_retrieve; try assumption; intros; apply r_core; assumption).
    split; [exact (rel_looks _ _ _ H)|].
    intros a a' Ea Ea'. destruct H as [_ H]. unfold t_retrieve_given in H. rewrite !(v_retrieve_with _ (fun ev ct => unpack_core Release ev ct xs)) in H by (intros; apply v_core). unfold retrieve_given in Ea, Ea'. rewrite Ea, Ea' in H. exact H.
Qed.

(*EXAMPLE
(** Queries for two positions under the same randomness: different
    ciphertexts, the same number of steps. *)
Example C99_query_example :
  (P <- test_bfv Release ;; sk <- sk_generate Release P (tw 1) ;;
   let query q := (e <~ t_client_encode (mkClient 2 2) q 2 ;~ t_client_query sk P 2 e (trows bms 4) (tw 5) (trnd 2)) in
   let rows cts := concat (concat (map (fun c => concat (map p_rows (ct_cts c))) cts)) in
   let t := query [0]%nat in let t' := query [1]%nat in
   x <- snd t ;; x' <- snd t' ;;
   Ok (length x, zlist_eqb (rows x) (rows x'), length (fst t) =? length (fst t'), 1000 <? length (fst t))%nat)
  = Ok (3%nat, false, true, true).
Proof. vm_compute. reflexivity. Qed.
EXAMPLE*)
