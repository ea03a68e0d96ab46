(** Claim C99: what the work of the server gives away through its steps. *)
From Verif Require Import PBase MModulus MUtils MNtt MRns MRq MBfv MKsk MGalois MRgsw MEval MTrace MTrace2 MTrace4 MTrace6 SpecTrace SpecTrace2 SpecTrace6 QTrace QTrace2 QTrace4 TestEnv TestBfv.

(** ** Values *)
Lemma v_izip {A B C} f (g : A -> B -> outcome C) : (forall x y, snd (f x y) = g x y) -> forall a b i, snd (t_izip f i a b) = zipM g a b.
Proof.
  intros H. induction a as [|x a IH]; intros [|y b] i; try reflexivity. cbn [t_izip zipM]. do 3 (rewrite snd_bind; cbn [emit snd bind]). rewrite snd_bind, H. apply bind_ext. intros c. rewrite snd_bind, IH. reflexivity.
Qed.
Lemma v_ks_step c st x : snd (t_key_switch_step c st x) = key_switch_step Release c st x.
Proof.
  unfold t_key_switch_step, key_switch_step. rewrite snd_bind, v_from_u64. apply bind_ext. intros d0. rewrite snd_bind, v_change. apply bind_ext. intros d. rewrite snd_bind, v_poly_mul. apply bind_ext. intros b. rewrite snd_bind, v_poly_mul. apply bind_ext. intros a.
  rewrite snd_bind, v_poly_add. apply bind_ext. intros c0. rewrite snd_bind, v_poly_add. reflexivity.
Qed.
Lemma v_key_switch k p : snd (t_key_switch k p) = key_switch Release k p.
Proof. unfold t_key_switch, key_switch. rewrite snd_bind. cbn [t_assert snd]. apply bind_ext. intros _. rewrite snd_bind. cbn [t_assert snd]. apply bind_ext. intros _. apply v_fold. intros; apply v_ks_step. Qed.
Lemma v_from_rlwes P l : snd (t_from_rlwes P l) = ksk_from_rlwes P l.
Proof.
  unfold t_from_rlwes, ksk_from_rlwes. rewrite snd_bind. rewrite (v_each _ (fun c => rassert (params_eqb (ct_params c) P) ;;; get (ct_cts c) 0)) by (intros; rewrite snd_bind; reflexivity). apply bind_ext. intros c0.
  rewrite snd_bind. rewrite (v_each _ (fun c => rassert (params_eqb (ct_params c) P) ;;; get (ct_cts c) 1)) by (intros; rewrite snd_bind; reflexivity). apply bind_ext. intros c1. rewrite snd_bind. reflexivity.
Qed.
Lemma v_ext r c : snd (t_external_product r c) = external_product Release r c.
Proof.
  unfold t_external_product, external_product. rewrite snd_bind. cbn [t_get snd]. apply bind_ext. intros a1. rewrite snd_bind. cbn [t_get snd]. apply bind_ext. intros a0. rewrite snd_bind, v_change. apply bind_ext. intros c1. rewrite snd_bind, v_change. apply bind_ext. intros c0.
  rewrite snd_bind, v_key_switch. apply bind_ext. intros [x y]. rewrite snd_bind, v_key_switch. apply bind_ext. intros [u v]. rewrite snd_bind, v_poly_add. apply bind_ext. intros d0. rewrite snd_bind, v_poly_add. reflexivity.
Qed.
Lemma v_ct_add a b : snd (t_ct_add a b) = ct_add Release a b.
Proof.
  unfold t_ct_add, t_ct_op, ct_add. do 2 (rewrite snd_bind; cbn [t_assert snd]; apply bind_ext; intros _). do 2 (rewrite snd_bind; cbn [t_get snd]; apply bind_ext; intros ?). rewrite snd_bind, v_poly_add. apply bind_ext. intros c0.
  do 2 (rewrite snd_bind; cbn [t_get snd]; apply bind_ext; intros ?). rewrite snd_bind, v_poly_add. reflexivity.
Qed.
Lemma v_ct_sub a b : snd (t_ct_sub a b) = ct_sub Release a b.
Proof.
  unfold t_ct_sub, t_ct_op, ct_sub. do 2 (rewrite snd_bind; cbn [t_assert snd]; apply bind_ext; intros _). do 2 (rewrite snd_bind; cbn [t_get snd]; apply bind_ext; intros ?). rewrite snd_bind, v_poly_sub. apply bind_ext. intros c0.
  do 2 (rewrite snd_bind; cbn [t_get snd]; apply bind_ext; intros ?). rewrite snd_bind, v_poly_sub. reflexivity.
Qed.
Lemma v_ct_mul_poly a p : snd (t_ct_mul_poly a p) = ct_mul_poly Release a p.
Proof.
  unfold t_ct_mul_poly, ct_mul_poly. rewrite snd_bind. cbn [t_get snd]. apply bind_ext. intros a0. do 2 (rewrite snd_bind; cbn [t_assert snd]; apply bind_ext; intros _). rewrite snd_bind, v_poly_mul. apply bind_ext. intros c0.
  rewrite snd_bind. cbn [t_get snd]. apply bind_ext. intros a1. rewrite snd_bind, v_poly_mul. reflexivity.
Qed.
Lemma v_relinearize g c : snd (t_galois_relinearize g c) = galois_relinearize Release g c.
Proof.
  unfold t_galois_relinearize, galois_relinearize. rewrite snd_bind. cbn [t_assert snd]. apply bind_ext. intros _. cbn [bind]. rewrite snd_bind. cbn [t_get snd]. apply bind_ext. intros a1. rewrite snd_bind, v_substitute. apply bind_ext. intros s. rewrite snd_bind, v_change. apply bind_ext. intros p.
  rewrite snd_bind, v_key_switch. apply bind_ext. intros [c0 c1]. rewrite snd_bind. cbn [t_get snd]. apply bind_ext. intros a0. rewrite snd_bind, v_substitute. apply bind_ext. intros r. rewrite snd_bind, v_poly_add. reflexivity.
Qed.
Lemma v_unpack_step g x i bits j : snd (t_unpack_step g x i bits j) = unpack_step Release g x i bits j.
Proof.
  unfold t_unpack_step, unpack_step. rewrite snd_bind. cbn [t_at snd]. apply bind_ext. intros c. rewrite snd_bind, v_relinearize. apply bind_ext. intros cr. rewrite snd_bind, v_ct_add. apply bind_ext. intros ce. rewrite snd_bind, v_change. apply bind_ext. intros xp.
  rewrite snd_bind, v_ct_sub. apply bind_ext. intros co. rewrite snd_bind. cbn [t_get snd]. apply bind_ext. intros o0. rewrite snd_bind, v_poly_mul. apply bind_ext. intros c0. rewrite snd_bind. cbn [t_get snd]. apply bind_ext. intros o1. rewrite snd_bind, v_poly_mul. apply bind_ext. intros c1.
  cbv zeta. rewrite snd_bind. reflexivity.
Qed.
Lemma v_core ev c xs : snd (t_unpack_core ev c xs) = unpack_core Release ev c xs.
Proof.
  unfold t_unpack_core, unpack_core. cbv zeta. rewrite snd_bind. cbn [t_get snd]. apply bind_ext. intros ctx. rewrite snd_bind. cbn [pub snd]. apply bind_ext. intros ni. rewrite snd_bind, (v_each _ (fun c => poly_mul_big Release c ni)) by (intros; apply v_mul_big). apply bind_ext. intros cts.
  rewrite snd_bind. cbn [pub snd]. apply bind_ext. intros lg. rewrite snd_bind.
  rewrite (v_fold _ (fun bits i => foldM (fun bits j => gk <- unwrap (gk_lookup (ev_gk ev) (bp_degree (ct_params c) / 2 ^ i + 1)%nat) ;; xp <- get xs i ;; unpack_step Release gk xp i bits j) (seq 0 (2 ^ i)) bits)).
  - apply bind_ext. intros bits. rewrite snd_bind. reflexivity.
  - intros bits i. apply v_fold. intros b j. rewrite snd_bind. cbn [snd]. apply bind_ext. intros gk. rewrite snd_bind. cbn [t_at snd]. apply bind_ext. intros xp. apply v_unpack_step.
Qed.
Lemma v_unpack ev c : snd (t_unpack ev c) = unpack Release ev c.
Proof. unfold t_unpack, unpack. rewrite snd_bind. cbn [pub snd]. apply bind_ext. intros ctx. rewrite snd_bind. cbn [pub snd]. apply bind_ext. intros; apply v_core. Qed.
Lemma v_sum P l : snd (t_sum_cts P l) = sum_cts Release P l.
Proof. destruct l as [|c l]; [reflexivity|]. cbn [t_sum_cts sum_cts]. apply v_fold. intros; apply v_ct_add. Qed.
Lemma v_fold_first P d cts db : snd (t_fold_first P d cts db) = fold_first Release P d cts db.
Proof.
  unfold t_fold_first, fold_first. rewrite snd_bind. cbn [pub snd]. apply bind_ext. intros ch. apply v_each. intros ps. rewrite snd_bind, (v_izip _ (ct_mul_poly Release)) by (intros; apply v_ct_mul_poly). apply bind_ext. intros; apply v_sum.
Qed.
Lemma v_ext_ct P r c : snd (t_ext_ct P r c) = ('(c0, c1) <- external_product Release r c ;; Ok (mkCt P [c0; c1] 0)).
Proof. unfold t_ext_ct. rewrite snd_bind, v_ext. apply bind_ext. intros [x y]. reflexivity. Qed.
Lemma v_fold_dim P d db rs : snd (t_fold_dim P d db rs) = fold_dim Release P d db rs.
Proof.
  unfold t_fold_dim, fold_dim. rewrite snd_bind. cbn [pub snd]. apply bind_ext. intros ch. apply v_each. intros ps. rewrite snd_bind.
  rewrite (v_izip _ (fun r c => '(c0, c1) <- external_product Release r c ;; Ok (mkCt P [c0; c1] 0))) by (intros; apply v_ext_ct). apply bind_ext. intros; apply v_sum.
Qed.
Lemma v_build P r vals i : snd (t_build_rgsw P r vals i) = build_rgsw Release P r vals i.
Proof.
  unfold t_build_rgsw, build_rgsw. rewrite snd_bind, (v_each _ (fun v => get v i)) by reflexivity. apply bind_ext. intros lower. rewrite snd_bind.
  rewrite (v_each _ (fun c => '(c0, c1) <- external_product Release r c ;; Ok (mkCt P [c0; c1] 0))) by (intros; apply v_ext_ct). apply bind_ext. intros upper. rewrite snd_bind, v_from_rlwes. apply bind_ext. intros k1. rewrite snd_bind, v_from_rlwes. reflexivity.
Qed.
Lemma v_with u u' s q ev P : (forall c, snd (u c) = u' c) -> snd (t_server_decode_with u s q ev P) = server_decode_with Release u' s q ev P.
Proof.
  intros U. unfold t_server_decode_with, server_decode_with. rewrite snd_bind. cbn [t_get snd]. apply bind_ext. intros ctx. rewrite snd_bind. cbn [t_assert snd]. apply bind_ext. intros _. rewrite snd_bind. cbn [t_get snd]. apply bind_ext. intros q0. rewrite snd_bind, U. apply bind_ext. intros u0.
  do 4 (rewrite snd_bind; cbn [pub snd]; apply bind_ext; intros ?). rewrite snd_bind.
  match goal with |- context [slice_toz _ ?k] => rewrite (v_each _ (fun q => u <- u' q ;; slice_toz u k)) by (intros; rewrite snd_bind, U; reflexivity) end.
  apply bind_ext. intros vals. rewrite snd_bind, (v_each _ (build_rgsw Release P (ev_sk_rgsw ev) vals)) by (intros; apply v_build). apply bind_ext. intros rg. rewrite snd_bind. cbn [pub snd]. apply bind_ext. intros bd.
  rewrite snd_bind, v_fold_first. apply bind_ext. intros db. apply v_fold. intros; apply v_fold_dim.
Qed.
Lemma v_server s q ev P : snd (t_server_decode s q ev P) = server_decode Release s q ev P.
Proof. apply v_with. intros; apply v_unpack. Qed.

(** The recorded runs compute what the model computes in a Release build. *)
Lemma C99_values_lem :
  (forall k p, snd (t_key_switch k p) = key_switch Release k p)
  /\ (forall r c, snd (t_external_product r c) = external_product Release r c)
  /\ (forall g c, snd (t_galois_relinearize g c) = galois_relinearize Release g c)
  /\ (forall ev c, snd (t_unpack ev c) = unpack Release ev c)
  /\ (forall ev c xs, snd (t_unpack_core ev c xs) = unpack_core Release ev c xs)
  /\ (forall s q ev P, snd (t_server_decode s q ev P) = server_decode Release s q ev P)
  /\ (forall xs s q ev P, snd (t_server_decode_with (fun ct => t_unpack_core ev ct xs) s q ev P)
        = server_decode_with Release (fun ct => unpack_core Release ev ct xs) s q ev P).
Proof.
  split; [exact v_key_switch|]. split; [exact v_ext|]. split; [exact v_relinearize|]. split; [exact v_unpack|]. split; [exact v_core|]. split; [exact v_server|].
  intros. apply v_with. intros; apply v_core.
Qed.

(** ** Steps *)
Lemma r_fold2 {A A' B C} (RA : A -> A' -> Prop) (R : B -> C -> Prop) (f : B -> A -> run B) (g : C -> A' -> run C) :
  (forall b c x y, R b c -> RA x y -> rel R (f b x) (g c y)) -> forall l l', Forall2 RA l l' -> forall b c, R b c -> rel R (t_fold f l b) (t_fold g l' c).
Proof.
  intros H l l' HL. induction HL as [|x y l l' Hx HL IH]; intros b c Hb; cbn [t_fold]; (eapply rel_bind; [apply rel_emit|]; intros _ _ _); [apply rel_ret, Hb|].
  eapply rel_bind; [apply H; eassumption|]. intros; apply IH; assumption.
Qed.
Lemma r_izip {A B C} (RA : A -> A -> Prop) (RB : B -> B -> Prop) (RC : C -> C -> Prop) f g : (forall x x' y y', RA x x' -> RB y y' -> rel RC (f x y) (g x' y')) ->
  forall a a', Forall2 RA a a' -> forall b b' i, Forall2 RB b b' -> rel (Forall2 RC) (t_izip f i a b) (t_izip g i a' b').
Proof.
  intros H a a' HA. induction HA as [|x x' a a' Hx HA IH]; intros b b' i HB; [cbn [t_izip]; eapply rel_bind; [apply rel_emit|]; intros; apply rel_ret; constructor|].
  destruct HB as [|y y' b b' Hy HB]; cbn [t_izip]; (eapply rel_bind; [apply rel_emit|]; intros _ _ _); [apply rel_ret; constructor|].
  do 2 (eapply rel_bind; [apply rel_emit|]; intros _ _ _). eapply rel_bind; [apply H; eassumption|]. intros c c' Hc. eapply rel_bind; [apply IH, HB|]. intros r r' Hr. apply rel_ret. constructor; assumption.
Qed.
Lemma F2n {A B} (R : A -> B -> Prop) a b : Forall2 R a b -> length a = length b.
Proof. induction 1; cbn [length]; congruence. Qed.
Lemma F2_comb {A B} (R : A -> A -> Prop) (S : B -> B -> Prop) a a' : Forall2 R a a' -> forall b b', Forall2 S b b' -> Forall2 (fun x y => R (fst x) (fst y) /\ S (snd x) (snd y)) (combine a b) (combine a' b').
Proof. induction 1 as [|x y a a' Hx H IH]; intros b b' HB; [constructor|]. destruct HB; cbn [combine]; constructor; [split; assumption|apply IH; assumption]. Qed.
Lemma F2_first {A} (R : A -> A -> Prop) a b : Forall2 R a b -> forall k, Forall2 R (firstn k a) (firstn k b).
Proof. induction 1; intros [|k]; cbn [firstn]; constructor; auto. Qed.
Lemma F2_skip {A} (R : A -> A -> Prop) a b : Forall2 R a b -> forall k, Forall2 R (skipn k a) (skipn k b).
Proof. induction 1; intros [|k]; cbn [skipn]; try constructor; auto. Qed.
Lemma F2_rep {A} (R : A -> A -> Prop) x y n : R x y -> Forall2 R (repeat x n) (repeat y n).
Proof. intros H. induction n; cbn [repeat]; constructor; auto. Qed.
Lemma F2_up {A} (R : A -> A -> Prop) a b : Forall2 R a b -> forall i v w, R v w -> Forall2 R (upd a i v) (upd b i w).
Proof. induction 1 as [|x y a b Hx H IH]; intros [|i] v w Hv; cbn [upd]; constructor; auto. Qed.
Lemma F2_tl {A} (R : A -> A -> Prop) a b : Forall2 R a b -> Forall2 R (tl a) (tl b).
Proof. intros H; destruct H; cbn [tl]; [constructor|assumption]. Qed.
Lemma r_chunks {A} (R : A -> A -> Prop) k a b : Forall2 R a b -> rel (Forall2 (Forall2 R)) (pub (chunks k a)) (pub (chunks k b)).
Proof.
  intros H. split; [reflexivity|]. cbn [pub snd]. unfold chunks. destruct (k =? 0)%nat; [exact I|]. rewrite (F2n _ _ _ H). generalize (length b) as f. intros f. revert a b H.
  induction f as [|f IH]; intros a b H; [constructor|]. destruct H as [|x y a b Hx H]; [constructor|]. cbn [chunks_fuel]. constructor; [apply F2_first; constructor; assumption|]. apply IH, F2_skip. constructor; assumption.
Qed.
Lemma r_getA {A} (R : A -> A -> Prop) t a b i : Forall2 R a b -> rel R (t_at t a i) (t_at t b i).
Proof. intros H. destruct (r_get R a b i H) as [_ E]. split; [reflexivity|exact E]. Qed.
Lemma r_putA {A} (R : A -> A -> Prop) a b i v w : Forall2 R a b -> R v w -> rel (Forall2 R) (t_put a i v) (t_put b i w).
Proof. intros H Hv. split; [reflexivity|]. cbn [t_put snd]. unfold set. rewrite (F2n _ _ _ H). destruct (_ <? _)%nat; [apply F2_up; assumption|exact I]. Qed.
Lemma r_pub {A} (x : outcome A) : rel eq (pub x) (pub x).
Proof. apply (rel_refl eq); reflexivity. Qed.
Lemma r_slice_toz {A} (R : A -> A -> Prop) a b k : Forall2 R a b -> rel (Forall2 R) (pub (slice_toz a k)) (pub (slice_toz b k)).
Proof. intros H. split; [reflexivity|]. cbn [pub snd]. unfold slice_toz. rewrite (F2n _ _ _ H). destruct (k <=? _); cbn [rassert bind]; [apply F2_first, H|exact I]. Qed.
Lemma r_slice_to {A} (R : A -> A -> Prop) a b k : Forall2 R a b -> rel (Forall2 R) (pub (slice_to a k)) (pub (slice_to b k)).
Proof. intros H. split; [reflexivity|]. cbn [pub snd]. unfold slice_to. rewrite (F2n _ _ _ H). destruct (k <=? _)%nat; [apply F2_first, H|exact I]. Qed.

Definition two (x y : Poly * Poly) : Prop := alike (fst x) (fst y) /\ alike (snd x) (snd y).
Lemma r_ks_step c st st' x x' : two st st' -> length (fst x) = length (fst x') -> two (snd x) (snd x') -> rel two (t_key_switch_step c st x) (t_key_switch_step c st' x').
Proof.
  intros [S1 S2] L [X1 X2]. unfold t_key_switch_step. eapply rel_bind; [apply r_from_u64, L|]. intros d0 d0' H0. eapply rel_bind; [apply r_change, H0|]. intros d d' Hd. eapply rel_bind; [apply r_pmul; eassumption|]. intros b b' Hb. eapply rel_bind; [apply r_pmul; eassumption|]. intros a a' Ha.
  eapply rel_bind; [apply r_padd; eassumption|]. intros c0 c0' H1. eapply rel_bind; [apply r_padd; eassumption|]. intros c1 c1' H2. apply rel_ret. split; assumption.
Qed.
Lemma r_key_switch k k' p p' : ksk_like k k' -> alike p p' -> rel two (t_key_switch k p) (t_key_switch k' p').
Proof.
  intros (K1 & K2 & K3 & K4) (P1 & P2 & P3). unfold t_key_switch. rewrite K1, K2, P1, P2. do 2 (eapply rel_bind; [apply r_assert|]; intros _ _ _).
  eapply r_fold2; [|apply (F2_comb (fun x y : list Z => length x = length y) two); [exact P3|apply (F2_comb alike alike); assumption]|split; apply alike_refl].
  intros st st1 x1 y1 Hb [H1 H2]. apply r_ks_step; assumption.
Qed.
Lemma r_ext r r' c c' : rgsw_like r r' -> ct_like c c' -> rel two (t_external_product r c) (t_external_product r' c').
Proof.
  intros [R1 R2] (_ & _ & C). unfold t_external_product. eapply rel_bind; [apply r_get, C|]. intros a1 a1' A1. eapply rel_bind; [apply r_get, C|]. intros a0 a0' A0. eapply rel_bind; [apply r_change, A1|]. intros c1 c1' C1. eapply rel_bind; [apply r_change, A0|]. intros c0 c0' C0.
  eapply rel_bind; [apply r_key_switch; eassumption|]. intros [x y] [x' y'] [H1 H2]. eapply rel_bind; [apply r_key_switch; eassumption|]. intros [u v] [u' v'] [H3 H4]. cbn [fst snd] in *.
  eapply rel_bind; [apply r_padd; eassumption|]. intros d d' Hd. eapply rel_bind; [apply r_padd; eassumption|]. intros e e' He. apply rel_ret. split; assumption.
Qed.
Lemma ct2 P l a a' b b' : alike a a' -> alike b b' -> ct_like (mkCt P [a; b] l) (mkCt P [a'; b'] l).
Proof. intros H1 H2. split; [reflexivity|]. split; [reflexivity|]. cbn [ct_cts]. apply Forall2_cons; [exact H1|]. apply Forall2_cons; [exact H2|]. apply Forall2_nil. Qed.
Lemma r_ext_ct P r r' c c' : rgsw_like r r' -> ct_like c c' -> rel ct_like (t_ext_ct P r c) (t_ext_ct P r' c').
Proof. intros R C. unfold t_ext_ct. eapply rel_bind; [apply r_ext; eassumption|]. intros [x y] [x' y'] [H1 H2]. apply rel_ret, ct2; assumption. Qed.
Lemma r_ct_op f a a' b b' : (forall x x' y y', alike x x' -> alike y y' -> rel alike (f x y) (f x' y')) -> ct_like a a' -> ct_like b b' -> rel ct_like (t_ct_op f a b) (t_ct_op f a' b').
Proof.
  intros F (A1 & A2 & A3) (B1 & B2 & B3). unfold t_ct_op. rewrite A1, A2, B1, B2. do 2 (eapply rel_bind; [apply r_assert|]; intros _ _ _). eapply rel_bind; [apply r_get, A3|]. intros x x' X. eapply rel_bind; [apply r_get, B3|]. intros y y' Y. eapply rel_bind; [apply F; eassumption|]. intros c c' C.
  eapply rel_bind; [apply r_get, A3|]. intros u u' U. eapply rel_bind; [apply r_get, B3|]. intros v v' V. eapply rel_bind; [apply F; eassumption|]. intros d d' D. apply rel_ret, ct2; assumption.
Qed.
Lemma r_ct_add a a' b b' : ct_like a a' -> ct_like b b' -> rel ct_like (t_ct_add a b) (t_ct_add a' b').
Proof. apply r_ct_op. intros; apply r_padd; assumption. Qed.
Lemma r_ct_sub a a' b b' : ct_like a a' -> ct_like b b' -> rel ct_like (t_ct_sub a b) (t_ct_sub a' b').
Proof. apply r_ct_op. intros; apply r_psub; assumption. Qed.
Lemma r_ct_mul_poly a a' p p' : ct_like a a' -> alike p p' -> rel ct_like (t_ct_mul_poly a p) (t_ct_mul_poly a' p').
Proof.
  intros (A1 & A2 & A3) HP. pose proof HP as (P1 & P2 & _). unfold t_ct_mul_poly. rewrite A1, A2, P1, P2. eapply rel_bind; [apply r_get, A3|]. intros x x' X. pose proof X as (X1 & _). rewrite X1. do 2 (eapply rel_bind; [apply r_assert|]; intros _ _ _).
  eapply rel_bind; [apply r_pmul; eassumption|]. intros c c' C. eapply rel_bind; [apply r_get, A3|]. intros u u' U. eapply rel_bind; [apply r_pmul; eassumption|]. intros d d' D. apply rel_ret, ct2; assumption.
Qed.
Lemma r_relinearize g g' c c' : gk_like g g' -> ct_like c c' -> rel ct_like (t_galois_relinearize g c) (t_galois_relinearize g' c').
Proof.
  intros (G1 & G2 & G3) (C1 & C2 & C3). unfold t_galois_relinearize. rewrite G1, G2, C1, C2. eapply rel_bind; [apply r_assert|]. intros _ _ _. eapply rel_bind; [apply r_get, C3|]. intros a a' A. eapply rel_bind; [apply r_substitute, A|]. intros s s' S. eapply rel_bind; [apply r_change, S|]. intros p p' P.
  eapply rel_bind; [apply r_key_switch; eassumption|]. intros [x y] [x' y'] [H1 H2]. cbn [fst snd] in *. eapply rel_bind; [apply r_get, C3|]. intros b b' B. eapply rel_bind; [apply r_substitute, B|]. intros t t' T. eapply rel_bind; [apply r_padd; eassumption|]. intros u u' U. apply rel_ret, ct2; assumption.
Qed.
Lemma r_unpack_step g g' x i bits bits' j : gk_like g g' -> Forall2 ct_like bits bits' -> rel (Forall2 ct_like) (t_unpack_step g x i bits j) (t_unpack_step g' x i bits' j).
Proof.
  intros G B. unfold t_unpack_step. eapply rel_bind; [apply r_getA, B|]. intros c c' C. eapply rel_bind; [apply r_relinearize; eassumption|]. intros r r' R. eapply rel_bind; [apply r_ct_add; eassumption|]. intros e e' E. eapply rel_bind; [apply r_change, alike_refl|]. intros xp xp' X.
  eapply rel_bind; [apply r_ct_sub; eassumption|]. intros o o' (O1 & O2 & O3). eapply rel_bind; [apply r_get, O3|]. intros o0 o0' H0. eapply rel_bind; [apply r_pmul; eassumption|]. intros m0 m0' M0. eapply rel_bind; [apply r_get, O3|]. intros o1 o1' H1. eapply rel_bind; [apply r_pmul; eassumption|]. intros m1 m1' M1.
  cbv zeta. eapply rel_bind; [apply r_putA; eassumption|]. intros b b' HB. apply r_putA; [exact HB|]. rewrite O1, O2. apply ct2; assumption.
Qed.
Lemma r_lookup e e' k : Forall2 (fun x y : nat * GaliosKey => fst x = fst y /\ gk_like (snd x) (snd y)) e e' -> rel gk_like ([EBranch true], unwrap (gk_lookup e k)) ([EBranch true], unwrap (gk_lookup e' k)).
Proof.
  intros H. split; [reflexivity|]. cbn [snd]. unfold gk_lookup. induction H as [|[k1 g1] [k2 g2] e e' [H1 H2] H IH]; [exact I|]. cbn [find fst snd] in *. subst k2. destruct (k1 =? k)%nat; [exact H2|exact IH].
Qed.
Lemma r_core ev ev' c c' xs : ev_like ev ev' -> ct_like c c' -> rel (Forall2 ct_like) (t_unpack_core ev c xs) (t_unpack_core ev' c' xs).
Proof.
  intros [E1 E2] (C1 & C2 & C3). unfold t_unpack_core. cbv zeta. rewrite C1, C2. eapply rel_bind; [apply r_get_same|]. intros ctx ? <-. eapply rel_bind; [apply r_pub|]. intros ni ? <-.
  eapply rel_bind; [apply (r_each alike alike); [intros; apply r_mul_big; assumption|exact C3]|]. intros cs cs' HC. eapply rel_bind; [apply r_pub|]. intros lg ? <-.
  eapply rel_bind; [apply (r_fold (Forall2 ct_like)); [|apply F2_rep; split; [reflexivity|split; [reflexivity|exact HC]]]|].
  - intros b b' i HB. apply (r_fold (Forall2 ct_like)); [|exact HB]. intros d d' j HD. eapply rel_bind; [apply r_lookup, E1|]. intros g g' G. eapply rel_bind; [apply (r_getA eq), F2_eq|]. intros x ? <-. apply r_unpack_step; assumption.
  - intros b b' HB. rewrite (F2n _ _ _ HB). eapply rel_bind; [apply r_assert|]. intros; apply rel_ret, HB.
Qed.
Lemma r_unpack ev ev' c c' : ev_like ev ev' -> ct_like c c' -> rel (Forall2 ct_like) (t_unpack ev c) (t_unpack ev' c').
Proof.
  intros E C. pose proof C as (C1 & C2 & _). unfold t_unpack. rewrite C1, C2. eapply rel_bind; [apply r_pub|]. intros ctx ? <-. eapply rel_bind; [apply r_pub|]. intros xs ? <-. apply r_core; assumption.
Qed.
Lemma r_sum P l l' : Forall2 ct_like l l' -> rel ct_like (t_sum_cts P l) (t_sum_cts P l').
Proof.
  intros H. destruct H as [|c c' l l' Hc H]; cbn [t_sum_cts]; [apply rel_ret; repeat split; constructor|]. eapply r_fold2; [|exact H|exact Hc]. intros; apply r_ct_add; assumption.
Qed.
Lemma r_from_rlwes P l l' : Forall2 ct_like l l' -> rel ksk_like (t_from_rlwes P l) (t_from_rlwes P l').
Proof.
  intros H. unfold t_from_rlwes.
  assert (G : forall i, rel (Forall2 alike) (t_each (fun c => t_assert (params_eqb (ct_params c) P) ;;~ t_get (ct_cts c) i) l) (t_each (fun c => t_assert (params_eqb (ct_params c) P) ;;~ t_get (ct_cts c) i) l')).
  { intros i. apply (r_each ct_like alike); [|exact H]. intros x y (X1 & X2 & X3). rewrite X1. eapply rel_bind; [apply r_assert|]. intros; apply r_get, X3. }
  eapply rel_bind; [apply G|]. intros c0 c0' H0. eapply rel_bind; [apply G|]. intros c1 c1' H1. eapply rel_bind; [apply r_get_same|]. intros ctx ? <-. apply rel_ret. repeat split; assumption.
Qed.
Lemma r_build P r r' vals vals' i : rgsw_like r r' -> Forall2 (Forall2 ct_like) vals vals' -> rel rgsw_like (t_build_rgsw P r vals i) (t_build_rgsw P r' vals' i).
Proof.
  intros R V. unfold t_build_rgsw. eapply rel_bind; [apply (r_each (Forall2 ct_like) ct_like); [intros; apply r_getA; assumption|exact V]|]. intros lo lo' L. eapply rel_bind; [apply (r_each ct_like ct_like); [intros; apply r_ext_ct; assumption|exact L]|]. intros up up' U.
  eapply rel_bind; [apply r_from_rlwes, L|]. intros k1 k1' K1. eapply rel_bind; [apply r_from_rlwes, U|]. intros k0 k0' K0. apply rel_ret. split; assumption.
Qed.
Lemma r_fold_first P d cts cts' db db' : Forall2 ct_like cts cts' -> Forall2 alike db db' -> rel (Forall2 ct_like) (t_fold_first P d cts db) (t_fold_first P d cts' db').
Proof.
  intros C D. unfold t_fold_first. eapply rel_bind; [apply r_chunks, D|]. intros ch ch' H. apply (r_each (Forall2 alike) ct_like); [|exact H]. intros x y X. eapply rel_bind; [apply (r_izip ct_like alike ct_like); [intros; apply r_ct_mul_poly; assumption|exact C|exact X]|]. intros; apply r_sum; assumption.
Qed.
Lemma r_fold_dim P d db db' rs rs' : Forall2 ct_like db db' -> Forall2 rgsw_like rs rs' -> rel (Forall2 ct_like) (t_fold_dim P d db rs) (t_fold_dim P d db' rs').
Proof.
  intros D R. unfold t_fold_dim. eapply rel_bind; [apply r_chunks, D|]. intros ch ch' H. apply (r_each (Forall2 ct_like) ct_like); [|exact H]. intros x y X. eapply rel_bind; [apply (r_izip rgsw_like ct_like ct_like); [intros; apply r_ext_ct; assumption|exact R|exact X]|]. intros; apply r_sum; assumption.
Qed.
Lemma r_with u u' s s' q q' ev ev' P : (forall c c', ct_like c c' -> rel (Forall2 ct_like) (u c) (u' c')) -> server_like s s' -> Forall2 ct_like q q' -> ev_like ev ev' -> rel (Forall2 ct_like) (t_server_decode_with u s q ev P) (t_server_decode_with u' s' q' ev' P).
Proof.
  intros UN (S1 & S2 & S3 & S4) Q E. unfold t_server_decode_with, decode_dimensions. rewrite S1, S2, S3, (F2n _ _ _ Q). eapply rel_bind; [apply r_get_same|]. intros ctx ? <-. eapply rel_bind; [apply r_assert|]. intros _ _ _. eapply rel_bind; [apply r_get, Q|]. intros q0 q0' Q0.
  eapply rel_bind; [apply UN; eassumption|]. intros w w' U. eapply rel_bind; [apply r_slice_to, U|]. intros f f' F. do 3 (eapply rel_bind; [apply r_pub|]; intros ? ? <-).
  eapply rel_bind; [apply (r_each ct_like (Forall2 ct_like)); [|apply F2_tl, Q]; intros x y X; eapply rel_bind; [apply UN; eassumption|]; intros; apply r_slice_toz; assumption|]. intros v v' V.
  eapply rel_bind; [apply (r_each eq rgsw_like); [intros i ? <-; apply r_build; [exact (proj2 E)|exact V]|apply F2_eq]|]. intros rg rg' RG. eapply rel_bind; [apply r_chunks, RG|]. intros bd bd' BD. eapply rel_bind; [apply r_fold_first; eassumption|]. intros db db' DB.
  eapply r_fold2; [|exact BD|exact DB]. intros; apply r_fold_dim; assumption.
Qed.
Lemma r_server s s' q q' ev ev' P : server_like s s' -> Forall2 ct_like q q' -> ev_like ev ev' -> rel (Forall2 ct_like) (t_server_decode s q ev P) (t_server_decode s' q' ev' P).
Proof. intros S Q E. apply r_with; try assumption. intros; apply r_unpack; assumption. Qed.
Lemma r_given xs s s' q q' ev ev' P : server_like s s' -> Forall2 ct_like q q' -> ev_like ev ev' ->
  rel (Forall2 ct_like) (t_server_decode_with (fun ct => t_unpack_core ev ct xs) s q ev P) (t_server_decode_with (fun ct => t_unpack_core ev' ct xs) s' q' ev' P).
Proof. intros S Q E. apply r_with; try assumption. intros; apply r_core; assumption. Qed.

(** Key switching, external products and rotations take the same steps
    whatever the ciphertext and the key. *)
Lemma C99_products_lem :
  (forall k k' p p', ksk_like k k' -> alike p p' -> looks_same (t_key_switch k p) (t_key_switch k' p'))
  /\ (forall r r' c c', rgsw_like r r' -> ct_like c c' -> looks_same (t_external_product r c) (t_external_product r' c'))
  /\ (forall g g' c c', gk_like g g' -> ct_like c c' -> looks_same (t_galois_relinearize g c) (t_galois_relinearize g' c')).
Proof.
  split; [|split]; intros.
  - apply (rel_looks two), r_key_switch; assumption.
  - apply (rel_looks two), r_ext; assumption.
  - apply (rel_looks ct_like), r_relinearize; assumption.
Qed.

(** Expanding a query and answering it take the same steps for all queries,
    evaluation keys and contents of the database; answers have the same number
    and shape.  [unpack] of the code stops in the computation of the powers of
    X (C42), so the statements are given for the code and, with the powers of X
    as an argument, for everything after that computation. *)
Lemma C99_server_lem :
  (forall ev ev' c c', ev_like ev ev' -> ct_like c c' -> looks_same (t_unpack ev c) (t_unpack ev' c'))
  /\ (forall xs ev ev' c c', ev_like ev ev' -> ct_like c c' -> looks_same (t_unpack_core ev c xs) (t_unpack_core ev' c' xs))
  /\ (forall s s' q q' ev ev' P, server_like s s' -> Forall2 ct_like q q' -> ev_like ev ev' ->
        looks_same (t_server_decode s q ev P) (t_server_decode s' q' ev' P))
  /\ (forall xs s s' q q' ev ev' P, server_like s s' -> Forall2 ct_like q q' -> ev_like ev ev' ->
        let run s q ev := t_server_decode_with (fun ct => t_unpack_core ev ct xs) s q ev P in
        let decode s q ev := server_decode_with Release (fun ct => unpack_core Release ev ct xs) s q ev P in
        looks_same (run s q ev) (run s' q' ev')
        /\ forall a a', decode s q ev = Ok a -> decode s' q' ev' = Ok a' -> Forall2 ct_like a a').
Proof.
  split; [|split; [|split]].
  - intros. apply (rel_looks (Forall2 ct_like)), r_unpack; assumption.
  - intros. apply (rel_looks (Forall2 ct_like)), r_core; assumption.
  - intros. apply (rel_looks (Forall2 ct_like)), r_server; assumption.
  - intros xs s s' q q' ev ev' P HS HQ HE. cbv zeta. pose proof (r_given xs s s' q q' ev ev' P HS HQ HE) as H. split; [exact (rel_looks _ _ _ H)|].
    intros a a' Ea Ea'. destruct H as [_ H]. rewrite !(v_with _ _ _ _ _ _ (fun ct => v_core _ ct xs)), Ea, Ea' in H. exact H.
Qed.

(*EXAMPLE
(** Switching two polynomials with two keys: different results, the same
    number of steps. *)
Example C99_example :
  (c <- test_ctx Release [1048609] ;;
   a <- poly_from_u64 Release c [1; 2; 3; 4; 5; 6; 7; 8] ;; b <- poly_from_u64 Release c [0; 0; 90; 0; 11; 0; 0; 3] ;;
   u <- change_repr Release a Ntt ;; v <- change_repr Release b Ntt ;;
   let key x := mkKsk (mkBfv 8 17 c [1048609] None [c] [] [] [] [] [] [] 1) [x] [x] c c in
   let t := t_key_switch (key u) a in let t' := t_key_switch (key v) b in
   '(x, _) <- snd t ;; '(x', _) <- snd t' ;;
   Ok (zlist_eqb (concat (p_rows x)) (concat (p_rows x')), length (fst t) =? length (fst t'), 100 <? length (fst t))%nat)
  = Ok (false, true, true).
Proof. vm_compute. reflexivity. Qed.
EXAMPLE*)
