(** Claim C95: what sampling, encryption and key generation give away through their steps. *)
From Verif Require Import PBase MModulus MUtils MNtt MRns MRq MBfv MKsk MGalois MTrace MTrace2 SpecTrace SpecTrace2 QTrace TestEnv TestBfv.

(** ** Values *)
Lemma v_cbd_loop nb ma ms w size : forall pool nbits k, snd (t_cbd_loop nb ma ms w size pool nbits k) = cbd_loop Release nb ma ms w size pool nbits k.
Proof.
  induction size as [|n IH]; intros pool nbits k; [reflexivity|]. cbn [t_cbd_loop cbd_loop]. rewrite snd_bind. cbn [emit snd bind]. rewrite snd_bind. unfold t_if. rewrite snd_bind. cbn [emit snd bind].
  destruct (nbits <? nb).
  - do 3 (rewrite snd_bind; cbn [wd snd bind]). cbn [ret snd bind dassert]. do 6 (rewrite snd_bind; cbn [wd snd bind]). rewrite snd_bind, IH. apply bind_ext. reflexivity.
  - cbn [ret snd bind dassert]. do 6 (rewrite snd_bind; cbn [wd snd bind]). rewrite snd_bind, IH. apply bind_ext. reflexivity.
Qed.
Lemma v_sample n v w : snd (t_sample_vec_cbd n v w) = sample_vec_cbd Release n v w.
Proof. unfold t_sample_vec_cbd, sample_vec_cbd. rewrite snd_bind. cbn [t_assert snd]. apply bind_ext. intros _. apply v_cbd_loop. Qed.
Lemma v_rows {B} f (g : list Z -> B -> outcome (list Z)) : (forall x y, snd (f x y) = g x y) -> forall a b, snd (t_rows f a b) = zipM_upd g a b.
Proof.
  intros H. induction a as [|x a IH]; intros [|y b]; try reflexivity. cbn [t_rows zipM_upd]. rewrite snd_bind. cbn [emit snd bind]. rewrite snd_bind, H. apply bind_ext. intros u. rewrite snd_bind, IH. apply bind_ext. reflexivity.
Qed.
Lemma v_each {A B} f (g : A -> outcome B) : (forall x, snd (f x) = g x) -> forall l, snd (t_each f l) = mapM g l.
Proof.
  intros H. induction l as [|x l IH]; [reflexivity|]. cbn [t_each mapM]. rewrite snd_bind. cbn [emit snd bind]. rewrite snd_bind, H. apply bind_ext. intros u. rewrite snd_bind, IH. apply bind_ext. reflexivity.
Qed.
Lemma v_from_i64 c a : snd (t_from_i64 c a) = poly_from_i64 Release c a.
Proof.
  unfold t_from_i64, poly_from_i64. rewrite snd_bind. rewrite (v_rows _ (fun dst q => r <- reduce_vec_i64 Release q a ;; copy_prefix dst r)); [reflexivity|].
  intros x q. rewrite snd_bind. unfold t_reduce_vec_i64, reduce_vec_i64. rewrite (v_map _ (reduce_i64 Release q)) by apply v_reduce_i64. reflexivity.
Qed.
Lemma v_from_u64 c a : snd (t_from_u64 c a) = poly_from_u64 Release c a.
Proof.
  unfold t_from_u64, poly_from_u64. rewrite snd_bind. rewrite (v_rows _ (fun dst q => r <- reduce_vec_u64 Release q a ;; copy_prefix dst r)); [reflexivity|].
  intros x q. rewrite snd_bind. unfold t_reduce_vec_u64, reduce_vec_u64. rewrite (v_map _ (mreduce Release q)) by apply v_reduce. reflexivity.
Qed.
Lemma v_from_bigint c a : snd (t_from_bigint c a) = poly_from_bigint c a.
Proof.
  unfold t_from_bigint, poly_from_bigint. rewrite snd_bind. rewrite (v_rows _ (fun dst q => r <- reduce_vec_biguint q a ;; copy_prefix dst r)); [reflexivity|].
  intros x q. rewrite snd_bind. unfold reduce_vec_biguint. rewrite (v_map _ (reduce_biguint q)) by reflexivity. reflexivity.
Qed.
Lemma v_change p t : snd (t_change_repr p t) = change_repr Release p t.
Proof.
  unfold t_change_repr, change_repr. rewrite snd_bind. cbn [emit snd bind]. destruct (p_repr p), t; try reflexivity; rewrite snd_bind.
  - rewrite (v_rows _ (fun row op => ntt_forward Release op row)) by (intros; apply v_forward). reflexivity.
  - rewrite (v_rows _ (fun row op => ntt_backward Release op row)) by (intros; apply v_backward). reflexivity.
Qed.
Lemma v_poly_add a b : snd (t_poly_add a b) = poly_add Release a b.
Proof.
  unfold t_poly_add, t_poly_op, poly_add. rewrite snd_bind. cbn [t_assert snd]. apply bind_ext. intros _. rewrite snd_bind. cbn [t_assert snd]. apply bind_ext. intros _. rewrite snd_bind.
  rewrite (v_rows _ (fun x (yq : list Z * Modulus) => add_vec Release (snd yq) x (fst yq))); [reflexivity|]. intros; apply v_zip, v_add.
Qed.
Lemma v_poly_sub a b : snd (t_poly_sub a b) = poly_sub Release a b.
Proof.
  unfold t_poly_sub, t_poly_op, poly_sub. rewrite snd_bind. cbn [t_assert snd]. apply bind_ext. intros _. rewrite snd_bind. cbn [t_assert snd]. apply bind_ext. intros _. rewrite snd_bind.
  rewrite (v_rows _ (fun x (yq : list Z * Modulus) => sub_vec Release (snd yq) x (fst yq))); [reflexivity|]. intros; apply v_zip, v_sub.
Qed.
Lemma v_poly_mul a b : snd (t_poly_mul a b) = poly_mul Release a b.
Proof.
  unfold t_poly_mul, t_poly_op, poly_mul. rewrite snd_bind. cbn [t_assert snd]. apply bind_ext. intros _. rewrite snd_bind. cbn [t_assert snd]. apply bind_ext. intros _. rewrite snd_bind.
  rewrite (v_rows _ (fun x (yq : list Z * Modulus) => mul_vec Release (snd yq) x (fst yq))); [reflexivity|]. intros; apply v_zip, v_mul.
Qed.
Lemma v_mul_big a k : snd (t_poly_mul_big a k) = poly_mul_big Release a k.
Proof.
  unfold t_poly_mul_big, poly_mul_big. rewrite snd_bind, v_from_bigint. apply bind_ext. intros r. rewrite snd_bind, v_change. apply bind_ext. intros r'. rewrite snd_bind. cbn [t_assert snd]. apply bind_ext. intros _. apply v_poly_mul.
Qed.
Lemma v_random_small c r v w : snd (t_random_small c r v w) = poly_random_small Release c r v w.
Proof. unfold t_random_small, poly_random_small. rewrite snd_bind, v_sample. apply bind_ext. intros x. rewrite snd_bind, v_from_i64. apply bind_ext. intros; apply v_change. Qed.
Lemma v_sk_generate P w : snd (t_sk_generate P w) = sk_generate Release P w.
Proof. unfold t_sk_generate, sk_generate. rewrite snd_bind, v_sample. reflexivity. Qed.
Lemma v_sk_ntt c s : snd (t_sk_ntt c s) = sk_ntt Release c s.
Proof. unfold t_sk_ntt, sk_ntt. rewrite snd_bind, v_from_i64. apply bind_ext. intros; apply v_change. Qed.
Lemma v_to_poly m : snd (t_to_poly m) = pt_to_poly Release m.
Proof.
  unfold t_to_poly, pt_to_poly. cbv zeta. do 3 (rewrite snd_bind; cbn [t_get snd]; apply bind_ext; intros ?). rewrite snd_bind. cbn [snd]. apply bind_ext. intros tm.
  rewrite snd_bind, v_scalar. apply bind_ext. intros ?. rewrite snd_bind, v_from_u64. apply bind_ext. intros ?. rewrite snd_bind, v_change. apply bind_ext. intros; apply v_poly_mul.
Qed.
Lemma v_encrypt_poly sk p rows w : snd (t_encrypt_poly sk p rows w) = encrypt_poly Release sk p rows w.
Proof.
  unfold t_encrypt_poly, encrypt_poly. rewrite snd_bind, v_sk_ntt. apply bind_ext. intros s. cbv zeta. rewrite snd_bind, v_poly_mul. apply bind_ext. intros ?. rewrite snd_bind, v_random_small. apply bind_ext. intros ?.
  rewrite snd_bind, v_poly_sub. apply bind_ext. intros ?. rewrite snd_bind, v_poly_add. reflexivity.
Qed.
Lemma v_encrypt sk m rows w : snd (t_encrypt sk m rows w) = encrypt Release sk m rows w.
Proof. unfold t_encrypt, encrypt. rewrite snd_bind, v_to_poly. apply bind_ext. intros; apply v_encrypt_poly. Qed.
Lemma v_trial sk a b : snd (t_decrypt_trial sk a b) = decrypt_trial Release sk a b.
Proof. unfold t_decrypt_trial, decrypt_trial. rewrite snd_bind. cbn [t_assert snd]. apply bind_ext. intros _. rewrite snd_bind, v_sk_ntt. apply bind_ext. intros s. rewrite snd_bind, v_poly_mul. apply bind_ext. intros; apply v_poly_add. Qed.
Lemma v_phase s cs m si : snd (t_phase_loop s cs m si) = phase_loop Release s cs m si.
Proof.
  unfold t_phase_loop, phase_loop. apply v_fold. intros st c. rewrite snd_bind, v_poly_mul. apply bind_ext. intros t. rewrite snd_bind, v_poly_add. apply bind_ext. intros ?. rewrite snd_bind, v_poly_mul. reflexivity.
Qed.
Lemma v_dphase sk ct : bind (snd (t_decrypt_phase sk ct)) (fun m1 =>
     sc <- get (bp_scalars (sk_params sk)) (ct_level ct) ;;
     m2 <- rq_scale Release sc m1 ;;
     row0 <- get (p_rows m2) 0 ;;
     v1 <- mapM (fun a => add64 Release a (bp_t (sk_params sk))) row0 ;;
     v2 <- slice_to v1 (bp_degree (sk_params sk)) ;;
     qc <- get (bp_q_ctxs (sk_params sk)) (ct_level ct) ;;
     q <- get (rq_moduli qc) 0 ;;
     v3 <- reduce_vec_u64 Release q v2 ;;
     tm <- modulus_new (bp_t (sk_params sk)) ;;
     v4 <- reduce_vec_u64 Release tm v3 ;;
     Ok (mkPt (sk_params sk) (ct_level ct) EncNone v4)) = decrypt Release sk ct.
Proof.
  unfold t_decrypt_phase, decrypt. cbv zeta. rewrite snd_bind. cbn [t_get snd]. destruct (get (ct_cts ct) 0) as [c0| | |]; cbn [bind]; try reflexivity.
  rewrite snd_bind, v_sk_ntt. destruct (sk_ntt Release (p_ctx c0) (sk_coeffs sk)) as [s| | |]; cbn [bind]; try reflexivity. rewrite snd_bind, v_phase.
  destruct (phase_loop Release s (tl (ct_cts ct)) c0 s) as [[m si]| | |]; cbn [bind]; try reflexivity. rewrite v_change. reflexivity.
Qed.
Lemma v_ksk_entry c v s f w c1 g : snd (t_ksk_entry c v s f w c1 g) = ksk_entry Release c v s f w c1 g.
Proof.
  unfold t_ksk_entry, ksk_entry. rewrite snd_bind, v_poly_mul. apply bind_ext. intros ?. rewrite snd_bind, v_random_small. apply bind_ext. intros ?. rewrite snd_bind, v_poly_sub. apply bind_ext. intros ?.
  rewrite snd_bind, v_mul_big. apply bind_ext. intros; apply v_poly_add.
Qed.
Lemma v_ksk_new sk f a b r : snd (t_ksk_new sk f a b r) = ksk_new Release sk f a b r.
Proof.
  unfold t_ksk_new, ksk_new. cbv zeta. do 2 (rewrite snd_bind; cbn [t_get snd]; apply bind_ext; intros ?). rewrite snd_bind, v_sk_ntt. apply bind_ext. intros s. rewrite snd_bind.
  erewrite v_each; [reflexivity|]. intros x. apply v_ksk_entry.
Qed.
Lemma v_rlk_new sk l r : snd (t_rlk_new sk l r) = rlk_new Release sk l r.
Proof.
  unfold t_rlk_new, rlk_new. rewrite snd_bind. cbn [t_get snd]. apply bind_ext. intros c. rewrite snd_bind, v_sk_ntt. apply bind_ext. intros s. rewrite snd_bind, v_poly_mul. apply bind_ext. intros s2. rewrite snd_bind, v_ksk_new. reflexivity.
Qed.

(** ** Steps *)
Lemma same_refl a : same_rows a a.
Proof. unfold same_rows. induction a; constructor; auto. Qed.
Lemma F2_eq {A} (l : list A) : Forall2 eq l l.
Proof. induction l; constructor; auto. Qed.
Lemma shape_refl o : same_shape o o.
Proof. repeat split. Qed.
Lemma alike_refl p : alike p p.
Proof. repeat split. apply same_refl. Qed.
Lemma r_get_same {A} (l : list A) i : rel eq (t_get l i) (t_get l i).
Proof. unfold rel, t_get. cbn [fst snd]. destruct (get l i); auto. Qed.
Lemma r_get {A} (R : A -> A -> Prop) a b i : Forall2 R a b -> rel R (t_get a i) (t_get b i).
Proof.
  intros H. unfold rel, t_get, get. cbn [fst snd]. split; [reflexivity|]. revert i. induction H as [|x y a b Hx H IH]; intros [|i]; cbn [nth_error]; auto. apply IH.
Qed.
Lemma r_cbd nb ma ms n : forall w w' p p' nbits k k', rel samelen (t_cbd_loop nb ma ms w n p nbits k) (t_cbd_loop nb ma ms w' n p' nbits k').
Proof.
  induction n as [|n IH]; intros w w' p p' nbits k k'; cbn [t_cbd_loop].
  - eapply rel_bind; [apply rel_emit|]. intros ? ? _. apply rel_ret. reflexivity.
  - eapply rel_bind; [apply rel_emit|]. intros ? ? _.
    eapply rel_bind with (R := fun (x y : Z * Z * nat) => snd (fst x) = snd (fst y)).
    + apply rel_if.
      * do 3 (eapply rel_bind; [apply rel_wd|intros ? ? _]). apply rel_ret. reflexivity.
      * apply rel_ret. reflexivity.
    + intros [[x1 x2] x3] [[y1 y2] y3] E. cbn [fst snd] in E. subst y2. do 6 (eapply rel_bind; [apply rel_wd|intros ? ? _]). eapply rel_bind; [apply IH|]. intros l l' Hl. apply rel_ret. unfold samelen in *. cbn [length]. congruence.
Qed.
Lemma r_sample n v w w' : rel samelen (t_sample_vec_cbd n v w) (t_sample_vec_cbd n v w').
Proof. eapply rel_bind; [apply r_assert|]. intros ? ? _. apply r_cbd. Qed.
Lemma r_rows {B} (RB : B -> B -> Prop) f g : (forall x x' y y', length x = length x' -> RB y y' -> rel samelen (f x y) (g x' y')) ->
  forall a a' b b', same_rows a a' -> Forall2 RB b b' -> rel same_rows (t_rows f a b) (t_rows g a' b').
Proof.
  intros H a a' b b' Ha. revert b b'. induction Ha as [|x x' a a' Hx Ha IH]; intros b b' Hb.
  - destruct Hb; cbn [t_rows]; (eapply rel_bind; [apply rel_emit|]; intros ? ? _; apply rel_ret; constructor).
  - destruct Hb as [|y y' b b' Hy Hb]; cbn [t_rows]; (eapply rel_bind; [apply rel_emit|]; intros ? ? _).
    + apply rel_ret. constructor; auto.
    + eapply rel_bind; [apply H; eassumption|]. intros u u' Hu. eapply rel_bind; [apply IH, Hb|]. intros r r' Hr. apply rel_ret. constructor; auto.
Qed.
Lemma r_each {A B} (RA : A -> A -> Prop) (RB : B -> B -> Prop) f g : (forall x x', RA x x' -> rel RB (f x) (g x')) -> forall a a', Forall2 RA a a' -> rel (Forall2 RB) (t_each f a) (t_each g a').
Proof.
  intros H a a' Ha. induction Ha as [|x x' a a' Hx Ha IH]; cbn [t_each]; (eapply rel_bind; [apply rel_emit|]; intros ? ? _).
  - apply rel_ret. constructor.
  - eapply rel_bind; [apply H, Hx|]. intros u u' Hu. eapply rel_bind; [apply IH|]. intros r r' Hr. apply rel_ret. constructor; auto.
Qed.
Lemma r_copy d d' s s' : length d = length d' -> length s = length s' -> rel samelen (t_copy d s) (t_copy d' s').
Proof.
  intros Hd Hs. unfold rel, t_copy, copy_prefix. cbn [fst snd]. rewrite Hd, Hs. split; [reflexivity|]. destruct (_ <=? _)%nat; [|exact I]. unfold samelen. rewrite !app_length, !skipn_length. lia.
Qed.
Lemma r_from c f g (a b : list Z) : length a = length b -> (forall (q : Modulus), rel samelen (f q a) (g q b)) ->
  rel alike (rows <~ t_rows (fun dst q => r <~ f q a ;~ t_copy dst r) (zero_rows c) (rq_moduli c) ;~ ret (mkPoly c PowerBasis rows))
            (rows <~ t_rows (fun dst q => r <~ g q b ;~ t_copy dst r) (zero_rows c) (rq_moduli c) ;~ ret (mkPoly c PowerBasis rows)).
Proof.
  intros L H. eapply rel_bind.
  - apply (r_rows eq); [|apply same_refl|apply F2_eq]. intros x x' y y' Hx <-. eapply rel_bind; [apply H|]. intros u u' Hu. apply r_copy; assumption.
  - intros r r' Hr. apply rel_ret. repeat split. exact Hr.
Qed.
Lemma r_from_i64 c a b : length a = length b -> rel alike (t_from_i64 c a) (t_from_i64 c b).
Proof. intros L. apply r_from; [exact L|]. intros q. apply r_map; [|exact L]. intros; apply r_reduce_i64. Qed.
Lemma r_from_u64 c a b : length a = length b -> rel alike (t_from_u64 c a) (t_from_u64 c b).
Proof. intros L. apply r_from; [exact L|]. intros q. apply r_map; [|exact L]. intros; apply r_reduce. Qed.
Lemma rel_refl {A} (R : A -> A -> Prop) (x : run A) : (forall a, R a a) -> rel R x x.
Proof. intros H. unfold rel. destruct (snd x); auto. Qed.
Lemma r_change p q t : alike p q -> rel alike (t_change_repr p t) (t_change_repr q t).
Proof.
  intros A. pose proof A as [C [E H]]. unfold t_change_repr. rewrite C, E. eapply rel_bind; [apply rel_emit|]. intros ? ? _.
  destruct (p_repr q) eqn:Eq, t; try (apply rel_ret; exact A); try (apply rel_refl; apply alike_refl);
    (eapply rel_bind; [apply (r_rows eq); [|exact H|apply F2_eq]; intros x x' y y' Hx <-; first [apply r_forward|apply r_backward]; [apply shape_refl|exact Hx]|intros r r' Hr; apply rel_ret; repeat split; exact Hr]).
Qed.
Lemma F2_combine {A B} (R : A -> A -> Prop) (l : list B) : forall a b, Forall2 R a b -> Forall2 (fun x y => R (fst x) (fst y) /\ snd x = snd y) (combine a l) (combine b l).
Proof. induction l as [|y l IH]; intros a b H; destruct H; cbn [combine]; constructor; auto. Qed.
Lemma r_op f : (forall q x x' y y', length x = length x' -> length y = length y' -> rel samelen (f q x y) (f q x' y')) ->
  forall a a' b b', alike a a' -> alike b b' -> rel alike (t_poly_op f a b) (t_poly_op f a' b').
Proof.
  intros H a a' b b' [Ca [Ea Ha]] [Cb [Eb Hb]]. unfold t_poly_op. rewrite Ca, Ea, Eb. do 2 (eapply rel_bind; [apply r_assert|intros ? ? _]).
  eapply rel_bind.
  - apply (r_rows (fun x y : list Z * Modulus => length (fst x) = length (fst y) /\ snd x = snd y)); [|exact Ha|apply (F2_combine (fun x y : list Z => length x = length y)), Hb]. intros x x' y y' Hx [Hy Hq]. rewrite Hq. apply H; assumption.
  - intros r r' Hr. apply rel_ret. repeat split. exact Hr.
Qed.
Lemma r_padd a a' b b' : alike a a' -> alike b b' -> rel alike (t_poly_add a b) (t_poly_add a' b').
Proof. apply r_op. intros. apply r_zip; auto. intros; apply r_add. Qed.
Lemma r_psub a a' b b' : alike a a' -> alike b b' -> rel alike (t_poly_sub a b) (t_poly_sub a' b').
Proof. apply r_op. intros. apply r_zip; auto. intros; apply r_sub. Qed.
Lemma r_pmul a a' b b' : alike a a' -> alike b b' -> rel alike (t_poly_mul a b) (t_poly_mul a' b').
Proof. apply r_op. intros. apply r_zip; auto. intros; apply r_mul. Qed.
Lemma r_mul_big a a' k : alike a a' -> rel alike (t_poly_mul_big a k) (t_poly_mul_big a' k).
Proof.
  intros A. pose proof A as [C [E H]]. unfold t_poly_mul_big. rewrite C, E. eapply rel_bind; [apply (rel_refl alike); apply alike_refl|]. intros r r' Hr. eapply rel_bind; [apply r_change, Hr|]. intros s s' Hs.
  eapply rel_bind; [apply r_assert|]. intros ? ? _. apply r_pmul; assumption.
Qed.
Lemma r_small c r v w w' : rel alike (t_random_small c r v w) (t_random_small c r v w').
Proof. eapply rel_bind; [apply r_sample|]. intros x y Hxy. eapply rel_bind; [apply r_from_i64, Hxy|]. intros. apply r_change. assumption. Qed.
Lemma r_sk_ntt c s s' : length s = length s' -> rel alike (t_sk_ntt c s) (t_sk_ntt c s').
Proof. intros L. eapply rel_bind; [apply r_from_i64, L|]. intros; apply r_change; assumption. Qed.
Lemma r_generate P w w' : rel keys_alike (t_sk_generate P w) (t_sk_generate P w').
Proof. eapply rel_bind; [apply r_sample|]. intros x y Hxy. apply rel_ret. split; [reflexivity|exact Hxy]. Qed.
Lemma r_to_poly m m' : pts_alike m m' -> rel alike (t_to_poly m) (t_to_poly m').
Proof.
  intros [P [L N]]. unfold t_to_poly. cbv zeta. rewrite P, L. do 3 (eapply rel_bind; [apply r_get_same|intros ? ? <-]). eapply rel_bind; [apply (rel_refl eq); reflexivity|]. intros ? ? <-.
  eapply rel_bind; [apply r_scalar; [reflexivity|exact N]|]. intros ? ? H1. eapply rel_bind; [apply r_from_u64, H1|]. intros ? ? H2. eapply rel_bind; [apply r_change, H2|]. intros. apply r_pmul; [assumption|apply alike_refl].
Qed.
Definition cts_alike (c c' : Ct) : Prop := ct_params c = ct_params c' /\ ct_level c = ct_level c' /\ Forall2 alike (ct_cts c) (ct_cts c').
Lemma r_random c r rows rows' : same_rows rows rows' -> alike (poly_random c r rows) (poly_random c r rows').
Proof. intros H. repeat split. exact H. Qed.
Lemma r_encrypt_poly sk sk' p p' rows rows' w w' : keys_alike sk sk' -> alike p p' -> same_rows rows rows' -> rel cts_alike (t_encrypt_poly sk p rows w) (t_encrypt_poly sk' p' rows' w').
Proof.
  intros [K1 K2] A HR. pose proof A as [C _]. unfold t_encrypt_poly. cbv zeta. rewrite C, K1. eapply rel_bind; [apply r_sk_ntt, K2|]. intros s s' Hs.
  eapply rel_bind; [apply r_pmul; [apply r_random, HR|exact Hs]|]. intros ? ? H1. eapply rel_bind; [apply r_small|]. intros ? ? H2. eapply rel_bind; [apply r_psub; eassumption|]. intros ? ? H3.
  eapply rel_bind; [apply r_padd; eassumption|]. intros ? ? H4. apply rel_ret. repeat split. cbn [ct_cts]. repeat constructor; [apply H4|apply H4|apply H4|apply HR].
Qed.
Lemma r_encrypt sk sk' m m' rows rows' w w' : keys_alike sk sk' -> pts_alike m m' -> same_rows rows rows' -> rel cts_alike (t_encrypt sk m rows w) (t_encrypt sk' m' rows' w').
Proof. intros K M HR. eapply rel_bind; [apply r_to_poly, M|]. intros. apply r_encrypt_poly; assumption. Qed.
Lemma r_trial sk sk' a a' b b' : keys_alike sk sk' -> alike a a' -> alike b b' -> rel alike (t_decrypt_trial sk a b) (t_decrypt_trial sk' a' b').
Proof.
  intros [K1 K2] A B. unfold t_decrypt_trial. rewrite (proj1 A), (proj1 B). eapply rel_bind; [apply r_assert|]. intros ? ? _. eapply rel_bind; [apply r_sk_ntt, K2|]. intros s s' Hs.
  eapply rel_bind; [apply r_pmul; eassumption|]. intros. apply r_padd; assumption.
Qed.
Definition prR (x y : Poly * Poly) : Prop := alike (fst x) (fst y) /\ alike (snd x) (snd y).
Lemma r_phase_loop s s' cs cs' : alike s s' -> Forall2 alike cs cs' -> forall st st', prR st st' ->
  rel prR (t_phase_loop s cs (fst st) (snd st)) (t_phase_loop s' cs' (fst st') (snd st')).
Proof.
  intros Hs H. unfold t_phase_loop. induction H as [|c c' cs cs' Hc H IH]; intros [m i] [m' i'] [H1 H2]; cbn [fst snd t_fold] in *.
  - eapply rel_bind; [apply rel_emit|]. intros ? ? _. apply rel_ret. split; assumption.
  - eapply rel_bind; [apply rel_emit|]. intros ? ? _. eapply rel_bind with (R := prR).
    + eapply rel_bind; [apply r_pmul; eassumption|]. intros ? ? H3. eapply rel_bind; [apply r_padd; eassumption|]. intros ? ? H4. eapply rel_bind; [apply r_pmul; eassumption|]. intros. apply rel_ret. split; assumption.
    + intros [u v] [u' v'] E. apply (IH (u, v) (u', v') E).
Qed.
Lemma F2_tl {A} (R : A -> A -> Prop) a b : Forall2 R a b -> Forall2 R (tl a) (tl b).
Proof. intros H; destruct H; [constructor|assumption]. Qed.
Lemma r_dphase sk sk' c c' : keys_alike sk sk' -> Forall2 alike (ct_cts c) (ct_cts c') -> rel alike (t_decrypt_phase sk c) (t_decrypt_phase sk' c').
Proof.
  intros [K1 K2] H. unfold t_decrypt_phase. eapply rel_bind; [apply (r_get alike), H|]. intros c0 c0' H0. rewrite (proj1 H0). eapply rel_bind; [apply r_sk_ntt, K2|]. intros s s' Hs.
  eapply rel_bind; [apply (r_phase_loop s s' _ _ Hs (F2_tl _ _ _ H) (c0, s) (c0', s')); split; assumption|]. intros [m x] [m' x'] [Hm _]. apply r_change. exact Hm.
Qed.
Lemma r_entry c v s s' f f' w w' p p' g : alike s s' -> alike f f' -> alike p p' -> rel alike (t_ksk_entry c v s f w p g) (t_ksk_entry c v s' f' w' p' g).
Proof.
  intros Hs Hf Hp. unfold t_ksk_entry. eapply rel_bind; [apply r_pmul; eassumption|]. intros ? ? H1. eapply rel_bind; [apply r_small|]. intros ? ? H2. eapply rel_bind; [apply r_psub; eassumption|]. intros ? ? H3.
  eapply rel_bind; [apply r_mul_big; eassumption|]. intros. apply r_padd; assumption.
Qed.
Lemma F2_map_rnd c r r' l : rnds_alike r r' -> Forall2 alike (map (fun i => poly_random c Ntt (rnd_rows r i)) l) (map (fun i => poly_random c Ntt (rnd_rows r' i)) l).
Proof. intros H. induction l; constructor; [apply r_random, H|assumption]. Qed.
Lemma F2_combine_r {A B} (R : A -> A -> Prop) (l : list B) : forall a b, Forall2 R a b -> Forall2 (fun x y => fst x = fst y /\ R (snd x) (snd y)) (combine l a) (combine l b).
Proof. induction l as [|y l IH]; intros a b H; destruct H; cbn [combine]; constructor; auto. Qed.
Lemma r_ksk_new sk sk' f f' a b r r' : keys_alike sk sk' -> alike f f' -> rnds_alike r r' -> rel (@any Ksk Ksk) (t_ksk_new sk f a b r) (t_ksk_new sk' f' a b r').
Proof.
  intros [K1 K2] Hf Hr. unfold t_ksk_new. cbv zeta. rewrite K1. do 2 (eapply rel_bind; [apply r_get_same|intros ? ? <-]). eapply rel_bind; [apply r_sk_ntt, K2|]. intros s s' Hs. eapply rel_bind.
  - rewrite !map_length. apply (r_each (fun x y : nat * (Poly * Z) => fst x = fst y /\ (alike (fst (snd x)) (fst (snd y)) /\ snd (snd x) = snd (snd y))) alike).
    + intros [i [p g]] [i' [p' g']] [E [Hp Hg]]. cbn [fst snd] in *. subst. apply r_entry; assumption.
    + apply (F2_combine_r (fun x y : Poly * Z => alike (fst x) (fst y) /\ snd x = snd y)), (F2_combine alike), F2_map_rnd, Hr.
  - intros. apply rel_ret. exact I.
Qed.
Lemma r_rlk_new sk sk' l r r' : keys_alike sk sk' -> rnds_alike r r' -> rel (@any RelinKey RelinKey) (t_rlk_new sk l r) (t_rlk_new sk' l r').
Proof.
  intros K Hr. pose proof K as [K1 K2]. unfold t_rlk_new. rewrite K1. eapply rel_bind; [apply r_get_same|]. intros ? ? <-. eapply rel_bind; [apply r_sk_ntt, K2|]. intros s s' Hs.
  eapply rel_bind; [apply r_pmul; eassumption|]. intros ? ? H2. eapply rel_bind; [apply r_ksk_new; eassumption|]. intros. apply rel_ret. exact I.
Qed.

(** Recording the steps of a Release build changes no result. *)
Lemma C95_values_lem : forall (P : BfvParams) (sk : SecretKey) (m : Plaintext) (p c0 c1 : Poly) (ctx : RqContext)
    (rows : list (list Z)) (w : nat -> Z) (n l l' : nat) (v : Z) (rep : repr) (rnd : RndKsk) (ct : Ct),
  snd (t_sample_vec_cbd n v w) = sample_vec_cbd Release n v w /\
  snd (t_random_small ctx rep v w) = poly_random_small Release ctx rep v w /\
  snd (t_change_repr p rep) = change_repr Release p rep /\
  snd (t_poly_add c0 c1) = poly_add Release c0 c1 /\
  snd (t_poly_sub c0 c1) = poly_sub Release c0 c1 /\
  snd (t_poly_mul c0 c1) = poly_mul Release c0 c1 /\
  snd (t_sk_generate P w) = sk_generate Release P w /\
  snd (t_to_poly m) = pt_to_poly Release m /\
  snd (t_encrypt sk m rows w) = encrypt Release sk m rows w /\
  snd (t_decrypt_trial sk c0 c1) = decrypt_trial Release sk c0 c1 /\
  snd (t_ksk_new sk p l l' rnd) = ksk_new Release sk p l l' rnd /\
  snd (t_rlk_new sk l rnd) = rlk_new Release sk l rnd /\
  (phase <- snd (t_decrypt_phase sk ct) ;;
   sc <- get (bp_scalars (sk_params sk)) (ct_level ct) ;;
   m2 <- rq_scale Release sc phase ;;
   row0 <- get (p_rows m2) 0 ;;
   v1 <- mapM (fun a => add64 Release a (bp_t (sk_params sk))) row0 ;;
   v2 <- slice_to v1 (bp_degree (sk_params sk)) ;;
   qc <- get (bp_q_ctxs (sk_params sk)) (ct_level ct) ;;
   q <- get (rq_moduli qc) 0 ;;
   v3 <- reduce_vec_u64 Release q v2 ;;
   tm <- modulus_new (bp_t (sk_params sk)) ;;
   v4 <- reduce_vec_u64 Release tm v3 ;;
   Ok (mkPt (sk_params sk) (ct_level ct) EncNone v4)) = decrypt Release sk ct.
Proof.
  intros. repeat apply conj; [apply v_sample|apply v_random_small|apply v_change|apply v_poly_add|apply v_poly_sub|apply v_poly_mul|apply v_sk_generate|apply v_to_poly|apply v_encrypt|apply v_trial|apply v_ksk_new|apply v_rlk_new|apply v_dphase].
Qed.

(** Sampling small vectors and secret keys: the steps do not depend on what the generator returns. *)
Lemma C95_sampling_lem : forall (P : BfvParams) (ctx : RqContext) (rep : repr) (n : nat) (v : Z) (w w' : nat -> Z),
  looks_same (t_sample_vec_cbd n v w) (t_sample_vec_cbd n v w') /\
  looks_same (t_random_small ctx rep v w) (t_random_small ctx rep v w') /\
  looks_same (t_sk_generate P w) (t_sk_generate P w').
Proof. intros. split; [|split]; eapply rel_looks; [apply r_sample|apply r_small|apply r_generate]. Qed.

(** Encryption: the steps depend neither on the message, nor on the key, nor on the randomness. *)
Lemma C95_encryption_lem : forall (sk sk' : SecretKey) (m m' : Plaintext) (p p' : Poly) (rows rows' : list (list Z)) (w w' : nat -> Z),
  keys_alike sk sk' -> same_rows rows rows' ->
  (pts_alike m m' -> looks_same (t_to_poly m) (t_to_poly m') /\
                     looks_same (t_encrypt sk m rows w) (t_encrypt sk' m' rows' w')) /\
  (alike p p' -> looks_same (t_encrypt_poly sk p rows w) (t_encrypt_poly sk' p' rows' w')).
Proof. intros sk sk' m m' p p' rows rows' w w' K R. split; [intros M; split|intros A]; eapply rel_looks; [apply r_to_poly|apply r_encrypt|apply r_encrypt_poly]; assumption. Qed.

(** Decryption up to the scaling of the phase: the steps depend neither on the key nor on the ciphertext. *)
Lemma C95_phase_lem : forall (sk sk' : SecretKey) (c0 c0' c1 c1' : Poly) (ct ct' : Ct),
  keys_alike sk sk' ->
  (alike c0 c0' -> alike c1 c1' -> looks_same (t_decrypt_trial sk c0 c1) (t_decrypt_trial sk' c0' c1')) /\
  (Forall2 alike (ct_cts ct) (ct_cts ct') -> looks_same (t_decrypt_phase sk ct) (t_decrypt_phase sk' ct')).
Proof. intros sk sk' c0 c0' c1 c1' ct ct' K. split; [intros A B|intros A]; eapply rel_looks; [apply r_trial|apply r_dphase]; assumption. Qed.

(** Key-switching and relinearisation keys: the steps do not depend on the secrets. *)
Lemma C95_keys_lem : forall (sk sk' : SecretKey) (from from' : Poly) (l l' : nat) (rnd rnd' : RndKsk),
  keys_alike sk sk' -> rnds_alike rnd rnd' ->
  (alike from from' -> looks_same (t_ksk_new sk from l l' rnd) (t_ksk_new sk' from' l l' rnd')) /\
  looks_same (t_rlk_new sk l rnd) (t_rlk_new sk' l rnd').
Proof. intros sk sk' f f' l l' r r' K R. split; [intros A|]; eapply rel_looks; [apply r_ksk_new|apply r_rlk_new]; assumption. Qed.

(*EXAMPLE
(** Two encryptions of different messages under different keys with different
    randomness run through equally many steps and decisions and give different
    ciphertexts. *)
Example C95_example :
  (P <- test_bfv Release ;;
   let sk := mkSk P [1; -1; 0; 1; 1; 0; 2; -1] in let sk' := mkSk P [0; 1; 1; -1; 2; 0; 0; 1] in
   pa <- pt_new Release P [2; 3; 0; 0; 0; 0; 0; 0] 0 EncPoly ;; pb <- pt_new Release P [9; 16; 1; 4; 0; 5; 0; 12] 0 EncPoly ;;
   let x := t_encrypt sk pa (trows bms 4) (tw 5) in let y := t_encrypt sk' pb (trows bms 6) (tw 7) in
   a <- snd x ;; b <- snd y ;;
   let taken t := Z.of_nat (length (filter (fun e => match e with EBranch true => true | _ => false end) t)) in
   Ok (Z.of_nat (length (fst x)), Z.of_nat (length (fst y)), taken (fst x), taken (fst y),
       existsb (fun pq => fst pq =? snd pq) (combine (hd [] (flat_map p_rows (ct_cts a))) (hd [] (flat_map p_rows (ct_cts b))))))
  = Ok (6364, 6364, 302, 302, false).
Proof. vm_compute. reflexivity. Qed.
(** A sampler that tests the bits one by one is told apart: its steps show the sample. *)
Example C95_naive_ex :
  let naive := fun x : Z => t_if (Z.testbit x 0) (t_sub64 1 0) (ret 0) in
  snd (naive 3) = Ok 1 /\ snd (naive 2) = Ok 0 /\ ~ looks_same (naive 3) (naive 2).
Proof. cbv zeta. split; [vm_compute; reflexivity|]. split; [vm_compute; reflexivity|]. intros [H _]. vm_compute in H. discriminate H. Qed.
EXAMPLE*)
