(** Claim C96, continued: modulus switching, multiplication and the remaining
    operations on ciphertexts. *)
From Verif Require Import PBase MModulus MUtils MNtt MRns MRq MBfv MKsk MGalois MRgsw MEval MOmr MTrace MTrace2 MTrace3 MTrace4 MTrace6 MTrace8 SpecTrace SpecTrace2 SpecTrace3 SpecTrace6 SpecTrace8 SpecBfv QTrace QTrace2 QTrace3 QTrace4 QTrace6 TestEnv TestBfv.

(** ** Values *)
Lemma v_poly_neg a : snd (t_poly_neg a) = poly_neg Release a.
Proof.
  unfold t_poly_neg, poly_neg. cbv zeta. rewrite snd_bind. rewrite (v_rows _ (fun dst (pq : list Z * Modulus) => r <- neg_vec Release (snd pq) (fst pq) ;; rassert (length r =? length dst)%nat ;;; Ok r)); [reflexivity|].
  intros x [p q]. cbn [fst snd]. rewrite snd_bind. unfold t_neg_vec, neg_vec. rewrite (v_map _ (mneg Release q)) by apply v_neg. apply bind_ext. intros r. rewrite snd_bind. reflexivity.
Qed.
Lemma v_msd_row q i s h a b : snd (t_msd_row q i s h a b) = msd_row Release q i s h a b.
Proof.
  unfold t_msd_row, msd_row. rewrite snd_bind, v_reduce. apply bind_ext. intros r. rewrite snd_bind, v_sub64. apply bind_ext. intros k. apply v_zip. intros x y.
  rewrite snd_bind, v_lazy_reduce_ct. apply bind_ext. intros l. rewrite snd_bind, v_add64. apply bind_ext. intros t. rewrite snd_bind, v_mul64. apply bind_ext. intros q3. rewrite snd_bind, v_sub64. apply bind_ext. intros d. rewrite snd_bind, v_add64. apply bind_ext. intros; apply v_mul_shoup.
Qed.
Lemma v_msd p : snd (t_mod_switch_down_next p) = mod_switch_down_next Release p.
Proof.
  unfold t_mod_switch_down_next, mod_switch_down_next. cbv zeta. rewrite snd_bind. cbn [pub snd]. apply bind_ext. intros next. rewrite snd_bind. cbn [t_assert snd]. apply bind_ext. intros _. rewrite snd_bind. cbn [pub snd]. apply bind_ext. intros ql. rewrite snd_bind. cbn [t_assert snd]. apply bind_ext. intros _.
  rewrite snd_bind, (v_each _ (mapM (fun c => madd Release ql c (mp ql / 2)))) by (intros; apply v_map; intros; apply v_add). apply bind_ext. intros lasts.
  rewrite snd_bind. rewrite (v_rows _ (fun poly (t : Modulus * (Z * Z)) => msd_row Release (fst t) (fst (snd t)) (snd (snd t)) (mp ql / 2) poly (concat lasts))) by (intros; apply v_msd_row). apply bind_ext. intros rows. rewrite snd_bind. reflexivity.
Qed.
Lemma v_iter n : forall p, snd (t_msd_iter n p) = msd_iter Release n p.
Proof. induction n as [|n IH]; intros p; [reflexivity|]. cbn [t_msd_iter msd_iter]. rewrite snd_bind. cbn [emit snd bind]. rewrite snd_bind, v_msd. apply bind_ext. intros; apply IH. Qed.
Lemma v_switch_to p c : snd (t_mod_switch_to p c) = mod_switch_to Release p c.
Proof. unfold t_mod_switch_to, mod_switch_to. rewrite snd_bind. cbn [pub snd]. apply bind_ext. intros; apply v_iter. Qed.
Lemma v_ct_add_poly a p : snd (t_ct_add_poly a p) = ct_add_poly Release a p.
Proof.
  unfold t_ct_add_poly, ct_add_poly. rewrite snd_bind. cbn [t_get snd]. apply bind_ext. intros a0. rewrite snd_bind. cbn [t_assert snd]. apply bind_ext. intros _. rewrite snd_bind, v_poly_add. apply bind_ext. intros c0. rewrite snd_bind. cbn [t_get snd]. apply bind_ext. intros a1. rewrite snd_bind, v_poly_add. reflexivity.
Qed.
Lemma v_ct_mul_pt a p : snd (t_ct_mul_pt a p) = ct_mul_pt Release a p.
Proof.
  unfold t_ct_mul_pt, ct_mul_pt. rewrite snd_bind. cbn [t_assert snd]. apply bind_ext. intros _. rewrite snd_bind. cbn [t_get snd]. apply bind_ext. intros ctx. rewrite snd_bind, v_from_u64. apply bind_ext. intros m. rewrite snd_bind, v_change. apply bind_ext. intros m'.
  rewrite snd_bind. cbn [t_get snd]. apply bind_ext. intros a0. rewrite snd_bind, v_poly_mul. apply bind_ext. intros c0. rewrite snd_bind. cbn [t_get snd]. apply bind_ext. intros a1. rewrite snd_bind, v_poly_mul. reflexivity.
Qed.
Lemma bind_assoc' {A B C} (x : outcome A) (f : A -> outcome B) (g : B -> outcome C) : bind (bind x f) g = bind x (fun a => bind (f a) g).
Proof. destruct x; reflexivity. Qed.
Lemma v_ct_mul a b : snd (t_ct_mul a b) = ct_mul Release a b.
Proof.
  unfold t_ct_mul, t_ct_tensor, ct_mul. rewrite snd_bind. rewrite snd_bind. cbn [t_assert snd]. rewrite bind_assoc'. apply bind_ext. intros _. rewrite snd_bind. cbn [t_get snd]. rewrite bind_assoc'. destruct (get (bp_mul_params (ct_params a)) (ct_level a)) as [mu| | |] eqn:EM; try reflexivity. cbn [bind].
  rewrite snd_bind, (v_each _ (rq_scale Release (mu_up mu))) by (intros; apply v_rq_scale). rewrite bind_assoc'. apply bind_ext. intros sa.
  rewrite snd_bind, (v_each _ (rq_scale Release (mu_up mu))) by (intros; apply v_rq_scale). rewrite bind_assoc'. apply bind_ext. intros sb.
  rewrite snd_bind. cbn [pub snd]. rewrite bind_assoc'. apply bind_ext. intros n. rewrite snd_bind. cbn [pub snd]. rewrite bind_assoc'. apply bind_ext. intros cs0.
  rewrite (v_fold _ (fun cs (ij : nat * nat) => x <- get sa (fst ij) ;; y <- get sb (snd ij) ;; p <- poly_mul Release x y ;; set cs (fst ij + snd ij) p)).
  - apply bind_ext. intros cs. rewrite snd_bind. cbn [pub snd bind]. rewrite snd_bind, (v_each _ (rq_scale Release (mu_down mu))) by (intros; apply v_rq_scale). reflexivity.
  - intros cs [i j]. cbn [fst snd]. rewrite snd_bind. cbn [t_at snd]. apply bind_ext. intros x. rewrite snd_bind. cbn [t_at snd]. apply bind_ext. intros y. rewrite snd_bind, v_poly_mul. reflexivity.
Qed.

(** The recorded runs compute what the model computes in a Release build. *)
Lemma C96_more_values_lem :
  (forall a, snd (t_poly_neg a) = poly_neg Release a)
  /\ (forall p, snd (t_mod_switch_down_next p) = mod_switch_down_next Release p)
  /\ (forall p c, snd (t_mod_switch_to p c) = mod_switch_to Release p c)
  /\ (forall a p, snd (t_ct_add_poly a p) = ct_add_poly Release a p)
  /\ (forall a p, snd (t_ct_mul_pt a p) = ct_mul_pt Release a p)
  /\ (forall a b, snd (t_ct_mul a b) = ct_mul Release a b).
Proof. split; [exact v_poly_neg|]. split; [exact v_msd|]. split; [exact v_switch_to|]. split; [exact v_ct_add_poly|]. split; [exact v_ct_mul_pt|exact v_ct_mul]. Qed.

(** ** Steps *)
Lemma F2_skipn {A B} (R : A -> B -> Prop) a b k : Forall2 R a b -> Forall2 R (skipn k a) (skipn k b).
Proof. intros H. revert k. induction H; intros [|k]; cbn [skipn]; auto. Qed.
Lemma cat_len (a b : list (list Z)) : same_rows a b -> length (concat a) = length (concat b).
Proof. induction 1 as [|x y a b H _ IH]; [reflexivity|]. cbn [concat]. rewrite !app_length. lia. Qed.
Lemma r_poly_neg a b : alike a b -> rel alike (t_poly_neg a) (t_poly_neg b).
Proof.
  intros (C & E & H). unfold t_poly_neg. cbv zeta. rewrite C, E. eapply rel_bind; [apply (r_rows (fun x y : list Z * Modulus => length (fst x) = length (fst y) /\ snd x = snd y)); [|apply same_refl|]|].
  - intros x x' [p q] [p' q'] L [F G]. cbn [fst snd] in *. subst q'. eapply rel_bind; [apply r_map; [intros; apply r_neg|exact F]|]. intros r r' HR. unfold samelen in HR. rewrite HR, L. eapply rel_bind; [apply r_assert|]. intros _ _ _. apply rel_ret, HR.
  - apply (F2_combine (fun x y : list Z => length x = length y)), H.
  - intros r r' HR. apply rel_ret. repeat split. exact HR.
Qed.
Lemma r_msd_row q i s h a a' b b' : length a = length a' -> length b = length b' -> rel samelen (t_msd_row q i s h a b) (t_msd_row q i s h a' b').
Proof.
  intros A B. unfold t_msd_row. eapply rel_bind; [apply r_reduce|]. intros r r' _. eapply rel_bind; [apply rel_wd|]. intros k k' _. apply r_zip; [|exact A|exact B]. intros x y z w. eapply rel_bind; [apply r_lazy_reduce_ct|]. intros ? ? _.
  do 4 (eapply rel_bind; [apply rel_wd|]; intros ? ? _). apply r_mul_shoup.
Qed.
Lemma r_msd p p' : alike p p' -> rel alike (t_mod_switch_down_next p) (t_mod_switch_down_next p').
Proof.
  intros (C & E & H). unfold t_mod_switch_down_next. cbv zeta. rewrite C, E, (F2n _ _ _ H). eapply rel_bind; [apply r_pub|]. intros nx ? <-. eapply rel_bind; [apply r_assert|]. intros _ _ _. eapply rel_bind; [apply r_pub|]. intros ql ? <-. eapply rel_bind; [apply r_assert|]. intros _ _ _.
  eapply rel_bind; [apply (r_each (fun x y : list Z => length x = length y) (fun x y : list Z => length x = length y)); [|apply F2_skipn, H]; intros x y L; apply r_map; [intros; apply r_add|exact L]|]. intros la la' LA.
  eapply rel_bind; [apply (r_rows eq); [|apply F2_firstn, H|apply F2_eq]; intros x x' y ? L <-; apply r_msd_row; [exact L|apply cat_len, LA]|]. intros rw rw' RW. eapply rel_bind; [apply r_assert|]. intros _ _ _. apply rel_ret. repeat split. cbn [p_rows]. apply Forall2_app; [exact RW|apply F2_skipn, LA].
Qed.
Lemma r_iter n : forall p p', alike p p' -> rel alike (t_msd_iter n p) (t_msd_iter n p').
Proof.
  induction n as [|n IH]; intros p p' A; cbn [t_msd_iter]; (eapply rel_bind; [apply rel_emit|]; intros _ _ _); [apply rel_ret, A|]. eapply rel_bind; [apply r_msd, A|]. intros; apply IH; assumption.
Qed.
Lemma r_switch_to p p' c : alike p p' -> rel alike (t_mod_switch_to p c) (t_mod_switch_to p' c).
Proof. intros A. pose proof A as (C & _). unfold t_mod_switch_to. rewrite C. eapply rel_bind; [apply r_pub|]. intros n ? <-. apply r_iter, A. Qed.
Lemma r_ct_add_poly a a' p p' : ct_like a a' -> alike p p' -> rel ct_like (t_ct_add_poly a p) (t_ct_add_poly a' p').
Proof.
  intros (A1 & A2 & A3) HP. pose proof HP as (P1 & P2 & _). unfold t_ct_add_poly. rewrite A1, A2, P1. eapply rel_bind; [apply r_get, A3|]. intros x x' X. pose proof X as (X1 & _). rewrite X1. eapply rel_bind; [apply r_assert|]. intros _ _ _.
  eapply rel_bind; [apply r_padd; eassumption|]. intros c c' C. eapply rel_bind; [apply r_get, A3|]. intros u u' U. eapply rel_bind; [apply r_padd; eassumption|]. intros d d' D. apply rel_ret, ct2; assumption.
Qed.
Lemma r_ct_mul_pt a a' p p' : ct_like a a' -> pts_alike p p' -> rel ct_like (t_ct_mul_pt a p) (t_ct_mul_pt a' p').
Proof.
  intros (A1 & A2 & A3) (P1 & P2 & P3). unfold t_ct_mul_pt. rewrite A1, A2, P2. eapply rel_bind; [apply r_assert|]. intros _ _ _. eapply rel_bind; [apply r_get_same|]. intros ctx ? <-. eapply rel_bind; [apply r_from_u64, P3|]. intros m m' M. eapply rel_bind; [apply r_change, M|]. intros n n' N.
  eapply rel_bind; [apply r_get, A3|]. intros x x' X. eapply rel_bind; [apply r_pmul; eassumption|]. intros c c' C. eapply rel_bind; [apply r_get, A3|]. intros u u' U. eapply rel_bind; [apply r_pmul; eassumption|]. intros d d' D. apply rel_ret, ct2; assumption.
Qed.
Lemma r_scale_any s p q : alike p q -> (forall u u', snd (t_change_repr p PowerBasis) = Ok u -> snd (t_change_repr q PowerBasis) = Ok u' -> same_signs s u u') -> rel alike (t_rq_scale s p) (t_rq_scale s q).
Proof.
  intros A HS. pose proof A as (C & E & H). unfold t_rq_scale. rewrite <- C, <- E. eapply rel_bind; [apply r_assert|]. intros _ _ _. eapply rel_bind; [apply rel_emit|]. intros _ _ _. destruct (p_repr p) eqn:EP.
  - apply r_pb; [exact A|]. apply HS; unfold t_change_repr; rewrite snd_bind; cbn [emit snd bind]; [rewrite EP|rewrite <- E]; reflexivity.
  - eapply rel_bind; [apply rel_with, r_change, A|]. intros u u' (U & U1 & U2). eapply rel_bind; [apply r_pb; [exact U|apply HS; assumption]|]. intros v v' V. apply r_change, V.
  - eapply rel_bind; [apply rel_with, r_change, A|]. intros u u' (U & U1 & U2). eapply rel_bind; [apply r_pb; [exact U|apply HS; assumption]|]. intros v v' V. apply r_change, V.
Qed.
Lemma one_signs s p q : sf_is_one (rs_factor (sc_rns s)) = true -> same_signs s p q.
Proof.
  intros H1 j _. assert (G : forall r, sign_of (sc_rns s) r = false); [|rewrite !G; reflexivity].
  intros r. unfold sign_of, scale_w. rewrite H1. destruct (scale_v Release (sc_rns s) r); reflexivity.
Qed.
Definition up_one (P : BfvParams) : Prop := Forall (fun mu => sf_is_one (rs_factor (sc_rns (mu_up mu))) = true) (bp_mul_params P).
Lemma r_tensor a a' b b' : up_one (ct_params a) -> ct_like a a' -> ct_like b b' -> rel (Forall2 alike) (t_ct_tensor a b) (t_ct_tensor a' b').
Proof.
  intros U (A1 & A2 & A3) (B1 & B2 & B3). unfold t_ct_tensor. rewrite <- A1, <- A2, <- B2, <- (F2n _ _ _ A3), <- (F2n _ _ _ B3). eapply rel_bind; [apply r_assert|]. intros _ _ _. eapply rel_bind; [apply rel_with, r_get_same|]. intros mu ? [<- [EM _]]. cbn [t_get snd] in EM.
  assert (O : sf_is_one (rs_factor (sc_rns (mu_up mu))) = true). { unfold get in EM. destruct (nth_error _ _) eqn:EN; [|discriminate EM]. injection EM as <-. apply nth_error_In in EN. unfold up_one in U. rewrite Forall_forall in U. exact (U _ EN). }
  eapply rel_bind; [apply (r_each alike alike); [|exact A3]; intros; apply r_scale_any; [assumption|]; intros; apply one_signs, O|]. intros sa sa' SA.
  eapply rel_bind; [apply (r_each alike alike); [|exact B3]; intros; apply r_scale_any; [assumption|]; intros; apply one_signs, O|]. intros sb sb' SB.
  eapply rel_bind; [apply r_pub|]. intros n ? <-. eapply rel_bind; [apply r_pub|]. intros cs ? <-. apply (r_fold (Forall2 alike)).
  - intros u u' [i j] HU. cbn [fst snd]. eapply rel_bind; [apply r_getA, SA|]. intros x x' X. eapply rel_bind; [apply r_getA, SB|]. intros y y' Y. eapply rel_bind; [apply r_pmul; eassumption|]. intros p p' HP. apply r_putA; assumption.
  - clear. induction cs; constructor; auto using alike_refl.
Qed.
Lemma F2_and {A B} (R S : A -> B -> Prop) a b : Forall2 R a b -> Forall2 S a b -> Forall2 (fun x y => R x y /\ S x y) a b.
Proof. induction 1; intros H1; inversion H1; subst; constructor; auto. Qed.
Lemma r_ct_mul a a' b b' : up_one (ct_params a) -> ct_like a a' -> ct_like b b' ->
  (forall mu cs cs', get (bp_mul_params (ct_params a)) (ct_level a) = Ok mu -> snd (t_ct_tensor a b) = Ok cs -> snd (t_ct_tensor a' b') = Ok cs' ->
     Forall2 (fun p q => forall u u', snd (t_change_repr p PowerBasis) = Ok u -> snd (t_change_repr q PowerBasis) = Ok u' -> same_signs (mu_down mu) u u') cs cs') ->
  rel any (t_ct_mul a b) (t_ct_mul a' b').
Proof.
  intros U A B HS. pose proof A as (A1 & A2 & _). unfold t_ct_mul. rewrite <- A1, <- A2. eapply rel_bind; [apply rel_with, r_tensor; assumption|]. intros cs cs' (C & C1 & C2). eapply rel_bind; [apply rel_with, r_pub|]. intros mu ? (<- & EM & _). cbn [pub snd] in EM.
  eapply rel_bind; [apply (r_each (fun p q => alike p q /\ forall u u', snd (t_change_repr p PowerBasis) = Ok u -> snd (t_change_repr q PowerBasis) = Ok u' -> same_signs (mu_down mu) u u') alike); [intros x x' [X1 X2]; apply r_scale_any; assumption|apply F2_and; [exact C|apply HS; assumption]]|].
  intros; apply rel_ret; exact I.
Qed.

(** Modulus switching, negation and the operations of ciphertexts with
    polynomials and plaintexts give away sizes only. *)
Lemma C96_mod_switch_lem :
  (forall p p', alike p p' -> looks_same (t_mod_switch_down_next p) (t_mod_switch_down_next p'))
  /\ (forall p p' c, alike p p' -> looks_same (t_mod_switch_to p c) (t_mod_switch_to p' c))
  /\ (forall p p', alike p p' -> looks_same (t_poly_neg p) (t_poly_neg p'))
  /\ (forall a a' p p', ct_like a a' -> alike p p' -> looks_same (t_ct_add_poly a p) (t_ct_add_poly a' p'))
  /\ (forall a a' p p', ct_like a a' -> pts_alike p p' -> looks_same (t_ct_mul_pt a p) (t_ct_mul_pt a' p')).
Proof.
  split; [|split; [|split; [|split]]]; intros.
  - apply (rel_looks alike), r_msd; assumption.
  - apply (rel_looks alike), r_switch_to; assumption.
  - apply (rel_looks alike), r_poly_neg; assumption.
  - apply (rel_looks ct_like), r_ct_add_poly; assumption.
  - apply (rel_looks ct_like), r_ct_mul_pt; assumption.
Qed.

Lemma scaler_factor pr f t x s : rq_scaler_new pr f t x = Ok s -> rs_factor (sc_rns s) = x.
Proof.
  unfold rq_scaler_new. intros H. apply bind_inv in H. destruct H as [? [_ H]]. apply bind_inv in H. destruct H as [r [E H]]. injection H as <-. cbn [sc_rns].
  unfold rns_scaler_new in E. apply bind_inv in E. destruct E as [[[[? ?] ?] ?] [_ E]]. do 6 (apply bind_inv in E; destruct E as [? [_ E]]). apply bind_inv in E; destruct E as [? [_ E]]. injection E as <-. reflexivity.
Qed.
Lemma mapM_each {A B} (f : A -> outcome B) (Q : B -> Prop) : (forall x y, f x = Ok y -> Q y) -> forall l r, mapM f l = Ok r -> Forall Q r.
Proof.
  intros H. induction l as [|x l IH]; intros r E; cbn [mapM] in E; [injection E as <-; constructor|]. apply bind_inv in E. destruct E as [y [Ey E]]. apply bind_inv in E. destruct E as [r' [Er E]]. injection E as <-. constructor; eauto.
Qed.
Lemma built_up P : built_params P -> up_one P.
Proof.
  intros (pr & env & ext & degree & t & moduli & variance & bd & _ & _ & _ & _ & _ & E). unfold bfv_new_from in E.
  apply bind_inv in E. destruct E as [ti [_ E]]. apply bind_inv in E. destruct E as [q0 [_ E]]. apply bind_inv in E. destruct E as [pc [_ E]]. apply bind_inv in E. destruct E as [lv [EL E]]. do 3 (apply bind_inv in E; destruct E as [? [_ E]]). injection E as <-. unfold up_one. cbn [bp_mul_params].
  apply Forall_map. eapply mapM_each; [|exact EL]. clear. intros i y H. unfold level_params in H. cbv zeta in H.
  do 11 (apply bind_inv in H; destruct H as [? [_ H]]). apply bind_inv in H. destruct H as [up [EU H]]. apply bind_inv in H. destruct H as [dn [_ H]]. apply bind_inv in H. destruct H as [mu [EM H]]. injection H as <-. cbn beta iota.
  unfold mul_params_new in EM. apply bind_inv in EM. destruct EM as [u [Eu EM]]. apply bind_inv in EM. destruct EM as [d [_ EM]]. injection EM as <-. cbn [mu_up]. rewrite (scaler_factor _ _ _ _ _ Eu). injection EU as <-. reflexivity.
Qed.
(** Multiplying two ciphertexts: extending the basis and the products give away
    sizes only, and the whole operation no more than the signs of the
    corrections when scaling down. *)
Lemma C96_multiply_lem :
  forall a a' b b', built_params (ct_params a) -> ct_like a a' -> ct_like b b' ->
    looks_same (t_ct_tensor a b) (t_ct_tensor a' b')
    /\ ((forall mu cs cs', get (bp_mul_params (ct_params a)) (ct_level a) = Ok mu -> snd (t_ct_tensor a b) = Ok cs -> snd (t_ct_tensor a' b') = Ok cs' -> down_signs (mu_down mu) cs cs')
        -> looks_same (t_ct_mul a b) (t_ct_mul a' b')).
Proof.
  intros a a' b b' BP A B. pose proof (built_up _ BP) as U. split; [apply (rel_looks (Forall2 alike)), r_tensor; assumption|].
  intros HS. apply (rel_looks any), r_ct_mul; try assumption. intros mu cs cs' E1 E2 E3. generalize (HS mu cs cs' E1 E2 E3). clear. intros H. induction H as [|x y l l' Hx H IH]; constructor; [|exact IH]. intros u u' X Y. rewrite v_change in X, Y. auto.
Qed.

(** ** [multiply_with_strategy] and [inner_product] *)
Lemma F2_inv {A B} (R : A -> B -> Prop) x y l l' : Forall2 R (x :: l) (y :: l') -> R x y /\ Forall2 R l l'.
Proof. intros H. inversion H. split; assumption. Qed.
Lemma v_if {A} b (x y : run A) : snd (t_if b x y) = if b then snd x else snd y.
Proof. destruct b; unfold t_if; rewrite ?snd_bind; reflexivity. Qed.
Lemma v_relin r p : snd (t_relinearize_poly r p) = relinearize_poly Release r p.
Proof.
  unfold t_relinearize_poly, relinearize_poly. rewrite v_if. destruct (repr_eqb (p_repr p) Ntt); [|apply v_key_switch]. rewrite snd_bind, v_change. apply bind_ext. intros; apply v_key_switch.
Qed.
Lemma v_multiply a b k : snd (t_multiply a b k) = multiply_with_strategy Release a b k.
Proof.
  unfold t_multiply, t_products, multiply_with_strategy. rewrite snd_bind. do 5 (rewrite snd_bind; cbn [t_assert snd]; rewrite bind_assoc'; apply bind_ext; intros _).
  rewrite snd_bind. cbn [t_get snd]. rewrite bind_assoc'. destruct (get (bp_mul_params (ct_params a)) (ct_level a)) as [mu| | |] eqn:EM; try reflexivity. cbn [bind].
  do 4 (rewrite snd_bind; cbn [t_get snd]; rewrite bind_assoc'; apply bind_ext; intros ?). do 4 (rewrite snd_bind, v_rq_scale, bind_assoc'; apply bind_ext; intros ?).
  do 3 (rewrite snd_bind, v_poly_mul, bind_assoc'; apply bind_ext; intros ?). rewrite snd_bind, v_poly_add, bind_assoc'; apply bind_ext; intros ?. rewrite snd_bind, v_poly_mul, bind_assoc'; apply bind_ext; intros ?.
  cbn [ret snd bind]. rewrite snd_bind. cbn [pub snd bind]. do 3 (rewrite snd_bind, v_rq_scale; apply bind_ext; intros ?). rewrite snd_bind, v_relin. apply bind_ext. intros [r0 r1]. do 2 (rewrite snd_bind, v_poly_add; apply bind_ext; intros ?). reflexivity.
Qed.
Lemma v_inner c p : snd (t_inner_product c p) = inner_product Release c p.
Proof.
  unfold t_inner_product, inner_product. rewrite snd_bind. cbn [t_assert snd]. apply bind_ext. intros _. do 2 (rewrite snd_bind; cbn [t_get snd]; apply bind_ext; intros ?). rewrite snd_bind, v_ct_mul_poly. apply bind_ext. intros p0.
  apply v_fold. intros b x. rewrite snd_bind, v_ct_mul_poly. apply bind_ext. intros; apply v_ct_add.
Qed.
Definition rlk_like (k k' : RelinKey) : Prop := rlk_params k = rlk_params k' /\ ksk_like (rlk_ksk k) (rlk_ksk k').
Lemma get_up P i mu : up_one P -> get (bp_mul_params P) i = Ok mu -> sf_is_one (rs_factor (sc_rns (mu_up mu))) = true.
Proof. intros U EM. unfold get in EM. destruct (nth_error _ _) eqn:EN; [|discriminate EM]. injection EM as <-. apply nth_error_In in EN. unfold up_one in U. rewrite Forall_forall in U. exact (U _ EN). Qed.
Definition three (x y : Poly * Poly * Poly) : Prop := alike (fst (fst x)) (fst (fst y)) /\ alike (snd (fst x)) (snd (fst y)) /\ alike (snd x) (snd y).
Lemma r_products a a' b b' k k' : up_one (ct_params a) -> ct_like a a' -> ct_like b b' -> rlk_like k k' -> rel three (t_products a b k) (t_products a' b' k').
Proof.
  intros U (A1 & A2 & A3) (B1 & B2 & B3) (K1 & _). unfold t_products. rewrite <- A1, <- A2, <- B1, <- B2, <- K1, <- (F2n _ _ _ A3), <- (F2n _ _ _ B3). do 5 (eapply rel_bind; [apply r_assert|]; intros _ _ _).
  eapply rel_bind; [apply rel_with, r_get_same|]. intros mu ? [<- [EM _]]. cbn [t_get snd] in EM. pose proof (get_up _ _ _ U EM) as O.
  assert (SC : forall p q, alike p q -> rel alike (t_rq_scale (mu_up mu) p) (t_rq_scale (mu_up mu) q)) by (intros; apply r_scale_any; [assumption|]; intros; apply one_signs, O).
  eapply rel_bind; [apply r_get, A3|]. intros l0 l0' L0. eapply rel_bind; [apply r_get, A3|]. intros l1 l1' L1. eapply rel_bind; [apply r_get, B3|]. intros r0 r0' R0. eapply rel_bind; [apply r_get, B3|]. intros r1 r1' R1.
  eapply rel_bind; [apply SC, L0|]. intros c00 c00' C00. eapply rel_bind; [apply SC, L1|]. intros c01 c01' C01. eapply rel_bind; [apply SC, R0|]. intros c10 c10' C10. eapply rel_bind; [apply SC, R1|]. intros c11 c11' C11.
  eapply rel_bind; [apply r_pmul; eassumption|]. intros p p' HP. eapply rel_bind; [apply r_pmul; [exact C00|exact C11]|]. intros x x' X. eapply rel_bind; [apply r_pmul; [exact C10|exact C01]|]. intros y y' Y. eapply rel_bind; [apply r_padd; [exact X|exact Y]|]. intros z z' Z0. eapply rel_bind; [apply r_pmul; [exact C01|exact C11]|]. intros w w' W0.
  apply rel_ret. split; [exact HP|]. split; assumption.
Qed.
Lemma r_relin k k' p p' : rlk_like k k' -> alike p p' -> rel two (t_relinearize_poly k p) (t_relinearize_poly k' p').
Proof.
  intros [_ K] A. pose proof A as (_ & E & _). unfold t_relinearize_poly. rewrite E. apply rel_if; [|apply r_key_switch; assumption]. eapply rel_bind; [apply r_change, A|]. intros; apply r_key_switch; assumption.
Qed.
Lemma r_multiply a a' b b' k k' : up_one (ct_params a) -> ct_like a a' -> ct_like b b' -> rlk_like k k' ->
  (forall mu c0 c1 c2 c0' c1' c2', get (bp_mul_params (ct_params a)) (ct_level a) = Ok mu -> snd (t_products a b k) = Ok (c0, c1, c2) -> snd (t_products a' b' k') = Ok (c0', c1', c2') -> down_signs (mu_down mu) [c0; c1; c2] [c0'; c1'; c2']) ->
  rel ct_like (t_multiply a b k) (t_multiply a' b' k').
Proof.
  intros U A B K HS. pose proof A as (A1 & A2 & _). unfold t_multiply. rewrite <- A1, <- A2. eapply rel_bind; [apply rel_with, r_products; eassumption|]. intros [[c0 c1] c2] [[c0' c1'] c2'] ((X0 & X1 & X2) & E1 & E2). cbn [fst snd] in X0, X1, X2.
  eapply rel_bind; [apply rel_with, r_pub|]. intros mu ? (<- & EM & _). cbn [pub snd] in EM. pose proof (HS _ _ _ _ _ _ _ EM E1 E2) as D. unfold down_signs in D. apply F2_inv in D. destruct D as [D0 D]. apply F2_inv in D. destruct D as [D1 D]. apply F2_inv in D. destruct D as [D2 _].
  eapply rel_bind; [apply r_scale_any; [exact X0|intros u u' Y Y'; rewrite v_change in Y, Y'; auto]|]. intros d0 d0' H0. eapply rel_bind; [apply r_scale_any; [exact X1|intros u u' Y Y'; rewrite v_change in Y, Y'; auto]|]. intros d1 d1' H1. eapply rel_bind; [apply r_scale_any; [exact X2|intros u u' Y Y'; rewrite v_change in Y, Y'; auto]|]. intros d2 d2' H2.
  eapply rel_bind; [apply r_relin; [exact K|exact H2]|]. intros [r0 r1] [r0' r1'] [R0 R1]. cbn [fst snd] in R0, R1. eapply rel_bind; [apply r_padd; [exact H0|exact R0]|]. intros e0 e0' F0. eapply rel_bind; [apply r_padd; [exact H1|exact R1]|]. intros e1 e1' F1. apply rel_ret, ct2; assumption.
Qed.
Lemma r_inner c c' p p' : Forall2 ct_like c c' -> Forall2 alike p p' -> rel ct_like (t_inner_product c p) (t_inner_product c' p').
Proof.
  intros C P. unfold t_inner_product. rewrite (F2n _ _ _ C), (F2n _ _ _ P). eapply rel_bind; [apply r_assert|]. intros _ _ _. eapply rel_bind; [apply r_get, C|]. intros x x' X. eapply rel_bind; [apply r_get, P|]. intros y y' Y. eapply rel_bind; [apply r_ct_mul_poly; eassumption|]. intros z z' Z0.
  eapply r_fold2; [|apply (F2_comb ct_like alike); [apply F2_tl, C|apply F2_tl, P]|exact Z0]. intros b d u v HB [H1 H2]. eapply rel_bind; [apply r_ct_mul_poly; eassumption|]. intros; apply r_ct_add; assumption.
Qed.

(** Multiplication with relinearization, and inner products with polynomials:
    the values, and the steps.  The product gives away no more than the signs
    of the corrections when scaling down, the inner product sizes only. *)
Lemma C96_strategy_lem :
  (forall a b k, snd (t_multiply a b k) = multiply_with_strategy Release a b k)
  /\ (forall c p, snd (t_inner_product c p) = inner_product Release c p)
  /\ (forall a a' b b' k k', built_params (ct_params a) -> ct_like a a' -> ct_like b b' -> rlk_params k = rlk_params k' -> ksk_like (rlk_ksk k) (rlk_ksk k') ->
        looks_same (t_products a b k) (t_products a' b' k')
        /\ ((forall mu c0 c1 c2 c0' c1' c2', get (bp_mul_params (ct_params a)) (ct_level a) = Ok mu -> snd (t_products a b k) = Ok (c0, c1, c2) ->
               snd (t_products a' b' k') = Ok (c0', c1', c2') -> down_signs (mu_down mu) [c0; c1; c2] [c0'; c1'; c2'])
            -> looks_same (t_multiply a b k) (t_multiply a' b' k')))
  /\ (forall c c' p p', Forall2 ct_like c c' -> Forall2 alike p p' -> looks_same (t_inner_product c p) (t_inner_product c' p')).
Proof.
  split; [exact v_multiply|]. split; [exact v_inner|]. split.
  - intros a a' b b' k k' BP A B K1 K2. pose proof (built_up _ BP) as U. split; [apply (rel_looks three), r_products; try assumption; split; assumption|]. intros HS. apply (rel_looks ct_like), r_multiply; try assumption. split; assumption.
  - intros. apply (rel_looks ct_like), r_inner; assumption.
Qed.

(*EXAMPLE
(** Dropping a modulus from two polynomials: different results, the same
    number of steps. *)
Example C96_mod_switch_example :
  (P <- test_bfv Release ;; c <- get (bp_q_ctxs P) 0 ;;
   a <- poly_from_u64 Release c [1; 2; 3; 4; 5; 6; 7; 8] ;; b <- poly_from_u64 Release c [0; 0; 90; 0; 11; 0; 40000; 3] ;;
   x <- poly_mul_big Release (mkPoly c Ntt (p_rows a)) 1000003 ;; let a := mkPoly c PowerBasis (p_rows x) in
   let t := t_mod_switch_down_next a in let t' := t_mod_switch_down_next b in
   y <- snd t ;; y' <- snd t' ;;
   Ok (length (p_rows y), zlist_eqb (concat (p_rows y)) (concat (p_rows y')), length (fst t) =? length (fst t'), 100 <? length (fst t))%nat)
  = Ok (1%nat, false, true, true).
Proof. vm_compute. reflexivity. Qed.
EXAMPLE*)
