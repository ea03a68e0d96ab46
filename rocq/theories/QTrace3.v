(** Claim C96: what scaling and decryption give away through their steps. *)
From Verif Require Import PBase MModulus MUtils MNtt MRns MRq MBfv MKsk MGalois MTrace MTrace2 MTrace3 SpecTrace SpecTrace2 SpecTrace3 QTrace QTrace2 TestEnv TestBfv.

(** ** Values *)
Lemma v_half x : snd (t_half_up x) = div_ceil Release W128 x 2.
Proof. unfold t_half_up, div_ceil. rewrite !snd_bind. cbn [Z.eqb negb rassert bind t_add128 wd snd]. rewrite chkR by reflexivity. cbn [bind]. rewrite chkR by reflexivity. rewrite snd_bind. reflexivity. Qed.
Lemma v_garner los : forall his rests acc, snd (t_sum_theta_garner los his rests acc) = sum_theta_garner Release los his rests acc.
Proof.
  induction los as [|a los IH]; intros [|b his] [|r rests] acc; try reflexivity. cbn [t_sum_theta_garner sum_theta_garner]. rewrite snd_bind. cbn [emit snd bind].
  rewrite snd_bind, v_mul128. apply bind_ext. intros lo. rewrite snd_bind, v_mul128. apply bind_ext. intros h. rewrite snd_bind. cbn [t_shr128 wd snd bind]. rewrite snd_bind, v_add128. apply bind_ext. intros hi.
  rewrite snd_bind. cbn [wide snd bind]. apply IH.
Qed.
Lemma v_omega los : forall his sg rests acc, snd (t_sum_theta_omega los his sg rests acc) = sum_theta_omega Release los his sg rests acc.
Proof.
  induction los as [|a los IH]; intros [|b his] [|g sg] [|r rests] acc; try reflexivity. cbn [t_sum_theta_omega sum_theta_omega]. rewrite snd_bind. cbn [emit snd bind].
  rewrite snd_bind, v_mul128. apply bind_ext. intros lo. rewrite snd_bind, v_mul128. apply bind_ext. intros h. rewrite snd_bind. cbn [t_shr128 wd snd bind]. rewrite snd_bind, v_add128. apply bind_ext. intros hi.
  cbv zeta. rewrite snd_bind. unfold t_if. rewrite snd_bind. cbn [emit snd bind]. destruct g; cbn [wide snd bind]; apply IH.
Qed.
Lemma v_scale_v s r : snd (t_scale_v s r) = scale_v Release s r.
Proof.
  unfold t_scale_v, scale_v. rewrite snd_bind, v_garner. apply bind_ext. intros sum. rewrite snd_bind, v_sub64. apply bind_ext. intros sh. rewrite snd_bind. cbn [wide snd bind]. rewrite snd_bind. cbn [wide snd bind]. cbv zeta. apply v_half.
Qed.
Lemma v_scale_w s r v : snd (t_scale_w s r v) = scale_w Release s r v.
Proof.
  unfold t_scale_w, scale_w, t_if at 1. rewrite snd_bind. cbn [emit snd bind]. destruct (sf_is_one (rs_factor s)); [reflexivity|]. rewrite snd_bind. unfold t_scale_sto. rewrite snd_bind, v_omega.
  destruct (sum_theta_omega _ _ _ _ _ _) as [sto| | |]; [|reflexivity..]. cbn [bind].
  repeat (rewrite snd_bind; cbn [t_as64 t_shr128 t_mul128 t_add128 wd snd bind]). unfold mul128, add128. cbv zeta.
  repeat (rewrite chkR by reflexivity; cbn [bind]).
  unfold t_if. rewrite snd_bind. cbn [emit snd bind].
  assert (E : forall x : U256, snd (if 0 <? u256_msb x
     then sh <~ wide (u256_shr Release (u256_not x) 126);~ x0 <~ wide (u256_to_u128 Release sh);~ x1 <~ t_add128 x0 1;~ w <~ wd OShr128 (x1 / 2);~ ret (true, w)
     else sh <~ wide (u256_shr Release x 126);~ x0 <~ wide (u256_to_u128 Release sh);~ w <~ t_half_up x0;~ ret (false, w)) =
    (if 0 <? u256_msb x then sh <- u256_shr Release (u256_not x) 126 ;; x0 <- u256_to_u128 Release sh ;; x1 <- chk Release W128 (x0 + 1) ;; Ok (true, x1 / 2)
     else sh <- u256_shr Release x 126 ;; x0 <- u256_to_u128 Release sh ;; w <- div_ceil Release W128 x0 2 ;; Ok (false, w))).
  { intros x. destruct (0 <? u256_msb x); rewrite snd_bind; cbn [wide snd]; apply bind_ext; intros sh; rewrite snd_bind; cbn [wide snd]; apply bind_ext; intros y; rewrite snd_bind.
    - rewrite v_add128. unfold add128. apply bind_ext. intros z. rewrite snd_bind. reflexivity.
    - rewrite v_half. reflexivity. }
  destruct (rs_theta_gamma_sign s); cbn [wide snd bind]; rewrite snd_bind; cbn [emit snd bind]; apply E.
Qed.
Lemma v_inner q rests : forall o os y, snd (t_scale_inner q rests o os y) = scale_inner Release q rests o os y.
Proof.
  induction rests as [|r rests IH]; intros o os y; [reflexivity|]. cbn [t_scale_inner scale_inner]. rewrite snd_bind. cbn [emit snd bind]. destruct o as [|a o]; [reflexivity|]. destruct os as [|b os]; [reflexivity|].
  rewrite snd_bind, v_lazy_mul_shoup. apply bind_ext. intros t. rewrite snd_bind, v_add128. apply bind_ext. intros; apply IH.
Qed.
Lemma v_out s r v ws i : snd (t_scale_out s r v ws i) = scale_out Release s r v ws i.
Proof.
  destruct ws as [sg w]. unfold t_scale_out, scale_out. do 5 (rewrite snd_bind; cbn [t_getu snd]; apply bind_ext; intros ?). rewrite snd_bind, v_mul64. apply bind_ext. intros q2.
  rewrite snd_bind, v_reduce_u128. apply bind_ext. intros vr. rewrite snd_bind, v_lazy_mul_shoup. apply bind_ext. intros g. rewrite snd_bind, v_sub64. apply bind_ext. intros y0.
  rewrite snd_bind. replace (snd (t_if (sf_is_one (rs_factor s)) _ _)) with
    (if sf_is_one (rs_factor s) then Ok y0 else wi <- lazy_reduce_u128 Release a w ;; t <- (if sg then sub64 Release q2 wi else Ok wi) ;; add128 Release y0 t).
  - apply bind_ext. intros y1. cbn [dassert bind]. rewrite snd_bind, v_inner. apply bind_ext. intros y. rewrite snd_bind, v_reduce_u128. destruct (mreduce_u128 Release a y); reflexivity.
  - unfold t_if at 1. rewrite snd_bind. cbn [emit snd bind]. destruct (sf_is_one (rs_factor s)); [reflexivity|]. cbn [fst snd]. rewrite snd_bind, v_lazy_reduce_u128. apply bind_ext. intros wi.
    rewrite snd_bind. unfold t_if. rewrite snd_bind. cbn [emit snd bind]. destruct sg; [rewrite v_sub64|cbn [ret snd]]; apply bind_ext; intros; symmetry; apply v_add128.
Qed.
Lemma v_rns_scale s r n k : snd (t_rns_scale s r n k) = rns_scale Release s r n k.
Proof.
  unfold t_rns_scale, rns_scale. cbn [dassert bind]. rewrite snd_bind, v_scale_v. apply bind_ext. intros v. rewrite snd_bind, v_scale_w. apply bind_ext. intros ws. apply v_each. intros; apply v_out.
Qed.
Lemma v_pb s p : snd (t_rq_scale_pb s p) = rq_scale_pb Release s p.
Proof.
  unfold t_rq_scale_pb, rq_scale_pb. cbv zeta. rewrite snd_bind. cbn [t_assert snd]. apply bind_ext. intros _. rewrite snd_bind. cbn [snd]. apply bind_ext. intros top. rewrite snd_bind.
  replace (snd (t_if _ _ _)) with (if (sc_common s <? length (rq_moduli_64 (sc_to s)))%nat then
               outs <- mapM (fun j => c <- column (p_rows p) j ;; rns_scale Release (sc_rns s) c (length (rq_moduli (sc_to s)) - sc_common s) (sc_common s)) (seq 0 (rq_degree (sc_to s))) ;;
               Ok (map (fun i => map (fun out => nth i out 0) outs) (seq 0 (length (rq_moduli (sc_to s)) - sc_common s)))
             else Ok (repeat (repeat 0 (rq_degree (sc_to s))) (length (rq_moduli (sc_to s)) - sc_common s))); [reflexivity|].
  unfold t_if. rewrite snd_bind. cbn [emit snd bind]. destruct (_ <? _)%nat; [|reflexivity]. rewrite snd_bind.
  rewrite (v_each _ (fun j => c <- column (p_rows p) j ;; rns_scale Release (sc_rns s) c (length (rq_moduli (sc_to s)) - sc_common s) (sc_common s))); [reflexivity|].
  intros j. rewrite snd_bind. cbn [t_column snd]. apply bind_ext. intros; apply v_rns_scale.
Qed.
Lemma v_rq_scale s p : snd (t_rq_scale s p) = rq_scale Release s p.
Proof.
  unfold t_rq_scale, rq_scale. rewrite snd_bind. cbn [t_assert snd]. apply bind_ext. intros _. rewrite snd_bind. cbn [emit snd bind].
  destruct (p_repr p); try apply v_pb; (rewrite snd_bind, v_change; apply bind_ext; intros; rewrite snd_bind, v_pb; apply bind_ext; intros; apply v_change).
Qed.
Lemma v_decrypt sk ct : snd (t_decrypt sk ct) = decrypt Release sk ct.
Proof.
  rewrite <- v_dphase. unfold t_decrypt. cbv zeta. rewrite snd_bind. apply bind_ext. intros m1. rewrite snd_bind. cbn [t_get snd]. apply bind_ext. intros sc. rewrite snd_bind, v_rq_scale. apply bind_ext. intros m2.
  rewrite snd_bind. cbn [t_get snd]. apply bind_ext. intros row0. rewrite snd_bind. rewrite (v_map _ (fun a => add64 Release a (bp_t (sk_params sk)))) by (intros; apply v_add64). apply bind_ext. intros v1.
  rewrite snd_bind. cbn [snd]. apply bind_ext. intros v2. do 2 (rewrite snd_bind; cbn [t_get snd]; apply bind_ext; intros ?). rewrite snd_bind. unfold t_reduce_vec_u64, reduce_vec_u64.
  rewrite (v_map _ (mreduce Release a0)) by apply v_reduce. apply bind_ext. intros v3. rewrite snd_bind. cbn [snd]. apply bind_ext. intros tm. rewrite snd_bind, (v_map _ (mreduce Release tm)) by apply v_reduce. reflexivity.
Qed.

(** ** Steps *)
Lemma rel_with {A B} (R : A -> B -> Prop) x y : rel R x y -> rel (fun a b => R a b /\ snd x = Ok a /\ snd y = Ok b) x y.
Proof. intros [H1 H2]. split; [exact H1|]. destruct (snd x), (snd y); auto. Qed.
Lemma r_wide {A} (a b : A) : rel any (wide (Ok a)) (wide (Ok b)).
Proof. split; [reflexivity|exact I]. Qed.
Lemma r_half x x' : rel any (t_half_up x) (t_half_up x').
Proof. unfold t_half_up. word. Qed.
Lemma r_garner los : forall his r r' acc acc', length r = length r' -> rel any (t_sum_theta_garner los his r acc) (t_sum_theta_garner los his r' acc').
Proof.
  induction los as [|a los IH]; intros his r r' acc acc' L; [|destruct his as [|b his]; [|destruct r as [|x r], r' as [|x' r']; try discriminate L]]; cbn [t_sum_theta_garner];
    try (eapply rel_bind; [apply rel_emit|]; intros ? ? _; apply rel_ret; exact I).
  eapply rel_bind; [apply rel_emit|]; intros ? ? _. do 4 (eapply rel_bind; [apply rel_wd|intros ? ? _]). eapply rel_bind; [apply r_wide|]. intros ? ? _. apply IH. injection L; auto.
Qed.
Lemma r_omega los : forall his sg r r' acc acc', length r = length r' -> rel any (t_sum_theta_omega los his sg r acc) (t_sum_theta_omega los his sg r' acc').
Proof.
  induction los as [|a los IH]; intros his sg r r' acc acc' L; [|destruct his as [|b his]; [|destruct sg as [|g sg]; [|destruct r as [|x r], r' as [|x' r']; try discriminate L]]]; cbn [t_sum_theta_omega];
    try (eapply rel_bind; [apply rel_emit|]; intros ? ? _; apply rel_ret; exact I).
  eapply rel_bind; [apply rel_emit|]; intros ? ? _. do 4 (eapply rel_bind; [apply rel_wd|intros ? ? _]). cbv zeta. eapply rel_bind; [apply (rel_if any); apply r_wide|]. intros ? ? _. apply IH. injection L; auto.
Qed.
Lemma r_scale_v s r r' : length r = length r' -> rel any (t_scale_v s r) (t_scale_v s r').
Proof.
  intros L. unfold t_scale_v. eapply rel_bind; [apply r_garner, L|]. intros ? ? _. eapply rel_bind; [apply rel_wd|]. intros ? ? _. do 2 (eapply rel_bind; [apply r_wide|intros ? ? _]). apply r_half.
Qed.
Lemma r_sto s r r' v v' : length r = length r' -> rel any (t_scale_sto s r v) (t_scale_sto s r' v').
Proof.
  intros L. unfold t_scale_sto. eapply rel_bind; [apply r_omega, L|]. intros ? ? _. do 16 (eapply rel_bind; [apply rel_wd|intros ? ? _]). cbv zeta. apply rel_if; apply r_wide.
Qed.
Definition t_tail (sto : U256) : run (bool * Z) :=
  t_if (0 <? u256_msb sto)
       (sh <~ wide (u256_shr Release (u256_not sto) 126) ;~
        x <~ wide (u256_to_u128 Release sh) ;~
        x1 <~ t_add128 x 1 ;~
        w <~ wd OShr128 (x1 / 2) ;~
        ret (true, w))
       (sh <~ wide (u256_shr Release sto 126) ;~
        x <~ wide (u256_to_u128 Release sh) ;~
        w <~ t_half_up x ;~
        ret (false, w)).
Definition TR (b : bool) : list event :=
  EBranch b :: (if b then [EOp OWide; EOp OWide; EOp OAdd128; EOp OShr128] else [EOp OWide; EOp OWide; EOp OAdd128; EOp OSub128; EOp OShr128]).
Lemma TR_inj b b' T T' : TR b ++ T = TR b' ++ T' -> b = b'.
Proof. destruct b, b'; cbn [TR app]; intros H; [reflexivity|discriminate H|discriminate H|reflexivity]. Qed.
Lemma scale_w_tail s r v : t_scale_w s r v = t_if (sf_is_one (rs_factor s)) (ret (false, 0)) (rbind (t_scale_sto s r v) t_tail).
Proof. reflexivity. Qed.
Lemma to128_ok x : exists y, u256_to_u128 Release x = Ok y.
Proof. unfold u256_to_u128. cbn [dassert bind]. unfold add128. rewrite chkR by reflexivity. eexists; reflexivity. Qed.
Lemma shr126_ok x : exists y, u256_shr Release x 126 = Ok y.
Proof. eexists. reflexivity. Qed.
Lemma tail_eq sto : exists w, t_tail sto = (TR (0 <? u256_msb sto), Ok (0 <? u256_msb sto, w)).
Proof.
  unfold t_tail, t_if. destruct (0 <? u256_msb sto).
  - destruct (shr126_ok (u256_not sto)) as [y Ey]. rewrite Ey. destruct (to128_ok y) as [z Ez]. eexists. unfold rbind, wide. cbn [fst snd emit]. rewrite Ez. cbn [t_add128 wd fst snd ret app]. reflexivity.
  - destruct (shr126_ok sto) as [y Ey]. rewrite Ey. destruct (to128_ok y) as [z Ez]. eexists. unfold rbind, wide. cbn [fst snd emit]. rewrite Ez. cbn [t_half_up t_add128 t_sub128 rbind wd fst snd ret app]. reflexivity.
Qed.
Definition sgo (x : outcome (bool * Z)) : bool := match x with Ok (b, _) => b | _ => false end.
Lemma r_w s r r' v v' : length r = length r' -> sgo (snd (t_scale_w s r v)) = sgo (snd (t_scale_w s r' v')) ->
  rel (fun x y => fst x = fst y) (t_scale_w s r v) (t_scale_w s r' v').
Proof.
  intros L. rewrite !scale_w_tail. unfold t_if. rewrite !snd_bind. cbn [emit snd bind]. intros H. eapply rel_bind; [apply rel_emit|]. intros ? ? _. destruct (sf_is_one (rs_factor s)); [apply rel_ret; reflexivity|].
  eapply rel_bind; [apply rel_with, (r_sto s r r' v v' L)|]. intros u1 u2 [_ [Ea Eb]]. rewrite !snd_bind, Ea, Eb in H. cbn [bind] in H.
  destruct (tail_eq u1) as [w Ew], (tail_eq u2) as [w' Ew']. rewrite Ew, Ew' in *. cbn [snd sgo] in H. unfold rel. cbn [fst snd]. rewrite H. auto.
Qed.
Lemma w_reveals s r r' v v' T T' : length r = length r' -> fst (t_scale_w s r v) ++ T = fst (t_scale_w s r' v') ++ T' -> sgo (snd (t_scale_w s r v)) = sgo (snd (t_scale_w s r' v')).
Proof.
  intros L. rewrite !scale_w_tail. unfold t_if. destruct (sf_is_one (rs_factor s)); [reflexivity|]. destruct (r_sto s r r' v v' L) as [H1 H2]. unfold rbind at 1 2 3 4. cbn [emit fst snd].
  destruct (t_scale_sto s r v) as [E o], (t_scale_sto s r' v') as [E' o']. cbn [fst snd] in *. subst E'. unfold rbind. cbn [fst snd]. destruct o as [a| | |], o' as [b| | |]; try contradiction; try reflexivity.
  destruct (tail_eq a) as [w Ew], (tail_eq b) as [w' Ew']. rewrite Ew, Ew'. cbn [fst snd sgo]. cbn [app]. intros H. apply (f_equal (@tl event)) in H. cbn [tl] in H. rewrite <- !app_assoc in H. apply app_inv_head in H. exact (TR_inj _ _ _ _ H).
Qed.
Lemma r_inner q r : forall r' o os y y', length r = length r' -> rel any (t_scale_inner q r o os y) (t_scale_inner q r' o os y').
Proof.
  induction r as [|x r IH]; intros [|x' r'] o os y y' L; try discriminate L; cbn [t_scale_inner]; (eapply rel_bind; [apply rel_emit|]; intros ? ? _); [apply rel_ret; exact I|].
  destruct o as [|o1 o]; [split; [reflexivity|exact I]|]. destruct os as [|os1 os]; [split; [reflexivity|exact I]|].
  eapply rel_bind; [apply r_lazy_mul_shoup|]. intros ? ? _. eapply rel_bind; [apply rel_wd|]. intros ? ? _. apply IH. injection L; auto.
Qed.
Lemma r_getu_same {A} t (l : list A) i : rel eq (t_getu t l i) (t_getu t l i).
Proof. apply rel_refl. reflexivity. Qed.
Lemma r_out s r r' v v' ws ws' i : length r = length r' -> fst ws = fst ws' -> rel any (t_scale_out s r v ws i) (t_scale_out s r' v' ws' i).
Proof.
  intros L W. unfold t_scale_out. rewrite W. do 5 (eapply rel_bind; [apply r_getu_same|intros ? ? <-]). eapply rel_bind; [apply rel_wd|]. intros ? ? _. eapply rel_bind; [apply r_reduce_u128|]. intros ? ? _.
  eapply rel_bind; [apply r_lazy_mul_shoup|]. intros ? ? _. eapply rel_bind; [apply rel_wd|]. intros ? ? _.
  eapply rel_bind; [apply (rel_if any); [apply rel_ret; exact I|]|].
  { eapply rel_bind; [apply r_lazy_reduce_u128|]. intros ? ? _. eapply rel_bind; [apply (rel_if any); [apply rel_wd|apply rel_ret; exact I]|]. intros ? ? _. apply rel_wd. }
  intros ? ? _. eapply rel_bind; [apply r_inner, L|]. intros ? ? _. eapply rel_bind; [apply r_reduce_u128|]. intros ? ? _. eapply rel_bind; [apply rel_emit|]. intros ? ? _. apply rel_ret. exact I.
Qed.
Lemma sign_sgo s r v : snd (t_scale_v s r) = Ok v -> sign_of s r = sgo (snd (t_scale_w s r v)).
Proof. intros H. unfold sign_of. rewrite <- v_scale_v, H. cbn [bind]. rewrite <- v_scale_w. reflexivity. Qed.
Lemma r_rns_scale s r r' n k : length r = length r' -> sign_of s r = sign_of s r' -> rel (Forall2 any) (t_rns_scale s r n k) (t_rns_scale s r' n k).
Proof.
  intros L H. unfold t_rns_scale. eapply rel_bind; [apply rel_with, (r_scale_v s r r' L)|]. intros v v' [_ [Ev Ev']]. rewrite (sign_sgo _ _ _ Ev), (sign_sgo _ _ _ Ev') in H.
  eapply rel_bind; [apply r_w; [exact L|exact H]|]. intros ws ws' W. apply (r_each eq any); [|apply F2_eq]. intros i ? <-. apply r_out; assumption.
Qed.
Lemma rns_scale_reveals s r r' n k : length r = length r' -> fst (t_rns_scale s r n k) = fst (t_rns_scale s r' n k) -> sign_of s r = sign_of s r'.
Proof.
  intros L. destruct (r_scale_v s r r' L) as [H1 H2]. unfold t_rns_scale. unfold rbind at 1 3.
  destruct (t_scale_v s r) as [E o] eqn:Ea, (t_scale_v s r') as [E' o'] eqn:Eb. cbn [fst snd] in *. subst E'.
  destruct o as [v| | |], o' as [v'| | |]; try contradiction; try (intros _; unfold sign_of; rewrite <- !v_scale_v, Ea, Eb; reflexivity).
  rewrite (sign_sgo s r v), (sign_sgo s r' v') by (rewrite ?Ea, ?Eb; reflexivity). cbn [fst]. intros H. apply app_inv_head in H.
  assert (G : forall (A B : Type) (x : run A) (f : A -> run B), exists T, fst (rbind x f) = fst x ++ T).
  { intros A B x f. unfold rbind. destruct (snd x); [eexists; reflexivity|exists []; cbn [fst]; rewrite app_nil_r; reflexivity..]. }
  destruct (G _ _ (t_scale_w s r v) (fun ws => t_each (fun i => t_scale_out s r v ws (k + i)) (seq 0 n))) as [T ET].
  destruct (G _ _ (t_scale_w s r' v') (fun ws => t_each (fun i => t_scale_out s r' v' ws (k + i)) (seq 0 n))) as [T' ET'].
  rewrite ET, ET' in H. exact (w_reveals _ _ _ _ _ _ _ L H).
Qed.
Lemma r_column a b j : same_rows a b -> rel (fun c d => c = map (fun row => nth j row 0) a /\ d = map (fun row => nth j row 0) b) (t_column a j) (t_column b j).
Proof.
  intros H. split; [reflexivity|]. cbn [t_column snd]. unfold column. induction H as [|x y a b Hx H IH]; [split; reflexivity|]. cbn [mapM map].
  change (get x j) with (match nth_error x j with Some v => Ok v | None => Panic end). change (get y j) with (match nth_error y j with Some v => Ok v | None => Panic end). destruct (nth_error x j) as [u|] eqn:Eu, (nth_error y j) as [w|] eqn:Ew; cbn [bind]; auto.
  - revert IH. destruct (mapM (fun row => get row j) a), (mapM (fun row => get row j) b); cbn [bind]; intros IH; try contradiction; try exact I. destruct IH as [-> ->]. rewrite (nth_error_nth _ _ _ Eu), (nth_error_nth _ _ _ Ew). auto.
  - apply nth_error_None in Ew. assert (j < length x)%nat by (apply nth_error_Some; congruence). lia.
  - apply nth_error_None in Eu. assert (j < length y)%nat by (apply nth_error_Some; congruence). lia.
Qed.
Lemma F2_len {A B} (R : A -> B -> Prop) a b : Forall2 R a b -> length a = length b.
Proof. induction 1; cbn [length]; congruence. Qed.
Lemma F2_seq n : Forall2 (fun i j => i = j /\ (i < n)%nat) (seq 0 n) (seq 0 n).
Proof.
  assert (G : forall l, (forall i, In i l -> (i < n)%nat) -> Forall2 (fun i j => i = j /\ (i < n)%nat) l l). { induction l as [|x l IH]; intros H; constructor; [split; [reflexivity|apply H; left; reflexivity]|apply IH; intros i Hi; apply H; right; exact Hi]. }
  apply G. intros i Hi. apply in_seq in Hi. lia.
Qed.
Lemma F2_firstn {A} (R : A -> A -> Prop) a b k : Forall2 R a b -> Forall2 R (firstn k a) (firstn k b).
Proof. intros H. revert k. induction H; intros [|k]; cbn [firstn]; constructor; auto. Qed.
Lemma r_pb s p q : alike p q -> same_signs s p q -> rel alike (t_rq_scale_pb s p) (t_rq_scale_pb s q).
Proof.
  intros A HS. pose proof A as [C [E H]]. unfold t_rq_scale_pb. cbv zeta. eapply rel_bind; [apply r_assert|]. intros ? ? _.
  eapply rel_bind with (R := same_rows).
  - unfold rel, slice_to. cbn [fst snd]. rewrite (F2_len _ _ _ H). split; [reflexivity|]. destruct (_ <=? _)%nat; [apply F2_firstn, H|exact I].
  - intros top top' HT. eapply rel_bind with (R := same_rows).
    + apply rel_if; [|apply rel_ret, same_refl]. eapply rel_bind.
      * apply (r_each (fun i j => i = j /\ (i < rq_degree (sc_to s))%nat) (Forall2 (@any Z Z))); [|apply F2_seq]. intros j ? [<- Hj]. eapply rel_bind; [apply r_column, H|]. intros c d [-> ->].
        apply r_rns_scale; [rewrite !map_length; apply (F2_len _ _ _ H)|apply (HS j Hj)].
      * intros outs outs' HO. apply rel_ret. unfold same_rows. induction (seq 0 (length (rq_moduli (sc_to s)) - sc_common s)) as [|i l IH]; constructor; [rewrite !map_length; apply (F2_len _ _ _ HO)|exact IH].
    + intros bo bo' HB. apply rel_ret. repeat split. cbn [p_rows]. apply Forall2_app; assumption.
Qed.
Lemma r_rq_scale s p q : alike p q -> p_repr p = PowerBasis -> same_signs s p q -> rel alike (t_rq_scale s p) (t_rq_scale s q).
Proof.
  intros A EP HS. pose proof A as [C [E H]]. unfold t_rq_scale. rewrite <- C, <- E, EP. eapply rel_bind; [apply r_assert|]. intros ? ? _. eapply rel_bind; [apply rel_emit|]. intros ? ? _. apply r_pb; assumption.
Qed.
Lemma change_repr_repr p t q : snd (t_change_repr p t) = Ok q -> p_repr q = t.
Proof.
  unfold t_change_repr. rewrite snd_bind. cbn [emit snd bind]. destruct (p_repr p) eqn:Ep, t; cbn [ret snd]; intros H; try discriminate H; try (injection H as <-; exact Ep);
    rewrite snd_bind in H; apply bind_inv in H; destruct H as [r [_ H]]; injection H as <-; reflexivity.
Qed.
Lemma phase_repr sk ct p : snd (t_decrypt_phase sk ct) = Ok p -> p_repr p = PowerBasis.
Proof.
  unfold t_decrypt_phase. rewrite snd_bind. intros H. apply bind_inv in H. destruct H as [c0 [_ H]]. rewrite snd_bind in H. apply bind_inv in H. destruct H as [s [_ H]]. rewrite snd_bind in H. apply bind_inv in H. destruct H as [[m x] [_ H]].
  eapply change_repr_repr, H.
Qed.
Lemma r_decrypt sk sk' c c' : keys_alike sk sk' -> ct_level c = ct_level c' -> Forall2 alike (ct_cts c) (ct_cts c') ->
  (forall sc p p', get (bp_scalars (sk_params sk)) (ct_level c) = Ok sc -> snd (t_decrypt_phase sk c) = Ok p -> snd (t_decrypt_phase sk' c') = Ok p' -> same_signs sc p p') ->
  rel any (t_decrypt sk c) (t_decrypt sk' c').
Proof.
  intros K LV H HS. pose proof K as [K1 K2]. unfold t_decrypt. cbv zeta. rewrite <- K1, <- LV. eapply rel_bind; [apply rel_with, r_dphase; [exact K|exact H]|]. intros m m' [Hm [Em Em']].
  eapply rel_bind; [apply rel_with, r_get_same|]. intros sc ? [<- [Es _]]. cbn [t_get snd] in Es. eapply rel_bind; [apply r_rq_scale; [exact Hm|apply (phase_repr _ _ _ Em)|apply HS; assumption]|]. intros m2 m2' [_ [_ H2]].
  eapply rel_bind; [apply (r_get (fun x y : list Z => length x = length y)), H2|]. intros row row' Hr. eapply rel_bind; [apply r_map; [intros; apply rel_wd|exact Hr]|]. intros v1 v1' H1.
  eapply rel_bind with (R := samelen).
  { unfold rel, slice_to. cbn [fst snd]. unfold samelen in *. rewrite H1. split; [reflexivity|]. destruct (_ <=? _)%nat; [rewrite !firstn_length; congruence|exact I]. }
  intros v2 v2' Hv2. do 2 (eapply rel_bind; [apply r_get_same|intros ? ? <-]). eapply rel_bind; [apply r_map; [intros; apply r_reduce|exact Hv2]|]. intros v3 v3' H3.
  eapply rel_bind; [apply (rel_refl eq); reflexivity|]. intros tm ? <-. eapply rel_bind; [apply r_map; [intros; apply r_reduce|exact H3]|]. intros. apply rel_ret. exact I.
Qed.

(** Recording the steps of a Release build changes no result. *)
Lemma C96_values_lem : forall (s : RnsScaler) (q : RqScaler) (p : Poly) (rests : list Z) (n k : nat) (sk : SecretKey) (ct : Ct),
  snd (t_rns_scale s rests n k) = rns_scale Release s rests n k /\
  snd (t_rq_scale q p) = rq_scale Release q p /\
  snd (t_decrypt sk ct) = decrypt Release sk ct.
Proof. intros. split; [apply v_rns_scale|]. split; [apply v_rq_scale|apply v_decrypt]. Qed.

(** Scaling the residues of a coefficient gives away the sign of the correction, and nothing else. *)
Lemma C96_scale_lem : forall (s : RnsScaler) (rests rests' : list Z) (n k : nat),
  length rests = length rests' ->
  (looks_same (t_rns_scale s rests n k) (t_rns_scale s rests' n k) <-> sign_of s rests = sign_of s rests').
Proof.
  intros s r r' n k L. split; [intros [H _]; exact (rns_scale_reveals _ _ _ _ _ L H)|]. intros H. eapply rel_looks, r_rns_scale; assumption.
Qed.

(** With factor one there is no correction: nothing is given away. *)
Lemma C96_switch_lem : forall (s : RnsScaler) (rests rests' : list Z) (n k : nat),
  sf_is_one (rs_factor s) = true -> length rests = length rests' ->
  looks_same (t_rns_scale s rests n k) (t_rns_scale s rests' n k).
Proof.
  intros s r r' n k F L. apply C96_scale_lem; [exact L|]. unfold sign_of, scale_w. rewrite F. destruct (scale_v Release s r), (scale_v Release s r'); reflexivity.
Qed.

(** Polynomials of one shape are scaled by the same steps if the signs agree coefficient by coefficient. *)
Lemma C96_poly_lem : forall (s : RqScaler) (p q : Poly),
  alike p q -> p_repr p = PowerBasis -> same_signs s p q -> looks_same (t_rq_scale s p) (t_rq_scale s q).
Proof. intros. eapply rel_looks, r_rq_scale; assumption. Qed.

(** Decryption gives away no more than the signs of the corrections of the phase. *)
Lemma C96_decrypt_lem : forall (sk sk' : SecretKey) (ct ct' : Ct),
  keys_alike sk sk' -> ct_level ct = ct_level ct' -> Forall2 alike (ct_cts ct) (ct_cts ct') ->
  (forall sc p p', get (bp_scalars (sk_params sk)) (ct_level ct) = Ok sc ->
     snd (t_decrypt_phase sk ct) = Ok p -> snd (t_decrypt_phase sk' ct') = Ok p' -> same_signs sc p p') ->
  looks_same (t_decrypt sk ct) (t_decrypt sk' ct').
Proof. intros. eapply rel_looks, r_decrypt; assumption. Qed.

(*EXAMPLE
(** Decrypting two ciphertexts with one key: the right messages come out, the
    signs of the corrections are those of the rounding errors (they vary among
    the coefficients that are 0), and the decisions taken differ. *)
Example C96_example :
  (P <- test_bfv Release ;;
   let sk := mkSk P [1; -1; 0; 1; 1; 0; 2; -1] in
   pa <- pt_new Release P [2; 3; 0; 0; 0; 0; 0; 0] 0 EncPoly ;; pb <- pt_new Release P [9; 16; 1; 4; 0; 5; 0; 12] 0 EncPoly ;;
   a <- encrypt Release sk pa (trows bms 4) (tw 5) ;; b <- encrypt Release sk pb (trows bms 6) (tw 7) ;;
   sc <- get (bp_scalars P) 0 ;;
   p <- snd (t_decrypt_phase sk a) ;; q <- snd (t_decrypt_phase sk b) ;;
   let x := t_decrypt sk a in let y := t_decrypt sk b in
   u <- snd x ;; v <- snd y ;;
   let taken t := Z.of_nat (length (filter (fun e => match e with EBranch true => true | _ => false end) t)) in
   Ok (map (fun j => sign_of (sc_rns sc) (residues p j)) (seq 0 8), map (fun j => sign_of (sc_rns sc) (residues q j)) (seq 0 8),
       pt_values u, pt_values v, taken (fst x), taken (fst y)))
  = Ok ([false; true; false; false; false; false; true; true], [true; false; true; false; false; true; true; false],
        [2; 3; 0; 0; 0; 0; 0; 0], [9; 16; 1; 4; 0; 5; 0; 12], 301, 303).
Proof. vm_compute. reflexivity. Qed.
EXAMPLE*)
