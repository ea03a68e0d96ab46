(** BFV parameters: what a constructed parameter set contains. *)
From Verif Require Import PBase NT Spec PSum MModulus MUtils MNtt MRns MRq MBfv PModulus PNttMath PNtt PNttNew PCrt PRns PRnsScale PUtils2 SpecRq SpecBfv PRing PRq PRq2 PRq4 PRq5.

Record wf_level (P : BfvParams) (i : nat) (c : RqContext) : Prop := {
  lv_wf : wf_ctx c;
  lv_ms : rq_moduli_64 c = firstn (length (bp_moduli P) - i) (bp_moduli P);
  lv_n : rq_degree c = bp_degree P;
  lv_bd : rq_bd c = rq_bd (bp_pt_ctx P);
  lv_ctx : get (bp_q_ctxs P) i = Ok c;
  lv_qm : get (bp_q_mod_ts P) i = Ok (cx_Q c mod bp_t P);
  lv_delta : exists d, get (bp_delta_ts P) i = Ok (rep c Ntt (fun j => nth j [d] 0)) /\ eqm (cx_Q c) (d * bp_t P) (-1);
  lv_sc : exists s, get (bp_scalars P) i = Ok s /\ sc_from s = c
            /\ (small_basis (rq_moduli_64 c) -> forall pr, good_scaler pr 68 s c (bp_pt_ctx P) (bp_t P) (cx_Q c));
  lv_mu : exists mu e ext, get (bp_mul_params P) i = Ok mu /\ get (bp_e_ctxs P) i = Ok e
            /\ mu_from mu = c /\ mu_to mu = e /\ wf_ctx e /\ rq_moduli_64 e = rq_moduli_64 c ++ ext
            /\ rq_degree e = bp_degree P /\ sc_from (mu_up mu) = c
            /\ (small_basis (rq_moduli_64 c) -> forall pr, good_scaler pr 68 (mu_up mu) c e 1 1)
            /\ (small_basis (rq_moduli_64 e) -> forall pr, good_scaler pr 68 (mu_down mu) e c (bp_t P) (cx_Q c)) }.

Record wf_bfv (P : BfvParams) : Prop := {
  wb_k : (1 <= length (bp_moduli P))%nat;
  wb_t : prime (bp_t P) /\ 2 <= bp_t P < 2 ^ 62 /\ (2 * Z.of_nat (bp_degree P) | bp_t P - 1);
  wb_tq : forall q, In q (bp_moduli P) -> bp_t P < q;
  wb_ptwf : wf_ctx (bp_pt_ctx P);
  wb_ptms : rq_moduli_64 (bp_pt_ctx P) = firstn 1 (bp_moduli P);
  wb_ptn : rq_degree (bp_pt_ctx P) = bp_degree P;
  wb_lq : length (bp_q_ctxs P) = length (bp_moduli P);
  wb_lv : forall i, (i < length (bp_moduli P))%nat -> exists c, wf_level P i c;
  wb_map : index_map (bp_degree P) = Ok (bp_index_map P);
  wb_ntt : exists op L psi, bp_pt_ntt P = Some op /\ bp_degree P = (2 ^ L)%nat /\ mp (nt_p op) = bp_t P /\ wf_ntt op L psi }.

Lemma good_scaler_pr pr pr' L s from to N D : good_scaler pr L s from to N D -> good_scaler pr' L s from to N D.
Proof. intros []. constructor; auto. Qed.

Lemma sf_new_ok N D : 1 <= D -> sf_new N D = Ok (mkSF N D (N =? D)).
Proof. intros H. unfold sf_new. rewrite rassert_true by (apply negb_true_iff, Z.eqb_neq; lia). reflexivity. Qed.
Lemma rns_product_Q c : wf_loc c -> rns_product (rq_rns c) = cx_Q c.
Proof. intros W. apply (wr_prod _ _ (wl_rns _ W)). Qed.
Lemma scaler_good pr from to N D sf s : wf_loc from -> wf_loc to -> rq_degree from = rq_degree to ->
  0 <= N -> 1 <= D -> sf_new N D = Ok sf -> rq_scaler_new pr from to sf = Ok s ->
  (N = D -> forall i, (i < count_common (rq_moduli_64 from) (rq_moduli_64 to))%nat -> cx_q from i = cx_q to i) ->
  (D | N * cx_Q from) ->
  sc_from s = from /\ (small_basis (rq_moduli_64 from) -> forall pr', good_scaler pr' 68 s from to N D).
Proof.
  intros Wf Wt Ed HN HD Es E Hp HDv. split.
  - unfold rq_scaler_new in E. binv E. binv E. apply Ok_inj in E. subst s. reflexivity.
  - intros SB pr'. destruct (rq_scaler_new_ok pr 68 from to N D sf Wf Wt Ed HN HD Es ltac:(split; [lia|split; [exact SB|right; exact HDv]]) Hp) as [s' [E' G]].
    rewrite E' in E. apply Ok_inj in E. subst s'. eapply good_scaler_pr; eauto.
Qed.

Lemma firstn_nth {A} (l : list A) k i d : (i < k)%nat -> nth i (firstn k l) d = nth i l d.
Proof.
  revert l i; induction k as [|k IH]; intros l i H; [lia|]. destruct l; [reflexivity|]. cbn [firstn].
  destruct i; [reflexivity|]. cbn [nth]. apply IH. lia.
Qed.
Lemma firstn_in {A} (l : list A) k x : In x (firstn k l) -> In x l.
Proof. intros H. rewrite <- (firstn_skipn k l). apply in_or_app. auto. Qed.
Lemma lift_sum_firstn a b acc : lift_sum (firstn (length b) a) b acc = lift_sum a b acc.
Proof.
  revert b acc; induction a as [|x a IH]; intros b acc; [rewrite firstn_nil; reflexivity|].
  destruct b as [|y b]; [reflexivity|]. cbn [length firstn lift_sum]. apply IH.
Qed.

Section Inv.
Variables (pr : profile) (env : Env) (ext : list Z) (n : nat) (t : Z) (ms : list Z) (variance : Z) (bd : BitDecomp).
Hypothesis EH : env_ok env.
Hypothesis H0 : Forall (fun q => 0 <= q) ms.
Hypothesis Hext : Forall (fun q => 0 <= q) ext.
Hypothesis Ht0 : 0 <= t.
Hypothesis Htq : forall q, In q ms -> t < q.

Lemma level_params_inv t_invs pt_ctx i r :
  mapM (fun q => m <- modulus_new q ;; nt <- mneg pr m t ;; minv pr m nt) ms = Ok t_invs ->
  1 <= t -> (i < length ms)%nat ->
  wf_ctx pt_ctx -> rq_moduli_64 pt_ctx = firstn 1 ms -> rq_degree pt_ctx = n ->
  level_params pr env n t ms ext t_invs bd pt_ctx i = Ok r ->
  exists c qm dl s e mu, r = (c, qm, dl, s, e, mu) /\
    wf_ctx c /\ rq_moduli_64 c = firstn (length ms - i) ms /\ rq_degree c = n /\ rq_bd c = bd /\
    qm = cx_Q c mod t /\ (exists d, dl = rep c Ntt (fun j => nth j [d] 0) /\ eqm (cx_Q c) (d * t) (-1)) /\
    sc_from s = c /\ (small_basis (rq_moduli_64 c) -> forall pr, good_scaler pr 68 s c pt_ctx t (cx_Q c)) /\
    exists ext', mu_from mu = c /\ mu_to mu = e /\ wf_ctx e /\ rq_moduli_64 e = rq_moduli_64 c ++ ext'
            /\ rq_degree e = n /\ sc_from (mu_up mu) = c
            /\ (small_basis (rq_moduli_64 c) -> forall pr, good_scaler pr 68 (mu_up mu) c e 1 1)
            /\ (small_basis (rq_moduli_64 e) -> forall pr, good_scaler pr 68 (mu_down mu) e c t (cx_Q c)).
Proof.
  intros ET Ht1 Hi Wpt Mpt Dpt E. unfold level_params in E.
  binv E. rename v into c, E0 into EC. binv E. rename v into qm0, E0 into EQ. binv E. rename v into qm, E0 into EQ2.
  binv E. rename v into d, E0 into ED. binv E. rename v into dp, E0 into EDP. binv E. rename v into dl, E0 into EDL.
  binv E. rename v into sf, E0 into ESF. binv E. rename v into sc, E0 into ESC. binv E. rename v into cnt, E0 into ECN.
  binv E. rename v into e', E0 into EE'. binv E. rename v into e, E0 into EE. binv E. rename v into up, E0 into EUP.
  binv E. rename v into down, E0 into EDN. binv E. rename v into mu, E0 into EMU. apply Ok_inj in E.
  assert (HF : Forall (fun q => 0 <= q) (firstn (length ms - i) ms)).
  { apply Forall_forall. intros q Hq. rewrite Forall_forall in H0. apply H0. eapply firstn_in; eauto. }
  destruct (rq_new_inv pr env EH _ _ _ _ HF EC) as [Wc [Mc [Dc Bc]]]. pose proof (wf_ctx_loc _ Wc) as W.
  assert (HF' : Forall (fun q => 0 <= q) (firstn (length ms - i) ms ++ e')).
  { apply Forall_app. split; auto. unfold slice_to in EE'. destruct (Z.to_nat cnt <=? length ext)%nat; [|discriminate].
    apply Ok_inj in EE'. subst e'. apply Forall_forall. intros q Hq. rewrite Forall_forall in Hext. apply Hext. eapply firstn_in; eauto. }
  destruct (rq_new_inv pr env EH _ _ _ _ HF' EE) as [We [Me [De Be]]].
  pose proof (rns_product_Q c W) as RQ. pose proof (cx_Q1 c W) as HQ1.
  assert (Lms : length (firstn (length ms - i) ms) = (length ms - i)%nat) by (rewrite firstn_length; lia).
  exists c, qm, dl, sc, e, mu. split; [congruence|]. split; auto. split; auto. split; auto. split; auto. split.
  { rewrite umod_ok in EQ by lia. apply Ok_inj in EQ. rewrite <- EQ, RQ in EQ2.
    unfold to_u64 in EQ2. destruct ((0 <=? _) && _); [|discriminate]. cbn [unwrap] in EQ2. apply Ok_inj in EQ2. auto. }
  assert (Kc : cx_k c = (length ms - i)%nat) by (unfold cx_k; rewrite Mc; auto).
  assert (Qc : forall j, (j < cx_k c)%nat -> cx_q c j = nth j ms 1) by (intros j Hj; unfold cx_q; rewrite Mc; apply firstn_nth; lia).
  pose proof (mapM_length _ _ _ ET) as Lt.
  assert (TI : forall j, (j < cx_k c)%nat -> eqm (cx_q c j) (nth j t_invs 0 * t) (-1)).
  { intros j Hj. apply mapM_forall2 in ET. pose proof (forall2_nth _ _ _ 1 0 j ET ltac:(lia)) as EJ. cbn beta in EJ.
    binv EJ. rename v into m, E0 into EM. binv EJ. rename v into nt, E0 into ENT.
    assert (Hq0 : 0 <= nth j ms 1) by (rewrite Forall_forall in H0; apply H0, nth_In; lia).
    destruct (modulus_new_valid _ _ Hq0 EM) as [V Em]. pose proof (Htq (nth j ms 1) ltac:(apply nth_In; lia)) as Hlt.
    rewrite <- Em in Hlt. rewrite mneg_ok in ENT by (auto; lia). apply Ok_inj in ENT. subst nt.
    assert (Em2 : (- t) mod mp m = mp m - t) by (symmetry; apply Z.mod_unique with (-1); lia).
    assert (PR : prime (mp m)) by (rewrite Em, <- Qc by auto; apply (cx_prime c W); auto).
    rewrite Em2 in EJ. destruct (minv_correct pr m (mp m - t) V PR ltac:(lia)) as [x [Ex [_ Cx]]].
    rewrite Ex in EJ. apply Ok_inj in EJ. rewrite <- EJ, Qc by auto. rewrite <- Em.
    apply eqm_divide in Cx; [|lia]. apply eqm_divide; [lia|]. destruct Cx as [z Hz]. exists (x - z). lia. }
  assert (DD : eqm (cx_Q c) (d * t) (-1)).
  { pose proof (wl_rns _ W) as WR. rewrite Mc in WR.
    assert (ED' : rns_lift (rq_rns c) (firstn (cx_k c) t_invs) = Ok d).
    { rewrite <- ED. unfold rns_lift. f_equal. replace (cx_k c) with (length (rns_garner (rq_rns c))); [apply lift_sum_firstn|].
      pose proof (wr_gl _ _ WR). lia. }
    destruct (lift_spec (rq_rns c) (rq_moduli_64 c) (wl_rns _ W) (firstn (cx_k c) t_invs)) as [x [Ex [_ Cx]]].
    { rewrite firstn_length. unfold cx_k in *. lia. }
    rewrite Ex in ED'. apply Ok_inj in ED'. subst x. apply (cx_crt c W). intros j Hj.
    specialize (Cx j Hj). rewrite firstn_nth in Cx by auto. rewrite <- (TI j Hj). apply eqm_mul; [exact Cx|reflexivity]. }
  split.
  { exists d. split; auto. rewrite rep_from_big in EDP by (auto; cbn [length]; pose proof (cx_n8 c W); lia).
    apply Ok_inj in EDP. subst dp. rewrite change_fwd in EDL by auto. apply Ok_inj in EDL. auto. }
  rewrite RQ in ESF, EDN.
  destruct (scaler_good pr c pt_ctx t (cx_Q c) sf sc W (wf_ctx_loc _ Wpt) ltac:(congruence) ltac:(lia) ltac:(lia) ESF ESC) as [S1 S2].
  { intros _ j Hj. pose proof (count_common_le (rq_moduli_64 c) (rq_moduli_64 pt_ctx)) as [C1 C2].
    unfold cx_q. rewrite Mc, Mpt. assert (j < 1)%nat by (rewrite Mpt in *; rewrite firstn_length in C2; lia).
    rewrite !firstn_nth by lia. reflexivity. }
  { exists t. reflexivity. }
  split; auto. split; auto. exists e'. unfold mul_params_new in EMU. binv EMU. rename v into u, E0 into EU.
  binv EMU. rename v into dn, E0 into EDO. apply Ok_inj in EMU. subst mu. cbn [mu_from mu_to mu_up mu_down].
  pose proof (wf_ctx_loc _ We) as We'.
  destruct (scaler_good pr c e 1 1 up u W We' ltac:(congruence) ltac:(lia) ltac:(lia) EUP EU) as [U1 U2].
  { intros _ j Hj. unfold cx_q. rewrite Me, Mc. rewrite Me, Mc in Hj.
    pose proof (count_common_le (firstn (length ms - i) ms) (firstn (length ms - i) ms ++ e')) as [C1 C2].
    rewrite app_nth1 by lia. reflexivity. }
  { apply Z.divide_1_l. }
  destruct (scaler_good pr e c t (cx_Q c) down dn We' W ltac:(congruence) ltac:(lia) ltac:(lia) EDN EDO) as [D1 D2].
  { intros _ j Hj. unfold cx_q. rewrite Me, Mc. rewrite Me, Mc in Hj.
    pose proof (count_common_le (firstn (length ms - i) ms ++ e') (firstn (length ms - i) ms)) as [C1 C2].
    rewrite app_nth1 by lia. reflexivity. }
  { unfold cx_Q. rewrite Me, Mc, zprod_app. exists (t * zprod e'). ring. }
  split; [reflexivity|]. split; [reflexivity|]. split; [exact We|]. split; [congruence|]. split; [auto|]. split; [auto|]. split; auto.
Qed.

Lemma bfv_new_from_inv P : bfv_new_from pr env ext n t ms variance bd = Ok P -> wf_bfv P /\ bp_degree P = n /\ bp_t P = t
  /\ bp_moduli P = ms /\ bp_variance P = variance /\ rq_bd (bp_pt_ctx P) = bd.
Proof.
  intros E. unfold bfv_new_from in E. binv E. rename v into t_invs, E0 into ET. binv E. rename v into q0, E0 into EQ0.
  binv E. rename v into pt_ctx, E0 into EPT. binv E. rename v into lvls, E0 into EL. binv E. rename v into map_, E0 into EM.
  binv E. rename v into tm, E0 into ETM. binv E. rename v into op, E0 into EN. apply Ok_inj in E.
  pose proof (get_inv_lt _ _ _ EQ0) as Hk. assert (E0 : firstn 1 ms = [q0]).
  { destruct ms as [|a l]; [simpl in Hk; lia|]. cbn in EQ0. apply Ok_inj in EQ0. subst. reflexivity. }
  assert (HQ0 : Forall (fun q => 0 <= q) [q0]).
  { rewrite <- E0. apply Forall_forall. intros q Hq. rewrite Forall_forall in H0. apply H0. eapply firstn_in; eauto. }
  destruct (rq_new_inv pr env EH _ _ _ _ HQ0 EPT) as [Wpt [Mpt [Dpt Bpt]]].
  destruct (modulus_new_valid t tm Ht0 ETM) as [Vt Emt]. pose proof (valid_range tm Vt) as Rt.
  assert (Hd : forall k, 0 <= draw env (mp tm) k < mp tm) by (intros; apply (proj2 EH); lia).
  destruct (ntt_new_inv pr env tm n op Vt (proj1 EH) Hd EN) as [L [psi [En [Ep [Wn [Dv [Pt _]]]]]]].
  assert (LV : forall i, (i < length ms)%nat -> exists r, get lvls i = Ok r /\ level_params pr env n t ms ext t_invs bd pt_ctx i = Ok r).
  { intros i Hi. pose proof (mapM_length _ _ _ EL) as LL. rewrite seq_length in LL. apply mapM_forall2 in EL.
    destruct (nth_error lvls i) as [r|] eqn:ER; [|apply nth_error_None in ER; lia].
    exists r. split; [unfold get; rewrite ER; auto|].
    pose proof (forall2_nth _ _ _ 0%nat r i EL ltac:(rewrite seq_length; lia)) as X. rewrite seq_nth in X by lia.
    rewrite (nth_error_nth _ _ _ ER) in X. exact X. }
  rewrite <- E. cbn [bp_degree bp_t bp_moduli bp_variance bp_pt_ctx]. split; [|auto 10].
  constructor; cbn [bp_degree bp_t bp_pt_ctx bp_moduli bp_pt_ntt bp_q_ctxs bp_e_ctxs bp_mul_params bp_delta_ts bp_q_mod_ts bp_scalars bp_index_map bp_variance]; auto.
  - rewrite <- Emt. split; auto.
  - congruence.
  - rewrite map_length. pose proof (mapM_length _ _ _ EL) as LL. rewrite seq_length in LL. auto.
  - intros i Hi. destruct (LV i Hi) as [r [GR ER]].
    destruct (level_params_inv t_invs pt_ctx i r ET ltac:(lia) Hi Wpt ltac:(congruence) Dpt ER)
      as [c [qm [dl [s [e [mu [Er [Wc [Mc [Dc [Bc [Qm [[d [Ed Cd]] [Sf [Sg [ext' [M1 [M2 [We [Me [De [Mu1 [Mu2 Mu3]]]]]]]]]]]]]]]]]]]]]]].
    apply get_inv in GR. subst r.
    exists c. constructor; cbn [bp_degree bp_t bp_pt_ctx bp_moduli bp_pt_ntt bp_q_ctxs bp_e_ctxs bp_mul_params bp_delta_ts bp_q_mod_ts bp_scalars bp_index_map bp_variance]; auto; try congruence.
    + unfold get. erewrite map_nth_error by exact GR. reflexivity.
    + unfold get. erewrite map_nth_error by exact GR. rewrite Qm. reflexivity.
    + exists d. split; auto. unfold get. erewrite map_nth_error by exact GR. rewrite Ed. reflexivity.
    + exists s. split; auto. unfold get. erewrite map_nth_error by exact GR. reflexivity.
    + exists mu, e, ext'. split; [unfold get; erewrite map_nth_error by exact GR; reflexivity|].
      split; [unfold get; erewrite map_nth_error by exact GR; reflexivity|]. auto 10.
  - exists op, L, psi. rewrite Ep. auto.
Qed.
End Inv.

Lemma built_params_wf P : built_params P -> wf_bfv P.
Proof.
  intros [pr [env [ext [n [t [ms [v [bd [EH [H0 [Hx [Ht [Hq E]]]]]]]]]]]]].
  apply (bfv_new_from_inv pr env ext n t ms v bd EH H0 Hx Ht Hq P E).
Qed.
Lemma level_wf P i c : wf_bfv P -> level P i c -> (i < length (bp_moduli P))%nat /\ wf_level P i c.
Proof.
  intros W H. unfold level in H. assert (Hi := get_inv_lt _ _ _ H). rewrite (wb_lq _ W) in Hi. split; auto.
  destruct (wb_lv _ W i Hi) as [c' L]. assert (E := lv_ctx _ _ _ L). rewrite H in E. apply Ok_inj in E. subst. auto.
Qed.
