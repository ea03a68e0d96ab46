(** Scaling of polynomials between contexts. *)
From Verif Require Import PBase NT Spec PSum MModulus MUtils MNtt MRns MRq PModulus PNttMath PNtt PNttNew PCrt PRns PRnsScale PRnsScale2 PUtils2 SpecRq PRing PRq PRq2 PRq4.

Lemma count_common_le a b : (count_common a b <= length a)%nat /\ (count_common a b <= length b)%nat.
Proof.
  revert b; induction a as [|x a IH]; intros [|y b]; cbn [count_common length]; try lia.
  specialize (IH b). destruct (x =? y); lia.
Qed.
Lemma count_common_app a b : count_common a (a ++ b) = length a.
Proof. induction a as [|x a IH]; [destruct b; reflexivity|]. cbn [app count_common length]. rewrite Z.eqb_refl, IH. reflexivity. Qed.
Lemma filter_len_le (p : nat -> bool) (l : list nat) : (length (filter p l) <= length l)%nat.
Proof. induction l as [|i l IH]; [cbn; lia|]. cbn [filter]. destruct (p i); cbn [length]; lia. Qed.
Lemma filter_map_len (p : nat -> bool) (l : list nat) : length (filter p (map S l)) = length (filter (fun i => p (S i)) l).
Proof. induction l as [|i l IH]; [reflexivity|]. cbn [map filter]. destruct (p (S i)); cbn [length]; auto. Qed.
Lemma count_common_filter a : forall b,
  count_common a b = length (filter (fun i => nth i a 1 =? nth i b 1) (seq 0 (Nat.min (length a) (length b)))).
Proof.
  induction a as [|x a IH]; intros [|y b]; try reflexivity. cbn [count_common length Nat.min seq]. rewrite <- seq_shift, IH.
  set (p := fun i => nth i (x :: a) 1 =? nth i (y :: b) 1). cbn [filter]. change (p 0%nat) with (x =? y).
  destruct (x =? y); cbn [length]; rewrite filter_map_len; reflexivity.
Qed.
Lemma count_common_prefix a : forall b i,
  (forall i j, (i <= j)%nat -> (j < length a)%nat -> (j < length b)%nat -> nth j a 1 = nth j b 1 -> nth i a 1 = nth i b 1) ->
  (i < count_common a b)%nat -> nth i a 1 = nth i b 1.
Proof.
  induction a as [|x a IH]; intros [|y b] i H Hi; cbn [count_common] in Hi; try lia. destruct (Z.eqb_spec x y) as [E|E].
  - destruct i as [|i]; [exact E|]. apply (IH b i); [|lia]. intros i' j' H1 H2 H3 H4. apply (H (S i') (S j')); cbn [length nth]; auto; lia.
  - exfalso. assert (Hp : exists j, (j < length a)%nat /\ (j < length b)%nat /\ nth j a 1 = nth j b 1).
    { cbn [Nat.add] in Hi. clear - Hi. revert b i Hi. induction a as [|u a IH]; intros [|v b] i Hi; cbn [count_common] in Hi; try lia.
      destruct (Z.eqb_spec u v) as [E|E]; [exists 0%nat; cbn; repeat split; auto; lia|].
      destruct (IH b i Hi) as [j [J1 [J2 J3]]]. exists (S j). cbn [length nth]. repeat split; auto; lia. }
    destruct Hp as [j [J1 [J2 J3]]]. apply E. apply (H 0%nat (S j)); cbn [length nth]; auto; lia.
Qed.

Lemma seq_shift_add a k : map (fun i => (a + i)%nat) (seq 0 k) = seq a k.
Proof.
  apply nth_ext' with 0%nat; [rewrite len_seq, seq_length; auto|]. rewrite len_seq. intros i Hi.
  rewrite nth_map_seq, seq_nth by auto. reflexivity.
Qed.

Record good_scaler (pr : profile) (L : Z) (s : RqScaler) (from to : RqContext) (N D : Z) : Prop := {
  gs_from : sc_from s = from;
  gs_to : sc_to s = to;
  gs_wf : wf_scaler (sc_rns s) (rq_rns from) (rq_rns to) (rq_moduli_64 from) (rq_moduli_64 to) N D;
  gs_deg : rq_degree from = rq_degree to;
  gs_room : scale_room L N D (rq_moduli_64 from);
  gs_ck : (sc_common s <= cx_k from)%nat /\ (sc_common s <= cx_k to)%nat;
  gs_one : (0 < sc_common s)%nat -> N = D;
  gs_eq : forall i, (i < sc_common s)%nat -> cx_q from i = cx_q to i }.

Lemma rq_scaler_new_ok pr L from to N D sf : wf_loc from -> wf_loc to -> rq_degree from = rq_degree to ->
  0 <= N -> 1 <= D -> sf_new N D = Ok sf ->
  scale_room L N D (rq_moduli_64 from) ->
  (N = D -> forall i, (i < count_common (rq_moduli_64 from) (rq_moduli_64 to))%nat -> cx_q from i = cx_q to i) ->
  exists s, rq_scaler_new pr from to sf = Ok s /\ good_scaler pr L s from to N D.
Proof.
  intros Wf Wt Ed HN HD Es H65 Hp. unfold sf_new in Es.
  rewrite rassert_true in Es by (apply negb_true_iff, Z.eqb_neq; lia). cbn [bind] in Es. injection Es as <-.
  unfold rq_scaler_new. rewrite rassert_true by (apply Nat.eqb_eq; auto). cbn [bind sf_is_one].
  destruct (rns_scaler_new_ok pr (rq_rns from) (rq_rns to) (rq_moduli_64 from) (rq_moduli_64 to) (mkSF N D (N =? D)) N D) as [s [E W]];
    auto; try apply wl_rns; auto.
  { pose proof (wl_ne _ Wf) as H. unfold cx_k in H. destruct (rq_moduli_64 from); [simpl in H; lia|discriminate]. }
  { apply (rns_k_bound (rq_rns from)). apply (wl_rns _ Wf). }
  rewrite E. cbn [bind]. eexists. split; [reflexivity|].
  pose proof (count_common_le (rq_moduli_64 from) (rq_moduli_64 to)) as [C1 C2].
  constructor; cbn [sc_from sc_to sc_rns sc_common]; auto; destruct (Z.eqb_spec N D) as [EN|EN]; auto; try lia.
Qed.

(** Without the hypothesis that the common moduli form a prefix. *)
Definition agreeing (from to : RqContext) : nat :=
  length (filter (fun i => cx_q from i =? cx_q to i) (seq 0 (Nat.min (cx_k from) (cx_k to)))).
Section Any.
Variables (pr : profile) (L : Z) (from to : RqContext) (N D : Z).
Hypothesis Wf : wf_loc from.
Hypothesis Wt : wf_loc to.
Hypothesis Ed : rq_degree from = rq_degree to.
Hypothesis HN : 0 <= N.
Hypothesis HD : 1 <= D.
Hypothesis H65 : scale_room L N D (rq_moduli_64 from).
Lemma rq_scale_any f : exists s g, rq_scaler_new pr from to (mkSF N D (N =? D)) = Ok s
  /\ (forall j, (j < rq_degree from)%nat -> scaled_coeff L (cx_Q from) N D (f j) (g j))
  /\ let c := if N =? D then agreeing from to else 0%nat in
     rq_scale pr s (rep from PowerBasis f)
     = Ok (mkPoly to PowerBasis (map (fun i => map (fun j => if (i <? c)%nat then f j mod cx_q from i else g j mod cx_q to i) (seq 0 (rq_degree from)))
                                     (seq 0 (cx_k to)))).
Proof.
  unfold rq_scaler_new. rewrite rassert_true by (apply Nat.eqb_eq; auto). cbn [bind sf_is_one].
  destruct (rns_scaler_new_ok pr (rq_rns from) (rq_rns to) (rq_moduli_64 from) (rq_moduli_64 to) (mkSF N D (N =? D)) N D) as [s [E W]];
    auto; try apply wl_rns; auto.
  { pose proof (wl_ne _ Wf) as H. unfold cx_k in H. destruct (rq_moduli_64 from); [simpl in H; lia|discriminate]. }
  { apply (rns_k_bound (rq_rns from)). apply (wl_rns _ Wf). }
  rewrite E. cbn [bind]. rewrite count_common_filter. fold (cx_k from). fold (cx_k to).
  change (length (filter (fun i => nth i (rq_moduli_64 from) 1 =? nth i (rq_moduli_64 to) 1) (seq 0 (Nat.min (cx_k from) (cx_k to))))) with (agreeing from to).
  set (kc := if N =? D then agreeing from to else 0%nat).
  assert (CC : (kc <= cx_k from /\ kc <= cx_k to)%nat).
  { unfold kc, agreeing. destruct (N =? D); [|lia]. pose proof (filter_len_le (fun i => cx_q from i =? cx_q to i) (seq 0 (Nat.min (cx_k from) (cx_k to)))) as X.
    rewrite seq_length in X. lia. }
  destruct CC as [C1 C2].
  set (res := fun j => map (fun i => f j mod cx_q from i) (seq 0 (cx_k from))).
  assert (RR : forall j i, (i < length (rq_moduli_64 from))%nat -> 0 <= nth i (res j) 0 < nth i (rq_moduli_64 from) 1).
  { intros j i Hi. unfold res. rewrite nth_map_seq by auto. apply (Z.mod_pos_bound (f j) (cx_q from i)). pose proof (cx_range from Wf i Hi). lia. }
  assert (RL : forall j, length (res j) = length (rq_moduli_64 from)) by (intros; apply len_seq).
  set (g := fun j => yrep s (rq_rns from) (rq_moduli_64 from) N D (res j)).
  eexists. exists g. split; [reflexivity|]. split.
  { intros j Hj. exists (xrep s (rq_rns from) (rq_moduli_64 from) (res j)). split.
    { change (eqm (cx_Q from) (xrep s (rq_rns from) (rq_moduli_64 from) (res j)) (f j)).
      eapply xrep_eqm; [exact W| ..]; auto. intros i Hi. unfold res. rewrite nth_map_seq by auto. symmetry. apply eqm_mod. }
    split; [eapply xrep_bound; eauto|].
    assert (YB : 2 * N * xrep s (rq_rns from) (rq_moduli_64 from) (res j) - 2 * D * g j < D /\
      2 ^ (125 - L) * (2 * D * g j - 2 * N * xrep s (rq_rns from) (rq_moduli_64 from) (res j) - D) < D) by (eapply yrep_bound; eauto).
    destruct YB. split; auto. split; auto. intros EE. eapply yrep_one; eauto. }
  cbv zeta. unfold rq_scale. cbn [p_ctx p_repr rep sc_from]. rewrite ctx_eqb_refl. cbn [rassert bind]. fold (rep from PowerBasis f).
  unfold rq_scale_pb. cbn [sc_common sc_to sc_rns]. rewrite (cx_moduli_len to Wt). fold (cx_k to).
  rewrite rassert_true by (apply Nat.leb_le; auto). cbn [bind].
  unfold slice_to. rewrite rep_rows, len_seq.
  replace (kc <=? cx_k from)%nat with true by (symmetry; apply Nat.leb_le; auto). cbn [bind].
  rewrite (firstn_seq_nth _ []) by (rewrite len_seq; auto).
  assert (EB : (if (kc <? cx_k to)%nat
      then outs <- mapM (fun j => c <- column (map (rrow from PowerBasis f) (seq 0 (cx_k from))) j ;;
                                  rns_scale pr s c (cx_k to - kc) kc) (seq 0 (rq_degree to)) ;;
           Ok (map (fun i => map (fun out => nth i out 0) outs) (seq 0 (cx_k to - kc)))
      else Ok (repeat (repeat 0 (rq_degree to)) (cx_k to - kc)))
    = Ok (map (rrow to PowerBasis g) (seq kc (cx_k to - kc)))).
  { destruct (Nat.ltb_spec kc (cx_k to)) as [HL|HL].
    - rewrite (mapM_ok _ (fun j => map (fun i => g j mod cx_q to (kc + i)) (seq 0 (cx_k to - kc)))).
      2:{ intros j Hj. apply in_seq in Hj.
          pose proof (column_rep from f j ltac:(lia)) as EC. rewrite rep_rows in EC. rewrite EC. cbn [bind].
          fold (res j). unfold g. eapply rns_scale_ok; eauto; [lia|]. fold (cx_k to). lia. }
      cbn [bind]. f_equal. rewrite <- (seq_shift_add kc). rewrite map_map. apply map_seq_ext. intros i Hi.
      rewrite map_map. unfold rrow. apply map_seq_ext. intros j Hj. rewrite nth_map_seq by auto. reflexivity.
    - replace (cx_k to - kc)%nat with 0%nat by lia. reflexivity. }
  cbv zeta in EB |- *.
  match goal with |- bind ?X _ = _ => replace X with (Ok (map (rrow to PowerBasis g) (seq kc (cx_k to - kc)))) end.
  cbn [bind]. f_equal. f_equal. replace (seq 0 (cx_k to)) with (seq 0 kc ++ seq kc (cx_k to - kc)) by (rewrite <- seq_app; f_equal; lia).
  rewrite map_app. f_equal; apply map_ext_in; intros i Hi; apply in_seq in Hi.
  - rewrite nth_map_seq by lia. unfold rrow. apply map_seq_ext. intros j Hj. replace (i <? kc)%nat with true by (symmetry; apply Nat.ltb_lt; lia). reflexivity.
  - unfold rrow. rewrite Ed. apply map_seq_ext. intros j Hj. replace (i <? kc)%nat with false by (symmetry; apply Nat.ltb_ge; lia). reflexivity.
Qed.
End Any.

Section Scale.
Variables (pr : profile) (L : Z) (s : RqScaler) (from to : RqContext) (N D : Z).
Hypothesis Wf : wf_loc from.
Hypothesis Wt : wf_loc to.
Hypothesis G : good_scaler pr L s from to N D.
Let n := rq_degree from.

Definition res_list (f : nat -> Z) (j : nat) : list Z := map (fun i => f j mod cx_q from i) (seq 0 (cx_k from)).
Definition scale_fun (f : nat -> Z) (j : nat) : Z :=
  yrep (sc_rns s) (rq_rns from) (rq_moduli_64 from) N D (res_list f j).

Lemma res_list_range f j i : (i < length (rq_moduli_64 from))%nat ->
  0 <= nth i (res_list f j) 0 < nth i (rq_moduli_64 from) 1.
Proof.
  intros Hi. unfold res_list. rewrite nth_map_seq by auto. apply (Z.mod_pos_bound (f j) (cx_q from i)). pose proof (cx_range from Wf i Hi). lia.
Qed.
Lemma res_list_len f j : length (res_list f j) = length (rq_moduli_64 from).
Proof. apply len_seq. Qed.

Lemma scale_fun_spec f j : scaled_coeff L (cx_Q from) N D (f j) (scale_fun f j).
Proof.
  pose proof (gs_wf _ _ _ _ _ _ _ G) as W. pose proof (gs_room _ _ _ _ _ _ _ G) as H65.
  exists (xrep (sc_rns s) (rq_rns from) (rq_moduli_64 from) (res_list f j)).
  split.
  { change (eqm (cx_Q from) (xrep (sc_rns s) (rq_rns from) (rq_moduli_64 from) (res_list f j)) (f j)).
    eapply xrep_eqm; [exact W| ..]; auto using res_list_len, res_list_range.
    intros i Hi. unfold res_list. rewrite nth_map_seq by auto. symmetry. apply eqm_mod. }
  split; [eapply xrep_bound; eauto using res_list_len, res_list_range|].
  assert (YB : 2 * N * xrep (sc_rns s) (rq_rns from) (rq_moduli_64 from) (res_list f j) - 2 * D * scale_fun f j < D /\
    2 ^ (125 - L) * (2 * D * scale_fun f j - 2 * N * xrep (sc_rns s) (rq_rns from) (rq_moduli_64 from) (res_list f j) - D) < D)
    by (eapply yrep_bound; eauto using res_list_len, res_list_range).
  destruct YB. split; auto. split; auto. intros E. eapply yrep_one; eauto using res_list_len, res_list_range.
Qed.

Lemma rep_scale_pb f : rq_scale_pb pr s (rep from PowerBasis f) = Ok (rep to PowerBasis (scale_fun f)).
Proof.
  destruct G as [Gf Gt W Ed H65 [C1 C2] H1 He]. unfold rq_scale_pb. rewrite Gt.
  set (kc := sc_common s) in *. rewrite (cx_moduli_len to Wt). fold (cx_k to).
  rewrite rassert_true by (apply Nat.leb_le; auto). cbn [bind].
  unfold slice_to. rewrite rep_rows, len_seq.
  replace (kc <=? cx_k from)%nat with true by (symmetry; apply Nat.leb_le; auto). cbn [bind].
  assert (ET : firstn kc (map (rrow from PowerBasis f) (seq 0 (cx_k from)))
     = map (rrow to PowerBasis (scale_fun f)) (seq 0 kc)).
  { rewrite (firstn_seq_nth _ []) by (rewrite len_seq; auto). apply map_seq_ext. intros i Hi. rewrite nth_map_seq by lia.
    unfold rrow. rewrite <- Ed. apply map_seq_ext. intros j Hj. cbn [rep_entry]. rewrite <- (He i Hi).
    destruct (scale_fun_spec f j) as [x' [E [_ [_ [_ EY]]]]]. rewrite EY by (apply H1; lia).
    symmetry. apply (eqm_Q_q from Wf i); auto. lia. }
  rewrite ET.
  assert (EB : (if (kc <? cx_k to)%nat
      then outs <- mapM (fun j => c <- column (map (rrow from PowerBasis f) (seq 0 (cx_k from))) j ;;
                                  rns_scale pr (sc_rns s) c (cx_k to - kc) kc) (seq 0 (rq_degree to)) ;;
           Ok (map (fun i => map (fun out => nth i out 0) outs) (seq 0 (cx_k to - kc)))
      else Ok (repeat (repeat 0 (rq_degree to)) (cx_k to - kc)))
    = Ok (map (rrow to PowerBasis (scale_fun f)) (seq kc (cx_k to - kc)))).
  { destruct (Nat.ltb_spec kc (cx_k to)) as [HL|HL].
    - rewrite (mapM_ok _ (fun j => map (fun i => scale_fun f j mod cx_q to (kc + i)) (seq 0 (cx_k to - kc)))).
      2:{ intros j Hj. apply in_seq in Hj.
          pose proof (column_rep from f j ltac:(lia)) as EC. rewrite rep_rows in EC. rewrite EC. cbn [bind].
          fold (res_list f j).
          unfold scale_fun. eapply rns_scale_ok; eauto using res_list_len, res_list_range; [lia|].
          fold (cx_k to). lia. }
      cbn [bind]. f_equal. rewrite <- (seq_shift_add kc). rewrite map_map. apply map_seq_ext. intros i Hi.
      rewrite map_map. unfold rrow. apply map_seq_ext. intros j Hj. rewrite nth_map_seq by auto. reflexivity.
    - replace (cx_k to - kc)%nat with 0%nat by lia. reflexivity. }
  cbv zeta in EB |- *. 
  match goal with |- bind ?X _ = _ => replace X with (Ok (map (rrow to PowerBasis (scale_fun f)) (seq kc (cx_k to - kc)))) end.
  cbn [bind]. f_equal. unfold rep. f_equal. rewrite <- map_app. rewrite <- seq_app.
  replace (kc + (cx_k to - kc))%nat with (cx_k to) by lia. reflexivity.
Qed.

Lemma rep_scale r f : r <> NttShoup -> rq_scale pr s (rep from r f) = Ok (rep to r (scale_fun f)).
Proof.
  intros Hr. unfold rq_scale. rewrite (gs_from _ _ _ _ _ _ _ G). cbn [p_ctx p_repr rep]. rewrite ctx_eqb_refl.
  cbn [rassert bind]. fold (rep from r f). destruct r; try congruence.
  - apply rep_scale_pb.
  - rewrite change_any by (auto; discriminate). cbn [bind]. rewrite rep_scale_pb. cbn [bind].
    apply change_any; auto; discriminate.
Qed.
End Scale.
