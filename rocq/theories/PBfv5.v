(** Parameter construction succeeds. *)
From Verif Require Import PBase NT Spec PSum MModulus MUtils MNtt MRns MRq MBfv PModulus PNttMath PNtt PNttNew PCrt PRns PRnsScale PUtils PUtils2 SpecRq SpecBfv PRing PRq PRq2 PRq4 PRq5 QRq PBfv PBfv2 PBfv3 PBfv4.

Lemma prime_coprime a b : prime a -> prime b -> a <> b -> Z.gcd a b = 1.
Proof.
  intros Pa Pb N. apply Zgcd_1_rel_prime. apply prime_rel_prime; auto. intros D.
  destruct (prime_divisors b Pb a D) as [H|[H|[H|H]]]; pose proof (prime_ge_2 a Pa); pose proof (prime_ge_2 b Pb); lia.
Qed.

Lemma bits_le q : 0 <= q < 2 ^ 62 -> 0 <= 64 - leading_zeros 64 q <= 62.
Proof.
  intros H. unfold leading_zeros. replace (64 - (64 - bitlen q)) with (bitlen q) by lia.
  destruct (bitlen_spec q ltac:(lia)) as [B1 [_ B2]]. split; auto.
  destruct (Z.eq_dec q 0) as [->|]; [cbn; lia|]. specialize (B2 ltac:(lia)).
  destruct (Z.le_gt_cases (bitlen q) 62); auto. pose proof (Z.pow_le_mono_r 2 62 (bitlen q - 1) ltac:(lia) ltac:(lia)). lia.
Qed.
Lemma size_sum_le ms : Forall (fun q => 0 <= q < 2 ^ 62) ms -> forall z, 
  z <= fold_left Z.add (map (fun q => 64 - leading_zeros 64 q) ms) z <= z + 62 * Z.of_nat (length ms).
Proof.
  intros H. induction H as [|q ms Hq _ IH]; intros z; cbn [map fold_left length]; [lia|].
  specialize (IH (z + (64 - leading_zeros 64 q))). pose proof (bits_le q Hq). lia.
Qed.

Lemma rq_scaler_new_some pr from to N D sf : wf_loc from -> wf_loc to -> rq_degree from = rq_degree to ->
  0 <= N -> 1 <= D -> sf_new N D = Ok sf -> Z.of_nat (cx_k from) <= 2 ^ 64 ->
  exists s, rq_scaler_new pr from to sf = Ok s.
Proof.
  intros Wf Wt Ed HN HD Es HK. rewrite sf_new_ok in Es by auto. apply Ok_inj in Es. subst sf.
  unfold rq_scaler_new. rewrite rassert_true by (apply Nat.eqb_eq; auto). cbn [bind sf_is_one].
  destruct (rns_scaler_new_ok pr (rq_rns from) (rq_rns to) (rq_moduli_64 from) (rq_moduli_64 to) (mkSF N D (N =? D)) N D) as [s [E W]];
    auto; try apply wl_rns; auto.
  { pose proof (wl_ne _ Wf) as H. unfold cx_k in H. destruct (rq_moduli_64 from); [simpl in H; lia|discriminate]. }
  rewrite E. cbn [bind]. eexists; reflexivity.
Qed.

Section New.
Variables (pr : profile) (env : Env) (ext : list Z) (n : nat) (t : Z) (ms : list Z) (variance : Z) (bd : BitDecomp).
Hypothesis EH : env_ok env.
Hypothesis Hne : ms <> [].
Hypothesis Hlen : Z.of_nat (length ms) < 2 ^ 57.
Hypothesis ND : NoDup (ms ++ ext).
Hypothesis Hms : forall q, In q (ms ++ ext) -> 2 <= q < 2 ^ 62 /\ ntt_possible env q n.
Hypothesis Lext : length ext = (length ms + 1)%nat.
Hypothesis Ht : 2 <= t < 2 ^ 62 /\ ntt_possible env t n.
Hypothesis Htq : forall q, In q ms -> t < q.

Lemma possible_prime q : 2 <= q < 2 ^ 62 -> ntt_possible env q n -> prime q.
Proof. intros R [_ [_ [H _]]]. apply (proj1 EH); auto. change (2 ^ 62) with 4611686018427387904 in R. change (2 ^ 64) with 18446744073709551616. lia. Qed.

Lemma rq_new_some l : l <> [] -> NoDup l -> (forall q, In q l -> In q (ms ++ ext)) -> exists c, rq_new pr env l n bd = Ok c.
Proof.
  intros H1 H2 H3. assert (F0 : Forall (fun q => 0 <= q) l) by (apply Forall_forall; intros q Hq; destruct (Hms q (H3 q Hq)); lia).
  destruct (C57_construct_lem pr env l n bd EH F0) as [C _]. apply C. split; auto. split; [intros; apply Hms; auto|].
  intros i j Hi Hj Hij. apply prime_coprime.
  - destruct (Hms (nth i l 1)) as [A B]; [apply H3, nth_In; auto|]. apply possible_prime; auto.
  - destruct (Hms (nth j l 1)) as [A B]; [apply H3, nth_In; auto|]. apply possible_prime; auto.
  - intros E. apply Hij. rewrite NoDup_nth with (d := 1) in H2. apply H2; auto.
Qed.

Lemma NoDup_firstn {A} k (l : list A) : NoDup l -> NoDup (firstn k l).
Proof.
  revert k. induction l as [|x l IH]; intros k H; [rewrite firstn_nil; constructor|]. destruct k; [constructor|].
  inversion H as [|? ? H1 H2]; subst. cbn [firstn]. constructor; auto. intros C. apply H1. eapply firstn_in; eauto.
Qed.
Lemma NoDup_parts a b : NoDup (firstn a ms ++ firstn b ext).
Proof.
  clear - ND. revert a b ND. generalize ext. induction ms as [|x l IH]; intros e a b H.
  - rewrite firstn_nil. apply NoDup_firstn; auto.
  - cbn [app] in H. inversion H as [|? ? H1 H2]; subst. destruct a as [|a].
    + cbn [firstn app]. apply (IH e 0%nat b H2).
    + cbn [firstn app]. constructor; [|apply IH; auto]. intros C. apply H1. apply in_app_or in C. apply in_or_app.
      destruct C as [C|C]; [left|right]; eapply firstn_in; eauto.
Qed.

Lemma t_invs_some : exists l, mapM (fun q => m <- modulus_new q ;; nt <- mneg pr m t ;; minv pr m nt) ms = Ok l.
Proof.
  destruct (mapM_exists (fun q => m <- modulus_new q ;; nt <- mneg pr m t ;; minv pr m nt) (fun _ _ => True) ms) as [r [E _]]; eauto.
  intros q Hq. destruct (Hms q ltac:(apply in_or_app; auto)) as [R NP].
  destruct (modulus_new_ok q) as [m [Em [E1 V]]]; [exact R|]. rewrite Em. cbn [bind].
  pose proof (Htq q Hq). rewrite mneg_ok by (auto; lia). cbn [bind]. rewrite E1.
  replace ((- t) mod q) with (q - t) by (apply Z.mod_unique with (-1); lia).
  destruct (minv_correct pr m (q - t) V) as [x [Ex _]]; [rewrite E1; apply possible_prime; auto|lia|]. exists x. auto.
Qed.

Lemma level_params_some t_invs pt_ctx i : mapM (fun q => m <- modulus_new q ;; nt <- mneg pr m t ;; minv pr m nt) ms = Ok t_invs ->
  (i < length ms)%nat -> wf_ctx pt_ctx -> rq_degree pt_ctx = n ->
  exists r cnt, level_params pr env n t ms ext t_invs bd pt_ctx i = Ok r
    /\ let '(c, _, _, _, e, _) := r in
       rq_moduli_64 c = firstn (length ms - i) ms /\ rq_moduli_64 e = firstn (length ms - i) ms ++ firstn cnt ext
       /\ (cnt <= length ext)%nat
       /\ exists bits, (forall s, s = fold_left Z.add (map (fun q => 64 - leading_zeros 64 q) (firstn (length ms - i) ms)) 0 -> bits = s)
          /\ 62 * (Z.of_nat cnt - 1) < bits + 60 <= 62 * Z.of_nat cnt.
Proof.
  intros ET Hi Wpt Dpt. unfold level_params. cbv zeta.
  assert (Lms : length (firstn (length ms - i) ms) = (length ms - i)%nat) by (rewrite firstn_length; lia).
  assert (H0 : forall l, (forall q, In q l -> In q (ms ++ ext)) -> Forall (fun q => 0 <= q) l).
  { intros l H. apply Forall_forall. intros q Hq. destruct (Hms q (H q Hq)). lia. }
  destruct (rq_new_some (firstn (length ms - i) ms)) as [c EC].
  { intros C. rewrite C in Lms. cbn [length] in Lms. lia. }
  { pose proof (NoDup_parts (length ms - i) 0) as X. cbn [firstn] in X. rewrite app_nil_r in X. auto. }
  { intros q Hq. apply in_or_app. left. eapply firstn_in; eauto. }
  assert (I1 : forall q, In q (firstn (length ms - i) ms) -> In q (ms ++ ext)) by (intros q Hq; apply in_or_app; left; eapply firstn_in; eauto).
  destruct (rq_new_inv pr env EH _ _ _ _ (H0 _ I1) EC) as [Wc [Mc [Dc Bc]]]. pose proof (wf_ctx_loc _ Wc) as W.
  rewrite EC. cbn [bind]. pose proof (rns_product_Q c W) as RQ. pose proof (cx_Q1 c W) as HQ1. rewrite RQ.
  rewrite umod_ok by lia. cbn [bind]. pose proof (Z.mod_pos_bound (cx_Q c) t ltac:(lia)) as HM.
  rewrite to_u64_ok by (change (2 ^ 62) with 4611686018427387904 in *; change W64 with 18446744073709551616; lia). cbn [unwrap bind].
  assert (Kc : cx_k c = (length ms - i)%nat) by (unfold cx_k; rewrite Mc; auto).
  pose proof (mapM_length _ _ _ ET) as Lt.
  assert (LF : exists d, rns_lift (rq_rns c) t_invs = Ok d).
  { destruct (lift_spec (rq_rns c) (rq_moduli_64 c) (wl_rns _ W) (firstn (cx_k c) t_invs)) as [x [Ex _]].
    { rewrite firstn_length. unfold cx_k in *. lia. }
    exists x. rewrite <- Ex. unfold rns_lift. f_equal. symmetry.
    replace (cx_k c) with (length (rns_garner (rq_rns c))); [apply lift_sum_firstn|].
    pose proof (wr_gl _ _ (wl_rns _ W)). unfold cx_k. lia. }
  destruct LF as [d ED]. rewrite ED. cbn [bind]. rewrite rep_from_big by (auto; cbn [length]; pose proof (cx_n8 c W); lia). cbn [bind].
  rewrite change_fwd by auto. cbn [bind]. rewrite sf_new_ok by lia. cbn [bind].
  change (2 ^ 57) with 144115188075855872 in Hlen. 
  destruct (rq_scaler_new_some pr c pt_ctx t (cx_Q c) _ W (wf_ctx_loc _ Wpt) ltac:(congruence) ltac:(lia) HQ1 (sf_new_ok t (cx_Q c) HQ1)) as [s ES].
  { rewrite Kc. change (2 ^ 64) with 18446744073709551616. lia. }
  rewrite ES. cbn [bind].
  assert (FB : Forall (fun q => 0 <= q < 2 ^ 62) (firstn (length ms - i) ms)).
  { apply Forall_forall. intros q Hq. destruct (Hms q (I1 q Hq)). lia. }
  pose proof (size_sum_le _ FB 0) as SS. rewrite Lms in SS. set (sz := fold_left Z.add _ 0) in *.
  rewrite div_ceil_ok by (change W64 with 18446744073709551616; lia). cbn [bind].
  pose proof (ceil_spec (sz + 60) 62 ltac:(lia)) as CS. set (cnt := (sz + 60 + 62 - 1) / 62) in *.
  assert (CB : 0 <= cnt <= Z.of_nat (length ms) + 1) by lia.
  unfold slice_to. replace (Z.to_nat cnt <=? length ext)%nat with true by (symmetry; apply Nat.leb_le; lia). cbn [bind].
  destruct (rq_new_some (firstn (length ms - i) ms ++ firstn (Z.to_nat cnt) ext)) as [e EE].
  { intros C. apply (f_equal (@length Z)) in C. rewrite app_length in C. cbn [length] in C. lia. }
  { apply NoDup_parts. }
  { intros q Hq. apply in_app_or in Hq. apply in_or_app. destruct Hq as [Hq|Hq]; [left|right]; eapply firstn_in; eauto. }
  assert (I2 : forall q, In q (firstn (length ms - i) ms ++ firstn (Z.to_nat cnt) ext) -> In q (ms ++ ext)).
  { intros q Hq. apply in_app_or in Hq. apply in_or_app. destruct Hq as [Hq|Hq]; [left|right]; eapply firstn_in; eauto. }
  destruct (rq_new_inv pr env EH _ _ _ _ (H0 _ I2) EE) as [We [Me [De Be]]]. pose proof (wf_ctx_loc _ We) as We'.
  rewrite EE. cbn [bind]. rewrite (sf_new_ok 1 1) by lia. cbn [bind]. unfold mul_params_new.
  destruct (rq_scaler_new_some pr c e 1 1 _ W We' ltac:(congruence) ltac:(lia) ltac:(lia) (sf_new_ok 1 1 ltac:(lia))) as [u EU].
  { rewrite Kc. change (2 ^ 64) with 18446744073709551616. lia. }
  rewrite EU. cbn [bind].
  destruct (rq_scaler_new_some pr e c t (cx_Q c) _ We' W ltac:(congruence) ltac:(lia) HQ1 (sf_new_ok t (cx_Q c) HQ1)) as [dn EDN].
  { unfold cx_k. rewrite Me, app_length, Lms, firstn_length. change (2 ^ 64) with 18446744073709551616. lia. }
  rewrite EDN. cbn [bind]. eexists _, (Z.to_nat cnt). split; [reflexivity|]. cbv beta iota.
  split; auto. split; auto. split; [lia|]. exists sz. split; [intros; congruence|]. lia.
Qed.

Lemma bfv_new_from_some : exists P, bfv_new_from pr env ext n t ms variance bd = Ok P
  /\ forall i, (i < length ms)%nat -> exists c e cnt, level P i c /\ get (bp_e_ctxs P) i = Ok e
     /\ rq_moduli_64 c = firstn (length ms - i) ms /\ rq_moduli_64 e = firstn (length ms - i) ms ++ firstn cnt ext
     /\ (cnt <= length ext)%nat
     /\ let bits := fold_left Z.add (map (fun q => 64 - leading_zeros 64 q) (firstn (length ms - i) ms)) 0 in
        62 * (Z.of_nat cnt - 1) < bits + 60 <= 62 * Z.of_nat cnt.
Proof.
  unfold bfv_new_from. destruct t_invs_some as [t_invs ET]. rewrite ET. cbn [bind].
  destruct ms as [|q0 ms'] eqn:EMS; [congruence|]. rewrite <- EMS in *. 
  assert (G0 : get ms 0 = Ok q0) by (rewrite EMS; reflexivity). rewrite G0. cbn [bind].
  destruct (rq_new_some [q0]) as [pt_ctx EPT].
  { discriminate. }
  { constructor; [intros []|constructor]. }
  { intros q [<-|[]]. apply in_or_app. left. rewrite EMS. left. auto. }
  assert (F0 : Forall (fun q => 0 <= q) [q0]).
  { constructor; [|constructor]. destruct (Hms q0); [apply in_or_app; left; rewrite EMS; left; auto|lia]. }
  destruct (rq_new_inv pr env EH _ _ _ _ F0 EPT) as [Wpt [Mpt [Dpt Bpt]]].
  rewrite EPT. cbn [bind].
  destruct (mapM_exists (level_params pr env n t ms ext t_invs bd pt_ctx) (fun i r => exists cnt, let '(c, _, _, _, e, _) := r in
       rq_moduli_64 c = firstn (length ms - i) ms /\ rq_moduli_64 e = firstn (length ms - i) ms ++ firstn cnt ext
       /\ (cnt <= length ext)%nat
       /\ exists bits, (forall s, s = fold_left Z.add (map (fun q => 64 - leading_zeros 64 q) (firstn (length ms - i) ms)) 0 -> bits = s)
          /\ 62 * (Z.of_nat cnt - 1) < bits + 60 <= 62 * Z.of_nat cnt) (seq 0 (length ms))) as [lvls [EL HL]].
  { intros i Hi. apply in_seq in Hi. destruct (level_params_some t_invs pt_ctx i ET ltac:(lia) Wpt Dpt) as [r [cnt [E X]]]. exists r. split; auto. exists cnt. exact X. }
  rewrite EL. cbn [bind]. destruct Ht as [Rt NPt]. destruct NPt as [[L [HL3 En]] NPt'].
  destruct (modulus_new_ok t) as [tm [ETM [E1 V]]]; [exact Rt|].
  destruct (ntt_new_cases pr env t tm n EH ltac:(lia) ETM) as [[_ C]|[[op EOP] _]].
  { exfalso. apply C. split; [exists L; auto|auto]. }
  assert (HL60 : (L <= 60)%nat).
  { assert (Hd : forall k, 0 <= draw env (mp tm) k < mp tm) by (intros k; apply (proj2 EH); lia).
    pose proof (ntt_new_shape pr env tm n (ex_intro _ op EOP)) as HS. destruct (supports_inv env tm V n HS) as [L' [HL' [E' _]]].
    assert (L' = L) by (apply (Nat.pow_inj_r 2); lia). lia. }
  destruct (index_map_ok L ltac:(lia)) as [mp [EM _]]. rewrite En in *. rewrite EM. cbn [bind].
  rewrite ETM. cbn [bind]. rewrite EOP. cbn [bind]. eexists. split; [reflexivity|].
  intros i Hi. pose proof (forall2_length _ _ _ HL) as LL. rewrite seq_length in LL.
  destruct (nth_error lvls i) as [r|] eqn:ER; [|apply nth_error_None in ER; lia].
  pose proof (forall2_nth _ _ _ 0%nat r i HL ltac:(rewrite seq_length; lia)) as X. rewrite seq_nth in X by lia.
  rewrite (nth_error_nth _ _ _ ER) in X. destruct r as [[[[[c qm] dl] s] e] mu]. destruct X as [cnt [X1 [X2 [X3 [bits [X4 X5]]]]]].
  cbn [Nat.add] in *. exists c, e, cnt. unfold level. cbn [bp_q_ctxs bp_e_ctxs].
  split; [unfold get; erewrite map_nth_error by exact ER; reflexivity|].
  split; [unfold get; erewrite map_nth_error by exact ER; reflexivity|]. split; auto. split; auto. split; auto.
  cbv zeta. rewrite <- (X4 _ eq_refl). auto.
Qed.
End New.
