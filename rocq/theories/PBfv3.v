(** Generation of moduli, level lookup, plaintext encodings, noise measurement. *)
From Verif Require Import PBase NT Spec PSum MModulus MUtils MNtt MRns MRq MBfv PModulus PNttMath PNtt PNttNew PCrt PRns PRnsScale PUtils PUtils2 SpecRq SpecBfv PRing PRq PRq2 PRq4 PRq5 PBfv PBfv2.

Lemma zmem_in x l : zmem x l = true <-> In x l.
Proof.
  unfold zmem. rewrite existsb_exists. split.
  - intros [y [H E]]. apply Z.eqb_eq in E. subst. auto.
  - intros H. exists x. split; auto. apply Z.eqb_refl.
Qed.
Lemma zmem_false x l : zmem x l = false <-> ~ In x l.
Proof. rewrite <- zmem_in. destruct (zmem x l); split; congruence. Qed.

Definition below_cnt (ub : Z) (l : list Z) : nat := length (filter (fun x => x <? ub) l).
Lemma below_cnt_le ub l : (below_cnt ub l <= length l)%nat.
Proof. unfold below_cnt. induction l as [|x l IH]; cbn [filter length]; [lia|]. destruct (x <? ub); cbn [length]; lia. Qed.
Lemma below_cnt_mono a b l : a <= b -> (below_cnt a l <= below_cnt b l)%nat.
Proof.
  intros H. unfold below_cnt. induction l as [|x l IH]; cbn [filter length]; [lia|].
  destruct (Z.ltb_spec x a), (Z.ltb_spec x b); cbn [length]; lia.
Qed.
Lemma below_cnt_lt p ub l : In p l -> p < ub -> (below_cnt p l < below_cnt ub l)%nat.
Proof.
  intros Hp H. unfold below_cnt. induction l as [|x l IH]; [destruct Hp|]. cbn [filter].
  destruct Hp as [->|Hp].
  - pose proof (below_cnt_mono p ub l ltac:(lia)) as M. unfold below_cnt in M.
    destruct (Z.ltb_spec p p), (Z.ltb_spec p ub); cbn [length]; lia.
  - specialize (IH Hp). destruct (Z.ltb_spec x p), (Z.ltb_spec x ub); cbn [length]; lia.
Qed.

Section Gen.
Variables (pr : profile) (env : Env).
Hypothesis PE : forall x, 0 <= x < 2 ^ 64 -> (is_prime env x = true <-> prime x).

Lemma gen_one_spec size n ms : 10 <= size <= 62 -> (1 <= n)%nat -> forall fuel ub, (below_cnt ub ms < fuel)%nat -> 1 <= ub <= 2 ^ size ->
  (exists p, gen_moduli_one pr env fuel size n ms ub = Ok (Some p) /\ ntt_prime size n p /\ p < ub /\ ~ In p ms
     /\ forall x, ntt_prime size n x -> x < ub -> ~ In x ms -> x <= p)
  \/ (gen_moduli_one pr env fuel size n ms ub = Ok None /\ forall x, ntt_prime size n x -> x < ub -> In x ms).
Proof.
  intros Hs Hn fuel. induction fuel as [|f IH]; intros ub Hf Hu; [lia|]. cbn [gen_moduli_one].
  destruct (generate_prime_spec pr (is_prime env) size (2 * Z.of_nat n) ub Hs ltac:(lia) Hu PE) as [[r [E [HA HM]]]|[E HN]]; rewrite E; cbn [bind].
  - destruct HA as [A1 [A2 [A3 A4]]]. destruct (zmem r ms) eqn:Z0.
    + apply zmem_in in Z0. pose proof (below_cnt_lt r ub ms Z0 A4). pose proof (prime_ge_2 r A1).
      destruct (IH r ltac:(lia) ltac:(lia)) as [[p [E1 [P1 [P2 [P3 P4]]]]]|[E1 P4]].
      * left. exists p. split; auto. split; auto. split; [lia|]. split; auto. intros x X1 X2 X3.
        destruct (Z.lt_ge_cases x r); [apply P4; auto|]. exfalso.
        assert (x <= r) by (apply HM; destruct X1 as [? [? ?]]; split; auto). assert (x = r) by lia. congruence.
      * right. split; auto. intros x X1 X2. destruct (Z.lt_ge_cases x r); [apply P4; auto|].
        assert (x <= r) by (apply HM; destruct X1 as [? [? ?]]; split; auto). assert (x = r) by lia. congruence.
    + apply zmem_false in Z0. left. exists r. split; auto. split; [split; auto|]. split; auto. split; auto.
      intros x X1 X2 X3. apply HM. destruct X1 as [? [? ?]]. split; auto.
  - right. split; auto. intros x [X1 [X2 X3]] X4. exfalso. apply (HN x). split; auto.
Qed.

(** [greedy sizes n acc ms]: ms extends acc, each next element being the
    largest NTT prime of its size not used before. *)
Inductive greedy (n : nat) : list Z -> list Z -> list Z -> Prop :=
| greedy_nil acc : greedy n [] acc acc
| greedy_cons size sizes acc p ms : ntt_prime size n p -> ~ In p acc ->
    (forall x, ntt_prime size n x -> ~ In x acc -> x <= p) ->
    greedy n sizes (acc ++ [p]) ms -> greedy n (size :: sizes) acc ms.

Lemma gen_loop_spec n sizes : (1 <= n)%nat -> Forall (fun s => 10 <= s <= 62) sizes -> forall acc,
  (exists ms, gen_moduli_loop pr env sizes n acc = Ok (Some ms) /\ greedy n sizes acc ms)
  \/ (gen_moduli_loop pr env sizes n acc = Ok None
      /\ exists s1 size s2 ms, sizes = s1 ++ size :: s2 /\ greedy n s1 acc ms /\ forall x, ntt_prime size n x -> In x ms).
Proof.
  intros Hn. induction sizes as [|size sizes IH]; intros HF acc; cbn [gen_moduli_loop].
  - left. exists acc. split; auto. constructor.
  - inversion HF as [|? ? Hs HF']; subst. rewrite rassert_true by lia. cbn [bind].
    assert (P0 : 1 <= 2 ^ size <= 2 ^ size) by (pose proof (Z.pow_pos_nonneg 2 size); lia).
    destruct (gen_one_spec size n acc Hs Hn (S (length acc)) (2 ^ size) ltac:(pose proof (below_cnt_le (2 ^ size) acc); lia) P0)
      as [[p [E [P1 [P2 [P3 P4]]]]]|[E P4]]; rewrite E; cbn [bind].
    + assert (P5 : forall x, ntt_prime size n x -> ~ In x acc -> x <= p) by (intros x X1 X2; apply P4; auto; destruct X1 as [_ [? _]]; lia).
      destruct (IH HF' (acc ++ [p])) as [[ms [E1 G]]|[E1 [s1 [sz [s2 [ms [-> [G H]]]]]]]].
      * left. exists ms. split; auto. econstructor; eauto.
      * right. split; auto. exists (size :: s1), sz, s2, ms. split; [reflexivity|]. split; auto. econstructor; eauto.
    + right. split; auto. exists [], size, sizes, acc. split; auto. split; [constructor|].
      intros x X. apply P4; auto. destruct X as [_ [? _]]; lia.
Qed.

Lemma greedy_facts n sizes acc ms : greedy n sizes acc ms -> NoDup acc ->
  NoDup ms /\ exists l, ms = acc ++ l /\ Forall2 (fun s p => ntt_prime s n p) sizes l.
Proof.
  intros G. induction G as [acc|size sizes acc p ms P1 P2 P3 G IH]; intros ND.
  - split; auto. exists []. split; [rewrite app_nil_r; auto|constructor].
  - destruct IH as [N1 [l [E F]]].
    { apply NoDup_rev in ND. rewrite <- (rev_involutive (acc ++ [p])). apply NoDup_rev. rewrite rev_app_distr. cbn [rev app].
      constructor; auto. rewrite <- in_rev. auto. }
    split; auto. exists (p :: l). split; [rewrite E, <- app_assoc; reflexivity|]. constructor; auto.
Qed.

(** The extended basis. *)
Lemma gen_ext_spec n ms : (1 <= n)%nat -> forall fuel ext ub,
  (length ms + 1 - length ext + below_cnt ub ms <= fuel)%nat -> (length ext <= length ms + 1)%nat -> 1 <= ub <= 2 ^ 62 ->
  NoDup ext -> Forall (fun x => ub <= x /\ ntt_prime 62 n x /\ ~ In x ms) ext ->
  (forall x, ntt_prime 62 n x -> ub <= x -> In x ms \/ In x ext) ->
  (exists e, gen_ext_loop pr env fuel n ms ext ub = Ok e /\ length e = (length ms + 1)%nat /\ NoDup e
     /\ Forall (fun x => ntt_prime 62 n x /\ ~ In x ms) e)
  \/ (gen_ext_loop pr env fuel n ms ext ub = Panic
      /\ exists e, (length e < length ms + 1)%nat /\ forall x, ntt_prime 62 n x -> In x ms \/ In x e).
Proof.
  intros Hn fuel. induction fuel as [|f IH]; intros ext ub Hf Hl Hu ND HF HA; cbn [gen_ext_loop];
    destruct (Nat.eqb_spec (length ext) (length ms + 1)) as [EL|NL].
  - left. exists ext. split; auto. split; auto. split; auto. eapply Forall_impl; [|exact HF]. cbn beta. tauto.
  - lia.
  - left. exists ext. split; auto. split; auto. split; auto. eapply Forall_impl; [|exact HF]. cbn beta. tauto.
  - replace (Z.of_nat (2 * n)) with (2 * Z.of_nat n) by lia.
    destruct (generate_prime_spec pr (is_prime env) 62 (2 * Z.of_nat n) ub ltac:(lia) ltac:(lia) Hu PE) as [[r [E [HR HM]]]|[E HN]]; rewrite E; cbn [bind unwrap].
    + destruct HR as [A1 [A2 [A3 A4]]]. pose proof (prime_ge_2 r A1).
      assert (NE : ~ In r ext).
      { intros C. rewrite Forall_forall in HF. destruct (HF r C) as [X _]. lia. }
      rewrite (proj2 (zmem_false r ext) NE). cbn [negb andb].
      assert (HF2 : Forall (fun x => r <= x /\ ntt_prime 62 n x /\ ~ In x ms) ext).
      { eapply Forall_impl; [|exact HF]. cbn beta. intros x [X1 X2]. split; [lia|auto]. }
      assert (HA2 : forall x, ntt_prime 62 n x -> r < x -> In x ms \/ In x ext).
      { intros x X1 X2. destruct (Z.lt_ge_cases x ub); [|apply HA; auto]. exfalso.
        assert (x <= r) by (apply HM; destruct X1 as [? [? ?]]; split; auto). lia. }
      destruct (zmem r ms) eqn:ZM; cbn [negb].
      * apply zmem_in in ZM. pose proof (below_cnt_lt r ub ms ZM A4). apply IH; auto; try lia.
        intros x X1 X2. destruct (Z.eq_dec x r) as [->|]; [auto|]. apply HA2; auto. lia.
      * apply zmem_false in ZM. pose proof (below_cnt_mono r ub ms ltac:(lia)).
        apply IH; rewrite ?app_length; cbn [length]; try lia.
        -- apply NoDup_rev in ND. rewrite <- (rev_involutive (ext ++ [r])). apply NoDup_rev. rewrite rev_app_distr. cbn [rev app].
           constructor; auto. rewrite <- in_rev. auto.
        -- apply Forall_app. split; auto. constructor; [|constructor]. split; [lia|]. split; auto. split; auto.
        -- intros x X1 X2. destruct (Z.eq_dec x r) as [->|]; [right; apply in_or_app; right; left; auto|].
           destruct (HA2 x X1 ltac:(lia)); [auto|right; apply in_or_app; auto].
    + right. split; [reflexivity|]. exists ext. split; [lia|]. intros x X1. destruct (Z.lt_ge_cases x ub); [|apply HA; auto].
      exfalso. apply (HN x). destruct X1 as [? [? ?]]. split; auto.
Qed.

Lemma gen_ext_ok n ms : (1 <= n)%nat ->
  (exists e, gen_ext pr env n ms = Ok e /\ length e = (length ms + 1)%nat /\ NoDup e
     /\ Forall (fun x => ntt_prime 62 n x /\ ~ In x ms) e)
  \/ (gen_ext pr env n ms = Panic
      /\ exists e, (length e < length ms + 1)%nat /\ forall x, ntt_prime 62 n x -> In x ms \/ In x e).
Proof.
  intros Hn. unfold gen_ext. apply gen_ext_spec; auto; cbn [length]; try lia.
  - pose proof (below_cnt_le (2 ^ 62) ms). lia.
  - constructor.
  - intros x [_ [X _]] Y. lia.
Qed.
End Gen.

Lemma greedy_largest n sizes acc ms : greedy n sizes acc ms -> forall j x, (j < length sizes)%nat ->
  ntt_prime (nth j sizes 0) n x -> ~ In x (firstn (length acc + j) ms) -> x <= nth (length acc + j) ms 0.
Proof.
  intros G. induction G as [acc|size sizes acc p ms P1 P2 P3 G IH]; intros j x Hj HX HN; [cbn [length] in Hj; lia|].
  assert (EM : exists l, ms = (acc ++ [p]) ++ l).
  { clear - G. remember (acc ++ [p]) as a. clear Heqa. induction G as [a|? ? a q ? ? ? ? ? [l IH]]; [exists []; rewrite app_nil_r; auto|].
    exists (q :: l). rewrite IH, <- app_assoc. reflexivity. }
  destruct EM as [l EM]. destruct j as [|j].
  - rewrite Nat.add_0_r in *. rewrite EM, <- app_assoc in HN |- *. rewrite app_nth2, Nat.sub_diag by lia. cbn [app nth].
    apply P3; auto. intros C. apply HN. rewrite firstn_app, firstn_all. apply in_or_app. auto.
  - cbn [length] in Hj. specialize (IH j x ltac:(lia) HX). rewrite app_length in IH. cbn [length] in IH.
    replace (length acc + 1 + j)%nat with (length acc + S j)%nat in IH by lia. auto.
Qed.

(** Level lookup. *)
Section Lookup.
Variable P : BfvParams.
Hypothesis WB : wf_bfv P.

Lemma level_k i c : level P i c -> cx_k c = (length (bp_moduli P) - i)%nat /\ (i < length (bp_moduli P))%nat.
Proof.
  intros H. destruct (level_wf P i c WB H) as [Hi L]. split; auto. unfold cx_k. rewrite (lv_ms _ _ _ L), firstn_length. lia.
Qed.
Lemma ctx_level_loop_spec l of i : match ctx_level_loop l of i with
  | Some j => (i <= j)%nat /\ exists c, nth_error l (j - i) = Some c /\ ctx_eqb of c = true
  | None => forall c, In c l -> ctx_eqb of c = false
  end.
Proof.
  revert i. induction l as [|c l IH]; intros i; cbn [ctx_level_loop]; [intros ? []|].
  destruct (ctx_eqb of c) eqn:E.
  - split; auto. exists c. rewrite Nat.sub_diag. auto.
  - specialize (IH (S i)). destruct (ctx_level_loop l of (S i)) as [j|].
    + destruct IH as [H1 [c' [H2 H3]]]. split; [lia|]. exists c'. replace (j - i)%nat with (S (j - S i)) by lia. auto.
    + intros c' [<-|H]; auto.
Qed.
Lemma ctx_level_iff of i : ctx_level P of = Some i <-> exists c, level P i c /\ ctx_eqb of c = true.
Proof.
  unfold ctx_level, level. pose proof (ctx_level_loop_spec (bp_q_ctxs P) of 0) as S0. split.
  - intros E. rewrite E in S0. destruct S0 as [_ [c [H1 H2]]]. rewrite Nat.sub_0_r in H1. exists c. split; auto. unfold get. rewrite H1. auto.
  - intros [c [H1 H2]]. destruct (ctx_level_loop (bp_q_ctxs P) of 0) as [j|] eqn:E.
    + destruct S0 as [_ [c' [H3 H4]]]. rewrite Nat.sub_0_r in H3. f_equal.
      assert (L' : level P j c') by (unfold level, get; rewrite H3; auto).
      destruct (level_k i c H1) as [K1 I1]. destruct (level_k j c' L') as [K2 I2].
      apply ctx_eqb_iff in H2. apply ctx_eqb_iff in H4. unfold cx_k in K1, K2. destruct H2 as [H2 _], H4 as [H4 _].
      rewrite <- H2 in K1. rewrite <- H4 in K2. lia.
    + apply get_inv in H1. apply nth_error_In in H1. rewrite (S0 c H1) in H2. discriminate.
Qed.
Lemma ctx_level_none of : ctx_level P of = None <-> forall i c, level P i c -> ctx_eqb of c = false.
Proof.
  split.
  - intros E i c L. destruct (ctx_eqb of c) eqn:EC; auto.
    assert (X : ctx_level P of = Some i) by (apply ctx_level_iff; exists c; auto). congruence.
  - intros H. destruct (ctx_level P of) as [i|] eqn:E; auto. apply ctx_level_iff in E. destruct E as [c [L EC]].
    rewrite (H i c L) in EC. discriminate.
Qed.
End Lookup.

(** Polynomial encoding. *)
Lemma copy_prefix_pad n vals : (length vals <= n)%nat ->
  copy_prefix (repeat 0 n) vals = Ok (vals ++ repeat 0 (n - length vals)).
Proof.
  intros H. unfold copy_prefix. rewrite repeat_length. replace (length vals <=? n)%nat with true by (symmetry; apply Nat.leb_le; auto).
  f_equal. f_equal. clear - H. revert n H. induction vals as [|x l IH]; intros n H; cbn [length skipn]; [rewrite Nat.sub_0_r; auto|].
  destruct n; [cbn [length] in H; lia|]. cbn [repeat skipn]. cbn [length] in H. rewrite IH by lia. reflexivity.
Qed.
