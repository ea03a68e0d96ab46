(** RNS contexts (src/rns.rs:38-90). *)
From Verif Require Import PBase NT Spec PSum MModulus MUtils MRns PModulus PUtils PCrt.

(** Everything known about a constructed context for the moduli ms. *)
Record wf_rns (c : RnsContext) (ms : list Z) : Prop := {
  wr_ms : rns_moduli_u64 c = ms;
  wr_range : Forall (fun q => 2 <= q < 2 ^ 62) ms;
  wr_mod : Forall2 (fun q m => valid_mod m /\ mp m = q) ms (rns_moduli c);
  wr_prod : rns_product c = zprod ms;
  wr_dig : rns_product_dig c = zprod ms;
  wr_pw : pairwise ms;
  wr_gl : length (rns_garner c) = length ms;
  wr_g : forall i, (i < length ms)%nat ->
     0 <= nth i (rns_garner c) 0 < zprod ms
     /\ eqm (nth i ms 1) (nth i (rns_garner c) 0) 1
     /\ forall j, (j < length ms)%nat -> j <> i -> eqm (nth j ms 1) (nth i (rns_garner c) 0) 0 }.

Lemma range_2 ms : Forall (fun q => 2 <= q < 2 ^ 62) ms -> Forall (fun q => 2 <= q) ms.
Proof. apply Forall_impl. intros. lia. Qed.
Lemma range_nth ms i : Forall (fun q => 2 <= q < 2 ^ 62) ms -> (i < length ms)%nat -> 2 <= nth i ms 1 < 2 ^ 62.
Proof. intros H Hi. rewrite Forall_forall in H. apply H, nth_In. auto. Qed.

Lemma mapM_modulus_ok ms : Forall (fun q => 2 <= q < 2 ^ 62) ms ->
  exists l, mapM modulus_new ms = Ok l /\ Forall2 (fun q m => valid_mod m /\ mp m = q) ms l.
Proof.
  intros H. apply mapM_exists. intros q Hq. rewrite Forall_forall in H. specialize (H q Hq).
  change (2 ^ 62) with P62 in H. destruct (modulus_new_ok q H) as [m [E [Em V]]]. eauto.
Qed.
Lemma mapM_modulus_inv ms l : Forall (fun q => 0 <= q) ms -> mapM modulus_new ms = Ok l ->
  Forall (fun q => 2 <= q < 2 ^ 62) ms.
Proof.
  intros H E. apply mapM_forall2 in E. induction E as [|q m ms l Eq EF IH]; constructor.
  - inversion H; subst. destruct (modulus_new_valid q m) as [V <-]; auto. apply vm_range; auto.
  - inversion H; subst. auto.
Qed.

Definition qstar (ms : list Z) (q : Z) : Z := zprod ms / q.

Lemma qstar_drop ms i : Forall (fun q => 2 <= q < 2 ^ 62) ms -> (i < length ms)%nat ->
  qstar ms (nth i ms 1) = zprod (drop_nth i ms).
Proof.
  intros H Hi. pose proof (range_nth ms i H Hi). unfold qstar. rewrite (zprod_drop i ms 1) at 1 by auto.
  rewrite Z.mul_comm. apply Z.div_mul. lia.
Qed.

Lemma tilde_ok ms q : Forall (fun q => 2 <= q < 2 ^ 62) ms -> In q ms -> Z.gcd (qstar ms q) q = 1 ->
  exists x, (q0 <- udiv (zprod ms) q ;; r <- unwrap (mod_inverse_big q0 q) ;; unwrap (to_u64 r)) = Ok x
    /\ 0 <= x < q /\ (qstar ms q * x) mod q = 1.
Proof.
  intros H Hi Hg. rewrite Forall_forall in H. specialize (H q Hi). change (2 ^ 62) with P62 in H.
  rewrite udiv_ok by lia. cbn [bind]. fold (qstar ms q).
  destruct (mod_inverse_big_some (qstar ms q) q ltac:(lia) Hg) as [x [E [R C]]]. rewrite E. cbn [bind unwrap].
  rewrite to_u64_ok by lia. cbn [unwrap]. eauto.
Qed.

Lemma nth_map' {A B} (f : A -> B) l d d' i : (i < length l)%nat -> nth i (map f l) d' = f (nth i l d).
Proof.
  intros Hi. rewrite nth_indep with (d' := f d) by (rewrite map_length; auto). apply map_nth.
Qed.
Lemma forall2_nth {A B} (R : A -> B -> Prop) l l' da db i :
  Forall2 R l l' -> (i < length l)%nat -> R (nth i l da) (nth i l' db).
Proof.
  intros H. revert i. induction H as [|x y l l' Hxy HF IH]; intros [|i] Hi; simpl in *; try lia; auto.
  apply IH. lia.
Qed.
Lemma forall2_length {A B} (R : A -> B -> Prop) l l' : Forall2 R l l' -> length l = length l'.
Proof. induction 1; simpl; auto. Qed.

Lemma zipM_mul_nth a b : length a = length b ->
  zipM (fun x y => Ok (x * y)) a b = Ok (map (fun p => fst p * snd p) (combine a b)).
Proof. intros HL. apply (zipM_ok _ (fun x y => x * y)). auto. Qed.

Lemma rns_new_coprime ms : Forall (fun q => 2 <= q < 2 ^ 62) ms ->
  (forall i, (i < length ms)%nat -> Z.gcd (qstar ms (nth i ms 1)) (nth i ms 1) = 1) ->
  exists c, rns_new ms = Ok c /\ wf_rns c ms.
Proof.
  intros HR HG. unfold rns_new.
  destruct (mapM_modulus_ok ms HR) as [mods [Em Fm]]. rewrite Em. cbn [bind].
  rewrite !zprod_fold.
  rewrite (mapM_ok _ (qstar ms)).
  2:{ intros q Hq. rewrite Forall_forall in HR. specialize (HR q Hq). apply udiv_ok. lia. }
  cbn [bind].
  destruct (mapM_exists (fun qi => q <- udiv (zprod ms) qi ;; r <- unwrap (mod_inverse_big q qi) ;; unwrap (to_u64 r))
    (fun q x => 0 <= x < q /\ (qstar ms q * x) mod q = 1) ms) as [qt [Et Ft]].
  { intros q Hq. apply tilde_ok; auto. apply In_nth with (d := 1) in Hq. destruct Hq as [i [Hi <-]]. auto. }
  rewrite Et. cbn [bind].
  pose proof (forall2_length _ _ _ Ft) as Lt.
  rewrite zipM_mul_nth by (rewrite map_length; auto). cbn [bind].
  eexists. split; [reflexivity|].
  assert (PW : pairwise ms).
  { apply drop_rel_pairwise. intros i Hi. rewrite <- qstar_drop by auto. apply Zgcd_1_rel_prime. auto. }
  constructor; cbn [rns_moduli_u64 rns_moduli rns_product rns_product_dig rns_garner]; auto.
  - rewrite map_length, combine_length, map_length, <- Lt. apply Nat.min_id.
  - intros i Hi. pose proof (range_nth ms i HR Hi) as Rq.
    set (g := nth i (map (fun p => fst p * snd p) (combine (map (qstar ms) ms) qt)) 0).
    assert (Eg : g = zprod (drop_nth i ms) * nth i qt 0).
    { unfold g. rewrite nth_indep with (d' := (fun p => fst p * snd p) (qstar ms 1, 0))
        by (rewrite map_length, combine_length, map_length; lia).
      rewrite (map_nth (fun p => fst p * snd p)), combine_nth by (rewrite map_length; auto).
      cbn [fst snd]. rewrite (map_nth (qstar ms)), qstar_drop by auto. reflexivity. }
    destruct (forall2_nth _ ms qt 1 0 i Ft Hi) as [Rx Cx]. rewrite qstar_drop in Cx by auto.
    assert (Hd : 1 <= zprod (drop_nth i ms)).
    { apply zprod_pos. apply range_2 in HR. unfold drop_nth. rewrite (split_nth i ms 1 Hi) in HR.
      apply Forall_app in HR. destruct HR as [H1 H2]. inversion H2; subst. apply Forall_app; auto. }
    split; [|split].
    + rewrite Eg, (zprod_drop i ms 1) by auto. nia.
    + rewrite Eg. unfold eqm. rewrite Cx. rewrite Z.mod_small; lia.
    + intros j Hj Hne. rewrite Eg. apply eqm_divide; [pose proof (range_nth ms j HR Hj); lia|].
      rewrite Z.sub_0_r. apply Z.divide_mul_l, zprod_divide, drop_nth_In; auto.
Qed.

Lemma rns_new_ok ms : Forall (fun q => 2 <= q < 2 ^ 62) ms -> pairwise ms -> exists c, rns_new ms = Ok c /\ wf_rns c ms.
Proof.
  intros HR PW. apply rns_new_coprime; auto. intros i Hi. rewrite qstar_drop by auto.
  apply Zgcd_1_rel_prime. apply pairwise_rel_drop; auto.
Qed.

Lemma mapM_panic {A B} (f : A -> outcome B) l : (forall x, In x l -> f x = Panic \/ exists y, f x = Ok y) ->
  (exists x, In x l /\ f x = Panic) -> mapM f l = Panic.
Proof.
  induction l as [|x l IH]; intros H [z [Hz Ez]]; [contradiction|]. cbn [mapM].
  destruct (H x (or_introl eq_refl)) as [E|[y E]]; rewrite E; [reflexivity|]. cbn [bind].
  destruct Hz as [->|Hz]; [congruence|].
  rewrite IH; [reflexivity| |eauto]. intros. apply H. right. auto.
Qed.

Lemma rns_new_panic ms : Forall (fun q => 0 <= q) ms ->
  ~ (Forall (fun q => 2 <= q < 2 ^ 62) ms /\ pairwise ms) -> rns_new ms = Panic.
Proof.
  intros H0 HN. unfold rns_new.
  assert (DM : forall x, In x ms -> modulus_new x = Panic \/ exists y, modulus_new x = Ok y).
  { intros x Hx. rewrite Forall_forall in H0. specialize (H0 x Hx).
    destruct (Z_le_dec 2 x) as [A|A]; [destruct (Z_lt_dec x P62) as [B|B]|].
    - right. destruct (modulus_new_ok x (conj A B)) as [m [E _]]. eauto.
    - left. apply modulus_new_panic; auto. lia.
    - left. apply modulus_new_panic; auto. lia. }
  destruct (Forall_dec (fun q => 2 <= q < 2 ^ 62)
    (fun q => match Z_le_dec 2 q, Z_lt_dec q (2 ^ 62) with left a, left b => left (conj a b)
              | right a, _ => right (fun h => a (proj1 h)) | _, right b => right (fun h => b (proj2 h)) end) ms)
    as [HR|HR].
  - destruct (mapM_modulus_ok ms HR) as [mods [Em Fm]]. rewrite Em. cbn [bind].
    rewrite !zprod_fold.
    rewrite (mapM_ok _ (qstar ms)).
    2:{ intros q Hq. rewrite Forall_forall in HR. specialize (HR q Hq). apply udiv_ok. lia. }
    cbn [bind].
    assert (ND : exists i, (i < length ms)%nat /\ Z.gcd (qstar ms (nth i ms 1)) (nth i ms 1) <> 1).
    { destruct (existsb (fun i => negb (Z.gcd (qstar ms (nth i ms 1)) (nth i ms 1) =? 1)) (seq 0 (length ms))) eqn:E.
      - apply existsb_exists in E. destruct E as [i [Hi Hg]]. apply in_seq in Hi. exists i. split; [lia|].
        apply negb_true_iff, Z.eqb_neq in Hg. auto.
      - exfalso. apply HN. split; auto. apply drop_rel_pairwise. intros i Hi. rewrite <- qstar_drop by auto.
        apply Zgcd_1_rel_prime. destruct (Z.eq_dec (Z.gcd (qstar ms (nth i ms 1)) (nth i ms 1)) 1) as [|C]; auto.
        exfalso. rewrite <- not_true_iff_false in E. apply E. apply existsb_exists. exists i.
        split; [apply in_seq; lia|]. apply negb_true_iff, Z.eqb_neq. auto. }
    destruct ND as [i [Hi Hg]].
    rewrite mapM_panic; [reflexivity| |].
    + intros q Hq. destruct (Z.eq_dec (Z.gcd (qstar ms q) q) 1) as [E|E].
      * right. destruct (tilde_ok ms q HR Hq E) as [x [Ex _]]. eauto.
      * left. rewrite Forall_forall in HR. specialize (HR q Hq).
        rewrite udiv_ok by lia. cbn [bind]. fold (qstar ms q). rewrite mod_inverse_big_none by (auto; lia). reflexivity.
    + exists (nth i ms 1). split; [apply nth_In; auto|]. pose proof (range_nth ms i HR Hi).
      rewrite udiv_ok by lia. cbn [bind]. fold (qstar ms (nth i ms 1)).
      rewrite mod_inverse_big_none by (auto; lia). reflexivity.
  - rewrite mapM_panic; [reflexivity|auto|].
    destruct (existsb (fun q => negb ((2 <=? q) && (q <? 2 ^ 62))) ms) eqn:E.
    + apply existsb_exists in E. destruct E as [q [Hq Eq]]. exists q. split; auto.
      apply negb_true_iff, andb_false_iff in Eq. rewrite Forall_forall in H0. specialize (H0 q Hq).
      apply modulus_new_panic; auto. change (2 ^ 62) with P62 in Eq. destruct Eq as [Eq|Eq]; lia.
    + exfalso. apply HR. apply Forall_forall. intros q Hq. rewrite <- not_true_iff_false in E.
      destruct ((2 <=? q) && (q <? 2 ^ 62)) eqn:E2; [apply andb_true_iff in E2; lia|].
      exfalso. apply E. apply existsb_exists. exists q. rewrite E2. auto.
Qed.

Lemma rns_new_inv ms c : Forall (fun q => 0 <= q) ms -> rns_new ms = Ok c -> wf_rns c ms.
Proof.
  intros H0 E.
  assert (HR : Forall (fun q => 2 <= q < 2 ^ 62) ms).
  { unfold rns_new in E. binv E. apply mapM_modulus_inv in E0; auto. }
  destruct (existsb (fun i => negb (Z.gcd (qstar ms (nth i ms 1)) (nth i ms 1) =? 1)) (seq 0 (length ms))) eqn:EE.
  - apply existsb_exists in EE. destruct EE as [i [Hi Hg]]. apply in_seq in Hi.
    apply negb_true_iff, Z.eqb_neq in Hg. rewrite rns_new_panic in E; [discriminate|auto|].
    intros [_ PW]. apply Hg. rewrite qstar_drop by (auto; lia). apply Zgcd_1_rel_prime. apply pairwise_rel_drop; auto. lia.
  - destruct (rns_new_coprime ms HR) as [c' [E' W]].
    + intros i Hi. destruct (Z.eq_dec (Z.gcd (qstar ms (nth i ms 1)) (nth i ms 1)) 1) as [|C]; auto.
      exfalso. rewrite <- not_true_iff_false in EE. apply EE. apply existsb_exists. exists i.
      split; [apply in_seq; lia|]. apply negb_true_iff, Z.eqb_neq. auto.
    + rewrite E in E'. injection E' as <-. auto.
Qed.

(** ** Projection and lifting *)
Section Ctx.
Variables (c : RnsContext) (ms : list Z).
Hypothesis W : wf_rns c ms.
Let k := length ms.
Let Q := zprod ms.

Lemma wr_2 : Forall (fun q => 2 <= q) ms.
Proof. apply range_2, (wr_range _ _ W). Qed.
Lemma wr_Q : 1 <= Q.
Proof. apply zprod_pos, wr_2. Qed.

Lemma project_ok x : 0 <= x -> rns_project c x = Ok (map (fun q => x mod q) ms).
Proof.
  intros Hx. unfold rns_project. rewrite (wr_ms _ _ W). apply mapM_ok. intros q Hq.
  pose proof (wr_range _ _ W) as R. rewrite Forall_forall in R. specialize (R q Hq). change (2 ^ 62) with P62 in R.
  rewrite umod_ok by lia. cbn [bind]. pose proof (Z.mod_pos_bound x q ltac:(lia)).
  rewrite to_u64_ok by lia. reflexivity.
Qed.

Definition crt_sum (rests : nat -> Z) : Z := sumn k (fun i => nth i (rns_garner c) 0 * rests i).

Lemma lift_sum_ok rests garner acc : length rests = length garner ->
  lift_sum rests garner acc = acc + sumn (length garner) (fun i => nth i garner 0 * nth i rests 0).
Proof.
  revert garner acc; induction rests as [|r rests IH]; intros [|g garner] acc HL; simpl in HL; try discriminate.
  - simpl. lia.
  - cbn [lift_sum length]. rewrite IH by lia. rewrite sumn_S_l. cbn [nth]. lia.
Qed.

(** The CRT sum has the given residues. *)
Lemma crt_sum_res rests j : (j < k)%nat -> eqm (nth j ms 1) (crt_sum rests) (rests j).
Proof.
  intros Hj. unfold crt_sum.
  assert (E : eqm (nth j ms 1) (sumn k (fun i => nth i (rns_garner c) 0 * rests i))
     (sumn k (fun i => if (i =? j)%nat then rests i else 0))).
  { apply sumn_eqm. intros i Hi. destruct (wr_g _ _ W i Hi) as [_ [G1 G0]].
    destruct (i =? j)%nat eqn:Eij.
    - apply Nat.eqb_eq in Eij. subst i. rewrite G1. apply eq_eqm. ring.
    - apply Nat.eqb_neq in Eij. rewrite (G0 j Hj) by auto. apply eq_eqm. ring. }
  rewrite E. rewrite (sumn_single k j) by (auto; intros i Hi Hne; destruct (i =? j)%nat eqn:X; auto; apply Nat.eqb_eq in X; congruence).
  rewrite Nat.eqb_refl. reflexivity.
Qed.

Lemma lift_ok rests : length rests = k -> rns_lift c rests = Ok (crt_sum (fun i => nth i rests 0) mod Q).
Proof.
  intros HL. unfold rns_lift. rewrite (wr_prod _ _ W). fold Q. pose proof wr_Q.
  rewrite umod_ok by lia. rewrite lift_sum_ok by (rewrite (wr_gl _ _ W); auto). rewrite (wr_gl _ _ W). reflexivity.
Qed.

(** The lifted value is the unique one with these residues. *)
Lemma lift_spec rests : length rests = k ->
  exists x, rns_lift c rests = Ok x /\ 0 <= x < Q /\ forall j, (j < k)%nat -> eqm (nth j ms 1) x (nth j rests 0).
Proof.
  intros HL. rewrite lift_ok by auto. eexists. split; [reflexivity|]. pose proof wr_Q.
  split; [apply Z.mod_pos_bound; lia|]. intros j Hj.
  assert (E : eqm (nth j ms 1) (crt_sum (fun i => nth i rests 0) mod Q) (crt_sum (fun i => nth i rests 0))).
  { apply eqm_prod_each with ms; [apply wr_2| |apply nth_In; auto]. apply eqm_mod. }
  rewrite E. apply (crt_sum_res (fun i => nth i rests 0)); auto.
Qed.

Lemma crt_unique x y : (forall j, (j < k)%nat -> eqm (nth j ms 1) x y) -> eqm Q x y.
Proof.
  intros H. apply crt_eqm; [apply wr_2|apply (wr_pw _ _ W)|]. intros q Hq.
  apply In_nth with (d := 1) in Hq. destruct Hq as [j [Hj <-]]. auto.
Qed.

Lemma lift_project x : 0 <= x < Q -> exists r, rns_project c x = Ok r /\ rns_lift c r = Ok x.
Proof.
  intros Hx. rewrite project_ok by lia. eexists. split; [reflexivity|].
  destruct (lift_spec (map (fun q => x mod q) ms)) as [y [E [R C]]]; [apply map_length|].
  rewrite E. f_equal. apply eqm_small with Q; auto. apply crt_unique. intros j Hj. rewrite (C j Hj).
  rewrite (nth_map' _ _ 1) by auto. apply eqm_mod.
Qed.

Lemma project_lift r : length r = k -> (forall i, (i < k)%nat -> 0 <= nth i r 0 < nth i ms 1) ->
  exists x, rns_lift c r = Ok x /\ 0 <= x < Q /\ rns_project c x = Ok r.
Proof.
  intros HL HR. destruct (lift_spec r HL) as [x [E [R C]]]. exists x. split; auto. split; auto.
  rewrite project_ok by lia. f_equal. apply nth_ext' with 0; [rewrite map_length; auto|].
  intros j Hj. rewrite map_length in Hj.
  rewrite (nth_map' _ _ 1) by auto. specialize (C j Hj). unfold eqm in C. rewrite C.
  apply Z.mod_small. auto.
Qed.
End Ctx.

Lemma rns_new_total ms : Forall (fun q => 0 <= q) ms -> (exists c, rns_new ms = Ok c) \/ rns_new ms = Panic.
Proof.
  intros H0.
  destruct (Forall_dec (fun q => 2 <= q < 2 ^ 62)
    (fun q => match Z_le_dec 2 q, Z_lt_dec q (2 ^ 62) with left a, left b => left (conj a b)
              | right a, _ => right (fun h => a (proj1 h)) | _, right b => right (fun h => b (proj2 h)) end) ms)
    as [HR|HR].
  - destruct (existsb (fun i => negb (Z.gcd (qstar ms (nth i ms 1)) (nth i ms 1) =? 1)) (seq 0 (length ms))) eqn:EE.
    + right. apply rns_new_panic; auto. intros [_ PW]. apply existsb_exists in EE. destruct EE as [i [Hi Hg]]. apply in_seq in Hi.
      apply negb_true_iff, Z.eqb_neq in Hg. apply Hg. rewrite qstar_drop by (auto; lia).
      apply Zgcd_1_rel_prime. apply pairwise_rel_drop; auto; lia.
    + left. destruct (rns_new_coprime ms HR) as [c [E _]]; [|eauto].
      intros i Hi. destruct (Z.eq_dec (Z.gcd (qstar ms (nth i ms 1)) (nth i ms 1)) 1) as [|C]; auto.
      exfalso. rewrite <- not_true_iff_false in EE. apply EE. apply existsb_exists. exists i.
      split; [apply in_seq; lia|]. apply negb_true_iff, Z.eqb_neq. auto.
  - right. apply rns_new_panic; auto. tauto.
Qed.
