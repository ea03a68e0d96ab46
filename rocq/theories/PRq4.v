(** Modulus switching, chains of contexts, inversion, scaling. *)
From Verif Require Import PBase NT Spec PSum MModulus MUtils MNtt MRns MRq PModulus PNttMath PNtt PNttNew PCrt PRns PRnsScale PRnsScale2 PUtils2 SpecRq PRing PRq PRq2.

(** ** Chains *)
Lemma firstn_firstn_pred {A} (l : list A) i : (i < length l)%nat ->
  firstn (length (firstn (length l - 1) l) - i) (firstn (length l - 1) l) = firstn (length l - S i) l.
Proof.
  intros Hi. rewrite firstn_firstn, firstn_length. f_equal. lia.
Qed.

Lemma next_k c c' : wf_loc c -> rq_next c = Some c' -> cx_k c' = (cx_k c - 1)%nat.
Proof.
  intros W H. destruct (wl_some _ W c' H) as [H2 [E _]]. unfold cx_k in *. rewrite E, firstn_length. lia.
Qed.
Lemma next_q c c' i : wf_loc c -> rq_next c = Some c' -> (i < cx_k c - 1)%nat -> cx_q c' i = cx_q c i.
Proof.
  intros W H Hi. destruct (wl_some _ W c' H) as [H2 [E _]]. unfold cx_q. rewrite E.
  rewrite (firstn_seq_nth _ 1) by (unfold cx_k in *; lia). rewrite nth_map_seq by auto. reflexivity.
Qed.
Lemma next_Q c c' : wf_loc c -> rq_next c = Some c' -> cx_Q c = cx_Q c' * cx_q c (cx_k c - 1).
Proof.
  intros W H. destruct (wl_some _ W c' H) as [H2 [E _]]. unfold cx_Q. rewrite E. unfold cx_q, cx_k in *.
  set (l := rq_moduli_64 c) in *. rewrite (split_nth (length l - 1) l 1) at 1 by lia. rewrite zprod_app. f_equal.
  rewrite skipn_all2 by lia. unfold zprod. cbn [fold_right]. ring.
Qed.

Lemma nth_ctx_wf c i c' : wf_ctx c -> nth_ctx c i = Some c' -> wf_ctx c'
  /\ (i < cx_k c)%nat /\ rq_moduli_64 c' = firstn (cx_k c - i) (rq_moduli_64 c) /\ rq_degree c' = rq_degree c /\ rq_bd c' = rq_bd c.
Proof.
  revert c; induction i as [|i IH]; intros c W H; cbn [nth_ctx] in H.
  - injection H as <-. split; auto. pose proof (wl_ne _ (wf_ctx_loc _ W)). unfold cx_k in *. rewrite Nat.sub_0_r, firstn_all.
    repeat split; auto.
  - destruct (rq_next c) as [c1|] eqn:E; [|discriminate]. pose proof (wf_ctx_next _ _ W E) as W1.
    destruct (IH c1 W1 H) as [A [B [C [D F]]]]. pose proof (wf_ctx_loc _ W) as Wl.
    destruct (wl_some _ Wl c1 E) as [H2 [Em [Ed Eb]]]. rewrite (next_k c c1 Wl E) in B. split; auto. split; [lia|].
    split; [|split; congruence]. rewrite C. rewrite Em. unfold cx_k in *. rewrite Em. rewrite firstn_firstn_pred by lia. reflexivity.
Qed.
Lemma nth_ctx_some c i : wf_ctx c -> (i < cx_k c)%nat -> exists c', nth_ctx c i = Some c'.
Proof.
  revert c; induction i as [|i IH]; intros c W H; cbn [nth_ctx]; [eauto|].
  pose proof (wf_ctx_loc _ W) as Wl. destruct (rq_next c) as [c1|] eqn:E.
  - apply IH; [eapply wf_ctx_next; eauto|]. rewrite (next_k c c1 Wl E). lia.
  - pose proof (wl_none _ Wl E). lia.
Qed.

Lemma ctx_eqb_iff a b : ctx_eqb a b = true <->
  rq_moduli_64 a = rq_moduli_64 b /\ rq_degree a = rq_degree b /\ rq_bd a = rq_bd b.
Proof.
  unfold ctx_eqb. rewrite !andb_true_iff, zlist_eqb_eq, !Nat.eqb_eq. destruct (rq_bd a) as [ba la], (rq_bd b) as [bb lb]; cbn [bd_base bd_l].
  split; [intros [[[H1 H2] H3] H4]; subst; auto|]. intros [H1 [H2 H3]]. injection H3 as -> ->. auto.
Qed.
Lemma ctx_eqb_refl a : ctx_eqb a a = true.
Proof. apply ctx_eqb_iff. auto. Qed.

Lemma switch_loop_unfold c to count : switch_loop c to count =
  if ctx_eqb c to then Some count else match rq_next c with Some c' => switch_loop c' to (S count) | None => None end.
Proof. destruct c as [a1 a2 a3 a4 a5 a6 [c'|] a8 a9 a10]; reflexivity. Qed.

Lemma below_unique c to i j : below c to i -> below c to j -> i = j.
Proof.
  intros [Hi [Ei _]] [Hj [Ej _]]. rewrite Ei in Ej. apply (f_equal (@length Z)) in Ej. rewrite !firstn_length in Ej.
  unfold cx_k in *. lia.
Qed.
Lemma below_0 c to : (1 <= cx_k c)%nat -> below c to 0 <-> ctx_eqb c to = true.
Proof.
  intros H. rewrite ctx_eqb_iff. unfold below. rewrite Nat.sub_0_r. unfold cx_k in *. rewrite firstn_all.
  split; [intros [_ [A [B C]]]; auto|intros [A [B C]]; auto].
Qed.
Lemma below_S c c' to i : wf_loc c -> rq_next c = Some c' -> below c to (S i) <-> below c' to i.
Proof.
  intros W H. destruct (wl_some _ W c' H) as [H2 [Em [Ed Eb]]]. unfold below. rewrite (next_k c c' W H). rewrite Ed, Eb.
  split; intros [A [B [C D]]]; split; try lia; split; auto; rewrite B.
  - rewrite Em. unfold cx_k in *. rewrite firstn_firstn. f_equal. lia.
  - rewrite Em. unfold cx_k in *. rewrite firstn_firstn. f_equal. lia.
Qed.

Lemma switch_loop_spec c to count : wf_ctx c ->
  (exists i, switch_loop c to count = Some (count + i)%nat /\ below c to i)
  \/ (switch_loop c to count = None /\ forall i, ~ below c to i).
Proof.
  intros W. revert count. induction W as [c W1 W2 IH]. intros count. rewrite switch_loop_unfold.
  pose proof (wl_ne _ W1) as Hk. destruct (ctx_eqb c to) eqn:E.
  - left. exists 0%nat. rewrite Nat.add_0_r. split; auto. apply below_0; auto.
  - assert (NB0 : ~ below c to 0) by (rewrite below_0 by auto; congruence).
    destruct (rq_next c) as [c'|] eqn:EN.
    + destruct (IH c' eq_refl (S count)) as [[i [E1 B]]|[E1 B]].
      * left. exists (S i). rewrite E1. split; [f_equal; lia|]. apply (below_S c c'); auto.
      * right. split; auto. intros [|i]; [auto|]. rewrite (below_S c c') by auto. apply B.
    + right. split; auto. pose proof (wl_none _ W1 EN) as K1. intros [|i]; [auto|]. intros [Hi _]. lia.
Qed.

(** ** Modulus switching *)
Section Msd.
Variables (pr : profile) (c c' : RqContext).
Hypothesis W : wf_loc c.
Hypothesis HN : rq_next c = Some c'.
Hypothesis W' : wf_loc c'.
Let n := rq_degree c.
Let k := cx_k c.
Let ql := cx_q c (k - 1).

Lemma msd_entry x i : (i < k - 1)%nat ->
  exists v, (l <- lazy_reduce_ct pr (cx_m c i) ((x + ql / 2) mod ql) ;;
     tmp <- add64 pr l (cx_q c i - (ql / 2) mod cx_q c i) ;;
     q3 <- mul64 pr 3 (mp (cx_m c i)) ;; d <- sub64 pr q3 tmp ;; a <- add64 pr (x mod cx_q c i) d ;;
     mul_shoup pr (cx_m c i) a (nth i (rq_qlinv c) 0) (shoup_of (cx_q c i) (nth i (rq_qlinv c) 0))) = Ok v
  /\ v = ((x + ql / 2) / ql) mod cx_q c i.
Proof.
  intros Hi. destruct (cx_mod c W i ltac:(fold k; lia)) as [V Em].
  pose proof (cx_range c W i ltac:(fold k; lia)) as R. pose proof (cx_range c W (k - 1) ltac:(fold k; lia)) as Rl. fold ql in Rl.
  destruct (wl_inv _ W i ltac:(fold k; lia)) as [Ri Ci]. fold k in Ci. fold ql in Ci.
  set (q := cx_q c i) in *. set (inv := nth i (rq_qlinv c) 0) in *. set (r := (x + ql / 2) mod ql).
  assert (Br : 0 <= r < ql) by (apply Z.mod_pos_bound; lia).
  destruct (lazy_reduce_ct_val (cx_m c i) r V ltac:(lia) pr) as [l [El [Rl' Cl]]]. rewrite Em in *. fold q in Rl', Cl |- *.
  rewrite El. cbn [bind].
  pose proof (Z.mod_pos_bound (ql / 2) q ltac:(lia)) as Bh. pose proof (Z.mod_pos_bound x q ltac:(lia)) as Bx.
  rewrite add64_ok by lia. cbn [bind]. rewrite mul64_ok by lia. cbn [bind]. rewrite sub64_ok by lia. cbn [bind].
  rewrite add64_ok by lia. cbn [bind].
  replace (shoup_of q inv) with (shoup_of (mp (cx_m c i)) inv) by (rewrite Em; reflexivity).
  rewrite mul_shoup_ok; auto; [|lia|rewrite Em; auto]. rewrite Em. fold q.
  eexists. split; [reflexivity|].
  change (eqm q ((x mod q + (3 * q - (l + (q - ql / 2 mod q)))) * inv) ((x + ql / 2) / ql)).
  replace (x mod q + (3 * q - (l + (q - ql / 2 mod q)))) with (x mod q - l + ql / 2 mod q + 2 * q) by ring.
  rewrite eqm_add_mult. rewrite eqm_mod, Cl. rewrite (eqm_mod q (ql / 2)).
  replace (x - r + ql / 2) with ((x + ql / 2) / ql * ql).
  - rewrite <- Z.mul_assoc. rewrite Ci. apply eq_eqm. ring.
  - unfold r. pose proof (Z.div_mod (x + ql / 2) ql ltac:(lia)). lia.
Qed.

Lemma msd_row_ok f i : (i < k - 1)%nat ->
  msd_row pr (cx_m c i) (nth i (rq_qlinv c) 0) (shoup_of (cx_q c i) (nth i (rq_qlinv c) 0)) (ql / 2)
    (rrow c PowerBasis f i) (map (fun j => (f j + ql / 2) mod ql) (seq 0 n))
  = Ok (map (fun j => ((f j + ql / 2) / ql) mod cx_q c i) (seq 0 n)).
Proof.
  intros Hi. destruct (cx_mod c W i ltac:(fold k; lia)) as [V Em].
  pose proof (cx_range c W i ltac:(fold k; lia)) as R. pose proof (cx_range c W (k - 1) ltac:(fold k; lia)) as Rl. fold ql in Rl.
  unfold msd_row. rewrite mreduce_ok; auto; [|dlia]. cbn [bind]. rewrite Em.
  pose proof (Z.mod_pos_bound (ql / 2) (cx_q c i) ltac:(lia)) as Bh.
  rewrite sub64_ok by lia. cbn [bind]. unfold rrow. apply zipM_upd_seq. intros j Hj.
  destruct (msd_entry (f j) i Hi) as [v [E Ev]]. rewrite <- Ev. rewrite <- E. rewrite Em. reflexivity.
Qed.

Lemma rep_msd f : mod_switch_down_next pr (rep c PowerBasis f) = Ok (rep c' PowerBasis (fun j => (f j + ql / 2) / ql)).
Proof.
  destruct (wl_some _ W c' HN) as [H2 [Em [Ed Eb]]]. fold k in H2.
  destruct (cx_mod c W (k - 1) ltac:(fold k; lia)) as [Vl El]. fold ql in El.
  pose proof (cx_range c W (k - 1) ltac:(fold k; lia)) as Rl. fold ql in Rl.
  unfold mod_switch_down_next. rewrite rep_rows. cbn [p_ctx p_repr rep]. rewrite HN. cbn [unwrap bind repr_eqb rassert].
  fold k. rewrite (cx_moduli_len c W). fold k.
  assert (EL : unwrap (match rq_moduli c with [] => None | m0 :: _ => Some (last (rq_moduli c) m0) end) = Ok (cx_m c (k - 1))).
  { pose proof (cx_moduli_len c W) as Lm. fold k in Lm. unfold cx_m. destruct (rq_moduli c) as [|m0 l] eqn:E; [simpl in *; lia|].
    cbn [unwrap]. f_equal. rewrite <- Lm. apply last_nth. discriminate. }
  rewrite EL. cbn [bind]. rewrite El. rewrite len_seq.
  rewrite rassert_true by (apply Nat.leb_le; lia). cbn [bind].
  set (R := map (rrow c PowerBasis f) (seq 0 k)).
  assert (ES : seq 0 k = seq 0 (k - 1) ++ [(k - 1)%nat]).
  { replace k with (S (k - 1)) at 1 by lia. rewrite seq_S. reflexivity. }
  assert (EF : firstn (k - 1) R = map (rrow c PowerBasis f) (seq 0 (k - 1))).
  { unfold R. rewrite ES, map_app. rewrite firstn_app, len_seq, Nat.sub_diag, firstn_O, app_nil_r.
    rewrite firstn_all2; auto. rewrite len_seq. lia. }
  assert (EK : skipn (k - 1) R = [rrow c PowerBasis f (k - 1)]).
  { unfold R. rewrite ES, map_app. rewrite skipn_app, len_seq, Nat.sub_diag, skipn_all2 by (rewrite len_seq; lia). reflexivity. }
  rewrite EF, EK. cbn [mapM]. unfold rrow at 1.
  rewrite (mapM_seq _ _ (fun j => (f j + ql / 2) mod ql)).
  2:{ intros j Hj. cbn [rep_entry]. fold ql. rewrite madd_ok; auto; rewrite El; [|apply Z.mod_pos_bound; lia|dlia].
      f_equal. rewrite Zplus_mod_idemp_l. reflexivity. }
  cbn [bind concat]. rewrite app_nil_r.
  assert (EC : combine (rq_moduli c) (combine (rq_qlinv c) (rq_qlinv_shoup c))
     = map (fun i => (cx_m c i, (nth i (rq_qlinv c) 0, shoup_of (cx_q c i) (nth i (rq_qlinv c) 0)))) (seq 0 (k - 1))).
  { rewrite (wl_invs _ W). fold k. rewrite (list_seq (rq_qlinv c) 0 (k - 1)) at 1 by apply (wl_invl _ W).
    rewrite combine_map. rewrite (cx_moduli c W). fold k. rewrite ES, map_app.
    assert (G : forall (l : list Modulus) y m, length l = length y -> combine (l ++ m) y = combine l (y : list (Z * Z))).
    { induction l as [|a l IH]; intros [|b y] m HL; try discriminate; cbn [app combine].
      - destruct m; reflexivity.
      - f_equal. apply IH. simpl in HL. lia. }
    rewrite G by (rewrite !len_seq; auto). rewrite combine_map. reflexivity. }
  rewrite EC.
  rewrite (zipM_upd_seq _ _ (fun i => map (fun j => ((f j + ql / 2) / ql) mod cx_q c i) (seq 0 n))).
  2:{ intros i Hi. cbn [fst snd]. apply msd_row_ok; auto. }
  cbn [bind]. rewrite rassert_true.
  2:{ apply Nat.ltb_lt. clear - H2. lia. }
  cbn [bind skipn]. rewrite app_nil_r. unfold rep. f_equal. f_equal. rewrite Ed. fold n. rewrite (next_k c c' W HN). fold k.
  apply map_seq_ext. intros i Hi. apply map_seq_ext. intros j Hj. cbn [rep_entry]. rewrite (next_q c c' i W HN) by auto. reflexivity.
Qed.
End Msd.

(** Iterated rounding along the chain. *)
Fixpoint msd_fun (c : RqContext) (i : nat) (f : nat -> Z) {struct i} : nat -> Z :=
  match i with
  | O => f
  | S i' => match rq_next c with
            | Some c' => let ql := cx_q c (cx_k c - 1) in msd_fun c' i' (fun j => (f j + ql / 2) / ql)
            | None => f
            end
  end.
Lemma msd_fun_round i : forall c c' f j, wf_ctx c -> nth_ctx c i = Some c' ->
  msd_fun c i f j = drop_round (rev (skipn (cx_k c - i) (rq_moduli_64 c))) (f j).
Proof.
  induction i as [|i IH]; intros c c' f j W H; cbn [nth_ctx msd_fun] in *.
  - unfold cx_k. rewrite Nat.sub_0_r, skipn_all. reflexivity.
  - destruct (rq_next c) as [c1|] eqn:E; [|discriminate]. pose proof (wf_ctx_loc _ W) as Wl.
    pose proof (wf_ctx_next _ _ W E) as W1. destruct (nth_ctx_wf c1 i c' W1 H) as [_ [Hi _]].
    rewrite (IH c1 c') by auto. rewrite (next_k c c1 Wl E) in *. destruct (wl_some _ Wl c1 E) as [H2 [Em _]].
    rewrite Em. unfold cx_k, cx_q in *. set (l := rq_moduli_64 c) in *. replace (length l - S i)%nat with (length l - 1 - i)%nat by lia.
    assert (ES : skipn (length l - 1 - i) l = skipn (length l - 1 - i) (firstn (length l - 1) l) ++ [nth (length l - 1) l 1]).
    { rewrite (split_nth (length l - 1) l 1) at 2 by lia. rewrite (skipn_all2 (n := S (length l - 1))) by lia.
      rewrite skipn_app. f_equal. rewrite firstn_length.
      replace (length l - 1 - i - Nat.min (length l - 1) (length l))%nat with 0%nat by lia. reflexivity. }
    rewrite ES, rev_app_distr. reflexivity.
Qed.
Lemma rep_msd_iter pr i : forall c c' f, wf_ctx c -> nth_ctx c i = Some c' ->
  msd_iter pr i (rep c PowerBasis f) = Ok (rep c' PowerBasis (msd_fun c i f)).
Proof.
  induction i as [|i IH]; intros c c' f W H; cbn [nth_ctx msd_iter msd_fun] in *.
  - injection H as <-. reflexivity.
  - destruct (rq_next c) as [c1|] eqn:E; [|discriminate]. pose proof (wf_ctx_next _ _ W E) as W1.
    rewrite (rep_msd pr c c1) by (auto using wf_ctx_loc). cbn [bind]. apply IH; auto.
Qed.
Lemma rep_switch_to pr c c' i f : wf_ctx c -> nth_ctx c i = Some c' ->
  mod_switch_to pr (rep c PowerBasis f) c' = Ok (rep c' PowerBasis (msd_fun c i f)).
Proof.
  intros W H. unfold mod_switch_to. cbn [p_ctx rep]. unfold switch_iterations.
  destruct (nth_ctx_wf c i c' W H) as [_ B].
  destruct (switch_loop_spec c c' 0 W) as [[j [E Bj]]|[E NB]].
  - rewrite E. cbn [unwrap bind]. rewrite Nat.add_0_l. rewrite (below_unique c c' j i Bj B).
    apply rep_msd_iter; auto.
  - exfalso. apply (NB i). exact B.
Qed.

(** ** Pointwise inverse *)
Section Inv.
Variables (pr : profile) (c : RqContext).
Hypothesis W : wf_loc c.
Let n := rq_degree c.
Let k := cx_k c.

Lemma cx_prime i : (i < k)%nat -> prime (cx_q c i).
Proof.
  intros Hi. destruct (wl_op _ W i Hi) as [Ep Wn]. destruct (cx_mod c W i Hi) as [_ Em].
  rewrite <- Em, <- Ep. apply (wn_prime _ _ _ Wn).
Qed.

Lemma rep_inverse f : (forall i j, (i < k)%nat -> (j < n)%nat -> rep_entry c Ntt f i j <> 0) ->
  exists g, poly_inverse pr (rep c Ntt f) = Ok (rep c Ntt g)
    /\ forall j, (j < n)%nat -> eqm (cx_Q c) (rmul n f g j) (one j).
Proof.
  intros H0. pose proof (cx_n8 c W) as Hn. fold n in Hn.
  assert (G : forall i j, (i < k)%nat -> (j < n)%nat -> 0 <= rep_entry c Ntt f i j ^ (cx_q c i - 2) mod cx_q c i < cx_q c i
     /\ eqm (cx_q c i) (rep_entry c Ntt f i j * (rep_entry c Ntt f i j ^ (cx_q c i - 2) mod cx_q c i)) 1).
  { intros i j Hi Hj. pose proof (cx_range c W i Hi). pose proof (rep_entry_range c W Ntt f i j Hi). specialize (H0 i j Hi Hj).
    split; [apply Z.mod_pos_bound; lia|]. rewrite eqm_mod. apply fermat_inv; [apply cx_prime; auto|lia]. }
  assert (E : poly_inverse pr (rep c Ntt f) = Ok (mkPoly c Ntt (map (fun i => map (fun j =>
     rep_entry c Ntt f i j ^ (cx_q c i - 2) mod cx_q c i) (seq 0 n)) (seq 0 k)))).
  { unfold poly_inverse. rewrite rep_rows. cbn [p_ctx p_repr rep]. rewrite zero_rows_seq by auto. rewrite cx_moduli by auto.
    fold n k. rewrite combine_map.
    rewrite (zipM_upd_seq _ _ (fun i => map (fun j => rep_entry c Ntt f i j ^ (cx_q c i - 2) mod cx_q c i) (seq 0 n))); [reflexivity|].
    intros i Hi. cbn [fst snd]. destruct (cx_mod c W i Hi) as [V Em]. unfold inv_vec, rrow. fold n.
    rewrite (mapM_seq _ _ (fun j => rep_entry c Ntt f i j ^ (cx_q c i - 2) mod cx_q c i)).
    - cbn [bind]. rewrite !len_seq, Nat.eqb_refl. reflexivity.
    - intros j Hj. rewrite minv_ok; auto; rewrite Em; [reflexivity|].
      pose proof (rep_entry_range c W Ntt f i j Hi). specialize (H0 i j Hi Hj). lia. }
  set (P := mkPoly c Ntt _) in E.
  destruct (wf_rep pr c W P eq_refl) as [g [Hg Eg]].
  { split; [unfold P; cbn [p_rows]; apply len_seq|]. unfold P. cbn [p_rows p_ctx]. intros i Hi. rewrite nth_map_seq by auto.
    split; [apply len_seq|]. apply Forall_forall. intros x Hx. apply in_map_iff in Hx. destruct Hx as [j [<- Hj]].
    apply in_seq in Hj. apply G; auto. lia. }
  cbn [p_repr P] in Eg. exists g. split; [rewrite E, Eg; reflexivity|].
  apply (rep_inj pr c W Ntt); [discriminate|]. unfold rep. f_equal. apply map_seq_ext. intros i Hi. apply map_seq_ext. intros j Hj.
  assert (Ee : rep_entry c Ntt g i j = rep_entry c Ntt f i j ^ (cx_q c i - 2) mod cx_q c i).
  { assert (X := f_equal (fun p => nth j (nth i (p_rows p) []) 0) Eg). cbv beta in X. unfold P in X. cbn [p_rows] in X.
    rewrite rep_rows in X. rewrite !nth_map_seq in X by auto. rewrite row_nth in X by auto. auto. }
  destruct (G i j Hi Hj) as [_ C]. rewrite <- Ee in C. cbn [rep_entry] in C |- *.
  set (y := cx_psi c i ^ Z.of_nat (2 * bitrev (cx_L c) j + 1)) in *.
  change (eqm (cx_q c i) (peval n (rmul n f g) y) (peval n one y)).
  rewrite peval_rmul; [|lia|apply (cx_point_n c W i j Hi)].
  rewrite !eqm_mod in C. fold n in C. rewrite C. apply eq_eqm. unfold peval. rewrite (sumn_single n 0); try lia.
  - unfold one. simpl. reflexivity.
  - intros u Hu Hne. unfold one. apply Nat.eqb_neq in Hne. rewrite Hne. ring.
Qed.
End Inv.
