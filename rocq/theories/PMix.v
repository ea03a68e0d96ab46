(** Operators applied to polynomials of different levels, and key switching
    between levels. *)
From Verif Require Import PBase NT Spec PSum MModulus MUtils MNtt MRns MRq MBfv MKsk PModulus PUtils PNttMath PNtt PNttNew PCrt PRns PRnsScale PUtils2 SpecRq SpecBfv SpecKsk PRing PRq PRq2 PRq3 PRq4 PRq5 PBfv PBfv2 PKsk PKsk2.

(** The moduli of [c] are the first moduli of [C], with the same transforms. *)
Record sub_ctx (c C : RqContext) : Prop := {
  sx_n : rq_degree c = rq_degree C;
  sx_k : (cx_k c <= cx_k C)%nat;
  sx_q : forall i, (i < cx_k c)%nat -> cx_q c i = cx_q C i;
  sx_psi : forall i, (i < cx_k c)%nat -> cx_psi c i = cx_psi C i }.

Lemma rq_new_parts pr env ms n bd c : rq_new pr env ms n bd = Ok c ->
  rq_moduli_64 c = ms /\ rq_degree c = n /\
  exists mods, mapM modulus_new ms = Ok mods /\ mapM (fun m => ntt_new pr env m n) mods = Ok (rq_ntt_ops c).
Proof.
  unfold rq_new. cbn [rq_new_fuel]. intros H. binv H. rename v into rns, E into ER. binv H. rename v into ops, E into EO.
  binv H. binv H. binv H. injection H as <-. cbn [rq_moduli_64 rq_degree rq_ntt_ops]. split; [reflexivity|]. split; [reflexivity|].
  unfold rns_new in ER. binv ER. rename v2 into mods. exists mods. split; [assumption|].
  binv ER. binv ER. binv ER. injection ER as <-. exact EO.
Qed.

Lemma mapM_firstn {A B} (f : A -> outcome B) k : forall l r, mapM f l = Ok r -> mapM f (firstn k l) = Ok (firstn k r).
Proof.
  induction k as [|k IH]; intros l r H; [reflexivity|]. destruct l as [|x l]; cbn [mapM] in H; [injection H as <-; reflexivity|].
  binv H. binv H. injection H as <-. cbn [firstn mapM]. rewrite E. cbn [bind]. rewrite (IH _ _ E0). reflexivity.
Qed.

Lemma nth_firstn_lt {A} (d : A) k : forall l i, (i < k)%nat -> nth i (firstn k l) d = nth i l d.
Proof.
  induction k as [|k IH]; intros l i Hi; [lia|]. destruct l as [|x l]; [destruct i; reflexivity|].
  destruct i as [|i]; [reflexivity|]. cbn [firstn nth]. apply IH. lia.
Qed.
Lemma nth_error_firstn_lt {A} k : forall (l : list A) i, (i < k)%nat -> nth_error (firstn k l) i = nth_error l i.
Proof.
  induction k as [|k IH]; intros l i Hi; [lia|]. destruct l as [|x l]; [destruct i; reflexivity|].
  destruct i as [|i]; [reflexivity|]. cbn [firstn nth_error]. apply IH. lia.
Qed.

Lemma sub_of_new pr env ms n bd k c C : (k <= length ms)%nat ->
  rq_new pr env ms n bd = Ok C -> rq_new pr env (firstn k ms) n bd = Ok c -> sub_ctx c C.
Proof.
  intros Hk EC Ec. destruct (rq_new_parts _ _ _ _ _ _ EC) as [M1 [N1 [l1 [A1 B1]]]].
  destruct (rq_new_parts _ _ _ _ _ _ Ec) as [M2 [N2 [l2 [A2 B2]]]].
  rewrite (mapM_firstn _ k _ _ A1) in A2. injection A2 as <-. rewrite (mapM_firstn _ k _ _ B1) in B2. injection B2 as B2.
  assert (Lk : cx_k c = k) by (unfold cx_k; rewrite M2, firstn_length; lia).
  constructor.
  - congruence.
  - rewrite Lk. unfold cx_k. rewrite M1. auto.
  - rewrite Lk. intros i Hi. unfold cx_q. rewrite M1, M2. apply nth_firstn_lt. auto.
  - rewrite Lk. intros i Hi. unfold cx_psi. rewrite N1, N2, <- B2. rewrite nth_error_firstn_lt by auto. reflexivity.
Qed.

Lemma sub_refl c : sub_ctx c c.
Proof. constructor; auto. Qed.

Lemma combine_trunc {A B} : forall (x z : list A) (y : list B), length y = length x -> combine (x ++ z) y = combine x y.
Proof.
  induction x as [|a x IH]; intros z [|b y] H; try discriminate; cbn [app combine].
  - destruct z; reflexivity.
  - f_equal. apply IH. cbn in H. lia.
Qed.
Lemma crt_exists c (x : nat -> Z) : wf_loc c -> exists h, forall i, (i < cx_k c)%nat -> eqm (cx_q c i) h (x i).
Proof.
  intros W. exists (sumn (cx_k c) (fun i => nth i (rns_garner (rq_rns c)) 0 * x i)). intros j Hj.
  rewrite (sumn_eqm (cx_q c j) (cx_k c) _ (fun i => if (i =? j)%nat then x j else 0)).
  - rewrite (sumn_single (cx_k c) j); auto; [rewrite Nat.eqb_refl; reflexivity|]. intros i Hi N. destruct (Nat.eqb_spec i j); [contradiction|auto].
  - intros i Hi. destruct (wr_g _ _ (wl_rns _ W) i Hi) as [_ [G1 G2]]. destruct (Nat.eqb_spec i j) as [->|N].
    + transitivity (1 * x j); [|rewrite Z.mul_1_l; reflexivity]. apply eqm_mul; [exact G1|reflexivity].
    + transitivity (0 * x i); [|reflexivity]. apply eqm_mul; [|reflexivity]. apply (G2 j Hj). auto.
Qed.

Lemma row_eqm c r f g i : wf_loc c -> (i < cx_k c)%nat -> (forall j, (j < rq_degree c)%nat -> eqm (cx_q c i) (f j) (g j)) -> rrow c r f i = rrow c r g i.
Proof.
  intros W Hi H. unfold rrow. apply map_seq_ext. intros j Hj. unfold rep_entry.
  destruct r; [apply H; auto| |]; apply peval_eqm; auto.
Qed.

Lemma combine_firstn_l' {A B} k : forall (x : list A) (y : list B), combine (firstn k x) y = firstn k (combine x y).
Proof.
  induction k as [|k IH]; intros x y; [reflexivity|]. destruct x, y; cbn [firstn combine]; auto. f_equal. apply IH.
Qed.
Lemma zipM_upd_firstn {A B} (f : A -> B -> outcome A) k : forall a b r, zipM_upd f a b = Ok r -> length b = length a ->
  zipM_upd f a (firstn k b) = Ok (firstn k r ++ skipn k a).
Proof.
  induction k as [|k IH]; intros a b r E H; [destruct a; reflexivity|].
  destruct a as [|x a], b as [|y b]; try discriminate; cbn [zipM_upd firstn skipn] in *.
  - injection E as <-. reflexivity.
  - binv E. rename v into x', E0 into E1. binv E. rename v into r', E0 into E2. injection E as <-.
    rewrite E1. cbn [bind]. rewrite (IH a b r') by (auto; cbn in H; lia). reflexivity.
Qed.

Section Mix.
Variables (pr : profile) (c C : RqContext).
Hypothesis (W : wf_loc c) (WC : wf_loc C) (SX : sub_ctx c C).
Let n := rq_degree c.
Let K := cx_k c.

Lemma row_sub r f i : (i < K)%nat -> rrow C r f i = rrow c r f i.
Proof.
  intros Hi. unfold rrow. rewrite <- (sx_n _ _ SX). apply map_seq_ext. intros j Hj. unfold rep_entry, cx_L.
  rewrite (sx_q _ _ SX i Hi), (sx_psi _ _ SX i Hi), (sx_n _ _ SX). reflexivity.
Qed.
Lemma rows_split r f : p_rows (rep C r f) = p_rows (rep c r f) ++ map (rrow C r f) (seq K (cx_k C - K)).
Proof.
  rewrite !rep_rows. fold K. replace (cx_k C) with (K + (cx_k C - K))%nat at 1 by (pose proof (sx_k _ _ SX); unfold K; lia).
  rewrite seq_app, map_app. cbn [Nat.add]. f_equal. apply map_ext_in. intros i Hi. apply in_seq in Hi. apply row_sub. lia.
Qed.
Lemma rows_len r f : length (p_rows (rep c r f)) = K.
Proof. rewrite rep_rows. apply len_seq. Qed.
Lemma combine_mods r f : combine (p_rows (rep C r f)) (rq_moduli c) = combine (p_rows (rep c r f)) (rq_moduli c).
Proof. rewrite rows_split. apply combine_trunc. rewrite rows_len. apply (cx_moduli_len c W). Qed.

Lemma mix_add f g : poly_add pr (rep c Ntt f) (rep C Ntt g) = Ok (rep c Ntt (fun j => f j + g j)).
Proof.
  rewrite <- (rep_add pr c W). unfold poly_add. cbn [p_repr p_ctx rep repr_eqb rassert bind].
  change (mkPoly c Ntt (map _ (seq 0 (cx_k c)))) with (rep c Ntt f).
  rewrite (combine_mods Ntt g). reflexivity.
Qed.
Lemma mix_sub f g : poly_sub pr (rep c Ntt f) (rep C Ntt g) = Ok (rep c Ntt (fun j => f j - g j)).
Proof.
  rewrite <- (rep_sub pr c W). unfold poly_sub. cbn [p_repr p_ctx rep repr_eqb rassert bind].
  change (mkPoly c Ntt (map _ (seq 0 (cx_k c)))) with (rep c Ntt f).
  rewrite (combine_mods Ntt g). reflexivity.
Qed.
Lemma mix_mul f g : poly_mul pr (rep c Ntt f) (rep C Ntt g) = Ok (rep c Ntt (rmul n f g)).
Proof.
  unfold n. rewrite <- (rep_mul pr c W). unfold poly_mul. cbn [p_repr p_ctx rep repr_eqb rassert bind].
  change (mkPoly c Ntt (map _ (seq 0 (cx_k c)))) with (rep c Ntt f).
  rewrite (combine_mods Ntt g). reflexivity.
Qed.

(** The larger context on the left: the rows beyond those of [c] keep the left
    operand. *)
Definition mixed (h f u : nat -> Z) : Prop := forall i j, (i < cx_k C)%nat -> (j < rq_degree C)%nat ->
  eqm (cx_q C i) (h j) (if (i <? K)%nat then u j else f j).
Lemma mixed_rows f u : exists h, mixed h f u /\
  mkPoly C Ntt (firstn K (p_rows (rep C Ntt u)) ++ skipn K (p_rows (rep C Ntt f))) = rep C Ntt h.
Proof.
  destruct (fin_choice 0 (fun j h => forall i, (i < cx_k C)%nat -> eqm (cx_q C i) h (if (i <? K)%nat then u j else f j)) (rq_degree C)) as [h Hh].
  { intros j _. apply (crt_exists C (fun i => if (i <? K)%nat then u j else f j) WC). }
  assert (M : mixed h f u) by (intros i j Hi Hj; apply Hh; auto).
  exists h. split; [exact M|]. unfold rep at 3. f_equal. change (map _ (seq 0 (cx_k C))) with (map (rrow C Ntt h) (seq 0 (cx_k C))).
  rewrite !rep_rows. pose proof (sx_k _ _ SX) as HK. fold K in HK.
  replace (cx_k C) with (K + (cx_k C - K))%nat by lia. rewrite seq_app, !map_app. cbn [Nat.add].
  rewrite firstn_app, skipn_app, !len_seq, Nat.sub_diag. cbn [firstn skipn]. rewrite app_nil_r.
  rewrite firstn_all2, skipn_all2 by (rewrite len_seq; lia). cbn [app]. f_equal.
  - apply map_ext_in. intros i Hi. apply in_seq in Hi. apply row_eqm; auto; [lia|]. intros j Hj. symmetry.
    rewrite (M i j) by (auto; lia). destruct (Nat.ltb_spec i K); [reflexivity|lia].
  - apply map_ext_in. intros i Hi. apply in_seq in Hi. apply row_eqm; auto; [lia|]. intros j Hj. symmetry.
    rewrite (M i j) by (auto; lia). destruct (Nat.ltb_spec i K); [lia|reflexivity].
Qed.

Lemma rows_firstn r f : p_rows (rep c r f) = firstn K (p_rows (rep C r f)).
Proof.
  rewrite rows_split. rewrite firstn_app, rows_len, Nat.sub_diag. cbn [firstn]. rewrite app_nil_r.
  rewrite firstn_all2; auto. rewrite rows_len. auto.
Qed.

Lemma big_add f g : exists h, poly_add pr (rep C Ntt f) (rep c Ntt g) = Ok (rep C Ntt h) /\ mixed h f (fun j => f j + g j).
Proof.
  destruct (mixed_rows f (fun j => f j + g j)) as [h [M E]]. exists h. split; auto. rewrite <- E.
  pose proof (rep_add pr C WC f g) as H. unfold poly_add in *. cbn [p_repr rep repr_eqb rassert bind] in *. cbn [p_ctx rep] in *.
  rewrite (rows_firstn Ntt g), combine_firstn_l'.
  binv H. injection H as H. erewrite zipM_upd_firstn; [|exact E0|].
  - cbn [bind]. rewrite H. reflexivity.
  - rewrite combine_length, !rep_rows, !len_seq, (cx_moduli_len C WC). lia.
Qed.
Lemma big_sub f g : exists h, poly_sub pr (rep C Ntt f) (rep c Ntt g) = Ok (rep C Ntt h) /\ mixed h f (fun j => f j - g j).
Proof.
  destruct (mixed_rows f (fun j => f j - g j)) as [h [M E]]. exists h. split; auto. rewrite <- E.
  pose proof (rep_sub pr C WC f g) as H. unfold poly_sub in *. cbn [p_repr rep repr_eqb rassert bind] in *. cbn [p_ctx rep] in *.
  rewrite (rows_firstn Ntt g), combine_firstn_l'.
  binv H. injection H as H. erewrite zipM_upd_firstn; [|exact E0|].
  - cbn [bind]. rewrite H. reflexivity.
  - rewrite combine_length, !rep_rows, !len_seq, (cx_moduli_len C WC). lia.
Qed.
Lemma big_mul f g : exists h, poly_mul pr (rep C Ntt f) (rep c Ntt g) = Ok (rep C Ntt h) /\ mixed h f (rmul n f g).
Proof.
  destruct (mixed_rows f (rmul n f g)) as [h [M E]]. exists h. split; auto. rewrite <- E.
  pose proof (rep_mul pr C WC f g) as H. unfold n in *. rewrite <- (sx_n _ _ SX) in H. unfold poly_mul in *. cbn [p_repr rep repr_eqb rassert bind] in *. cbn [p_ctx rep] in *.
  rewrite (rows_firstn Ntt g), combine_firstn_l'.
  binv H. injection H as H. erewrite zipM_upd_firstn; [|exact E0|].
  - cbn [bind]. rewrite H. reflexivity.
  - rewrite combine_length, !rep_rows, !len_seq, (cx_moduli_len C WC). lia.
Qed.
End Mix.

(** Contexts of the levels of a parameter set. *)
Lemma level_new pr env ext n t ms v bd P i c : bfv_new_from pr env ext n t ms v bd = Ok P -> get (bp_q_ctxs P) i = Ok c ->
  (i < length ms)%nat /\ rq_new pr env (firstn (length ms - i) ms) n bd = Ok c.
Proof.
  unfold bfv_new_from. intros H G. binv H. binv H. binv H. binv H. rename v3 into lvls, E2 into EL.
  binv H. binv H. binv H. injection H as <-. cbn [bp_q_ctxs] in G.
  pose proof (mapM_length _ _ _ EL) as LL. rewrite seq_length in LL.
  assert (Hi := get_inv_lt _ _ _ G). rewrite map_length in Hi. split; [lia|].
  unfold get in G. rewrite nth_error_map in G. destruct (nth_error lvls i) as [x|] eqn:EX; [|discriminate].
  cbn [option_map] in G. apply Ok_inj in G.
  pose proof (mapM_nth _ _ _ 0%nat x i EL ltac:(rewrite seq_length; lia)) as EN. cbv beta in EN.
  rewrite (nth_error_nth _ _ _ EX), seq_nth in EN by lia. cbn [Nat.add] in EN.
  unfold level_params in EN. cbv zeta in EN. binv EN. rename v6 into qc, E5 into EQ. rewrite EQ. f_equal.
  repeat (binv EN). injection EN as <-. exact G.
Qed.
Lemma sub_levels P i k c C : built_params P -> level P i c -> level P k C -> (k <= i)%nat -> sub_ctx c C.
Proof.
  intros [pr [env [ext [n [t [ms [v [bd [EH [H0 [Hx [Ht [Hq E]]]]]]]]]]]]] Lc LC Hk.
  destruct (level_new _ _ _ _ _ _ _ _ _ _ _ E Lc) as [Hi Ec]. destruct (level_new _ _ _ _ _ _ _ _ _ _ _ E LC) as [_ EC].
  apply (sub_of_new pr env (firstn (length ms - k) ms) n bd (length ms - i)); auto.
  - rewrite firstn_length. lia.
  - rewrite firstn_firstn, Nat.min_l by lia. exact Ec.
Qed.

(** ** Key generation for any pair of levels *)
Section New.
Variables (pr : profile) (P : BfvParams) (i0 k0 : nat) (c C : RqContext).
Hypothesis (LV : wf_level P i0 c) (LVC : wf_level P k0 C).
Let W : wf_loc c := wf_ctx_loc _ (lv_wf _ _ _ LV).
Let WC : wf_loc C := wf_ctx_loc _ (lv_wf _ _ _ LVC).
Let n := rq_degree c.
Let K := cx_k c.
Lemma levels_n : rq_degree c = rq_degree C.
Proof. rewrite (lv_n _ _ _ LV), (lv_n _ _ _ LVC). reflexivity. Qed.
Let HN := levels_n.

Lemma cross_new sk u rnd : sk_of P sk -> 1 <= bp_variance P <= 16 -> (forall i, (i < cx_k c)%nat -> wf_poly (mkPoly C Ntt (rnd_rows rnd i))) -> (forall i l, 0 <= rnd_words rnd i l < 2 ^ 64) ->
  exists k b a e, ksk_new pr sk (rep C Ntt u) i0 k0 rnd = Ok k /\ k_ksk_ctx k = C /\ k_ct_ctx k = c
    /\ k_c0 k = map (fun i => rep C Ntt (b i)) (seq 0 K) /\ k_c1 k = map (fun i => rep C Ntt (a i)) (seq 0 K)
    /\ (forall i j, phase n (sk_fun sk) [b i; a i] j = nth i (rns_garner (rq_rns c)) 0 * u j + e i j)
    /\ forall i j, Z.abs (e i j) <= 2 * bp_variance P.
Proof.
  intros [SP [S1 S2]] Hv R1 R2. rewrite SP in S2.
  destruct (fin_choice (fun _ : nat => 0) (fun i (a : nat -> Z) => poly_random C Ntt (rnd_rows rnd i) = rep C Ntt a) K) as [a Ha].
  { intros i Hi. apply (poly_random_rep pr P k0 C LVC). apply R1. auto. }
  unfold ksk_new. rewrite SP. rewrite (lv_ctx _ _ _ LV), (lv_ctx _ _ _ LVC). cbn [bind]. rewrite (sk_ntt_ok pr P k0 C LVC) by auto. cbn [bind].
  change (fun j => nth j (sk_coeffs sk) 0) with (sk_fun sk).
  assert (Lk : length (rns_moduli (rq_rns c)) = K).
  { rewrite <- (wl_mod _ W). apply (cx_moduli_len c W). }
  rewrite Lk.
  rewrite (map_seq_ext (fun i => poly_random C Ntt (rnd_rows rnd i)) (fun i => rep C Ntt (a i)) K) by auto. rewrite len_seq.
  assert (EG : rns_garner (rq_rns c) = map (fun i => nth i (rns_garner (rq_rns c)) 0) (seq 0 K)).
  { apply list_seq. apply (wr_gl _ _ (wl_rns _ W)). }
  set (A := map (fun i => rep C Ntt (a i)) (seq 0 K)).
  replace (combine A (rns_garner (rq_rns c))) with (combine A (map (fun i => nth i (rns_garner (rq_rns c)) 0) (seq 0 K))) by (rewrite <- EG; reflexivity).
  unfold A. rewrite combine_map, combine_self.
  rewrite (mapM_seq _ _ (fun i => rep C Ntt (fun j => cbd_f (rnd_words rnd i) (bp_variance P) j - rmul (rq_degree C) (a i) (sk_fun sk) j + nth i (rns_garner (rq_rns c)) 0 * u j))).
  2:{ intros i Hi. cbn [fst snd]. unfold ksk_entry.
      rewrite (rep_mul pr C WC). cbn [bind]. rewrite (rep_random_small pr C WC) by (auto; congruence). cbn [bind].
      rewrite (rep_sub pr C WC). cbn [bind]. rewrite (rep_mul_big pr C WC). cbn [bind]. rewrite (rep_add pr C WC). reflexivity. }
  cbn [bind]. eexists. eexists. exists a, (fun i => cbd_f (rnd_words rnd i) (bp_variance P)). split; [reflexivity|].
  cbn [k_ksk_ctx k_ct_ctx k_c0 k_c1]. split; [reflexivity|]. split; [reflexivity|]. split; [reflexivity|]. split; [reflexivity|]. split.
  - intros i j. unfold n. rewrite (phase2 c), <- HN. rewrite (rmul_comm (rq_degree c) (sk_fun sk)). ring.
  - intros i j. apply (cbd_f_bound C). lia.
Qed.
End New.

(** ** Key switching with a key of another level *)
Section Cross.
Variables (pr : profile) (P : BfvParams) (i0 k0 : nat) (c C : RqContext).
Hypothesis (LV : wf_level P i0 c) (LVC : wf_level P k0 C) (SX : sub_ctx c C).
Let W : wf_loc c := wf_ctx_loc _ (lv_wf _ _ _ LV).
Let WC : wf_loc C := wf_ctx_loc _ (lv_wf _ _ _ LVC).
Let n := rq_degree c.
Let K := cx_k c.
Let Q := cx_Q c.

Section Run.
Variables (b a : nat -> nat -> Z).
Lemma row_u64_C p i : (i < K)%nat -> poly_from_u64 pr C (rrow c PowerBasis p i) = Ok (rep C PowerBasis (digit c p i)).
Proof.
  intros Hi. pose proof (cx_range c W i Hi) as R. change (2 ^ 62) with 4611686018427387904 in R. unfold rrow. rewrite (rep_from_u64 pr C WC).
  - f_equal. apply (rep_ext C WC). intros j Hj. rewrite <- (sx_n _ _ SX) in Hj. rewrite nth_map_seq by auto. reflexivity.
  - apply Forall_forall. intros x Hx. apply in_map_iff in Hx. destruct Hx as [j [<- _]]. cbn [rep_entry].
    pose proof (Z.mod_pos_bound (p j) (cx_q c i) ltac:(lia)). change W64 with 18446744073709551616. lia.
  - rewrite len_seq, (sx_n _ _ SX). auto.
Qed.

Lemma cross_loop p : forall m s0 u v, (s0 + m <= K)%nat ->
  foldM (key_switch_step pr C)
    (combine (map (rrow c PowerBasis p) (seq s0 m)) (combine (map (fun i => rep C Ntt (b i)) (seq s0 m)) (map (fun i => rep C Ntt (a i)) (seq s0 m))))
    (rep c Ntt u, rep c Ntt v)
  = Ok (rep c Ntt (fun j => u j + sumn m (fun i => rmul n (digit c p (s0 + i)) (b (s0 + i)%nat) j)),
        rep c Ntt (fun j => v j + sumn m (fun i => rmul n (digit c p (s0 + i)) (a (s0 + i)%nat) j))).
Proof.
  induction m as [|m IH]; intros s0 u v Hm.
  - cbn [seq map combine foldM sumn]. f_equal. f_equal; apply (rep_ext c W); intros; ring.
  - cbn [seq map combine foldM]. unfold key_switch_step at 1. cbn [fst snd].
    rewrite row_u64_C by lia. cbn [bind]. rewrite (change_fwd pr C WC). cbn [bind].
    rewrite !(rep_mul pr C WC). cbn [bind]. rewrite !(mix_add pr c C W SX). cbn [bind]. rewrite IH by lia.
    rewrite <- (sx_n _ _ SX). fold n.
    f_equal. f_equal; apply (rep_ext c W); intros j Hj; cbv beta; rewrite sumn_S_l, Nat.add_0_r, <- Z.add_assoc; f_equal; f_equal;
      apply sumn_ext; intros i Hi; rewrite Nat.add_succ_r; reflexivity.
Qed.

Lemma cross_run k p : k_ksk_ctx k = C -> k_ct_ctx k = c ->
  k_c0 k = map (fun i => rep C Ntt (b i)) (seq 0 K) -> k_c1 k = map (fun i => rep C Ntt (a i)) (seq 0 K) ->
  key_switch pr k (rep c PowerBasis p)
  = Ok (rep c Ntt (fun j => sumn K (fun i => rmul n (digit c p i) (b i) j)), rep c Ntt (fun j => sumn K (fun i => rmul n (digit c p i) (a i) j))).
Proof.
  intros E1 E2 E3 E4. unfold key_switch. rewrite E1, E2, E3, E4. rewrite rep_rows. cbn [p_ctx p_repr rep]. rewrite ctx_eqb_refl.
  cbn [rassert bind repr_eqb]. rewrite rep_zero by auto. rewrite cross_loop by lia. cbn [Nat.add]. reflexivity.
Qed.
End Run.

Lemma cross_ok k s from e p b a G : k_ksk_ctx k = C -> k_ct_ctx k = c -> gadget c G ->
  k_c0 k = map (fun i => rep C Ntt (b i)) (seq 0 K) -> k_c1 k = map (fun i => rep C Ntt (a i)) (seq 0 K) ->
  (forall i j, (i < K)%nat -> (j < n)%nat -> eqm Q (phase n s [b i; a i] j) (G i * from j + e i j)) ->
  exists c0 c1, key_switch pr k (rep c PowerBasis p) = Ok (rep c Ntt c0, rep c Ntt c1)
    /\ forall j, (j < n)%nat -> eqm Q (phase n s [c0; c1] j) (rmul n p from j + ks_noise c e p j).
Proof.
  intros E1 E2 HG E3 E4 HE. rewrite (cross_run b a k p E1 E2 E3 E4). eexists. eexists. split; [reflexivity|].
  intros j Hj. rewrite (phase2 c). rewrite rmul_sum_r. rewrite <- sumn_add.
  transitivity (sumn K (fun i => rmul n (digit c p i) (fun l => G i * from l + e i l) j)).
  - apply sumn_eqm. intros i Hi.
    change (rmul (rq_degree c) s (fun j0 => rmul n (digit c p i) (a i) j0) j) with (rmul n s (rmul n (digit c p i) (a i)) j).
    replace (rmul n (digit c p i) (b i) j + rmul n s (rmul n (digit c p i) (a i)) j) with (rmul n (digit c p i) (fun l => phase n s [b i; a i] l) j).
    + apply rmul_eqm; [reflexivity|]. intros l Hl. apply HE; auto.
    + rewrite (rmul_ext n (digit c p i) (digit c p i) (fun l => phase n s [b i; a i] l) (fun l => b i l + rmul n s (a i) l)); auto;
        [|intros l Hl; apply (phase2 c)].
      rewrite rmul_add_r. f_equal. rewrite <- !rmul_assoc by (pose proof (cx_n8 c W); unfold n; lia). apply rmul_ext; auto. intros l Hl. apply rmul_comm.
  - rewrite (sumn_ext K _ (fun i => rmul n (digit c p i) (fun l => G i * from l) j + rmul n (digit c p i) (e i) j)) by (intros; apply rmul_add_r).
    rewrite sumn_add. apply eqm_add; [|reflexivity].
    rewrite (sumn_ext K _ (fun i => rmul n (fun l => G i * digit c p i l) from j)) by (intros; rewrite rmul_scal_r, rmul_scal_l; reflexivity).
    rewrite <- rmul_sum_l. apply rmul_eqm; [|reflexivity]. intros l Hl. apply (gadget_recompose P i0 c LV G (p l) HG).
Qed.

End Cross.

(** A key of a smaller context than the polynomial: the rows beyond it stay 0. *)
Section Up.
Variables (pr : profile) (c C : RqContext).
Hypothesis (W : wf_loc c) (WC : wf_loc C) (SX : sub_ctx C c).
Let n := rq_degree c.

Definition top_zero (f : nat -> Z) : Prop := forall i j, (cx_k C <= i < cx_k c)%nat -> (j < n)%nat -> eqm (cx_q c i) (f j) 0.

Lemma up_row p i : (i < cx_k c)%nat -> exists d, poly_from_u64 pr C (rrow c PowerBasis p i) = Ok (rep C PowerBasis d).
Proof.
  intros Hi. pose proof (cx_range c W i Hi) as R. change (2 ^ 62) with 4611686018427387904 in R. eexists. unfold rrow. apply (rep_from_u64 pr C WC).
  - apply Forall_forall. intros x Hx. apply in_map_iff in Hx. destruct Hx as [j [<- _]]. cbn [rep_entry].
    pose proof (Z.mod_pos_bound (p j) (cx_q c i) ltac:(lia)). change W64 with 18446744073709551616. lia.
  - rewrite len_seq, (sx_n _ _ SX). auto.
Qed.

Lemma up_loop p b a : forall m s0 u v, (s0 + m <= cx_k c)%nat -> top_zero u -> top_zero v ->
  exists u' v', foldM (key_switch_step pr C)
    (combine (map (rrow c PowerBasis p) (seq s0 m)) (combine (map (fun i => rep C Ntt (b i)) (seq s0 m)) (map (fun i => rep C Ntt (a i)) (seq s0 m))))
    (rep c Ntt u, rep c Ntt v) = Ok (rep c Ntt u', rep c Ntt v') /\ top_zero u' /\ top_zero v'.
Proof.
  assert (Z0 : forall h f g, mixed C c h f g -> top_zero f -> top_zero h).
  { intros h f g M Hf i j Hi Hj. rewrite (M i j) by (auto; lia). destruct (Nat.ltb_spec i (cx_k C)); [lia|]. apply Hf; auto. }
  induction m as [|m IH]; intros s0 u v Hm Hu Hv.
  - exists u, v. auto.
  - cbn [seq map combine foldM]. unfold key_switch_step at 1. cbn [fst snd].
    destruct (up_row p s0 ltac:(lia)) as [d Ed]. rewrite Ed. cbn [bind]. rewrite (change_fwd pr C WC). cbn [bind].
    rewrite !(rep_mul pr C WC). cbn [bind].
    destruct (big_add pr C c W SX u (rmul (rq_degree C) d (b s0))) as [h [Eh Mh]]. rewrite Eh. cbn [bind].
    destruct (big_add pr C c W SX v (rmul (rq_degree C) d (a s0))) as [g [Eg Mg]]. rewrite Eg. cbn [bind].
    apply IH; [lia| |]; eapply Z0; eauto.
Qed.

Lemma up_run k p b a : k_ksk_ctx k = C -> k_ct_ctx k = c ->
  k_c0 k = map (fun i => rep C Ntt (b i)) (seq 0 (cx_k c)) -> k_c1 k = map (fun i => rep C Ntt (a i)) (seq 0 (cx_k c)) ->
  exists u v, key_switch pr k (rep c PowerBasis p) = Ok (rep c Ntt u, rep c Ntt v) /\ top_zero u /\ top_zero v.
Proof.
  intros E1 E2 E3 E4. unfold key_switch. rewrite E1, E2, E3, E4. rewrite rep_rows. cbn [p_ctx p_repr rep]. rewrite ctx_eqb_refl.
  cbn [rassert bind repr_eqb]. rewrite rep_zero by auto. apply up_loop; auto; intros i j _ _; reflexivity.
Qed.
End Up.
