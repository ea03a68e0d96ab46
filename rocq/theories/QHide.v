(** Claim C86: queries hide the index, up to Ring-LWE. *)
From Coq Require Import FinFun.
From Verif Require Import PBase NT Spec PSum MModulus MUtils MNtt MRns MRq MBfv MKsk MGalois MRgsw MEval SpecRlwe SpecHide PModulus PUtils PUtils2 SpecRq SpecBfv SpecKsk PRing PRingT PRq PRq2 PRq3 PRq4 PRq5 QRq PBfv PBfv2 PBfv3 QBfv PKsk PKsk2 QKsk PRns PRnsScale PFold TestEnv TestBfv QRlwe PClient PRetr TestEval.

(** ** Every sample vector can be listed *)
Definition cov {A} (P : A -> Prop) : Prop := exists E, forall x : A, In x E <-> P x.
Lemma cov_range q : cov (fun x => 0 <= x < q).
Proof.
  exists (map Z.of_nat (seq 0 (Z.to_nat q))). intros x. rewrite in_map_iff. split.
  - intros [k [<- H]]. apply in_seq in H. lia.
  - intros H. exists (Z.to_nat x). split; [lia|]. apply in_seq. lia.
Qed.
Lemma cov_pair {A B} (P : A -> Prop) (Q : B -> Prop) : cov P -> cov Q -> cov (fun x => P (fst x) /\ Q (snd x)).
Proof. intros [E HE] [F HF]. exists (list_prod E F). intros [a b]. rewrite in_prod_iff, HE, HF. reflexivity. Qed.
Lemma cov_dep {A} (d : A) (P : nat -> A -> Prop) m : (forall i, (i < m)%nat -> cov (P i)) ->
  cov (fun l => length l = m /\ forall i, (i < m)%nat -> P i (nth i l d)).
Proof.
  induction m as [|m IH]; intros H.
  - exists [[]]. intros l. cbn [In]. split.
    + intros [<-|[]]. split; [reflexivity|lia].
    + intros [HL _]. left. destruct l; [reflexivity|discriminate].
  - destruct IH as [E HE]; [intros; apply H; lia|]. destruct (H m (Nat.lt_succ_diag_r m)) as [F HF].
    exists (map (fun x => fst x ++ [snd x]) (list_prod E F)). intros l. rewrite in_map_iff. split.
    + intros [[a b] [<- HI]]. cbn [fst snd]. apply in_prod_iff in HI. rewrite HE, HF in HI. destruct HI as [[HL HP] HB].
      split; [rewrite app_length; cbn [length]; lia|]. intros i Hi. destruct (Nat.eq_dec i m) as [->|Hne].
      * rewrite app_nth2, HL, Nat.sub_diag by lia. exact HB.
      * rewrite app_nth1 by lia. apply HP. lia.
    + intros [HL HP]. exists (firstn m l, nth m l d). cbn [fst snd]. split.
      * rewrite <- (firstn_skipn m l) at 3. f_equal. destruct (skipn m l) as [|x r] eqn:E1.
        { exfalso. pose proof (skipn_length m l) as SL. rewrite E1 in SL. cbn [length] in SL. lia. }
        pose proof (skipn_length m l) as SL. rewrite E1 in SL. cbn [length] in SL. destruct r; cbn [length] in SL; [|lia].
        f_equal. assert (LF : length (firstn m l) = m) by (rewrite firstn_length; lia). transitivity (nth m (firstn m l ++ [x]) d); [rewrite <- E1, firstn_skipn; reflexivity|]. rewrite app_nth2, LF, Nat.sub_diag by lia. reflexivity.
      * apply in_prod_iff. rewrite HE, HF. split; [|apply HP; lia]. split; [rewrite firstn_length; lia|].
        intros i Hi. rewrite firstn_nth by auto. apply HP. lia.
Qed.
Lemma cov_ext {A} (P Q : A -> Prop) : (forall x, P x <-> Q x) -> cov P -> cov Q.
Proof. intros H [E HE]. exists E. intros x. rewrite HE. apply H. Qed.
Lemma forall_nth {A} (d : A) (P : A -> Prop) l : Forall P l <-> forall i, (i < length l)%nat -> P (nth i l d).
Proof. rewrite Forall_nth. split; intros H i; [intros Hi; apply H; auto|intros d' Hi; rewrite (nth_indep _ d' d Hi); apply H; auto]. Qed.
Lemma cov_vec {A} (d : A) (P : A -> Prop) m : cov P -> cov (fun l => length l = m /\ Forall P l).
Proof.
  intros H. apply (cov_ext (fun l => length l = m /\ forall i, (i < m)%nat -> P (nth i l d))); [|apply cov_dep; auto].
  intros l. split; intros [HL HP]; (split; [auto|]); [apply (forall_nth d)|rewrite (forall_nth d) in HP]; rewrite HL in *; auto.
Qed.

Definition rows_ok (c : RqContext) (rows : list (list Z)) : Prop := wf_poly (mkPoly c Ntt rows).
Lemma cov_rows c : cov (rows_ok c).
Proof.
  unfold rows_ok, wf_poly. cbn [p_rows p_ctx]. apply (cov_dep [] (fun i r => length r = rq_degree c /\ Forall (fun x => 0 <= x < cx_q c i) r)).
  intros i Hi. apply (cov_vec 0). apply cov_range.
Qed.

(** C86: the sample vectors are finitely many. *)
Lemma C86_finite_lem : forall c m, exists E, all_samples c m E.
Proof.
  intros c m. destruct (cov_vec ([], []) _ m (cov_pair _ _ (cov_rows c) (cov_rows c))) as [E HE].
  set (dec := list_eq_dec (fun x y : list (list Z) * list (list Z) =>
    ltac:(decide equality; apply (list_eq_dec (list_eq_dec Z.eq_dec))) : {x = y} + {x <> y})).
  set (f := map (fun x : list (list Z) * list (list Z) => (mkPoly c Ntt (fst x), mkPoly c Ntt (snd x)))).
  exists (map f (nodup dec E)). split.
  - apply Injective_map_NoDup; [|apply NoDup_nodup]. intros l. induction l as [|x l IH]; intros [|y l'] H; try discriminate; [reflexivity|].
    unfold f in H. cbn [map] in H. injection H as H1 H2 H3. f_equal; [destruct x, y; cbn [fst snd] in *; congruence|]. apply IH. exact H3.
  - intros l. rewrite in_map_iff. split.
    + intros [x [<- Hx]]. apply nodup_In in Hx. apply HE in Hx. destruct Hx as [HL HF]. unfold f. split; [rewrite map_length; auto|].
      apply Forall_map. eapply Forall_impl; [|exact HF]. intros a [H1 H2]. unfold pair_ok, ntt_poly. cbn [fst snd p_ctx p_repr]. auto 6.
    + intros [HL HF]. exists (map (fun ba => (p_rows (fst ba), p_rows (snd ba))) l). split.
      * unfold f. rewrite map_map. cbn [fst snd]. rewrite <- (map_id l) at 2. apply map_ext_in. intros [[c1 r1 b] [c2 r2 a]] Hx. rewrite Forall_forall in HF.
        destruct (HF _ Hx) as [[_ [H1 H2]] [_ [H3 H4]]]. cbn [fst snd p_ctx p_repr p_rows] in *. subst. reflexivity.
      * apply nodup_In, HE. split; [rewrite map_length; auto|]. apply Forall_map. eapply Forall_impl; [|exact HF].
        intros [[c1 r1 b] [c2 r2 a]] [[H1 [H2 H3]] [H4 [H5 H6]]]. cbn [fst snd p_ctx p_repr p_rows] in *. subst. split; assumption.
Qed.

(** ** Adding encodings permutes the sample vectors *)
Section Hide.
Variable pr : profile.
Variable c : RqContext.
Hypothesis W : wf_loc c.

Lemma ntt_rep p : ntt_poly c p -> exists f, p = rep c Ntt f.
Proof. intros [H1 [H2 H3]]. destruct (wf_rep pr c W p H2 H1) as [f [_ E]]. rewrite H3 in E. exists f. exact E. Qed.
Lemma rep_ntt f : ntt_poly c (rep c Ntt f).
Proof. split; [apply (rep_wf c W)|]. split; reflexivity. Qed.

(** The vector moved by the difference of two lists of encodings. *)
Definition move1 (u u' : Poly) (ba : Poly * Poly) : Poly * Poly :=
  match (s <- poly_add pr (fst ba) u ;; poly_sub pr s u') with Ok b => (b, snd ba) | _ => ba end.
Fixpoint moves (us us' : list Poly) (l : list (Poly * Poly)) : list (Poly * Poly) :=
  match us, us', l with u :: us, u' :: us', x :: l => move1 u u' x :: moves us us' l | _, _, _ => [] end.
Lemma move1_rep f g b a : move1 (rep c Ntt f) (rep c Ntt g) (rep c Ntt b, a) = (rep c Ntt (fun j => b j + f j - g j), a).
Proof. unfold move1. cbn [fst snd]. rewrite rep_add by auto. cbn [bind]. rewrite rep_sub by auto. reflexivity. Qed.

Lemma moves_ok us us' l : Forall (ntt_poly c) us -> Forall (ntt_poly c) us' -> length us = length l -> length us' = length l -> Forall (pair_ok c) l ->
  length (moves us us' l) = length l /\ Forall (pair_ok c) (moves us us' l) /\ moves us' us (moves us us' l) = l
  /\ forall P, add_msgs pr P us l = add_msgs pr P us' (moves us us' l).
Proof.
  intros HU. revert us' l. induction HU as [|u us Hu HU IH]; intros us' l HU' L1 L2 HL.
  - destruct l; [|discriminate]. destruct us'; [|discriminate]. split; [reflexivity|]. split; [constructor|]. split; reflexivity.
  - destruct l as [|x l]; [discriminate|]. destruct us' as [|u' us']; [discriminate|]. inversion HU'; subst. inversion HL; subst. cbn [length] in L1, L2.
    destruct (IH us' l) as [A1 [A2 [A3 A4]]]; auto.
    destruct x as [b a]. match goal with H : pair_ok c (b, a) |- _ => destruct H as [Hb Ha] end. cbn [fst snd] in Hb, Ha.
    destruct (ntt_rep u Hu) as [f ->]. match goal with H : ntt_poly c u' |- _ => destruct (ntt_rep u' H) as [g ->] end. destruct (ntt_rep b Hb) as [h ->].
    cbn [moves length]. rewrite move1_rep. split; [lia|]. split; [constructor; auto; split; cbn [fst snd]; [apply rep_ntt|exact Ha]|]. split.
    + rewrite A3. f_equal. rewrite move1_rep. f_equal. apply (rep_ext c W). intros j Hj. ring.
    + intros P. unfold add_msgs in *. cbn [zipM fst snd]. rewrite !rep_add by auto. cbn [bind]. rewrite (A4 P).
      replace (rep c Ntt (fun j => h j + f j - g j + g j)) with (rep c Ntt (fun j => h j + f j)) by (apply (rep_ext c W); intros j Hj; ring). reflexivity.
Qed.
End Hide.

(** C86: if the samples are uniform, the ciphertexts have the same distribution
    for any two lists of encodings. *)
Lemma C86_uniform_lem :
  forall pr P i c m us us' E, built_params P -> level P i c -> all_samples c m E ->
    Forall (ntt_poly c) us -> Forall (ntt_poly c) us' -> length us = m -> length us' = m ->
    Permutation (map (add_msgs pr P us) E) (map (add_msgs pr P us') E).
Proof.
  intros pr P i c m us us' E BP L [ND HE] HU HU' L1 L2.
  pose proof (built_params_wf P BP) as WB. destruct (level_wf P i c WB L) as [_ LV]. pose proof (wf_ctx_loc _ (lv_wf _ _ _ LV)) as W. clear LV WB L.
  assert (MO : forall l, In l E -> length (moves pr us us' l) = length l /\ Forall (pair_ok c) (moves pr us us' l) /\ moves pr us' us (moves pr us us' l) = l
    /\ forall P, add_msgs pr P us l = add_msgs pr P us' (moves pr us us' l)).
  { intros l Hl. apply HE in Hl. destruct Hl as [LL FL]. apply (moves_ok pr c W); auto; lia. }
  assert (PM : Permutation (map (moves pr us us') E) E).
  { apply NoDup_Permutation_bis.
    - clear HE. induction ND as [|x E Hx ND IH]; [constructor|]. cbn [map]. constructor.
      + intros HI. apply in_map_iff in HI. destruct HI as [y [Ey Hy]]. apply Hx.
        destruct (MO x (or_introl eq_refl)) as [_ [_ [A _]]]. destruct (MO y (or_intror Hy)) as [_ [_ [A' _]]]. rewrite <- A, <- Ey, A'. exact Hy.
      + apply IH. intros l Hl. apply MO. right. exact Hl.
    - rewrite map_length. lia.
    - intros y Hy. apply in_map_iff in Hy. destruct Hy as [x [<- Hx]]. destruct (MO x Hx) as [A1 [A2 _]]. apply HE. apply HE in Hx. destruct Hx. split; [lia|exact A2]. }
  rewrite (map_ext_in (add_msgs pr P us) (fun l => add_msgs pr P us' (moves pr us us' l))) by (intros l Hl; apply (MO l Hl)).
  rewrite <- (map_map (moves pr us us') (add_msgs pr P us')). apply Permutation_map. exact PM.
Qed.

(** ** The query *)
Section View.
Variable pr : profile.
Variables (P : BfvParams) (c : RqContext).
Hypothesis BP : built_params P.
Hypothesis L : level P 0 c.
Hypothesis Hv : 1 <= bp_variance P <= 16.

Lemma zero_pair_ok sk rows w : sk_params sk = P -> sk_ok sk -> wf_poly (mkPoly c Ntt rows) -> (forall k, 0 <= w k < 2 ^ 64) ->
  exists b, rlwe pr P c sk rows w b /\ zero_pair pr c sk rows w = (rep c Ntt b, mkPoly c Ntt rows)
    /\ forall u, encrypt_poly pr sk (rep c Ntt u) rows w = Ok (mkCt P [rep c Ntt (fun j => b j + u j); mkPoly c Ntt rows] 0).
Proof.
  intros SP SO WR Hw. destruct (rlwe_ex pr P 0 c sk BP L SP SO Hv rows w WR Hw) as [b [Hb HE]]. exists b. split; auto. split; auto.
  pose proof (built_params_wf P BP) as WB. destruct (level_wf P 0 c WB L) as [_ LV]. pose proof (wf_ctx_loc _ (lv_wf _ _ _ LV)) as W.
  unfold zero_pair. rewrite rep_zero by auto. rewrite HE. f_equal. apply (rep_ext c W). intros j Hj. ring.
Qed.
End View.

(** C86: the client's query is the encodings of the query added to encryptions of
    zero; the encodings do not depend on key and randomness, the encryptions of
    zero are Ring-LWE samples and do not depend on the query. *)
Lemma C86_split_lem :
  forall pr P c first enc, built_params P -> level P 0 c -> 1 <= bp_variance P <= 16 ->
    Forall (fun x => 0 <= x < 2 ^ 64) enc -> (length enc <= bp_degree P)%nat -> (first <= length enc)%nat ->
    exists us, query_msgs pr P first enc = Ok us /\ length us = S (cx_k c) /\ Forall (ntt_poly c) us
      /\ forall X (w : world X), world_ok P c w ->
           samples_ok c (S (cx_k c)) (zeros pr c w) /\ view pr P first enc w = add_msgs pr P us (zeros pr c w).
Proof.
  intros pr P c first enc BP L Hv H64 HL HF.
  pose proof (built_params_wf P BP) as WB. destruct (level_wf P 0 c WB L) as [_ LV]. pose proof (wf_ctx_loc _ (lv_wf _ _ _ LV)) as W. pose proof (lv_n _ _ _ LV) as EN.
  pose proof (wl_rns _ W) as WRn. pose proof (wr_gl _ _ WRn) as GL.
  unfold query_msgs, pt_new. rewrite copy_prefix_pad by lia. cbn [bind]. set (pt := mkPt _ _ _ _).
  assert (PV : pt_values pt = enc ++ repeat 0 (bp_degree P - length enc)) by reflexivity.
  destruct (pt_to_poly_ok pr P 0 c WB LV pt eq_refl eq_refl) as [u [E1 _]].
  { rewrite PV. apply Forall_app. split; auto. apply Forall_forall. intros x Hx. apply repeat_spec in Hx. subst. lia. }
  { rewrite PV, app_length, repeat_length. lia. }
  rewrite E1. cbn [bind]. rewrite (lv_ctx _ _ _ LV). cbn [bind]. rewrite rassert_true by (apply Nat.leb_le; auto). cbn [bind].
  set (msg := fun g j => g * nth j (skipn first enc) 0).
  assert (HP : forall g, (p <- poly_from_u64 pr c (skipn first enc) ;; p' <- change_repr pr p Ntt ;; poly_mul_big pr p' g) = Ok (rep c Ntt (msg g))).
  { intros g. rewrite rep_from_u64; [|auto| |rewrite skipn_length, EN; lia].
    2:{ apply Forall_forall. intros x Hx. rewrite Forall_forall in H64. apply H64. rewrite <- (firstn_skipn first enc). apply in_or_app. auto. }
    cbn [bind]. rewrite change_fwd by auto. cbn [bind]. rewrite rep_mul_big by auto. reflexivity. }
  rewrite (PBase.mapM_ok _ (fun g => rep c Ntt (msg g))) by (intros g _; apply HP). cbn [bind].
  eexists. split; [reflexivity|]. split; [cbn [length]; rewrite map_length, GL; reflexivity|]. split.
  { assert (R : forall f, ntt_poly c (rep c Ntt f)) by (intros f; split; [apply (rep_wf c W)|split; reflexivity]). constructor; [apply R|]. apply Forall_map. apply Forall_forall. intros g _. apply R. }
  intros X w [SP [SO [WR [Hw HR]]]].
  destruct (zero_pair_ok pr P c BP L Hv (w_sk w) (w_rows w) (w_words w) SP SO WR Hw) as [b0 [_ [Z0 HE0]]].
  assert (Hk : forall k, (k < cx_k c)%nat -> exists b, zero_pair pr c (w_sk w) (rnd_rows (w_rnd w) k) (rnd_words (w_rnd w) k) = (rep c Ntt b, mkPoly c Ntt (rnd_rows (w_rnd w) k))
    /\ forall u, encrypt_poly pr (w_sk w) (rep c Ntt u) (rnd_rows (w_rnd w) k) (rnd_words (w_rnd w) k) = Ok (mkCt P [rep c Ntt (fun j => b j + u j); mkPoly c Ntt (rnd_rows (w_rnd w) k)] 0)).
  { intros k Hk. destruct HR as [R1 R2]. destruct (zero_pair_ok pr P c BP L Hv (w_sk w) (rnd_rows (w_rnd w) k) (rnd_words (w_rnd w) k) SP SO (R1 k Hk) (R2 k)) as [b [_ [Z HE]]]. exists b. split; auto. }
  assert (RN : forall f, ntt_poly c (rep c Ntt f)) by (intros f; split; [apply (rep_wf c W)|split; reflexivity]).
  split.
  - unfold zeros. split; [cbn [length]; rewrite map_length, seq_length; reflexivity|]. constructor.
    + rewrite Z0. split; cbn [fst snd]; [apply RN|]. split; [exact WR|split; reflexivity].
    + apply Forall_map. apply Forall_forall. intros k Hk'. apply in_seq in Hk'. destruct (Hk k ltac:(lia)) as [b [Z _]]. rewrite Z.
      split; cbn [fst snd]; [apply RN|]. split; [apply (proj1 HR); lia|split; reflexivity].
  - unfold view, client_query, pt_new. rewrite copy_prefix_pad by lia. cbn [bind]. fold pt. unfold encrypt. rewrite E1. cbn [bind]. rewrite HE0. cbn [bind].
    rewrite (lv_ctx _ _ _ LV). cbn [bind]. rewrite rassert_true by (apply Nat.leb_le; auto). cbn [bind]. unfold zeros, add_msgs. cbn [zipM]. rewrite Z0. cbn [fst snd].
    rewrite rep_add by auto. cbn [bind]. rewrite GL. change (length (rq_moduli_64 c)) with (cx_k c).
    assert (EM : forall g l s0, (forall i, (i < length l)%nat -> nth i l 0 = g (s0 + i)%nat) -> (s0 + length l <= cx_k c)%nat ->
      zipM (fun u0 (ba : Poly * Poly) => c0 <- poly_add pr (fst ba) u0 ;; Ok (mkCt P [c0; snd ba] 0)) (map (fun g => rep c Ntt (msg g)) l)
        (map (fun k => zero_pair pr c (w_sk w) (rnd_rows (w_rnd w) k) (rnd_words (w_rnd w) k)) (seq s0 (length l)))
      = mapM (fun i => encrypt_poly pr (w_sk w) (rep c Ntt (msg (g i))) (rnd_rows (w_rnd w) i) (rnd_words (w_rnd w) i)) (seq s0 (length l))).
    { intros g l. induction l as [|x l IH]; intros s0 HG HB; [reflexivity|]. cbn [length seq map zipM mapM] in *.
      destruct (Hk s0 ltac:(lia)) as [b [Z HE]]. rewrite Z. cbn [fst snd]. rewrite rep_add by auto. cbn [bind].
      pose proof (HG 0%nat ltac:(lia)) as G0. cbn [nth] in G0. rewrite Nat.add_0_r in G0. rewrite <- G0, HE. cbn [bind].
      rewrite IH; [reflexivity| |lia]. intros i Hi. transitivity (nth (S i) (x :: l) 0); [reflexivity|]. rewrite HG by lia. f_equal. lia. }
    specialize (EM (fun i => nth i (rns_garner (rq_rns c)) 0) (rns_garner (rq_rns c)) 0%nat ltac:(intros; reflexivity) ltac:(rewrite GL; unfold cx_k; lia)).
    rewrite GL in EM. change (length (rq_moduli_64 c)) with (cx_k c) in EM. rewrite EM.
    rewrite (mapM_mapM_ext _ (fun i => encrypt_poly pr (w_sk w) (rep c Ntt (msg (nth i (rns_garner (rq_rns c)) 0))) (rnd_rows (w_rnd w) i) (rnd_words (w_rnd w) i))); [reflexivity|].
    intros i Hi. apply in_seq in Hi. rewrite (get_ok _ i 0) by (rewrite GL; change (length (rq_moduli_64 c)) with (cx_k c); lia). cbn [bind].
    specialize (HP (nth i (rns_garner (rq_rns c)) 0)).
    destruct (poly_from_u64 pr c (skipn first enc)); cbn [bind] in HP |- *; try discriminate HP. destruct (change_repr pr a Ntt); cbn [bind] in HP |- *; try discriminate HP.
    rewrite HP. reflexivity.
Qed.

(** ** Privacy *)
Lemma cnt_perm {A} (p : A -> bool) l l' : Permutation l l' -> cnt p l = cnt p l'.
Proof. intros H. unfold cnt. f_equal. induction H; cbn [filter]; auto; try congruence; [destruct (p x); cbn [length]; congruence|destruct (p x), (p y); reflexivity]. Qed.
Lemma cnt_map {A B} (p : B -> bool) (f : A -> B) l : cnt p (map f l) = cnt (fun x => p (f x)) l.
Proof. unfold cnt. f_equal. induction l as [|x l IH]; cbn [map filter]; auto. destruct (p (f x)); cbn [length]; congruence. Qed.
Lemma cnt_app {A} (p : A -> bool) l l' : cnt p (l ++ l') = cnt p l + cnt p l'.
Proof. unfold cnt. rewrite filter_app, app_length. lia. Qed.
Lemma cnt_ext_in {A} (p q : A -> bool) l : (forall x, In x l -> p x = q x) -> cnt p l = cnt q l.
Proof. intros H. unfold cnt. rewrite (filter_ext_in _ _ _ H). reflexivity. Qed.

(** C86: any procedure A that tells the queries for enc and enc' apart (given
    whatever else it knows about each world) tells the encryptions of zero from
    uniform pairs: its advantage is at most the sum of the advantages of the
    explicit procedures D and D'. *)
Lemma C86_privacy_lem :
  forall pr P c first enc enc' us us' X (Ws : list (world X)) (A : X -> outcome (list Ct) -> bool) E,
    built_params P -> level P 0 c -> 1 <= bp_variance P <= 16 ->
    Forall (fun x => 0 <= x < 2 ^ 64) enc -> (length enc <= bp_degree P)%nat -> (first <= length enc)%nat ->
    Forall (fun x => 0 <= x < 2 ^ 64) enc' -> (length enc' <= bp_degree P)%nat -> (first <= length enc')%nat ->
    query_msgs pr P first enc = Ok us -> query_msgs pr P first enc' = Ok us' ->
    Forall (world_ok P c) Ws -> all_samples c (S (cx_k c)) E ->
    let D x s := A x (add_msgs pr P us s) in
    let D' x s := A x (add_msgs pr P us' s) in
    let real (p : X -> list (Poly * Poly) -> bool) := cnt (fun w => p (w_aux w) (zeros pr c w)) Ws in
    let ideal (p : X -> list (Poly * Poly) -> bool) := cnt (fun we => p (w_aux (fst we)) (snd we)) (list_prod Ws E) in
    let N := Z.of_nat (length E) in
    ideal D = ideal D'
    /\ Z.abs (cnt (fun w => A (w_aux w) (view pr P first enc w)) Ws - cnt (fun w => A (w_aux w) (view pr P first enc' w)) Ws) * N
       <= Z.abs (real D * N - ideal D) + Z.abs (real D' * N - ideal D').
Proof.
  intros pr P c first enc enc' us us' X Ws A E BP L Hv H1 H2 H3 H1' H2' H3' EU EU' HW HE D D' real ideal N.
  destruct (C86_split_lem pr P c first enc BP L Hv H1 H2 H3) as [us0 [EQ [LU [FU VU]]]]. rewrite EU in EQ. apply Ok_inj in EQ. subst us0.
  destruct (C86_split_lem pr P c first enc' BP L Hv H1' H2' H3') as [us0 [EQ [LU' [FU' VU']]]]. rewrite EU' in EQ. apply Ok_inj in EQ. subst us0.
  assert (R : cnt (fun w => A (w_aux w) (view pr P first enc w)) Ws = real D).
  { apply cnt_ext_in. intros w Hw. rewrite Forall_forall in HW. destruct (VU X w (HW w Hw)) as [_ V]. rewrite V. reflexivity. }
  assert (R' : cnt (fun w => A (w_aux w) (view pr P first enc' w)) Ws = real D').
  { apply cnt_ext_in. intros w Hw. rewrite Forall_forall in HW. destruct (VU' X w (HW w Hw)) as [_ V]. rewrite V. reflexivity. }
  assert (I : ideal D = ideal D').
  { unfold ideal. clear - EU EU' HE LU FU LU' FU' BP L. pose proof (C86_uniform_lem pr P 0 c _ us us' E BP L HE FU FU' LU LU') as PM.
    induction Ws as [|w Ws IH]; [reflexivity|]. cbn [list_prod]. rewrite !cnt_app, IH. f_equal. rewrite !cnt_map. cbn [fst snd]. unfold D, D'.
    rewrite <- (cnt_map (A (w_aux w)) (add_msgs pr P us)), <- (cnt_map (A (w_aux w)) (add_msgs pr P us')). apply cnt_perm. exact PM. }
  split; [exact I|]. rewrite R, R', <- I. clear. assert (0 <= N) by (unfold N; lia).
  rewrite <- (Z.abs_eq N) at 1 by auto. rewrite <- Z.abs_mul. replace ((real D - real D') * N) with ((real D * N - ideal D) - (real D' * N - ideal D)) by ring.
  generalize (real D * N - ideal D), (real D' * N - ideal D). lia.
Qed.

(** C86: in particular for the queries of any two positions of one database. *)
Lemma C86_index_lem :
  forall pr P c first dim q q' rows enc enc' X (Ws : list (world X)) (A : X -> outcome (list Ct) -> bool) E,
    built_params P -> level P 0 c -> 1 <= bp_variance P <= 16 ->
    length q = length q' -> Z.of_nat dim ^ Z.of_nat (length q - 1) < 2 ^ 64 -> (first + dim * (length q - 1) <= bp_degree P)%nat ->
    client_encode pr (mkClient first dim) q rows = Ok enc -> client_encode pr (mkClient first dim) q' rows = Ok enc' ->
    Forall (world_ok P c) Ws -> all_samples c (S (cx_k c)) E ->
    exists us us', query_msgs pr P first enc = Ok us /\ query_msgs pr P first enc' = Ok us' /\
    let D x s := A x (add_msgs pr P us s) in
    let D' x s := A x (add_msgs pr P us' s) in
    let real (p : X -> list (Poly * Poly) -> bool) := cnt (fun w => p (w_aux w) (zeros pr c w)) Ws in
    let ideal (p : X -> list (Poly * Poly) -> bool) := cnt (fun we => p (w_aux (fst we)) (snd we)) (list_prod Ws E) in
    let N := Z.of_nat (length E) in
    Z.abs (cnt (fun w => A (w_aux w) (view pr P first enc w)) Ws - cnt (fun w => A (w_aux w) (view pr P first enc' w)) Ws) * N
       <= Z.abs (real D * N - ideal D) + Z.abs (real D' * N - ideal D').
Proof.
  intros pr P c first dim q q' rows enc enc' X Ws A E BP L Hv LQ HD HN E1 E2 HW HE.
  destruct (client_encode_inv pr first dim q rows enc E1 (or_intror HD)) as [q0 [qs [-> [B1 [B2 B3]]]]].
  rewrite LQ in HD. destruct (client_encode_inv pr first dim q' rows enc' E2 (or_intror HD)) as [q0' [qs' [-> [B1' [B2' B3']]]]].
  cbn [length] in *. replace (S (length qs) - 1)%nat with (length qs) in HN by lia. replace (S (length qs') - 1)%nat with (length qs') in HD by lia.
  assert (EL : length qs' = length qs) by lia.
  assert (D0 : 0 < Z.of_nat dim ^ Z.of_nat (length qs')).
  { pose proof (Z.pow_nonneg (Z.of_nat dim) (Z.of_nat (length qs')) ltac:(lia)). pose proof (Z.div_pos (Z.of_nat rows) (Z.of_nat first) ltac:(lia) ltac:(lia)). lia. }
  rewrite client_encode_ok in E1 by (rewrite <- ?EL in *; auto). rewrite client_encode_ok in E2 by auto. apply Ok_inj in E1. apply Ok_inj in E2. subst enc enc'.
  destruct (encoding_facts first dim q0 qs) as [L1 _]. destruct (encoding_facts first dim q0' qs') as [L1' _]. rewrite EL in L1'.
  pose proof (encoding_range first dim q0 qs) as R1. pose proof (encoding_range first dim q0' qs') as R1'.
  destruct (C86_split_lem pr P c first (encoding_of first dim q0 qs) BP L Hv R1 ltac:(lia) ltac:(lia)) as [us [EU _]].
  destruct (C86_split_lem pr P c first (encoding_of first dim q0' qs') BP L Hv R1' ltac:(lia) ltac:(lia)) as [us' [EU' _]].
  exists us, us'. split; auto. split; auto.
  apply (C86_privacy_lem pr P c first _ _ us us' X Ws A E BP L Hv R1 ltac:(lia) ltac:(lia) R1' ltac:(lia) ltac:(lia) EU EU' HW HE).
Qed.

(*EXAMPLE
(** A world of the test parameters: the query for enc is the encodings added to
    the encryptions of zero, and another query differs from it. *)
Example C86_split_example :
  (P <- test_bfv Debug ;; c <- tctx P ;;
   let w := mkWorld unit tt (mkSk P [1; -1; 0; 1; 1; 0; 2; -1]) (trows bms 4) (tw 5) (trnd 6) in
   let rows (l : list Ct) := map (fun ct => map p_rows (ct_cts ct)) l in
   let same (a b : list Ct) := if list_eq_dec (list_eq_dec (list_eq_dec (list_eq_dec Z.eq_dec))) (rows a) (rows b) then 1 else 0 in
   us <- query_msgs Debug P 4 [0; 1; 0; 0; 1; 0] ;; us' <- query_msgs Debug P 4 [0; 0; 1; 0; 0; 1] ;;
   v <- view Debug P 4 [0; 1; 0; 0; 1; 0] w ;; v' <- view Debug P 4 [0; 0; 1; 0; 0; 1] w ;;
   a <- add_msgs Debug P us (zeros Debug c w) ;; a' <- add_msgs Debug P us' (zeros Debug c w) ;;
   Ok (same v a, same v' a', same v v')) = Ok (1, 1, 0).
Proof. vm_compute. reflexivity. Qed.

(** Parameters and a world that satisfy the hypotheses exist. *)
Example C86_example : exists P c (w : world unit), built_params P /\ level P 0 c /\ 1 <= bp_variance P <= 16 /\ world_ok P c w /\ bp_degree P = 8%nat.
Proof.
  destruct (retrieval_budget Debug) as [P [c [sk [B [L [SP [SO [Hv [_ [_ [_ [D [_ [[rows WR] _]]]]]]]]]]]]]].
  exists P, c, (mkWorld unit tt sk rows (fun _ => 7) (mkRnd (fun _ => rows) (fun _ _ => 7))).
  split; auto. split; auto. split; auto. split; auto. split; auto. split; auto. split; auto. split; [intros; cbn; lia|]. split; cbn [w_rnd rnd_rows rnd_words]; auto. intros. lia.
Qed.
EXAMPLE*)
