(** The fold of the server over the hypercube (src/evaluations.rs:160-226). *)
From Verif Require Import PBase NT Spec PSum MModulus MUtils MNtt MRns MRq MBfv MKsk MGalois MRgsw MEval PModulus PUtils PNttMath PNtt PNttNew PCrt PRns PRnsScale PUtils2 SpecRq SpecBfv SpecKsk SpecEval PRing PRq PRq2 PRq3 PRq4 PRq5 PBfv PBfv2 PBfv3 PKsk PGal PKsk2 PRingT PExpand PEval.

Lemma nth_skip {A} (l : list A) a k d : nth k (skipn a l) d = nth (a + k) l d.
Proof. revert l; induction a as [|a IH]; intros l; [reflexivity|]. destruct l; [destruct k; reflexivity|]. apply IH. Qed.
Lemma mapM_comp {A B C} (f : B -> outcome C) (g : A -> B) l : mapM f (map g l) = mapM (fun x => f (g x)) l.
Proof. induction l as [|x l IH]; [reflexivity|]. cbn [map mapM]. rewrite IH. reflexivity. Qed.
Lemma zipM_seq {A B C} (f : A -> B -> outcome C) (a : nat -> A) (b : nat -> B) x d :
  zipM f (map a (seq x d)) (map b (seq x d)) = mapM (fun k => f (a k) (b k)) (seq x d).
Proof. revert x; induction d as [|d IH]; intros x; [reflexivity|]. cbn [seq map zipM mapM]. destruct (f (a x) (b x)); cbn [bind]; auto. rewrite IH. reflexivity. Qed.

Lemma mapM_choice {A} (f : nat -> outcome A) (R : nat -> A -> Prop) dflt x d :
  (forall k, (k < d)%nat -> exists y, f (x + k)%nat = Ok y /\ R k y) ->
  exists ys, mapM f (seq x d) = Ok ys /\ length ys = d /\ forall k, (k < d)%nat -> R k (nth k ys dflt).
Proof.
  revert x R. induction d as [|d IH]; intros x R H.
  - exists []. split; [reflexivity|]. split; [reflexivity|]. intros; lia.
  - destruct (H 0%nat ltac:(lia)) as [y [E0 R0]]. rewrite Nat.add_0_r in E0.
    destruct (IH (S x) (fun k => R (S k))) as [ys [E1 [L1 R1]]].
    { intros k Hk. destruct (H (S k) ltac:(lia)) as [z [Ez Rz]]. exists z. split; auto. replace (S x + k)%nat with (x + S k)%nat by lia. auto. }
    exists (y :: ys). cbn [seq mapM]. rewrite E0. cbn [bind]. rewrite E1. cbn [bind]. split; [reflexivity|]. split; [cbn [length]; lia|].
    intros [|k] Hk; cbn [nth]; auto. apply R1. lia.
Qed.

Lemma chunks_fuel_ok {A} (dflt : A) d : (0 < d)%nat -> forall R l F, length l = (R * d)%nat -> (R <= F)%nat ->
  chunks_fuel F d l = map (fun r => map (fun k => nth (r * d + k) l dflt) (seq 0 d)) (seq 0 R).
Proof.
  intros Hd. induction R as [|R IH]; intros l F Hl HF.
  - destruct l; [|cbn in Hl; lia]. destruct F; reflexivity.
  - destruct F as [|F]; [lia|]. cbn [chunks_fuel]. destruct l as [|a l'] eqn:E; [cbn [length] in Hl; lia|]. rewrite <- E in *.
    assert (Hs : length (skipn d l) = (R * d)%nat) by (rewrite skipn_length; lia).
    rewrite (IH (skipn d l) F Hs ltac:(lia)). cbn [seq map]. f_equal.
    + rewrite (list_seq (firstn d l) dflt d) by (rewrite firstn_length; lia). apply map_seq_ext. intros k Hk. rewrite firstn_nth by auto. f_equal.
    + rewrite <- seq_shift, map_map. apply map_seq_ext. intros r Hr. apply map_seq_ext. intros k Hk.
      rewrite nth_skip. f_equal. lia.
Qed.
Lemma chunks_ok {A} (dflt : A) d R l : (0 < d)%nat -> length l = (R * d)%nat ->
  chunks d l = Ok (map (fun r => map (fun k => nth (r * d + k) l dflt) (seq 0 d)) (seq 0 R)).
Proof.
  intros Hd Hl. unfold chunks. rewrite (proj2 (Nat.eqb_neq d 0)) by lia. f_equal. apply chunks_fuel_ok; auto. nia.
Qed.

Section Fold.
Variables (pr : profile) (P : BfvParams) (c : RqContext) (s : nat -> Z).
Hypothesis LV : wf_level P 0 c.
Let W : wf_loc c := wf_ctx_loc _ (lv_wf _ _ _ LV).
Let n := rq_degree c.
Let Q := cx_Q c.
Let dc := mkCt P [] 0.

(** The ciphertext has the phase f modulo Q. *)
Definition phs (ct : Ct) (f : nat -> Z) : Prop :=
  exists g0 g1, ct = ct_of P 0 c [g0; g1] /\ forall l, (l < n)%nat -> eqm Q (phase n s [g0; g1] l) (f l).

Lemma phs_ext ct f g : (forall l, (l < n)%nat -> eqm Q (f l) (g l)) -> phs ct f -> phs ct g.
Proof. intros H [g0 [g1 [E HP]]]. exists g0, g1. split; auto. intros l Hl. eapply eqm_trans; [apply HP; auto|auto]. Qed.

Lemma phs_add a b f g : phs a f -> phs b g -> exists ct, ct_add pr a b = Ok ct /\ phs ct (fun l => f l + g l).
Proof.
  intros [a0 [a1 [-> HA]]] [b0 [b1 [-> HB]]]. rewrite (ct_add_ok pr P 0 c LV). eexists. split; [reflexivity|].
  eexists. eexists. split; [reflexivity|]. intros l Hl. unfold n at 1. rewrite (ph_add P 0 c s LV). apply eqm_add; auto.
Qed.
Lemma phs_mul a f m : phs a f -> exists ct, ct_mul_poly pr a (rep c Ntt m) = Ok ct /\ phs ct (rmul n f m).
Proof.
  intros [a0 [a1 [-> HA]]]. rewrite (ct_mul_poly_ok pr P 0 c LV). rewrite <- (lv_n _ _ _ LV). eexists. split; [reflexivity|].
  exists (rmul n a0 m), (rmul n a1 m). split; [reflexivity|]. intros l Hl.
  change [rmul n a0 m; rmul n a1 m] with (map (fun f => rmul (rq_degree c) f m) [a0; a1]). unfold n at 1. rewrite (ph_rmul P 0 c s LV).
  apply rmul_eqm; [exact HA|intros; reflexivity].
Qed.

Lemma sum_cts_ok d cts (f : nat -> nat -> Z) : length cts = S d -> (forall k, (k < S d)%nat -> phs (nth k cts dc) (f k)) ->
  exists ct, sum_cts pr P cts = Ok ct /\ phs ct (fun l => sumn (S d) (fun k => f k l)).
Proof.
  intros Hl H. destruct cts as [|c0 cts]; [discriminate|]. cbn [length] in Hl. cbn [sum_cts].
  assert (G : forall cts d c0 f, length cts = d -> phs c0 (f 0%nat) -> (forall k, (k < d)%nat -> phs (nth k cts dc) (f (S k))) ->
    exists ct, foldM (ct_add pr) cts c0 = Ok ct /\ phs ct (fun l => sumn (S d) (fun k => f k l))).
  { clear - LV. intros cts. induction cts as [|x cts IH]; intros d c0 f Hd H0 H; cbn [length] in Hd; subst d.
    - exists c0. split; [reflexivity|]. eapply phs_ext; [|exact H0]. intros l Hl. cbn [sumn]. rewrite Z.add_0_l. reflexivity.
    - destruct (phs_add c0 x (f 0%nat) (f 1%nat) H0 (H 0%nat ltac:(lia))) as [y [Ey Hy]]. cbn [foldM]. rewrite Ey. cbn [bind].
      destruct (IH (length cts) y (fun k l => match k with O => f 0%nat l + f 1%nat l | S k' => f (S k) l end) eq_refl Hy) as [z [Ez Hz]].
      { intros k Hk. apply (H (S k)). lia. }
      exists z. split; auto. eapply phs_ext; [|exact Hz]. intros l Hl. cbv beta. rewrite sumn_S_l.
      rewrite (sumn_S_l (S (length cts))). rewrite sumn_S_l. rewrite Z.add_assoc. reflexivity. }
  apply (G cts d c0 f ltac:(lia)).
  - apply (H 0%nat). lia.
  - intros k Hk. apply (H (S k)). lia.
Qed.

Lemma fold_first_ok d R cts (f m : nat -> nat -> Z) : (0 < d)%nat -> length cts = d -> (forall k, (k < d)%nat -> phs (nth k cts dc) (f k)) ->
  exists out, fold_first pr P d cts (map (fun x => rep c Ntt (m x)) (seq 0 (R * d))) = Ok out /\ length out = R
    /\ forall r, (r < R)%nat -> phs (nth r out dc) (fun l => sumn d (fun k => rmul n (f k) (m (r * d + k)%nat) l)).
Proof.
  intros Hd Hl H. unfold fold_first. set (dp := rep c Ntt (fun _ => 0)).
  rewrite (chunks_ok dp d R) by (auto; rewrite map_length, seq_length; reflexivity). cbn [bind].
  rewrite mapM_comp. apply (mapM_choice _ (fun r o => phs o (fun l => sumn d (fun k => rmul n (f k) (m (r * d + k)%nat) l))) dc 0 R).
  intros r Hr. rewrite Nat.add_0_l. rewrite (list_seq cts dc d Hl). rewrite zipM_seq.
  destruct (mapM_choice (fun k => ct_mul_poly pr (nth k cts dc) (nth (r * d + k) (map (fun x => rep c Ntt (m x)) (seq 0 (R * d))) dp))
    (fun k o => phs o (rmul n (f k) (m (r * d + k)%nat))) dc 0 d) as [ys [E [L Y]]].
  { intros k Hk. rewrite Nat.add_0_l. rewrite (nth_map_seq (fun x => rep c Ntt (m x))) by nia. apply phs_mul. auto. }
  rewrite E. cbn [bind]. destruct d as [|d']; [lia|]. apply (sum_cts_ok d' ys (fun k => rmul n (f k) (m (r * S d' + k)%nat))); auto.
Qed.

Definition dr : RgswCt := let k := mkKsk P [] [] c c in mkRgsw k k.
Lemma fold_dim_ok d R rgsws db q (f : nat -> nat -> Z) B : (q < d)%nat -> length rgsws = d -> length db = (R * d)%nat ->
  (forall k, (k < d)%nat -> rgsw_acts pr P c s (nth k rgsws dr) (cst (if (k =? q)%nat then 1 else 0)) B) ->
  (forall x, (x < R * d)%nat -> phs (nth x db dc) (f x)) ->
  exists out, fold_dim pr P d db rgsws = Ok out /\ length out = R
    /\ forall r, (r < R)%nat -> exists w, phs (nth r out dc) (fun l => f (r * d + q)%nat l + w l) /\ forall l, (l < n)%nat -> Z.abs (w l) <= Z.of_nat d * B.
Proof.
  intros Hq Hl Hdb HS HP. unfold fold_dim. pose proof (cx_n8 c W) as N8. fold n in N8.
  rewrite (chunks_ok dc d R) by (auto; lia). cbn [bind].
  rewrite mapM_comp. apply (mapM_choice _ (fun r o => exists w, phs o (fun l => f (r * d + q)%nat l + w l) /\ forall l, (l < n)%nat -> Z.abs (w l) <= Z.of_nat d * B) dc 0 R).
  intros r Hr. rewrite Nat.add_0_l. rewrite (list_seq rgsws dr d Hl). rewrite zipM_seq.
  destruct (mapM_choice (fun k => '(c0, c1) <- external_product pr (nth k rgsws dr) (nth (r * d + k) db dc) ;; Ok (mkCt P [c0; c1] 0))
    (fun k o => exists w, phs o (fun l => (if (k =? q)%nat then f (r * d + k)%nat l else 0) + w l) /\ forall l, (l < n)%nat -> Z.abs (w l) <= B) dc 0 d) as [ys [E [L Y]]].
  { intros k Hk. rewrite Nat.add_0_l. assert (Hx : (r * d + k < R * d)%nat) by nia.
    destruct (HP (r * d + k)%nat Hx) as [g0 [g1 [Eg Hg]]]. rewrite Eg. destruct (HS k Hk g0 g1) as [h0 [h1 [w [EE HE]]]]. rewrite EE. cbn [bind].
    eexists. split; [reflexivity|]. exists w. split; [|intros l Hl'; apply HE; auto].
    exists h0, h1. split; [reflexivity|]. intros l Hl'. eapply eqm_trans; [apply (HE l Hl')|]. apply eqm_add; [|reflexivity].
    destruct (k =? q)%nat.
    - change (cst 1) with one. rewrite rmul_one_l by (auto; lia). apply Hg; auto.
    - rewrite (rmul_ext _ (cst 0) (fun _ => 0) _ (phase (rq_degree c) s [g0; g1])) by (auto; intros i _; unfold cst; destruct (i =? 0)%nat; reflexivity).
      rewrite rmul_0_l. reflexivity. }
  rewrite E. cbn [bind].
  destruct (fin_choice (fun _ => 0) (fun k w => phs (nth k ys dc) (fun l => (if (k =? q)%nat then f (r * d + k)%nat l else 0) + w l) /\ forall l, (l < n)%nat -> Z.abs (w l) <= B) d Y) as [w HW].
  destruct d as [|d']; [lia|].
  destruct (sum_cts_ok d' ys (fun k l => (if (k =? q)%nat then f (r * S d' + k)%nat l else 0) + w k l) L) as [o [Eo Ho]].
  { intros k Hk. apply HW; auto. }
  exists o. split; auto. exists (fun l => sumn (S d') (fun k => w k l)). split.
  - eapply phs_ext; [|exact Ho]. intros l Hl'. cbv beta. rewrite sumn_add. apply eqm_add; [|reflexivity].
    rewrite (sumn_single (S d') q) by (auto; intros i Hi Hne; rewrite (proj2 (Nat.eqb_neq _ _)) by auto; reflexivity). rewrite Nat.eqb_refl. reflexivity.
  - intros l Hl'. apply sumn_abs_le. intros k Hk. apply HW; auto.
Qed.

Lemma row_index_lt d qs : Forall (fun q => (q < d)%nat) qs -> (row_index d qs < d ^ length qs)%nat.
Proof.
  induction qs as [|q qs IH]; intros H; [cbn; lia|]. inversion H as [|? ? Hq Hqs]; subst. specialize (IH Hqs). cbn [row_index fold_right length Nat.pow].
  fold (row_index d qs). nia.
Qed.

(** All further dimensions. *)
Lemma fold_dims_ok d B : 0 <= B -> forall qs by_dim db (f : nat -> nat -> Z),
  Forall2 (fun q rg => (q < d)%nat /\ length rg = d /\ forall k, (k < d)%nat -> rgsw_acts pr P c s (nth k rg dr) (cst (if (k =? q)%nat then 1 else 0)) B) qs by_dim ->
  length db = (d ^ length qs)%nat -> (forall x, (x < d ^ length qs)%nat -> phs (nth x db dc) (f x)) ->
  exists ct w, foldM (fun db rg => fold_dim pr P d db rg) by_dim db = Ok [ct]
    /\ phs ct (fun l => f (row_index d qs) l + w l)
    /\ forall l, (l < n)%nat -> Z.abs (w l) <= Z.of_nat (length qs) * (Z.of_nat d * B).
Proof.
  intros HB. induction qs as [|q qs IH]; intros by_dim db f HF Hl HP; inversion HF as [|? rg ? by_dim' [Hq [Hrg HS]] HF']; subst.
  - cbn [length Nat.pow] in *. destruct db as [|x [|]]; try discriminate. exists x, (fun _ => 0). split; [reflexivity|]. split.
    + eapply phs_ext; [|apply (HP 0%nat); lia]. intros l Hl'. cbv beta. rewrite Z.add_0_r. reflexivity.
    + intros. cbn. lia.
  - cbn [length Nat.pow] in *. cbn [foldM].
    destruct (fold_dim_ok (length rg) (length rg ^ length qs) rg db q f B Hq eq_refl ltac:(lia) HS) as [out [Eo [Lo Ho]]].
    { intros x Hx. apply HP. lia. }
    rewrite Eo. cbn [bind].
    destruct (fin_choice (fun _ => 0) _ _ Ho) as [w HW].
    destruct (IH by_dim' out (fun r l => f (r * length rg + q)%nat l + w r l) HF' Lo) as [ct [w' [E' [H' N']]]].
    { intros x Hx. apply HW. auto. }
    assert (Hqs : Forall (fun q => (q < length rg)%nat) qs).
    { clear - HF'. induction HF' as [|? ? ? ? [H _] _ IH]; constructor; auto. }
    pose proof (row_index_lt _ _ Hqs) as RI.
    exists ct, (fun l => w (row_index (length rg) qs) l + w' l). split; auto. split.
    + eapply phs_ext; [|exact H']. intros l Hl'. cbv beta. cbn [row_index fold_right]. fold (row_index (length rg) qs).
      replace (q + length rg * row_index (length rg) qs)%nat with (row_index (length rg) qs * length rg + q)%nat by lia. rewrite Z.add_assoc. reflexivity.
    + intros l Hl'. destruct (HW _ RI) as [_ H2]. specialize (H2 l Hl'). specialize (N' l Hl').
      set (X := Z.of_nat (length rg) * B) in *. replace (Z.of_nat (S (length qs)) * X) with (X + Z.of_nat (length qs) * X) by lia. lia.
Qed.
End Fold.

Lemma carries_sum n Q t d (f m E : nat -> nat -> Z) : (forall k, (k < d)%nat -> carries n Q t (f k) (m k) (E k)) ->
  carries n Q t (fun l => sumn d (fun k => f k l)) (fun l => sumn d (fun k => m k l)) (fun l => sumn d (fun k => E k l)).
Proof.
  intros H j Hj. rewrite <- !sumn_mul_l, <- sumn_add. apply sumn_eqm. intros k Hk. apply (H k Hk j Hj).
Qed.
Lemma carries_mulr n Q t f m E h : carries n Q t f m E -> carries n Q t (rmul n f h) (rmul n m h) (rmul n E h).
Proof.
  intros H j Hj. rewrite <- rmul_scal_l, <- (rmul_scal_l n Q), <- rmul_add_l.
  apply (rmul_eqm n (t * Q)); [exact H|intros; reflexivity].
Qed.
