(** The complete fold, in terms of messages. *)
From Verif Require Import PBase NT Spec PSum MModulus MUtils MNtt MRns MRq MBfv MKsk MGalois MRgsw MEval PModulus PUtils PNttMath PNtt PNttNew PCrt PRns PRnsScale PUtils2 SpecRq SpecBfv SpecKsk SpecEval PRing PRq PRq2 PRq3 PRq4 PRq5 PBfv PBfv2 PBfv3 PKsk PGal PKsk2 PRingT PExpand PEval PFold.

Section Fold2.
Variables (pr : profile) (P : BfvParams) (c : RqContext) (s : nat -> Z).
Hypothesis WB : wf_bfv P.
Hypothesis LV : wf_level P 0 c.
Let W : wf_loc c := wf_ctx_loc _ (lv_wf _ _ _ LV).
Let n := rq_degree c.
Let Q := cx_Q c.
Let t := bp_t P.
Let dc := mkCt P [] 0.

Lemma select_sum d q (m : nat -> nat -> Z) l : (q < d)%nat -> (l < n)%nat ->
  sumn d (fun k => rmul n (cst (if (k =? q)%nat then 1 else 0)) (m k) l) = m q l.
Proof.
  intros Hq Hl. pose proof (cx_n8 c W) as N8. fold n in N8. rewrite (sumn_single d q); auto.
  - rewrite Nat.eqb_refl. change (cst 1) with one. apply rmul_one_l; lia.
  - intros i Hi Hne. rewrite (proj2 (Nat.eqb_neq _ _)) by auto.
    rewrite (rmul_ext n (cst 0) (fun _ => 0) (m i) (m i)) by (auto; intros j _; unfold cst; destruct (j =? 0)%nat; reflexivity). apply rmul_0_l.
Qed.

Lemma fold_all_ok first dim q0 qs cts by_dim (m : nat -> nat -> Z) B0 B M :
  (q0 < first)%nat -> 0 <= B -> 0 <= B0 -> length cts = first ->
  (forall k, (k < first)%nat -> exists g0 g1 E, nth k cts dc = ct_of P 0 c [g0; g1]
     /\ carries n Q t (phase n s [g0; g1]) (cst (if (k =? q0)%nat then 1 else 0)) E /\ forall l, (l < n)%nat -> Z.abs (E l) <= B0) ->
  Forall2 (fun q rg => (q < dim)%nat /\ length rg = dim /\ forall k, (k < dim)%nat -> rgsw_acts pr P c s (nth k rg (dr P c)) (cst (if (k =? q)%nat then 1 else 0)) B) qs by_dim ->
  (forall x l, Z.abs (m x l) <= M) ->
  exists g0 g1 E, (db <- fold_first pr P first cts (map (fun x => rep c Ntt (m x)) (seq 0 (dim ^ length qs * first))) ;;
      foldM (fun db rg => fold_dim pr P dim db rg) by_dim db) = Ok [ct_of P 0 c [g0; g1]]
    /\ carries n Q t (phase n s [g0; g1]) (m (q0 + first * row_index dim qs)%nat) E
    /\ forall l, (l < n)%nat -> Z.abs (E l) <= Z.of_nat first * (Z.of_nat n * (B0 * M)) + t * (Z.of_nat (length qs) * (Z.of_nat dim * B)).
Proof.
  intros Hq0 HB HB0 Hl HC HF HM. pose proof (cx_n8 c W) as N8. fold n in N8. pose proof (wf_t17 P WB) as T17. fold t in T17.
  pose proof (cx_Q1 c W) as Q1. fold Q in Q1.
  assert (HC' : forall k, (k < first)%nat -> exists fE : (nat -> Z) * (nat -> Z), phs P c s (nth k cts dc) (fst fE)
     /\ carries n Q t (fst fE) (cst (if (k =? q0)%nat then 1 else 0)) (snd fE) /\ forall l, (l < n)%nat -> Z.abs (snd fE l) <= B0).
  { intros k Hk. destruct (HC k Hk) as [g0 [g1 [E [E1 [E2 E3]]]]]. exists (phase n s [g0; g1], E). cbn [fst snd]. split; auto.
    exists g0, g1. split; auto. intros; reflexivity. }
  destruct (fin_choice (fun _ => 0, fun _ => 0) _ _ HC') as [fE HFE].
  destruct (fold_first_ok pr P c s LV first (dim ^ length qs) cts (fun k => fst (fE k)) m ltac:(lia) Hl ltac:(intros k Hk; apply (HFE k Hk))) as [db [E1 [L1 H1]]].
  rewrite E1. cbn [bind]. fold n in H1.
  destruct (fold_dims_ok pr P c s LV dim B HB qs by_dim db _ HF L1 H1) as [ct [w [E2 [[g0 [g1 [Eg Hg]]] Hw]]]].
  rewrite E2. subst ct. set (r := row_index dim qs) in *.
  exists g0, g1, (fun l => sumn first (fun k => rmul n (snd (fE k)) (m (r * first + k)%nat) l) + t * w l). split; [reflexivity|]. split.
  - eapply (carries_shift n Q t _ _ _ _ w Q1 ltac:(lia) Hg).
    intros l Hl'. cbv beta.
    pose proof (carries_sum n Q t first (fun k => rmul n (fst (fE k)) (m (r * first + k)%nat)) _ _
      (fun k Hk => carries_mulr n Q t _ _ _ (m (r * first + k)%nat) (proj1 (proj2 (HFE k Hk)))) l Hl') as CS. cbv beta in CS.
    rewrite (select_sum first q0 (fun k => m (r * first + k)%nat) l Hq0 Hl') in CS.
    replace (q0 + first * r)%nat with (r * first + q0)%nat by lia. exact CS.
  - intros l Hl'. eapply Z.le_trans; [apply Z.abs_triangle|]. apply Z.add_le_mono.
    + apply sumn_abs_le. intros k Hk. apply (rmul_bound n ltac:(lia)); auto. intros i Hi. apply (HFE k Hk). auto.
    + rewrite Z.abs_mul, (Z.abs_eq t) by lia. apply Z.mul_le_mono_nonneg_l; [lia|]. apply Hw. auto.
Qed.
End Fold2.
