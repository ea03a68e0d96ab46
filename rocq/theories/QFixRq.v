(** Claim C87: the defects of the arithmetic layers repaired (MFix4.v). *)
From Verif Require Import PBase NT Spec PSum MModulus MUtils MNtt MRns MRq MBfv MKsk MFix4 PModulus PUtils PNttMath PNtt PNttNew PCrt PRns PRnsScale PRnsScale2 PFix4 PUtils2 SpecRq SpecBfv SpecKsk PRing PRq PRq2 PRq3 PRq4 PRq5 TestEnv QUtils QRns QRq PBfv PBfv2 PBfv3 PKsk PKsk2 PMix QMix PFold TestBfv.

Lemma modulus_new_inv p m : 0 <= p -> modulus_new p = Ok m -> valid_mod m /\ mp m = p.
Proof.
  intros H0 E. destruct (Z_le_dec 2 p) as [H1|H1]; [destruct (Z_lt_dec p P62) as [H2|H2]|].
  - destruct (modulus_new_ok p (conj H1 H2)) as [m' [E' [A B]]]. rewrite E in E'. apply Ok_inj in E'. subst. auto.
  - rewrite modulus_new_panic in E by lia. discriminate.
  - rewrite modulus_new_panic in E by lia. discriminate.
Qed.

(** C87: the repaired scalar product returns reduced residues. *)
Lemma C87_scalar_mul_vec_lem :
  forall pr p m a b, 0 <= p -> modulus_new p = Ok m -> Forall (fun x => 0 <= x < 2 ^ 64) a -> 0 <= b < p ->
    scalar_mul_vec_fixed pr m a b = Ok (map (fun x => (x * b) mod p) a).
Proof.
  intros pr p m a b Hp E Ha Hb. destruct (modulus_new_inv p m Hp E) as [V <-]. unfold scalar_mul_vec_fixed. rewrite shoup_ok by auto. cbn [bind].
  apply mapM_ok. intros x Hx. rewrite Forall_forall in Ha. apply mul_shoup_ok; auto.
Qed.

(** C87: the repaired bits() is the bit length. *)
Lemma C87_bits_lem : forall p m, 0 <= p -> modulus_new p = Ok m -> modulus_bits_fixed m = Z.log2 p + 1.
Proof.
  intros p m Hp E. destruct (modulus_new_inv p m Hp E) as [V <-]. pose proof (valid_range m V). unfold modulus_bits_fixed, leading_zeros.
  rewrite bitlen_log2 by lia. lia.
Qed.

(** C87: the repaired bit decomposition returns the digits of every coefficient. *)
Lemma C87_decompose_lem :
  forall pr c p, built c -> p_ctx p = c -> wf_poly p -> (0 < bd_base (rq_bd c))%nat ->
    let B := Z.of_nat (bd_base (rq_bd c)) in
    exists ds, apply_bit_decomposition_fixed pr p = Ok ds /\ length ds = cx_k c
      /\ forall i j, (i < cx_k c)%nat -> (j < rq_degree c)%nat ->
           let v := nth j (nth i (p_rows p) []) 0 in let d := nth j (nth i ds []) [] in
           length (nth i ds []) = rq_degree c
           /\ Z.of_nat (length d) = (Z.log2 (cx_q c i) + 1 + B - 1) / B
           /\ (forall l, (l < length d)%nat -> nth l d 0 = (v / 2 ^ (Z.of_nat l * B)) mod 2 ^ B)
           /\ sumn (length d) (fun l => nth l d 0 * 2 ^ (Z.of_nat l * B)) = v.
Proof.
  intros pr c p Bc Ec [WL WR] HB B. pose proof (built_loc _ Bc) as W. rewrite Ec in *.
  pose proof (cx_moduli_len c W) as ML.
  assert (KM : forall i, (i < cx_k c)%nat -> valid_mod (nth i (rq_moduli c) dmod) /\ mp (nth i (rq_moduli c) dmod) = cx_q c i).
  { intros i Hi. rewrite (wl_mod _ W). destruct (forall2_nth _ _ _ 1 dmod i (wr_mod _ _ (wl_rns _ W)) Hi) as [V E]. split; auto. }
  assert (KD : forall i v, (i < cx_k c)%nat -> 0 <= v < cx_q c i ->
    exists d, decompose_bits pr v (modulus_bits_fixed (nth i (rq_moduli c) dmod)) (bd_base (rq_bd c)) = Ok d
      /\ Z.of_nat (length d) = (Z.log2 (cx_q c i) + 1 + B - 1) / B
      /\ (forall l, (l < length d)%nat -> nth l d 0 = (v / 2 ^ (Z.of_nat l * B)) mod 2 ^ B)
      /\ sumn (length d) (fun l => nth l d 0 * 2 ^ (Z.of_nat l * B)) = v).
  { intros i v Hi Hv. destruct (KM i Hi) as [V E]. pose proof (valid_range _ V) as R. rewrite E in R.
    assert (EB : modulus_bits_fixed (nth i (rq_moduli c) dmod) = Z.log2 (cx_q c i) + 1).
    { unfold modulus_bits_fixed, leading_zeros. rewrite E, bitlen_log2 by lia. lia. }
    rewrite EB. pose proof (Z.log2_spec (cx_q c i) ltac:(lia)) as [L1 L2]. pose proof (Z.log2_nonneg (cx_q c i)) as L0.
    assert (L3 : Z.log2 (cx_q c i) < 62) by (apply Z.log2_lt_pow2; lia).
    destruct (C22_decompose_bits_lem pr (Z.log2 (cx_q c i) + 1) v (bd_base (rq_bd c))) as [H _]; try lia.
    destruct H as [d [H1 [H2 [H3 H4]]]]; [rewrite <- Z.add_1_r in L2; lia|]. exists d. auto. }
  set (dd := fun i v => match decompose_bits pr v (modulus_bits_fixed (nth i (rq_moduli c) dmod)) (bd_base (rq_bd c)) with Ok d => d | _ => [] end).
  exists (map (fun i => map (dd i) (nth i (p_rows p) [])) (seq 0 (cx_k c))).
  split; [|split; [apply len_seq|]].
  - unfold apply_bit_decomposition_fixed. rewrite Ec.
    assert (F : forall l m, length l = cx_k c -> length m = cx_k c ->
      (forall i, (i < cx_k c)%nat -> nth i l [] = nth i (p_rows p) []) -> (forall i, (i < cx_k c)%nat -> nth i m dmod = nth i (rq_moduli c) dmod) ->
      zipM (fun row q => mapM (fun v => decompose_bits pr v (modulus_bits_fixed q) (bd_base (rq_bd c))) row) l m
      = Ok (map (fun i => map (dd i) (nth i (p_rows p) [])) (seq 0 (cx_k c)))); [|apply F; auto].
    intros l m Hl Hm E1 E2.
    replace l with (map (fun i => nth i (p_rows p) []) (seq 0 (cx_k c))) by (apply nth_ext' with []; rewrite len_seq; auto; intros i Hi; rewrite nth_map_seq by auto; symmetry; auto).
    replace m with (map (fun i => nth i (rq_moduli c) dmod) (seq 0 (cx_k c))) by (apply nth_ext' with dmod; rewrite len_seq; auto; intros i Hi; rewrite nth_map_seq by auto; symmetry; auto).
    rewrite zipM_seq. apply mapM_ok. intros i Hi. apply in_seq in Hi. assert (Hi' : (i < cx_k c)%nat) by lia. clear Hi. rename Hi' into Hi. apply mapM_ok. intros v Hv. destruct (WR i Hi) as [_ FR]. rewrite Forall_forall in FR. destruct (KD i v Hi (FR v Hv)) as [d [H1 _]].
    unfold dd. rewrite H1. reflexivity.
  - intros i j Hi Hj v d. unfold d. rewrite nth_map_seq by auto. destruct (WR i Hi) as [LR FR]. rewrite map_length.
    rewrite (nth_map' _ _ 0) by (rewrite LR; auto). fold v. assert (RV : 0 <= v < cx_q c i) by (rewrite Forall_forall in FR; apply FR; apply nth_In; rewrite LR; auto).
    destruct (KD i v Hi RV) as [d' [H1 H2]]. unfold dd. rewrite H1. split; auto.
Qed.

(** C87: the repaired scaling is right for every basis of at most 2^32 moduli and
    every factor. *)
Lemma C87_scale_lem : forall pr L (ms mt : list Z) from to N D,
  Forall (fun q => 0 <= q) ms -> Forall (fun q => 0 <= q) mt -> ms <> [] ->
  rns_new ms = Ok from -> rns_new mt = Ok to -> 0 <= N -> 1 <= D ->
  65 <= L <= 94 -> (forall q, In q ms -> q * Z.of_nat (length ms) <= 2 ^ L) ->
  exists s, (sf <- sf_new N D ;; rns_scaler_new pr from to sf) = Ok s /\
  forall rests x, length rests = length ms ->
    (forall i, (i < length ms)%nat -> 0 <= nth i rests 0 < nth i ms 1) ->
    (forall i, (i < length ms)%nat -> x mod nth i ms 1 = nth i rests 0) ->
    exists y, scaled_coeff L (zprod ms) N D x y
      /\ forall out_len start, (out_len <> 0)%nat -> (start + out_len <= length mt)%nat ->
           rns_scale_fixed pr s rests out_len start = Ok (map (fun i => y mod nth (start + i) mt 1) (seq 0 out_len)).
Proof.
  intros pr L ms mt from to N D H0 H0' Hne E1 E2 HN HD HL HM.
  assert (H65 : wide_room L ms) by (split; assumption).
  pose proof (rns_new_inv ms from H0 E1) as WF. pose proof (rns_new_inv mt to H0' E2) as WT.
  unfold sf_new. rewrite rassert_true by (apply negb_true_iff, Z.eqb_neq; lia). cbn [bind].
  destruct (rns_scaler_new_ok pr from to ms mt (mkSF N D (N =? D)) N D WF WT Hne (rns_k_bound _ _ WF) HN HD eq_refl) as [s [Es W]].
  exists s. split; auto. intros rests x HR1 HR HX.
  exists (f_yrep s from ms N D rests). split.
  - exists (f_xrep s from ms rests). split.
    { eapply f_xrep_eqm; [exact W| ..]; eauto. intros i Hi. pose proof (HR i Hi) as B.
      unfold eqm. rewrite HX by auto. symmetry. apply Z.mod_small. auto. }
    split; [eapply f_xrep_bound; eauto|].
    assert (YB : 2 * N * f_xrep s from ms rests - 2 * D * f_yrep s from ms N D rests < D /\
      2 ^ (125 - L) * (2 * D * f_yrep s from ms N D rests - 2 * N * f_xrep s from ms rests - D) < D) by (eapply f_yrep_bound; eauto).
    destruct YB as [B1 B2]. split; [auto|]. split; [auto|]. intros E; eapply f_yrep_one; eauto.
  - intros. eapply f_rns_scale_ok; eauto.
Qed.

(** C87: where the code was right, the repaired scaling agrees with it. *)
Lemma C87_scale_agree_lem : forall pr L (ms mt : list Z) from to N D s rests out_len start,
  Forall (fun q => 0 <= q) ms -> Forall (fun q => 0 <= q) mt -> ms <> [] ->
  rns_new ms = Ok from -> rns_new mt = Ok to -> 0 <= N -> 1 <= D -> scale_room L N D ms ->
  (sf <- sf_new N D ;; rns_scaler_new pr from to sf) = Ok s -> length rests = length ms ->
  (forall i, (i < length ms)%nat -> 0 <= nth i rests 0 < nth i ms 1) ->
  (out_len <> 0)%nat -> (start + out_len <= length mt)%nat ->
  rns_scale_fixed pr s rests out_len start = rns_scale pr s rests out_len start.
Proof.
  intros pr L ms mt from to N D s rests ol st H0 H0' Hne E1 E2 HN HD HSR Es HR1 HR Ho Hs.
  assert (H65 : wide_room L ms) by (destruct HSR as [A [B _]]; split; assumption).
  pose proof (rns_new_inv ms from H0 E1) as WF. pose proof (rns_new_inv mt to H0' E2) as WT.
  unfold sf_new in Es. rewrite rassert_true in Es by (apply negb_true_iff, Z.eqb_neq; lia). cbn [bind] in Es.
  destruct (rns_scaler_new_ok pr from to ms mt (mkSF N D (N =? D)) N D WF WT Hne (rns_k_bound _ _ WF) HN HD eq_refl) as [s' [Es' W]].
  rewrite Es in Es'. apply Ok_inj in Es'. subst s'.
  transitivity (Ok (map (fun i => yrep s from ms N D rests mod nth (st + i) mt 1) (seq 0 ol))).
  - eapply f_rns_scale_ok; eauto.
  - symmetry. eapply rns_scale_ok; eauto.
Qed.

(** C87: the repaired scaling rejects arguments of wrong length in every build. *)
Lemma C87_scale_guard_lem : forall pr s rests out_len start,
  length rests <> length (rns_moduli_u64 (rs_from s)) \/ out_len = 0%nat \/ (length (rns_moduli_u64 (rs_to s)) < start + out_len)%nat ->
  rns_scale_fixed pr s rests out_len start = Panic.
Proof.
  intros pr s rests ol st H. unfold rns_scale_fixed.
  destruct (Nat.eqb_spec (length rests) (length (rns_moduli_u64 (rs_from s)))); [|reflexivity]. cbn [rassert bind].
  destruct (Nat.eqb_spec ol 0); [reflexivity|]. cbn [negb rassert bind].
  destruct (Nat.leb_spec (st + ol) (length (rns_moduli_u64 (rs_to s)))); [|reflexivity]. destruct H as [H|[H|H]]; [congruence|congruence|lia].
Qed.

(** ** Polynomials *)
Lemma common_prefix_le a : forall b, (common_prefix a b <= length a)%nat /\ (common_prefix a b <= length b)%nat.
Proof.
  induction a as [|x a IH]; intros [|y b]; cbn [common_prefix length]; try lia. specialize (IH b). destruct (x =? y); lia.
Qed.
Lemma common_prefix_eq a : forall b i, (i < common_prefix a b)%nat -> nth i a 1 = nth i b 1.
Proof.
  induction a as [|x a IH]; intros [|y b] i H; cbn [common_prefix] in H; try lia. destruct (Z.eqb_spec x y) as [E|E]; [|lia].
  destruct i as [|i]; [exact E|]. cbn [nth]. apply IH. lia.
Qed.
Lemma common_prefix_full a : forall b, (length a <= length b)%nat -> (forall i, (i < length a)%nat -> nth i a 1 = nth i b 1) -> common_prefix a b = length a.
Proof.
  induction a as [|x a IH]; intros [|y b] HL H; cbn [common_prefix length] in *; try lia. pose proof (H 0%nat ltac:(lia)) as E. cbn [nth] in E.
  subst y. rewrite Z.eqb_refl. f_equal. apply IH; [lia|]. intros i Hi. apply (H (S i)). lia.
Qed.

Section Poly.
Variables (pr : profile) (L : Z) (s : RnsScaler) (sf : ScalingFactor) (kc : nat) (from to : RqContext) (N D : Z).
Hypothesis Wf : wf_loc from.
Hypothesis Wt : wf_loc to.
Hypothesis W : wf_scaler s (rq_rns from) (rq_rns to) (rq_moduli_64 from) (rq_moduli_64 to) N D.
Hypothesis Ed : rq_degree from = rq_degree to.
Hypothesis H65 : wide_room L (rq_moduli_64 from).
Hypothesis C1 : (kc <= cx_k from)%nat.
Hypothesis C2 : (kc <= cx_k to)%nat.
Hypothesis H1 : (0 < kc)%nat -> N = D.
Hypothesis He : forall i, (i < kc)%nat -> cx_q from i = cx_q to i.

Definition f_fun (f : nat -> Z) (j : nat) : Z := f_yrep s (rq_rns from) (rq_moduli_64 from) N D (res_list from f j).
Lemma f_fun_spec f j : scaled_coeff L (cx_Q from) N D (f j) (f_fun f j).
Proof.
  pose proof (res_list_len from f j) as RL. pose proof (res_list_range from Wf f j) as RR.
  exists (f_xrep s (rq_rns from) (rq_moduli_64 from) (res_list from f j)).
  split.
  { change (eqm (cx_Q from) (f_xrep s (rq_rns from) (rq_moduli_64 from) (res_list from f j)) (f j)).
    eapply f_xrep_eqm; [exact W| ..]; eauto.
    intros i Hi. unfold res_list. rewrite nth_map_seq by auto. symmetry. apply eqm_mod. }
  split; [eapply f_xrep_bound; eauto|].
  assert (YB : 2 * N * f_xrep s (rq_rns from) (rq_moduli_64 from) (res_list from f j) - 2 * D * f_fun f j < D /\
    2 ^ (125 - L) * (2 * D * f_fun f j - 2 * N * f_xrep s (rq_rns from) (rq_moduli_64 from) (res_list from f j) - D) < D)
    by (eapply f_yrep_bound; eauto).
  destruct YB. split; auto. split; auto. intros E. eapply f_yrep_one; eauto.
Qed.

Lemma f_scale_pb f : rq_scale_pb_fixed pr (mkRqScaler from to s sf kc) (rep from PowerBasis f) = Ok (rep to PowerBasis (f_fun f)).
Proof.
  unfold rq_scale_pb_fixed. cbn [sc_to sc_common sc_rns]. rewrite (cx_moduli_len to Wt). fold (cx_k to).
  rewrite rassert_true by (apply Nat.leb_le; auto). cbn [bind].
  unfold slice_to. rewrite rep_rows, len_seq.
  replace (kc <=? cx_k from)%nat with true by (symmetry; apply Nat.leb_le; auto). cbn [bind].
  assert (ET : firstn kc (map (rrow from PowerBasis f) (seq 0 (cx_k from)))
     = map (rrow to PowerBasis (f_fun f)) (seq 0 kc)).
  { rewrite (firstn_seq_nth _ []) by (rewrite len_seq; auto). apply map_seq_ext. intros i Hi. rewrite nth_map_seq by lia.
    unfold rrow. rewrite <- Ed. apply map_seq_ext. intros j Hj. cbn [rep_entry]. rewrite <- (He i Hi).
    destruct (f_fun_spec f j) as [x' [E [_ [_ [_ EY]]]]]. rewrite EY by (apply H1; lia).
    symmetry. apply (eqm_Q_q from Wf i); auto. lia. }
  rewrite ET.
  assert (EB : (if (kc <? cx_k to)%nat
      then outs <- mapM (fun j => c <- column (map (rrow from PowerBasis f) (seq 0 (cx_k from))) j ;;
                                  rns_scale_fixed pr s c (cx_k to - kc) kc) (seq 0 (rq_degree to)) ;;
           Ok (map (fun i => map (fun out => nth i out 0) outs) (seq 0 (cx_k to - kc)))
      else Ok (repeat (repeat 0 (rq_degree to)) (cx_k to - kc)))
    = Ok (map (rrow to PowerBasis (f_fun f)) (seq kc (cx_k to - kc)))).
  { destruct (Nat.ltb_spec kc (cx_k to)) as [HL|HL].
    - rewrite (mapM_ok _ (fun j => map (fun i => f_fun f j mod cx_q to (kc + i)) (seq 0 (cx_k to - kc)))).
      2:{ intros j Hj. apply in_seq in Hj.
          pose proof (column_rep from f j ltac:(lia)) as EC. rewrite rep_rows in EC. rewrite EC. cbn [bind].
          fold (res_list from f j).
          unfold f_fun. eapply f_rns_scale_ok; eauto using res_list_len, res_list_range; [lia|].
          fold (cx_k to). lia. }
      cbn [bind]. f_equal. rewrite <- (seq_shift_add kc). rewrite map_map. apply map_seq_ext. intros i Hi.
      rewrite map_map. unfold rrow. apply map_seq_ext. intros j Hj. rewrite nth_map_seq by auto. reflexivity.
    - replace (cx_k to - kc)%nat with 0%nat by lia. reflexivity. }
  cbv zeta in EB |- *. 
  match goal with |- bind ?X _ = _ => replace X with (Ok (map (rrow to PowerBasis (f_fun f)) (seq kc (cx_k to - kc)))) end.
  cbn [bind]. f_equal. unfold rep. f_equal. rewrite <- map_app. rewrite <- seq_app.
  replace (kc + (cx_k to - kc))%nat with (cx_k to) by lia. reflexivity.
Qed.
End Poly.

(** C87: the repaired polynomial scaling scales every coefficient, for every pair of
    contexts of one degree. *)
Lemma C87_poly_lem :
  forall pr L from to N D,
    built from -> built to -> rq_degree from = rq_degree to -> 0 <= N -> 1 <= D ->
    65 <= L <= 94 -> (forall q, In q (rq_moduli_64 from) -> q * Z.of_nat (cx_k from) <= 2 ^ L) ->
    exists s, (sf <- sf_new N D ;; rq_scaler_new_fixed pr from to sf) = Ok s /\
    forall r f, r <> NttShoup -> exists g, rq_scale_fixed pr s (rep from r f) = Ok (rep to r g)
      /\ forall j, (j < rq_degree from)%nat -> scaled_coeff L (cx_Q from) N D (f j) (g j).
Proof.
  intros pr L from to N D Bf Bt Ed HN HD HL HM. apply built_loc in Bf. apply built_loc in Bt. rename Bf into Wf. rename Bt into Wt.
  assert (H65 : wide_room L (rq_moduli_64 from)) by (split; assumption).
  unfold sf_new. rewrite rassert_true by (apply negb_true_iff, Z.eqb_neq; lia). cbn [bind].
  unfold rq_scaler_new_fixed. rewrite rassert_true by (apply Nat.eqb_eq; auto). cbn [bind sf_is_one].
  destruct (rns_scaler_new_ok pr (rq_rns from) (rq_rns to) (rq_moduli_64 from) (rq_moduli_64 to) (mkSF N D (N =? D)) N D) as [s [E W]];
    auto; try apply wl_rns; auto.
  { pose proof (wl_ne _ Wf) as H. unfold cx_k in H. destruct (rq_moduli_64 from); [simpl in H; lia|discriminate]. }
  { apply (rns_k_bound (rq_rns from)). apply (wl_rns _ Wf). }
  rewrite E. cbn [bind]. eexists. split; [reflexivity|].
  pose proof (common_prefix_le (rq_moduli_64 from) (rq_moduli_64 to)) as [C1 C2].
  set (kc := if N =? D then common_prefix (rq_moduli_64 from) (rq_moduli_64 to) else 0%nat).
  assert (K1 : (kc <= cx_k from)%nat) by (unfold kc, cx_k; destruct (N =? D); lia).
  assert (K2 : (kc <= cx_k to)%nat) by (unfold kc, cx_k; destruct (N =? D); lia).
  assert (K3 : (0 < kc)%nat -> N = D) by (unfold kc; destruct (Z.eqb_spec N D); [auto|lia]).
  assert (K4 : forall i, (i < kc)%nat -> cx_q from i = cx_q to i).
  { intros i Hi. apply common_prefix_eq. unfold kc in Hi. destruct (N =? D); [exact Hi|lia]. }
  intros r f Hr. exists (f_fun s from N D f). split; [|intros j Hj; eapply f_fun_spec; eauto].
  assert (PB : rq_scale_pb_fixed pr (mkRqScaler from to s (mkSF N D (N =? D)) kc) (rep from PowerBasis f) = Ok (rep to PowerBasis (f_fun s from N D f)))
    by (eapply f_scale_pb; eauto).
  unfold rq_scale_fixed. cbn [sc_from]. cbn [p_ctx p_repr rep]. rewrite ctx_eqb_refl. cbn [rassert bind]. fold (rep from r f). destruct r; try congruence.
  rewrite change_any by (auto; discriminate). cbn [bind]. rewrite PB. cbn [bind]. apply change_any; auto; discriminate.
Qed.

(** C87: with the moduli compared, +, - and * of polynomials of two levels of one
    chain are right or rejected. *)
Lemma C87_operators_lem :
  forall pr C c i f g, built C -> nth_ctx C i = Some c ->
    poly_op_fixed (poly_add pr) (rep c Ntt f) (rep C Ntt g) = Ok (rep c Ntt (fun j => f j + g j)) /\
    poly_op_fixed (poly_sub pr) (rep c Ntt f) (rep C Ntt g) = Ok (rep c Ntt (fun j => f j - g j)) /\
    poly_op_fixed (poly_mul pr) (rep c Ntt f) (rep C Ntt g) = Ok (rep c Ntt (rmul (rq_degree c) f g)) /\
    (i <> 0%nat -> forall op, poly_op_fixed op (rep C Ntt f) (rep c Ntt g) = Panic).
Proof.
  intros pr C c i f g B H. destruct (C62_smaller_left_lem pr C c i f g B H) as [A1 [A2 A3]]. pose proof (sub_nth C c i B H) as SX.
  unfold poly_op_fixed, moduli_fit. cbn [rep p_ctx].
  assert (E : (common_prefix (rq_moduli_64 c) (rq_moduli_64 C) =? length (rq_moduli_64 c))%nat = true).
  { apply Nat.eqb_eq. apply common_prefix_full; [apply (sx_k _ _ SX)|apply (sx_q _ _ SX)]. }
  rewrite E. cbn [rassert bind]. repeat split; auto. intros Hi op.
  destruct (nth_ctx_wf C i c (built_wf C B) H) as [_ [K1 [K2 _]]]. pose proof (common_prefix_le (rq_moduli_64 C) (rq_moduli_64 c)) as [_ P2].
  assert (LL : (length (rq_moduli_64 c) < length (rq_moduli_64 C))%nat) by (rewrite K2, firstn_length; unfold cx_k in *; lia).
  replace (common_prefix (rq_moduli_64 C) (rq_moduli_64 c) =? length (rq_moduli_64 C))%nat with false by (symmetry; apply Nat.eqb_neq; lia). reflexivity.
Qed.

(** C87: with the key's moduli compared, a key of any level switches polynomials of
    any level correctly or rejects them. *)
Lemma C87_key_switch_lem :
  forall pr P i k c C sk u rnd, built_params P -> level P i c -> level P k C -> sk_params sk = P -> sk_ok sk ->
    1 <= bp_variance P <= 16 ->
    (forall l, wf_poly (mkPoly C Ntt (rnd_rows rnd l))) -> (forall l j, 0 <= rnd_words rnd l j < 2 ^ 64) ->
    exists key e, ksk_new pr sk (rep C Ntt u) i k rnd = Ok key
      /\ (forall l j, Z.abs (e l j) <= 2 * bp_variance P)
      /\ forall p, ((i < k)%nat -> key_switch_fixed pr key (rep c PowerBasis p) = Panic) /\
           ((k <= i)%nat -> exists c0 c1, key_switch_fixed pr key (rep c PowerBasis p) = Ok (rep c Ntt c0, rep c Ntt c1)
             /\ forall j, (j < bp_degree P)%nat ->
                  phase (bp_degree P) (sk_fun sk) [c0; c1] j mod cx_Q c = (rmul (bp_degree P) p u j + ks_noise c e p j) mod cx_Q c
                  /\ Z.abs (ks_noise c e p j) <= ks_bound c (2 * bp_variance P)).
Proof.
  intros pr P i k c C sk u rnd B Lc LC SP SO Hv R1 R2. assert (HR : rnd_ok C rnd) by (split; auto).
  destruct (Nat.le_gt_cases k i) as [Hk|Hk].
  - destruct (C61_cross_level_lem pr P i k c C sk u rnd B Lc LC Hk SP SO Hv HR) as [key [e [E1 [E2 E3]]]]. exists key, e. split; auto. split; auto.
    intros p. split; [lia|]. intros _. destruct (E3 p) as [c0 [c1 [E4 E5]]]. exists c0, c1. split; auto. unfold key_switch_fixed, moduli_fit. cbn [rep p_ctx].
    assert (EC : k_ksk_ctx key = C).
    { pose proof (built_params_wf P B) as WB. destruct (level_wf P i c WB Lc) as [_ LV]. destruct (level_wf P k C WB LC) as [_ LVC].
      destruct (cross_new pr P i k c C LV LVC sk u rnd (conj SP SO) Hv) as [key' [b [a [e' [E [F1 [F2 [F3 [F4 _]]]]]]]]]; auto.
      rewrite E1 in E. apply Ok_inj in E. subst key'. assumption. }
    rewrite EC. pose proof (sub_levels P i k c C B Lc LC Hk) as SX.
    rewrite common_prefix_full; [|apply (sx_k _ _ SX)|apply (sx_q _ _ SX)]. rewrite Nat.eqb_refl. cbn [rassert bind]. exact E4.
  - pose proof (built_params_wf P B) as WB. destruct (level_wf P i c WB Lc) as [_ LV]. destruct (level_wf P k C WB LC) as [_ LVC].
    destruct (cross_new pr P i k c C LV LVC sk u rnd (conj SP SO) Hv) as [key [b [a [e [E [F1 [F2 [F3 [F4 [HP HE]]]]]]]]]]; auto.
    exists key, e. split; auto. split; [exact HE|]. intros p. split; [|lia]. intros _. unfold key_switch_fixed, moduli_fit. cbn [rep p_ctx].
    assert (EC : k_ksk_ctx key = C) by assumption. rewrite EC. pose proof (common_prefix_le (rq_moduli_64 c) (rq_moduli_64 C)) as [_ P2].
    assert (LL : (cx_k C < cx_k c)%nat).
    { destruct (level_k P WB i c Lc) as [K1 K2]. destruct (level_k P WB k C LC) as [K3 K4]. lia. }
    unfold cx_k in LL. replace (common_prefix (rq_moduli_64 c) (rq_moduli_64 C) =? length (rq_moduli_64 c))%nat with false by (symmetry; apply Nat.eqb_neq; lia). reflexivity.
Qed.

(*EXAMPLE
(** The repaired functions on the inputs that refute C07, C23, C56 and C16. *)
Example C87_scalar_example : (m <- modulus_new 13 ;; scalar_mul_vec_fixed Debug m [2 ^ 64 - 1; 5] 12) = Ok [(2 ^ 64 - 1) * 12 mod 13; 8].
Proof. vm_compute. reflexivity. Qed.
Example C87_bits_example :
  (m <- modulus_new 1048609 ;; Ok (modulus_bits_fixed m)) = Ok 21
  /\ (c <- test_ctx Release [1048609] ;; p <- poly_from_u64 Release c [100; 2] ;; ds <- apply_bit_decomposition_fixed Release p ;; Ok (firstn 2 (nth 0 ds [])))
     = Ok [[4; 6; 0; 0; 0; 0]; [2; 0; 0; 0; 0; 0]].
Proof. vm_compute. auto. Qed.
Example C87_scale_example :
  (a <- rns_new ms12 ;; b <- rns_new [97] ;; f <- sf_new 1 3 ;; s <- rns_scaler_new Debug a b f ;;
   r <- rns_project a (zprod ms12 - 1) ;; x <- rns_scale_fixed Debug s r 1 0 ;; y <- rns_scale Debug s r 1 0 ;; Ok (x, y)) = Ok ([0], [2])
  /\ (a <- rns_new [97; 193] ;; b <- rns_new [113; 241] ;; f <- sf_new 2 7 ;; s <- rns_scaler_new Release a b f ;; rns_scale_fixed Release s [1; 2; 3] 2 0) = Panic.
Proof. vm_compute. auto. Qed.
Example C87_poly_example :
  (from <- test_ctx Release [1048609; 1048721] ;; to <- test_ctx Release [1048897; 1048721] ;; sf <- sf_new 1 1 ;;
   s <- rq_scaler_new_fixed Release from to sf ;; out <- rq_scale_fixed Release s (rep from PowerBasis (fun _ => -1)) ;; Ok (map (fun r => nth 0 r 0) (p_rows out)))
  = Ok [1048896; 1048720].
Proof. vm_compute. reflexivity. Qed.
Example C87_operators_example :
  (C <- test_ctx Release test_ms ;; c <- unwrap (rq_next C) ;;
   poly_op_fixed (poly_add Release) (rep C Ntt (fun _ => 0)) (rep c Ntt (fun _ => 0))) = Panic.
Proof. vm_compute. reflexivity. Qed.
EXAMPLE*)
