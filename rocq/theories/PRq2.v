(** Polynomial operations act on the represented integer polynomials. *)
From Verif Require Import PBase NT Spec PSum MModulus MUtils MNtt MRns MRq PModulus PNttMath PNtt PNttNew PCrt PRns PRnsScale PUtils2 SpecRq PRq.

(** ** Ring facts *)
Lemma peval_add n f g y : peval n (fun j => f j + g j) y = peval n f y + peval n g y.
Proof. unfold peval. rewrite <- sumn_add. apply sumn_ext. intros. ring. Qed.
Lemma peval_sub n f g y : peval n (fun j => f j - g j) y = peval n f y - peval n g y.
Proof. unfold peval. rewrite <- sumn_sub. apply sumn_ext. intros. ring. Qed.
Lemma peval_opp n f y : peval n (fun j => - f j) y = - peval n f y.
Proof. unfold peval. rewrite <- sumn_opp. apply sumn_ext. intros. ring. Qed.

Lemma mono_small n k e : (e < n)%nat -> mono n k e = if (e =? k)%nat then 1 else 0.
Proof. intros H. unfold mono. rewrite Nat.mod_small, Nat.div_small by auto. reflexivity. Qed.

Lemma rmul_const n f a k : (k < n)%nat -> rmul n f (fun j => nth j [a] 0) k = a * f k.
Proof.
  intros Hk. unfold rmul. rewrite (sumn_single n k); auto.
  - rewrite (sumn_single n 0); try lia.
    + rewrite Nat.add_0_r, mono_small by auto. rewrite Nat.eqb_refl. simpl. ring.
    + intros j Hj Hne. destruct j as [|[|j]]; try lia; simpl; ring.
  - intros i Hi Hne. rewrite (sumn_single n 0); try lia.
    + rewrite Nat.add_0_r, mono_small by auto. apply Nat.eqb_neq in Hne. rewrite Hne. ring.
    + intros j Hj Hne'. destruct j as [|[|j]]; try lia; simpl; ring.
Qed.

Section Ctx.
Variables (pr : profile) (c : RqContext).
Hypothesis W : wf_loc c.
Let n := rq_degree c.
Let k := cx_k c.

Lemma cx_mod i : (i < k)%nat -> valid_mod (cx_m c i) /\ mp (cx_m c i) = cx_q c i.
Proof. intros Hi. unfold cx_m, cx_q. rewrite (wl_mod _ W). apply wf_rns_nth with (ms := rq_moduli_64 c); auto. apply (wl_rns _ W). Qed.
Lemma cx_range i : (i < k)%nat -> 2 <= cx_q c i < 2 ^ 62.
Proof. intros Hi. apply range_nth; auto. apply (wr_range _ _ (wl_rns _ W)). Qed.
Lemma cx_moduli : rq_moduli c = map (cx_m c) (seq 0 k).
Proof.
  unfold cx_m. apply list_seq. rewrite (wl_mod _ W). symmetry. apply (forall2_length _ _ _ (wr_mod _ _ (wl_rns _ W))).
Qed.
Lemma cx_moduli_len : length (rq_moduli c) = k.
Proof. rewrite cx_moduli. apply len_seq. Qed.
Lemma cx_ops : rq_ntt_ops c = map (cx_op c) (seq 0 k).
Proof. unfold cx_op. apply list_seq. apply (wl_opl _ W). Qed.
Lemma cx_Q1 : 1 <= cx_Q c.
Proof. apply zprod_pos, range_2, (wr_range _ _ (wl_rns _ W)). Qed.
Lemma cx_Q2 : 2 <= cx_Q c.
Proof.
  pose proof (wl_ne _ W) as H. pose proof (cx_range 0 ltac:(unfold k; lia)) as R.
  pose proof (zprod_ge (rq_moduli_64 c) (cx_q c 0) (range_2 _ (wr_range _ _ (wl_rns _ W)))) as G.
  unfold cx_Q. specialize (G ltac:(apply nth_In; unfold cx_k in H; lia)). lia.
Qed.
Lemma cx_n8 : (8 <= n)%nat.
Proof.
  unfold n. rewrite (wl_n _ W). pose proof (wl_L _ W). change 8%nat with (2 ^ 3)%nat. apply Nat.pow_le_mono_r; lia.
Qed.
Lemma cx_q_Q i : (i < k)%nat -> (cx_q c i | cx_Q c).
Proof. intros Hi. apply zprod_divide, nth_In. auto. Qed.
Lemma eqm_Q_q i a b : (i < k)%nat -> eqm (cx_Q c) a b -> eqm (cx_q c i) a b.
Proof.
  intros Hi H. pose proof (cx_range i Hi). apply eqm_weaken with (cx_Q c); auto; try lia.
  - pose proof cx_Q1. lia.
  - apply cx_q_Q; auto.
Qed.
Lemma cx_crt x y : (forall i, (i < k)%nat -> eqm (cx_q c i) x y) -> eqm (cx_Q c) x y.
Proof. intros H. apply (crt_unique _ _ (wl_rns _ W)). exact H. Qed.

Lemma rep_entry_range r f i j : (i < k)%nat -> 0 <= rep_entry c r f i j < cx_q c i.
Proof. intros Hi. pose proof (cx_range i Hi). unfold rep_entry. destruct r; apply Z.mod_pos_bound; lia. Qed.

Definition rrow (r : repr) (f : nat -> Z) (i : nat) : list Z := map (fun j => rep_entry c r f i j) (seq 0 n).
Lemma rep_rows r f : p_rows (rep c r f) = map (rrow r f) (seq 0 k).
Proof. reflexivity. Qed.

Lemma rep_entry_eqm r f g i j : (i < k)%nat -> (j < n)%nat -> (forall j, (j < n)%nat -> eqm (cx_Q c) (f j) (g j)) ->
  rep_entry c r f i j = rep_entry c r g i j.
Proof.
  intros Hi Hj H. destruct r; cbn [rep_entry].
  - apply eqm_Q_q; auto.
  - apply peval_eqm. intros u Hu. apply eqm_Q_q; auto.
  - apply peval_eqm. intros u Hu. apply eqm_Q_q; auto.
Qed.
Lemma rep_eqm r f g : (forall j, (j < n)%nat -> eqm (cx_Q c) (f j) (g j)) -> rep c r f = rep c r g.
Proof.
  intros H. unfold rep. f_equal. apply map_seq_ext. intros i Hi. apply map_seq_ext. intros j Hj.
  apply rep_entry_eqm; auto.
Qed.
Lemma rep_ext r f g : (forall j, (j < n)%nat -> f j = g j) -> rep c r f = rep c r g.
Proof. intros H. apply rep_eqm. intros j Hj. rewrite H by auto. reflexivity. Qed.
Lemma rep_pb_inj f g : rep c PowerBasis f = rep c PowerBasis g -> forall j, (j < n)%nat -> eqm (cx_Q c) (f j) (g j).
Proof.
  intros H j Hj. apply cx_crt. intros i Hi. assert (E := f_equal (fun p => nth j (nth i (p_rows p) []) 0) H).
  cbv beta in E. rewrite !rep_rows in E. rewrite !nth_map_seq in E by auto. unfold rrow in E.
  rewrite !nth_map_seq in E by auto. exact E.
Qed.

(** ** Representation changes *)
Lemma cx_point i j : point (cx_L c) (cx_psi c i) j = cx_psi c i ^ Z.of_nat (2 * bitrev (cx_L c) j + 1).
Proof. reflexivity. Qed.
Lemma cx_point_n i j : (i < k)%nat -> eqm (cx_q c i) (pw (cx_psi c i ^ Z.of_nat (2 * bitrev (cx_L c) j + 1)) n) (-1).
Proof.
  intros Hi. destruct (wl_op _ W i Hi) as [Ep Wn]. pose proof (point_n _ _ _ Wn j) as H.
  rewrite Ep in H. destruct (cx_mod i Hi) as [_ E]. rewrite E in H. unfold n. rewrite (wl_n _ W). exact H.
Qed.

Lemma row_rng r f i B : (i < k)%nat -> cx_q c i <= B -> rng (cx_L c) B (rrow r f i).
Proof.
  intros Hi HB. unfold rng, rrow, n. rewrite <- (wl_n _ W). rewrite len_seq. split; auto.
  intros j Hj. rewrite nth_map_seq by auto. pose proof (rep_entry_range r f i j Hi). lia.
Qed.
Lemma row_nth r f i j : (j < n)%nat -> nth j (rrow r f i) 0 = rep_entry c r f i j.
Proof. intros Hj. unfold rrow. rewrite nth_map_seq by auto. reflexivity. Qed.

Lemma row_forward f i : (i < k)%nat -> ntt_forward pr (cx_op c i) (rrow PowerBasis f i) = Ok (rrow Ntt f i).
Proof.
  intros Hi. destruct (wl_op _ W i Hi) as [Ep Wn]. destruct (cx_mod i Hi) as [_ Em]. pose proof (cx_range i Hi) as R.
  assert (Eq : mp (nt_p (cx_op c i)) = cx_q c i) by (rewrite Ep; auto).
  destruct (ntt_forward_ok pr _ _ _ Wn (rrow PowerBasis f i)) as [b [E [Rb HE]]].
  { rewrite Eq. apply row_rng; auto. lia. }
  rewrite E. f_equal. eapply rng_eq; [exact Rb|rewrite Eq; apply row_rng; auto; lia|].
  intros j Hj. rewrite (HE j Hj). rewrite Eq. rewrite <- (wl_n _ W) in *. rewrite row_nth by auto.
  cbn [rep_entry]. rewrite eqm_mod. apply peval_eqm. intros u Hu. unfold nf. rewrite row_nth by auto.
  cbn [rep_entry]. apply eqm_mod.
Qed.
Lemma row_backward f i : (i < k)%nat -> ntt_backward pr (cx_op c i) (rrow Ntt f i) = Ok (rrow PowerBasis f i).
Proof.
  intros Hi. destruct (wl_op _ W i Hi) as [Ep Wn]. destruct (cx_mod i Hi) as [_ Em]. pose proof (cx_range i Hi) as R.
  assert (Eq : mp (nt_p (cx_op c i)) = cx_q c i) by (rewrite Ep; auto).
  destruct (ntt_backward_eval pr _ _ _ Wn f (rrow Ntt f i)) as [b [E [Rb HE]]].
  { rewrite Eq. apply row_rng; auto. lia. }
  { intros j Hj. rewrite Eq. rewrite <- (wl_n _ W) in *. rewrite row_nth by auto. cbn [rep_entry]. apply eqm_mod. }
  rewrite E. f_equal. eapply rng_eq; [exact Rb|rewrite Eq; apply row_rng; auto; lia|].
  intros j Hj. rewrite (HE j Hj). rewrite Eq. rewrite <- (wl_n _ W) in *. rewrite row_nth by auto.
  cbn [rep_entry]. symmetry. apply eqm_mod.
Qed.

Lemma change_fwd f : change_repr pr (rep c PowerBasis f) Ntt = Ok (rep c Ntt f).
Proof.
  unfold change_repr. rewrite rep_rows. cbn [p_repr p_ctx rep]. rewrite cx_ops.
  rewrite (zipM_upd_seq _ _ (rrow Ntt f)) by (intros; apply row_forward; auto). reflexivity.
Qed.
Lemma change_bwd f : change_repr pr (rep c Ntt f) PowerBasis = Ok (rep c PowerBasis f).
Proof.
  unfold change_repr. rewrite rep_rows. cbn [p_repr p_ctx rep]. rewrite cx_ops.
  rewrite (zipM_upd_seq _ _ (rrow PowerBasis f)) by (intros; apply row_backward; auto). reflexivity.
Qed.
Lemma change_same r f : r <> NttShoup -> change_repr pr (rep c r f) r = Ok (rep c r f).
Proof. intros H. destruct r; try congruence; reflexivity. Qed.
Lemma change_any r r' f : r <> NttShoup -> r' <> NttShoup -> change_repr pr (rep c r f) r' = Ok (rep c r' f).
Proof.
  intros H H'. destruct r, r'; try congruence; auto using change_fwd, change_bwd.
Qed.

Lemma rep_inj r f g : r <> NttShoup -> rep c r f = rep c r g -> forall j, (j < n)%nat -> eqm (cx_Q c) (f j) (g j).
Proof.
  intros Hr H. apply rep_pb_inj. pose proof (change_any r PowerBasis f Hr ltac:(discriminate)) as E1.
  pose proof (change_any r PowerBasis g Hr ltac:(discriminate)) as E2. rewrite H in E1. congruence.
Qed.

(** ** Ring operations *)
Lemma entry_nonpb r f i j : r <> PowerBasis -> rep_entry c r f i j = rep_entry c Ntt f i j.
Proof. destruct r; intros; congruence || reflexivity. Qed.

Lemma rep_add f g : poly_add pr (rep c Ntt f) (rep c Ntt g) = Ok (rep c Ntt (fun j => f j + g j)).
Proof.
  unfold poly_add. rewrite !rep_rows. cbn [p_repr p_ctx rep repr_eqb rassert bind]. rewrite cx_moduli, combine_map.
  rewrite (zipM_upd_seq _ _ (rrow Ntt (fun j => f j + g j))); [reflexivity|].
  intros i Hi. cbn [fst snd]. destruct (cx_mod i Hi) as [V Em]. unfold rrow.
  rewrite add_vec_seq by (auto; intros; rewrite Em; apply rep_entry_range; auto). f_equal. apply map_seq_ext.
  intros j Hj. rewrite Em. cbn [rep_entry]. rewrite <- Zplus_mod. rewrite peval_add. reflexivity.
Qed.
Lemma rep_sub f g : poly_sub pr (rep c Ntt f) (rep c Ntt g) = Ok (rep c Ntt (fun j => f j - g j)).
Proof.
  unfold poly_sub. rewrite !rep_rows. cbn [p_repr p_ctx rep repr_eqb rassert bind]. rewrite cx_moduli, combine_map.
  rewrite (zipM_upd_seq _ _ (rrow Ntt (fun j => f j - g j))); [reflexivity|].
  intros i Hi. cbn [fst snd]. destruct (cx_mod i Hi) as [V Em]. unfold rrow.
  rewrite sub_vec_seq by (auto; intros; rewrite Em; apply rep_entry_range; auto). f_equal. apply map_seq_ext.
  intros j Hj. rewrite Em. cbn [rep_entry]. rewrite <- Zminus_mod. rewrite peval_sub. reflexivity.
Qed.
Lemma rep_mul f g : poly_mul pr (rep c Ntt f) (rep c Ntt g) = Ok (rep c Ntt (rmul n f g)).
Proof.
  unfold poly_mul. rewrite !rep_rows. cbn [p_repr p_ctx rep repr_eqb rassert bind]. rewrite cx_moduli, combine_map.
  rewrite (zipM_upd_seq _ _ (rrow Ntt (rmul n f g))); [reflexivity|].
  intros i Hi. cbn [fst snd]. destruct (cx_mod i Hi) as [V Em]. unfold rrow.
  rewrite mul_vec_seq by (auto; intros; rewrite Em; apply rep_entry_range; auto). f_equal. apply map_seq_ext.
  intros j Hj. rewrite Em. cbn [rep_entry]. rewrite <- Zmult_mod. symmetry. apply peval_rmul.
  - pose proof cx_n8. lia.
  - apply cx_point_n; auto.
Qed.
Lemma rep_neg r f : poly_neg pr (rep c r f) = Ok (rep c r (fun j => - f j)).
Proof.
  unfold poly_neg, zero_rows. rewrite !rep_rows. cbn [p_repr p_ctx rep]. rewrite cx_moduli, combine_map, len_seq, repeat_seq.
  rewrite (zipM_upd_seq _ _ (rrow r (fun j => - f j))); [reflexivity|].
  intros i Hi. cbn [fst snd]. destruct (cx_mod i Hi) as [V Em]. unfold rrow.
  rewrite neg_vec_seq by (auto; intros; rewrite Em; apply rep_entry_range; auto). cbn [bind].
  rewrite len_seq, repeat_length. fold n. rewrite Nat.eqb_refl. cbn [rassert bind]. f_equal. apply map_seq_ext.
  intros j Hj. rewrite Em. destruct r; cbn [rep_entry]; try rewrite peval_opp; apply eqm_opp; apply eqm_mod.
Qed.

(** ** From and to integers *)
Lemma zero_rows_seq : zero_rows c = map (fun _ => map (fun _ => 0) (seq 0 n)) (seq 0 k).
Proof. unfold zero_rows. rewrite cx_moduli_len, !repeat_seq. reflexivity. Qed.
Lemma rep_zero r : poly_zero c r = rep c r (fun _ => 0).
Proof.
  unfold poly_zero, rep. f_equal. rewrite zero_rows_seq. apply map_seq_ext. intros i Hi. apply map_seq_ext. intros j Hj.
  assert (E : forall y, peval (rq_degree c) (fun _ => 0) y = 0).
  { intros y. unfold peval. rewrite (sumn_ext _ _ (fun _ => 0)) by (intros; ring). apply sumn_0. auto. }
  destruct r; cbn [rep_entry]; try rewrite E; rewrite Z.mod_0_l; auto; pose proof (cx_range i Hi); lia.
Qed.

Lemma copy_prefix_seq (dst src : list Z) : length dst = n -> (length src <= n)%nat ->
  (forall j, (length src <= j < n)%nat -> nth j dst 0 = 0) ->
  copy_prefix dst src = Ok (map (fun j => nth j src 0) (seq 0 n)).
Proof.
  intros HD HS H0. unfold copy_prefix. rewrite HD.
  replace (length src <=? n)%nat with true by (symmetry; apply Nat.leb_le; auto). f_equal.
  apply nth_ext' with 0; [rewrite len_seq, app_length, skipn_length; lia|].
  intros j Hj. rewrite app_length, skipn_length in Hj. rewrite nth_map_seq by lia.
  destruct (lt_dec j (length src)) as [L|L].
  - apply app_nth1; auto.
  - rewrite app_nth2 by lia. rewrite (nth_overflow src) by lia.
    specialize (H0 j ltac:(lia)). rewrite <- (firstn_skipn (length src) dst) in H0.
    rewrite app_nth2 in H0 by (rewrite firstn_length; lia).
    rewrite firstn_length in H0. etransitivity; [|exact H0]. f_equal. lia.
Qed.
Lemma copy_prefix_panic (dst src : list Z) : (length dst < length src)%nat -> copy_prefix dst src = Panic.
Proof. intros H. unfold copy_prefix. destruct (Nat.leb_spec (length src) (length dst)); [lia|reflexivity]. Qed.

Lemma from_rows (F : Modulus -> outcome (list Z)) a : (length a <= n)%nat ->
  (forall m, valid_mod m -> F m = Ok (map (fun x => x mod mp m) a)) ->
  zipM_upd (fun dst q => r <- F q ;; copy_prefix dst r) (zero_rows c) (rq_moduli c)
  = Ok (p_rows (rep c PowerBasis (fun j => nth j a 0))).
Proof.
  intros HL HF. rewrite zero_rows_seq, cx_moduli, rep_rows. apply zipM_upd_seq. intros i Hi.
  destruct (cx_mod i Hi) as [V Em]. rewrite HF by auto. cbn [bind].
  rewrite copy_prefix_seq.
  - f_equal. apply map_seq_ext. intros j Hj. cbn [rep_entry]. rewrite Em.
    destruct (lt_dec j (length a)).
    + rewrite (nth_map' _ _ 0) by auto. reflexivity.
    + rewrite !nth_overflow by (try rewrite map_length; lia). rewrite Z.mod_0_l; auto. pose proof (cx_range i Hi). lia.
  - apply len_seq.
  - rewrite map_length. auto.
  - intros j Hj. rewrite nth_map_seq by lia. reflexivity.
Qed.
Lemma from_rows_panic (F : Modulus -> outcome (list Z)) a : (n < length a)%nat ->
  (forall m, valid_mod m -> F m = Ok (map (fun x => x mod mp m) a)) ->
  zipM_upd (fun dst q => r <- F q ;; copy_prefix dst r) (zero_rows c) (rq_moduli c) = Panic.
Proof.
  intros HL HF. rewrite zero_rows_seq, cx_moduli. pose proof (wl_ne _ W) as H1. fold k in H1.
  destruct (cx_mod 0 ltac:(lia)) as [V Em].
  destruct k as [|k']; [lia|]. cbn [seq map zipM_upd]. rewrite HF by auto. cbn [bind].
  rewrite copy_prefix_panic; [reflexivity|]. rewrite len_seq, map_length. auto.
Qed.

Lemma rep_from_u64 a : allr W64 a -> (length a <= n)%nat ->
  poly_from_u64 pr c a = Ok (rep c PowerBasis (fun j => nth j a 0)).
Proof.
  intros Ha HL. unfold poly_from_u64. rewrite from_rows with (a := a); auto. intros. apply reduce_vec_u64_ok; auto.
Qed.
Lemma rep_from_i64 a : Forall (fun x => - W63 <= x < W63) a -> (length a <= n)%nat ->
  poly_from_i64 pr c a = Ok (rep c PowerBasis (fun j => nth j a 0)).
Proof.
  intros Ha HL. unfold poly_from_i64. rewrite from_rows with (a := a); auto. intros. apply reduce_vec_i64_ok; auto.
Qed.
Lemma rep_from_big a : (length a <= n)%nat ->
  poly_from_bigint c a = Ok (rep c PowerBasis (fun j => nth j a 0)).
Proof.
  intros HL. unfold poly_from_bigint. rewrite from_rows with (a := a); auto. intros. apply reduce_vec_biguint_ok; auto.
Qed.
Lemma from_u64_panic a : allr W64 a -> (n < length a)%nat -> poly_from_u64 pr c a = Panic.
Proof. intros Ha HL. unfold poly_from_u64. rewrite from_rows_panic with (a := a); auto. intros. apply reduce_vec_u64_ok; auto. Qed.
Lemma from_i64_panic a : Forall (fun x => - W63 <= x < W63) a -> (n < length a)%nat -> poly_from_i64 pr c a = Panic.
Proof. intros Ha HL. unfold poly_from_i64. rewrite from_rows_panic with (a := a); auto. intros. apply reduce_vec_i64_ok; auto. Qed.
Lemma from_big_panic a : (n < length a)%nat -> poly_from_bigint c a = Panic.
Proof. intros HL. unfold poly_from_bigint. rewrite from_rows_panic with (a := a); auto. intros. apply reduce_vec_biguint_ok; auto. Qed.

Lemma rep_mul_big f a : poly_mul_big pr (rep c Ntt f) a = Ok (rep c Ntt (fun j => a * f j)).
Proof.
  unfold poly_mul_big. cbn [p_ctx rep]. rewrite rep_from_big by (simpl; pose proof cx_n8; lia). cbn [bind].
  rewrite change_fwd. cbn [bind p_repr rep repr_eqb rassert]. fold (rep c Ntt f). rewrite rep_mul.
  f_equal. apply rep_ext. intros j Hj. apply rmul_const; auto.
Qed.

Lemma column_rep f j : (j < n)%nat -> column (p_rows (rep c PowerBasis f)) j = Ok (map (fun i => f j mod cx_q c i) (seq 0 k)).
Proof.
  intros Hj. unfold column. rewrite rep_rows. apply mapM_seq. intros i Hi.
  rewrite (get_ok _ _ 0) by (unfold rrow; rewrite len_seq; auto). rewrite row_nth by auto. reflexivity.
Qed.
Lemma lift_rep (f : nat -> Z) j : rns_lift (rq_rns c) (map (fun i => f j mod cx_q c i) (seq 0 k)) = Ok (f j mod cx_Q c).
Proof.
  destruct (lift_spec _ _ (wl_rns _ W) (map (fun i => f j mod cx_q c i) (seq 0 k))) as [x [E [R C]]]; [apply len_seq|].
  rewrite E. f_equal. fold (cx_Q c) in R. pose proof cx_Q1.
  apply eqm_small with (cx_Q c); auto; [apply Z.mod_pos_bound; lia|].
  rewrite eqm_mod. apply cx_crt. intros i Hi. specialize (C i Hi). unfold cx_q at 1. rewrite C.
  rewrite nth_map_seq by auto. fold (cx_q c i). apply eqm_mod.
Qed.
Lemma rep_to_big f : poly_to_big (rep c PowerBasis f) = Ok (map (fun j => f j mod cx_Q c) (seq 0 n)).
Proof.
  unfold poly_to_big. cbn [p_ctx]. apply mapM_ok. intros j Hj. apply in_seq in Hj.
  rewrite column_rep by (unfold n; lia). cbn [bind]. apply lift_rep.
Qed.
Lemma rep_to_u64 f : cx_k c = 1%nat -> poly_to_u64 (rep c PowerBasis f) = Ok (map (fun j => f j mod cx_Q c) (seq 0 n)).
Proof.
  intros K1. unfold poly_to_u64. cbn [p_ctx rep]. fold (cx_k c). rewrite K1. cbn [Nat.eqb rassert bind].
  apply mapM_ok. intros j Hj. apply in_seq in Hj. fold (rep c PowerBasis f).
  rewrite column_rep by (unfold n; lia). cbn [bind]. rewrite lift_rep. cbn [bind].
  pose proof cx_Q1. pose proof (Z.mod_pos_bound (f j) (cx_Q c) ltac:(lia)).
  assert (cx_Q c < 2 ^ 62).
  { pose proof (cx_range 0 ltac:(unfold k; lia)) as R. unfold cx_Q. unfold cx_k, cx_q in *.
    destruct (rq_moduli_64 c) as [|q [|]]; try discriminate. unfold zprod. cbn [fold_right]. cbn [nth] in R. lia. }
  rewrite to_u64_ok by lia. reflexivity.
Qed.
Lemma to_u64_panic p : p_ctx p = c -> cx_k c <> 1%nat -> poly_to_u64 p = Panic.
Proof.
  intros <- H. unfold poly_to_u64. fold (cx_k (p_ctx p)). apply Nat.eqb_neq in H. rewrite H. reflexivity.
Qed.

(** ** Every well-shaped polynomial represents one *)
Lemma wf_pb p : p_ctx p = c -> p_repr p = PowerBasis -> wf_poly p ->
  exists f, (forall j, 0 <= f j < cx_Q c) /\ p = rep c PowerBasis f.
Proof.
  intros EC ER [HL HR]. rewrite EC in *. pose proof cx_Q1.
  exists (fun j => crt_sum (rq_rns c) (rq_moduli_64 c) (fun i => nth j (nth i (p_rows p) []) 0) mod cx_Q c).
  split; [intros; apply Z.mod_pos_bound; lia|].
  destruct p as [pc pr' rows]. cbn [p_ctx p_repr p_rows] in *. subst pc pr'. unfold rep. f_equal.
  rewrite (list_seq rows [] k) at 1 by auto. apply map_seq_ext. intros i Hi.
  destruct (HR i Hi) as [Lr Rr]. rewrite (list_seq (nth i rows []) 0 n) at 1 by auto.
  apply map_seq_ext. intros j Hj. cbn [rep_entry].
  assert (0 <= nth j (nth i rows []) 0 < cx_q c i).
  { rewrite Forall_forall in Rr. apply Rr, nth_In. fold n in Lr. lia. }
  symmetry. rewrite <- (Z.mod_small (nth j (nth i rows []) 0) (cx_q c i)) by auto.
  change (eqm (cx_q c i) (crt_sum (rq_rns c) (rq_moduli_64 c) (fun i => nth j (nth i rows []) 0) mod cx_Q c) (nth j (nth i rows []) 0)).
  transitivity (crt_sum (rq_rns c) (rq_moduli_64 c) (fun i => nth j (nth i rows []) 0)).
  - apply eqm_Q_q; auto. apply eqm_mod.
  - exact (crt_sum_res _ _ (wl_rns _ W) (fun i => nth j (nth i rows []) 0) i Hi).
Qed.

Lemma wf_ntt_rows rows : length rows = k ->
  (forall i, (i < k)%nat -> length (nth i rows []) = n /\ Forall (fun x => 0 <= x < cx_q c i) (nth i rows [])) ->
  exists f, (forall j, 0 <= f j < cx_Q c) /\ rows = map (rrow Ntt f) (seq 0 k).
Proof.
  intros HL HR.
  assert (G : forall i, (i < k)%nat -> exists a, ntt_backward pr (cx_op c i) (nth i rows []) = Ok a
     /\ rng (cx_L c) (cx_q c i) a /\ ntt_forward pr (cx_op c i) a = Ok (nth i rows [])).
  { intros i Hi. destruct (wl_op _ W i Hi) as [Ep Wn]. destruct (cx_mod i Hi) as [_ Em]. destruct (HR i Hi) as [Lr Rr].
    pose proof (ntt_forward_backward pr _ _ _ Wn (nth i rows [])) as H. rewrite Ep, Em in H. apply H.
    split; [rewrite <- (wl_n _ W); auto|]. intros j Hj. rewrite Forall_forall in Rr. apply Rr, nth_In. rewrite <- (wl_n _ W) in Hj.
    fold n in Hj. lia. }
  destruct (mapM_exists (fun i => ntt_backward pr (cx_op c i) (nth i rows []))
     (fun i a => rng (cx_L c) (cx_q c i) a /\ ntt_forward pr (cx_op c i) a = Ok (nth i rows [])) (seq 0 k)) as [rs [E F]].
  { intros i Hi. apply in_seq in Hi. destruct (G i ltac:(lia)) as [a [E1 [E2 E3]]]. eauto. }
  pose proof (forall2_length _ _ _ F) as Lrs. rewrite seq_length in Lrs.
  destruct (wf_pb (mkPoly c PowerBasis rs)) as [f [Hf Ef]]; auto.
  { split; [cbn [p_rows p_ctx]; auto|]. cbn [p_rows p_ctx]. intros i Hi.
    pose proof (forall2_nth _ _ _ 0%nat [] i F ltac:(rewrite seq_length; auto)) as H. cbv beta in H.
    rewrite seq_nth in H by auto. rewrite Nat.add_0_l in H. destruct H as [[H1 H2] _].
    rewrite <- (wl_n _ W) in H1, H2. split; auto. apply Forall_forall. intros x Hx. apply In_nth with (d := 0) in Hx.
    destruct Hx as [j [Hj <-]]. apply H2. rewrite H1 in Hj. auto. }
  exists f. split; auto. injection Ef as Ef.
  rewrite (list_seq rows [] k) by auto. apply map_seq_ext. intros i Hi.
  pose proof (forall2_nth _ _ _ 0%nat [] i F ltac:(rewrite seq_length; auto)) as H. cbv beta in H.
  rewrite seq_nth in H by auto. rewrite Nat.add_0_l in H. destruct H as [_ H].
  rewrite Ef in H. rewrite nth_map_seq in H by auto. pose proof (row_forward f i Hi) as H'.
  assert (Ok (nth i rows []) = Ok (rrow Ntt f i)); [|congruence]. rewrite <- H, <- H'. reflexivity.
Qed.

Lemma wf_rep p : p_ctx p = c -> wf_poly p -> exists f, (forall j, 0 <= f j < cx_Q c) /\ p = rep c (p_repr p) f.
Proof.
  intros EC HW. destruct (p_repr p) eqn:ER; [apply wf_pb; auto| |].
  - destruct HW as [HL HR]. rewrite EC in *. destruct (wf_ntt_rows (p_rows p) HL HR) as [f [Hf E]].
    exists f. split; auto. destruct p as [pc pq prs]; cbn [p_ctx p_repr p_rows] in *. subst. reflexivity.
  - destruct HW as [HL HR]. rewrite EC in *. destruct (wf_ntt_rows (p_rows p) HL HR) as [f [Hf E]].
    exists f. split; auto. destruct p as [pc pq prs]; cbn [p_ctx p_repr p_rows] in *. subst. reflexivity.
Qed.

Lemma rep_wf r f : wf_poly (rep c r f).
Proof.
  split; [apply len_seq|]. intros i Hi. rewrite rep_rows. cbn [p_ctx rep] in *. rewrite nth_map_seq by auto. split.
  - apply len_seq.
  - apply Forall_forall. intros x Hx. apply in_map_iff in Hx. destruct Hx as [j [<- _]]. apply rep_entry_range; auto.
Qed.

(** ** Sampling *)
Definition cbd_f (w : nat -> Z) (v : Z) (i : nat) : Z := cbd_sample w (Z.to_nat v) (4 * Z.to_nat v * i).
Lemma rep_random_small r v w : r <> NttShoup -> 1 <= v <= 16 -> (forall i, 0 <= w i < 2 ^ 64) ->
  poly_random_small pr c r v w = Ok (rep c r (cbd_f w v)).
Proof.
  intros Hr Hv Hw. unfold poly_random_small. rewrite sample_vec_cbd_ok by auto. cbn [bind]. fold n.
  rewrite rep_from_i64.
  - cbn [bind]. rewrite (rep_ext _ _ (cbd_f w v)); [apply change_any; auto; discriminate|].
    intros j Hj. rewrite nth_map_seq by auto. reflexivity.
  - apply Forall_forall. intros x Hx. apply in_map_iff in Hx. destruct Hx as [j [<- _]].
    pose proof (cbd_sample_bound w (Z.to_nat v) (4 * Z.to_nat v * j)). lia.
  - rewrite len_seq. auto.
Qed.
Lemma cbd_f_bound w v i : 0 <= v -> Z.abs (cbd_f w v i) <= 2 * v.
Proof. intros Hv. pose proof (cbd_sample_bound w (Z.to_nat v) (4 * Z.to_nat v * i)). unfold cbd_f. lia. Qed.
End Ctx.
