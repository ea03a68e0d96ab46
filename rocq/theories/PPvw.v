(** PVW encryption. *)
From Verif Require Import PBase NT Spec PSum MModulus MUtils MPvw PModulus PUtils PUtils2 PRq SpecPvw.

Section Pvw.
Variables (pr : profile) (P : PvwParams) (qm : Modulus).
Let q := pv_q P.
Let n := pv_n P.
Let ell := pv_ell P.
Let m := pv_m P.
Hypothesis V : valid_mod qm.
Hypothesis Eq : mp qm = q.

Lemma q_range : 2 <= q < 2 ^ 62.
Proof. pose proof (valid_range qm V) as H. rewrite Eq in H. exact H. Qed.

Lemma dot_ok d x y : (d <= length x)%nat -> (d <= length y)%nat -> (forall j, (j < d)%nat -> 0 <= nth j x 0 < q) -> (forall j, (j < d)%nat -> 0 <= nth j y 0 < q) ->
  forall gx gy, (forall j, (j < d)%nat -> gx j = get x j) -> (forall j, (j < d)%nat -> gy j = get y j) ->
  pvw_dot pr qm d gx gy = Ok (dot d x y mod q).
Proof.
  intros Lx Ly Hx Hy gx gy Gx Gy. pose proof q_range as QR. unfold pvw_dot.
  destruct (foldM_seq_inv (fun sum i => a <- gx i ;; b <- gy i ;; p <- mmul pr qm a b ;; madd pr qm sum p)
    (fun i s => s = dot i x y mod q) 0 d 0) as [r [E H]].
  - unfold dot. cbn [sumn]. rewrite Z.mod_0_l by lia. reflexivity.
  - intros i s Hi ->. rewrite Gx, Gy by lia. rewrite (get_ok x i 0), (get_ok y i 0) by lia. cbn [bind].
    rewrite mmul_ok; [|auto|rewrite Eq; apply Hx; lia|rewrite Eq; apply Hy; lia]. cbn [bind].
    rewrite madd_ok by (rewrite ?Eq; auto; apply Z.mod_pos_bound; lia). rewrite Eq. eexists. split; [reflexivity|].
    rewrite <- Zplus_mod. reflexivity.
  - rewrite E, H. reflexivity.
Qed.

Lemma acc_ok d e f row : e = 0 \/ e = 1 -> (d <= length row)%nat -> (forall j, (j < d)%nat -> 0 <= nth j row 0 < q) ->
  forall gx, (forall j, (j < d)%nat -> gx j = get row j) ->
  pvw_acc pr qm (Ok e) gx (map (fun j => f j mod q) (seq 0 d)) = Ok (map (fun j => (f j + e * nth j row 0) mod q) (seq 0 d)).
Proof.
  intros He HL HR gx Gx. pose proof q_range as QR. unfold pvw_acc. rewrite len_seq. rewrite (mapM_ok _ (fun j => (f j + e * nth j row 0) mod q)); [reflexivity|].
  intros i Hi. apply in_seq in Hi. rewrite Gx by lia. rewrite (get_ok row i 0) by lia. cbn [bind]. rewrite mmul_ok; [|auto|rewrite Eq; apply HR; lia|rewrite Eq; lia]. cbn [bind].
  rewrite (get_ok _ i 0) by (rewrite len_seq; lia). cbn [bind]. rewrite nth_map_seq by lia.
  rewrite madd_ok by (rewrite ?Eq; auto; apply Z.mod_pos_bound; lia). rewrite Eq. f_equal. rewrite <- Zplus_mod. f_equal. ring.
Qed.

Variables (sk a : list (list Z)) (w : nat -> nat -> Z) (errs : nat -> list Z).
Hypothesis HS : matrix q ell n sk.
Hypothesis HA : matrix q m n a.
Hypothesis HE : forall l, (l < ell)%nat -> sample_vec_cbd pr m (pv_variance P) (w l) = Ok (errs l).
Hypothesis HW : forall l k, (l < ell)%nat -> 0 <= w l k < 2 ^ 64.

Lemma errs_ok l : (l < ell)%nat -> length (errs l) = m /\ Forall (fun x => - W63 <= x < W63) (errs l).
Proof.
  intros Hl. specialize (HE l Hl). destruct (Z_le_dec 1 (pv_variance P)) as [A|A]; [destruct (Z_le_dec (pv_variance P) 16) as [B|B]|];
    try (rewrite sample_vec_cbd_panic in HE by lia; discriminate).
  rewrite sample_vec_cbd_ok in HE by (auto; lia). apply Ok_inj in HE. rewrite <- HE. split; [apply len_seq|].
  apply Forall_forall. intros x Hx. apply in_map_iff in Hx. destruct Hx as [i [<- _]].
  pose proof (cbd_sample_bound (w l) (Z.to_nat (pv_variance P)) (4 * Z.to_nat (pv_variance P) * i)). change W63 with 9223372036854775808. lia.
Qed.

(** One entry of the public key. *)
Definition pk_b (i l : nat) : Z := dot n (nth l sk []) (nth i a []) + nth i (errs l) 0.
Definition pk_row (i : nat) : PvwCt := mkPvwCt (nth i a []) (map (fun l => pk_b i l mod q) (seq 0 ell)).

(** The matrix [p] while slot [l] is being filled, [i0] rows of it done. *)
Definition pk_part (l i0 : nat) : list (list Z) :=
  map (fun i => map (fun l' => if (l' <? l)%nat || ((l' =? l)%nat && (i <? i0)%nat) then pk_b i l' mod q else 0) (seq 0 ell)) (seq 0 m).

Lemma pk_part_done l : pk_part l m = pk_part (S l) 0.
Proof.
  apply map_seq_ext. intros i Hi. apply map_seq_ext. intros l' Hl'.
  rewrite (proj2 (Nat.ltb_lt i m)) by auto. rewrite andb_true_r. replace (i <? 0)%nat with false by (symmetry; apply Nat.ltb_ge; lia).
  rewrite andb_false_r, orb_false_r.
  destruct (Nat.ltb_spec l' l), (Nat.eqb_spec l' l), (Nat.ltb_spec l' (S l)); try reflexivity; lia.
Qed.

Lemma pk_entry_ok l i : (l < ell)%nat -> (i < m)%nat ->
  pvw_pk_entry pr qm n sk a (map (fun x => x mod q) (errs l)) l (pk_part l i) i = Ok (pk_part l (S i)).
Proof.
  intros Hl Hi. pose proof q_range as QR. unfold pvw_pk_entry. destruct HA as [LA RA]. destruct HS as [LS RS].
  destruct (RA i Hi) as [La Ra]. destruct (RS l Hl) as [Ls Rs].
  rewrite (dot_ok n (nth l sk []) (nth i a [])); [|lia|lia|auto|auto| |].
  2:{ intros j Hj. unfold get2. rewrite (get_ok sk l []) by lia. reflexivity. }
  2:{ intros j Hj. unfold get2. rewrite (get_ok a i []) by lia. reflexivity. }
  cbn [bind]. destruct (errs_ok l Hl) as [Le _].
  rewrite (get_ok _ i (0 mod q)) by (rewrite map_length; lia). cbn [bind]. rewrite (map_nth (fun x => x mod q)).
  rewrite madd_ok by (rewrite ?Eq; auto; apply Z.mod_pos_bound; lia). rewrite Eq. rewrite <- Zplus_mod. cbn [bind]. fold (pk_b i l).
  unfold pk_part at 1. rewrite (get_ok _ i []) by (rewrite len_seq; lia). cbn [bind]. rewrite nth_map_seq by auto.
  rewrite set_ok by (rewrite len_seq; lia). cbn [bind]. rewrite set_ok by (unfold pk_part; rewrite len_seq; lia). f_equal.
  apply nth_ext' with []; [unfold pk_part; rewrite upd_length, !len_seq; reflexivity|].
  intros i' Hi'. unfold pk_part in *. rewrite upd_length, len_seq in Hi'. rewrite (nth_map_seq (fun i => map _ _) m) by auto.
  destruct (Nat.eq_dec i' i) as [->|Hne].
  - rewrite upd_nth_same by (rewrite len_seq; lia). apply nth_ext' with 0; [rewrite upd_length, !len_seq; reflexivity|].
    intros l' Hl'. rewrite upd_length, len_seq in Hl'. rewrite nth_map_seq by auto. rewrite (proj2 (Nat.ltb_lt i (S i))) by lia.
    destruct (Nat.eq_dec l' l) as [->|Hnl].
    + rewrite upd_nth_same by (rewrite len_seq; lia). rewrite Nat.eqb_refl, orb_true_r. reflexivity.
    + rewrite upd_nth_other by auto. rewrite nth_map_seq by auto. rewrite (proj2 (Nat.eqb_neq l' l)) by auto. reflexivity.
  - rewrite upd_nth_other by auto. rewrite nth_map_seq by auto. apply map_seq_ext. intros l' Hl'.
    replace (i' <? S i)%nat with (i' <? i)%nat; [reflexivity|]. destruct (Nat.ltb_spec i' i), (Nat.ltb_spec i' (S i)); auto; lia.
Qed.

Lemma gen_pk_ok : modulus_new q = Ok qm -> pvw_gen_pk pr sk P a w = Ok (map pk_row (seq 0 m)).
Proof.
  intros EM. pose proof q_range as QR. unfold pvw_gen_pk. fold q. rewrite EM. cbn [bind]. fold m ell n.
  destruct (foldM_seq_inv (fun p l => e <- sample_vec_cbd pr m (pv_variance P) (w l) ;; err <- reduce_vec_i64 pr qm e ;;
      foldM (pvw_pk_entry pr qm n sk a err l) (seq 0 m) p) (fun l p => p = pk_part l 0) 0 ell (repeat (repeat 0 ell) m)) as [p [E H]].
  - unfold pk_part. rewrite (repeat_seq (repeat 0 ell) m). apply map_seq_ext. intros i Hi. rewrite (repeat_seq 0 ell). apply map_seq_ext. intros l Hl.
    replace (l <? 0)%nat with false by (symmetry; apply Nat.ltb_ge; lia). replace (i <? 0)%nat with false by (symmetry; apply Nat.ltb_ge; lia).
    rewrite andb_false_r. reflexivity.
  - intros l p Hl ->. rewrite HE by lia. cbn [bind]. rewrite reduce_vec_i64_ok by (auto; apply errs_ok; lia). cbn [bind]. rewrite Eq.
    destruct (foldM_seq_inv (pvw_pk_entry pr qm n sk a (map (fun x => x mod q) (errs l)) l) (fun i p => p = pk_part l i) 0 m (pk_part l 0)) as [p' [E' H']].
    + reflexivity.
    + intros i p' Hi ->. eexists. split; [apply pk_entry_ok; lia|reflexivity].
    + exists p'. split; [exact E'|]. rewrite H', Nat.add_0_l. apply pk_part_done.
  - rewrite E, H. cbn [bind]. apply mapM_ok. intros i Hi. apply in_seq in Hi. destruct HA as [LA _].
    unfold pk_part. rewrite (get_ok _ i []) by (rewrite len_seq; lia). cbn [bind]. rewrite nth_map_seq by lia.
    rewrite (get_ok a i []) by lia. cbn [bind]. unfold pk_row. f_equal. f_equal. apply map_seq_ext. intros l Hl.
    rewrite (proj2 (Nat.ltb_lt l (0 + ell))) by lia. reflexivity.
Qed.

Variables (msg e : list Z).
Hypothesis HM : bits ell msg.
Hypothesis Hb : bits m e.

Definition ct_b (l : nat) : Z := sumn m (fun i => nth i e 0 * (pk_b i l mod q)) + q / 2 * nth l msg 0.
Definition ct_a (j : nat) : Z := sumn m (fun i => nth i e 0 * nth j (nth i a []) 0).
Definition the_ct : PvwCt := mkPvwCt (map (fun j => ct_a j mod q) (seq 0 n)) (map (fun l => ct_b l mod q) (seq 0 ell)).

Lemma zero_acc d : repeat 0 d = map (fun j => 0 mod q) (seq 0 d).
Proof. pose proof q_range. rewrite (repeat_seq 0 d). apply map_seq_ext. intros. rewrite Z.mod_0_l by lia. reflexivity. Qed.

Lemma encrypt_ok : modulus_new q = Ok qm -> pvw_encrypt pr (map pk_row (seq 0 m)) P msg e = Ok the_ct.
Proof.
  intros EM. pose proof q_range as QR. unfold pvw_encrypt. fold q. rewrite EM. cbn [bind]. fold m ell n. destruct HA as [LA RA]. destruct Hb as [Lb Rb]. destruct HM as [Lm Rm].
  destruct (foldM_seq_inv (fun (st : list Z * list Z) i =>
       b <- pvw_acc pr qm (get e i) (fun l => row <- get (map pk_row (seq 0 m)) i ;; get (pc_b row) l) (fst st) ;;
       a <- pvw_acc pr qm (get e i) (fun l => row <- get (map pk_row (seq 0 m)) i ;; get (pc_a row) l) (snd st) ;; Ok (b, a))
    (fun i st => st = (map (fun l => sumn i (fun i => nth i e 0 * (pk_b i l mod q)) mod q) (seq 0 ell),
                       map (fun j => sumn i (fun i => nth i e 0 * nth j (nth i a []) 0) mod q) (seq 0 n))) 0 m (repeat 0 ell, repeat 0 n)) as [st [E H]].
  - rewrite !zero_acc. reflexivity.
  - intros i st Hi ->. rewrite (get_ok _ i (pk_row i)) by (rewrite len_seq; lia). rewrite nth_map_seq by lia. cbn [bind].
    rewrite (get_ok e i 0) by lia. cbn [bind fst snd pc_b pc_a pk_row]. destruct (RA i ltac:(lia)) as [La Ra].
    rewrite (acc_ok ell _ _ (map (fun l => pk_b i l mod q) (seq 0 ell))); [|apply Rb; lia|rewrite len_seq; lia|intros j Hj; rewrite nth_map_seq by auto; apply Z.mod_pos_bound; lia|reflexivity]. cbn [bind].
    rewrite (acc_ok n _ _ (nth i a [])); [|apply Rb; lia|lia|auto|reflexivity]. cbn [bind].
    eexists. split; [reflexivity|]. f_equal. apply map_seq_ext. intros l Hl. rewrite nth_map_seq by auto. reflexivity.
  - rewrite E, H. cbn [bind]. rewrite (list_seq msg 0 ell Lm).
    rewrite (zipM_upd_seq _ _ (fun l => ct_b l mod q)); [reflexivity|]. intros l Hl.
    assert (0 <= q / 2 < q) by (split; [apply Z.div_pos; lia|apply Z.div_lt; lia]).
    assert (MR : 0 <= q / 2 * nth l msg 0 < q) by (destruct (Rm l Hl) as [->| ->]; lia).
    rewrite mul64_ok by (change W64 with 18446744073709551616; change (2 ^ 62) with 4611686018427387904 in QR; lia). cbn [bind].
    rewrite madd_ok by (rewrite ?Eq; auto; apply Z.mod_pos_bound; lia). rewrite Eq. f_equal. unfold ct_b. rewrite Zplus_mod_idemp_l. reflexivity.
Qed.

Lemma ct_phase l : (l < ell)%nat -> eqm q (ct_b l - dot n (nth l sk []) (pc_a the_ct)) (q / 2 * nth l msg 0 + pvw_error P errs e l).
Proof.
  intros Hl. unfold ct_b, dot. cbn [the_ct pc_a].
  assert (A : eqm q (sumn n (fun j => nth j (nth l sk []) 0 * nth j (map (fun j => ct_a j mod q) (seq 0 n)) 0)) (sumn n (fun j => nth j (nth l sk []) 0 * ct_a j))).
  { apply sumn_eqm. intros j Hj. rewrite nth_map_seq by auto. apply eqm_mul; [apply eqm_refl|apply Z.mod_mod; pose proof q_range; lia]. }
  assert (B : eqm q (sumn m (fun i => nth i e 0 * (pk_b i l mod q))) (sumn m (fun i => nth i e 0 * pk_b i l))).
  { apply sumn_eqm. intros i Hi. apply eqm_mul; [apply eqm_refl|apply Z.mod_mod; pose proof q_range; lia]. }
  eapply eqm_trans; [apply eqm_sub; [apply eqm_add; [exact B|apply eqm_refl]|exact A]|].
  replace (sumn n (fun j => nth j (nth l sk []) 0 * ct_a j)) with (sumn m (fun i => nth i e 0 * dot n (nth l sk []) (nth i a []))).
  2:{ unfold ct_a, dot.
      rewrite (sumn_ext n _ (fun j => sumn m (fun i => nth i e 0 * (nth j (nth l sk []) 0 * nth j (nth i a []) 0)))).
      2:{ intros j Hj. rewrite <- sumn_mul_l. apply sumn_ext. intros. ring. }
      rewrite sumn_swap. apply sumn_ext. intros i Hi. rewrite sumn_mul_l. reflexivity. }
  unfold pvw_error. fold m. unfold pk_b.
  rewrite (sumn_ext m (fun i => nth i e 0 * (_ + _)) (fun i => nth i e 0 * dot n (nth l sk []) (nth i a []) + nth i e 0 * nth i (errs l) 0)) by (intros; ring).
  rewrite sumn_add. unfold eqm. f_equal. ring.
Qed.

Lemma decrypt_the_ct : modulus_new q = Ok qm ->
  pvw_decrypt pr sk P the_ct = Ok (map (fun l => pvw_round q ((q / 2 * nth l msg 0 + pvw_error P errs e l) mod q)) (seq 0 ell)).
Proof.
  intros EM. pose proof q_range as QR. unfold pvw_decrypt. fold q. rewrite EM. cbn [bind]. fold m ell n. destruct HS as [LS RS].
  assert (AR : forall j, (j < n)%nat -> 0 <= nth j (pc_a the_ct) 0 < q).
  { intros j Hj. cbn [the_ct pc_a]. rewrite nth_map_seq by auto. apply Z.mod_pos_bound. lia. }
  assert (LA : length (pc_a the_ct) = n) by (cbn [the_ct pc_a]; apply len_seq).
  set (D := fun l => (ct_b l - dot n (nth l sk []) (pc_a the_ct)) mod q).
  destruct (foldM_seq_inv (fun b l => sum <- pvw_dot pr qm n (get2 sk l) (get (pc_a the_ct)) ;; bl <- get b l ;; d <- msub pr qm bl sum ;; set b l d)
    (fun i b => b = map (fun l => if (l <? i)%nat then D l else ct_b l mod q) (seq 0 ell)) 0 ell (pc_b the_ct)) as [b [E H]].
  - reflexivity.
  - intros l b Hl ->. destruct (RS l ltac:(lia)) as [Ls Rs]. rewrite (dot_ok n (nth l sk []) (pc_a the_ct)) by (auto; try lia; intros j Hj; unfold get2; rewrite (get_ok sk l []) by lia; reflexivity). cbn [bind].
    rewrite (get_ok _ l 0) by (rewrite len_seq; lia). rewrite nth_map_seq by lia. rewrite Nat.ltb_irrefl. cbn [bind].
    rewrite msub_ok by (rewrite ?Eq; auto; apply Z.mod_pos_bound; lia). cbn [bind]. rewrite Eq, <- Zminus_mod. fold (D l).
    rewrite set_ok by (rewrite len_seq; lia). eexists. split; [reflexivity|].
    apply nth_ext' with 0; [rewrite upd_length, !len_seq; reflexivity|]. intros j Hj. rewrite upd_length, len_seq in Hj.
    rewrite nth_map_seq by auto. destruct (Nat.eq_dec j l) as [->|Hne].
    + rewrite upd_nth_same by (rewrite len_seq; lia). rewrite (proj2 (Nat.ltb_lt l (S l))) by lia. reflexivity.
    + rewrite upd_nth_other by auto. rewrite nth_map_seq by auto. destruct (Nat.ltb_spec j l), (Nat.ltb_spec j (S l)); auto; lia.
  - rewrite E, H. cbn [bind]. apply mapM_seq. intros l Hl. rewrite (proj2 (Nat.ltb_lt l (0 + ell))) by lia.
    assert (ED : D l = (q / 2 * nth l msg 0 + pvw_error P errs e l) mod q) by (apply (ct_phase l Hl)).
    rewrite ED. set (v := _ mod q). assert (VR : 0 <= v < q) by (apply Z.mod_pos_bound; lia).
    assert (0 <= q / 4 < q) by (split; [apply Z.div_pos; lia|apply Z.div_lt; lia]).
    rewrite add64_ok by (change W64 with 18446744073709551616; change (2 ^ 62) with 4611686018427387904 in QR; lia). cbn [bind].
    assert (1 <= q / 2) by (apply Z.div_le_lower_bound; lia). rewrite udiv_ok by lia. reflexivity.
Qed.
End Pvw.

(** Rounding recovers the bit exactly for errors in [-q/4, q/2 - q/4). *)
Lemma round_ok q b E : 2 <= q -> b = 0 \/ b = 1 -> - (q / 4) <= E < q / 2 - q / 4 -> pvw_round q ((q / 2 * b + E) mod q) = b.
Proof.
  intros Hq Hb HE. unfold pvw_round. assert (q / 4 <= q / 2) by (apply Z.div_le_compat_l; lia).
  pose proof (Z.div_mod q 2 ltac:(lia)) as D2. pose proof (Z.mod_pos_bound q 2 ltac:(lia)) as M2. pose proof (Z.div_mod q 4 ltac:(lia)) as D4. pose proof (Z.mod_pos_bound q 4 ltac:(lia)) as M4.
  set (h := q / 2) in *. set (f := q / 4) in *. set (r := q mod 2) in *. set (r4 := q mod 4) in *. clearbody h f r r4.
  destruct Hb as [->| ->].
  - rewrite Z.mul_0_r, Z.add_0_l. destruct (Z_le_dec 0 E).
    + rewrite (Z.mod_small E q) by lia. rewrite Z.div_small by lia. reflexivity.
    + replace (E mod q) with (E + q) by (apply Z.mod_unique with (-1); lia).
      replace ((E + q + f) / h) with 2 by (apply Z.div_unique with (E + f + r); lia). reflexivity.
  - rewrite Z.mul_1_r. rewrite (Z.mod_small (h + E) q) by lia. replace ((h + E + f) / h) with 1 by (apply Z.div_unique with (E + f); lia). reflexivity.
Qed.
