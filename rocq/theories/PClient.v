(** The client's encoding and the server's bookkeeping. *)
From Verif Require Import PBase NT Spec PSum MModulus MUtils MNtt MRns MRq MBfv MKsk MGalois MRgsw MEval PModulus PUtils SpecRq SpecEval PRq PFold.

Lemma one_hot_nth len k j : (j < len)%nat -> nth j (one_hot len k) 0 = if (j =? k)%nat then 1 else 0.
Proof. intros H. unfold one_hot. apply nth_map_seq. auto. Qed.
Lemma one_hot_length len k : length (one_hot len k) = len.
Proof. unfold one_hot. apply len_seq. Qed.

Lemma concat_length dim (ls : list (list Z)) : Forall (fun l => length l = dim) ls -> length (concat ls) = (dim * length ls)%nat.
Proof. induction 1 as [|l ls H _ IH]; cbn [concat length]; [lia|]. rewrite app_length, IH, H. lia. Qed.
Lemma concat_nth dim (ls : list (list Z)) : Forall (fun l => length l = dim) ls -> forall d j, (d < length ls)%nat -> (j < dim)%nat ->
  nth (d * dim + j) (concat ls) 0 = nth j (nth d ls []) 0.
Proof.
  induction 1 as [|l ls H _ IH]; intros d j Hd Hj; cbn [length] in Hd; [lia|]. cbn [concat]. destruct d as [|d].
  - rewrite app_nth1 by lia. reflexivity.
  - rewrite app_nth2 by lia. replace (S d * dim + j - length l)%nat with (d * dim + j)%nat by lia. apply IH; lia.
Qed.

Definition encoding_of (first dim q0 : nat) (qs : list nat) : list Z := one_hot first q0 ++ concat (map (one_hot dim) qs).

Lemma encoding_facts first dim q0 qs :
  length (encoding_of first dim q0 qs) = (first + dim * length qs)%nat
  /\ (forall j, (j < first)%nat -> nth j (encoding_of first dim q0 qs) 0 = if (j =? q0)%nat then 1 else 0)
  /\ (forall d j, (d < length qs)%nat -> (j < dim)%nat -> nth (first + (d * dim + j)) (encoding_of first dim q0 qs) 0 = if (j =? nth d qs 0)%nat then 1 else 0).
Proof.
  assert (F : Forall (fun l => length l = dim) (map (one_hot dim) qs)).
  { apply Forall_forall. intros x Hx. apply in_map_iff in Hx. destruct Hx as [q [<- _]]. apply one_hot_length. }
  unfold encoding_of. split; [|split].
  - rewrite app_length, (concat_length dim), one_hot_length, map_length by auto. reflexivity.
  - intros j Hj. rewrite app_nth1 by (rewrite one_hot_length; auto). apply one_hot_nth. auto.
  - intros d j Hd Hj. rewrite app_nth2 by (rewrite one_hot_length; lia). rewrite one_hot_length, Nat.add_comm, Nat.add_sub.
    rewrite (concat_nth dim) by (auto; rewrite map_length; auto). rewrite nth_indep with (d' := one_hot dim 0) by (rewrite map_length; auto).
    rewrite map_nth. apply one_hot_nth. auto.
Qed.

Lemma encoding_range first dim q0 qs : Forall (fun x => 0 <= x < 2 ^ 64) (encoding_of first dim q0 qs).
Proof.
  assert (O : forall l k, Forall (fun x => 0 <= x < 2 ^ 64) (one_hot l k)).
  { intros l k. unfold one_hot. apply Forall_forall. intros x Hx. apply in_map_iff in Hx. destruct Hx as [j [<- _]]. destruct (j =? k)%nat; lia. }
  unfold encoding_of. apply Forall_app. split; [apply O|]. induction qs as [|q qs IH]; [constructor|]. cbn [map concat]. apply Forall_app. split; auto.
Qed.

Lemma dims_mapM dim qs : Forall (fun q => (q < dim)%nat) qs ->
  mapM (fun q => rassert (q <? dim)%nat ;;; Ok (one_hot dim q)) qs = Ok (map (one_hot dim) qs).
Proof.
  induction 1 as [|q qs H _ IH]; [reflexivity|]. cbn [mapM map]. rewrite rassert_true by (apply Nat.ltb_lt; auto). cbn [bind]. rewrite IH. reflexivity.
Qed.
Lemma dims_mapM_inv dim qs v : mapM (fun q => rassert (q <? dim)%nat ;;; Ok (one_hot dim q)) qs = Ok v -> Forall (fun q => (q < dim)%nat) qs.
Proof.
  revert v. induction qs as [|q qs IH]; intros v H; [constructor|]. cbn [mapM] in H. apply bind_inv in H. destruct H as [y [E H]].
  apply bind_inv in E. destruct E as [u [E _]]. apply rassert_inv in E. apply Nat.ltb_lt in E.
  apply bind_inv in H. destruct H as [ys [E2 _]]. constructor; eauto.
Qed.

Lemma div1_iff a b : 0 < b -> 0 <= a -> a / b = 1 <-> b <= a < 2 * b.
Proof.
  intros Hb Ha. split; intros H.
  - pose proof (Z.div_mod a b ltac:(lia)). pose proof (Z.mod_pos_bound a b ltac:(lia)). nia.
  - symmetry. apply Z.div_unique with (a - b); lia.
Qed.

Lemma client_encode_ok pr first dim q0 qs rows :
  (q0 < first)%nat -> Forall (fun q => (q < dim)%nat) qs ->
  0 < Z.of_nat dim ^ Z.of_nat (length qs) < 2 ^ 64 ->
  Z.of_nat dim ^ Z.of_nat (length qs) <= Z.of_nat rows / Z.of_nat first < 2 * Z.of_nat dim ^ Z.of_nat (length qs) ->
  client_encode pr (mkClient first dim) (q0 :: qs) rows = Ok (encoding_of first dim q0 qs).
Proof.
  intros H0 HF HP HR. unfold client_encode. cbn [get nth_error bind cl_first_dim cl_dim length tl].
  rewrite rassert_true by (apply Nat.ltb_lt; auto). cbn [bind]. rewrite udiv_ok by lia. cbn [bind].
  replace (Z.of_nat (S (length qs) - 1)) with (Z.of_nat (length qs)) by lia.
  rewrite chk_ok by (change W64 with (2 ^ 64); lia). cbn [bind]. rewrite udiv_ok by lia. cbn [bind].
  rewrite (proj2 (div1_iff (Z.of_nat rows / Z.of_nat first) (Z.of_nat dim ^ Z.of_nat (length qs)) (proj1 HP) ltac:(apply Z.div_pos; lia)) HR). cbn [Z.eqb Pos.eqb rassert bind]. rewrite dims_mapM by auto. reflexivity.
Qed.

Lemma client_encode_inv pr first dim qs rows v : client_encode pr (mkClient first dim) qs rows = Ok v ->
  pr = Debug \/ Z.of_nat dim ^ Z.of_nat (length qs - 1) < 2 ^ 64 ->
  exists q0 qs', qs = q0 :: qs' /\ (q0 < first)%nat /\ Forall (fun q => (q < dim)%nat) qs'
    /\ Z.of_nat dim ^ Z.of_nat (length qs') <= Z.of_nat rows / Z.of_nat first < 2 * Z.of_nat dim ^ Z.of_nat (length qs').
Proof.
  unfold client_encode. cbn [cl_first_dim cl_dim]. intros H HD. destruct qs as [|q0 qs]; [discriminate|]. exists q0, qs. split; auto.
  cbn [get nth_error bind length tl] in *. replace (Z.of_nat (S (length qs) - 1)) with (Z.of_nat (length qs)) in * by lia.
  apply bind_inv in H. destruct H as [u [E1 H]]. apply rassert_inv in E1. apply Nat.ltb_lt in E1. rewrite udiv_ok in H by lia. cbn [bind] in H.
  apply bind_inv in H. destruct H as [p [E2 H]]. assert (0 <= Z.of_nat dim ^ Z.of_nat (length qs)) by (apply Z.pow_nonneg; lia).
  assert (Ep : p = Z.of_nat dim ^ Z.of_nat (length qs)).
  { destruct HD as [->|HD].
    - unfold chk in E2. destruct (_ && _) in E2; [congruence|discriminate].
    - rewrite chk_ok in E2 by (change W64 with (2 ^ 64); lia). congruence. }
  subst p. apply bind_inv in H. destruct H as [k' [E3 H]]. apply bind_inv in H. destruct H as [u' [E4 H]]. apply rassert_inv in E4. apply Z.eqb_eq in E4. subst k'.
  apply bind_inv in H. destruct H as [rg [E5 _]]. apply dims_mapM_inv in E5. split; auto. split; auto.
  unfold udiv in E3. destruct (Z.eqb_spec (Z.of_nat dim ^ Z.of_nat (length qs)) 0) as [|Hne]; [discriminate|]. apply Ok_inj in E3.
  apply div1_iff in E3; auto; [lia|]. apply Z.div_pos; lia.
Qed.

(** ** Bookkeeping *)
Lemma no_of_cts_loop_ok pr dim : (2 <= dim)%nat -> forall k fuel count, (k <= fuel)%nat -> 0 <= count -> count + Z.of_nat (dim * k) < 2 ^ 64 ->
  no_of_cts_loop pr fuel dim (dim ^ k) count = Ok (count + Z.of_nat (dim * k)).
Proof.
  intros Hd. induction k as [|k IH]; intros fuel count Hf H0 HB.
  - cbn [Nat.pow]. destruct fuel; cbn [no_of_cts_loop Nat.ltb Nat.leb]; f_equal; lia.
  - destruct fuel as [|fuel]; [lia|]. cbn [no_of_cts_loop].
    assert (1 <= dim ^ k)%nat by (pose proof (Nat.pow_nonzero dim k ltac:(lia)); lia).
    assert (E : (dim ^ S k = dim ^ k * dim)%nat) by (rewrite Nat.pow_succ_r'; lia).
    rewrite (proj2 (Nat.ltb_lt 1 (dim ^ S k))) by (rewrite E; nia).
    rewrite (proj2 (Nat.eqb_neq dim 0)) by lia. rewrite E, Nat.div_mul by lia.
    rewrite add64_ok by (change W64 with (2 ^ 64); nia). cbn [bind]. rewrite IH by nia. f_equal. lia.
Qed.

Lemma pow_exp_lt dim k b : (2 <= dim)%nat -> Z.of_nat (dim ^ k) < 2 ^ b -> Z.of_nat k < b.
Proof.
  intros Hd H. apply (Z.pow_lt_mono_r_iff 2); [lia| |].
  - destruct (Z_lt_le_dec b 0) as [Hb|]; auto. rewrite (Z.pow_neg_r 2 b) in H by lia. lia.
  - eapply Z.le_lt_trans; [|exact H]. rewrite Nat2Z.inj_pow. apply Z.pow_le_mono_l. lia.
Qed.

Lemma no_of_cts_ok pr s k : (1 <= sv_first_dim s)%nat -> (2 <= sv_dim s)%nat ->
  length (sv_db s) = (sv_first_dim s * sv_dim s ^ k)%nat -> Z.of_nat (length (sv_db s)) < 2 ^ 64 ->
  Z.of_nat (sv_first_dim s + sv_dim s * k) < 2 ^ 64 ->
  no_of_cts pr s = Ok (Z.of_nat (sv_first_dim s + sv_dim s * k)).
Proof.
  intros H1 H2 HL HB HS. unfold no_of_cts. rewrite (proj2 (Nat.eqb_neq _ _)) by lia. rewrite HL, Nat.mul_comm, Nat.div_mul by lia.
  rewrite no_of_cts_loop_ok; auto; try lia; [f_equal; lia|].
  assert (Z.of_nat (sv_dim s ^ k) < 2 ^ 64) by (rewrite HL in HB; nia). pose proof (pow_exp_lt _ _ _ H2 H). lia.
Qed.
Lemma no_of_cts_dim1 pr fuel len count : (2 <= len)%nat -> forall r, no_of_cts_loop pr fuel 1 len count <> Ok r.
Proof.
  intros Hl. revert count. induction fuel as [|f IH]; intros count r; cbn [no_of_cts_loop]; rewrite (proj2 (Nat.ltb_lt 1 len)) by lia; [discriminate|].
  cbn [Nat.eqb]. rewrite Nat.div_1_r. destruct (add64 pr count (Z.of_nat 1)); cbn [bind]; try discriminate. apply IH.
Qed.
Lemma no_of_cts_dim1_release fuel len count : (2 <= len)%nat -> no_of_cts_loop Release fuel 1 len count = NoFuel.
Proof.
  intros Hl. revert count. induction fuel as [|f IH]; intros count; cbn [no_of_cts_loop]; rewrite (proj2 (Nat.ltb_lt 1 len)) by lia; [reflexivity|].
  cbn [Nat.eqb]. rewrite Nat.div_1_r. unfold add64, chk. destruct (_ && _); cbn [bind]; apply IH.
Qed.

Lemma log2_dim dim : (2 <= dim)%nat -> 1 <= Z.log2 (Z.of_nat dim).
Proof. intros H. apply Z.log2_le_pow2; lia. Qed.

Lemma log2_pow_ge dim k : (2 <= dim)%nat -> Z.of_nat k * Z.log2 (Z.of_nat dim) <= Z.log2 (Z.of_nat dim ^ Z.of_nat k).
Proof.
  intros H. pose proof (log2_dim dim H) as L. apply Z.log2_le_pow2; [apply Z.pow_pos_nonneg; lia|].
  rewrite Z.mul_comm, Z.pow_mul_r by lia. apply Z.pow_le_mono_l. split; [apply Z.pow_nonneg; lia|]. apply Z.log2_spec. lia.
Qed.

Lemma decode_dimensions_val pr s k : (1 <= sv_first_dim s)%nat -> (2 <= sv_dim s)%nat ->
  length (sv_db s) = (sv_first_dim s * sv_dim s ^ k)%nat -> Z.of_nat (length (sv_db s)) < 2 ^ 64 -> Z.of_nat (sv_dim s) < 2 ^ 64 ->
  decode_dimensions pr s = Ok (Z.log2 (Z.of_nat (sv_dim s) ^ Z.of_nat k) / Z.log2 (Z.of_nat (sv_dim s)) + 1).
Proof.
  intros H1 Hd HL HB HD. unfold decode_dimensions. rewrite udiv_ok by lia. cbn [bind]. pose proof (log2_dim _ Hd) as LD.
  replace (Z.of_nat (length (sv_db s)) / Z.of_nat (sv_first_dim s)) with (Z.of_nat (sv_dim s) ^ Z.of_nat k).
  2:{ rewrite HL, (Nat2Z.inj_mul (sv_first_dim s)), (Z.mul_comm (Z.of_nat (sv_first_dim s))), Z.div_mul by lia. symmetry. apply Nat2Z.inj_pow. }
  assert (E2 : 0 < Z.of_nat (sv_dim s) ^ Z.of_nat k < 2 ^ 64).
  { split; [apply Z.pow_pos_nonneg; lia|]. rewrite <- Nat2Z.inj_pow. rewrite HL, Nat2Z.inj_mul in HB. set (X := (sv_dim s ^ k)%nat) in *. clear - HB H1. nia. }
  rewrite ilog2_ok; [|lia|exact E2]. cbn [bind]. rewrite ilog2_ok; [|lia|lia]. cbn [bind]. rewrite udiv_ok by lia. cbn [bind]. apply add64_ok.
  assert (L2 : Z.log2 (Z.of_nat (sv_dim s) ^ Z.of_nat k) < 64) by (apply Z.log2_lt_pow2; lia).
  set (X := Z.log2 (Z.of_nat (sv_dim s) ^ Z.of_nat k)) in *. assert (X0 : 0 <= X) by apply Z.log2_nonneg.
  pose proof (Z.div_pos X (Z.log2 (Z.of_nat (sv_dim s))) X0 ltac:(lia)). pose proof (Z.div_le_upper_bound X (Z.log2 (Z.of_nat (sv_dim s))) X ltac:(lia) ltac:(clear - LD X0; nia)).
  change W64 with 18446744073709551616. lia.
Qed.

Lemma countable_iff dim k : (2 <= dim)%nat ->
  (countable dim k <-> Z.log2 (Z.of_nat dim ^ Z.of_nat k) / Z.log2 (Z.of_nat dim) = Z.of_nat k).
Proof.
  intros H. pose proof (log2_dim dim H) as L. pose proof (log2_pow_ge dim k H) as G. unfold countable.
  set (X := Z.log2 (Z.of_nat dim ^ Z.of_nat k)) in *. set (l := Z.log2 (Z.of_nat dim)) in *. clearbody X l. split.
  - intros [_ C]. symmetry. apply (Z.div_unique X l (Z.of_nat k) (X - l * Z.of_nat k)); lia.
  - intros E. split; auto. pose proof (Z.mul_succ_div_gt X l ltac:(lia)) as M. rewrite E in M. lia.
Qed.

Lemma countable_pow2 b k : (1 <= b)%nat -> countable (2 ^ b) k.
Proof.
  intros Hb. assert (B2 : (2 <= 2 ^ b)%nat) by (destruct b; [lia|]; cbn [Nat.pow]; pose proof (Nat.pow_nonzero 2 b ltac:(lia)); lia).
  split; auto. rewrite Nat2Z.inj_pow, <- Z.pow_mul_r by lia. change (Z.of_nat 2) with 2. rewrite !Z.log2_pow2 by lia. lia.
Qed.

Lemma countable_le1 dim k : (2 <= dim)%nat -> (k <= 1)%nat -> countable dim k.
Proof.
  intros Hd Hk. split; auto. pose proof (log2_dim dim Hd) as L. destruct k as [|[|k]]; [|cbn [Z.of_nat]; change (Z.pos (Pos.of_succ_nat 0)) with 1; rewrite Z.pow_1_r; lia|lia].
  change (Z.log2 (Z.of_nat dim ^ Z.of_nat 0)) with 0. lia.
Qed.

Lemma decode_dimensions_ok pr s k : (1 <= sv_first_dim s)%nat -> countable (sv_dim s) k ->
  length (sv_db s) = (sv_first_dim s * sv_dim s ^ k)%nat -> Z.of_nat (length (sv_db s)) < 2 ^ 64 -> Z.of_nat (sv_dim s) < 2 ^ 64 ->
  decode_dimensions pr s = Ok (Z.of_nat k + 1).
Proof.
  intros H1 Hd HL HB HD. rewrite (decode_dimensions_val pr s k) by (auto; apply Hd). f_equal. f_equal. apply countable_iff; auto. apply Hd.
Qed.
