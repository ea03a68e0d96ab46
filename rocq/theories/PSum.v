(** Finite sums. *)
From Coq Require Import Permutation.
From Verif Require Import PBase NT Spec.

Lemma sumn_ext n f g : (forall i, (i < n)%nat -> f i = g i) -> sumn n f = sumn n g.
Proof. induction n as [|n IH]; intros H; simpl; auto. rewrite IH, H by auto. reflexivity. Qed.
Lemma sumn_0 n f : (forall i, (i < n)%nat -> f i = 0) -> sumn n f = 0.
Proof. induction n as [|n IH]; intros H; simpl; auto. rewrite IH, H by auto. reflexivity. Qed.
Lemma sumn_add n f g : sumn n (fun i => f i + g i) = sumn n f + sumn n g.
Proof. induction n; simpl; lia. Qed.
Lemma sumn_sub n f g : sumn n (fun i => f i - g i) = sumn n f - sumn n g.
Proof. induction n; simpl; lia. Qed.
Lemma sumn_opp n f : sumn n (fun i => - f i) = - sumn n f.
Proof. induction n; simpl; lia. Qed.
Lemma sumn_mul_l n c f : sumn n (fun i => c * f i) = c * sumn n f.
Proof. induction n; simpl; [lia|]. rewrite IHn. ring. Qed.
Lemma sumn_mul_r n c f : sumn n (fun i => f i * c) = sumn n f * c.
Proof. induction n; simpl; [lia|]. rewrite IHn. ring. Qed.
Lemma sumn_const n c : sumn n (fun _ => c) = Z.of_nat n * c.
Proof. induction n; simpl sumn; lia. Qed.
Lemma sumn_swap n m f : sumn n (fun i => sumn m (fun j => f i j)) = sumn m (fun j => sumn n (fun i => f i j)).
Proof.
  induction n as [|n IH]; simpl.
  - symmetry. apply sumn_0. auto.
  - rewrite IH, <- sumn_add. reflexivity.
Qed.
Lemma sumn_split a b f : sumn (a + b) f = sumn a f + sumn b (fun i => f (a + i)%nat).
Proof.
  induction b as [|b IH]; simpl.
  - rewrite Nat.add_0_r. lia.
  - rewrite Nat.add_succ_r. simpl. rewrite IH. lia.
Qed.
Lemma sumn_S_l n f : sumn (S n) f = f 0%nat + sumn n (fun i => f (S i)).
Proof. rewrite (sumn_split 1 n). simpl. lia. Qed.
Lemma sumn_single n k f : (k < n)%nat -> (forall i, (i < n)%nat -> i <> k -> f i = 0) -> sumn n f = f k.
Proof.
  intros Hk H. induction n as [|n IH]; [lia|]. simpl.
  destruct (Nat.eq_dec k n) as [->|Hne].
  - rewrite sumn_0; [lia|]. intros. apply H; lia.
  - rewrite IH; [|lia|]. + rewrite (H n) by lia. lia. + intros. apply H; lia.
Qed.
(** index = i*m + j *)
Lemma sumn_prod n m f : sumn (n * m) f = sumn n (fun i => sumn m (fun j => f (i * m + j)%nat)).
Proof.
  induction n as [|n IH]; simpl; auto.
  rewrite Nat.add_comm, sumn_split, IH. reflexivity.
Qed.
Lemma sumn_le n f g : (forall i, (i < n)%nat -> f i <= g i) -> sumn n f <= sumn n g.
Proof. induction n as [|n IH]; intros H; simpl; [lia|]. specialize (H n ltac:(lia)) as Hn.
  assert (sumn n f <= sumn n g) by (apply IH; auto). lia. Qed.
Lemma sumn_nonneg n f : (forall i, (i < n)%nat -> 0 <= f i) -> 0 <= sumn n f.
Proof. intros H. rewrite <- (sumn_0 n (fun _ => 0)) by auto. apply sumn_le. auto. Qed.
Lemma sumn_abs n f : Z.abs (sumn n f) <= sumn n (fun i => Z.abs (f i)).
Proof. induction n; simpl; lia. Qed.
Lemma sumn_abs_le n f B : (forall i, (i < n)%nat -> Z.abs (f i) <= B) -> Z.abs (sumn n f) <= Z.of_nat n * B.
Proof.
  intros H. eapply Z.le_trans; [apply sumn_abs|]. rewrite <- sumn_const. apply sumn_le. auto.
Qed.
Lemma sumn_eqm p n f g : (forall i, (i < n)%nat -> eqm p (f i) (g i)) -> eqm p (sumn n f) (sumn n g).
Proof. induction n as [|n IH]; intros H; simpl; [reflexivity|]. apply eqm_add; auto. Qed.
Lemma sumn_rev n f : sumn n f = sumn n (fun i => f (n - 1 - i)%nat).
Proof.
  induction n as [|n IH]; [reflexivity|].
  rewrite sumn_S_l. cbn [sumn]. replace (S n - 1 - n)%nat with 0%nat by lia.
  rewrite Z.add_comm. f_equal.
  rewrite (sumn_ext n (fun i => f (S n - 1 - i)%nat) (fun i => f (S (n - 1 - i))%nat)).
  2:{ intros. f_equal. lia. }
  clear IH. revert f. induction n as [|n IH]; intros f; [reflexivity|].
  rewrite sumn_S_l. cbn [sumn]. replace (S n - 1 - n)%nat with 0%nat by lia.
  rewrite Z.add_comm. f_equal.
  rewrite (IH (fun i => f (S i))). apply sumn_ext. intros. f_equal. lia.
Qed.

(** Sum over a list, and reindexing by a permutation of [0,n). *)
Lemma fold_add_snoc l x : fold_right Z.add 0 (l ++ [x]) = fold_right Z.add 0 l + x.
Proof. induction l as [|y l IH]; simpl; [lia|]. rewrite IH. lia. Qed.
Lemma sumn_list n f : sumn n f = fold_right Z.add 0 (map f (seq 0 n)).
Proof.
  induction n as [|n IH]; [reflexivity|].
  rewrite seq_S, map_app. cbn [sumn map]. rewrite fold_add_snoc, IH. reflexivity.
Qed.
Lemma fold_add_perm l l' : Permutation l l' -> fold_right Z.add 0 l = fold_right Z.add 0 l'.
Proof. induction 1; simpl; lia. Qed.
Lemma sumn_reindex n f s :
  (forall i, (i < n)%nat -> (s i < n)%nat) ->
  (forall i j, (i < n)%nat -> (j < n)%nat -> s i = s j -> i = j) ->
  sumn n (fun i => f (s i)) = sumn n f.
Proof.
  intros Hr Hi. rewrite !sumn_list. rewrite <- (map_map s f). apply fold_add_perm.
  apply Permutation_map. apply NoDup_Permutation_bis.
  - apply NoDup_map_inj; [|apply seq_NoDup].
    intros x y Hx Hy. apply in_seq in Hx, Hy. apply Hi; lia.
  - rewrite map_length. auto.
  - intros y Hy. apply in_map_iff in Hy. destruct Hy as [x [<- Hx]]. apply in_seq in Hx.
    apply in_seq. specialize (Hr x). lia.
Qed.

(** Geometric telescoping: sum_{i<n} (x_{i+1} - x_i) *)
Lemma sumn_tele n (x : nat -> Z) : sumn n (fun i => x (S i) - x i) = x n - x 0%nat.
Proof. induction n; simpl; lia. Qed.
