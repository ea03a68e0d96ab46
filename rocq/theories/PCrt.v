(** Chinese remainder theorem over lists of moduli. *)
From Verif Require Import PBase NT Spec PSum.

Lemma zprod_fold ms : fold_left Z.mul ms 1 = zprod ms.
Proof.
  assert (G : forall l a, fold_left Z.mul l a = a * zprod l).
  { induction l as [|x l IH]; intros a; cbn [fold_left zprod fold_right]; [ring|].
    rewrite IH. unfold zprod. ring. }
  rewrite G. ring.
Qed.
Lemma zprod_cons q ms : zprod (q :: ms) = q * zprod ms.
Proof. reflexivity. Qed.
Lemma zprod_app a b : zprod (a ++ b) = zprod a * zprod b.
Proof. induction a as [|x a IH]; cbn [app]; [unfold zprod; simpl fold_right; lia|]. rewrite !zprod_cons, IH. ring. Qed.
Lemma zprod_pos ms : Forall (fun q => 2 <= q) ms -> 1 <= zprod ms.
Proof.
  induction 1 as [|q ms Hq HF IH]; [reflexivity|]. rewrite zprod_cons. nia.
Qed.
Lemma zprod_ge ms q : Forall (fun q => 2 <= q) ms -> In q ms -> q <= zprod ms.
Proof.
  induction 1 as [|x ms Hx HF IH]; intros Hi; [contradiction|]. rewrite zprod_cons.
  pose proof (zprod_pos ms HF). destruct Hi as [->|Hi]; [nia|]. specialize (IH Hi). nia.
Qed.
Lemma zprod_divide ms q : In q ms -> (q | zprod ms).
Proof.
  induction ms as [|x ms IH]; intros Hi; [contradiction|]. rewrite zprod_cons.
  destruct Hi as [->|Hi]; [apply Z.divide_factor_l|]. apply Z.divide_mul_r. auto.
Qed.

(** Product of all moduli except the i-th. *)
Definition drop_nth (i : nat) (ms : list Z) : list Z := firstn i ms ++ skipn (S i) ms.
Lemma split_nth i (ms : list Z) d : (i < length ms)%nat -> ms = firstn i ms ++ nth i ms d :: skipn (S i) ms.
Proof.
  revert i; induction ms as [|x ms IH]; intros [|i] H; simpl in *; try lia; auto.
  f_equal. apply IH. lia.
Qed.
Lemma zprod_drop i ms d : (i < length ms)%nat -> zprod ms = nth i ms d * zprod (drop_nth i ms).
Proof.
  intros H. rewrite (split_nth i ms d H) at 1. unfold drop_nth. rewrite !zprod_app, zprod_cons. ring.
Qed.
Lemma drop_nth_In i j ms d : (i < length ms)%nat -> (j < length ms)%nat -> i <> j -> In (nth j ms d) (drop_nth i ms).
Proof.
  intros Hi Hj Hne. unfold drop_nth. apply in_or_app. destruct (lt_dec j i) as [L|L].
  - left. assert (E : nth j ms d = nth j (firstn i ms) d).
    { rewrite <- (firstn_skipn i ms) at 1. rewrite app_nth1; auto. rewrite firstn_length. lia. }
    rewrite E. apply nth_In. rewrite firstn_length. lia.
  - right. assert (E : nth j ms d = nth (j - S i) (skipn (S i) ms) d).
    { rewrite <- (firstn_skipn (S i) ms) at 1. rewrite app_nth2; rewrite firstn_length; [|lia]. f_equal. lia. }
    rewrite E. apply nth_In. rewrite skipn_length. lia.
Qed.

Definition pairwise (ms : list Z) : Prop :=
  forall i j, (i < length ms)%nat -> (j < length ms)%nat -> i <> j -> rel_prime (nth i ms 1) (nth j ms 1).

Lemma pairwise_tail q ms : pairwise (q :: ms) -> pairwise ms.
Proof. intros H i j Hi Hj Hne. apply (H (S i) (S j)); simpl; lia. Qed.

Lemma rel_prime_zprod q ms : (forall x, In x ms -> rel_prime q x) -> rel_prime q (zprod ms).
Proof.
  induction ms as [|x ms IH]; intros H.
  - apply rel_prime_sym, rel_prime_1.
  - rewrite zprod_cons. apply rel_prime_mult; [apply H; left; auto|]. apply IH. intros; apply H; right; auto.
Qed.

Lemma pairwise_head q ms : pairwise (q :: ms) -> rel_prime q (zprod ms).
Proof.
  intros H. apply rel_prime_zprod. intros x Hx. apply In_nth with (d := 1) in Hx. destruct Hx as [j [Hj <-]].
  apply (H 0%nat (S j)); simpl; lia.
Qed.

(** Congruence modulo every modulus is congruence modulo the product. *)
Lemma crt_eqm ms a b : Forall (fun q => 2 <= q) ms -> pairwise ms ->
  (forall q, In q ms -> eqm q a b) -> eqm (zprod ms) a b.
Proof.
  intros H2 HP H. induction ms as [|q ms IH].
  - unfold eqm, zprod. simpl. rewrite !Z.mod_1_r. reflexivity.
  - inversion H2 as [|? ? Hq HF]; subst. pose proof (zprod_pos ms HF) as Hpos.
    assert (IH' : eqm (zprod ms) a b).
    { apply IH; auto; [apply pairwise_tail with q; auto|]. intros; apply H; right; auto. }
    rewrite zprod_cons in *.
    apply eqm_divide; [nia|].
    apply eqm_divide in IH'; [|lia].
    assert (Dq : (q | a - b)) by (apply eqm_divide; [lia|apply H; left; auto]).
    destruct IH' as [c Hc]. rewrite Hc in Dq. rewrite Z.mul_comm in Dq.
    apply Gauss in Dq; [|apply pairwise_head; auto].
    destruct Dq as [e ->]. exists e. rewrite Hc. ring.
Qed.
Lemma eqm_prod_each ms a b q : Forall (fun q => 2 <= q) ms -> eqm (zprod ms) a b -> In q ms -> eqm q a b.
Proof.
  intros H2 H Hi. pose proof (zprod_pos ms H2). rewrite Forall_forall in H2. specialize (H2 q Hi).
  apply eqm_weaken with (zprod ms); auto; try lia. apply zprod_divide; auto.
Qed.

Lemma pairwise_rel_drop i ms : pairwise ms -> (i < length ms)%nat -> rel_prime (zprod (drop_nth i ms)) (nth i ms 1).
Proof.
  intros HP Hi. apply rel_prime_sym, rel_prime_zprod. intros x Hx. unfold drop_nth in Hx.
  apply in_app_or in Hx. destruct Hx as [Hx|Hx]; apply In_nth with (d := 1) in Hx; destruct Hx as [j [Hj <-]].
  - rewrite firstn_length in Hj.
    assert (E : nth j (firstn i ms) 1 = nth j ms 1).
    { rewrite <- (firstn_skipn i ms) at 2. rewrite app_nth1; auto. rewrite firstn_length. lia. }
    rewrite E. apply HP; lia.
  - rewrite skipn_length in Hj.
    assert (E : nth j (skipn (S i) ms) 1 = nth (S i + j) ms 1).
    { rewrite <- (firstn_skipn (S i) ms) at 2. rewrite app_nth2; rewrite firstn_length; [f_equal; lia|lia]. }
    rewrite E. apply HP; lia.
Qed.
Lemma drop_rel_pairwise ms : (forall i, (i < length ms)%nat -> rel_prime (zprod (drop_nth i ms)) (nth i ms 1)) -> pairwise ms.
Proof.
  intros H i j Hi Hj Hne. apply rel_prime_sym. apply rel_prime_div with (zprod (drop_nth i ms)); [apply H; auto|].
  apply zprod_divide, drop_nth_In; auto.
Qed.
