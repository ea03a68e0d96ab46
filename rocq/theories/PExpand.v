(** The algebra of oblivious expansion: splitting a polynomial of Z[X]/(X^n+1)
    into its coefficients with the automorphisms X -> X^(n/2^i+1). *)
From Verif Require Import PBase NT Spec PSum PNttMath MRq SpecRq SpecEval PRing.

Section Exp.
Variable L : nat.
Let n := (2 ^ L)%nat.

Lemma pow2_pos i : (1 <= 2 ^ i)%nat.
Proof. pose proof (Nat.pow_nonzero 2 i ltac:(lia)). lia. Qed.

Lemma pow2_split i : (i < L)%nat -> n = (2 ^ i * (2 * 2 ^ (L - i - 1)))%nat.
Proof. intros H. unfold n. rewrite <- Nat.pow_succ_r', <- Nat.pow_add_r. f_equal. lia. Qed.

Lemma exp_div i : (i < L)%nat -> (n / 2 ^ i = 2 * 2 ^ (L - i - 1))%nat.
Proof.
  intros H. rewrite (pow2_split i H), Nat.mul_comm, Nat.div_mul; auto. apply Nat.pow_nonzero. lia.
Qed.

Lemma exp_odd i : (i < L)%nat -> Nat.odd (n / 2 ^ i + 1) = true.
Proof. intros H. rewrite exp_div by auto. apply Nat.odd_spec. exists (2 ^ (L - i - 1))%nat. lia. Qed.

(** sigma acts on multiples of 2^i by a sign. *)
Lemma rsubst_expd i j p k : (i < L)%nat -> (k < n)%nat ->
  rsubst n (n / 2 ^ i + 1) (expd i j p) k = sgn (k / 2 ^ i) * expd i j p k.
Proof.
  intros Hi Hk. pose proof (pow2_pos i) as P1.
  assert (T : forall l, (l < n)%nat -> (l mod 2 ^ i = 0)%nat -> mono n k (l * (n / 2 ^ i + 1)) = if (l =? k)%nat then sgn (l / 2 ^ i) else 0).
  { intros l Hl Hm. replace (l * (n / 2 ^ i + 1))%nat with (l + (l / 2 ^ i) * n)%nat.
    - rewrite mono_shift by lia. rewrite mono_small' by auto. destruct (l =? k)%nat; ring.
    - rewrite exp_div by auto. rewrite (pow2_split i Hi). pose proof (Nat.div_mod l (2 ^ i) ltac:(lia)) as E. rewrite Hm in E.
      set (a := (l / 2 ^ i)%nat) in *. set (b := (2 * 2 ^ (L - i - 1))%nat). rewrite E. lia. }
  unfold rsubst. rewrite (sumn_single n k); auto; cycle 1.
  { intros l Hl Hlk. unfold expd. destruct (l mod 2 ^ i =? 0)%nat eqn:E; [|ring].
    apply Nat.eqb_eq in E. rewrite T by auto. rewrite (proj2 (Nat.eqb_neq l k)) by auto. ring. }
  unfold expd. destruct (k mod 2 ^ i =? 0)%nat eqn:E; [|ring]. apply Nat.eqb_eq in E. rewrite T by auto. rewrite Nat.eqb_refl. ring.
Qed.

Lemma mod_double a b : (0 < b)%nat -> (a mod b = 0)%nat -> (a mod (b * 2) = 0)%nat <-> Nat.even (a / b) = true.
Proof.
  intros Hb Ha. pose proof (Nat.div_mod a b ltac:(lia)) as E. rewrite Ha in E.
  rewrite Nat.mod_mul_r by lia. rewrite Ha. split.
  - intros H. assert ((a / b) mod 2 = 0)%nat by nia. apply Nat.even_spec. exists (a / b / 2)%nat. pose proof (Nat.div_mod (a / b) 2 ltac:(lia)). lia.
  - intros H. apply Nat.even_spec in H. destruct H as [m Hm]. rewrite Hm, Nat.mul_comm, (Nat.mul_comm 2 m), Nat.mod_mul by lia. reflexivity.
Qed.
Lemma mod_double_ne a b : (0 < b)%nat -> (a mod b <> 0)%nat -> (a mod (b * 2) <> 0)%nat.
Proof. intros Hb Ha H. rewrite Nat.mod_mul_r in H by lia. lia. Qed.

Lemma sgn_even a : sgn a = if Nat.even a then 1 else -1.
Proof. reflexivity. Qed.

Lemma expd_even i j p k : (i < L)%nat -> (k < n)%nat ->
  expd i j p k + rsubst n (n / 2 ^ i + 1) (expd i j p) k = expd (S i) j p k.
Proof.
  intros Hi Hk. rewrite rsubst_expd by auto. pose proof (pow2_pos i) as P1. rewrite sgn_even. unfold expd.
  replace (2 ^ S i)%nat with (2 ^ i * 2)%nat by (rewrite Nat.pow_succ_r'; lia). rewrite Nat2Z.inj_succ, Z.pow_succ_r by lia.
  destruct (k mod 2 ^ i =? 0)%nat eqn:E.
  - apply Nat.eqb_eq in E. pose proof (mod_double k (2 ^ i) ltac:(lia) E) as M. destruct (Nat.even (k / 2 ^ i)) eqn:Ev.
    + rewrite (proj2 (Nat.eqb_eq _ _)) by (apply M; auto). ring.
    + rewrite (proj2 (Nat.eqb_neq _ _)) by (intros H; apply M in H; congruence). ring.
  - apply Nat.eqb_neq in E. rewrite (proj2 (Nat.eqb_neq _ _)) by (apply mod_double_ne; auto; lia). destruct (Nat.even _); ring.
Qed.

(** Multiplication by X^(-d) = - X^(n-d). *)
Lemma rmul_xinv f d k : (0 < d < n)%nat -> (k < n)%nat ->
  rmul n f (xinv n d) k = if (k + d <? n)%nat then f (k + d)%nat else - f (k + d - n)%nat.
Proof.
  intros Hd Hk. unfold rmul.
  assert (I : forall i, (i < n)%nat -> sumn n (fun j => f i * xinv n d j * mono n k (i + j)) = - f i * mono n k (i + (n - d))).
  { intros i Hi. rewrite (sumn_single n (n - d)) by (try lia; intros j Hj Hjd; unfold xinv; rewrite (proj2 (Nat.eqb_neq _ _)) by auto; ring).
    unfold xinv. rewrite Nat.eqb_refl. ring. }
  rewrite (sumn_ext n _ (fun i => - f i * mono n k (i + (n - d)))) by (intros; apply I; auto).
  assert (M1 : forall i, (d <= i < n)%nat -> mono n k (i + (n - d)) = if (i - d =? k)%nat then -1 else 0).
  { intros i Hi. replace (i + (n - d))%nat with (i - d + 1 * n)%nat by lia. rewrite mono_shift by lia. rewrite mono_small' by lia.
    change (sgn 1) with (-1). destruct (i - d =? k)%nat; reflexivity. }
  assert (M2 : forall i, (i < d)%nat -> mono n k (i + (n - d)) = if (i + (n - d) =? k)%nat then 1 else 0).
  { intros i Hi. apply mono_small'. lia. }
  destruct (Nat.ltb_spec (k + d) n) as [H|H].
  - rewrite (sumn_single n (k + d)); [|lia|intros i Hi Hne; destruct (Nat.le_gt_cases d i);
      [rewrite M1 by lia|rewrite M2 by lia]; rewrite (proj2 (Nat.eqb_neq _ _)) by lia; ring].
    rewrite M1 by lia. rewrite (proj2 (Nat.eqb_eq _ _)) by lia. ring.
  - rewrite (sumn_single n (k + d - n)); [|lia|intros i Hi Hne; destruct (Nat.le_gt_cases d i);
      [rewrite M1 by lia|rewrite M2 by lia]; rewrite (proj2 (Nat.eqb_neq _ _)) by lia; ring].
    rewrite M2 by lia. rewrite (proj2 (Nat.eqb_eq _ _)) by lia. ring.
Qed.

Lemma rmul_xinv_bound f d k B : (0 < d < n)%nat -> (k < n)%nat -> (forall l, (l < n)%nat -> Z.abs (f l) <= B) ->
  Z.abs (rmul n f (xinv n d) k) <= B.
Proof.
  intros Hd Hk HB. rewrite rmul_xinv by auto. destruct (Nat.ltb_spec (k + d) n).
  - apply HB. lia.
  - rewrite Z.abs_opp. apply HB. lia.
Qed.

Lemma top_block k b m : (0 < b)%nat -> (1 <= m)%nat -> (k < b * (2 * m))%nat -> (b * (2 * m) <= k + b)%nat ->
  (k / b = 2 * m - 1)%nat /\ (k mod b = k + b - b * (2 * m))%nat.
Proof.
  intros Hb Hm H1 H2. assert (E : (b * (2 * m - 1) = b * (2 * m) - b)%nat) by (rewrite Nat.mul_sub_distr_l; lia).
  assert (D : (2 * m - 1 = k / b)%nat) by (apply Nat.div_unique with (r := (k - b * (2 * m - 1))%nat); lia).
  split; [lia|]. pose proof (Nat.div_mod k b ltac:(lia)) as F. rewrite <- D in F. lia.
Qed.

Lemma expd_odd i j p k : (i < L)%nat -> (k < n)%nat ->
  rmul n (fun l => expd i j p l - rsubst n (n / 2 ^ i + 1) (expd i j p) l) (xinv n (2 ^ i)) k = expd (S i) (j + 2 ^ i) p k.
Proof.
  intros Hi Hk. pose proof (pow2_pos i) as P1. pose proof (pow2_pos (L - i - 1)) as P2. pose proof (pow2_split i Hi) as Hn.
  set (b := (2 ^ i)%nat) in *. set (m := (2 ^ (L - i - 1))%nat) in *.
  assert (Hb : (0 < b < n)%nat) by nia. rewrite rmul_xinv by auto.
  assert (G : forall l, (l < n)%nat -> expd i j p l - rsubst n (n / b + 1) (expd i j p) l
      = if (l mod b =? 0)%nat then (if Nat.even (l / b) then 0 else 2 * (2 ^ Z.of_nat i * p (l + j)%nat)) else 0).
  { intros l Hl. unfold b. rewrite rsubst_expd by auto. rewrite sgn_even. unfold expd. fold b. destruct (l mod b =? 0)%nat; destruct (Nat.even (l / b)); ring. }
  unfold expd at 5. replace (2 ^ S i)%nat with (b * 2)%nat by (unfold b; rewrite Nat.pow_succ_r'; lia).
  rewrite Nat2Z.inj_succ, Z.pow_succ_r by lia.
  assert (D : ((k + b) / b = k / b + 1)%nat) by (rewrite <- (Nat.mul_1_l b) at 1; apply Nat.div_add; lia).
  assert (M : ((k + b) mod b = k mod b)%nat) by (rewrite <- (Nat.mul_1_l b) at 1; apply Nat.mod_add; lia).
  destruct (Nat.ltb_spec (k + b) n) as [H|H].
  - rewrite G by auto. rewrite D, M. replace (k + b + j)%nat with (k + (j + b))%nat by lia.
    destruct (k mod b =? 0)%nat eqn:E.
    + apply Nat.eqb_eq in E. pose proof (mod_double k b ltac:(lia) E) as Md. rewrite Nat.add_1_r, Nat.even_succ, <- Nat.negb_even.
      destruct (Nat.even (k / b)) eqn:Ev; cbn [negb].
      * rewrite (proj2 (Nat.eqb_eq _ _)) by (apply Md; auto). ring.
      * rewrite (proj2 (Nat.eqb_neq _ _)) by (intros H'; apply Md in H'; congruence). ring.
    + apply Nat.eqb_neq in E. rewrite (proj2 (Nat.eqb_neq _ _)) by (apply mod_double_ne; auto; lia). ring.
  - rewrite G by lia. destruct (top_block k b m ltac:(lia) ltac:(lia) ltac:(lia) ltac:(lia)) as [Ek E0'].
    assert (E0 : (k + b - n = k mod b /\ (k + b - n) < b)%nat).
    { rewrite Hn, <- E0'. split; [reflexivity|apply Nat.mod_upper_bound; clear - P1; lia]. }
    destruct E0 as [E0 E1]. rewrite (Nat.mod_small (k + b - n) b), (Nat.div_small (k + b - n) b) by lia.
    cbn [Nat.even]. replace (if (k + b - n =? 0)%nat then 0 else 0) with 0 by (destruct (_ =? _)%nat; reflexivity).
    destruct (k mod b =? 0)%nat eqn:E.
    + apply Nat.eqb_eq in E. pose proof (mod_double k b ltac:(lia) E) as Md.
      rewrite (proj2 (Nat.eqb_neq _ _)); [ring|]. intros H'. apply Md in H'. rewrite Ek in H'.
      apply Nat.even_spec in H'. destruct H' as [x Hx]. clear - Hx P2. lia.
    + apply Nat.eqb_neq in E. rewrite (proj2 (Nat.eqb_neq _ _)) by (apply mod_double_ne; auto; lia). ring.
Qed.

Lemma expd_last j p k : (j < n)%nat -> (k < n)%nat -> expd L j p k = if (k =? 0)%nat then Z.of_nat n * p j else 0.
Proof.
  intros Hj Hk. unfold expd. fold n. rewrite Nat.mod_small by auto. destruct (Nat.eqb_spec k 0); auto. subst k. rewrite Nat.add_0_l.
  unfold n. rewrite Nat2Z.inj_pow. reflexivity.
Qed.
Lemma expd_0 p k : (k < n)%nat -> expd 0 0 p k = p k.
Proof. intros Hk. unfold expd. cbn [Nat.pow]. rewrite Nat.mod_1_r. cbn [Nat.eqb]. rewrite Nat.add_0_r. change (2 ^ Z.of_nat 0) with 1. ring. Qed.
End Exp.
