(** Elementary number theory: congruences, Fermat's little theorem. *)
From Coq Require Import Permutation.
From Verif Require Import PBase.

(** Congruence modulo [p]. *)
Definition eqm (p a b : Z) : Prop := a mod p = b mod p.

Lemma eqm_refl p a : eqm p a a. Proof. reflexivity. Qed.
Lemma eqm_sym p a b : eqm p a b -> eqm p b a. Proof. unfold eqm; auto. Qed.
Lemma eqm_trans p a b c : eqm p a b -> eqm p b c -> eqm p a c.
Proof. unfold eqm; congruence. Qed.

Lemma eq_eqm p a b : a = b -> eqm p a b.
Proof. intros ->. reflexivity. Qed.

Lemma eqm_add p a b c d : eqm p a b -> eqm p c d -> eqm p (a + c) (b + d).
Proof. unfold eqm. intros. rewrite Zplus_mod, H, H0, <- Zplus_mod. auto. Qed.
Lemma eqm_sub p a b c d : eqm p a b -> eqm p c d -> eqm p (a - c) (b - d).
Proof. unfold eqm. intros. rewrite Zminus_mod, H, H0, <- Zminus_mod. auto. Qed.
Lemma eqm_mul p a b c d : eqm p a b -> eqm p c d -> eqm p (a * c) (b * d).
Proof. unfold eqm. intros. rewrite Zmult_mod, H, H0, <- Zmult_mod. auto. Qed.
Lemma eqm_opp p a b : eqm p a b -> eqm p (- a) (- b).
Proof. intros. change (- a) with (0 - a). change (- b) with (0 - b). apply eqm_sub; auto. apply eqm_refl. Qed.
Lemma eqm_mod p a : eqm p (a mod p) a.
Proof. unfold eqm. apply Zmod_mod. Qed.
Lemma eqm_pow p a b n : 0 <= n -> eqm p a b -> eqm p (a ^ n) (b ^ n).
Proof.
  intros Hn H. pattern n. apply natlike_ind; auto.
  - apply eqm_refl.
  - intros x Hx IH. rewrite !Z.pow_succ_r by auto. apply eqm_mul; auto.
Qed.

#[export] Instance eqm_equiv p : RelationClasses.Equivalence (eqm p).
Proof.
  split; [intros x; apply eqm_refl | intros x y; apply eqm_sym | intros x y z; apply eqm_trans].
Qed.
#[export] Instance eqm_add_proper p : Morphisms.Proper (Morphisms.respectful (eqm p) (Morphisms.respectful (eqm p) (eqm p))) Z.add.
Proof. intros a b H c d H'. apply eqm_add; auto. Qed.
#[export] Instance eqm_sub_proper p : Morphisms.Proper (Morphisms.respectful (eqm p) (Morphisms.respectful (eqm p) (eqm p))) Z.sub.
Proof. intros a b H c d H'. apply eqm_sub; auto. Qed.
#[export] Instance eqm_mul_proper p : Morphisms.Proper (Morphisms.respectful (eqm p) (Morphisms.respectful (eqm p) (eqm p))) Z.mul.
Proof. intros a b H c d H'. apply eqm_mul; auto. Qed.
#[export] Instance eqm_opp_proper p : Morphisms.Proper (Morphisms.respectful (eqm p) (eqm p)) Z.opp.
Proof. intros a b H. apply eqm_opp; auto. Qed.

Lemma eqm_divide p a b : p <> 0 -> (eqm p a b <-> (p | a - b)).
Proof.
  intros Hp. unfold eqm. split; intros H.
  - exists (a / p - b / p). rewrite (Z_div_mod_eq_full a p) at 1. rewrite (Z_div_mod_eq_full b p) at 1. rewrite H. ring.
  - destruct H as [k H]. replace a with (b + k * p) by lia. apply Z_mod_plus_full.
Qed.

Lemma eqm_weaken p q a b : q <> 0 -> p <> 0 -> (p | q) -> eqm q a b -> eqm p a b.
Proof. intros Hq Hp D H. apply eqm_divide in H; auto. apply eqm_divide; auto. eapply Z.divide_trans; eauto. Qed.

Lemma eqm_small p a b : 0 <= a < p -> 0 <= b < p -> eqm p a b -> a = b.
Proof. unfold eqm. intros. rewrite !Z.mod_small in H1; auto. Qed.

Lemma eqm_mod_eq p a b : eqm p a b -> a mod p = b mod p.
Proof. auto. Qed.

Lemma eqm_add_mult p a k : eqm p (a + k * p) a.
Proof. unfold eqm. apply Z_mod_plus_full. Qed.

(** Cancellation of a unit. *)
Lemma eqm_cancel p a b c : 1 < p -> rel_prime c p -> eqm p (c * a) (c * b) -> eqm p a b.
Proof.
  intros Hp R H. apply eqm_divide in H; [|lia]. apply eqm_divide; [lia|].
  replace (c * a - c * b) with (c * (a - b)) in H by ring.
  apply Gauss with c; auto. apply rel_prime_sym; auto.
Qed.

(** * Fermat's little theorem *)
Definition lprod (l : list Z) : Z := fold_right Z.mul 1 l.

Lemma lprod_perm l l' : Permutation l l' -> lprod l = lprod l'.
Proof. induction 1; simpl; lia. Qed.

Lemma lprod_map_mul p a l :
  eqm p (lprod (map (fun x => (a * x) mod p) l)) (a ^ Z.of_nat (length l) * lprod l).
Proof.
  induction l as [|x l IH]; [reflexivity|].
  cbn [map lprod fold_right length]. fold (lprod l). fold (lprod (map (fun x => (a * x) mod p) l)).
  rewrite IH, eqm_mod. rewrite Nat2Z.inj_succ, Z.pow_succ_r by lia.
  replace (a * x * (a ^ Z.of_nat (length l) * lprod l))
    with (a * a ^ Z.of_nat (length l) * (x * lprod l)) by ring. reflexivity.
Qed.

Lemma lprod_rel_prime p l : prime p -> (forall x, In x l -> 0 < x < p) -> rel_prime (lprod l) p.
Proof.
  intros Hp. induction l as [|x l IH]; intros H; simpl.
  - apply rel_prime_1.
  - apply rel_prime_sym. apply rel_prime_mult.
    + apply rel_prime_sym. apply rel_prime_le_prime; auto.
      specialize (H x (or_introl eq_refl)). lia.
    + apply rel_prime_sym. apply IH. intros; apply H; right; auto.
Qed.

Definition residues (p : Z) : list Z := map Z.of_nat (seq 1 (Z.to_nat (p - 1))).
Lemma residues_In p x : In x (residues p) <-> 0 < x < p.
Proof.
  unfold residues. rewrite in_map_iff. split.
  - intros [n [<- H]]. apply in_seq in H. lia.
  - intros H. exists (Z.to_nat x). split; [lia|]. apply in_seq. lia.
Qed.
Lemma residues_NoDup p : NoDup (residues p).
Proof.
  unfold residues. apply FinFun.Injective_map_NoDup; [|apply seq_NoDup].
  intros x y H. lia.
Qed.
Lemma residues_length p : 1 <= p -> Z.of_nat (length (residues p)) = p - 1.
Proof. intros. unfold residues. rewrite map_length, seq_length. lia. Qed.

Lemma NoDup_map_inj {A B} (f : A -> B) l :
  (forall x y, In x l -> In y l -> f x = f y -> x = y) -> NoDup l -> NoDup (map f l).
Proof.
  intros Hf. induction 1 as [|x l Hx HN IH]; simpl; constructor.
  - rewrite in_map_iff. intros [y [E Hy]].
    apply Hx. rewrite <- (Hf y x); auto; [right; auto | left; auto].
  - apply IH. intros; apply Hf; auto; right; auto.
Qed.

Lemma fermat p a : prime p -> ~ (p | a) -> eqm p (a ^ (p - 1)) 1.
Proof.
  intros Hp Ha. pose proof (prime_ge_2 p Hp) as Hp2.
  assert (Ra : rel_prime a p).
  { apply rel_prime_sym. apply prime_rel_prime; auto. }
  set (l := residues p).
  set (l' := map (fun x => (a * x) mod p) l).
  assert (Hincl : incl l' l).
  { intros y Hy. unfold l' in Hy. apply in_map_iff in Hy. destruct Hy as [x [<- Hx]].
    apply residues_In in Hx. apply residues_In.
    assert (Hne : (a * x) mod p <> 0).
    { intros E. apply Z.mod_divide in E; [|lia].
      apply prime_mult in E; auto. destruct E as [E|E]; [auto|].
      apply Z.divide_pos_le in E; lia. }
    pose proof (Z.mod_pos_bound (a * x) p ltac:(lia)). lia. }
  assert (HN : NoDup l').
  { apply NoDup_map_inj; [|apply residues_NoDup].
    intros x y Hx Hy E. apply residues_In in Hx, Hy.
    apply (eqm_small p); try lia. apply eqm_cancel with a; auto; lia. }
  assert (HP : Permutation l' l).
  { apply NoDup_Permutation_bis; auto. unfold l'. rewrite map_length. auto. }
  pose proof (lprod_perm _ _ HP) as E.
  pose proof (lprod_map_mul p a l) as E2. fold l' in E2. rewrite E in E2.
  unfold l in E2 at 2. rewrite residues_length in E2 by lia.
  apply eqm_cancel with (lprod l); [lia| |].
  - apply lprod_rel_prime; auto. intros x Hx. apply residues_In in Hx. auto.
  - rewrite Z.mul_1_r, Z.mul_comm. symmetry. auto.
Qed.

Lemma fermat_inv p a : prime p -> 0 < a < p -> eqm p (a * a ^ (p - 2)) 1.
Proof.
  intros Hp Ha. pose proof (prime_ge_2 p Hp).
  rewrite <- Z.pow_succ_r by lia. replace (Z.succ (p - 2)) with (p - 1) by lia.
  apply fermat; auto. intros D. apply Z.divide_pos_le in D; lia.
Qed.

(** No zero divisors. *)
Lemma prime_mul_zero p a b : prime p -> eqm p (a * b) 0 -> eqm p a 0 \/ eqm p b 0.
Proof.
  intros Hp H. pose proof (prime_ge_2 p Hp).
  apply eqm_divide in H; [|lia]. rewrite Z.sub_0_r in H.
  apply prime_mult in H; auto.
  destruct H; [left|right]; apply eqm_divide; try lia; rewrite Z.sub_0_r; auto.
Qed.
