(** Z[X]/(X^n+1) on coefficient functions as a setoid ring, so that [ring]
    decides identities between products. *)
From Coq Require Import Setoid Ring Morphisms.
From Verif Require Import PBase NT Spec PSum PRing MRq SpecRq SpecKsk.

Definition eqn (n : nat) (f g : nat -> Z) : Prop := forall j, (j < n)%nat -> f j = g j.
Definition r0 : nat -> Z := fun _ => 0.
Definition radd (f g : nat -> Z) : nat -> Z := fun j => f j + g j.
Definition rsub (f g : nat -> Z) : nat -> Z := fun j => f j - g j.
Definition ropp (f : nat -> Z) : nat -> Z := fun j => - f j.
Definition rconst (a : Z) : nat -> Z := fun j => if (j =? 0)%nat then a else 0.

#[global] Instance eqn_equiv n : Equivalence (eqn n).
Proof. split; [intros f j Hj|intros f g H j Hj|intros f g h H1 H2 j Hj]; auto. - symmetry; auto. - rewrite H1; auto. Qed.
#[global] Instance radd_proper n : Proper (eqn n ==> eqn n ==> eqn n) radd.
Proof. intros f f' Hf g g' Hg j Hj. unfold radd. rewrite Hf, Hg; auto. Qed.
#[global] Instance rsub_proper n : Proper (eqn n ==> eqn n ==> eqn n) rsub.
Proof. intros f f' Hf g g' Hg j Hj. unfold rsub. rewrite Hf, Hg; auto. Qed.
#[global] Instance ropp_proper n : Proper (eqn n ==> eqn n) ropp.
Proof. intros f f' Hf j Hj. unfold ropp. rewrite Hf; auto. Qed.
#[global] Instance rmul_proper n : Proper (eqn n ==> eqn n ==> eqn n) (rmul n).
Proof. intros f f' Hf g g' Hg j Hj. apply rmul_ext; auto. Qed.

Lemma rring n : (0 < n)%nat -> ring_theory r0 one radd (rmul n) rsub ropp (eqn n).
Proof.
  intros Hn. split; intros; intros j Hj; unfold radd, rsub, ropp, r0; try ring.
  - apply rmul_one_l; auto.
  - apply rmul_comm.
  - rewrite <- rmul_assoc by auto. reflexivity.
  - apply rmul_add_l.
Qed.
Lemma rring_ext n : ring_eq_ext radd (rmul n) ropp (eqn n).
Proof. split; [apply radd_proper|apply rmul_proper|apply ropp_proper]. Qed.

Lemma rconst_mul n a f : (0 < n)%nat -> eqn n (rmul n (rconst a) f) (fun j => a * f j).
Proof.
  intros Hn j Hj. rewrite (rmul_ext n (rconst a) (fun j => a * one j) f f); auto.
  - rewrite rmul_scal_l. rewrite rmul_one_l by auto. reflexivity.
  - intros i Hi. unfold rconst, one. destruct (i =? 0)%nat; ring.
Qed.

(** A product bounded by the l1 norm of one factor. *)
Lemma rmul_bound_l1 n f g B k : (0 < n)%nat -> (k < n)%nat -> 0 <= B -> (forall i, (i < n)%nat -> Z.abs (g i) <= B) ->
  Z.abs (rmul n f g k) <= l1norm n f * B.
Proof.
  intros Hn Hk HB Hg. unfold rmul, l1norm. rewrite <- sumn_mul_r. eapply Z.le_trans; [apply sumn_abs|]. apply sumn_le. intros i Hi.
  rewrite (sumn_ext _ _ (fun j => f i * (g j * mono n k (i + j)))) by (intros; ring).
  rewrite sumn_mul_l. destruct (mono_sum_r n Hn k i g Hk Hi) as [j [s [Hj [Hs E]]]]. rewrite E.
  rewrite !Z.abs_mul, Hs. specialize (Hg j Hj). pose proof (Z.abs_nonneg (f i)). pose proof (Z.abs_nonneg (g j)).
  replace (Z.abs (f i) * (1 * Z.abs (g j))) with (Z.abs (f i) * Z.abs (g j)) by ring. apply Z.mul_le_mono_nonneg_l; auto.
Qed.
Lemma l1_nonneg n f : 0 <= l1norm n f.
Proof. apply sumn_nonneg. intros. apply Z.abs_nonneg. Qed.
