(** Algebra of Z[X]/(X^n+1) on coefficient functions. *)
From Coq Require Import Zpow_facts.
From Verif Require Import PBase NT Spec PSum PNttMath.

Definition sgn (d : nat) : Z := if Nat.even d then 1 else -1.
Lemma sgn_add a b : sgn (a + b) = sgn a * sgn b.
Proof. unfold sgn. rewrite Nat.even_add. destruct (Nat.even a), (Nat.even b); reflexivity. Qed.
Lemma sgn_odd a e : Nat.odd e = true -> sgn (a * e) = sgn a.
Proof.
  intros H. unfold sgn. rewrite Nat.even_mul. rewrite <- Nat.negb_odd in *. rewrite <- (Nat.negb_odd e). rewrite H.
  cbn [negb]. rewrite orb_false_r. reflexivity.
Qed.
Lemma sgn_abs d : Z.abs (sgn d) = 1.
Proof. unfold sgn. destruct (Nat.even d); reflexivity. Qed.

Section N.
Variable n : nat.
Hypothesis Hn : (0 < n)%nat.

Lemma mono_eq k a : mono n k a = if (a mod n =? k)%nat then sgn (a / n) else 0.
Proof. reflexivity. Qed.
Lemma mono_shift k a d : mono n k (a + d * n) = sgn d * mono n k a.
Proof.
  rewrite !mono_eq. rewrite Nat.mod_add, Nat.div_add by lia. rewrite sgn_add. destruct (a mod n =? k)%nat; ring.
Qed.
Lemma mono_small' k a : (a < n)%nat -> mono n k a = if (a =? k)%nat then 1 else 0.
Proof. intros H. rewrite mono_eq, Nat.mod_small, Nat.div_small by auto. reflexivity. Qed.

(** sum_j [X^a]_j * F j = sgn(a/n) * F (a mod n) *)
Lemma mono_sum a (F : nat -> Z) : sumn n (fun j => mono n j a * F j) = sgn (a / n) * F (a mod n)%nat.
Proof.
  assert ((a mod n < n)%nat) by (apply Nat.mod_upper_bound; lia).
  rewrite (sumn_single n (a mod n)%nat); auto.
  - rewrite mono_eq, Nat.eqb_refl. reflexivity.
  - intros i Hi Hne. rewrite mono_eq. destruct (Nat.eqb_spec (a mod n) i); [congruence|]. ring.
Qed.
Lemma mono_add k a b : sumn n (fun j => mono n j a * mono n k (j + b)) = mono n k (a + b).
Proof.
  rewrite mono_sum. rewrite <- mono_shift. f_equal. pose proof (Nat.div_mod a n ltac:(lia)). nia.
Qed.
Lemma mono_mul k a e : Nat.odd e = true -> sumn n (fun j => mono n j a * mono n k (j * e)) = mono n k (a * e).
Proof.
  intros He. rewrite mono_sum. rewrite <- (sgn_odd _ e) by auto. rewrite <- mono_shift. f_equal.
  pose proof (Nat.div_mod a n ltac:(lia)). nia.
Qed.

(** ** Ring laws *)
Lemma rmul_ext f f' g g' k : (forall i, (i < n)%nat -> f i = f' i) -> (forall i, (i < n)%nat -> g i = g' i) ->
  rmul n f g k = rmul n f' g' k.
Proof. intros H H'. apply sumn_ext. intros i Hi. apply sumn_ext. intros j Hj. rewrite H, H' by auto. reflexivity. Qed.
Lemma rmul_eqm p f f' g g' k : (forall i, (i < n)%nat -> eqm p (f i) (f' i)) -> (forall i, (i < n)%nat -> eqm p (g i) (g' i)) ->
  eqm p (rmul n f g k) (rmul n f' g' k).
Proof. intros H H'. apply sumn_eqm. intros i Hi. apply sumn_eqm. intros j Hj. rewrite (H i Hi), (H' j Hj). reflexivity. Qed.
Lemma rmul_comm f g k : rmul n f g k = rmul n g f k.
Proof.
  unfold rmul. rewrite sumn_swap. apply sumn_ext. intros i Hi. apply sumn_ext. intros j Hj.
  rewrite (Nat.add_comm i j). ring.
Qed.
Lemma rmul_add_l f g h k : rmul n (fun j => f j + g j) h k = rmul n f h k + rmul n g h k.
Proof.
  unfold rmul. rewrite <- sumn_add. apply sumn_ext. intros i Hi. rewrite <- sumn_add. apply sumn_ext. intros j Hj. ring.
Qed.
Lemma rmul_add_r f g h k : rmul n f (fun j => g j + h j) k = rmul n f g k + rmul n f h k.
Proof. rewrite rmul_comm, rmul_add_l, (rmul_comm g), (rmul_comm h). reflexivity. Qed.
Lemma rmul_scal_l a f g k : rmul n (fun j => a * f j) g k = a * rmul n f g k.
Proof.
  unfold rmul. rewrite <- sumn_mul_l. apply sumn_ext. intros i Hi. rewrite <- sumn_mul_l. apply sumn_ext. intros j Hj. ring.
Qed.
Lemma rmul_scal_r a f g k : rmul n f (fun j => a * g j) k = a * rmul n f g k.
Proof. rewrite rmul_comm, rmul_scal_l, rmul_comm. reflexivity. Qed.
Lemma rmul_opp_l f g k : rmul n (fun j => - f j) g k = - rmul n f g k.
Proof. rewrite (rmul_ext _ (fun j => (-1) * f j) _ g) by (intros; ring). rewrite rmul_scal_l. ring. Qed.
Lemma rmul_opp_r f g k : rmul n f (fun j => - g j) k = - rmul n f g k.
Proof. rewrite rmul_comm, rmul_opp_l, rmul_comm. reflexivity. Qed.
Lemma rmul_sub_l f g h k : rmul n (fun j => f j - g j) h k = rmul n f h k - rmul n g h k.
Proof.
  rewrite (rmul_ext _ (fun j => f j + - g j) _ h) by (intros; ring). rewrite rmul_add_l, rmul_opp_l. ring.
Qed.
Lemma rmul_sub_r f g h k : rmul n f (fun j => g j - h j) k = rmul n f g k - rmul n f h k.
Proof. rewrite rmul_comm, rmul_sub_l, (rmul_comm g), (rmul_comm h). reflexivity. Qed.
Lemma rmul_0_l g k : rmul n (fun _ => 0) g k = 0.
Proof. unfold rmul. apply sumn_0. intros. apply sumn_0. intros. ring. Qed.
Lemma rmul_0_r g k : rmul n g (fun _ => 0) k = 0.
Proof. rewrite rmul_comm. apply rmul_0_l. Qed.
Lemma rmul_sum_l N (F : nat -> nat -> Z) g k :
  rmul n (fun j => sumn N (fun u => F u j)) g k = sumn N (fun u => rmul n (F u) g k).
Proof.
  induction N as [|N IH]; cbn [sumn]; [apply rmul_0_l|]. rewrite rmul_add_l, IH. reflexivity.
Qed.
Lemma rmul_sum_r N (F : nat -> nat -> Z) g k :
  rmul n g (fun j => sumn N (fun u => F u j)) k = sumn N (fun u => rmul n g (F u) k).
Proof. rewrite rmul_comm, rmul_sum_l. apply sumn_ext. intros. apply rmul_comm. Qed.

(** Both sides of associativity are the triple sum over X^(a+b+c). *)
Lemma rmul_assoc_l f g h k :
  rmul n (rmul n f g) h k = sumn n (fun a => sumn n (fun b => sumn n (fun c => f a * g b * h c * mono n k (a + b + c)))).
Proof.
  unfold rmul at 1.
  transitivity (sumn n (fun i => sumn n (fun a => sumn n (fun b => sumn n (fun c =>
     f a * g b * h c * (mono n i (a + b) * mono n k (i + c))))))).
  { apply sumn_ext. intros i Hi. unfold rmul. rewrite sumn_swap.
    transitivity (sumn n (fun j => sumn n (fun a => sumn n (fun b => f a * g b * mono n i (a + b) * h j * mono n k (i + j))))).
    - rewrite sumn_swap. apply sumn_ext. intros j Hj. rewrite <- !sumn_mul_r. apply sumn_ext. intros a Ha.
      rewrite <- !sumn_mul_r. reflexivity.
    - rewrite sumn_swap. apply sumn_ext. intros a Ha. rewrite sumn_swap. apply sumn_ext. intros b Hb. apply sumn_ext.
      intros c Hc. ring. }
  rewrite sumn_swap. apply sumn_ext. intros a Ha. rewrite sumn_swap. apply sumn_ext. intros b Hb.
  rewrite sumn_swap. apply sumn_ext. intros c Hc. rewrite sumn_mul_l. rewrite mono_add. reflexivity.
Qed.
Lemma rmul_assoc f g h k : rmul n (rmul n f g) h k = rmul n f (rmul n g h) k.
Proof.
  rewrite rmul_assoc_l. rewrite (rmul_comm f). rewrite rmul_assoc_l.
  symmetry.
  rewrite (sumn_ext _ _ (fun a => sumn n (fun c => sumn n (fun b => g a * h b * f c * mono n k (a + b + c))))) by
    (intros a Ha; apply sumn_swap).
  rewrite sumn_swap. apply sumn_ext. intros a Ha. apply sumn_ext. intros b Hb. apply sumn_ext. intros c Hc.
  replace (b + c + a)%nat with (a + b + c)%nat by lia. ring.
Qed.

Definition one (j : nat) : Z := if (j =? 0)%nat then 1 else 0.
Lemma rmul_one_r f k : (k < n)%nat -> rmul n f one k = f k.
Proof.
  intros Hk. unfold rmul. rewrite (sumn_single n k); auto.
  - rewrite (sumn_single n 0); try lia.
    + rewrite Nat.add_0_r, mono_small' by auto. rewrite Nat.eqb_refl. unfold one. simpl. ring.
    + intros j Hj Hne. unfold one. destruct j; [lia|]. simpl. ring.
  - intros i Hi Hne. rewrite (sumn_single n 0); try lia.
    + rewrite Nat.add_0_r, mono_small' by auto. apply Nat.eqb_neq in Hne. rewrite Hne. ring.
    + intros j Hj Hne'. unfold one. destruct j; [lia|]. simpl. ring.
Qed.
Lemma rmul_one_l f k : (k < n)%nat -> rmul n one f k = f k.
Proof. intros Hk. rewrite rmul_comm. apply rmul_one_r; auto. Qed.

(** ** Size of a product *)
Lemma mono_sum_r k i (g : nat -> Z) : (k < n)%nat -> (i < n)%nat ->
  exists j s, (j < n)%nat /\ Z.abs s = 1 /\ sumn n (fun j => g j * mono n k (i + j)) = s * g j.
Proof.
  intros Hk Hi. set (j0 := if (i <=? k)%nat then (k - i)%nat else (k + n - i)%nat).
  assert (Hj : (j0 < n)%nat) by (unfold j0; destruct (Nat.leb_spec i k); lia).
  assert (M : forall j, (j < n)%nat -> ((i + j) mod n = k)%nat -> j = j0).
  { intros j Hjn E. unfold j0. destruct (lt_dec (i + j) n).
    - rewrite Nat.mod_small in E by auto. destruct (Nat.leb_spec i k); lia.
    - replace (i + j)%nat with ((i + j - n) + 1 * n)%nat in E by lia. rewrite Nat.mod_add in E by lia.
      rewrite Nat.mod_small in E by lia. destruct (Nat.leb_spec i k); lia. }
  exists j0, (mono n k (i + j0)). split; auto. split.
  - rewrite mono_eq. replace ((i + j0) mod n =? k)%nat with true; [apply sgn_abs|]. symmetry. apply Nat.eqb_eq.
    unfold j0. destruct (Nat.leb_spec i k).
    + replace (i + (k - i))%nat with k by lia. apply Nat.mod_small. auto.
    + replace (i + (k + n - i))%nat with (k + 1 * n)%nat by lia. rewrite Nat.mod_add by lia. apply Nat.mod_small. auto.
  - rewrite (sumn_single n j0); auto; [ring|]. intros j Hjn Hne. rewrite mono_eq.
    destruct (Nat.eqb_spec ((i + j) mod n) k) as [E|E]; [|ring]. exfalso. apply Hne. auto.
Qed.
Lemma rmul_bound f g A B k : (k < n)%nat -> 0 <= A ->
  (forall i, (i < n)%nat -> Z.abs (f i) <= A) -> (forall i, (i < n)%nat -> Z.abs (g i) <= B) ->
  Z.abs (rmul n f g k) <= Z.of_nat n * (A * B).
Proof.
  intros Hk HA Hf Hg. unfold rmul. apply sumn_abs_le. intros i Hi.
  rewrite (sumn_ext _ _ (fun j => f i * (g j * mono n k (i + j)))) by (intros; ring).
  rewrite sumn_mul_l. destruct (mono_sum_r k i g Hk Hi) as [j [s [Hj [Hs E]]]]. rewrite E.
  rewrite !Z.abs_mul, Hs. specialize (Hf i Hi). specialize (Hg j Hj). pose proof (Z.abs_nonneg (f i)). pose proof (Z.abs_nonneg (g j)).
  replace (Z.abs (f i) * (1 * Z.abs (g j))) with (Z.abs (f i) * Z.abs (g j)) by ring.
  apply Z.mul_le_mono_nonneg; auto.
Qed.

(** ** Substitution *)
Lemma rsubst_ext e f g k : (forall i, (i < n)%nat -> f i = g i) -> rsubst n e f k = rsubst n e g k.
Proof. intros H. apply sumn_ext. intros i Hi. rewrite H by auto. reflexivity. Qed.
Lemma rsubst_eqm p e f g k : (forall i, (i < n)%nat -> eqm p (f i) (g i)) -> eqm p (rsubst n e f k) (rsubst n e g k).
Proof. intros H. apply sumn_eqm. intros i Hi. rewrite (H i Hi). reflexivity. Qed.
Lemma rsubst_add e f g k : rsubst n e (fun j => f j + g j) k = rsubst n e f k + rsubst n e g k.
Proof. unfold rsubst. rewrite <- sumn_add. apply sumn_ext. intros. ring. Qed.
Lemma rsubst_sub e f g k : rsubst n e (fun j => f j - g j) k = rsubst n e f k - rsubst n e g k.
Proof. unfold rsubst. rewrite <- sumn_sub. apply sumn_ext. intros. ring. Qed.
Lemma rsubst_opp e f k : rsubst n e (fun j => - f j) k = - rsubst n e f k.
Proof. unfold rsubst. rewrite <- sumn_opp. apply sumn_ext. intros. ring. Qed.
Lemma rsubst_scal e a f k : rsubst n e (fun j => a * f j) k = a * rsubst n e f k.
Proof. unfold rsubst. rewrite <- sumn_mul_l. apply sumn_ext. intros. ring. Qed.
Lemma rsubst_1 f k : (k < n)%nat -> rsubst n 1 f k = f k.
Proof.
  intros Hk. unfold rsubst. rewrite (sumn_single n k); auto.
  - rewrite Nat.mul_1_r, mono_small', Nat.eqb_refl by auto. ring.
  - intros i Hi Hne. rewrite Nat.mul_1_r, mono_small' by auto. apply Nat.eqb_neq in Hne. rewrite Hne. ring.
Qed.
Lemma rsubst_mod e e' f k : (e mod (2 * n) = e' mod (2 * n))%nat -> rsubst n e f k = rsubst n e' f k.
Proof.
  intros E.
  assert (G : forall e, rsubst n e f k = rsubst n (e mod (2 * n)) f k).
  { intros x. apply sumn_ext. intros i Hi. f_equal.
    rewrite (Nat.div_mod x (2 * n)) at 1 by lia.
    replace (i * (2 * n * (x / (2 * n)) + x mod (2 * n)))%nat with (i * (x mod (2 * n)) + (2 * (i * (x / (2 * n)))) * n)%nat
      by (generalize (x / (2 * n))%nat (x mod (2 * n))%nat; intros; nia).
    rewrite mono_shift. unfold sgn. rewrite Nat.even_mul. cbn [Nat.even orb]. ring. }
  rewrite (G e), (G e'), E. reflexivity.
Qed.
Lemma rsubst_comp e e' f k : Nat.odd e = true -> rsubst n e (rsubst n e' f) k = rsubst n (e' * e) f k.
Proof.
  intros He. unfold rsubst.
  transitivity (sumn n (fun i => sumn n (fun a => f a * (mono n i (a * e') * mono n k (i * e))))).
  { apply sumn_ext. intros i Hi. rewrite <- sumn_mul_r. apply sumn_ext. intros. ring. }
  rewrite sumn_swap. apply sumn_ext. intros a Ha. rewrite sumn_mul_l. rewrite mono_mul by auto. rewrite Nat.mul_assoc. reflexivity.
Qed.
Lemma rsubst_rmul e f g k : Nat.odd e = true ->
  rsubst n e (rmul n f g) k = rmul n (rsubst n e f) (rsubst n e g) k.
Proof.
  intros He.
  transitivity (sumn n (fun a => sumn n (fun b => f a * g b * mono n k (a * e + b * e)))).
  - unfold rsubst, rmul.
    transitivity (sumn n (fun i => sumn n (fun a => sumn n (fun b => f a * g b * (mono n i (a + b) * mono n k (i * e)))))).
    { apply sumn_ext. intros i Hi. rewrite <- sumn_mul_r. apply sumn_ext. intros a Ha. rewrite <- sumn_mul_r.
      apply sumn_ext. intros. ring. }
    rewrite sumn_swap. apply sumn_ext. intros a Ha. rewrite sumn_swap. apply sumn_ext. intros b Hb.
    rewrite sumn_mul_l, mono_mul by auto. rewrite Nat.mul_add_distr_r. reflexivity.
  - unfold rmul, rsubst. symmetry.
    transitivity (sumn n (fun i => sumn n (fun j => sumn n (fun a => sumn n (fun b =>
       f a * g b * (mono n i (a * e) * (mono n j (b * e) * mono n k (i + j)))))))).
    { apply sumn_ext. intros i Hi. apply sumn_ext. intros j Hj. rewrite <- !sumn_mul_r. apply sumn_ext. intros a Ha.
      rewrite <- sumn_mul_l, <- sumn_mul_r. apply sumn_ext. intros b Hb. ring. }
    rewrite (sumn_ext _ _ (fun i => sumn n (fun a => sumn n (fun b => sumn n (fun j =>
       f a * g b * (mono n i (a * e) * (mono n j (b * e) * mono n k (i + j)))))))).
    2:{ intros i Hi. rewrite sumn_swap. apply sumn_ext. intros a Ha. apply sumn_swap. }
    rewrite sumn_swap. apply sumn_ext. intros a Ha. rewrite sumn_swap. apply sumn_ext. intros b Hb.
    rewrite (sumn_ext _ _ (fun i => f a * g b * (mono n i (a * e) * mono n k (i + b * e)))).
    2:{ intros i Hi. rewrite sumn_mul_l, sumn_mul_l. f_equal. f_equal. rewrite (Nat.add_comm i (b * e)). rewrite <- mono_add.
        apply sumn_ext. intros j Hj. rewrite (Nat.add_comm i j). reflexivity. }
    rewrite sumn_mul_l, mono_add. reflexivity.
Qed.
End N.

Lemma odd_mul_inj L e i j : Nat.odd e = true -> (i < 2 ^ L)%nat -> (j < 2 ^ L)%nat ->
  ((i * e) mod 2 ^ L = (j * e) mod 2 ^ L)%nat -> i = j.
Proof.
  intros He Hi Hj E. destruct L as [|L]; [simpl in *; lia|]. pose proof (pow2_pos L) as Hp. pose proof (pow2_S L) as HS.
  apply Nat2Z.inj. apply eqm_small with (Z.of_nat (2 ^ S L)); try lia.
  apply eqm_cancel with (Z.of_nat e); [lia| |].
  - rewrite pow2_Z. apply Zpow_facts.rel_prime_Zpower_r; [lia|]. apply rel_prime_sym.
    apply prime_rel_prime; [apply prime_2|]. intros [u C]. apply Nat.odd_spec in He. destruct He as [v He]. lia.
  - unfold eqm. rewrite <- !Nat2Z.inj_mul, <- !Nat2Z.inj_mod. rewrite !(Nat.mul_comm e). rewrite E. reflexivity.
Qed.

Lemma rsubst_bound L e f B k : Nat.odd e = true -> 0 <= B -> (forall i, (i < 2 ^ L)%nat -> Z.abs (f i) <= B) ->
  Z.abs (rsubst (2 ^ L) e f k) <= B.
Proof.
  intros He HB Hf. unfold rsubst.
  destruct (find (fun i => ((i * e) mod 2 ^ L =? k)%nat) (seq 0 (2 ^ L))) as [i|] eqn:F.
  - apply find_some in F. destruct F as [Hi E]. apply in_seq in Hi. apply Nat.eqb_eq in E.
    rewrite (sumn_single _ i); try lia.
    + rewrite mono_eq, E, Nat.eqb_refl, Z.abs_mul, sgn_abs. specialize (Hf i ltac:(lia)). lia.
    + intros j Hj Hne. rewrite mono_eq. destruct (Nat.eqb_spec ((j * e) mod 2 ^ L) k) as [E'|]; [|ring].
      exfalso. apply Hne. apply odd_mul_inj with L e; auto; try lia.
  - rewrite sumn_0; [lia|]. intros i Hi. pose proof (find_none _ _ F i ltac:(apply in_seq; lia)) as E. cbv beta in E.
    rewrite mono_eq, E. ring.
Qed.
