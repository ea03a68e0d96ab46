(** Lemmas about the execution model. *)
From Coq Require Export Lia ZifyBool ZifyNat ZifyN Znumtheory.
From Verif Require Export Base.
#[export] Unset Lia Cache.
#[export] Unset Nia Cache.
(** [lia] with division and modulo. *)
Ltac dlia := zify; Z.div_mod_to_equations; lia.

Lemma bind_ok {A B} (a : A) (f : A -> outcome B) : bind (Ok a) f = f a.
Proof. reflexivity. Qed.

Lemma bind_inv {A B} (x : outcome A) (f : A -> outcome B) b :
  bind x f = Ok b -> exists a, x = Ok a /\ f a = Ok b.
Proof. destruct x; simpl; try discriminate. eauto. Qed.

(** Inversion of a successful run, step by step. *)
Ltac binv H :=
  match type of H with
  | bind _ _ = Ok _ =>
      let a := fresh "v" in let E := fresh "E" in
      apply bind_inv in H; destruct H as [a [E H]]; cbv beta in H
  end.

Lemma chk_ok pr w x : 0 <= x < w -> chk pr w x = Ok x.
Proof.
  intros H. unfold chk.
  destruct (0 <=? x) eqn:E1; destruct (x <? w) eqn:E2; simpl; auto; lia.
Qed.
Lemma add64_ok pr a b : 0 <= a + b < W64 -> add64 pr a b = Ok (a + b).
Proof. apply chk_ok. Qed.
Lemma sub64_ok pr a b : 0 <= a - b < W64 -> sub64 pr a b = Ok (a - b).
Proof. apply chk_ok. Qed.
Lemma mul64_ok pr a b : 0 <= a * b < W64 -> mul64 pr a b = Ok (a * b).
Proof. apply chk_ok. Qed.
Lemma add128_ok pr a b : 0 <= a + b < W128 -> add128 pr a b = Ok (a + b).
Proof. apply chk_ok. Qed.
Lemma sub128_ok pr a b : 0 <= a - b < W128 -> sub128 pr a b = Ok (a - b).
Proof. apply chk_ok. Qed.
Lemma mul128_ok pr a b : 0 <= a * b < W128 -> mul128 pr a b = Ok (a * b).
Proof. apply chk_ok. Qed.

Lemma dassert_true pr b : b = true -> dassert pr b = Ok tt.
Proof. intros ->. destruct pr; reflexivity. Qed.
Lemma rassert_true b : b = true -> rassert b = Ok tt.
Proof. intros ->. reflexivity. Qed.
Lemma rassert_inv b u : rassert b = Ok u -> b = true.
Proof. destruct b; simpl; congruence. Qed.

Lemma as64_small x : 0 <= x < W64 -> as64 x = x.
Proof. intros. unfold as64. apply Z.mod_small. lia. Qed.

Lemma shiftr_div a n : 0 <= n -> Z.shiftr a n = a / 2 ^ n.
Proof. apply Z.shiftr_div_pow2. Qed.
Lemma shiftr64 a : Z.shiftr a 64 = a / W64.
Proof. rewrite Z.shiftr_div_pow2 by lia. reflexivity. Qed.
Lemma shiftl64 a : Z.shiftl a 64 = a * W64.
Proof. rewrite Z.shiftl_mul_pow2 by lia. reflexivity. Qed.

Lemma udiv_ok a b : b <> 0 -> udiv a b = Ok (a / b).
Proof. intros. unfold udiv. destruct (b =? 0) eqn:E; auto; lia. Qed.
Lemma umod_ok a b : b <> 0 -> umod a b = Ok (a mod b).
Proof. intros. unfold umod. destruct (b =? 0) eqn:E; auto; lia. Qed.
Lemma to_u64_ok x : 0 <= x < W64 -> to_u64 x = Some x.
Proof. intros. unfold to_u64. replace ((0 <=? x) && (x <? W64)) with true; auto. lia. Qed.
Lemma to_u128_ok x : 0 <= x < W128 -> to_u128 x = Some x.
Proof. intros. unfold to_u128. replace ((0 <=? x) && (x <? W128)) with true; auto. lia. Qed.

(** Lists *)
Lemma mapM_ok {A B} (f : A -> outcome B) (g : A -> B) l :
  (forall x, In x l -> f x = Ok (g x)) -> mapM f l = Ok (map g l).
Proof.
  induction l as [|x l IH]; intros H; simpl; auto.
  rewrite H by (left; auto). simpl. rewrite IH by (intros; apply H; right; auto). reflexivity.
Qed.

Lemma mapM_length {A B} (f : A -> outcome B) l r : mapM f l = Ok r -> length r = length l.
Proof.
  revert r; induction l as [|x l IH]; simpl; intros r H.
  - injection H as <-. reflexivity.
  - binv H. binv H. injection H as <-. simpl. f_equal. eauto.
Qed.

Lemma mapM_nth {A B} (f : A -> outcome B) l r da db i :
  mapM f l = Ok r -> (i < length l)%nat -> f (nth i l da) = Ok (nth i r db).
Proof.
  revert r i; induction l as [|x l IH]; simpl; intros r i H Hi; [lia|].
  binv H. binv H. injection H as <-. destruct i; simpl; auto.
  apply IH; auto. lia.
Qed.

Lemma mapM_forall2 {A B} (f : A -> outcome B) l r :
  mapM f l = Ok r <-> Forall2 (fun x y => f x = Ok y) l r.
Proof.
  split.
  - revert r; induction l as [|x l IH]; simpl; intros r H.
    + injection H as <-. constructor.
    + binv H. binv H. injection H as <-. constructor; auto.
  - induction 1 as [|x y l r H HF IH]; simpl; auto. rewrite H. simpl. rewrite IH. reflexivity.
Qed.

(** Existence form of mapM success. *)
Lemma mapM_exists {A B} (f : A -> outcome B) (R : A -> B -> Prop) l :
  (forall x, In x l -> exists y, f x = Ok y /\ R x y) ->
  exists r, mapM f l = Ok r /\ Forall2 R l r.
Proof.
  induction l as [|x l IH]; intros H; simpl.
  - exists []. split; constructor.
  - destruct (H x) as [y [Hy Ry]]; [left; auto|].
    destruct IH as [r [Hr Fr]]; [intros; apply H; right; auto|].
    exists (y :: r). rewrite Hy. simpl. rewrite Hr. split; auto.
Qed.

Lemma zipM_upd_ok {A B} (f : A -> B -> outcome A) (g : A -> B -> A) a b :
  (forall x y, In (x, y) (combine a b) -> f x y = Ok (g x y)) ->
  length a = length b ->
  zipM_upd f a b = Ok (map (fun p => g (fst p) (snd p)) (combine a b)).
Proof.
  revert b; induction a as [|x a IH]; intros [|y b] H HL; simpl in *; try discriminate; auto.
  rewrite H by (left; auto). simpl. rewrite IH; auto.
Qed.

Lemma zipM_upd_forall2 {A B} (f : A -> B -> outcome A) a b r :
  length a = length b ->
  (zipM_upd f a b = Ok r <-> Forall2 (fun p y => f (fst p) (snd p) = Ok y) (combine a b) r).
Proof.
  revert b r; induction a as [|x a IH]; intros [|y b] r HL; simpl in *; try discriminate.
  - split; intros H; [injection H as <-; constructor | inversion H; auto].
  - injection HL as HL. split; intros H.
    + binv H. binv H. injection H as <-. constructor; auto. apply IH; auto.
    + inversion H as [|p z l r' Hf HF]; subst. simpl in Hf. rewrite Hf. simpl.
      apply IH in HF; auto. rewrite HF. reflexivity.
Qed.

Lemma zipM_upd_length {A B} (f : A -> B -> outcome A) a b r :
  zipM_upd f a b = Ok r -> length r = length a.
Proof.
  revert b r; induction a as [|x a IH]; intros [|y b] r H; simpl in *;
    try (injection H as <-; reflexivity).
  binv H. binv H. injection H as <-. simpl. f_equal. eauto.
Qed.

Lemma zipM_ok {A B C} (f : A -> B -> outcome C) (g : A -> B -> C) a b :
  (forall x y, In (x, y) (combine a b) -> f x y = Ok (g x y)) ->
  zipM f a b = Ok (map (fun p => g (fst p) (snd p)) (combine a b)).
Proof.
  revert b; induction a as [|x a IH]; intros [|y b] H; simpl in *; auto.
  rewrite H by (left; auto). simpl. rewrite IH; auto.
Qed.

Lemma get_ok {A} (l : list A) i d : (i < length l)%nat -> get l i = Ok (nth i l d).
Proof.
  intros H. unfold get. rewrite (nth_error_nth' l d H). reflexivity.
Qed.
Lemma getu_ok {A} (l : list A) i d : (i < length l)%nat -> getu l i = Ok (nth i l d).
Proof.
  intros H. unfold getu. rewrite (nth_error_nth' l d H). reflexivity.
Qed.
Lemma get_inv {A} (l : list A) i v : get l i = Ok v -> nth_error l i = Some v.
Proof. unfold get. destruct (nth_error l i); congruence. Qed.
Lemma get_inv_lt {A} (l : list A) i v : get l i = Ok v -> (i < length l)%nat.
Proof. intros H. apply get_inv in H. apply nth_error_Some. congruence. Qed.
Lemma get_inv_nth {A} (l : list A) i v d : get l i = Ok v -> nth i l d = v.
Proof. intros H. apply get_inv in H. apply nth_error_nth. auto. Qed.

Lemma upd_length {A} (l : list A) i v : length (upd l i v) = length l.
Proof. revert i; induction l; destruct i; simpl; auto. Qed.
Lemma upd_nth_same {A} (l : list A) i v d : (i < length l)%nat -> nth i (upd l i v) d = v.
Proof. revert i; induction l; destruct i; simpl; intros; try lia; auto. apply IHl. lia. Qed.
Lemma upd_nth_other {A} (l : list A) i j v d : i <> j -> nth j (upd l i v) d = nth j l d.
Proof.
  revert i j; induction l; destruct i, j; simpl; intros; try congruence; auto.
Qed.
Lemma set_ok {A} (l : list A) i v : (i < length l)%nat -> set l i v = Ok (upd l i v).
Proof. intros. unfold set. destruct (i <? length l)%nat eqn:E; auto; lia. Qed.
Lemma setu_ok {A} (l : list A) i v : (i < length l)%nat -> setu l i v = Ok (upd l i v).
Proof. intros. unfold setu. destruct (i <? length l)%nat eqn:E; auto; lia. Qed.

Lemma nth_ext' {A} (l l' : list A) d :
  length l = length l' -> (forall i, (i < length l)%nat -> nth i l d = nth i l' d) -> l = l'.
Proof. intros. apply (nth_ext l l' d d); auto. Qed.

Lemma zlist_eqb_eq a b : zlist_eqb a b = true <-> a = b.
Proof.
  revert b; induction a as [|x a IH]; intros [|y b]; simpl; split; intros H; try congruence; auto.
  - apply andb_true_iff in H. destruct H as [H1 H2].
    apply Z.eqb_eq in H1. apply IH in H2. congruence.
  - injection H as -> ->. apply andb_true_iff. split; [apply Z.eqb_refl | apply IH; auto].
Qed.

Lemma foldM_app {A B} (f : B -> A -> outcome B) l1 l2 b :
  foldM f (l1 ++ l2) b = (b' <- foldM f l1 b ;; foldM f l2 b').
Proof.
  revert b; induction l1 as [|x l1 IH]; simpl; intros b; auto.
  destruct (f b x); simpl; auto.
Qed.

(** Invariant rule for [foldM] over [seq]. *)
Lemma foldM_seq_inv {B} (f : B -> nat -> outcome B) (I : nat -> B -> Prop) s n b :
  I s b ->
  (forall i b, (s <= i < s + n)%nat -> I i b -> exists b', f b i = Ok b' /\ I (S i) b') ->
  exists b', foldM f (seq s n) b = Ok b' /\ I (s + n)%nat b'.
Proof.
  revert s b; induction n as [|n IH]; intros s b H0 HS; simpl.
  - exists b. rewrite Nat.add_0_r. auto.
  - destruct (HS s b) as [b1 [E1 I1]]; auto; [lia|].
    rewrite E1. simpl.
    destruct (IH (S s) b1) as [b2 [E2 I2]]; auto.
    + intros i b' Hi. apply HS. lia.
    + exists b2. split; auto. replace (s + S n)%nat with (S s + n)%nat by lia. auto.
Qed.

Lemma nth_map_seq {A} (f : nat -> A) n i d : (i < n)%nat -> nth i (map f (seq 0 n)) d = f i.
Proof.
  intros H. rewrite nth_indep with (d' := f 0%nat) by (rewrite map_length, seq_length; auto).
  rewrite map_nth. rewrite seq_nth by auto. reflexivity.
Qed.
