(** Products of ciphertexts of any numbers of components: the noise analysis over Z[X]/(X^n+1). *)
From Coq Require Import Setoid Ring.
From Verif Require Import PBase NT Spec PSum MRq SpecRq PRing PRingT SpecBfv SpecKsk PMul SpecFix.

(** Entry k of the product of two polynomials with coefficients [F], [G]. *)
Definition conv_at (n : nat) (m lb : nat) (pp : nat -> nat -> nat -> Z) (k j : nat) : Z :=
  sumn m (fun a => if ((a <=? k) && (k <? a + lb))%nat then pp a (k - a)%nat j else 0).

Section Phase.
Variable n : nat.
Hypothesis Hn : (0 < n)%nat.
Variable s : nat -> Z.
Add Ring rr2 : (rring n Hn) (setoid (eqn_equiv n) (rring_ext n)).
Declare Scope R_scope.
Delimit Scope R_scope with R.
Notation "a == b" := (eqn n a b) (at level 70).
Notation "a * b" := (rmul n a b) : R_scope.
Notation "a + b" := (radd a b) : R_scope.

Fixpoint rpow (k : nat) : nat -> Z :=
  match k with O => one | S k' => rmul n s (rpow k') end.

Lemma phase_cons f l : phase n s (f :: l) == (f + s * phase n s l)%R.
Proof. intros j Hj. reflexivity. Qed.
Lemma phase_nil : phase n s [] == r0.
Proof. intros j Hj. reflexivity. Qed.
Lemma phase_app l l' : phase n s (l ++ l') == (phase n s l + rpow (length l) * phase n s l')%R.
Proof.
  induction l as [|f l IH]; cbn [app length rpow].
  - rewrite phase_nil. ring.
  - rewrite !phase_cons, IH. ring.
Qed.
Lemma phase_ext (F G : nat -> nat -> Z) l : (forall k, In k l -> F k == G k) -> phase n s (map F l) == phase n s (map G l).
Proof.
  induction l as [|k l IH]; intros H; cbn [map]; [reflexivity|]. rewrite !phase_cons, (H k) by (left; auto). rewrite IH; [reflexivity|].
  intros; apply H; right; auto.
Qed.
Lemma phase_zero (F : nat -> nat -> Z) l : (forall k, In k l -> F k == r0) -> phase n s (map F l) == r0.
Proof.
  induction l as [|k l IH]; intros H; cbn [map]; [reflexivity|]. rewrite phase_cons, (H k) by (left; auto). rewrite IH; [ring|].
  intros; apply H; right; auto.
Qed.
Lemma phase_plus (F G : nat -> nat -> Z) l : phase n s (map (fun k => (F k + G k)%R) l) == (phase n s (map F l) + phase n s (map G l))%R.
Proof. induction l as [|k l IH]; cbn [map]; [rewrite phase_nil; ring|]. rewrite !phase_cons, IH. ring. Qed.
Lemma phase_scale f (G : nat -> nat -> Z) l : phase n s (map (fun k => (f * G k)%R) l) == (f * phase n s (map G l))%R.
Proof. induction l as [|k l IH]; cbn [map]; [rewrite phase_nil; ring|]. rewrite !phase_cons, IH. ring. Qed.

Lemma map_seq_shift {A} (e : nat -> A) a lb : map (fun k => e (k - a)%nat) (seq a lb) = map e (seq 0 lb).
Proof.
  replace (seq a lb) with (map (fun k => (a + k)%nat) (seq 0 lb)).
  - rewrite map_map. apply map_ext. intros k. f_equal. lia.
  - clear. revert a. induction lb as [|lb IH]; intros a; [reflexivity|]. cbn [seq map]. f_equal; [lia|].
    rewrite <- (IH (S a)). rewrite <- seq_shift, map_map. apply map_ext. intros; lia.
Qed.

Lemma phase_row a lb N (e : nat -> nat -> Z) : (a + lb <= N)%nat ->
  phase n s (map (fun k => if ((a <=? k) && (k <? a + lb))%nat then e (k - a)%nat else r0) (seq 0 N))
  == (rpow a * phase n s (map e (seq 0 lb)))%R.
Proof.
  intros H. replace N with (a + (lb + (N - a - lb)))%nat by lia. rewrite !seq_app, !map_app, !phase_app, !map_length, !seq_length.
  rewrite (phase_zero _ (seq 0 a)). 2:{ intros k Hk. apply in_seq in Hk. destruct (Nat.leb_spec a k); [lia|reflexivity]. }
  rewrite (phase_zero _ (seq (0 + a + lb) (N - a - lb))).
  2:{ intros k Hk. apply in_seq in Hk. destruct (Nat.leb_spec a k); destruct (Nat.ltb_spec k (a + lb)); cbn [andb]; try lia; reflexivity. }
  rewrite (phase_ext _ (fun k => e (k - a)%nat) (seq (0 + a) lb)).
  2:{ intros k Hk. apply in_seq in Hk. destruct (Nat.leb_spec a k); destruct (Nat.ltb_spec k (a + lb)); cbn [andb]; try lia; reflexivity. }
  rewrite map_seq_shift. cbn [plus]. ring.
Qed.

Lemma phase_conv (F G : nat -> nat -> Z) m lb N : (m + lb <= N + 1)%nat ->
  phase n s (map (conv_at n m lb (fun a b => rmul n (F a) (G b))) (seq 0 N)) == (phase n s (map F (seq 0 m)) * phase n s (map G (seq 0 lb)))%R.
Proof.
  intros H. induction m as [|m IH].
  - cbn [seq map]. rewrite phase_nil, phase_zero; [ring|]. intros k _ j _. reflexivity.
  - specialize (IH ltac:(lia)). rewrite seq_S, map_app, phase_app, map_length, seq_length. cbn [plus map]. rewrite phase_cons, phase_nil.
    transitivity (phase n s (map (fun k => radd (conv_at n m lb (fun a b => rmul n (F a) (G b)) k)
        (if ((m <=? k) && (k <? m + lb))%nat then rmul n (F m) (G (k - m)%nat) else r0)) (seq 0 N))).
    { apply phase_ext. intros k _ j _. unfold conv_at, radd. cbn [sumn]. destruct ((m <=? k) && (k <? m + lb))%nat; reflexivity. }
    rewrite phase_plus, IH, (phase_row m lb N (fun b => rmul n (F m) (G b))) by lia. rewrite phase_scale. ring.
Qed.

Lemma phase_nth (l : list (nat -> Z)) d : map (fun k => nth k l d) (seq 0 (length l)) = l.
Proof.
  apply (nth_ext _ _ d d); rewrite map_length, seq_length; auto. intros k Hk. rewrite nth_map_seq by auto. reflexivity.
Qed.
End Phase.

Lemma conv_bound n m lb pp k j X : 0 <= X -> (forall a b, 9 * Z.abs (pp a b j) <= X) -> 9 * Z.abs (conv_at n m lb pp k j) <= Z.of_nat m * X.
Proof.
  intros HX H. unfold conv_at. induction m as [|m IH]; [cbn [sumn]; rewrite Z.mul_0_l; cbn; lia|]. cbn [sumn].
  match goal with |- context [Z.abs (?u + ?v)] => pose proof (Z.abs_triangle u v); set (y := v) in *; set (x := u) in * end.
  assert (9 * Z.abs y <= X). { unfold y. destruct ((m <=? k) && (k <? m + lb))%nat; [apply H|]. change (Z.abs 0) with 0. lia. }
  rewrite Nat2Z.inj_succ. lia.
Qed.

Local Notation big := 18014398509481984. (* 2^54 *)

Section Bound.
Variable n : nat.
Hypothesis Hn : (0 < n)%nat.
Variables (Q t S B : Z) (s : nat -> Z).
Hypothesis HQ : 1 <= Q.
Hypothesis Ht : 1 <= t.
Hypothesis HS : l1norm n s <= S.
Hypothesis HB : 0 <= B <= Q.

Lemma powsum_nonneg k : 0 <= powsum S k.
Proof. pose proof (l1_S n Hn S s HS) as H. induction k as [|k IH]; cbn [powsum]; [lia|]. pose proof (Z.mul_nonneg_nonneg _ _ H IH). lia. Qed.

Lemma phase_bound_q l a b j : (j < n)%nat -> 0 < b -> 0 <= a -> (forall f, In f l -> forall i, (i < n)%nat -> b * Z.abs (f i) <= a) ->
  b * Z.abs (phase n s l j) <= powsum S (length l) * a.
Proof.
  intros Hj Hb Ha. revert j Hj. induction l as [|f l IH]; intros j Hj H; cbn [phase length powsum].
  - change (Z.abs 0) with 0. lia.
  - pose proof (H f ltac:(left; auto) j Hj) as H1.
    pose proof (s_bound_q n Hn S s HS (phase n s l) (powsum S (length l) * a) b j Hj Hb
      ltac:(apply Z.mul_nonneg_nonneg; [apply powsum_nonneg|exact Ha]) ltac:(intros; apply IH; auto; intros; apply H; auto; right; auto)) as H2.
    pose proof (Z.abs_triangle (f j) (rmul n s (phase n s l) j)). rewrite Z.mul_assoc in H2.
    apply Z.le_trans with (b * (Z.abs (f j) + Z.abs (rmul n s (phase n s l) j))); [apply Z.mul_le_mono_nonneg_l; lia|].
    rewrite !Z.mul_add_distr_r, Z.mul_add_distr_l. lia.
Qed.

Lemma lift_mult_gen F m E K a : (forall j, (j < n)%nat -> 4 * big * Z.abs (F j) <= a * ((2 * big + 1) * Q)) -> 0 <= a < 2 * big ->
  (forall j, (j < n)%nat -> 0 <= m j < t) -> (forall j, (j < n)%nat -> Z.abs (E j) <= B) ->
  (forall j, (j < n)%nat -> t * F j = Q * m j + E j + t * Q * K j) ->
  forall j, (j < n)%nat -> 2 * Z.abs (K j) <= a + 2.
Proof.
  intros HF Ha Hm HE HK j Hj. specialize (HK j Hj). specialize (Hm j Hj). specialize (HE j Hj). specialize (HF j Hj).
  set (p := F j) in *. assert (HtQ : 0 < t * Q) by (apply Z.mul_pos_pos; lia).
  assert (BK : t * Q * Z.abs (K j) <= t * Z.abs p + Q * (t - 1) + B).
  { rewrite <- (Z.abs_eq (t * Q)) by lia. rewrite <- Z.abs_mul. replace (t * Q * K j) with (t * p - Q * m j - E j) by lia.
    pose proof (Z.abs_triangle (t * p - Q * m j) (- E j)) as T1. pose proof (Z.abs_triangle (t * p) (- (Q * m j))) as T2.
    rewrite Z.abs_opp in T1, T2. rewrite !Z.abs_mul in T2. rewrite (Z.abs_eq t), (Z.abs_eq Q), (Z.abs_eq (m j)) in T2 by lia.
    replace (t * p - Q * m j - E j) with (t * p - Q * m j + - E j) by ring.
    replace (t * p + - (Q * m j)) with (t * p - Q * m j) in T2 by ring.
    assert (Q * m j <= Q * (t - 1)) by (apply Z.mul_le_mono_nonneg_l; lia). lia. }
  assert (BK2 : t * Q * (4 * big * Z.abs (K j)) <= t * Q * (a * (2 * big + 1) + 4 * big)).
  { assert (T3 : t * (4 * big * Z.abs p) <= t * (a * ((2 * big + 1) * Q))) by (apply Z.mul_le_mono_nonneg_l; lia).
    replace (t * Q * (4 * big * Z.abs (K j))) with (4 * big * (t * Q * Z.abs (K j))) by ring.
    replace (t * Q * (a * (2 * big + 1) + 4 * big)) with (t * (a * ((2 * big + 1) * Q)) + 4 * big * (t * Q)) by ring. 
    replace (t * (4 * big * Z.abs p)) with (4 * big * (t * Z.abs p)) in T3 by ring.
    replace (Q * (t - 1)) with (t * Q - Q) in BK by ring.
    revert T3 BK HB. generalize (t * Q * Z.abs (K j)) (t * (a * ((2 * big + 1) * Q))) (t * Q) (t * Z.abs p). clear. intros. lia. }
  apply Z.mul_le_mono_pos_l in BK2; [|apply Z.mul_pos_pos; lia]. lia.
Qed.

Lemma mul_carries_gen F G D m m' E E' a b v :
  0 <= a < 2 * big -> 0 <= b < 2 * big -> 0 <= v ->
  (forall j, (j < n)%nat -> 4 * big * Z.abs (F j) <= a * ((2 * big + 1) * Q)) ->
  (forall j, (j < n)%nat -> 4 * big * Z.abs (G j) <= b * ((2 * big + 1) * Q)) ->
  (forall j, (j < n)%nat -> 0 <= m j < t) -> (forall j, (j < n)%nat -> 0 <= m' j < t) ->
  (forall j, (j < n)%nat -> Z.abs (E j) <= B) -> (forall j, (j < n)%nat -> Z.abs (E' j) <= B) ->
  carries n Q t F m E -> carries n Q t G m' E' ->
  (forall j, (j < n)%nat -> 2 * big * Z.abs (Q * D j - t * rmul n F G j) <= v * ((big + 1) * Q)) ->
  exists E'', carries n Q t D (rmul n m m') E''
    /\ forall j, (j < n)%nat -> Z.abs (E'' j) <= Z.of_nat n * t * B * ((a + b) / 2 + 4) + Z.of_nat n * B + t * v.
Proof.
  intros Ha Hb Hv HF HG Hm Hm' HE HE' CF CG HD. assert (HtQ : 0 < t * Q) by (apply Z.mul_pos_pos; lia).
  set (K := fun j => (t * F j - Q * m j - E j) / (t * Q)). set (K' := fun j => (t * G j - Q * m' j - E' j) / (t * Q)).
  assert (EK : forall j, (j < n)%nat -> t * F j = Q * m j + E j + t * Q * K j).
  { intros j Hj. pose proof (CF j Hj) as C. change (eqm (t * Q) (t * F j) (Q * m j + E j)) in C.
    apply eqm_divide in C; [|lia]. destruct C as [z Z0]. unfold K. replace (t * F j - Q * m j - E j) with (z * (t * Q)) by lia.
    rewrite Z.div_mul by lia. lia. }
  assert (EK' : forall j, (j < n)%nat -> t * G j = Q * m' j + E' j + t * Q * K' j).
  { intros j Hj. pose proof (CG j Hj) as C. change (eqm (t * Q) (t * G j) (Q * m' j + E' j)) in C.
    apply eqm_divide in C; [|lia]. destruct C as [z Z0]. unfold K'. replace (t * G j - Q * m' j - E' j) with (z * (t * Q)) by lia.
    rewrite Z.div_mul by lia. lia. }
  pose proof (lift_mult_gen F m E K a HF Ha Hm HE EK) as BK. pose proof (lift_mult_gen G m' E' K' b HG Hb Hm' HE' EK') as BK'.
  set (R := fun j => Q * D j - t * rmul n F G j).
  pose proof (fun f => rconst_mul n Q f Hn) as CQ. pose proof (fun f => rconst_mul n t f Hn) as CT.
  assert (T1 : eqn n (rmul n (rconst Q) D) (radd (rmul n (rconst t) (rmul n F G)) R)).
  { intros j Hj. unfold radd. rewrite (CQ _ j Hj), (CT _ j Hj). unfold R. ring. }
  pose proof (tensor_noise n Hn (rconst Q) (rconst t) F G D R m m' E E' K K') as T2.
  set (V := radd (radd (radd (rmul n (rconst Q) (rmul n m m')) (radd (rmul n m E') (rmul n m' E))) (rmul n (rconst t) (radd (rmul n E K') (rmul n E' K))))
      (rmul n (rmul n (rconst t) (rconst Q)) (radd (radd (rmul n m K') (rmul n m' K)) (rmul n (rconst t) (rmul n K K'))))) in T2.
  assert (TQ : forall f, eqn n (rmul n (rmul n (rconst t) (rconst Q)) f) (fun j => t * Q * f j)).
  { intros f j Hj. rewrite rmul_assoc by auto. rewrite (CT _ j Hj), (CQ _ j Hj). ring. }
  specialize (T2 ltac:(intros j Hj; unfold radd; rewrite (CT _ j Hj), (CQ _ j Hj), (TQ _ j Hj); apply EK; auto)
                 ltac:(intros j Hj; unfold radd; rewrite (CT _ j Hj), (CQ _ j Hj), (TQ _ j Hj); apply EK'; auto) T1).
  set (U := fun j => rmul n m K' j + rmul n m' K j + t * rmul n K K' j).
  set (A := fun j => rmul n m E' j + rmul n m' E j + t * (rmul n E K' j + rmul n E' K j)).
  set (X := fun j => t * D j - (Q * rmul n m m' j + A j + t * Q * U j)).
  assert (EX : forall j, (j < n)%nat -> Q * X j = rmul n E E' j + t * R j).
  { intros j Hj. specialize (T2 j Hj). rewrite (CQ _ j Hj) in T2. unfold radd at 1 in T2. rewrite (CT _ j Hj) in T2. rewrite <- T2. f_equal.
    unfold rsub, V, X, A, U. rewrite (CT _ j Hj). f_equal. unfold radd. rewrite (CQ _ j Hj), (CT _ j Hj), (TQ _ j Hj). rewrite (CT _ j Hj). ring. }
  exists (fun j => A j + X j). split.
  - intros j Hj. change (eqm (t * Q) (t * D j) (Q * rmul n m m' j + (A j + X j))). replace (t * D j) with (Q * rmul n m m' j + (A j + X j) + U j * (t * Q)) by (unfold X; ring). apply eqm_add_mult.
  - intros j Hj. specialize (EX j Hj). specialize (HD j Hj).
    set (ka := (a + 2) / 2). set (kb := (b + 2) / 2).
    assert (BK2 : forall i, (i < n)%nat -> Z.abs (K i) <= ka) by (intros i Hi; apply Z.div_le_lower_bound; [lia|auto]).
    assert (BK2' : forall i, (i < n)%nat -> Z.abs (K' i) <= kb) by (intros i Hi; apply Z.div_le_lower_bound; [lia|auto]).
    assert (HK : 0 <= ka /\ 0 <= kb /\ ka + kb <= (a + b) / 2 + 2).
    { split; [apply Z.div_pos; lia|]. split; [apply Z.div_pos; lia|]. pose proof (Z.mul_div_le (a + 2) 2 ltac:(lia)). pose proof (Z.mul_div_le (b + 2) 2 ltac:(lia)).
      assert (ka + kb - 2 <= (a + b) / 2) by (apply Z.div_le_lower_bound; unfold ka, kb; lia). lia. }
    pose proof (rmul_bound n Hn m E' t B j Hj ltac:(lia) ltac:(intros i Hi; specialize (Hm i Hi); lia) HE') as B1.
    pose proof (rmul_bound n Hn m' E t B j Hj ltac:(lia) ltac:(intros i Hi; specialize (Hm' i Hi); lia) HE) as B2.
    pose proof (rmul_bound n Hn E K' B kb j Hj ltac:(lia) HE BK2') as B3.
    pose proof (rmul_bound n Hn E' K B ka j Hj ltac:(lia) HE' BK2) as B4.
    pose proof (rmul_bound n Hn E E' B B j Hj ltac:(lia) HE HE') as B5.
    assert (BA : Z.abs (A j) <= Z.of_nat n * t * B * ((a + b) / 2 + 4)).
    { unfold A. revert B1 B2 B3 B4 HK. generalize ((a + b) / 2). generalize (rmul n m E' j) (rmul n m' E j) (rmul n E K' j) (rmul n E' K j) ka kb.
      generalize (Nat2Z.is_nonneg n). generalize (Z.of_nat n). revert Ht HB. clear. intros Ht HB N HN x y z w ka kb h B1 B2 B3 B4 [K1 [K2 K3]].
      pose proof (ar_lin t (x + y) (z + w) ltac:(lia)) as T. pose proof (Z.abs_triangle x y). pose proof (Z.abs_triangle z w).
      assert (NB : 0 <= N * B) by (apply Z.mul_nonneg_nonneg; lia).
      assert (Z1 : N * B * (ka + kb) <= N * B * (h + 2)) by (apply Z.mul_le_mono_nonneg_l; lia).
      replace (N * (B * kb)) with (N * B * kb) in B3 by ring. replace (N * (B * ka)) with (N * B * ka) in B4 by ring.
      rewrite Z.mul_add_distr_l in Z1.
      assert (Z2 : t * Z.abs (z + w) <= t * (N * B * (h + 2))) by (apply Z.mul_le_mono_nonneg_l; lia).
      replace (N * t * B * (h + 4)) with (t * (N * B * (h + 2)) + 2 * (N * (t * B))) by ring. lia. }
    assert (BX : Z.abs (X j) <= Z.of_nat n * B + t * v).
    { apply ar_X with (b := big) (Q := Q) (e := rmul n E E' j) (r := R j); auto; lia. }
    eapply Z.le_trans; [apply Z.abs_triangle|]. rewrite <- Z.add_assoc. apply Z.add_le_mono; assumption.
Qed.
End Bound.
