(** Ciphertext multiplication: the noise analysis over Z[X]/(X^n+1). *)
From Coq Require Import Setoid Ring.
From Verif Require Import PBase NT Spec PSum MRq SpecRq PRing PRingT SpecBfv SpecKsk.

Section Tensor.
Variable n : nat.
Hypothesis Hn : (0 < n)%nat.
Add Ring rr : (rring n Hn) (setoid (eqn_equiv n) (rring_ext n)).
Declare Scope R_scope.
Delimit Scope R_scope with R.
Notation "a == b" := (eqn n a b) (at level 70).
Notation "a * b" := (rmul n a b) : R_scope.
Notation "a + b" := (radd a b) : R_scope.
Notation "a - b" := (rsub a b) : R_scope.


Lemma phase_eq2 s f0 f1 : phase n s [f0; f1] == (f0 + s * f1)%R.
Proof.
  intros j Hj. cbn [phase]. unfold radd. f_equal. apply rmul_ext; auto. intros k _. rewrite rmul_0_r. ring.
Qed.
Lemma phase_eq3 s f0 f1 f2 : phase n s [f0; f1; f2] == (f0 + s * f1 + s * s * f2)%R.
Proof.
  transitivity (f0 + s * (f1 + s * f2))%R; [|ring]. intros j Hj. cbn [phase]. unfold radd at 1. f_equal. apply rmul_ext; auto.
  intros k Hk. apply (phase_eq2 s f1 f2 k Hk).
Qed.

(** The tensor product of two ciphertexts, scaled by t/Q with rounding errors. *)
Lemma tensor_phase q tau s F0 F1 G0 G1 D0 D1 D2 R0 R1 R2 :
  (q * D0 == tau * (F0 * G0) + R0)%R -> (q * D1 == tau * (F0 * G1 + G0 * F1) + R1)%R -> (q * D2 == tau * (F1 * G1) + R2)%R ->
  (q * phase n s [D0; D1; D2] == tau * (phase n s [F0; F1] * phase n s [G0; G1]) + phase n s [R0; R1; R2])%R.
Proof.
  intros H0 H1 H2. rewrite !phase_eq3, !phase_eq2.
  transitivity (q * D0 + s * (q * D1) + s * s * (q * D2))%R; [ring|]. rewrite H0, H1, H2. ring.
Qed.

Lemma tensor_noise q tau F G D R m m' E E' K K' :
  (tau * F == q * m + E + tau * q * K)%R -> (tau * G == q * m' + E' + tau * q * K')%R -> (q * D == tau * (F * G) + R)%R ->
  (q * (tau * D - (q * (m * m') + (m * E' + m' * E) + tau * (E * K' + E' * K) + tau * q * (m * K' + m' * K + tau * (K * K')))) == E * E' + tau * R)%R.
Proof.
  intros H1 H2 H3.
  transitivity (tau * (q * D) - q * (q * (m * m') + (m * E' + m' * E) + tau * (E * K' + E' * K) + tau * q * (m * K' + m' * K + tau * (K * K'))))%R; [ring|].
  rewrite H3.
  transitivity ((tau * F) * (tau * G) + tau * R - q * (q * (m * m') + (m * E' + m' * E) + tau * (E * K' + E' * K) + tau * q * (m * K' + m' * K + tau * (K * K'))))%R; [ring|].
  rewrite H1, H2. ring.
Qed.
End Tensor.

(** Arithmetic of the bounds, on plain integers. *)
Lemma ar_lin t a r : 0 <= t -> Z.abs (a + t * r) <= Z.abs a + t * Z.abs r.
Proof. intros. pose proof (Z.abs_triangle a (t * r)) as T. rewrite Z.abs_mul, (Z.abs_eq t) in T by auto. exact T. Qed.
Lemma ar_A N t B S kap a b x y : 0 <= N -> 1 <= t -> 0 <= B -> 2 * kap <= S + 3 ->
  Z.abs a <= N * (t * B) -> Z.abs b <= N * (t * B) -> Z.abs x <= N * (B * kap) -> Z.abs y <= N * (B * kap) ->
  Z.abs (a + b + t * (x + y)) <= N * t * B * (S + 5).
Proof.
  intros HN Ht HB Hk Ha Hb Hx Hy. pose proof (ar_lin t (a + b) (x + y) ltac:(lia)) as T. pose proof (Z.abs_triangle a b). pose proof (Z.abs_triangle x y).
  assert (NB : 0 <= N * B) by (apply Z.mul_nonneg_nonneg; lia).
  assert (X : N * B * (2 * kap) <= N * B * (S + 3)) by (apply Z.mul_le_mono_nonneg_l; lia).
  assert (Y : t * Z.abs (x + y) <= t * (N * B * (S + 3))) by (apply Z.mul_le_mono_nonneg_l; lia).
  replace (N * t * B * (S + 5)) with (t * (N * B * (S + 3)) + 2 * (N * (t * B))) by ring. lia.
Qed.
Lemma ar_R b S q x y z : b * Z.abs x <= q -> b * Z.abs y <= S * q -> b * Z.abs z <= S * (S * q) -> 0 < b ->
  b * Z.abs (x + y + z) <= (1 + S + S * S) * q.
Proof.
  intros Hx Hy Hz Hb. pose proof (Z.abs_triangle (x + y) z). pose proof (Z.abs_triangle x y).
  assert (b * Z.abs (x + y + z) <= b * (Z.abs x + Z.abs y + Z.abs z)) by (apply Z.mul_le_mono_nonneg_l; lia).
  replace ((1 + S + S * S) * q) with (q + S * q + S * (S * q)) by ring. lia.
Qed.
Lemma ar_X b Q t B N V e r x : 1 <= b -> 1 <= Q -> 1 <= t -> 0 <= B <= Q -> 0 <= N -> 0 <= V ->
  2 * b * Z.abs r <= V * ((b + 1) * Q) -> Z.abs e <= N * (B * B) -> Q * x = e + t * r ->
  Z.abs x <= N * B + t * V.
Proof.
  intros Hb HQ Ht HB HN HV Hr He Hx.
  assert (VQ : 0 <= V * Q) by (apply Z.mul_nonneg_nonneg; lia).
  assert (Hr2 : Z.abs r <= V * Q).
  { apply (Z.mul_le_mono_pos_l _ _ (2 * b)); [lia|]. eapply Z.le_trans; [exact Hr|].
    replace (V * ((b + 1) * Q)) with (V * Q * (b + 1)) by ring. replace (2 * b * (V * Q)) with (V * Q * (2 * b)) by ring.
    apply Z.mul_le_mono_nonneg_l; lia. }
  apply (Z.mul_le_mono_pos_l _ _ Q); [lia|]. rewrite <- (Z.abs_eq Q) at 1 by lia. rewrite <- Z.abs_mul, Hx.
  eapply Z.le_trans; [apply ar_lin; lia|].
  assert (t * Z.abs r <= t * (V * Q)) by (apply Z.mul_le_mono_nonneg_l; lia).
  assert (N * (B * B) <= N * (B * Q)) by (apply Z.mul_le_mono_nonneg_l; [lia|]; apply Z.mul_le_mono_nonneg_l; lia).
  replace (Q * (N * B + t * V)) with (N * (B * Q) + t * (V * Q)) by ring. lia.
Qed.

Section Bound.
Variable n : nat.
Hypothesis Hn : (0 < n)%nat.
Variables (Q t S B : Z) (s : nat -> Z).
Hypothesis HQ : 1 <= Q.
Hypothesis Ht : 1 <= t.
Hypothesis HS : l1norm n s <= S.
Hypothesis HS2 : S < 2 ^ 54.
Hypothesis HB : 0 <= B <= Q.
Local Notation big := 18014398509481984. (* 2^54 *)

Lemma l1_S : 0 <= S.
Proof. pose proof (l1_nonneg n s). lia. Qed.

Lemma s_bound f X k : (k < n)%nat -> 0 <= X -> (forall i, (i < n)%nat -> Z.abs (f i) <= X) -> Z.abs (rmul n s f k) <= S * X.
Proof.
  intros Hk HX Hf. pose proof (rmul_bound_l1 n s f X k Hn Hk HX Hf). pose proof (l1_nonneg n s). nia.
Qed.

(** Multiples of a bound a/b kept as integers: |g| * b <= a. *)
Lemma s_bound_q f a b k : (k < n)%nat -> 0 < b -> 0 <= a -> (forall i, (i < n)%nat -> b * Z.abs (f i) <= a) -> b * Z.abs (rmul n s f k) <= S * a.
Proof.
  intros Hk Hb Ha Hf. rewrite <- (Z.abs_eq b) at 1 by lia. rewrite <- Z.abs_mul, <- rmul_scal_r.
  apply s_bound; auto. intros i Hi. rewrite Z.abs_mul, (Z.abs_eq b) by lia. auto.
Qed.

Lemma lift_mult F0 F1 m E K : (forall j, (j < n)%nat -> 4 * big * Z.abs (F0 j) <= (2 * big + 1) * Q) ->
  (forall j, (j < n)%nat -> 4 * big * Z.abs (F1 j) <= (2 * big + 1) * Q) ->
  (forall j, (j < n)%nat -> 0 <= m j < t) -> (forall j, (j < n)%nat -> Z.abs (E j) <= B) ->
  (forall j, (j < n)%nat -> t * phase n s [F0; F1] j = Q * m j + E j + t * Q * K j) ->
  forall j, (j < n)%nat -> Z.abs (K j) <= (S + 3) / 2.
Proof.
  intros H0 H1 Hm HE HK j Hj. specialize (HK j Hj). specialize (Hm j Hj). specialize (HE j Hj).
  pose proof (phase_eq2 n s F0 F1 j Hj) as EP. unfold radd in EP.
  pose proof (s_bound_q F1 ((2 * big + 1) * Q) (4 * big) j Hj ltac:(lia) ltac:(lia) H1) as B1. specialize (H0 j Hj).
  pose proof l1_S as HS0. change (2 ^ 54) with big in HS2.
  set (p := phase n s [F0; F1] j) in *. set (a := F0 j) in *. set (b := rmul n s F1 j) in *.
  assert (BP : 4 * big * Z.abs p <= (1 + S) * ((2 * big + 1) * Q)).
  { rewrite EP. pose proof (Z.abs_triangle a b). lia. }
  assert (HtQ : 0 < t * Q) by (apply Z.mul_pos_pos; lia).
  assert (BK : t * Q * Z.abs (K j) <= t * Z.abs p + Q * (t - 1) + B).
  { rewrite <- (Z.abs_eq (t * Q)) by lia. rewrite <- Z.abs_mul. replace (t * Q * K j) with (t * p - Q * m j - E j) by lia.
    pose proof (Z.abs_triangle (t * p - Q * m j) (- E j)) as T1. pose proof (Z.abs_triangle (t * p) (- (Q * m j))) as T2.
    rewrite Z.abs_opp in T1, T2. rewrite !Z.abs_mul in T2. rewrite (Z.abs_eq t), (Z.abs_eq Q), (Z.abs_eq (m j)) in T2 by lia.
    replace (t * p - Q * m j - E j) with (t * p - Q * m j + - E j) by ring.
    replace (t * p + - (Q * m j)) with (t * p - Q * m j) in T2 by ring.
    assert (Q * m j <= Q * (t - 1)) by (apply Z.mul_le_mono_nonneg_l; lia). lia. }
  assert (BK2 : t * Q * (4 * big * Z.abs (K j)) <= t * Q * ((1 + S) * (2 * big + 1) + 4 * big)).
  { assert (t * (4 * big * Z.abs p) <= t * ((1 + S) * ((2 * big + 1) * Q))) by (apply Z.mul_le_mono_nonneg_l; lia). lia. }
  apply Z.mul_le_mono_pos_l in BK2; [|apply Z.mul_pos_pos; lia].
  apply Z.div_le_lower_bound; [lia|]. lia.
Qed.

Lemma mul_carries F0 F1 G0 G1 D0 D1 D2 m m' E E' :
  (forall j, (j < n)%nat -> 4 * big * Z.abs (F0 j) <= (2 * big + 1) * Q) ->
  (forall j, (j < n)%nat -> 4 * big * Z.abs (F1 j) <= (2 * big + 1) * Q) ->
  (forall j, (j < n)%nat -> 4 * big * Z.abs (G0 j) <= (2 * big + 1) * Q) ->
  (forall j, (j < n)%nat -> 4 * big * Z.abs (G1 j) <= (2 * big + 1) * Q) ->
  (forall j, (j < n)%nat -> 0 <= m j < t) -> (forall j, (j < n)%nat -> 0 <= m' j < t) ->
  (forall j, (j < n)%nat -> Z.abs (E j) <= B) -> (forall j, (j < n)%nat -> Z.abs (E' j) <= B) ->
  carries n Q t (phase n s [F0; F1]) m E -> carries n Q t (phase n s [G0; G1]) m' E' ->
  (forall j, (j < n)%nat -> 2 * big * Z.abs (Q * D0 j - t * rmul n F0 G0 j) <= (big + 1) * Q) ->
  (forall j, (j < n)%nat -> 2 * big * Z.abs (Q * D1 j - t * (rmul n F0 G1 j + rmul n G0 F1 j)) <= (big + 1) * Q) ->
  (forall j, (j < n)%nat -> 2 * big * Z.abs (Q * D2 j - t * rmul n F1 G1 j) <= (big + 1) * Q) ->
  exists E'', carries n Q t (phase n s [D0; D1; D2]) (rmul n m m') E''
    /\ forall j, (j < n)%nat -> Z.abs (E'' j) <= mul_noise n t B S.
Proof.
  intros HF0 HF1 HG0 HG1 Hm Hm' HE HE' CF CG HD0 HD1 HD2. pose proof l1_S as HS0. assert (HtQ : 0 < t * Q) by (apply Z.mul_pos_pos; lia).
  set (F := phase n s [F0; F1]) in *. set (G := phase n s [G0; G1]) in *. set (D := phase n s [D0; D1; D2]).
  set (K := fun j => (t * F j - Q * m j - E j) / (t * Q)). set (K' := fun j => (t * G j - Q * m' j - E' j) / (t * Q)).
  assert (EK : forall j, (j < n)%nat -> t * F j = Q * m j + E j + t * Q * K j).
  { intros j Hj. pose proof (CF j Hj) as C. change (eqm (t * Q) (t * F j) (Q * m j + E j)) in C.
    apply eqm_divide in C; [|lia]. destruct C as [z Z0]. unfold K. replace (t * F j - Q * m j - E j) with (z * (t * Q)) by lia.
    rewrite Z.div_mul by lia. lia. }
  assert (EK' : forall j, (j < n)%nat -> t * G j = Q * m' j + E' j + t * Q * K' j).
  { intros j Hj. pose proof (CG j Hj) as C. change (eqm (t * Q) (t * G j) (Q * m' j + E' j)) in C.
    apply eqm_divide in C; [|lia]. destruct C as [z Z0]. unfold K'. replace (t * G j - Q * m' j - E' j) with (z * (t * Q)) by lia.
    rewrite Z.div_mul by lia. lia. }
  pose proof (lift_mult F0 F1 m E K HF0 HF1 Hm HE EK) as BK. pose proof (lift_mult G0 G1 m' E' K' HG0 HG1 Hm' HE' EK') as BK'.
  set (R0 := fun j => Q * D0 j - t * rmul n F0 G0 j). set (R1 := fun j => Q * D1 j - t * (rmul n F0 G1 j + rmul n G0 F1 j)).
  set (R2 := fun j => Q * D2 j - t * rmul n F1 G1 j). set (R := phase n s [R0; R1; R2]).
  pose proof (fun f => rconst_mul n Q f Hn) as CQ. pose proof (fun f => rconst_mul n t f Hn) as CT.
  assert (T1 : eqn n (rmul n (rconst Q) D) (radd (rmul n (rconst t) (rmul n F G)) R)).
  { apply tensor_phase; auto; intros j Hj; unfold radd; rewrite (CQ _ j Hj), (CT _ j Hj); unfold R0, R1, R2; ring. }
  pose proof (tensor_noise n Hn (rconst Q) (rconst t) F G D R m m' E E' K K') as T2.
  set (V := radd (radd (radd (rmul n (rconst Q) (rmul n m m')) (radd (rmul n m E') (rmul n m' E))) (rmul n (rconst t) (radd (rmul n E K') (rmul n E' K))))
      (rmul n (rmul n (rconst t) (rconst Q)) (radd (radd (rmul n m K') (rmul n m' K)) (rmul n (rconst t) (rmul n K K'))))) in T2.
  assert (TQ : forall f, eqn n (rmul n (rmul n (rconst t) (rconst Q)) f) (fun j => t * Q * f j)).
  { intros f j Hj. rewrite rmul_assoc by auto. rewrite (CT _ j Hj), (CQ _ j Hj). ring. }
  specialize (T2 ltac:(intros j Hj; unfold radd; rewrite (CT _ j Hj), (CQ _ j Hj), (TQ _ j Hj); apply EK; auto)
                 ltac:(intros j Hj; unfold radd; rewrite (CT _ j Hj), (CQ _ j Hj), (TQ _ j Hj); apply EK'; auto) T1).
  set (U := fun j => rmul n m K' j + rmul n m' K j + t * rmul n K K' j).
  set (A := fun j => rmul n m E' j + rmul n m' E j + t * (rmul n E K' j + rmul n E' K j)).
  set (X := fun j => t * D j - (Q * rmul n m m' j + A j + t * Q * U j)).
  assert (EX : forall j, (j < n)%nat -> Q * X j = rmul n E E' j + t * R j).
  { intros j Hj. specialize (T2 j Hj). rewrite (CQ _ j Hj) in T2. unfold radd at 1 in T2. rewrite (CT _ j Hj) in T2. rewrite <- T2. f_equal.
    unfold rsub, V, X, A, U. rewrite (CT _ j Hj). f_equal. unfold radd. rewrite (CQ _ j Hj), (CT _ j Hj), (TQ _ j Hj). rewrite (CT _ j Hj). ring. }
  exists (fun j => A j + X j). split.
  - intros j Hj. change (eqm (t * Q) (t * D j) (Q * rmul n m m' j + (A j + X j))). replace (t * D j) with (Q * rmul n m m' j + (A j + X j) + U j * (t * Q)) by (unfold X; ring). apply eqm_add_mult.
  - intros j Hj. specialize (EX j Hj). set (kap := (S + 3) / 2) in *.
    assert (Hk0 : 0 <= kap /\ 2 * kap <= S + 3).
    { unfold kap. pose proof (Z.mul_div_le (S + 3) 2 ltac:(lia)). split; [apply Z.div_pos; lia|lia]. }
    pose proof (rmul_bound n Hn m E' t B j Hj ltac:(lia) ltac:(intros i Hi; specialize (Hm i Hi); lia) HE') as B1.
    pose proof (rmul_bound n Hn m' E t B j Hj ltac:(lia) ltac:(intros i Hi; specialize (Hm' i Hi); lia) HE) as B2.
    pose proof (rmul_bound n Hn E K' B kap j Hj ltac:(lia) HE BK') as B3.
    pose proof (rmul_bound n Hn E' K B kap j Hj ltac:(lia) HE' BK) as B4.
    pose proof (rmul_bound n Hn E E' B B j Hj ltac:(lia) HE HE') as B5.
    assert (BA : Z.abs (A j) <= Z.of_nat n * t * B * (S + 5)).
    { unfold A. apply ar_A with kap; auto; lia. }
    assert (BR : 2 * big * Z.abs (R j) <= (1 + S + S * S) * ((big + 1) * Q)).
    { pose proof (phase_eq3 n Hn s R0 R1 R2 j Hj) as EP. fold R in EP. unfold radd in EP. rewrite rmul_assoc in EP by auto.
      pose proof (s_bound_q R1 ((big + 1) * Q) (2 * big) j Hj ltac:(lia) ltac:(lia) HD1) as C1.
      pose proof (fun k Hk => s_bound_q R2 ((big + 1) * Q) (2 * big) k Hk ltac:(lia) ltac:(lia) HD2) as C2.
      pose proof (s_bound_q (rmul n s R2) (S * ((big + 1) * Q)) (2 * big) j Hj ltac:(lia) ltac:(apply Z.mul_nonneg_nonneg; [exact HS0|apply Z.mul_nonneg_nonneg; lia]) C2) as C3.
      specialize (HD0 j Hj). change (Q * D0 j - t * rmul n F0 G0 j) with (R0 j) in HD0. rewrite EP.
      apply ar_R; auto. reflexivity. }
    assert (BX : Z.abs (X j) <= Z.of_nat n * B + t * (1 + S + S * S)).
    { apply ar_X with (b := big) (Q := Q) (e := rmul n E E' j) (r := R j); auto; [lia..|]. apply Z.add_nonneg_nonneg; [lia|apply Z.mul_nonneg_nonneg; lia]. }
    unfold mul_noise. eapply Z.le_trans; [apply Z.abs_triangle|]. rewrite <- Z.add_assoc. apply Z.add_le_mono; assumption.
Qed.
End Bound.
