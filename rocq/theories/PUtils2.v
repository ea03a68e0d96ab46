(** Proofs about the sampler and the prime generator (MUtils). *)
From Verif Require Import PBase NT Spec PSum MUtils PModulus PU256 PUtils.

(** * Centred binomial sampler *)
Lemma popcount_sum w : forall x, popcount w x = sumn w (fun j => b2z (Z.testbit x (Z.of_nat j))).
Proof.
  induction w as [|w IH]; intros x; [reflexivity|].
  cbn [popcount]. rewrite IH, sumn_S_l. f_equal.
  - rewrite <- Z.bit0_mod. simpl Z.of_nat. unfold b2z. destruct (Z.testbit x 0); reflexivity.
  - apply sumn_ext. intros j _. rewrite testbit_half. reflexivity.
Qed.

Definition sbit (w : nat -> Z) (i : nat) : bool := Z.testbit (w (i / 64)%nat) (Z.of_nat (i mod 64)).
Lemma sbit_stream w i : b2z (sbit w i) = stream_bit w i.
Proof. unfold sbit, stream_bit, b2z. reflexivity. Qed.

Lemma ones_testbit k j : 0 <= k -> 0 <= j -> Z.testbit (Z.ones k) j = (j <? k).
Proof.
  intros Hk Hj. destruct (Z_lt_dec j k).
  - rewrite Z.ones_spec_low by lia. symmetry. lia.
  - rewrite Z.ones_spec_high by lia. symmetry. lia.
Qed.

Lemma popcount_low x V : (V <= 128)%nat ->
  popcount 128 (Z.land x (Z.ones (Z.of_nat V))) = sumn V (fun j => b2z (Z.testbit x (Z.of_nat j))).
Proof.
  intros HV. rewrite popcount_sum.
  replace 128%nat with (V + (128 - V))%nat by lia. rewrite sumn_split.
  rewrite (sumn_0 (128 - V)).
  - rewrite Z.add_0_r. apply sumn_ext. intros j Hj.
    rewrite Z.land_spec, ones_testbit by lia. replace (Z.of_nat j <? Z.of_nat V) with true by lia.
    rewrite andb_true_r. reflexivity.
  - intros j Hj. rewrite Z.land_spec, ones_testbit by lia.
    replace (Z.of_nat (V + j) <? Z.of_nat V) with false by lia. rewrite andb_false_r. reflexivity.
Qed.

Lemma popcount_high x V U : (U + V <= 128)%nat ->
  popcount 128 (Z.land x (Z.shiftl (Z.ones (Z.of_nat V)) (Z.of_nat U)))
  = sumn V (fun j => b2z (Z.testbit x (Z.of_nat (U + j)))).
Proof.
  intros HV. rewrite popcount_sum.
  replace 128%nat with (U + (V + (128 - U - V)))%nat by lia. rewrite sumn_split.
  rewrite (sumn_0 U).
  2:{ intros j Hj. rewrite Z.land_spec, Z.shiftl_spec_low by lia. rewrite andb_false_r. reflexivity. }
  rewrite sumn_split. rewrite (sumn_0 (128 - U - V)).
  2:{ intros j Hj. rewrite Z.land_spec, Z.shiftl_spec by lia. rewrite ones_testbit by lia.
      replace (Z.of_nat (U + (V + j)) - Z.of_nat U <? Z.of_nat V) with false by lia.
      rewrite andb_false_r. reflexivity. }
  rewrite Z.add_0_r, Z.add_0_l. apply sumn_ext. intros j Hj.
  rewrite Z.land_spec, Z.shiftl_spec by lia. rewrite ones_testbit by lia.
  replace (Z.of_nat (U + j) - Z.of_nat U <? Z.of_nat V) with true by lia.
  rewrite andb_true_r. reflexivity.
Qed.

(** The pool holds exactly the next [nbits] bits of the stream. *)
Definition pool_inv (w : nat -> Z) (pos nbits : nat) (pool : Z) : Prop :=
  forall j, Z.testbit pool (Z.of_nat j) = if (j <? nbits)%nat then sbit w (pos + j) else false.

Definition cbd_sample (w : nat -> Z) (V pos : nat) : Z :=
  sumn (2 * V) (fun j => stream_bit w (pos + j)) - sumn (2 * V) (fun j => stream_bit w (pos + 2 * V + j)).

Lemma pool_refill w pos nbits k pool : (forall i, 0 <= w i < 2 ^ 64) -> (nbits < 64)%nat ->
  (pos + nbits = 64 * k)%nat -> pool_inv w pos nbits pool ->
  pool_inv w pos (nbits + 64) (Z.lor pool (as128 (Z.shiftl (w k) (Z.of_nat nbits)))).
Proof.
  intros Hw Hn Hp HI j. specialize (Hw k).
  assert (E : as128 (Z.shiftl (w k) (Z.of_nat nbits)) = Z.shiftl (w k) (Z.of_nat nbits)).
  { unfold as128. apply Z.mod_small. rewrite Z.shiftl_mul_pow2 by lia.
    assert (0 < 2 ^ Z.of_nat nbits <= 2 ^ 64).
    { split; [apply Z.pow_pos_nonneg; lia | apply Z.pow_le_mono_r; lia]. }
    change W128 with (2 ^ 64 * 2 ^ 64). set (A := 2 ^ 64) in *. set (B := 2 ^ Z.of_nat nbits) in *. nia. }
  rewrite E. rewrite Z.lor_spec, (HI j).
  destruct (j <? nbits)%nat eqn:E1.
  - rewrite Z.shiftl_spec_low by lia. rewrite orb_false_r.
    replace (j <? nbits + 64)%nat with true by lia. reflexivity.
  - rewrite Z.shiftl_spec by lia. rewrite orb_false_l.
    destruct (j <? nbits + 64)%nat eqn:E2.
    + unfold sbit. 
      assert (Ed : ((pos + j) / 64 = k)%nat).
      { symmetry. apply Nat.div_unique with (j - nbits)%nat; lia. }
      assert (Em : ((pos + j) mod 64 = j - nbits)%nat).
      { symmetry. apply Nat.mod_unique with k; lia. }
      rewrite Ed, Em. f_equal. lia.
    + rewrite <- (Z.mod_small (w k) (2 ^ 64)) by auto. apply Z.mod_pow2_bits_high. lia.
Qed.

Lemma pool_consume w pos nbits pool nb : (nb <= nbits)%nat -> pool_inv w pos nbits pool ->
  pool_inv w (pos + nb) (nbits - nb) (Z.shiftr pool (Z.of_nat nb)).
Proof.
  intros Hn HI j. rewrite Z.shiftr_spec by lia.
  replace (Z.of_nat j + Z.of_nat nb) with (Z.of_nat (nb + j)) by lia. rewrite HI.
  replace (pos + nb + j)%nat with (pos + (nb + j))%nat by lia.
  replace (j <? nbits - nb)%nat with (nb + j <? nbits)%nat by lia. reflexivity.
Qed.

Lemma cbd_step_value w pos nbits pool V : (4 * V <= nbits)%nat -> (4 * V <= 64)%nat -> pool_inv w pos nbits pool ->
  popcount 128 (Z.land pool (Z.ones (Z.of_nat (2 * V))))
  - popcount 128 (Z.land pool (Z.shiftl (Z.ones (Z.of_nat (2 * V))) (Z.of_nat (2 * V)))) = cbd_sample w V pos.
Proof.
  intros Hn HV HI. rewrite popcount_low, popcount_high by lia. unfold cbd_sample.
  f_equal; apply sumn_ext; intros j Hj; rewrite HI.
  - replace (j <? nbits)%nat with true by lia. apply sbit_stream.
  - replace (2 * V + j <? nbits)%nat with true by lia. rewrite sbit_stream. f_equal. lia.
Qed.

Lemma cbd_loop_ok pr w V : (forall i, 0 <= w i < 2 ^ 64) -> (1 <= V <= 16)%nat ->
  forall size pos nbits k pool, (nbits <= 127)%nat -> (pos + nbits = 64 * k)%nat -> pool_inv w pos nbits pool ->
  cbd_loop pr (Z.of_nat (4 * V)) (Z.ones (Z.of_nat (2 * V)))
    (Z.shiftl (Z.ones (Z.of_nat (2 * V))) (Z.of_nat (2 * V))) w size pool (Z.of_nat nbits) k
  = Ok (map (fun i => cbd_sample w V (pos + 4 * V * i)) (seq 0 size)).
Proof.
  intros Hw HV. induction size as [|size IH]; intros pos nbits k pool Hn Hp HI; [reflexivity|].
  cbn [cbd_loop].
  assert (Tail : forall nb' k' pool', (4 * V <= nb' <= 127)%nat -> (pos + nb' = 64 * k')%nat -> pool_inv w pos nb' pool' ->
    (dassert pr (Z.of_nat (4 * V) <=? Z.of_nat nb') ;;;
     rest <- cbd_loop pr (Z.of_nat (4 * V)) (Z.ones (Z.of_nat (2 * V)))
       (Z.shiftl (Z.ones (Z.of_nat (2 * V))) (Z.of_nat (2 * V))) w size (Z.shiftr pool' (Z.of_nat (4 * V)))
       (Z.of_nat nb' - Z.of_nat (4 * V)) k' ;;
     Ok ((popcount 128 (Z.land pool' (Z.ones (Z.of_nat (2 * V))))
          - popcount 128 (Z.land pool' (Z.shiftl (Z.ones (Z.of_nat (2 * V))) (Z.of_nat (2 * V))))) :: rest))
    = Ok (map (fun i => cbd_sample w V (pos + 4 * V * i)) (seq 0 (S size)))).
  { intros nb' k' pool' Hnb Hpos HI'. rewrite dassert_true by lia. cbn [bind].
    replace (Z.of_nat nb' - Z.of_nat (4 * V)) with (Z.of_nat (nb' - 4 * V)) by lia.
    rewrite (IH (pos + 4 * V)%nat).
    - cbn [bind]. rewrite (cbd_step_value w pos nb') by (auto; lia). f_equal.
      cbn [seq map]. f_equal; [f_equal; lia|]. rewrite <- seq_shift, map_map. apply map_ext.
      intros i. f_equal. lia.
    - lia.
    - lia.
    - apply pool_consume; auto. lia. }
  destruct (Z.of_nat nbits <? Z.of_nat (4 * V)) eqn:E.
  - replace (Z.of_nat nbits + 64) with (Z.of_nat (nbits + 64)) by lia. apply Tail; [lia|lia|].
    apply pool_refill; auto. lia.
  - apply Tail; auto. lia.
Qed.

Lemma cbd_masks v : 1 <= v <= 16 ->
  Z.shiftr (Z.shiftr (W64 - 1) (64 - 4 * v)) (2 * v) = Z.ones (2 * v)
  /\ as128 (Z.shiftl (Z.ones (2 * v)) (2 * v)) = Z.shiftl (Z.ones (2 * v)) (2 * v).
Proof.
  intros H.
  assert (v = 1 \/ v = 2 \/ v = 3 \/ v = 4 \/ v = 5 \/ v = 6 \/ v = 7 \/ v = 8 \/ v = 9 \/ v = 10 \/
    v = 11 \/ v = 12 \/ v = 13 \/ v = 14 \/ v = 15 \/ v = 16) as C by lia.
  repeat (destruct C as [C|C]; [subst v; split; vm_compute; reflexivity|]).
  subst v; split; vm_compute; reflexivity.
Qed.

Lemma sample_vec_cbd_ok pr size v w : 1 <= v <= 16 -> (forall i, 0 <= w i < 2 ^ 64) ->
  sample_vec_cbd pr size v w =
  Ok (map (fun i => cbd_sample w (Z.to_nat v) (4 * Z.to_nat v * i)) (seq 0 size)).
Proof.
  intros Hv Hw. unfold sample_vec_cbd. rewrite rassert_true by lia. cbn [bind].
  destruct (cbd_masks v Hv) as [E1 E2]. rewrite E1, E2.
  replace (4 * v) with (Z.of_nat (4 * Z.to_nat v)) by lia.
  replace (2 * v) with (Z.of_nat (2 * Z.to_nat v)) by lia.
  change 0 with (Z.of_nat 0) at 2.
  rewrite (cbd_loop_ok pr w (Z.to_nat v) Hw ltac:(lia) size 0 0 0 0); auto; try lia.
  intros j. rewrite Z.testbit_0_l. reflexivity.
Qed.

Lemma sample_vec_cbd_panic pr size v w : ~ (1 <= v <= 16) -> sample_vec_cbd pr size v w = Panic.
Proof.
  intros H. unfold sample_vec_cbd. replace ((1 <=? v) && (v <=? 16)) with false by lia. reflexivity.
Qed.

Lemma stream_bit_range w i : 0 <= stream_bit w i <= 1.
Proof. unfold stream_bit. destruct (Z.testbit _ _); lia. Qed.

Lemma cbd_sample_bound w V pos : Z.abs (cbd_sample w V pos) <= 2 * Z.of_nat V.
Proof.
  unfold cbd_sample.
  assert (B : forall q, 0 <= sumn (2 * V) (fun j => stream_bit w (q + j)) <= 2 * Z.of_nat V).
  { intros q. split.
    - apply sumn_nonneg. intros. apply stream_bit_range.
    - replace (2 * Z.of_nat V) with (sumn (2 * V) (fun _ => 1)).
      + apply sumn_le. intros. apply stream_bit_range.
      + rewrite sumn_const. lia. }
  pose proof (B pos). pose proof (B (pos + 2 * V)%nat). lia.
Qed.

(** * Loops with binary fuel *)
Lemma iter2_inl {S R} (step : S -> S + R) (I : S -> Prop) (mu : S -> Z) :
  (forall s s', I s -> step s = inl s' -> I s' /\ mu s' <= mu s - 1) ->
  forall k s s', I s -> iter2 k step s = inl s' -> I s' /\ mu s' <= mu s - 2 ^ Z.of_nat k.
Proof.
  intros H. induction k as [|k IH]; intros s s' Hs E; cbn [iter2] in E.
  - apply H; auto.
  - destruct (iter2 k step s) as [s1|r] eqn:E1; [|discriminate].
    destruct (IH s s1 Hs E1) as [I1 M1]. destruct (IH s1 s' I1 E) as [I2 M2].
    split; auto. rewrite Nat2Z.inj_succ, Z.pow_succ_r by lia. lia.
Qed.
Lemma iter2_inr {S R} (step : S -> S + R) (I : S -> Prop) (mu : S -> Z) :
  (forall s s', I s -> step s = inl s' -> I s' /\ mu s' <= mu s - 1) ->
  forall k s r, I s -> iter2 k step s = inr r -> exists s', I s' /\ step s' = inr r.
Proof.
  intros H. induction k as [|k IH]; intros s r Hs E; cbn [iter2] in E.
  - eauto.
  - destruct (iter2 k step s) as [s1|r1] eqn:E1.
    + destruct (iter2_inl step I mu H k s s1 Hs E1) as [I1 _]. eauto.
    + injection E as <-. eauto.
Qed.
Lemma iter2_term {S R} (step : S -> S + R) (I : S -> Prop) (mu : S -> Z) k s :
  (forall s s', I s -> step s = inl s' -> I s' /\ mu s' <= mu s - 1) ->
  (forall s, I s -> 0 <= mu s) -> I s -> mu s < 2 ^ Z.of_nat k ->
  exists r s', iter2 k step s = inr r /\ I s' /\ step s' = inr r.
Proof.
  intros H H0 Hs Hm. destruct (iter2 k step s) as [s1|r] eqn:E.
  - destruct (iter2_inl step I mu H k s s1 Hs E) as [I1 M1]. specialize (H0 s1 I1). lia.
  - destruct (iter2_inr step I mu H k s r Hs E) as [s' [I' E']]. eauto.
Qed.

(** * Prime generation *)
Lemma lz_eq t b : 0 < b <= 64 -> 0 <= t -> (leading_zeros 64 t =? 64 - b) = (2 ^ (b - 1) <=? t) && (t <? 2 ^ b).
Proof.
  intros Hb Ht. unfold leading_zeros.
  assert (P0 : 0 < 2 ^ (b - 1)) by (apply Z.pow_pos_nonneg; lia).
  destruct ((2 ^ (b - 1) <=? t) && (t <? 2 ^ b)) eqn:E.
  - rewrite (bitlen_unique t b); lia.
  - destruct (64 - bitlen t =? 64 - b) eqn:E2; auto.
    assert (E3 : bitlen t = b) by lia.
    assert (0 < t) by (destruct (Z.eq_dec t 0) as [->|]; [unfold bitlen in E3; simpl in E3; lia | lia]).
    pose proof (bitlen_spec t ltac:(lia)) as B. rewrite E3 in B. lia.
Qed.

(** [r] is the largest b-bit prime that is 1 mod m and below ub. *)
Definition admissible (b m ub x : Z) : Prop :=
  prime x /\ 2 ^ (b - 1) <= x < 2 ^ b /\ x mod m = 1 /\ x < ub.

Lemma gp1_spec b m ub : 10 <= b <= 62 -> 2 <= m -> 1 <= ub <= 2 ^ b ->
  exists t, iter2 64 (gp_step1 (64 - b) m) (ub - 1) = inr t /\ 0 <= t < ub
    /\ (forall x, t < x < ub -> 2 ^ (b - 1) <= x -> x mod m <> 1)
    /\ (t mod m = 1 \/ t < 2 ^ (b - 1)).
Proof.
  intros Hb Hm Hub.
  assert (P0 : 0 < 2 ^ (b - 1)) by (apply Z.pow_pos_nonneg; lia).
  assert (PB : 2 ^ b <= 2 ^ 62) by (apply Z.pow_le_mono_r; lia).
  change (2 ^ 62) with 4611686018427387904 in PB.
  set (I := fun t => 0 <= t < ub /\ (forall x, t < x < ub -> 2 ^ (b - 1) <= x -> x mod m <> 1)).
  destruct (iter2_term (gp_step1 (64 - b) m) I (fun t => t) 64 (ub - 1)) as [r [s' [E1 [[I1 I2] E2]]]].
  - intros s s' [I1 I2] E. unfold gp_step1 in E. rewrite lz_eq in E by lia.
    destruct (negb (s mod m =? 1)) eqn:N1; [|discriminate].
    destruct ((2 ^ (b - 1) <=? s) && (s <? 2 ^ b)) eqn:N2; [|discriminate].
    injection E as <-. split; [|lia]. split; [lia|].
    intros x Hx Hx'. destruct (Z.eq_dec x s) as [->|]; [lia|]. apply I2; lia.
  - intros s [I1 _]. lia.
  - split; [lia|]. intros. lia.
  - change (2 ^ Z.of_nat 64) with W64. lia.
  - exists r. split; auto. unfold gp_step1 in E2. rewrite lz_eq in E2 by lia.
    destruct (negb (s' mod m =? 1)) eqn:N1; destruct ((2 ^ (b - 1) <=? s') && (s' <? 2 ^ b)) eqn:N2;
      try discriminate; injection E2 as <-; (split; [lia|]); (split; [auto|]); try lia.
Qed.

Lemma gp2_spec ip b m ub t0 : 10 <= b <= 62 -> 2 <= m -> 1 <= ub <= 2 ^ b ->
  (forall x, 0 <= x < 2 ^ 64 -> (ip x = true <-> prime x)) ->
  0 <= t0 < ub -> (t0 mod m = 1 \/ t0 < 2 ^ (b - 1)) ->
  (forall x, t0 < x < ub -> 2 ^ (b - 1) <= x -> x mod m <> 1) ->
  exists t, iter2 64 (gp_step2 ip (64 - b) m) t0 = inr t /\ 0 <= t < ub
    /\ (forall x, t < x -> ~ admissible b m ub x)
    /\ (t mod m = 1 \/ t < 2 ^ (b - 1))
    /\ (t < 2 ^ (b - 1) \/ ip t = true \/ t < m).
Proof.
  intros Hb Hm Hub Hip Ht0 Hc0 Hn0.
  assert (P0 : 0 < 2 ^ (b - 1)) by (apply Z.pow_pos_nonneg; lia).
  assert (PB : 2 ^ b <= 2 ^ 62) by (apply Z.pow_le_mono_r; lia).
  change (2 ^ 62) with 4611686018427387904 in PB.
  set (I := fun t => 0 <= t < ub /\ (t mod m = 1 \/ t < 2 ^ (b - 1)) /\ (forall x, t < x -> ~ admissible b m ub x)).
  destruct (iter2_term (gp_step2 ip (64 - b) m) I (fun t => t) 64 t0) as [r [s' [E1 [[I1 [I2 I3]] E2]]]].
  - intros s s' [I1 [I2 I3]] E. unfold gp_step2 in E. rewrite lz_eq in E by lia.
    destruct ((2 ^ (b - 1) <=? s) && (s <? 2 ^ b)) eqn:N2; [|discriminate].
    destruct (negb (ip s)) eqn:N1; [|discriminate].
    destruct (m <=? s) eqn:N3; [|discriminate]. simpl in E.
    injection E as <-. split; [|lia].
    assert (Es : s mod m = 1) by lia.
    assert (Es' : (s - m) mod m = 1).
    { replace (s - m) with (s + (-1) * m) by ring. rewrite Z_mod_plus_full. auto. }
    split; [lia|]. split; [auto|].
    intros x Hx [Px [Bx [Cx Ux]]].
    destruct (Z.eq_dec x s) as [->|Hne].
    + assert (ip s = true) by (apply Hip; auto; change (2 ^ 64) with W64; lia). destruct (ip s); simpl in N1; congruence.
    + destruct (Z_lt_dec s x) as [Hlt|Hge].
      * apply (I3 x); auto. exact (conj Px (conj Bx (conj Cx Ux))).
      * assert (Hd : (m | s - x)).
        { apply (eqm_divide m s x); [lia|]. unfold eqm. congruence. }
        apply Z.divide_pos_le in Hd; lia.
  - intros s [I1 _]. lia.
  - split; [lia|]. split; [auto|]. intros x Hx [Px [Bx [Cx Ux]]]. apply (Hn0 x); auto; lia.
  - change (2 ^ Z.of_nat 64) with W64. lia.
  - exists r. unfold gp_step2 in E2. rewrite lz_eq in E2 by lia.
    destruct ((2 ^ (b - 1) <=? s') && (s' <? 2 ^ b)) eqn:N2; destruct (negb (ip s')) eqn:N1;
      destruct (m <=? s') eqn:N3; simpl in E2; try discriminate; injection E2 as <-;
      (split; [auto|]); (split; [lia|]); (split; [auto|]); (split; [auto|]);
      destruct (ip s'); simpl in N1; auto; try discriminate; lia.
Qed.

Lemma generate_prime_spec pr ip b m ub : 10 <= b <= 62 -> 2 <= m -> 1 <= ub <= 2 ^ b ->
  (forall x, 0 <= x < 2 ^ 64 -> (ip x = true <-> prime x)) ->
  (exists r, generate_prime pr ip b m ub = Ok (Some r) /\ admissible b m ub r
             /\ forall x, admissible b m ub x -> x <= r)
  \/ (generate_prime pr ip b m ub = Ok None /\ forall x, ~ admissible b m ub x).
Proof.
  intros Hb Hm Hub Hip.
  assert (P0 : 0 < 2 ^ (b - 1)) by (apply Z.pow_pos_nonneg; lia).
  assert (PB : 2 ^ b <= 2 ^ 62) by (apply Z.pow_le_mono_r; lia).
  change (2 ^ 62) with 4611686018427387904 in PB.
  unfold generate_prime. replace (negb ((10 <=? b) && (b <=? 62))) with false by lia.
  rewrite dassert_true by lia. cbn [bind]. rewrite sub64_ok by lia. cbn [bind].
  rewrite rassert_true by lia. cbn [bind].
  destruct (gp1_spec b m ub Hb Hm Hub) as [t1 [E1 [R1 [N1 C1]]]]. rewrite E1.
  destruct (gp2_spec ip b m ub t1 Hb Hm Hub Hip R1 C1 N1) as [t2 [E2 [R2 [N2 [C2 D2]]]]]. rewrite E2.
  rewrite lz_eq by lia.
  destruct (((2 ^ (b - 1) <=? t2) && (t2 <? 2 ^ b)) && ip t2) eqn:F.
  - left. exists t2. split; auto. apply andb_true_iff in F. destruct F as [F1 F2].
    assert (Pt : prime t2) by (apply Hip; auto; change (2 ^ 64) with W64; lia).
    split.
    + split; [auto|]. split; [lia|]. split; [lia|]. lia.
    + intros x Hx. destruct (Z_lt_dec t2 x) as [Hlt|]; [|lia]. exfalso. apply (N2 x); auto.
  - right. split; auto. intros x Hx. destruct (Z_lt_dec t2 x) as [Hlt|Hge]; [apply (N2 x); auto|].
    destruct Hx as [Px [Bx [Cx Ux]]].
    assert (Hb2 : 2 ^ (b - 1) <= t2) by (clear - Hge Bx; lia).
    destruct D2 as [D2|[D2|D2]]; [lia| |].
    + rewrite D2 in F. clear - F Hb2 R2 Hub. lia.
    + clear F. assert (C2' : t2 mod m = 1) by (clear - C2 Hb2; lia). rewrite Z.mod_small in C2' by lia.
      assert (2 ^ 1 <= 2 ^ (b - 1)) by (apply Z.pow_le_mono_r; lia). lia.
Qed.

Lemma generate_prime_bits pr ip b m ub : ~ (10 <= b <= 62) -> generate_prime pr ip b m ub = Ok None.
Proof. intros H. unfold generate_prime. replace (negb ((10 <=? b) && (b <=? 62))) with true by lia. reflexivity. Qed.
