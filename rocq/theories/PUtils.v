(** Proofs about MUtils (helpers). *)
From Verif Require Import PBase NT Spec PSum MUtils PModulus PU256.

(** * ilog2, div_ceil *)
Lemma bitlen_spec x : 0 < x -> 2 ^ (bitlen x - 1) <= x < 2 ^ bitlen x.
Proof.
  intros H. rewrite bitlen_log2 by auto. replace (Z.log2 x + 1 - 1) with (Z.log2 x) by ring.
  rewrite Z.add_1_r. apply Z.log2_spec. auto.
Qed.
Lemma bitlen_unique x b : 0 < b -> 2 ^ (b - 1) <= x < 2 ^ b -> bitlen x = b.
Proof.
  intros Hb H. assert (0 < x) by (pose proof (Z.pow_pos_nonneg 2 (b - 1)); lia).
  rewrite bitlen_log2 by auto. rewrite (Z.log2_unique x (b - 1)); try lia.
  replace (Z.succ (b - 1)) with b by lia. auto.
Qed.
Lemma bitlen_nonneg x : 0 <= bitlen x.
Proof. unfold bitlen. destruct (x =? 0); [lia|]. pose proof (Z.log2_nonneg x). lia. Qed.
Lemma bitlen_le x b : 0 <= b -> 0 <= x < 2 ^ b -> bitlen x <= b.
Proof.
  intros Hb H. destruct (Z.eq_dec x 0) as [->|]; [unfold bitlen; simpl; lia|].
  rewrite bitlen_log2 by lia. assert (Z.log2 x < b) by (apply Z.log2_lt_pow2; lia). lia.
Qed.

Lemma ilog2_ok pr w v : 0 < w <= 128 -> 0 < v < 2 ^ w -> ilog2 pr w v = Ok (Z.log2 v).
Proof.
  intros Hw Hv. unfold ilog2, leading_zeros. rewrite bitlen_log2 by lia.
  assert (Z.log2 v < w) by (apply Z.log2_lt_pow2; lia).
  pose proof (Z.log2_nonneg v).
  rewrite sub64_ok by lia. f_equal. lia.
Qed.

Lemma div_ceil_ok pr bound a b : 0 <= a -> 0 < b -> a + b < bound ->
  div_ceil pr bound a b = Ok ((a + b - 1) / b).
Proof.
  intros Ha Hb Hs. unfold div_ceil.
  rewrite rassert_true by lia. cbn [bind]. rewrite chk_ok by lia. cbn [bind].
  rewrite chk_ok by lia. cbn [bind]. apply udiv_ok. lia.
Qed.
Lemma div_ceil_zero pr bound a : div_ceil pr bound a 0 = Panic.
Proof. reflexivity. Qed.
Lemma ceil_spec a b : 0 < b -> b * ((a + b - 1) / b - 1) < a <= b * ((a + b - 1) / b).
Proof.
  intros Hb. pose proof (Z.div_mod (a + b - 1) b ltac:(lia)).
  pose proof (Z.mod_pos_bound (a + b - 1) b ltac:(lia)). nia.
Qed.

(** * Extended Euclid *)
Lemma egcd_halves r0 r1 : 0 < r1 < r0 -> 2 * (r1 * (r0 mod r1)) < r0 * r1.
Proof.
  intros H. pose proof (Z.div_mod r0 r1 ltac:(lia)) as D.
  pose proof (Z.mod_pos_bound r0 r1 ltac:(lia)) as B.
  assert (1 <= r0 / r1) by (apply Z.div_le_lower_bound; lia).
  assert (2 * (r0 mod r1) < r0) by nia. nia.
Qed.

Lemma egcd_loop_ok m a j : forall fuel r0 x0 r1 x1,
  (j < fuel)%nat -> 0 <= r1 < r0 -> r0 * r1 < 2 ^ Z.of_nat j ->
  eqm m r0 (x0 * a) -> eqm m r1 (x1 * a) ->
  exists x, egcd_loop fuel r0 x0 r1 x1 = Some (Z.gcd r0 r1, x) /\ eqm m (Z.gcd r0 r1) (x * a).
Proof.
  induction j as [|j IH]; intros [|fuel] r0 x0 r1 x1 Hf Hr Hp E0 E1; try lia; cbn [egcd_loop].
  - assert (r1 = 0) by (change (2 ^ Z.of_nat 0) with 1 in Hp; nia). subst r1.
    exists x0. rewrite Z.gcd_0_r, Z.abs_eq by lia. split; [reflexivity | auto].
  - destruct (r1 =? 0) eqn:Ez.
    + apply Z.eqb_eq in Ez. subst r1. exists x0. rewrite Z.gcd_0_r, Z.abs_eq by lia. split; [reflexivity | auto].
    + assert (R1 : 0 < r1 < r0) by lia.
      pose proof (egcd_halves r0 r1 R1) as Hh.
      pose proof (Z.mod_pos_bound r0 r1 ltac:(lia)) as B.
      destruct (IH fuel r1 x1 (r0 mod r1) (x0 - r0 / r1 * x1)) as [x [Ex Cx]]; auto; try lia.
      * rewrite Nat2Z.inj_succ, Z.pow_succ_r in Hp by lia. lia.
      * rewrite Z.mod_eq by lia.
        replace ((x0 - r0 / r1 * x1) * a) with (x0 * a - x1 * a * (r0 / r1)) by ring.
        apply eqm_sub; [auto|]. apply eqm_mul; [auto | reflexivity].
      * exists x. rewrite Ex. 
        replace (Z.gcd r0 r1) with (Z.gcd r1 (r0 mod r1)).
        -- auto.
        -- rewrite (Z.gcd_comm r0 r1), (Z.gcd_comm r1 (r0 mod r1)). apply Z.gcd_mod. lia.
Qed.

Lemma gcd_mod' a m : m <> 0 -> Z.gcd m (a mod m) = Z.gcd a m.
Proof. intros. rewrite Z.gcd_comm. rewrite Z.gcd_mod by auto. apply Z.gcd_comm. Qed.

Lemma mod_inverse_big_some a m : 1 < m -> Z.gcd a m = 1 ->
  exists x, mod_inverse_big a m = Some x /\ 0 <= x < m /\ (a * x) mod m = 1.
Proof.
  intros Hm Hg. unfold mod_inverse_big.
  pose proof (Z.mod_pos_bound a m ltac:(lia)) as B.
  pose proof (bitlen_spec m ltac:(lia)) as BL.
  pose proof (bitlen_nonneg m) as B0.
  destruct (egcd_loop_ok m a (Z.to_nat (2 * bitlen m)) (Z.to_nat (2 * bitlen m + 4)) m 0 (a mod m) 1)
    as [x [Ex Cx]]; try lia.
  - rewrite Z2Nat.id by lia. rewrite Z.mul_comm with (n := 2). rewrite Z.pow_mul_r by lia.
    change (2 ^ bitlen m ^ 2) with ((2 ^ bitlen m) ^ 2). rewrite Z.pow_2_r. nia.
  - unfold eqm. rewrite Z.mul_0_l, Z.mod_same by lia. rewrite Z.mod_0_l by lia. reflexivity.
  - rewrite Z.mul_1_l. apply eqm_mod.
  - rewrite Ex. rewrite gcd_mod' in * by lia. rewrite Hg in *. change (1 =? 1) with true. cbv iota.
    exists (x mod m). split; [reflexivity|]. split; [apply Z.mod_pos_bound; lia|].
    rewrite Zmult_mod_idemp_r, Z.mul_comm. unfold eqm in Cx. rewrite <- Cx. apply Z.mod_1_l. lia.
Qed.

Lemma mod_inverse_big_none a m : 1 < m -> Z.gcd a m <> 1 -> mod_inverse_big a m = None.
Proof.
  intros Hm Hg. unfold mod_inverse_big.
  pose proof (Z.mod_pos_bound a m ltac:(lia)) as B.
  pose proof (bitlen_spec m ltac:(lia)) as BL.
  pose proof (bitlen_nonneg m) as B0.
  destruct (egcd_loop_ok m a (Z.to_nat (2 * bitlen m)) (Z.to_nat (2 * bitlen m + 4)) m 0 (a mod m) 1)
    as [x [Ex Cx]]; try lia.
  - rewrite Z2Nat.id by lia. rewrite Z.mul_comm with (n := 2). rewrite Z.pow_mul_r by lia.
    change (2 ^ bitlen m ^ 2) with ((2 ^ bitlen m) ^ 2). rewrite Z.pow_2_r. nia.
  - unfold eqm. rewrite Z.mul_0_l, Z.mod_same by lia. rewrite Z.mod_0_l by lia. reflexivity.
  - rewrite Z.mul_1_l. apply eqm_mod.
  - rewrite Ex. rewrite gcd_mod' in * by lia. destruct (Z.gcd a m =? 1) eqn:E; [lia|reflexivity].
Qed.

Lemma mod_inverse_spec v q : 1 < q < W64 ->
  (Z.gcd v q = 1 -> exists x, mod_inverse v q = Some x /\ 0 <= x < q /\ (v * x) mod q = 1)
  /\ (Z.gcd v q <> 1 -> mod_inverse v q = None).
Proof.
  intros Hq. split; intros Hg; unfold mod_inverse.
  - destruct (mod_inverse_big_some v q) as [x [E [R C]]]; auto; [lia|].
    rewrite E, to_u64_ok by lia. eauto.
  - rewrite mod_inverse_big_none by (auto; lia). reflexivity.
Qed.

(** * Bit vectors *)
Lemma shiftr1 v : Z.shiftr v 1 = v / 2.
Proof. rewrite shiftr_div by lia. reflexivity. Qed.
Lemma land1 v : (Z.land v 1 =? 1) = Z.testbit v 0.
Proof.
  change 1 with (Z.ones 1). rewrite Z.land_ones by lia. change (2 ^ 1) with 2. change (Z.ones 1) with 1.
  rewrite <- Z.bit0_mod. destruct (Z.testbit v 0); reflexivity.
Qed.
Lemma testbit_half v i : Z.testbit (v / 2) (Z.of_nat i) = Z.testbit v (Z.of_nat (S i)).
Proof. rewrite <- Z.div2_div, Z.div2_spec, Z.shiftr_spec by lia. f_equal. lia. Qed.

Lemma bit_vector_loop_ok fuel : forall v index bv,
  0 <= v < 2 ^ Z.of_nat fuel -> v < 2 ^ (Z.of_nat (length bv) - Z.of_nat index) -> (index <= length bv)%nat ->
  (forall i, (index <= i < length bv)%nat -> nth i bv false = false) ->
  exists r, bit_vector_loop fuel v index bv = Ok r /\ length r = length bv /\
    forall i, (i < length bv)%nat ->
      nth i r false = if (i <? index)%nat then nth i bv false else Z.testbit v (Z.of_nat (i - index)).
Proof.
  induction fuel as [|fuel IH]; intros v index bv Hv Hb Hi Hz.
  - change (2 ^ Z.of_nat 0) with 1 in Hv. assert (v = 0) by lia. subst v.
    exists bv. simpl. repeat split; auto. intros i Hi'.
    destruct (i <? index)%nat eqn:E; auto. rewrite Z.testbit_0_l. apply Hz. lia.
  - cbn [bit_vector_loop]. destruct (v =? 0) eqn:E0.
    + apply Z.eqb_eq in E0. subst v. exists bv. repeat split; auto. intros i Hi'.
      destruct (i <? index)%nat eqn:E; auto. rewrite Z.testbit_0_l. apply Hz. lia.
    + assert (Hlt : (index < length bv)%nat).
      { destruct (Nat.eq_dec index (length bv)); [|lia].
        subst index. rewrite Z.sub_diag in Hb. change (2 ^ 0) with 1 in Hb. lia. }
      rewrite set_ok by auto. cbn [bind]. rewrite land1, shiftr1.
      destruct (IH (v / 2) (S index) (upd bv index (Z.testbit v 0))) as [r [Er [Lr Nr]]].
      * split; [apply Z.div_pos; lia|]. apply Z.div_lt_upper_bound; [lia|].
        rewrite <- Z.pow_succ_r by lia. rewrite <- Nat2Z.inj_succ. lia.
      * rewrite upd_length. apply Z.div_lt_upper_bound; [lia|].
        rewrite <- Z.pow_succ_r by lia. 
        replace (Z.succ (Z.of_nat (length bv) - Z.of_nat (S index))) with (Z.of_nat (length bv) - Z.of_nat index) by lia. auto.
      * rewrite upd_length. lia.
      * rewrite upd_length. intros i Hi'. rewrite upd_nth_other by lia. apply Hz. lia.
      * exists r. split; auto. rewrite upd_length in *. split; auto.
        intros i Hi'. rewrite Nr by auto.
        destruct (i <? S index)%nat eqn:E1; destruct (i <? index)%nat eqn:E2; try lia.
        -- apply upd_nth_other. lia.
        -- assert (i = index) by lia. subst i. rewrite upd_nth_same by auto.
           rewrite Nat.sub_diag. reflexivity.
        -- rewrite testbit_half. f_equal. lia.
Qed.

Lemma bit_vector_ok bits m : 0 <= bits < W63 -> 0 <= m < 2 ^ 64 -> m < 2 ^ bits ->
  bit_vector bits m = Ok (map (fun j => Z.testbit m (Z.of_nat j)) (seq 0 (Z.to_nat bits))).
Proof.
  intros Hb Hm Hm'. unfold bit_vector, vec_repeat.
  replace (bits * 1 <? W63) with true by lia. cbn [bind].
  destruct (bit_vector_loop_ok 64 m 0 (repeat false (Z.to_nat bits))) as [r [E [L N]]].
  - auto.
  - rewrite repeat_length. rewrite Z2Nat.id by lia. rewrite Z.sub_0_r. auto.
  - lia.
  - intros. apply nth_repeat.
  - rewrite E. f_equal. rewrite repeat_length in *.
    apply (nth_ext' _ _ false).
    + rewrite map_length, seq_length. auto.
    + intros i Hi. rewrite L in Hi. rewrite N by auto. simpl (i <? 0)%nat.
      rewrite nth_map_seq by auto. rewrite Nat.sub_0_r. reflexivity.
Qed.

Lemma bit_vector_loop_panic fuel : forall v index bv,
  0 <= v < 2 ^ Z.of_nat fuel -> (index <= length bv)%nat -> 2 ^ (Z.of_nat (length bv) - Z.of_nat index) <= v ->
  bit_vector_loop fuel v index bv = Panic.
Proof.
  induction fuel as [|fuel IH]; intros v index bv Hv Hi Hb.
  - change (2 ^ Z.of_nat 0) with 1 in Hv.
    assert (0 < 2 ^ (Z.of_nat (length bv) - Z.of_nat index)) by (apply Z.pow_pos_nonneg; lia). lia.
  - assert (0 < 2 ^ (Z.of_nat (length bv) - Z.of_nat index)) by (apply Z.pow_pos_nonneg; lia).
    cbn [bit_vector_loop]. destruct (v =? 0) eqn:E0; [lia|].
    unfold set. destruct (index <? length bv)%nat eqn:E1; [|reflexivity]. cbn [bind].
    rewrite shiftr1. apply IH.
    + split; [apply Z.div_pos; lia|]. apply Z.div_lt_upper_bound; [lia|].
      rewrite <- Z.pow_succ_r by lia. rewrite <- Nat2Z.inj_succ. lia.
    + rewrite upd_length. lia.
    + rewrite upd_length. apply Z.div_le_lower_bound; [lia|].
      rewrite <- Z.pow_succ_r by lia.
      replace (Z.succ (Z.of_nat (length bv) - Z.of_nat (S index))) with (Z.of_nat (length bv) - Z.of_nat index) by lia. auto.
Qed.
Lemma bit_vector_panic bits m : 0 <= bits < W63 -> 0 <= m < 2 ^ 64 -> 2 ^ bits <= m ->
  bit_vector bits m = Panic.
Proof.
  intros Hb Hm Hm'. unfold bit_vector, vec_repeat.
  replace (bits * 1 <? W63) with true by lia. cbn [bind].
  apply bit_vector_loop_panic; auto; [lia|].
  rewrite repeat_length. rewrite Z2Nat.id by lia. rewrite Z.sub_0_r. auto.
Qed.

(** Chunks *)
Lemma skipn_skipn' {A} a b (l : list A) : skipn a (skipn b l) = skipn (a + b) l.
Proof.
  revert l; induction b as [|b IH]; intros l; [rewrite Nat.add_0_r; reflexivity|].
  destruct l; [rewrite !skipn_nil; reflexivity|]. rewrite Nat.add_succ_r. simpl. apply IH.
Qed.

Definition nchunks (len k : nat) : nat := ((len + k - 1) / k)%nat.

Lemma chunks_fuel_spec {A} (k : nat) : (0 < k)%nat -> forall fuel (l : list A),
  (length l <= fuel)%nat ->
  chunks_fuel fuel k l = map (fun i => firstn k (skipn (i * k) l)) (seq 0 (nchunks (length l) k)).
Proof.
  intros Hk. unfold nchunks. induction fuel as [|fuel IH]; intros l Hl.
  - destruct l; simpl in *; [|lia]. rewrite Nat.div_small by lia. reflexivity.
  - cbn [chunks_fuel]. destruct l as [|x l].
    + simpl length. rewrite Nat.div_small by lia. reflexivity.
    + set (L := x :: l) in *. 
      assert (HL : (0 < length L)%nat) by (subst L; simpl; lia).
      rewrite IH by (rewrite skipn_length; lia).
      rewrite skipn_length.
      assert (E : ((length L + k - 1) / k = S ((length L - k + k - 1) / k))%nat).
      { destruct (le_lt_dec k (length L)).
        - replace (length L + k - 1)%nat with ((length L - k + k - 1) + 1 * k)%nat by lia.
          rewrite Nat.div_add by lia. lia.
        - replace (length L - k)%nat with 0%nat by lia.
          rewrite (Nat.div_small (0 + k - 1)) by lia.
          replace (length L + k - 1)%nat with ((length L - 1) + 1 * k)%nat by lia.
          rewrite Nat.div_add by lia. rewrite Nat.div_small by lia. reflexivity. }
      rewrite E. simpl seq. cbn [map]. f_equal.
      rewrite <- seq_shift, map_map. apply map_ext. intros i.
      rewrite skipn_skipn'. do 2 f_equal. simpl. lia.
Qed.

Fixpoint bits_val (l : list bool) : Z :=
  match l with [] => 0 | b :: l' => b2z b + 2 * bits_val l' end.

Lemma bits_val_range l : 0 <= bits_val l < 2 ^ Z.of_nat (length l).
Proof.
  induction l as [|b l IH]; cbn [bits_val length]; [simpl; lia|].
  rewrite Nat2Z.inj_succ, Z.pow_succ_r by lia. destruct b; unfold b2z; lia.
Qed.

Lemma bits_val_testbit m : 0 <= m -> forall n s, 
  bits_val (map (fun j => Z.testbit m (Z.of_nat j)) (seq s n)) = (m / 2 ^ Z.of_nat s) mod 2 ^ Z.of_nat n.
Proof.
  intros Hm. induction n as [|n IH]; intros s.
  - simpl. rewrite Z.mod_1_r. reflexivity.
  - cbn [seq map bits_val]. rewrite IH.
    rewrite !Nat2Z.inj_succ, !Z.pow_succ_r by lia.
    assert (E : b2z (Z.testbit m (Z.of_nat s)) = (m / 2 ^ Z.of_nat s) mod 2).
    { rewrite <- Z.bit0_mod. rewrite Z.div_pow2_bits by lia. unfold b2z. 
      rewrite Z.add_0_l. destruct (Z.testbit m (Z.of_nat s)); reflexivity. }
    rewrite E. rewrite (Z.mul_comm 2 (2 ^ Z.of_nat s)). rewrite <- Z.div_div by lia.
    set (q := m / 2 ^ Z.of_nat s).
    rewrite Z.rem_mul_r by lia. reflexivity.
Qed.

Lemma bits_val_snoc l b : bits_val (l ++ [b]) = bits_val l + b2z b * 2 ^ Z.of_nat (length l).
Proof.
  induction l as [|c l IH]; [simpl; lia|].
  cbn [app bits_val length]. rewrite IH, Nat2Z.inj_succ, Z.pow_succ_r by lia. ring.
Qed.

Lemma chunk_fold_ok pr l : bits_val l < 2 ^ 64 ->
  foldM (fun acc (b : bool) => d <- mul64 pr acc 2 ;; add64 pr d (if b then 1 else 0)) (rev l) 0 = Ok (bits_val l).
Proof.
  induction l as [|b l IH]; intros H; [reflexivity|].
  cbn [rev]. rewrite foldM_app. cbn [bits_val] in H.
  pose proof (bits_val_range l) as R.
  assert (0 <= b2z b <= 1) by (destruct b; simpl; lia).
  rewrite IH by lia. cbn [bind foldM].
  rewrite mul64_ok by lia. cbn [bind].
  change (if b then 1 else 0) with (b2z b).
  rewrite add64_ok by lia. cbn [bind bits_val]. f_equal. lia.
Qed.

Lemma firstn_map {A B} (f : A -> B) n l : firstn n (map f l) = map f (firstn n l).
Proof. revert n; induction l; destruct n; simpl; auto. f_equal. auto. Qed.
Lemma skipn_map' {A B} (f : A -> B) n l : skipn n (map f l) = map f (skipn n l).
Proof. revert n; induction l; destruct n; simpl; auto. Qed.
Lemma skipn_seq s n k : skipn k (seq s n) = seq (s + k) (n - k).
Proof.
  revert s n; induction k as [|k IH]; intros s n; [simpl; f_equal; lia|].
  destruct n; [reflexivity|]. simpl. rewrite IH. f_equal; lia.
Qed.
Lemma firstn_seq s n k : firstn k (seq s n) = seq s (min k n).
Proof.
  revert s n; induction k as [|k IH]; intros s n; [reflexivity|].
  destruct n; [reflexivity|]. simpl. rewrite IH. reflexivity.
Qed.

Lemma digit_prefix m B a b : 0 <= m < 2 ^ B -> 0 <= a <= B -> 0 <= b -> 
  (m / 2 ^ a) mod 2 ^ (Z.min b (B - a)) = (m / 2 ^ a) mod 2 ^ b.
Proof.
  intros Hm Ha Hb. destruct (Z_le_dec b (B - a)).
  - rewrite Z.min_l by lia. reflexivity.
  - rewrite Z.min_r by lia.
    assert (0 <= m / 2 ^ a < 2 ^ (B - a)).
    { split; [apply Z.div_pos; lia|]. apply Z.div_lt_upper_bound; [lia|].
      rewrite <- Z.pow_add_r by lia. replace (a + (B - a)) with B by ring. lia. }
    rewrite !Z.mod_small; auto. split; [lia|].
    apply Z.lt_le_trans with (2 ^ (B - a)); [lia|]. apply Z.pow_le_mono_r; lia.
Qed.

Lemma decompose_bits_ok pr m bits d : 0 <= bits < W63 -> 0 <= m < 2 ^ 64 -> m < 2 ^ bits -> (0 < d)%nat ->
  decompose_bits pr m bits d =
  Ok (map (fun i => (m / 2 ^ Z.of_nat (i * d)) mod 2 ^ Z.of_nat d) (seq 0 (nchunks (Z.to_nat bits) d))).
Proof.
  intros Hb Hm Hm' Hd. unfold decompose_bits. rewrite bit_vector_ok by auto. cbn [bind].
  unfold chunks. replace (d =? 0)%nat with false by lia. cbn [bind].
  rewrite (chunks_fuel_spec d Hd) by lia. rewrite map_length, seq_length.
  rewrite (mapM_ok _ bits_val).
  - f_equal. rewrite map_map. apply map_ext_in. intros i Hi. apply in_seq in Hi.
    rewrite skipn_map', firstn_map, skipn_seq, firstn_seq. simpl (0 + _)%nat.
    rewrite bits_val_testbit by lia.
    assert (Hid : (i * d <= Z.to_nat bits)%nat).
    { unfold nchunks in Hi. destruct Hi as [_ Hi]. simpl in Hi.
      assert (S i <= (Z.to_nat bits + d - 1) / d)%nat by lia.
      assert (d * S i <= Z.to_nat bits + d - 1)%nat.
      { eapply Nat.le_trans; [apply Nat.mul_le_mono_l; eassumption|]. apply Nat.mul_div_le. lia. }
      nia. }
    replace (Z.of_nat (min d (Z.to_nat bits - i * d))) with (Z.min (Z.of_nat d) (bits - Z.of_nat (i * d))) by lia.
    apply digit_prefix; lia.
  - intros c Hc. apply chunk_fold_ok. apply in_map_iff in Hc. destruct Hc as [i [<- Hi]].
    rewrite skipn_map', firstn_map, skipn_seq, firstn_seq.
    rewrite bits_val_testbit by lia.
    set (P := 2 ^ Z.of_nat (min d (Z.to_nat bits - i * d))).
    assert (HP : 0 < P) by (apply Z.pow_pos_nonneg; lia).
    assert (Z.of_nat (0 + i * d) >= 0) by lia.
    set (Q := 2 ^ Z.of_nat (0 + i * d)).
    assert (HQ : 0 < Q) by (apply Z.pow_pos_nonneg; lia).
    pose proof (div_shrink m Q (2 ^ 64) Hm HQ).
    eapply Z.le_lt_trans; [apply Z.mod_le; lia|]. lia.
Qed.

Lemma digits_recompose m d k : 0 <= m -> 0 <= d -> 
  sumn k (fun i => (m / 2 ^ (Z.of_nat i * d)) mod 2 ^ d * 2 ^ (Z.of_nat i * d)) = m mod 2 ^ (Z.of_nat k * d).
Proof.
  intros Hm Hd. induction k as [|k IH].
  - simpl sumn. simpl Z.of_nat. rewrite Z.mul_0_l. change (2 ^ 0) with 1. rewrite Z.mod_1_r. reflexivity.
  - cbn [sumn]. rewrite IH. replace (Z.of_nat (S k) * d) with (Z.of_nat k * d + d) by lia.
    rewrite Z.pow_add_r by lia. rewrite Z.rem_mul_r by lia. ring.
Qed.
