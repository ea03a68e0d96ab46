(** Construction of NTT operators. *)
From Coq Require Import Zpow_facts.
From Verif Require Import PBase NT Spec PSum MModulus MUtils MNtt PModulus PUtils PNttMath PNtt.

(** ** Powers of two *)
Lemma pow2_test n : is_power_of_two (Z.of_nat n) = true -> exists k, n = (2 ^ k)%nat.
Proof.
  unfold is_power_of_two. intros H. apply andb_true_iff in H. destruct H as [H1 H2].
  apply Z.ltb_lt in H1. apply Z.eqb_eq in H2.
  set (z := Z.of_nat n) in *. exists (Z.to_nat (Z.log2 z)).
  apply Nat2Z.inj. rewrite pow2_Z, Z2Nat.id by apply Z.log2_nonneg. fold z.
  destruct (Z.log2_spec z H1) as [L1 L2].
  destruct (Z.eq_dec z (2 ^ Z.log2 z)) as [|Hne]; auto. exfalso.
  assert (B : Z.log2 (z - 1) = Z.log2 z).
  { apply Z.log2_unique; [apply Z.log2_nonneg|]. lia. }
  assert (T1 : Z.testbit z (Z.log2 z) = true) by (apply Z.bit_log2; auto).
  assert (T2 : Z.testbit (z - 1) (Z.log2 z) = true).
  { rewrite <- B. apply Z.bit_log2. pose proof (Z.pow_pos_nonneg 2 (Z.log2 z)). pose proof (Z.log2_nonneg z). lia. }
  assert (T : Z.testbit (Z.land z (z - 1)) (Z.log2 z) = true) by (rewrite Z.land_spec, T1, T2; reflexivity).
  rewrite H2, Z.bits_0 in T. discriminate.
Qed.

Lemma pow2_test_true k : is_power_of_two (Z.of_nat (2 ^ k)) = true.
Proof.
  unfold is_power_of_two. rewrite pow2_Z. apply andb_true_iff. split.
  - apply Z.ltb_lt. apply Z.pow_pos_nonneg; lia.
  - apply Z.eqb_eq.
    replace (2 ^ Z.of_nat k - 1) with (Z.ones (Z.of_nat k)) by (rewrite Z.ones_equiv; lia).
    rewrite Z.land_ones by lia. apply Z_mod_same_full.
Qed.

(** ** bit reversal of machine words *)
Lemma rev_bits_0 w : rev_bits w 0 = 0.
Proof. induction w as [|w IH]; [reflexivity|]. cbn [rev_bits]. rewrite Z.mod_0_l, Z.div_0_l by lia. rewrite IH. lia. Qed.

Lemma rev_bits_ext k j i : (i < 2 ^ k)%nat ->
  rev_bits (k + j) (Z.of_nat i) = Z.of_nat (bitrev k i) * 2 ^ Z.of_nat j.
Proof.
  revert i; induction k as [|k IH]; intros i Hi.
  - simpl in Hi. replace i with 0%nat by lia. cbn [Nat.add]. change (Z.of_nat 0) with 0. rewrite rev_bits_0. simpl. reflexivity.
  - cbn [Nat.add rev_bits]. rewrite bitrev_S.
    replace (Z.of_nat i mod 2) with (Z.of_nat (i mod 2)) by (rewrite Nat2Z.inj_mod; reflexivity).
    replace (Z.of_nat i / 2) with (Z.of_nat (i / 2)) by (rewrite Nat2Z.inj_div; reflexivity).
    rewrite IH by (apply div2_lt; auto).
    rewrite (Nat2Z.inj_add k j), (Nat2Z.inj_add (i mod 2 * 2 ^ k)), Nat2Z.inj_mul, pow2_Z, Z.pow_add_r by lia. ring.
Qed.

Lemma bitrev_usize_ok L i : (L <= 63)%nat -> (i < 2 ^ L)%nat ->
  bitrev_usize (2 ^ L) (Z.of_nat i) = Z.of_nat (bitrev L i).
Proof.
  intros HL Hi. unfold bitrev_usize, leading_zeros.
  rewrite bitlen_log2 by (apply (Nat2Z.inj_lt 0), pow2_pos).
  rewrite pow2_Z, Z.log2_pow2 by lia.
  replace (64 - (Z.of_nat L + 1) + 1) with (Z.of_nat (64 - L)) by lia.
  replace 64%nat with (L + (64 - L))%nat at 1 by lia. rewrite rev_bits_ext by auto.
  rewrite Z.shiftr_div_pow2 by lia. apply Z.div_mul. apply Z.pow_nonzero; lia.
Qed.

Lemma mod_pow a b q : 0 <= b -> (a mod q) ^ b mod q = a ^ b mod q.
Proof. intros H. apply (eqm_pow q (a mod q) a b); auto. apply eqm_mod. Qed.

Lemma nonresidue q d c n : prime q -> 2 <= q -> 0 < n -> q - 1 = c * (2 * n) ->
  ((((d ^ ((q - 1) / (2 * n)) mod q) ^ (2 * n) mod q =? 1)
    && negb ((d ^ ((q - 1) / (2 * n)) mod q) ^ n mod q =? 1)) = true
   <-> d ^ ((q - 1) / 2) mod q = q - 1).
Proof.
  intros P Hq Hn Hc.
  assert (Ec : (q - 1) / (2 * n) = c) by (rewrite Hc; apply Z.div_mul; lia). rewrite Ec. clear Ec.
  assert (Hc0 : 0 <= c) by nia. assert (H2n : 0 <= 2 * n) by lia. assert (Hn0 : 0 <= n) by lia.
  assert (Hcn : 0 <= c * n) by nia. assert (H02 : 0 <= 2) by lia. assert (Hq2 : q <> 2) by nia.
  assert (Eh : (q - 1) / 2 = c * n) by (rewrite Hc; replace (c * (2 * n)) with (c * n * 2) by ring; apply Z.div_mul; lia).
  rewrite Eh. clear Eh. rewrite !mod_pow by auto. rewrite <- !Z.pow_mul_r by auto.
  replace (c * (2 * n)) with (c * n * 2) by ring. rewrite (Z.pow_mul_r d (c * n) 2) by auto.
  generalize (d ^ (c * n)). intros x. clear Hc Hc0 Hcn d. rewrite andb_true_iff, negb_true_iff, Z.eqb_eq, Z.eqb_neq.
  assert (SQ : x ^ 2 = (x - 1) * (x + 1) + 1) by ring. rewrite SQ. clear SQ.
  assert (S1 : forall y, y mod q = 1 <-> eqm q y 1) by (intros; unfold eqm; rewrite (Z.mod_small 1); [reflexivity|lia]).
  assert (S2 : forall y, y mod q = q - 1 <-> eqm q y (q - 1)) by (intros; unfold eqm; rewrite (Z.mod_small (q - 1)); [reflexivity|lia]).
  rewrite !S1, S2. split.
  - intros [H1 H2].
    assert (H : eqm q ((x - 1) * (x + 1)) 0).
    { replace ((x - 1) * (x + 1)) with ((x - 1) * (x + 1) + 1 - 1) by ring. rewrite H1. reflexivity. }
    apply prime_mul_zero in H; auto. destruct H as [E|E].
    + exfalso. apply H2. replace x with ((x - 1) + 1) by ring. rewrite E. reflexivity.
    + replace x with ((x + 1) + -1) by ring. rewrite E.
      replace (q - 1) with (0 + -1 + 1 * q) by ring. rewrite eqm_add_mult. reflexivity.
  - intros H. rewrite H. split.
    + replace ((q - 1 - 1) * (q - 1 + 1) + 1) with (1 + (q - 2) * q) by ring. apply eqm_add_mult.
    + intros C. apply eqm_small in C; lia.
Qed.

(** ** Primitive root search *)
Section New.
Variables (pr : profile) (env : Env) (p : Modulus).
Hypothesis V : valid_mod p.
Let q := mp p.

Lemma q_range : 2 <= q < P62.
Proof. apply valid_range; auto. Qed.

Lemma is_primitive_root_ok v n : 0 <= v < q -> 0 <= n < q ->
  is_primitive_root pr v n p = Ok ((v ^ n mod q =? 1) && negb (v ^ (n / 2) mod q =? 1)).
Proof.
  intros Hv Hn. unfold is_primitive_root. fold q. rewrite dassert_true by lia. cbn [bind].
  rewrite mpow_ok by auto. cbn [bind]. fold q.
  destruct (v ^ n mod q =? 1); [|reflexivity].
  assert (0 <= n / 2 <= n) by dlia.
  rewrite mpow_ok by (auto; fold q; lia). reflexivity.
Qed.

Definition good_draw (L : nat) (k : nat) : bool :=
  let v := draw env q k ^ ((q - 1) / (2 * Z.of_nat (2 ^ L))) mod q in
  (v ^ (2 * Z.of_nat (2 ^ L)) mod q =? 1) && negb (v ^ Z.of_nat (2 ^ L) mod q =? 1).

Lemma loop_find L tries : (forall k, 0 <= draw env q k < q) -> 2 * Z.of_nat (2 ^ L) < q ->
  forall k, primitive_root_loop pr env tries k ((q - 1) / (2 * Z.of_nat (2 ^ L))) (2 ^ L) p
  = match find (good_draw L) (seq k tries) with
    | Some j => Ok (draw env q j ^ ((q - 1) / (2 * Z.of_nat (2 ^ L))) mod q)
    | None => Panic
    end.
Proof.
  intros Hd HL. pose proof q_range as Hq.
  assert (Hn : 0 < Z.of_nat (2 ^ L)) by (apply (Nat2Z.inj_lt 0), pow2_pos).
  assert (Hlam : 0 <= (q - 1) / (2 * Z.of_nat (2 ^ L)) < q).
  { split; [apply Z.div_pos; lia|]. apply Z.le_lt_trans with (q - 1); [|lia].
    apply Z.div_le_upper_bound; nia. }
  induction tries as [|tries IH]; intros k; [reflexivity|].
  cbn [primitive_root_loop seq find]. fold q.
  rewrite mpow_ok by (auto; apply Hd). cbn [bind]. fold q.
  rewrite is_primitive_root_ok by (try lia; apply Z.mod_pos_bound; lia).
  cbn [bind]. unfold good_draw at 1. replace (2 * Z.of_nat (2 ^ L) / 2) with (Z.of_nat (2 ^ L))
    by (rewrite Z.mul_comm, Z.div_mul; lia).
  destruct (_ && _); [reflexivity|]. apply IH.
Qed.

Hypothesis P : prime q.

Lemma good_root L k : good_draw L k = true ->
  let v := draw env q k ^ ((q - 1) / (2 * Z.of_nat (2 ^ L))) mod q in
  0 <= v < q /\ eqm q (pw v (2 ^ L)) (-1).
Proof.
  unfold good_draw. pose proof q_range as Hq.
  set (v := draw env q k ^ ((q - 1) / (2 * Z.of_nat (2 ^ L))) mod q). cbv zeta. intros H.
  apply andb_true_iff in H. destruct H as [H1 H2]. apply Z.eqb_eq in H1. apply negb_true_iff, Z.eqb_neq in H2.
  split; [apply Z.mod_pos_bound; lia|]. unfold pw. set (x := v ^ Z.of_nat (2 ^ L)) in *.
  assert (E : eqm q ((x - 1) * (x - -1)) 0).
  { replace ((x - 1) * (x - -1)) with (x ^ 2 - 1) by ring.
    unfold x. rewrite <- Z.pow_mul_r by (try apply Nat2Z.is_nonneg; discriminate). rewrite (Z.mul_comm _ 2).
    assert (C : eqm q (v ^ (2 * Z.of_nat (2 ^ L))) 1) by (unfold eqm; rewrite H1, Z.mod_small; lia).
    rewrite C. reflexivity. }
  apply prime_mul_zero in E; auto. destruct E as [E|E].
  - exfalso. apply H2. assert (C : eqm q x 1).
    { replace x with ((x - 1) + 1) by ring. rewrite E. reflexivity. }
    unfold eqm in C. rewrite C. apply Z.mod_small. lia.
  - replace x with ((x - -1) + -1) by ring. rewrite E. reflexivity.
Qed.

(** The search succeeds exactly on quadratic non-residues. *)
Lemma good_draw_iff L k : 0 <= draw env q k < q -> (2 * Z.of_nat (2 ^ L) | q - 1) ->
  (good_draw L k = true <-> draw env q k ^ ((q - 1) / 2) mod q = q - 1).
Proof.
  intros Hd [c Hc]. unfold good_draw. cbv zeta. apply nonresidue with c; auto.
  - exact (proj1 q_range).
  - apply (Nat2Z.inj_lt 0), pow2_pos.
Qed.

Lemma powers_loop_ok w c : 0 <= w < q -> forall v, 0 <= v < q ->
  powers_loop pr p w c v = Ok (map (fun i => (v * pw w i) mod q) (seq 0 c)).
Proof.
  intros Hw. pose proof q_range as Hq. induction c as [|c IH]; intros v Hv; [reflexivity|].
  cbn [powers_loop]. rewrite mmul_ok by auto. cbn [bind]. fold q.
  rewrite IH by (apply Z.mod_pos_bound; lia). cbn [bind]. f_equal. cbn [seq map].
  rewrite pw_0, Z.mul_1_r, (Z.mod_small v q) by lia. f_equal.
  rewrite <- seq_shift, map_map. apply map_ext. intros i. rewrite pw_S.
  rewrite Z.mul_mod_idemp_l by lia. f_equal. ring.
Qed.

Lemma ntt_new_shape size : (exists op, ntt_new pr env p size = Ok op) ->
  supports_ntt env q size = true.
Proof.
  intros [op H]. unfold ntt_new in H. binv H. apply rassert_inv in E. auto.
Qed.

Lemma supports_inv size : supports_ntt env q size = true ->
  exists L, (3 <= L <= 60)%nat /\ size = (2 ^ L)%nat /\ (2 * Z.of_nat (2 ^ L) | q - 1)
    /\ 2 * Z.of_nat (2 ^ L) < q /\ is_prime env q = true.
Proof.
  pose proof q_range as Hq. unfold supports_ntt.
  destruct (negb (is_power_of_two (Z.of_nat size)) || (Z.of_nat size <? 8)) eqn:E; [discriminate|].
  apply orb_false_iff in E. destruct E as [E1 E2]. apply negb_false_iff in E1. apply Z.ltb_ge in E2.
  destruct (pow2_test size E1) as [L ->]. intros H. apply andb_true_iff in H. destruct H as [H1 H2].
  apply Z.eqb_eq in H1. rewrite Z.shiftl_mul_pow2 in H1 by lia. change (2 ^ 1) with 2 in H1.
  rewrite (Z.mul_comm _ 2) in H1.
  assert (D : (2 * Z.of_nat (2 ^ L) | q - 1)).
  { exists (q / (2 * Z.of_nat (2 ^ L))). pose proof (Z_div_mod_eq_full q (2 * Z.of_nat (2 ^ L))). lia. }
  assert (Hlt : 2 * Z.of_nat (2 ^ L) < q).
  { apply Z.divide_pos_le in D; lia. }
  exists L. split; [|auto]. rewrite pow2_Z in *. split.
  - apply Nat2Z.inj_le. apply (Z.pow_le_mono_r_iff 2); try lia.
  - destruct (le_lt_dec L 60) as [|C]; auto. exfalso.
    assert (2 ^ 61 <= 2 ^ Z.of_nat L) by (apply Z.pow_le_mono_r; lia). change (2 ^ 61) with 2305843009213693952 in H. lia.
Qed.

Lemma supports_true L : (3 <= L <= 60)%nat -> q mod (2 * Z.of_nat (2 ^ L)) = 1 -> is_prime env q = true ->
  supports_ntt env q (2 ^ L) = true.
Proof.
  intros HL H1 H2. unfold supports_ntt. rewrite pow2_test_true.
  assert (Z.of_nat (2 ^ L) >= 8).
  { rewrite pow2_Z. change 8 with (2 ^ 3). apply Z.le_ge, Z.pow_le_mono_r; lia. }
  destruct (Z.of_nat (2 ^ L) <? 8) eqn:E; [lia|]. cbn [negb orb].
  rewrite Z.shiftl_mul_pow2 by lia. change (2 ^ 1) with 2. rewrite (Z.mul_comm _ 2).
  rewrite H1, H2. reflexivity.
Qed.

Definition js L : list nat := map (fun i => Z.to_nat (bitrev_usize (2 ^ L) (Z.of_nat i))) (seq 0 (2 ^ L)).
Lemma js_eq L : (L <= 63)%nat -> js L = map (bitrev L) (seq 0 (2 ^ L)).
Proof.
  intros HL. unfold js. apply map_ext_in. intros i Hi. apply in_seq in Hi.
  rewrite bitrev_usize_ok by lia. apply Nat2Z.id.
Qed.

(** With a good draw the constructor succeeds and the operator is
    well-formed. *)
Lemma ntt_new_good L k : (3 <= L <= 60)%nat -> (forall k, 0 <= draw env q k < q) ->
  supports_ntt env q (2 ^ L) = true -> (2 * Z.of_nat (2 ^ L) | q - 1) -> 2 * Z.of_nat (2 ^ L) < q ->
  find (good_draw L) (seq 0 100) = Some k ->
  let psi := draw env q k ^ ((q - 1) / (2 * Z.of_nat (2 ^ L))) mod q in
  exists op, ntt_new pr env p (2 ^ L) = Ok op /\ nt_p op = p /\ wf_ntt op L psi.
Proof.
  intros HL Hd HS HD Hlt HF psi. pose proof q_range as Hq.
  assert (Hn : 0 < Z.of_nat (2 ^ L)) by (apply (Nat2Z.inj_lt 0), pow2_pos).
  assert (HG : good_draw L k = true) by (apply find_some in HF; tauto).
  destruct (good_root L k HG) as [Rpsi Cpsi]. fold psi in Rpsi, Cpsi.
  unfold ntt_new. fold q. rewrite HS. cbn [rassert bind].
  unfold primitive_root. fold q. rewrite sub64_ok by lia. cbn [bind].
  rewrite udiv_ok by lia. cbn [bind]. rewrite loop_find by auto. rewrite HF. cbn [bind]. fold psi.
  assert (Hpsi0 : 0 < psi < q).
  { split; [|lia]. destruct (Z.eq_dec psi 0) as [E|]; [|lia]. exfalso. rewrite E in Cpsi.
    unfold pw in Cpsi. rewrite Z.pow_0_l in Cpsi by lia.
    apply eqm_divide in Cpsi; [|lia]. destruct Cpsi as [c C]. destruct (Z.eq_dec c 0); nia. }
  destruct (minv_correct pr p psi V P Hpsi0) as [ipsi [Ei [Ri Ci]]]. fold q in Ri, Ci. rewrite Ei. cbn [bind].
  rewrite !powers_loop_ok by lia. cbn [bind].
  fold (js L). rewrite js_eq by lia.
  set (pws := map (fun i => (1 * pw psi i) mod q) (seq 0 (2 ^ L + 1))).
  set (pwi := map (fun i => (1 * pw ipsi i) mod q) (seq 0 (2 ^ L + 1))).
  assert (Np : forall i, (i < 2 ^ L + 1)%nat -> get pws i = Ok (pw psi i mod q)).
  { intros i Hi. rewrite (get_ok _ i 0) by (unfold pws; rewrite map_length, seq_length; auto).
    unfold pws. rewrite nth_map_seq by auto. rewrite Z.mul_1_l. reflexivity. }
  assert (Ni : forall i, (i < 2 ^ L + 1)%nat -> get pwi i = Ok (pw ipsi i mod q)).
  { intros i Hi. rewrite (get_ok _ i 0) by (unfold pwi; rewrite map_length, seq_length; auto).
    unfold pwi. rewrite nth_map_seq by auto. rewrite Z.mul_1_l. reflexivity. }
  assert (Hb : forall j, In j (map (bitrev L) (seq 0 (2 ^ L))) -> (j < 2 ^ L)%nat).
  { intros j Hj. apply in_map_iff in Hj. destruct Hj as [i [<- _]]. apply bitrev_lt. }
  rewrite (mapM_ok _ (fun j => pw psi j mod q)) by (intros j Hj; apply Np; apply Hb in Hj; lia). cbn [bind].
  rewrite (mapM_ok _ (fun j => pw ipsi j mod q)) by (intros j Hj; apply Ni; apply Hb in Hj; lia). cbn [bind].
  rewrite (mapM_ok _ (fun j => pw ipsi (j + 1) mod q)) by (intros j Hj; apply Ni; apply Hb in Hj; lia). cbn [bind].
  unfold shoup_vec.
  assert (RM : forall x, 0 <= x mod q < q) by (intros; apply Z.mod_pos_bound; lia).
  rewrite (mapM_ok _ (shoup_of q)).
  2:{ intros x Hx. apply in_map_iff in Hx. destruct Hx as [j [<- _]]. apply shoup_ok; auto. }
  cbn [bind]. rewrite (mapM_ok _ (shoup_of q)).
  2:{ intros x Hx. apply in_map_iff in Hx. destruct Hx as [j [<- _]]. apply shoup_ok; auto. }
  cbn [bind].
  destruct (minv_correct pr p (Z.of_nat (2 ^ L)) V P ltac:(fold q; lia)) as [ni [En [Rn Cn]]].
  fold q in Rn, Cn. rewrite En. cbn [bind]. rewrite shoup_ok by auto. cbn [bind]. fold q.
  rewrite mul64_ok by lia. cbn [bind].
  eexists. split; [reflexivity|]. split; [reflexivity|].
  constructor; cbn [nt_p nt_p_twice nt_omegas nt_omegas_inv nt_omegas_shoup nt_zetas_inv nt_zetas_inv_shoup nt_size nt_size_inv nt_size_inv_shoup]; fold q; auto.
  - apply Z.mul_comm.
  - rewrite !map_length, seq_length. reflexivity.
  - intros i Hi. rewrite map_map. rewrite nth_map_seq by auto. split; [apply RM|]. apply eqm_mod.
  - rewrite !map_length, seq_length. reflexivity.
  - intros i Hi. rewrite map_map. rewrite nth_map_seq by auto. split; [apply RM|]. rewrite eqm_mod.
    rewrite <- pw_mul_base. rewrite (Z.mul_comm ipsi). rewrite (pw_eqm q _ 1 _ Ci). rewrite pw_one. reflexivity.
  - rewrite Z.mul_comm. auto.
Qed.
End New.

Lemma ntt_new_none pr env p L : valid_mod p -> (forall k, 0 <= draw env (mp p) k < mp p) ->
  supports_ntt env (mp p) (2 ^ L) = true -> 2 * Z.of_nat (2 ^ L) < mp p ->
  find (good_draw env p L) (seq 0 100) = None -> ntt_new pr env p (2 ^ L) = Panic.
Proof.
  intros V Hd HS Hlt HF. pose proof (valid_range p V).
  assert (Hn : 0 < Z.of_nat (2 ^ L)) by (apply (Nat2Z.inj_lt 0), pow2_pos).
  unfold ntt_new. rewrite HS. cbn [rassert bind]. unfold primitive_root.
  rewrite sub64_ok by lia. cbn [bind]. rewrite udiv_ok by lia. cbn [bind].
  rewrite loop_find by auto. rewrite HF. reflexivity.
Qed.

(** Everything known about an operator that was constructed. *)
Lemma ntt_new_inv pr env p size op : valid_mod p ->
  (forall x, 0 <= x < 2 ^ 64 -> is_prime env x = true -> prime x) ->
  (forall k, 0 <= draw env (mp p) k < mp p) ->
  ntt_new pr env p size = Ok op ->
  exists L psi, size = (2 ^ L)%nat /\ nt_p op = p /\ wf_ntt op L psi
    /\ (2 * Z.of_nat size | mp p - 1) /\ prime (mp p) /\ is_prime env (mp p) = true.
Proof.
  intros V HP Hd H. pose proof (valid_range p V) as Hq.
  assert (HS : supports_ntt env (mp p) size = true) by (apply (ntt_new_shape pr); eauto).
  destruct (supports_inv env p V size HS) as [L [HL [-> [HD [Hlt Hip]]]]].
  assert (P : prime (mp p)) by (apply HP; auto; lia).
  destruct (find (good_draw env p L) (seq 0 100)) as [k|] eqn:HF.
  - destruct (ntt_new_good pr env p V P L k HL Hd HS HD Hlt HF) as [op' [E [Ep W]]].
    rewrite E in H. injection H as <-. eauto 10.
  - rewrite ntt_new_none in H by auto. discriminate.
Qed.
