(** Claim C77: how likely PVW decryption fails. *)
From Verif Require Import PBase Spec SpecProb PSum MModulus PModulus MUtils PUtils PUtils2 MPvw SpecPvw QProb QPvw.

Lemma sumb_le m : forall f g, (forall l, length l = m -> f l <= g l) -> sumb m f <= sumb m g.
Proof.
  induction m as [|m IH]; intros f g H; cbn [sumb]; [apply H; reflexivity|].
  apply Z.add_le_mono; apply IH; intros l Hl; apply H; cbn [length]; lia.
Qed.

(** Weights: a bit counts x when set and y when not. *)
Lemma sumb_weight x y n : sumb n (fun l => x ^ ones l * y ^ (Z.of_nat n - ones l)) = (x + y) ^ Z.of_nat n.
Proof.
  assert (B : forall l, 0 <= ones l <= Z.of_nat (length l)).
  { induction l as [|b l IH]; [cbn; lia|]. rewrite ones_cons. cbn [length]. destruct b; cbn [Z.b2z]; lia. }
  induction n as [|n IH].
  - cbn. lia.
  - cbn [sumb]. rewrite (sumb_ext n (fun l => x ^ ones (false :: l) * _) (fun l => y * (x ^ ones l * y ^ (Z.of_nat n - ones l)))).
    2:{ intros l Hl. rewrite ones_cons. cbn [Z.b2z]. specialize (B l). rewrite Z.add_0_l.
        replace (Z.of_nat (S n) - ones l) with (Z.succ (Z.of_nat n - ones l)) by lia. rewrite Z.pow_succ_r by lia. ring. }
    rewrite (sumb_ext n (fun l => x ^ ones (true :: l) * _) (fun l => x * (x ^ ones l * y ^ (Z.of_nat n - ones l)))).
    2:{ intros l Hl. rewrite ones_cons. cbn [Z.b2z]. specialize (B l). rewrite (Z.add_comm 1). rewrite Z.pow_add_r by lia.
        replace (Z.of_nat (S n) - (ones l + 1)) with (Z.of_nat n - ones l) by lia. ring. }
    rewrite !sumb_mul, IH, Nat2Z.inj_succ, Z.pow_succ_r by lia. ring.
Qed.

Lemma ones_bound l : 0 <= ones l <= Z.of_nat (length l).
Proof. induction l as [|b l IH]; [cbn; lia|]. rewrite ones_cons. cbn [length]. destruct b; cbn [Z.b2z]; lia. Qed.

Lemma samp1_bound V l : length l = (4 * V)%nat -> - (2 * Z.of_nat V) <= samp1 V l <= 2 * Z.of_nat V.
Proof.
  intros H. unfold samp1. pose proof (ones_bound (firstn (2 * V) l)) as A. pose proof (ones_bound (firstn (2 * V) (skipn (2 * V) l))) as B.
  rewrite firstn_length_le in A by lia. rewrite firstn_length_le in B by (rewrite skipn_length; lia). lia.
Qed.

Lemma samp1_weight x y V :
  sumb (4 * V) (fun l => x ^ (2 * Z.of_nat V + samp1 V l) * y ^ (2 * Z.of_nat V - samp1 V l)) = (x + y) ^ (4 * Z.of_nat V).
Proof.
  set (n := (2 * V)%nat). set (f := fun a => x ^ ones a * y ^ (Z.of_nat n - ones a)). set (g := fun b => y ^ ones b * x ^ (Z.of_nat n - ones b)).
  rewrite (sumb_ext _ _ (fun l => f (firstn n l) * g (skipn n l))).
  - replace (4 * V)%nat with (n + n)%nat by (unfold n; lia). rewrite sumb_split. unfold f, g. rewrite !sumb_weight. rewrite (Z.add_comm y x), <- Z.pow_add_r by lia. f_equal. unfold n. lia.
  - intros l Hl. unfold f, g, samp1. fold n. assert (Hn : length (skipn n l) = n) by (rewrite skipn_length; unfold n; lia).
    rewrite (firstn_all2 (n := n) (skipn n l)) by lia. pose proof (ones_bound (firstn n l)) as A. rewrite firstn_length_le in A by (unfold n; lia).
    pose proof (ones_bound (skipn n l)) as B. rewrite Hn in B. set (a := ones (firstn n l)) in *. set (b := ones (skipn n l)) in *. clearbody a b.
    replace (2 * Z.of_nat V) with (Z.of_nat n) by (unfold n; lia). replace (Z.of_nat n + (a - b)) with (a + (Z.of_nat n - b)) by lia.
    replace (Z.of_nat n - (a - b)) with ((Z.of_nat n - a) + b) by lia. rewrite !Z.pow_add_r by lia. ring.
Qed.

(** The selected error as a function of the bits. *)
Fixpoint esum (V : nat) (e : list Z) (l : list bool) : Z :=
  match e with [] => 0 | b :: e' => b * samp1 V (firstn (4 * V) l) + esum V e' (skipn (4 * V) l) end.
Fixpoint suml (e : list Z) : Z := match e with [] => 0 | b :: e' => b + suml e' end.

Lemma suml_sumn e : suml e = sumn (length e) (fun i => nth i e 0).
Proof. induction e as [|b e IH]; [reflexivity|]. cbn [suml length]. rewrite sumn_S_l, IH. reflexivity. Qed.
Lemma esum_samps V e : forall l, esum V e l = sumn (length e) (fun i => nth i e 0 * nth i (samps (length e) V l) 0).
Proof. induction e as [|b e IH]; intros l; [reflexivity|]. cbn [esum length samps]. rewrite sumn_S_l, IH. reflexivity. Qed.

Lemma suml_pos e : (forall b, In b e -> b = 0 \/ b = 1) -> 0 <= suml e.
Proof. induction e as [|b e IH]; intros H; cbn [suml]; [lia|]. specialize (H b (or_introl eq_refl)) as Hb. assert (0 <= suml e) by (apply IH; intros; apply H; right; auto). lia. Qed.
Lemma esum_bound V e : (forall b, In b e -> b = 0 \/ b = 1) -> forall l, (4 * V * length e <= length l)%nat ->
  - (2 * Z.of_nat V * suml e) <= esum V e l <= 2 * Z.of_nat V * suml e.
Proof.
  induction e as [|b e IH]; intros H l Hl; cbn [esum suml]; [lia|]. cbn [length] in Hl.
  pose proof (IH ltac:(intros; apply H; right; auto) (skipn (4 * V) l) ltac:(rewrite skipn_length; lia)).
  pose proof (samp1_bound V (firstn (4 * V) l) ltac:(apply firstn_length_le; lia)).
  destruct (H b (or_introl eq_refl)) as [-> | ->]; lia.
Qed.

Lemma esum_weight x y V e : (forall b, In b e -> b = 0 \/ b = 1) -> forall r,
  sumb (4 * V * length e + r) (fun l => x ^ (2 * Z.of_nat V * suml e + esum V e l) * y ^ (2 * Z.of_nat V * suml e - esum V e l)) * 4 ^ (2 * Z.of_nat V * suml e)
  = (x + y) ^ (2 * (2 * Z.of_nat V * suml e)) * 2 ^ Z.of_nat (4 * V * length e + r).
Proof.
  induction e as [|b e IH]; intros H r; cbn [esum suml length].
  - rewrite (sumb_ext _ _ (fun _ => 1)) by (intros; rewrite !Z.mul_0_r; reflexivity). rewrite sumb_const, !Z.mul_0_r, !Z.pow_0_r. lia.
  - specialize (IH ltac:(intros; apply H; right; auto) r). pose proof (suml_pos e ltac:(intros; apply H; right; auto)) as SP.
    assert (EB : forall l, (4 * V * length e <= length l)%nat -> - (2 * Z.of_nat V * suml e) <= esum V e l <= 2 * Z.of_nat V * suml e)
      by (apply esum_bound; intros; apply H; right; auto).
    replace (4 * V * S (length e) + r)%nat with (4 * V + (4 * V * length e + r))%nat by lia. set (R := (4 * V * length e + r)%nat) in *.
    set (S1 := suml e) in *. set (W := fun l => x ^ (2 * Z.of_nat V * S1 + esum V e l) * y ^ (2 * Z.of_nat V * S1 - esum V e l)) in *.
    destruct (H b (or_introl eq_refl)) as [-> | ->].
    + set (one := fun _ : list bool => 1). rewrite (sumb_ext _ _ (fun l => one (firstn (4 * V) l) * W (skipn (4 * V) l))).
      2:{ intros l _. unfold W, one. rewrite !Z.mul_0_l, !Z.add_0_l. lia. }
      rewrite sumb_split. unfold one. rewrite sumb_const, Z.add_0_l. rewrite Nat2Z.inj_add, Z.pow_add_r by lia.
      replace (1 * 2 ^ Z.of_nat (4 * V) * sumb R W * 4 ^ (2 * Z.of_nat V * S1)) with (2 ^ Z.of_nat (4 * V) * (sumb R W * 4 ^ (2 * Z.of_nat V * S1))) by ring.
      rewrite IH. ring.
    + set (g := fun l => x ^ (2 * Z.of_nat V + samp1 V l) * y ^ (2 * Z.of_nat V - samp1 V l)). rewrite (sumb_ext _ _ (fun l => g (firstn (4 * V) l) * W (skipn (4 * V) l))).
      2:{ intros l Hl. unfold W, g. pose proof (samp1_bound V (firstn (4 * V) l) ltac:(apply firstn_length_le; lia)) as A.
          pose proof (EB (skipn (4 * V) l) ltac:(rewrite skipn_length; unfold R in Hl; lia)) as B.
          set (s := samp1 V _) in *. set (t := esum V e _) in *. clearbody s t.
          replace (2 * Z.of_nat V * (1 + S1) + (1 * s + t)) with ((2 * Z.of_nat V + s) + (2 * Z.of_nat V * S1 + t)) by ring.
          replace (2 * Z.of_nat V * (1 + S1) - (1 * s + t)) with ((2 * Z.of_nat V - s) + (2 * Z.of_nat V * S1 - t)) by ring.
          rewrite (Z.pow_add_r x (2 * Z.of_nat V + s)), (Z.pow_add_r y (2 * Z.of_nat V - s)) by lia. ring. }
      rewrite sumb_split. unfold g at 1. rewrite samp1_weight. rewrite Nat2Z.inj_add, (Z.pow_add_r 2) by lia.
      replace (2 * Z.of_nat V * (1 + S1)) with (2 * Z.of_nat V + 2 * Z.of_nat V * S1) by ring.
      assert (0 <= 2 * Z.of_nat V * S1) by nia. rewrite Z.mul_add_distr_l, !Z.pow_add_r by lia.
      replace (4 ^ (2 * Z.of_nat V)) with (2 ^ Z.of_nat (4 * V)).
      2:{ change 4 with (2 ^ 2). rewrite <- Z.pow_mul_r by lia. f_equal. lia. }
      replace ((x + y) ^ (4 * Z.of_nat V) * sumb R W * (2 ^ Z.of_nat (4 * V) * 4 ^ (2 * Z.of_nat V * S1)))
        with ((x + y) ^ (4 * Z.of_nat V) * 2 ^ Z.of_nat (4 * V) * (sumb R W * 4 ^ (2 * Z.of_nat V * S1))) by ring.
      rewrite IH. replace (2 * (2 * Z.of_nat V)) with (4 * Z.of_nat V) by ring. ring.
Qed.

(** One tail: [x >= y] weighs large errors up. *)
Lemma tail_pt x y K E T : 0 < y <= x -> 0 <= T -> - K <= E <= K -> T <= E ->
  x ^ T * (x * y) ^ K <= y ^ T * (x ^ (K + E) * y ^ (K - E)).
Proof.
  intros Hxy HT HE HTE. replace (K + E) with ((E - T) + (K + T)) by lia. replace (y ^ T * (x ^ ((E - T) + (K + T)) * y ^ (K - E))) with (x ^ ((E - T) + (K + T)) * (y ^ T * y ^ (K - E))) by ring.
  rewrite <- Z.pow_add_r by lia. replace (x ^ T * (x * y) ^ K) with (x ^ (K + T) * y ^ K) by (rewrite Z.pow_mul_l, Z.pow_add_r by lia; ring).
  rewrite (Z.pow_add_r x (E - T)) by lia. replace (y ^ K) with (y ^ (E - T) * y ^ (T + (K - E))) by (rewrite <- Z.pow_add_r by lia; f_equal; lia).
  assert (y ^ (E - T) <= x ^ (E - T)) by (apply Z.pow_le_mono_l; lia).
  assert (0 < x ^ (K + T)) by (apply Z.pow_pos_nonneg; lia). assert (0 < y ^ (T + (K - E))) by (apply Z.pow_pos_nonneg; lia).
  generalize dependent (x ^ (K + T)). generalize dependent (y ^ (T + (K - E))). generalize dependent (x ^ (E - T)). generalize dependent (y ^ (E - T)). clear.
  intros a b Hab c Hc d Hd. assert (G : a * (c * d) <= b * (c * d)) by (apply Z.mul_le_mono_nonneg_r; nia).
  match goal with |- ?l <= ?r => replace l with (a * (c * d)) by ring; replace r with (b * (c * d)) by ring end. exact G.
Qed.

Definition far (T E : Z) : bool := (T <=? E) || (E <=? - T).
Lemma tail_block x y V e T r : 0 < y <= x -> 0 <= T -> (forall b, In b e -> b = 0 \/ b = 1) ->
  let K := 2 * Z.of_nat V * suml e in let M := (4 * V * length e + r)%nat in
  sumb M (fun l => if far T (esum V e l) then 1 else 0) * (x ^ T * (4 * (x * y)) ^ K) <= 2 * (y ^ T * (x + y) ^ (2 * K)) * 2 ^ Z.of_nat M.
Proof.
  intros Hxy HT He K M. pose proof (suml_pos e He) as SP. assert (HK : 0 <= K) by (unfold K; nia).
  pose proof (esum_weight x y V e He r) as W1. pose proof (esum_weight y x V e He r) as W2. fold M in W1, W2. fold K in W1, W2.
  set (w1 := fun l => x ^ (K + esum V e l) * y ^ (K - esum V e l)) in *. set (w2 := fun l => y ^ (K + esum V e l) * x ^ (K - esum V e l)) in *.
  assert (PW : sumb M (fun l => (x ^ T * (x * y) ^ K) * (if far T (esum V e l) then 1 else 0)) <= sumb M (fun l => y ^ T * (w1 l + w2 l))).
  { apply sumb_le. intros l Hl. pose proof (esum_bound V e He l ltac:(unfold M in Hl; lia)) as EB. fold K in EB. unfold w1, w2. set (E := esum V e l) in *. clearbody E.
    assert (N1 : 0 <= x ^ (K + E) * y ^ (K - E)) by (apply Z.mul_nonneg_nonneg; apply Z.pow_nonneg; lia).
    assert (N2 : 0 <= y ^ (K + E) * x ^ (K - E)) by (apply Z.mul_nonneg_nonneg; apply Z.pow_nonneg; lia).
    assert (N3 : 0 <= y ^ T) by (apply Z.pow_nonneg; lia).
    unfold far. destruct (Z.leb_spec T E) as [A|A]; cbn [orb].
    - pose proof (tail_pt x y K E T Hxy HT EB A) as P. rewrite Z.mul_add_distr_l, Z.mul_1_r. pose proof (Z.mul_nonneg_nonneg _ _ N3 N2) as N4.
      eapply Z.le_trans; [exact P|]. revert N4. generalize (y ^ T * (x ^ (K + E) * y ^ (K - E))) (y ^ T * (y ^ (K + E) * x ^ (K - E))). clear. lia.
    - destruct (Z.leb_spec E (- T)) as [B|B].
      + pose proof (tail_pt x y K (- E) T Hxy HT ltac:(lia) ltac:(lia)) as P. replace (K + - E) with (K - E) in P by lia. replace (K - - E) with (K + E) in P by lia.
        rewrite Z.mul_add_distr_l, Z.mul_1_r. pose proof (Z.mul_nonneg_nonneg _ _ N3 N1) as N4. rewrite (Z.mul_comm (y ^ (K + E))).
        eapply Z.le_trans; [exact P|]. revert N4. generalize (y ^ T * (x ^ (K + E) * y ^ (K - E))) (y ^ T * (x ^ (K - E) * y ^ (K + E))). clear. lia.
      + rewrite Z.mul_0_r. apply Z.mul_nonneg_nonneg; [exact N3|]. apply Z.add_nonneg_nonneg; assumption. }
  rewrite !sumb_mul, sumb_add in PW. set (C := sumb M (fun l => if far T (esum V e l) then 1 else 0)) in *. rewrite (Z.add_comm y x) in W2.
  rewrite Z.pow_mul_l. assert (P4 : 0 < 4 ^ K) by (apply Z.pow_pos_nonneg; lia).
  apply (Z.mul_le_mono_nonneg_r _ _ (4 ^ K)) in PW; [|lia].
  replace (C * (x ^ T * (4 ^ K * (x * y) ^ K))) with (x ^ T * (x * y) ^ K * C * 4 ^ K) by ring.
  eapply Z.le_trans; [exact PW|]. apply Z.eq_le_incl.
  replace (y ^ T * (sumb M w1 + sumb M w2) * 4 ^ K) with (y ^ T * (sumb M w1 * 4 ^ K + sumb M w2 * 4 ^ K)) by ring. rewrite W1, W2. ring.
Qed.

(** One block out of several. *)
Lemma sumb_block M ell l f : (l < ell)%nat -> sumb (ell * M) (fun r => f (block M l r)) * 2 ^ Z.of_nat M = 2 ^ Z.of_nat (ell * M) * sumb M f.
Proof.
  intros Hl. assert (EM : (ell * M = l * M + (M + (ell - l - 1) * M))%nat) by (replace ell with (l + (1 + (ell - l - 1)))%nat at 1 by lia; rewrite !Nat.mul_add_distr_r; lia).
  rewrite EM at 1.
  set (one := fun _ : list bool => 1). set (g := fun s => f (firstn M s)).
  rewrite (sumb_ext _ _ (fun r => one (firstn (l * M) r) * g (skipn (l * M) r))) by (intros; unfold block, one, g; lia).
  rewrite sumb_split. unfold one, g. rewrite sumb_const, sumb_shift. replace (2 ^ Z.of_nat (ell * M)) with (2 ^ Z.of_nat (l * M) * 2 ^ Z.of_nat ((ell - l - 1) * M) * 2 ^ Z.of_nat M).
  - ring.
  - rewrite <- !Z.pow_add_r by (repeat apply Z.add_nonneg_nonneg; apply Nat2Z.is_nonneg). f_equal. rewrite EM, !Nat2Z.inj_add. ring.
Qed.

Lemma sumb_sumn m n f : sumb m (fun r => sumn n (fun l => f l r)) = sumn n (fun l => sumb m (f l)).
Proof.
  induction n as [|n IH]; cbn [sumn]; [apply sumb_const with (c := 0)|]. rewrite sumb_add, IH. reflexivity.
Qed.

(** C77: for every key, matrix, message and selection of rows, the fraction of
    outcomes of the error generator for which decryption does not return the
    message is at most 2 ell (y/x)^T ((x+y)^2/(4xy))^K, for all 0 < y <= x, where
    T = floor(q/4) and K is 2*variance times the number of selected rows. *)
Lemma C77_failure_lem :
  forall pr P v sk a m e M x y, 2 <= pv_q P < 2 ^ 62 -> pv_variance P = Z.of_nat v -> (1 <= v <= 16)%nat ->
    matrix (pv_q P) (pv_ell P) (pv_n P) sk -> matrix (pv_q P) (pv_m P) (pv_n P) a -> bits (pv_ell P) m -> bits (pv_m P) e ->
    (4 * v * pv_m P <= M)%nat -> 0 < y <= x ->
    let T := pv_q P / 4 in let K := 2 * Z.of_nat v * sumn (pv_m P) (fun i => nth i e 0) in
    countb (pv_ell P * M) (fun r => negb (returns (pk <- pvw_gen_pk pr sk P a (fun l => words_of (block M l r)) ;;
                                                   ct <- pvw_encrypt pr pk P m e ;; pvw_decrypt pr sk P ct) m))
      * (x ^ T * (4 * (x * y)) ^ K)
    <= 2 * Z.of_nat (pv_ell P) * (y ^ T * (x + y) ^ (2 * K)) * 2 ^ Z.of_nat (pv_ell P * M).
Proof.
  intros pr P v sk a m e M x y HQ EV HV HS HA HM Hb HL Hxy T K.
  destruct Hb as [Le Re]. assert (He : forall b, In b e -> b = 0 \/ b = 1).
  { intros b Hi. apply (In_nth _ _ 0) in Hi. destruct Hi as [i [Hi <-]]. apply Re. lia. }
  assert (HT : 0 <= T) by (apply Z.div_pos; lia).
  assert (EK : K = 2 * Z.of_nat v * suml e) by (unfold K; rewrite suml_sumn, Le; reflexivity).
  set (F := fun r => negb _). unfold countb.
  assert (UB : sumb (pv_ell P * M) (fun r => if F r then 1 else 0) <= sumn (pv_ell P) (fun l => sumb (pv_ell P * M) (fun r => (fun b => if far T (esum v e b) then 1 else 0) (block M l r)))).
  { rewrite <- (sumb_sumn (pv_ell P * M) (pv_ell P) (fun l r => if far T (esum v e (block M l r)) then 1 else 0)). apply sumb_le. intros r Hr.
    assert (LB : forall l, (l < pv_ell P)%nat -> length (block M l r) = M) by (intros l Hl; unfold block; apply firstn_length_le; rewrite skipn_length, Hr; nia).
    assert (NN : forall k, 0 <= sumn k (fun l => if far T (esum v e (block M l r)) then 1 else 0)).
    { induction k as [|k IHk]; cbn [sumn]; [lia|]. destruct (far T (esum v e (block M k r))); lia. }
    destruct (F r) eqn:EF; [|apply NN].
    assert (G : exists l, (l < pv_ell P)%nat /\ far T (esum v e (block M l r)) = true).
    { destruct (existsb (fun l => far T (esum v e (block M l r))) (seq 0 (pv_ell P))) eqn:EX.
      - apply existsb_exists in EX. destruct EX as [l [Hl Hf]]. apply in_seq in Hl. exists l. split; [lia|exact Hf].
      - exfalso. unfold F in EF. apply Bool.negb_true_iff in EF.
        rewrite (C48_decrypt_lem pr P sk a (fun l => words_of (block M l r)) (fun l => samps (pv_m P) v (block M l r)) m e) in EF; auto.
        + assert (returns (Ok m) m = true) by (apply returns_spec; reflexivity). congruence.
        + intros l Hl. rewrite EV. apply sampler_samps; [exact HV|]. rewrite LB by auto. exact HL.
        + intros l k _. apply words_range.
        + split; auto.
        + intros l Hl. assert (NF : far T (esum v e (block M l r)) = false).
          { destruct (far T (esum v e (block M l r))) eqn:Q; [|reflexivity]. rewrite <- EX. symmetry. apply existsb_exists. exists l. split; [apply in_seq; lia|exact Q]. }
          rewrite esum_samps, Le in NF. unfold pvw_error. unfold far in NF. apply Bool.orb_false_iff in NF. destruct NF as [N1 N2].
          apply Z.leb_gt in N1, N2. fold T. assert (2 * T <= pv_q P / 2). { unfold T. apply Z.div_le_lower_bound; [lia|]. pose proof (Z.mul_div_le (pv_q P) 4 ltac:(lia)). lia. }
          lia. }
    destruct G as [l [Hl Hf]]. rewrite <- (Z.add_0_l 1). 
    assert (GE : forall k, (l < k)%nat -> 1 <= sumn k (fun l => if far T (esum v e (block M l r)) then 1 else 0)).
    { induction k as [|k IHk]; intros Hk; [lia|]. cbn [sumn]. destruct (Nat.eq_dec l k) as [->|].
      - rewrite Hf. specialize (NN k). lia.
      - specialize (IHk ltac:(lia)). destruct (far T (esum v e (block M k r))); lia. }
    apply GE; auto. }
  pose proof (tail_block x y v e T (M - 4 * v * length e) Hxy HT He) as TB. cbv zeta in TB. rewrite Le in TB.
  replace (4 * v * pv_m P + (M - 4 * v * pv_m P))%nat with M in TB by lia. rewrite <- EK in TB.
  set (B := sumb M _) in TB. assert (P2 : 0 < 2 ^ Z.of_nat M) by (apply Z.pow_pos_nonneg; lia).
  assert (SB : sumn (pv_ell P) (fun l => sumb (pv_ell P * M) (fun r => (fun b => if far T (esum v e b) then 1 else 0) (block M l r))) * 2 ^ Z.of_nat M
               = Z.of_nat (pv_ell P) * (2 ^ Z.of_nat (pv_ell P * M) * B)).
  { rewrite <- sumn_mul_r. rewrite (sumn_ext _ _ (fun _ => 2 ^ Z.of_nat (pv_ell P * M) * B)); [apply sumn_const|].
    intros l Hl. apply (sumb_block M (pv_ell P) l (fun b => if far T (esum v e b) then 1 else 0)). exact Hl. }
  set (D := x ^ T * (4 * (x * y)) ^ K) in *. assert (PD : 0 <= D).
  { assert (0 <= x * y) by (clear - Hxy; nia). unfold D. apply Z.mul_nonneg_nonneg; apply Z.pow_nonneg; clear - Hxy H; lia. }
  set (C := sumb (pv_ell P * M) (fun r => if F r then 1 else 0)) in *. set (S0 := sumn (pv_ell P) _) in *. set (U := y ^ T * (x + y) ^ (2 * K)) in *.
  set (N := 2 ^ Z.of_nat (pv_ell P * M)) in *. assert (PN : 0 < N) by (apply Z.pow_pos_nonneg; lia). set (m2 := 2 ^ Z.of_nat M) in *.
  apply (Z.mul_le_mono_pos_r _ _ m2); [exact P2|]. generalize dependent m2. generalize dependent N. generalize dependent D. generalize dependent S0. clearbody C U B. generalize (Nat2Z.is_nonneg (pv_ell P)).
  generalize (Z.of_nat (pv_ell P)). clear. intros L HL S0 UB D PD N PN m2 TB P2 SB.
  apply Z.le_trans with (S0 * m2 * D). { replace (C * D * m2) with (C * (m2 * D)) by ring. replace (S0 * m2 * D) with (S0 * (m2 * D)) by ring. apply Z.mul_le_mono_nonneg_r; nia. }
  rewrite SB. replace (L * (N * B) * D) with ((L * N) * (B * D)) by ring. replace (2 * L * U * N * m2) with ((L * N) * (2 * U * m2)) by ring. apply Z.mul_le_mono_nonneg_l; nia.
Qed.

(*EXAMPLE
(** One slot, one row, variance 1, q = 4: of the 16 outcomes of 4 bits six have an
    error of 1, 2 or -2, and decryption is wrong for these. *)
Example C77_example :
  countb 4 (fun r => negb (returns (pk <- pvw_gen_pk Debug [[1]] (mkPvw 1 1 1 4 1) [[3]] (fun l => words_of (block 4 l r)) ;;
                                    ct <- pvw_encrypt Debug pk (mkPvw 1 1 1 4 1) [0] [1] ;; pvw_decrypt Debug [[1]] (mkPvw 1 1 1 4 1) ct) [0])) = 6.
Proof. vm_compute. reflexivity. Qed.
EXAMPLE*)

Lemma pow_le_mono a b c n : 0 <= n -> 0 <= a -> 0 <= c -> a <= c * b -> 0 <= b -> a ^ n <= c ^ n * b ^ n.
Proof. intros. rewrite <- Z.pow_mul_l. apply Z.pow_le_mono_l. lia. Qed.

(** 16^K <= 4^(K/21+1) * 15^K *)
Lemma pow_16_15 K : 0 <= K -> 16 ^ K <= 4 ^ (K / 21 + 1) * 15 ^ K.
Proof.
  intros HK. pose proof (Z.div_mod K 21 ltac:(lia)) as D. pose proof (Z.mod_pos_bound K 21 ltac:(lia)) as R.
  set (a := K / 21) in *. set (b := K mod 21) in *. assert (0 <= a) by (apply Z.div_pos; lia). clearbody a b. subst K.
  assert (P1 : (16 ^ 21) ^ a <= 4 ^ a * (15 ^ 21) ^ a) by (apply pow_le_mono; try lia).
  assert (P2 : 16 ^ b <= 4 ^ 1 * 15 ^ b).
  { assert (exists k, (k < 21)%nat /\ b = Z.of_nat k) as [k [Hk ->]] by (exists (Z.to_nat b); lia).
    do 21 (destruct k as [|k]; [vm_compute; discriminate|]). lia. }
  rewrite !Z.pow_add_r, !Z.pow_mul_r by lia.
  replace (4 ^ a * 4 ^ 1 * ((15 ^ 21) ^ a * 15 ^ b)) with (4 ^ a * (15 ^ 21) ^ a * (4 ^ 1 * 15 ^ b)) by ring.
  apply Z.mul_le_mono_nonneg; auto; apply Z.pow_nonneg; lia.
Qed.

Lemma pow_5_3 n r : 0 <= n -> 0 <= r -> 2 ^ (14 * n) * 3 ^ (19 * n + r) <= 5 ^ (19 * n + r).
Proof.
  intros Hn Hr. rewrite !Z.pow_add_r, !Z.pow_mul_r by lia. rewrite Z.mul_assoc, <- Z.pow_mul_l.
  apply Z.mul_le_mono_nonneg; try (apply Z.pow_nonneg; lia); apply Z.pow_le_mono_l; lia.
Qed.

Lemma default_numbers K : 0 <= K <= 64000 -> 8 * (3 ^ 16384 * 8 ^ (2 * K)) * 2 ^ 5900 <= 5 ^ 16384 * 60 ^ K.
Proof.
  intros HK. rewrite (Z.pow_mul_r 8 2) by (clear - HK; lia). change (8 ^ 2) with (16 * 4). replace 60 with (15 * 4) by reflexivity. rewrite !Z.pow_mul_l.
  assert (P4 : 0 < 4 ^ K) by (clear - HK; apply Z.pow_pos_nonneg; lia). assert (P15 : 0 < 15 ^ K) by (clear - HK; apply Z.pow_pos_nonneg; lia).
  pose proof (pow_16_15 K ltac:(clear - HK; lia)) as A.
  assert (A2 : 4 ^ (K / 21 + 1) <= 2 ^ 6096).
  { assert (HD : 0 <= K / 21 <= 3047) by (clear - HK; split; [apply Z.div_pos; lia|apply Z.lt_succ_r; apply Z.div_lt_upper_bound; lia]). clear - HD.
    change 4 with (2 ^ 2). rewrite <- Z.pow_mul_r by lia. apply Z.pow_le_mono_r; lia. }
  assert (P3 : 0 < 3 ^ 16384) by (apply Z.pow_pos_nonneg; [reflexivity|discriminate]).
  assert (E : 8 * 2 ^ 6096 * 2 ^ 5900 <= 2 ^ 12068).
  { change 8 with (2 ^ 3). rewrite <- (Z.pow_add_r 2 3), <- Z.pow_add_r by discriminate. apply Z.pow_le_mono_r; [reflexivity|]. discriminate. }
  assert (P0 : 0 < 2 ^ 5900) by (apply Z.pow_pos_nonneg; [reflexivity|discriminate]).
  pose proof (pow_5_3 862 6 ltac:(discriminate) ltac:(discriminate)) as B. replace (19 * 862 + 6) with 16384 in B by reflexivity. replace (14 * 862) with 12068 in B by reflexivity.
  generalize dependent (4 ^ K). generalize dependent (15 ^ K). generalize dependent (16 ^ K). generalize dependent (4 ^ (K / 21 + 1)).
  generalize dependent (5 ^ 16384). generalize dependent (3 ^ 16384). generalize dependent (2 ^ 6096). generalize dependent (2 ^ 5900). generalize dependent (2 ^ 12068).
  clear. intros t u P0 f E th P3 fi B g Hg s h P15 Hs w Pw.
  assert (S : s <= f * h) by (apply Z.le_trans with (g * h); [exact Hs|apply Z.mul_le_mono_nonneg_r; lia]).
  assert (G1 : 8 * th * s * u <= (8 * f * u) * (th * h)).
  { replace (8 * th * s * u) with (8 * th * u * s) by ring. replace (8 * f * u * (th * h)) with (8 * th * u * (f * h)) by ring. apply Z.mul_le_mono_nonneg_l; nia. }
  assert (G2 : (8 * f * u) * (th * h) <= t * (th * h)) by (apply Z.mul_le_mono_nonneg_r; nia).
  assert (G3 : t * (th * h) <= fi * h) by (replace (t * (th * h)) with (t * th * h) by ring; apply Z.mul_le_mono_nonneg_r; nia).
  replace (8 * (th * (s * w)) * u) with (8 * th * s * u * w) by ring. replace (fi * (h * w)) with (fi * h * w) by ring.
  apply Z.mul_le_mono_nonneg_r; [lia|]. lia.
Qed.

(** C77: with the default parameters the fraction of outcomes of the error
    generator for which decryption is wrong is at most 2^-5900, whatever the key,
    the matrix, the message and the selected rows (so C49's failing outcomes exist
    but are out of reach). *)
Lemma C77_default_lem :
  forall pr sk a m e M, matrix (pv_q pvw_default) (pv_ell pvw_default) (pv_n pvw_default) sk ->
    matrix (pv_q pvw_default) (pv_m pvw_default) (pv_n pvw_default) a -> bits (pv_ell pvw_default) m -> bits (pv_m pvw_default) e ->
    (8 * pv_m pvw_default <= M)%nat ->
    countb (4 * M) (fun r => negb (returns (pk <- pvw_gen_pk pr sk pvw_default a (fun l => words_of (block M l r)) ;;
                                            ct <- pvw_encrypt pr pk pvw_default m e ;; pvw_decrypt pr sk pvw_default ct) m)) * 2 ^ 5900
    <= 2 ^ Z.of_nat (4 * M).
Proof.
  intros pr sk a m e M HS HA HM Hb HL.
  pose proof (C77_failure_lem pr pvw_default 2 sk a m e M 5 3 ltac:(cbn; lia) eq_refl ltac:(lia) HS HA HM Hb HL ltac:(lia)) as F. cbv zeta in F.
  remember (pv_m pvw_default) as B eqn:EB. assert (HB : Z.of_nat B = 16000) by (rewrite EB; unfold pvw_default; cbn [pv_m]; rewrite Nat2Z.inj_mul; reflexivity). clear EB.
  assert (HK : 0 <= 4 * sumn B (fun i => nth i e 0) <= 64000).
  { clear - Hb HB. destruct Hb as [_ Rb]. pose proof (sumn_le B (fun _ => 0) (fun i => nth i e 0) (fun i Hi => ltac:(destruct (Rb i Hi); lia))) as G0.
    pose proof (sumn_le B (fun i => nth i e 0) (fun _ => 1) (fun i Hi => ltac:(destruct (Rb i Hi); lia))) as G1. rewrite sumn_const in G0, G1. lia. }
  change (pv_ell pvw_default) with 4%nat in F. change (pv_q pvw_default / 4) with 16384 in F.
  change (2 * Z.of_nat 2) with 4 in F. change (2 * Z.of_nat 4) with 8 in F. change (4 * (5 * 3)) with 60 in F. change (5 + 3) with 8 in F.
  set (K := 4 * sumn B _) in *. clearbody K. pose proof (default_numbers K HK) as DN.
  set (C := countb _ _) in *. clearbody C. assert (PN : 0 < 2 ^ Z.of_nat (4 * M)) by (clear; apply Z.pow_pos_nonneg; lia).
  assert (PD : 0 < 5 ^ 16384 * 60 ^ K) by (clear - HK; apply Z.mul_pos_pos; (apply Z.pow_pos_nonneg; [reflexivity|lia])).
  assert (PU : 0 <= 3 ^ 16384 * 8 ^ (2 * K)) by (clear; apply Z.mul_nonneg_nonneg; apply Z.pow_nonneg; discriminate).
  assert (P0 : 0 < 2 ^ 5900) by (apply Z.pow_pos_nonneg; [reflexivity|discriminate]).
  generalize dependent (2 ^ Z.of_nat (4 * M)). generalize dependent (5 ^ 16384 * 60 ^ K). generalize dependent (3 ^ 16384 * 8 ^ (2 * K)). generalize dependent (2 ^ 5900).
  clear. intros t Pt u Hu d DN Pd n F Pn. apply (Z.mul_le_mono_pos_r _ _ d); [exact Pd|].
  apply Z.le_trans with (8 * u * n * t). { replace (C * t * d) with (C * d * t) by ring. apply Z.mul_le_mono_nonneg_r; lia. }
  replace (8 * u * n * t) with (n * (8 * u * t)) by ring. apply Z.mul_le_mono_nonneg_l; lia.
Qed.

Definition passes (o : outcome unit) : bool := match o with Ok _ => true | _ => false end.

(** C77: the crate's own test passes for all but a fraction 2^-5900 of the outcomes. *)
Lemma C77_test_lem :
  forall pr sk a m e M, matrix 65537 4 450 sk -> matrix 65537 (pv_m pvw_default) 450 a -> bits 4 m -> bits (pv_m pvw_default) e ->
    (8 * pv_m pvw_default <= M)%nat ->
    countb (4 * M) (fun r => negb (passes (test_pvw_encrypt_decrypt pr sk a (fun l => words_of (block M l r)) m e))) * 2 ^ 5900 <= 2 ^ Z.of_nat (4 * M).
Proof.
  intros pr sk a m e M HS HA HM Hb HL. eapply Z.le_trans; [|apply (C77_default_lem pr sk a m e M HS HA HM Hb HL)].
  apply Z.mul_le_mono_nonneg_r; [apply Z.pow_nonneg; discriminate|]. apply sumb_le. intros r _.
  match goal with |- _ <= (if negb (returns ?o m) then _ else _) => set (rt := o) end.
  assert (ET : test_pvw_encrypt_decrypt pr sk a (fun l => words_of (block M l r)) m e = (d <- rt ;; rassert (zlist_eqb d m))).
  { unfold test_pvw_encrypt_decrypt, pvw_gen_sk, rt. destruct (modulus_new_ok (pv_q pvw_default) ltac:(cbn; lia)) as [qm [EM _]]. rewrite EM. cbn [bind].
    destruct (pvw_gen_pk _ _ _ _ _); cbn [bind]; try reflexivity. destruct (pvw_encrypt _ _ _ _ _); reflexivity. }
  rewrite ET. destruct (returns rt m) eqn:R; cbn [negb].
  - apply returns_spec in R. rewrite R. cbn [bind]. rewrite (proj2 (zlist_eqb_eq m m) eq_refl). cbn. lia.
  - destruct (passes _); cbn [negb]; lia.
Qed.
