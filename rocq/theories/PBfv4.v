(** SIMD encoding and noise measurement. *)
From Verif Require Import PBase NT Spec PSum MModulus MUtils MNtt MRns MRq MBfv PModulus PNttMath PNtt PNttNew PCrt PRns PRnsScale PUtils PUtils2 SpecRq SpecBfv PRing PRq PRq2 PRq4 PRq5 PBfv PBfv2 PBfv3.

(** Bit reversal of indices that may exceed the size. *)
Lemma rev_bits_range w x : 0 <= rev_bits w x < 2 ^ Z.of_nat w.
Proof.
  revert x. induction w as [|w IH]; intros x; [cbn; lia|]. cbn [rev_bits]. specialize (IH (x / 2)).
  pose proof (Z.mod_pos_bound x 2 ltac:(lia)). rewrite Nat2Z.inj_succ, Z.pow_succ_r by lia. nia.
Qed.
Lemma rev_bits_split k j x : rev_bits (k + j) x = rev_bits k x * 2 ^ Z.of_nat j + rev_bits j (x / 2 ^ Z.of_nat k).
Proof.
  revert x. induction k as [|k IH]; intros x.
  - cbn [Nat.add rev_bits]. change (2 ^ Z.of_nat 0) with 1. rewrite Z.div_1_r. lia.
  - cbn [Nat.add rev_bits]. rewrite IH. rewrite Z.div_div by (try lia; apply Z.pow_pos_nonneg; lia).
    rewrite Nat2Z.inj_succ, Z.pow_succ_r by lia. rewrite Nat2Z.inj_add, Z.pow_add_r by lia. ring.
Qed.
Lemma rev_bits_mod k x : rev_bits k (x mod 2 ^ Z.of_nat k) = rev_bits k x.
Proof.
  revert x. induction k as [|k IH]; intros x; [reflexivity|]. cbn [rev_bits].
  rewrite Nat2Z.inj_succ, Z.pow_succ_r by lia. pose proof (Z.pow_pos_nonneg 2 (Z.of_nat k) ltac:(lia) ltac:(lia)) as HP.
  rewrite Z.rem_mul_r by lia. rewrite <- (IH (x / 2)). f_equal.
  - rewrite <- Z.add_mod_idemp_r by lia. rewrite (Z.mul_comm 2), Z.mod_mul by lia. rewrite Z.add_0_r, Z.mod_mod by lia. reflexivity.
  - f_equal. symmetry. apply Z.div_unique with (x mod 2); [left; apply Z.mod_pos_bound; lia|lia].
Qed.
Lemma bitrev_usize_big L x : (L <= 63)%nat -> 0 <= x ->
  bitrev_usize (2 ^ L) x = Z.of_nat (bitrev L (Z.to_nat (x mod 2 ^ Z.of_nat L))).
Proof.
  intros HL Hx. pose proof (Z.pow_pos_nonneg 2 (Z.of_nat L) ltac:(lia) ltac:(lia)) as HP.
  pose proof (Z.mod_pos_bound x (2 ^ Z.of_nat L) HP) as HM.
  assert (HT : (Z.to_nat (x mod 2 ^ Z.of_nat L) < 2 ^ L)%nat).
  { apply Nat2Z.inj_lt. rewrite Z2Nat.id by lia. rewrite Nat2Z.inj_pow. change (Z.of_nat 2) with 2. lia. }
  unfold bitrev_usize, leading_zeros.
  rewrite bitlen_log2 by (apply (Nat2Z.inj_lt 0), pow2_pos).
  rewrite pow2_Z, Z.log2_pow2 by lia.
  replace (64 - (Z.of_nat L + 1) + 1) with (Z.of_nat (64 - L)) by lia.
  replace 64%nat with (L + (64 - L))%nat at 1 by lia. rewrite rev_bits_split.
  rewrite Z.shiftr_div_pow2 by lia. pose proof (rev_bits_range (64 - L) (x / 2 ^ Z.of_nat L)) as HR.
  rewrite Z.div_add_l by lia. rewrite (Z.div_small (rev_bits _ _)) by auto. rewrite Z.add_0_r.
  rewrite <- rev_bits_mod. pose proof (rev_bits_ext L 0 _ HT) as E. rewrite Nat.add_0_r, Z2Nat.id in E by lia. rewrite E.
  change (2 ^ Z.of_nat 0) with 1. lia.
Qed.

Lemma lor_add L i : (i < 2 ^ L)%nat -> Nat.lor (2 ^ L) i = (2 ^ L + i)%nat.
Proof.
  intros H. assert (E : Nat.land (2 ^ L) i = 0%nat).
  { apply Nat.bits_inj. intros k. rewrite Nat.land_spec, Nat.bits_0, Nat.pow2_bits_eqb.
    destruct (Nat.eqb_spec L k) as [<-|]; [|reflexivity]. cbn [andb].
    destruct (Nat.eq_dec i 0) as [->|]; [apply Nat.bits_0|]. apply Nat.bits_above_log2. apply Nat.log2_lt_pow2; lia. }
  rewrite <- Nat.lxor_lor by auto. symmetry. apply Nat.add_nocarry_lxor. auto.
Qed.

(** The slot map computed by the constructor. *)
Definition slot_pos (L i : nat) : Z := 3 ^ Z.of_nat i mod 2 ^ Z.of_nat (S L).
Definition slot_lo (L i : nat) : nat := bitrev L (Z.to_nat (((slot_pos L i - 1) / 2) mod 2 ^ Z.of_nat L)).
Definition slot_hi (L i : nat) : nat := bitrev L (Z.to_nat ((2 * 2 ^ Z.of_nat L - slot_pos L i - 1) mod 2 ^ Z.of_nat L)).

Lemma slot_pos_range L i : 1 <= slot_pos L i < 2 ^ Z.of_nat (S L).
Proof.
  unfold slot_pos. pose proof (Z.pow_pos_nonneg 2 (Z.of_nat (S L)) ltac:(lia) ltac:(lia)) as HP.
  pose proof (Z.mod_pos_bound (3 ^ Z.of_nat i) (2 ^ Z.of_nat (S L)) HP) as HM. split; [|lia].
  assert (OD : (3 ^ Z.of_nat i mod 2 ^ Z.of_nat (S L)) mod 2 = 1).
  { rewrite Nat2Z.inj_succ, Z.pow_succ_r by lia. rewrite Z.rem_mul_r by (try lia; apply Z.pow_pos_nonneg; lia).
    rewrite <- Z.add_mod_idemp_r by lia. rewrite (Z.mul_comm 2), Z.mod_mul by lia. rewrite Z.add_0_r, Z.mod_mod by lia.
    rewrite <- mod_pow by lia. change (3 mod 2) with 1. rewrite Z.pow_1_l by lia. reflexivity. }
  destruct (Z.eq_dec (3 ^ Z.of_nat i mod 2 ^ Z.of_nat (S L)) 0) as [E|]; [|lia]. rewrite E in OD. discriminate.
Qed.

Lemma index_map_loop_ok L : (1 <= L <= 60)%nat -> forall count i mp, (i + count = 2 ^ (L - 1))%nat -> length mp = (2 ^ L)%nat ->
  exists mp', index_map_loop (2 ^ L) count i (slot_pos L i) mp = Ok mp' /\ length mp' = (2 ^ L)%nat
    /\ (forall j, (j < i)%nat -> nth j mp' 0%nat = nth j mp 0%nat /\ nth (2 ^ (L - 1) + j) mp' 0%nat = nth (2 ^ (L - 1) + j) mp 0%nat)
    /\ (forall j, (i <= j < 2 ^ (L - 1))%nat -> nth j mp' 0%nat = slot_lo L j /\ nth (2 ^ (L - 1) + j) mp' 0%nat = slot_hi L j).
Proof.
  intros HL. assert (E2 : (2 ^ L = 2 * 2 ^ (L - 1))%nat) by (replace L with (S (L - 1)) at 1 by lia; apply Nat.pow_succ_r').
  induction count as [|count IH]; intros i mp Hc Hm.
  - exists mp. cbn [index_map_loop]. split; auto. split; auto. split; [auto|]. intros j Hj. lia.
  - cbn [index_map_loop]. cbv zeta.
    assert (ED : Nat.div2 (2 ^ L) = (2 ^ (L - 1))%nat) by (rewrite E2, Nat.div2_double; reflexivity).
    rewrite ED. rewrite lor_add by lia. rewrite set_ok by lia. cbn [bind]. rewrite set_ok by (rewrite upd_length; lia). cbn [bind].
    pose proof (slot_pos_range L i) as HS. rewrite Nat2Z.inj_succ, Z.pow_succ_r in HS by lia.
    assert (EM : Z.shiftl (Z.of_nat (2 ^ L)) 1 = 2 ^ Z.of_nat (S L)).
    { rewrite Z.shiftl_mul_pow2 by lia. rewrite pow2_Z, Nat2Z.inj_succ, Z.pow_succ_r by lia. change (2 ^ 1) with 2. ring. }
    assert (EP : Z.land (slot_pos L i * 3) (Z.shiftl (Z.of_nat (2 ^ L)) 1 - 1) = slot_pos L (S i)).
    { rewrite EM. replace (2 ^ Z.of_nat (S L) - 1) with (Z.ones (Z.of_nat (S L))) by (rewrite Z.ones_equiv; lia).
      rewrite Z.land_ones by lia. unfold slot_pos. rewrite Zmult_mod_idemp_l. f_equal.
      rewrite (Nat2Z.inj_succ i), Z.pow_succ_r by lia. ring. }
    rewrite EP.
    match goal with |- context [index_map_loop _ _ _ _ ?m] => set (m2 := m) end.
    destruct (IH (S i) m2 ltac:(lia) ltac:(unfold m2; rewrite !upd_length; auto)) as [mp' [E [Lm [H1 H2]]]].
    exists mp'. split; [exact E|]. split; auto. split.
    + intros j Hj. destruct (H1 j ltac:(lia)) as [A B]. rewrite A, B. unfold m2. split.
      * rewrite !upd_nth_other by lia. reflexivity.
      * rewrite !upd_nth_other by lia. reflexivity.
    + intros j Hj. destruct (Nat.eq_dec j i) as [->|]; [|apply H2; lia]. destruct (H1 i ltac:(lia)) as [A B]. rewrite A, B. unfold m2. split.
      * rewrite upd_nth_other, upd_nth_same by lia. rewrite bitrev_usize_big by (try lia; rewrite Z.shiftr_div_pow2 by lia; apply Z.div_pos; lia).
        rewrite Nat2Z.id. unfold slot_lo. rewrite Z.shiftr_div_pow2 by lia. reflexivity.
      * rewrite upd_nth_same by (rewrite upd_length; lia). rewrite EM, Nat2Z.inj_succ, Z.pow_succ_r by lia.
        rewrite bitrev_usize_big by lia. rewrite Nat2Z.id. reflexivity.
Qed.

Lemma index_map_ok L : (1 <= L <= 60)%nat -> exists mp, index_map (2 ^ L) = Ok mp /\ length mp = (2 ^ L)%nat
  /\ forall j, (j < 2 ^ (L - 1))%nat -> nth j mp 0%nat = slot_lo L j /\ nth (2 ^ (L - 1) + j) mp 0%nat = slot_hi L j.
Proof.
  intros HL. assert (E2 : (2 ^ L = 2 * 2 ^ (L - 1))%nat) by (replace L with (S (L - 1)) at 1 by lia; apply Nat.pow_succ_r').
  destruct (index_map_loop_ok L HL (2 ^ (L - 1)) 0 (repeat 0%nat (2 ^ L)) ltac:(lia) (repeat_length _ _)) as [mp [E [Lm [_ H]]]].
  exists mp. unfold index_map. rewrite E2 at 2. rewrite Nat.div2_double.
  assert (E1 : slot_pos L 0 = 1).
  { unfold slot_pos. change (3 ^ Z.of_nat 0) with 1. apply Z.mod_small. rewrite Nat2Z.inj_succ, Z.pow_succ_r by lia.
    pose proof (Z.pow_pos_nonneg 2 (Z.of_nat L) ltac:(lia) ltac:(lia)). lia. }
  rewrite E1 in E. rewrite E. split; auto. split; auto. intros j Hj. apply H. lia.
Qed.

Lemma slot_range L i : (slot_lo L i < 2 ^ L)%nat /\ (slot_hi L i < 2 ^ L)%nat.
Proof.
  assert (HP := Z.pow_pos_nonneg 2 (Z.of_nat L) ltac:(lia) ltac:(lia)).
  assert (X : forall y, (bitrev L (Z.to_nat (y mod 2 ^ Z.of_nat L)) < 2 ^ L)%nat).
  { intros y. apply bitrev_lt. }
  split; apply X.
Qed.

(** 3^(2^k) = 1 + 2^(k+2) * odd. *)
Lemma pow3 k : (1 <= k)%nat -> exists u, 3 ^ (2 ^ Z.of_nat k) = 1 + 2 ^ Z.of_nat (k + 2) * (2 * u + 1).
Proof.
  intros H. induction k as [|k IH]; [lia|]. destruct (Nat.eq_dec k 0) as [->|Hk].
  - exists 0. reflexivity.
  - destruct (IH ltac:(lia)) as [u E]. rewrite Nat2Z.inj_succ, Z.pow_succ_r by lia. rewrite (Z.mul_comm 2), Z.pow_mul_r by (try lia; apply Z.pow_nonneg; lia).
    rewrite E. replace (S k + 2)%nat with (S (k + 2)) by lia. rewrite (Nat2Z.inj_succ (k + 2)), Z.pow_succ_r by lia.
    replace (Z.of_nat (k + 2)) with (Z.succ (Z.of_nat k + 1)) by lia. rewrite (Z.pow_succ_r 2 (Z.of_nat k + 1)) by lia.
    set (A := 2 ^ (Z.of_nat k + 1)). exists (u + (A * (2 * u + 1) * (2 * u + 1)) / 2).
    assert (EA : A = 2 * 2 ^ Z.of_nat k) by (unfold A; rewrite Z.pow_add_r by lia; change (2 ^ 1) with 2; ring).
    rewrite EA. set (B := 2 ^ Z.of_nat k). replace (2 * B * (2 * u + 1) * (2 * u + 1)) with ((B * (2 * u + 1) * (2 * u + 1)) * 2) by ring.
    rewrite Z.div_mul by lia. ring.
Qed.

(** Two different slots share a position for every degree. *)
Lemma slot_collision L : (3 <= L)%nat -> slot_hi L 0 = slot_hi L (2 ^ (L - 2)).
Proof.
  intros HL. unfold slot_hi. do 2 f_equal.
  assert (HP := Z.pow_pos_nonneg 2 (Z.of_nat L) ltac:(lia) ltac:(lia)).
  assert (E0 : slot_pos L 0 = 1).
  { unfold slot_pos. change (3 ^ Z.of_nat 0) with 1. apply Z.mod_small. rewrite Nat2Z.inj_succ, Z.pow_succ_r by lia. lia. }
  assert (E1 : slot_pos L (2 ^ (L - 2)) = 1 + 2 ^ Z.of_nat L).
  { unfold slot_pos. rewrite pow2_Z. destruct (pow3 (L - 2) ltac:(lia)) as [u E]. rewrite E. replace (L - 2 + 2)%nat with L by lia.
    rewrite Nat2Z.inj_succ, Z.pow_succ_r by lia. symmetry. apply Z.mod_unique with u; [left|ring]. 
    replace (2 ^ Z.of_nat L) with (2 * 2 ^ (Z.of_nat L - 1)) in HP |- * by (rewrite <- Z.pow_succ_r by lia; f_equal; lia).
    pose proof (Z.pow_pos_nonneg 2 (Z.of_nat L - 1) ltac:(lia) ltac:(lia)). lia. }
  rewrite E0, E1. apply (eqm_divide (2 ^ Z.of_nat L)); [lia|]. exists 1. ring.
Qed.

(** Scatter: the last write to a position wins. *)
Definition last_writer (M : list nat) (N i j : nat) : Prop :=
  (j < N)%nat /\ nth j M 0%nat = nth i M 0%nat /\ forall j', (j < j' < N)%nat -> nth j' M 0%nat <> nth i M 0%nat.

Lemma last_writer_ex M N i : (i < N)%nat -> exists j, last_writer M N i j.
Proof.
  revert i. induction N as [|N IH]; intros i Hi; [lia|].
  destruct (Nat.eq_dec (nth N M 0%nat) (nth i M 0%nat)) as [E|NE].
  - exists N. split; [lia|]. split; auto. intros j' Hj'. lia.
  - assert (i <> N) by congruence. destruct (IH i ltac:(lia)) as [j [H1 [H2 H3]]]. exists j. split; [lia|]. split; auto.
    intros j' Hj'. destruct (Nat.eq_dec j' N) as [->|]; auto. apply H3. lia.
Qed.

Lemma scatter_ok (M : list nat) (values : list Z) n acc0 : length M = n -> length acc0 = n -> (n <= length values)%nat ->
  (forall i, (i < n)%nat -> (nth i M 0 < n)%nat) -> forall N, (N <= n)%nat ->
  exists acc, foldM (fun acc i => k <- get M i ;; x <- get values i ;; set acc k x) (seq 0 N) acc0 = Ok acc
    /\ length acc = n
    /\ (forall p, (forall j, (j < N)%nat -> nth j M 0%nat <> p) -> nth p acc 0 = nth p acc0 0)
    /\ (forall i j, (i < N)%nat -> last_writer M N i j -> nth (nth i M 0%nat) acc 0 = nth j values 0).
Proof.
  intros LM LA LV HM N HN. induction N as [|N IH].
  - exists acc0. cbn [seq foldM]. split; auto. split; auto. split; auto. intros; lia.
  - destruct (IH ltac:(lia)) as [acc [E [La [H1 H2]]]]. rewrite seq_S, foldM_app, E. cbn [bind foldM Nat.add].
    rewrite (get_ok _ _ 0%nat) by lia. cbn [bind]. rewrite (get_ok _ _ 0) by lia. cbn [bind].
    pose proof (HM N ltac:(lia)). rewrite set_ok by lia. cbn [bind]. eexists. split; [reflexivity|].
    rewrite upd_length. split; auto. split.
    + intros p Hp. rewrite upd_nth_other by (apply Hp; lia). apply H1. intros j Hj. apply Hp. lia.
    + intros i j Hi [W1 [W2 W3]]. destruct (Nat.eq_dec (nth N M 0%nat) (nth i M 0%nat)) as [EQ|NE].
      * rewrite <- EQ. rewrite upd_nth_same by lia. assert (j = N); [|subst; auto].
        destruct (Nat.lt_ge_cases j N); [|lia]. exfalso. apply (W3 N); [lia|auto].
      * rewrite upd_nth_other by auto. assert (i <> N) by congruence. assert (j <> N) by (intros ->; congruence).
        apply H2; [lia|]. split; [lia|]. split; auto. intros j' Hj'. apply W3. lia.
Qed.

Section Simd.
Variables (pr : profile) (P : BfvParams).
Hypothesis WB : wf_bfv P.
Let n := bp_degree P.
Let t := bp_t P.

Lemma map_facts : exists L, (3 <= L <= 60)%nat /\ n = (2 ^ L)%nat /\ length (bp_index_map P) = n
  /\ (forall i, (i < n)%nat -> (nth i (bp_index_map P) 0 < n)%nat)
  /\ nth (n / 2) (bp_index_map P) 0%nat = nth (n / 2 + n / 4) (bp_index_map P) 0%nat.
Proof.
  pose proof (wf_ctx_loc _ (wb_ptwf _ WB)) as W. pose proof (wl_n _ W) as Hn. pose proof (wl_L _ W) as HL.
  rewrite (wb_ptn _ WB) in Hn. fold n in Hn. set (L := cx_L (bp_pt_ctx P)) in *. exists L. split; auto. split; auto.
  destruct (index_map_ok L ltac:(lia)) as [mp [E [Lm H]]]. pose proof (wb_map _ WB) as E'. fold n in E'. rewrite Hn, E in E'.
  apply Ok_inj in E'. rewrite <- E'. rewrite Hn. split; auto.
  assert (E2 : (2 ^ L = 2 * 2 ^ (L - 1))%nat) by (replace L with (S (L - 1)) at 1 by lia; apply Nat.pow_succ_r').
  assert (E4 : (2 ^ (L - 1) = 2 * 2 ^ (L - 2))%nat) by (replace (L - 1)%nat with (S (L - 2)) by lia; apply Nat.pow_succ_r').
  split.
  - intros i Hi. destruct (Nat.lt_ge_cases i (2 ^ (L - 1))).
    + rewrite (proj1 (H i H0)). apply slot_range.
    + replace i with (2 ^ (L - 1) + (i - 2 ^ (L - 1)))%nat by lia. rewrite (proj2 (H (i - 2 ^ (L - 1))%nat ltac:(lia))). apply slot_range.
  - replace (2 ^ L / 2)%nat with (2 ^ (L - 1) + 0)%nat by (rewrite E2, Nat.mul_comm, Nat.div_mul by lia; lia).
    replace (2 ^ L / 4)%nat with (2 ^ (L - 2))%nat by (rewrite E2, E4; replace (2 * (2 * 2 ^ (L - 2)))%nat with (2 ^ (L - 2) * 4)%nat by lia; rewrite Nat.div_mul by lia; auto).
    replace (2 ^ (L - 1) + 0 + 2 ^ (L - 2))%nat with (2 ^ (L - 1) + 2 ^ (L - 2))%nat by lia.
    pose proof (pow2_pos (L - 2)).
    rewrite (proj2 (H 0%nat ltac:(lia))), (proj2 (H (2 ^ (L - 2))%nat ltac:(lia))). apply slot_collision. lia.
Qed.

Lemma simd_ok values lv : (n <= length values)%nat -> Forall (fun x => 0 <= x < t) values ->
  exists pt r, pt_new pr P values lv EncSIMD = Ok pt /\ pt_params pt = P /\ pt_level pt = lv
    /\ length (pt_values pt) = n /\ Forall (fun x => 0 <= x < t) (pt_values pt)
    /\ pt_decode pr pt = Ok r /\ length r = n
    /\ forall i j, (i < n)%nat -> last_writer (bp_index_map P) n i j -> nth i r 0 = nth j values 0.
Proof.
  intros Hl HV. destruct map_facts as [L [HL [En [Lm [HM _]]]]].
  pose proof (wf_t17 P WB) as Rt. fold t in Rt.
  destruct (scatter_ok (bp_index_map P) values n (repeat 0 n) Lm (repeat_length _ _) Hl HM n (le_n _)) as [acc [E [La [A1 A2]]]].
  unfold pt_new. fold n. rewrite E. cbn [bind].
  destruct (wb_ntt _ WB) as [op [L' [psi [Eo [En' [Ep Wn]]]]]]. fold t in Ep. fold n in En'.
  assert (L' = L) by (apply (Nat.pow_inj_r 2); lia). subst L'. rewrite Eo. cbn [unwrap bind].
  assert (AV : forall p, (p < n)%nat -> 0 <= nth p acc 0 < t).
  { intros p Hp. destruct (in_dec Nat.eq_dec p (map (fun i => nth i (bp_index_map P) 0%nat) (seq 0 n))) as [HI|HI].
    - apply in_map_iff in HI. destruct HI as [i [Ei Hi]]. apply in_seq in Hi.
      destruct (last_writer_ex (bp_index_map P) n i ltac:(lia)) as [j HJ]. rewrite <- Ei, (A2 i j ltac:(lia) HJ).
      rewrite Forall_forall in HV. apply HV. apply nth_In. destruct HJ. lia.
    - rewrite A1; [rewrite nth_repeat; lia|]. intros j Hj C. apply HI. apply in_map_iff. exists j. split; auto. apply in_seq. lia. }
  assert (RA : rng L (mp (nt_p op)) acc).
  { split; [lia|]. rewrite Ep. intros k Hk. apply AV. lia. }
  destruct (ntt_forward_backward pr op L psi Wn acc RA) as [a [Eb [Ra Ef]]].
  rewrite Eb. cbn [bind]. eexists _, (map (fun i => nth (nth i (bp_index_map P) 0%nat) acc 0) (seq 0 n)).
  split; [reflexivity|]. cbn [pt_params pt_level pt_values]. split; auto. split; auto. destruct Ra as [Ra1 Ra2]. split; [lia|]. split.
  { rewrite Ep in Ra2. apply Forall_forall. intros x Hx. apply (In_nth _ _ 0) in Hx. destruct Hx as [k [Hk <-]]. apply Ra2. lia. }
  split.
  - unfold pt_decode. cbn [pt_enc pt_params pt_values]. rewrite Eo. cbn [unwrap bind]. rewrite Ef. cbn [bind]. fold n.
    apply mapM_ok. intros i Hi. apply in_seq in Hi. rewrite (get_ok _ _ 0%nat) by lia. cbn [bind].
    apply get_ok. rewrite La. apply HM. lia.
  - split; [apply len_seq|]. intros i j Hi HJ. rewrite nth_map_seq by auto. apply A2; auto.
Qed.

Lemma simd_short values lv : (length values < n)%nat -> pt_new pr P values lv EncSIMD = Panic.
Proof.
  intros Hl. destruct map_facts as [L [HL [En [Lm [HM _]]]]].
  unfold pt_new. fold n.
  assert (X : foldM (fun acc i => k <- get (bp_index_map P) i ;; x <- get values i ;; set acc k x) (seq 0 n) (repeat 0 n) = Panic).
  { replace n with (length values + S (n - length values - 1))%nat at 1 by lia. rewrite seq_app, foldM_app.
    assert (Y : forall N acc, (N <= length values)%nat -> length acc = n -> exists acc',
      foldM (fun acc i => k <- get (bp_index_map P) i ;; x <- get values i ;; set acc k x) (seq 0 N) acc = Ok acc' /\ length acc' = n).
    { induction N as [|N IH]; intros acc HN Ha; [exists acc; auto|]. destruct (IH acc ltac:(lia) Ha) as [acc' [E La]].
      rewrite seq_S, foldM_app, E. cbn [bind foldM Nat.add]. rewrite (get_ok _ _ 0%nat) by lia. cbn [bind].
      rewrite (get_ok _ _ 0) by lia. cbn [bind]. pose proof (HM N ltac:(lia)). rewrite set_ok by lia. cbn [bind].
      eexists; split; [reflexivity|]. rewrite upd_length; auto. }
    destruct (Y (length values) (repeat 0 n) (le_n _) (repeat_length _ _)) as [acc' [E La]]. rewrite E. cbn [bind seq foldM Nat.add].
    rewrite (get_ok _ _ 0%nat) by lia. cbn [bind]. unfold get at 1. rewrite (proj2 (nth_error_None _ _)) by lia. reflexivity. }
  rewrite X. reflexivity.
Qed.
End Simd.

(** Noise measurement. *)
Lemma bitlen_spec x : 0 <= x -> 0 <= bitlen x /\ x < 2 ^ bitlen x /\ (0 < x -> 2 ^ (bitlen x - 1) <= x).
Proof.
  intros H. unfold bitlen. destruct (Z.eqb_spec x 0) as [->|N]; [split; [lia|]; split; [reflexivity|lia]|].
  pose proof (Z.log2_spec x ltac:(lia)). pose proof (Z.log2_nonneg x). replace (Z.log2 x + 1 - 1) with (Z.log2 x) by lia.
  rewrite Z.add_1_r. split; [lia|]. tauto.
Qed.
Lemma bitlen_mono a b : 0 <= a <= b -> bitlen a <= bitlen b.
Proof.
  intros H. unfold bitlen. destruct (Z.eqb_spec a 0), (Z.eqb_spec b 0); try lia.
  - pose proof (Z.log2_nonneg b). lia.
  - pose proof (Z.log2_le_mono a b ltac:(lia)). lia.
Qed.
Lemma bitlen_min a b : 0 <= a -> 0 <= b -> Z.min (bitlen a) (bitlen b) = bitlen (Z.min a b).
Proof.
  intros Ha Hb. destruct (Z.le_ge_cases a b).
  - rewrite (Z.min_l a b) by lia. apply Z.min_l. apply bitlen_mono. lia.
  - rewrite (Z.min_r a b) by lia. apply Z.min_r. apply bitlen_mono. lia.
Qed.
Lemma fold_max_spec {A} (F : A -> Z) l z : let r := fold_left (fun m x => Z.max m (F x)) l z in
  z <= r /\ (forall x, In x l -> F x <= r) /\ (r = z \/ exists x, In x l /\ r = F x).
Proof.
  revert z. induction l as [|x l IH]; intros z; cbn [fold_left].
  - split; [lia|]. split; [intros ? []|]. auto.
  - specialize (IH (Z.max z (F x))). cbv zeta in IH |- *. set (r := fold_left _ l _) in *. destruct IH as [H1 [H2 H3]].
    split; [lia|]. split.
    + intros y [<-|Hy]; [lia|auto].
    + destruct H3 as [H3|[y [H3 H4]]]; [|right; exists y; cbn [In]; auto].
      destruct (Z.max_spec z (F x)) as [[_ E]|[_ E]]; [right; exists x; cbn [In]; split; [auto|lia]|left; lia].
Qed.

Lemma noise_fold Q : forall l a, (forall x, In x l -> x <= Q) ->
  foldM (fun noise c => d <- big_sub Q c ;; Ok (Z.max noise (Z.min (bitlen c) (bitlen d)))) l a
  = Ok (fold_left (fun noise c => Z.max noise (Z.min (bitlen c) (bitlen (Q - c)))) l a).
Proof.
  induction l as [|x l IH]; intros a H; [reflexivity|]. cbn [foldM fold_left]. unfold big_sub at 1.
  rewrite rassert_true by (apply Z.leb_le; apply H; left; reflexivity). cbn [bind]. apply IH. intros y Hy. apply H. right. exact Hy.
Qed.

Section Noise.
Variables (pr : profile) (P : BfvParams) (i : nat) (c : RqContext).
Hypothesis WB : wf_bfv P.
Hypothesis LV : wf_level P i c.
Let n := bp_degree P.
Let Q := cx_Q c.
Let t := bp_t P.
Let W : wf_loc c := wf_ctx_loc _ (lv_wf _ _ _ LV).
Let En : rq_degree c = n := lv_n _ _ _ LV.

Lemma measure_noise_ok sk f0 f1 pt : sk_of P sk -> 
  decrypt pr sk (ct_of P i c [f0; f1]) = Ok pt -> pt_params pt = P -> pt_level pt = i ->
  Forall (fun x => 0 <= x < 2 ^ 64) (pt_values pt) -> (length (pt_values pt) <= n)%nat ->
  exists u N, pt_to_poly pr pt = Ok (rep c Ntt u) /\ measure_noise pr sk (ct_of P i c [f0; f1]) = Ok N /\ 0 <= N
    /\ let d j := (phase n (sk_fun sk) [f0; f1] j - u j) mod Q in
       (forall j, (j < n)%nat -> Z.min (d j) (Q - d j) < 2 ^ N)
       /\ (N = 0 \/ exists j, (j < n)%nat /\ 2 ^ (N - 1) <= Z.min (d j) (Q - d j)).
Proof.
  intros [SP [S1 S2]] ED PP PL PV PN. rewrite SP in S2. fold n in S2.
  destruct (pt_to_poly_ok pr P i c WB LV pt PP PL PV PN) as [u [EU HU]].
  exists u. unfold measure_noise. rewrite ED. cbn [bind]. rewrite EU. cbn [bind]. rewrite SP. cbn [ct_of ct_level ct_cts map].
  rewrite (lv_ctx _ _ _ LV). cbn [bind]. rewrite (sk_ntt_ok pr P i c LV) by auto. cbn [bind get nth_error].
  rewrite rep_mul by auto. cbn [bind]. rewrite rep_add by auto. cbn [bind]. rewrite rep_sub by auto. cbn [bind].
  rewrite change_bwd by auto. cbn [bind]. rewrite rep_to_big by auto. cbn [bind]. rewrite (rns_product_Q c W). fold Q. rewrite En.
  rewrite noise_fold by (intros x Hx; apply in_map_iff in Hx; destruct Hx as [j [<- _]]; apply Z.lt_le_incl; apply Z.mod_pos_bound; pose proof (Q_pos P i c LV) as HQ0; fold Q in HQ0; lia).
  match goal with |- context [fold_left ?F ?l 0] => pose proof (fold_max_spec (fun x => Z.min (bitlen x) (bitlen (Q - x))) l 0) as FM; set (N := fold_left F l 0) in * end.
  cbv zeta in FM. destruct FM as [F1 [F2 F3]]. exists N. split; auto. split; auto. split; auto.
  pose proof (Q_pos P i c LV) as HQ. fold Q in HQ.
  assert (DJ : forall j, (j < n)%nat -> (rmul n f1 (fun j0 => nth j0 (sk_coeffs sk) 0) j + f0 j - u j) mod Q = (phase n (sk_fun sk) [f0; f1] j - u j) mod Q).
  { intros j Hj. f_equal. cbn [phase]. change (fun j0 => nth j0 (sk_coeffs sk) 0) with (sk_fun sk). rewrite (rmul_comm n f1).
    rewrite (rmul_ext n (sk_fun sk) (sk_fun sk) (fun j0 => f1 j0 + rmul n (sk_fun sk) (fun _ => 0) j0) f1); [ring|auto|]. intros k Hk. rewrite rmul_0_r. ring. }
  cbv zeta. split.
  - intros j Hj. specialize (F2 ((phase n (sk_fun sk) [f0; f1] j - u j) mod Q)). 
    set (d := (phase n (sk_fun sk) [f0; f1] j - u j) mod Q) in *. assert (Hd : 0 <= d < Q) by (apply Z.mod_pos_bound; lia).
    rewrite bitlen_min in F2 by lia. destruct (bitlen_spec (Z.min d (Q - d)) ltac:(lia)) as [B1 [B2 _]].
    apply Z.lt_le_trans with (1 := B2). apply Z.pow_le_mono_r; [lia|]. apply F2. apply in_map_iff. exists j. split; [apply DJ; auto|apply in_seq; lia].
  - destruct F3 as [F3|[x [F3 F4]]]; [auto|]. destruct (Z.eq_dec N 0) as [|NZ]; [auto|right].
    apply in_map_iff in F3. destruct F3 as [j [Ej Hj]]. apply in_seq in Hj. exists j. split; [lia|].
    rewrite <- DJ by lia. rewrite Ej.
    assert (Hd : 0 <= x < Q) by (rewrite <- Ej; apply Z.mod_pos_bound; lia). rewrite bitlen_min in F4 by lia.
    destruct (bitlen_spec (Z.min x (Q - x)) ltac:(lia)) as [B1 [B2 B3]]. rewrite F4. apply B3.
    destruct (Z.eq_dec (Z.min x (Q - x)) 0) as [E0|]; [|lia]. rewrite E0 in F4. cbn in F4. lia.
Qed.
End Noise.
