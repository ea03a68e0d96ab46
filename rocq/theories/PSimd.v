(** SIMD encoding with the repaired slot map. *)
From Verif Require Import PBase NT Spec PSum MModulus MUtils MNtt MRns MRq MBfv MKsk MGalois MFix PModulus PNttMath PNtt PCrt PRns PUtils SpecRq SpecBfv SpecKsk PRing PRq PRq2 PRq3 PBfv PBfv2 PBfv3 PBfv4 PKsk PKsk2 QKsk QBfv PNttNew QRot.

(** ** The map *)
Definition slot_hi' (L i : nat) : nat := bitrev L (Z.to_nat (((2 * 2 ^ Z.of_nat L - slot_pos L i - 1) / 2) mod 2 ^ Z.of_nat L)).

Lemma fixed_loop_ok L : (1 <= L <= 60)%nat -> forall count i mp, (i + count = 2 ^ (L - 1))%nat -> length mp = (2 ^ L)%nat ->
  exists mp', index_map_loop_fixed (2 ^ L) count i (slot_pos L i) mp = Ok mp' /\ length mp' = (2 ^ L)%nat
    /\ (forall j, (j < i)%nat -> nth j mp' 0%nat = nth j mp 0%nat /\ nth (2 ^ (L - 1) + j) mp' 0%nat = nth (2 ^ (L - 1) + j) mp 0%nat)
    /\ (forall j, (i <= j < 2 ^ (L - 1))%nat -> nth j mp' 0%nat = slot_lo L j /\ nth (2 ^ (L - 1) + j) mp' 0%nat = slot_hi' L j).
Proof.
  intros HL. assert (E2 : (2 ^ L = 2 * 2 ^ (L - 1))%nat) by (replace L with (S (L - 1)) at 1 by lia; apply Nat.pow_succ_r').
  induction count as [|count IH]; intros i mp Hc Hm.
  - exists mp. cbn [index_map_loop_fixed]. split; auto. split; auto. split; [auto|]. intros j Hj. lia.
  - cbn [index_map_loop_fixed]. cbv zeta.
    assert (ED : Nat.div2 (2 ^ L) = (2 ^ (L - 1))%nat) by (rewrite E2, Nat.div2_double; reflexivity).
    rewrite ED. rewrite lor_add by lia. rewrite set_ok by lia. cbn [bind]. rewrite set_ok by (rewrite upd_length; lia). cbn [bind].
    pose proof (slot_pos_range L i) as HS. rewrite Nat2Z.inj_succ, Z.pow_succ_r in HS by lia.
    assert (EM : Z.shiftl (Z.of_nat (2 ^ L)) 1 = 2 ^ Z.of_nat (S L)).
    { rewrite Z.shiftl_mul_pow2 by lia. rewrite pow2_Z, Nat2Z.inj_succ, Z.pow_succ_r by lia. change (2 ^ 1) with 2. ring. }
    assert (EP : Z.land (slot_pos L i * 3) (Z.shiftl (Z.of_nat (2 ^ L)) 1 - 1) = slot_pos L (S i)).
    { rewrite EM. replace (2 ^ Z.of_nat (S L) - 1) with (Z.ones (Z.of_nat (S L))) by (rewrite Z.ones_equiv; lia).
      rewrite Z.land_ones by lia. unfold slot_pos. rewrite Zmult_mod_idemp_l. f_equal.
      rewrite (Nat2Z.inj_succ i), Z.pow_succ_r by lia. ring. }
    rewrite EP.
    match goal with |- context [index_map_loop_fixed _ _ _ _ ?m] => set (m2 := m) end.
    destruct (IH (S i) m2 ltac:(lia) ltac:(unfold m2; rewrite !upd_length; auto)) as [mp' [E [Lm [H1 H2]]]].
    exists mp'. split; [exact E|]. split; auto. split.
    + intros j Hj. destruct (H1 j ltac:(lia)) as [A B]. rewrite A, B. unfold m2. split.
      * rewrite !upd_nth_other by lia. reflexivity.
      * rewrite !upd_nth_other by lia. reflexivity.
    + intros j Hj. destruct (Nat.eq_dec j i) as [->|]; [|apply H2; lia]. destruct (H1 i ltac:(lia)) as [A B]. rewrite A, B. unfold m2. split.
      * rewrite upd_nth_other, upd_nth_same by lia. rewrite bitrev_usize_big by (try lia; rewrite Z.shiftr_div_pow2 by lia; apply Z.div_pos; lia).
        rewrite Nat2Z.id. unfold slot_lo. rewrite Z.shiftr_div_pow2 by lia. reflexivity.
      * rewrite upd_nth_same by (rewrite upd_length; lia). rewrite EM, Nat2Z.inj_succ, Z.pow_succ_r by lia.
        rewrite bitrev_usize_big by (try lia; rewrite Z.shiftr_div_pow2 by lia; apply Z.div_pos; lia). rewrite Nat2Z.id. unfold slot_hi'. rewrite Z.shiftr_div_pow2 by lia. reflexivity.
Qed.
Lemma fixed_map_ok L : (1 <= L <= 60)%nat -> exists mp, index_map_fixed (2 ^ L) = Ok mp /\ length mp = (2 ^ L)%nat
  /\ forall j, (j < 2 ^ (L - 1))%nat -> nth j mp 0%nat = slot_lo L j /\ nth (2 ^ (L - 1) + j) mp 0%nat = slot_hi' L j.
Proof.
  intros HL. assert (E2 : (2 ^ L = 2 * 2 ^ (L - 1))%nat) by (replace L with (S (L - 1)) at 1 by lia; apply Nat.pow_succ_r').
  destruct (fixed_loop_ok L HL (2 ^ (L - 1)) 0 (repeat 0%nat (2 ^ L)) ltac:(lia) (repeat_length _ _)) as [mp [E [Lm [_ H]]]].
  exists mp. unfold index_map_fixed. rewrite E2 at 2. rewrite Nat.div2_double.
  assert (E1 : slot_pos L 0 = 1).
  { unfold slot_pos. change (3 ^ Z.of_nat 0) with 1. apply Z.mod_small. rewrite Nat2Z.inj_succ, Z.pow_succ_r by lia.
    pose proof (Z.pow_pos_nonneg 2 (Z.of_nat L) ltac:(lia) ltac:(lia)). lia. }
  rewrite E1 in E. rewrite E. split; auto. split; auto. intros j Hj. apply H. lia.
Qed.

Lemma slot_hi_point' L i : Z.of_nat (2 * bitrev L (slot_hi' L i) + 1) = 2 * 2 ^ Z.of_nat L - slot_pos L i.
Proof.
  pose proof (slot_pos_range L i) as R. pose proof (slot_pos_odd L i) as O.
  rewrite Nat2Z.inj_succ, Z.pow_succ_r in R by lia. unfold slot_hi'. set (y := 2 * 2 ^ Z.of_nat L - slot_pos L i - 1) in *.
  assert (D : y = 2 * (y / 2)).
  { apply Z.div_exact; [lia|]. unfold y. replace (2 * 2 ^ Z.of_nat L - slot_pos L i - 1) with (- (slot_pos L i) - 1 + 2 ^ Z.of_nat L * 2) by ring. rewrite Z.mod_add by lia.
    rewrite (Z.div_mod (slot_pos L i) 2), O by lia. replace (- (2 * (slot_pos L i / 2) + 1) - 1) with ((- (slot_pos L i / 2) - 1) * 2) by ring. apply Z.mod_mul. lia. }
  set (d := y / 2) in *. rewrite Z.mod_small by lia. rewrite bitrev_invol; [lia|]. apply Nat2Z.inj_lt. rewrite pow2_Z. lia.
Qed.

(** Powers of 3 modulo powers of 2. *)
Lemma binom_even A w z : (exists h, A = 2 * h) -> exists y, (1 + A * w) ^ Z.of_nat z = 1 + Z.of_nat z * A * w + 2 * A * y.
Proof.
  intros [h EA]. induction z as [|z [y IH]]; [exists 0; change (Z.of_nat 0) with 0; rewrite Z.pow_0_r; ring|].
  rewrite Nat2Z.inj_succ, Z.pow_succ_r by lia. rewrite IH. exists (h * Z.of_nat z * w * w + y + A * w * y). rewrite EA. ring.
Qed.
Lemma pow3_order j d : (1 <= j)%nat -> 3 ^ Z.of_nat d mod 2 ^ Z.of_nat (j + 2) = 1 -> exists z, d = (2 ^ j * z)%nat.
Proof.
  induction j as [|j IH]; intros Hj H; [lia|].
  destruct (Nat.eq_dec j 0) as [->|Hj0].
  - (* modulo 8 *)
    change (2 ^ Z.of_nat (1 + 2)) with 8 in H. destruct (Nat.Even_or_Odd d) as [[y Ey]|[y Ey]]; [exists y; exact Ey|]. exfalso.
    rewrite Ey in H. rewrite Nat2Z.inj_add, Nat2Z.inj_mul, Z.pow_add_r, Z.pow_mul_r in H by lia. change (3 ^ Z.of_nat 2) with 9 in H. change (3 ^ Z.of_nat 1) with 3 in H.
    rewrite <- Z.mul_mod_idemp_l in H by lia. rewrite <- mod_pow in H by lia. change (9 mod 8) with 1 in H. rewrite Z.pow_1_l in H by lia. discriminate.
  - assert (HP : 0 < 2 ^ Z.of_nat (j + 2)) by (apply Z.pow_pos_nonneg; lia).
    assert (E2 : 2 ^ Z.of_nat (S j + 2) = 2 * 2 ^ Z.of_nat (j + 2)) by (replace (S j + 2)%nat with (S (j + 2)) by lia; rewrite Nat2Z.inj_succ, Z.pow_succ_r by lia; reflexivity).
    assert (P4 : 4 <= 2 ^ Z.of_nat (j + 2)).
    { replace 4 with (2 ^ 2) by reflexivity. apply Z.pow_le_mono_r; lia. }
    destruct (IH ltac:(lia)) as [z Ez].
    { rewrite E2 in H. set (X := 3 ^ Z.of_nat d) in *. set (A := 2 ^ Z.of_nat (j + 2)) in *. clearbody X A.
      pose proof (Z.div_mod X (2 * A) ltac:(lia)) as D. rewrite H in D. rewrite D. replace (2 * A * (X / (2 * A)) + 1) with (1 + (2 * (X / (2 * A))) * A) by ring. rewrite Z.mod_add by lia. apply Z.mod_small. lia. }
    destruct (pow3 j ltac:(lia)) as [u E3]. subst d. rewrite Nat2Z.inj_mul, pow2_Z, Z.pow_mul_r in H by (try lia; apply Z.pow_nonneg; lia). rewrite E3 in H.
    destruct (binom_even (2 ^ Z.of_nat (j + 2)) (2 * u + 1) z) as [y Ey].
    { exists (2 ^ Z.of_nat (j + 1)). replace (j + 2)%nat with (S (j + 1)) by lia. rewrite Nat2Z.inj_succ, Z.pow_succ_r by lia. reflexivity. }
    rewrite Ey, E2 in H. set (A := 2 ^ Z.of_nat (j + 2)) in *. clearbody A.
    destruct (Nat.Even_or_Odd z) as [[q Eq]|[q Eq]]; [exists q; rewrite Eq, Nat.pow_succ_r'; lia|]. exfalso.
    assert (X : 1 + Z.of_nat z * A * (2 * u + 1) + 2 * A * y = 1 + A + (Z.of_nat z * u + Z.of_nat q + y) * (2 * A)) by (rewrite Eq, Nat2Z.inj_add, Nat2Z.inj_mul; change (Z.of_nat 2) with 2; change (Z.of_nat 1) with 1; ring).
    rewrite X, Z.mod_add, Z.mod_small in H by lia. lia.
Qed.
Lemma slot_pos_8 L j : (3 <= L)%nat -> slot_pos L j mod 8 = 1 \/ slot_pos L j mod 8 = 3.
Proof.
  intros H3. assert (Eh : 2 ^ Z.of_nat (S L) = 8 * 2 ^ Z.of_nat (L - 2)).
  { replace (S L) with (3 + (L - 2))%nat by lia. rewrite Nat2Z.inj_add, Z.pow_add_r by lia. reflexivity. }
  assert (Y : slot_pos L j mod 8 = 3 ^ Z.of_nat j mod 8).
  { unfold slot_pos. rewrite Eh. assert (0 < 2 ^ Z.of_nat (L - 2)) by (apply Z.pow_pos_nonneg; lia). rewrite Z.rem_mul_r by lia. rewrite Z.mul_comm, Z.mod_add, Z.mod_mod by lia. reflexivity. }
  rewrite Y. clear. induction j as [|j IH]; [left; reflexivity|]. rewrite Nat2Z.inj_succ, Z.pow_succ_r by lia. rewrite <- Z.mul_mod_idemp_r by lia.
  destruct IH as [-> | ->]; [right|left]; reflexivity.
Qed.
Lemma slot_pos_inj L a b : (3 <= L)%nat -> (a < 2 ^ (L - 1))%nat -> (b < 2 ^ (L - 1))%nat -> slot_pos L a = slot_pos L b -> a = b.
Proof.
  intros HL.
  assert (W : forall a b, (a <= b < 2 ^ (L - 1))%nat -> slot_pos L a = slot_pos L b -> a = b).
  { clear a b. intros a b Hab E. set (N := 2 ^ Z.of_nat (S L)). assert (HN : 2 <= N) by (unfold N; rewrite Nat2Z.inj_succ, Z.pow_succ_r by lia; pose proof (Z.pow_pos_nonneg 2 (Z.of_nat L) ltac:(lia) ltac:(lia)); lia).
    (* cancel 3^a with 3^(2^(L-1) - a) *)
    assert (ONE : 3 ^ Z.of_nat (2 ^ (L - 1)) mod N = 1).
    { pose proof (pow3_period L (2 ^ (L - 1)) 0 HL) as X. rewrite Nat.mod_same, Nat.mod_0_l in X by (pose proof (pow2_pos (L - 1)); lia). specialize (X eq_refl). fold N in X. rewrite X. change (3 ^ Z.of_nat 0) with 1. apply Z.mod_small. lia. }
    assert (D : 3 ^ Z.of_nat (b - a) mod N = 1).
    { unfold slot_pos in E. fold N in E. set (c := (2 ^ (L - 1) - a)%nat).
      assert (F : forall x y, (3 ^ Z.of_nat x * 3 ^ Z.of_nat y) mod N = 3 ^ Z.of_nat (x + y) mod N) by (intros x y; rewrite <- Z.pow_add_r, <- Nat2Z.inj_add by lia; reflexivity).
      assert (G : (3 ^ Z.of_nat c * 3 ^ Z.of_nat a) mod N = (3 ^ Z.of_nat c * 3 ^ Z.of_nat b) mod N) by (rewrite <- Z.mul_mod_idemp_r, E, Z.mul_mod_idemp_r by lia; reflexivity).
      rewrite !F in G. assert (C1 : (c + a = 2 ^ (L - 1))%nat) by (unfold c; clear - Hab; lia). assert (C2 : (c + b = (b - a) + 2 ^ (L - 1))%nat) by (unfold c; clear - Hab; lia). rewrite C1, C2 in G. clear C1 C2. rewrite ONE in G. rewrite <- F in G. rewrite <- Z.mul_mod_idemp_r, ONE, Z.mul_1_r in G by lia. congruence. }
    unfold N in D. replace (S L) with ((L - 1) + 2)%nat in D by lia. destruct (pow3_order (L - 1) (b - a) ltac:(lia) D) as [z Ez].
    destruct z as [|z]; [lia|]. exfalso. assert (2 ^ (L - 1) <= b - a)%nat by (rewrite Ez; apply Nat.le_trans with (2 ^ (L - 1) * 1)%nat; [rewrite Nat.mul_1_r; apply le_n|apply Nat.mul_le_mono_l; clear; lia]). clear - Hab H. lia. }
  intros Ha Hb E. destruct (Nat.le_ge_cases a b); [apply W; [lia|exact E]|symmetry; apply W; [lia|congruence]].
Qed.

(** The exponents of the evaluation points: 3^k in the first row, -3^k in the second one. *)
Definition slot_exp (L j : nat) : Z := if (j <? 2 ^ (L - 1))%nat then slot_pos L j else 2 * 2 ^ Z.of_nat L - slot_pos L (j - 2 ^ (L - 1)).
Lemma slot_exp_facts L j : (3 <= L)%nat -> 0 < slot_exp L j < 2 * 2 ^ Z.of_nat L /\ slot_exp L j mod 2 = 1.
Proof.
  intros HL. unfold slot_exp. set (k := if (j <? 2 ^ (L - 1))%nat then j else (j - 2 ^ (L - 1))%nat).
  assert (R : forall k, 1 <= slot_pos L k < 2 * 2 ^ Z.of_nat L) by (intros k'; pose proof (slot_pos_range L k') as R; rewrite Nat2Z.inj_succ, Z.pow_succ_r in R by lia; exact R).
  destruct (j <? 2 ^ (L - 1))%nat.
  - specialize (R j). split; [lia|apply slot_pos_odd].
  - specialize (R (j - 2 ^ (L - 1))%nat). pose proof (slot_pos_odd L (j - 2 ^ (L - 1))) as O. split; [lia|].
    set (s := slot_pos L _) in *. replace (2 * 2 ^ Z.of_nat L - s) with (- s + 2 ^ Z.of_nat L * 2) by ring. rewrite Z.mod_add by lia.
    rewrite (Z.div_mod s 2), O by lia. replace (- (2 * (s / 2) + 1)) with (1 + (- (s / 2) - 1) * 2) by ring. rewrite Z.mod_add by lia. reflexivity.
Qed.
Lemma fixed_map_facts L mp : (3 <= L <= 60)%nat -> index_map_fixed (2 ^ L) = Ok mp -> length mp = (2 ^ L)%nat
  /\ (forall j, (j < 2 ^ L)%nat -> (nth j mp 0 < 2 ^ L)%nat /\ Z.of_nat (2 * bitrev L (nth j mp 0%nat) + 1) = slot_exp L j)
  /\ (forall a b, (a < 2 ^ L)%nat -> (b < 2 ^ L)%nat -> nth a mp 0%nat = nth b mp 0%nat -> a = b).
Proof.
  intros HL E. destruct (fixed_map_ok L ltac:(lia)) as [mp' [E' [Lm H]]]. rewrite E in E'. apply Ok_inj in E'. subst mp'. split; [exact Lm|].
  assert (E2 : (2 ^ L = 2 * 2 ^ (L - 1))%nat) by (replace L with (S (L - 1)) at 1 by lia; apply Nat.pow_succ_r').
  assert (F : forall j, (j < 2 ^ L)%nat -> (nth j mp 0 < 2 ^ L)%nat /\ Z.of_nat (2 * bitrev L (nth j mp 0%nat) + 1) = slot_exp L j).
  { intros j Hj. unfold slot_exp. destruct (Nat.ltb_spec j (2 ^ (L - 1))) as [Hl|Hl].
    - destruct (H j Hl) as [-> _]. split; [apply bitrev_lt|apply slot_lo_point].
    - replace j with (2 ^ (L - 1) + (j - 2 ^ (L - 1)))%nat at 1 2 by lia. destruct (H (j - 2 ^ (L - 1))%nat ltac:(lia)) as [_ ->]. split; [apply bitrev_lt|apply slot_hi_point']. }
  split; [exact F|]. intros a b Ha Hb EQ. destruct (F a Ha) as [_ Fa]. destruct (F b Hb) as [_ Fb]. rewrite EQ, Fb in Fa. clear F Fb EQ H.
  unfold slot_exp in Fa. set (N := 2 ^ Z.of_nat L) in *.
  assert (E8 : 2 * N = 8 * 2 ^ Z.of_nat (L - 2)).
  { unfold N. replace (Z.of_nat L) with (2 + Z.of_nat (L - 2)) by lia. rewrite Z.pow_add_r by lia. change (2 ^ 2) with 4. ring. }
  destruct (Nat.ltb_spec b (2 ^ (L - 1))) as [Hl|Hl], (Nat.ltb_spec a (2 ^ (L - 1))) as [Hl'|Hl'].
  - apply (slot_pos_inj L); auto; lia.
  - exfalso. pose proof (slot_pos_8 L b ltac:(lia)) as A. pose proof (slot_pos_8 L (a - 2 ^ (L - 1)) ltac:(lia)) as B. rewrite E8 in Fa.
    set (x := slot_pos L b) in *. set (y := slot_pos L (a - 2 ^ (L - 1))) in *. clearbody x y. clear - A B Fa. pose proof (Z.div_mod x 8 ltac:(lia)). pose proof (Z.div_mod y 8 ltac:(lia)). lia.
  - exfalso. pose proof (slot_pos_8 L a ltac:(lia)) as A. pose proof (slot_pos_8 L (b - 2 ^ (L - 1)) ltac:(lia)) as B. rewrite E8 in Fa.
    set (x := slot_pos L a) in *. set (y := slot_pos L (b - 2 ^ (L - 1))) in *. clearbody x y. clear - A B Fa. pose proof (Z.div_mod x 8 ltac:(lia)). pose proof (Z.div_mod y 8 ltac:(lia)). lia.
  - assert (a - 2 ^ (L - 1) = b - 2 ^ (L - 1))%nat; [|lia]. apply (slot_pos_inj L); try lia.
Qed.

(** Encoding and decoding *)
Lemma fixed_simd P mq : built_params P -> index_map_fixed (bp_degree P) = Ok mq ->
  exists L psi, (3 <= L <= 60)%nat /\ bp_degree P = (2 ^ L)%nat /\ 0 <= psi < bp_t P /\ eqm (bp_t P) (psi ^ 2 ^ Z.of_nat L) (-1)
    /\ (forall pr i v, length v = bp_degree P -> Forall (fun x => 0 <= x < bp_t P) v ->
          pt_decode pr (mkPt (with_index_map P mq) i EncSIMD v)
          = Ok (map (fun j => peval (bp_degree P) (vfun v) (psi ^ slot_exp L j) mod bp_t P) (seq 0 (bp_degree P))))
    /\ (forall pr i u, (bp_degree P <= length u)%nat -> Forall (fun x => 0 <= x < bp_t P) u ->
          exists v, pt_new pr (with_index_map P mq) u i EncSIMD = Ok (mkPt (with_index_map P mq) i EncSIMD v)
            /\ length v = bp_degree P /\ Forall (fun x => 0 <= x < bp_t P) v
            /\ forall j, (j < bp_degree P)%nat -> peval (bp_degree P) (vfun v) (psi ^ slot_exp L j) mod bp_t P = nth j u 0).
Proof.
  intros BP EM. pose proof (built_params_wf P BP) as WB. pose proof (wf_t17 P WB) as RT.
  destruct (wb_ntt _ WB) as [op [L [psi [Eo [En [Ep Wn]]]]]]. pose proof (wn_L _ _ _ Wn) as HL.
  assert (HL' : (3 <= L <= 60)%nat).
  { destruct (map_facts P WB) as [L' [HL' [En' _]]]. assert (L' = L) by (apply (Nat.pow_inj_r 2); lia). subst L'. exact HL'. }
  rewrite En in EM. destruct (fixed_map_facts L mq HL' EM) as [Lm [HM HI]]. rewrite <- En in Lm, HM, HI.
  exists L, psi. split; [exact HL'|]. split; [exact En|]. rewrite <- Ep. split; [apply (wn_psir _ _ _ Wn)|].
  assert (PM : eqm (mp (nt_p op)) (pw psi (2 ^ L)) (-1)) by apply (wn_psi _ _ _ Wn).
  split; [unfold pw in PM; rewrite pow2_Z in PM; exact PM|].
  assert (AT : forall j f, (j < bp_degree P)%nat -> eqm (mp (nt_p op)) (peval (bp_degree P) f (point L psi (nth j mq 0%nat))) (peval (bp_degree P) f (psi ^ slot_exp L j))).
  { intros j f Hj. apply peval_point. unfold point. destruct (HM j Hj) as [_ E]. apply pw_exp with (2 ^ L)%nat; auto; [apply pow2_pos|pose proof (slot_exp_facts L j ltac:(lia)); lia|].
    exists 0. rewrite E. ring. }
  assert (DEC : forall pr i v b, length b = bp_degree P -> (forall k, (k < bp_degree P)%nat -> 0 <= nth k b 0 < mp (nt_p op)) -> ntt_forward pr op v = Ok b ->
            (forall k, (k < bp_degree P)%nat -> eqm (mp (nt_p op)) (nth k b 0) (peval (bp_degree P) (vfun v) (point L psi k))) ->
            pt_decode pr (mkPt (with_index_map P mq) i EncSIMD v) = Ok (map (fun j => peval (bp_degree P) (vfun v) (psi ^ slot_exp L j) mod mp (nt_p op)) (seq 0 (bp_degree P)))
            /\ forall j, (j < bp_degree P)%nat -> nth (nth j mq 0%nat) b 0 = peval (bp_degree P) (vfun v) (psi ^ slot_exp L j) mod mp (nt_p op)).
  { intros pr i v b Lb Rb Ef Hb.
    assert (X : forall j, (j < bp_degree P)%nat -> nth (nth j mq 0%nat) b 0 = peval (bp_degree P) (vfun v) (psi ^ slot_exp L j) mod mp (nt_p op)).
    { intros j Hj. destruct (HM j Hj) as [Hr _]. rewrite <- (Z.mod_small (nth (nth j mq 0%nat) b 0) (mp (nt_p op))) by (apply Rb; exact Hr).
      rewrite (Hb _ Hr : _ mod _ = _). apply AT. exact Hj. }
    split; [|exact X]. unfold pt_decode. cbn [pt_enc pt_params pt_values with_index_map bp_pt_ntt bp_index_map bp_degree]. rewrite Eo. cbn [unwrap bind]. rewrite Ef. cbn [bind].
    apply mapM_ok. intros j Hj. apply in_seq in Hj. rewrite (get_ok _ _ 0%nat) by lia. cbn [bind]. rewrite (get_ok _ _ 0) by (rewrite Lb; apply HM; lia). rewrite X by lia. reflexivity. }
  assert (FW : forall pr v, length v = bp_degree P -> (forall k, (k < bp_degree P)%nat -> 0 <= nth k v 0 < mp (nt_p op)) -> exists b, ntt_forward pr op v = Ok b
     /\ length b = bp_degree P /\ (forall k, (k < bp_degree P)%nat -> 0 <= nth k b 0 < mp (nt_p op)) /\ (forall k, (k < bp_degree P)%nat -> eqm (mp (nt_p op)) (nth k b 0) (peval (bp_degree P) (vfun v) (point L psi k)))).
  { intros pr v Lv Rv. assert (R4 : rng L (4 * mp (nt_p op)) v).
    { split; [lia|]. intros k Hk. specialize (Rv k ltac:(lia)). lia. }
    destruct (ntt_forward_ok pr op L psi Wn v R4) as [b [Ef [[Lb Rb] Hb]]]. exists b. rewrite En. auto. }
  split.
  - intros pr i v Lv Rv. destruct (FW pr v Lv) as [b [Ef [Lb [Rb Hb]]]].
    { intros k Hk. rewrite Forall_forall in Rv. apply Rv. apply nth_In. lia. }
    apply (DEC pr i v b Lb Rb Ef Hb).
  - intros pr i u Lu Ru. destruct (scatter_ok mq u (bp_degree P) (repeat 0 (bp_degree P)) Lm (repeat_length _ _) Lu (fun j Hj => proj1 (HM j Hj)) (bp_degree P) (le_n _)) as [acc [E [La [A1 A2]]]].
    assert (A3 : forall j, (j < bp_degree P)%nat -> nth (nth j mq 0%nat) acc 0 = nth j u 0).
    { intros j Hj. apply A2; auto. split; [exact Hj|]. split; [reflexivity|]. intros j' Hj' C. apply HI in C; lia. }
    assert (AV : forall k, (k < bp_degree P)%nat -> 0 <= nth k acc 0 < mp (nt_p op)).
    { intros k Hk. destruct (in_dec Nat.eq_dec k (map (fun j => nth j mq 0%nat) (seq 0 (bp_degree P)))) as [HJ|HJ].
      - apply in_map_iff in HJ. destruct HJ as [j [Ej Hj]]. apply in_seq in Hj. rewrite <- Ej, A3 by lia. rewrite Forall_forall in Ru. apply Ru. apply nth_In. lia.
      - rewrite A1; [rewrite nth_repeat; lia|]. intros j Hj C. apply HJ. apply in_map_iff. exists j. split; auto. apply in_seq. lia. }
    assert (RA : rng L (mp (nt_p op)) acc) by (split; [lia|intros k Hk; apply AV; lia]).
    destruct (ntt_forward_backward pr op L psi Wn acc RA) as [a [Eb [[La' Ra] Ef]]]. exists a.
    assert (La2 : length a = bp_degree P) by lia.
    assert (Ra2 : forall k, (k < bp_degree P)%nat -> 0 <= nth k a 0 < mp (nt_p op)) by (intros k Hk; apply Ra; lia).
    split; [unfold pt_new; cbn [with_index_map bp_pt_ntt bp_index_map bp_degree]; rewrite E; cbn [bind]; rewrite Eo; cbn [unwrap bind]; rewrite Eb; reflexivity|].
    split; [exact La2|]. split; [apply Forall_forall; intros x Hx; apply (In_nth _ _ 0) in Hx; destruct Hx as [k [Hk <-]]; apply Ra2; lia|].
    intros j Hj. destruct (FW pr a La2 Ra2) as [b [Ef' [Lb [Rb Hb]]]]. rewrite Ef in Ef'. apply Ok_inj in Ef'. subst b.
    rewrite <- (proj2 (DEC pr i a acc Lb Rb Ef Hb) j Hj). apply A3. exact Hj.
Qed.
