(** Claim C66: slot rotation by Galois automorphisms. *)
From Verif Require Import PBase NT Spec PSum MModulus MUtils MNtt MRns MRq MBfv MKsk MGalois PModulus PNttMath PNtt PCrt PRns PUtils SpecRq SpecBfv SpecKsk PRing PRq PRq2 PRq3 PBfv PBfv2 PBfv4 PKsk PKsk2 QKsk QBfv PNttNew TestBfv.

(** The polynomial with the given coefficients. *)
Definition vfun (v : list Z) (j : nat) : Z := nth j v 0.

Lemma slot_pos_odd L i : slot_pos L i mod 2 = 1.
Proof.
  unfold slot_pos. rewrite Nat2Z.inj_succ, Z.pow_succ_r by lia. rewrite Z.rem_mul_r by (try lia; apply Z.pow_pos_nonneg; lia).
  rewrite <- Z.add_mod_idemp_r by lia. rewrite (Z.mul_comm 2), Z.mod_mul by lia. rewrite Z.add_0_r, Z.mod_mod by lia.
  rewrite <- mod_pow by lia. change (3 mod 2) with 1. rewrite Z.pow_1_l by lia. reflexivity.
Qed.

Lemma slot_lo_point L i : Z.of_nat (2 * bitrev L (slot_lo L i) + 1) = slot_pos L i.
Proof.
  pose proof (slot_pos_range L i) as R. pose proof (slot_pos_odd L i) as O.
  rewrite Nat2Z.inj_succ, Z.pow_succ_r in R by lia.
  assert (D : slot_pos L i - 1 = 2 * ((slot_pos L i - 1) / 2)).
  { apply Z.div_exact; [lia|]. rewrite Zminus_mod, O. reflexivity. }
  unfold slot_lo. set (d := (slot_pos L i - 1) / 2) in *. rewrite Z.mod_small by lia.
  rewrite bitrev_invol; [lia|]. apply Nat2Z.inj_lt. rewrite pow2_Z. lia.
Qed.
Lemma slot_hi_point L i : exists z, Z.of_nat (2 * bitrev L (slot_hi L i) + 1) = 4 * 2 ^ Z.of_nat L - 2 * slot_pos L i - 1 + z * (2 * 2 ^ Z.of_nat L).
Proof.
  pose proof (Z.pow_pos_nonneg 2 (Z.of_nat L) ltac:(lia) ltac:(lia)) as HP.
  unfold slot_hi. set (y := 2 * 2 ^ Z.of_nat L - slot_pos L i - 1).
  pose proof (Z.mod_pos_bound y (2 ^ Z.of_nat L) HP) as HM. pose proof (Z.div_mod y (2 ^ Z.of_nat L) ltac:(lia)) as DM.
  rewrite bitrev_invol by (apply Nat2Z.inj_lt; rewrite pow2_Z; lia).
  exists (- (y / 2 ^ Z.of_nat L)). rewrite Nat2Z.inj_add, Nat2Z.inj_mul, Z2Nat.id by lia.
  set (k := y / 2 ^ Z.of_nat L) in *. set (r := y mod 2 ^ Z.of_nat L) in *. change (Z.of_nat 2) with 2. change (Z.of_nat 1) with 1.
  unfold y in DM. lia.
Qed.

Lemma pw_exp p psi n a b : eqm p (pw psi n) (-1) -> (0 < n)%nat -> 0 <= b -> (exists z, Z.of_nat a = b + z * (2 * Z.of_nat n)) ->
  eqm p (pw psi a) (psi ^ b).
Proof.
  intros H Hn Hb [z E]. assert (EB : psi ^ b = pw psi (Z.to_nat b)) by (unfold pw; rewrite Z2Nat.id by lia; reflexivity).
  rewrite EB. apply pw_mod_2n with n; auto. apply Nat2Z.inj. rewrite !Nat2Z.inj_mod, Nat2Z.inj_mul. change (Z.of_nat 2) with 2.
  rewrite Z2Nat.id by lia. rewrite E, Z.mod_add by lia. reflexivity.
Qed.

(** C66: SIMD decoding evaluates the plaintext polynomial at psi^(3^k) in the
    first row and at psi^(-(2*3^k+1)) in the second one. *)
Lemma C66_decode_lem :
  forall P, built_params P -> exists psi, 0 <= psi < bp_t P /\ psi ^ Z.of_nat (bp_degree P) mod bp_t P = bp_t P - 1
    /\ forall pr i v, length v = bp_degree P -> Forall (fun x => 0 <= x < bp_t P) v ->
       exists r, pt_decode pr (mkPt P i EncSIMD v) = Ok r /\ length r = bp_degree P
         /\ forall k, (k < bp_degree P / 2)%nat ->
            let e := 3 ^ Z.of_nat k mod (2 * Z.of_nat (bp_degree P)) in
            nth k r 0 = peval (bp_degree P) (vfun v) (psi ^ e) mod bp_t P
            /\ nth (bp_degree P / 2 + k) r 0 = peval (bp_degree P) (vfun v) (psi ^ (4 * Z.of_nat (bp_degree P) - 2 * e - 1)) mod bp_t P.
Proof.
  intros P BP. pose proof (built_params_wf P BP) as WB. pose proof (wf_t17 P WB) as RT.
  destruct (wb_ntt _ WB) as [op [L [psi [Eo [En [Ep Wn]]]]]]. pose proof (wn_L _ _ _ Wn) as HL.
  destruct (index_map_ok L ltac:(lia)) as [mp' [E [Lm H]]]. pose proof (wb_map _ WB) as E'. rewrite En, E in E'. apply Ok_inj in E'. subst mp'.
  assert (E2 : (2 ^ L = 2 * 2 ^ (L - 1))%nat) by (replace L with (S (L - 1)) at 1 by lia; apply Nat.pow_succ_r').
  assert (EH : (bp_degree P / 2 = 2 ^ (L - 1))%nat) by (rewrite En, E2, Nat.mul_comm, Nat.div_mul; lia).
  exists psi. rewrite <- Ep. split; [apply (wn_psir _ _ _ Wn)|]. split.
  { pose proof (wn_psi _ _ _ Wn) as X. unfold eqm, pw in X. rewrite En, X. symmetry. apply Z.mod_unique with (-1); lia. }
  intros pr i v Lv Rv.
  assert (R4 : rng L (4 * mp (nt_p op)) v).
  { split; [lia|]. intros k Hk. rewrite Forall_forall in Rv. specialize (Rv (nth k v 0) ltac:(apply nth_In; lia)). lia. }
  destruct (ntt_forward_ok pr op L psi Wn v R4) as [b [Ef [[Lb Rb] Hb]]].
  exists (map (fun k => nth (nth k (bp_index_map P) 0%nat) b 0) (seq 0 (bp_degree P))).
  assert (HM : forall k, (k < bp_degree P)%nat -> (nth k (bp_index_map P) 0 < bp_degree P)%nat).
  { destruct (map_facts P WB) as [_ [_ [_ [_ [HM _]]]]]. exact HM. }
  split.
  { unfold pt_decode. cbn [pt_enc pt_params pt_values]. rewrite Eo. cbn [unwrap bind]. rewrite Ef. cbn [bind].
    apply mapM_ok. intros k Hk. apply in_seq in Hk. rewrite (get_ok _ _ 0%nat) by lia. cbn [bind]. apply get_ok. rewrite Lb, <- En. apply HM. lia. }
  split; [apply len_seq|]. intros k Hk. rewrite EH in Hk. cbv zeta.
  assert (EE : 3 ^ Z.of_nat k mod (2 * Z.of_nat (bp_degree P)) = slot_pos L k).
  { unfold slot_pos. rewrite En, pow2_Z, Nat2Z.inj_succ, Z.pow_succ_r by lia. reflexivity. }
  rewrite EE. pose proof (slot_pos_range L k) as SR. rewrite Nat2Z.inj_succ, Z.pow_succ_r in SR by lia.
  rewrite EH. rewrite !nth_map_seq by lia. destruct (H k Hk) as [H1 H2]. rewrite H1, H2. destruct (slot_range L k) as [S1 S2].
  assert (AT : forall j b0, (j < 2 ^ L)%nat -> 0 <= b0 -> (exists z, Z.of_nat (2 * bitrev L j + 1) = b0 + z * (2 * 2 ^ Z.of_nat L)) ->
            nth j b 0 = peval (bp_degree P) (vfun v) (psi ^ b0) mod mp (nt_p op)).
  { intros j b0 Hj Hb0 HZ. rewrite <- (Z.mod_small (nth j b 0) (mp (nt_p op))) by (apply Rb; auto).
    rewrite (Hb j Hj : nth j b 0 mod _ = _). rewrite En. apply peval_point. unfold point. apply pw_exp with (2 ^ L)%nat; auto.
    - apply (wn_psi _ _ _ Wn).
    - apply pow2_pos.
    - rewrite pow2_Z. exact HZ. }
  split.
  - apply AT; auto; [lia|]. exists 0. rewrite slot_lo_point. ring.
  - apply AT; auto.
    + rewrite En, pow2_Z. lia.
    + rewrite En, pow2_Z. apply slot_hi_point.
Qed.

Lemma pow3_period L a b : (3 <= L)%nat -> (a mod 2 ^ (L - 1) = b mod 2 ^ (L - 1))%nat ->
  3 ^ Z.of_nat a mod 2 ^ Z.of_nat (S L) = 3 ^ Z.of_nat b mod 2 ^ Z.of_nat (S L).
Proof.
  intros HL H. pose proof (Z.pow_pos_nonneg 2 (Z.of_nat (S L)) ltac:(lia) ltac:(lia)) as HP.
  assert (ONE : 3 ^ Z.of_nat (2 ^ (L - 1)) mod 2 ^ Z.of_nat (S L) = 1).
  { destruct (pow3 (L - 1) ltac:(lia)) as [u E]. rewrite pow2_Z, E. replace (L - 1 + 2)%nat with (S L) by lia.
    rewrite Z.mul_comm, Z.mod_add by lia. apply Z.mod_small. pose proof (Z.pow_pos_nonneg 2 (Z.of_nat L) ltac:(lia) ltac:(lia)). rewrite Nat2Z.inj_succ, Z.pow_succ_r by lia. lia. }
  assert (X : forall c, 3 ^ Z.of_nat c mod 2 ^ Z.of_nat (S L) = 3 ^ Z.of_nat (c mod 2 ^ (L - 1)) mod 2 ^ Z.of_nat (S L)).
  { intros c. pose proof (pow2_pos (L - 1)) as P2. rewrite (Nat.div_mod c (2 ^ (L - 1))) at 1 by lia.
    rewrite Nat2Z.inj_add, Z.pow_add_r, Nat2Z.inj_mul, Z.pow_mul_r by apply Zle_0_nat.
    rewrite <- Z.mul_mod_idemp_l by lia. rewrite <- (mod_pow (3 ^ Z.of_nat (2 ^ (L - 1)))) by apply Zle_0_nat.
    rewrite ONE, Z.pow_1_l by apply Zle_0_nat. rewrite Z.mul_mod_idemp_l by lia. rewrite Z.mul_1_l. reflexivity. }
  rewrite (X a), (X b), H. reflexivity.
Qed.

Lemma pow_eqm_exp p psi n a b : eqm p (pw psi n) (-1) -> (0 < n)%nat -> 0 <= a -> 0 <= b ->
  a mod (2 * Z.of_nat n) = b mod (2 * Z.of_nat n) -> eqm p (psi ^ a) (psi ^ b).
Proof.
  intros H Hn Ha Hb E. assert (EB : forall c, 0 <= c -> psi ^ c = pw psi (Z.to_nat c)) by (intros c Hc; unfold pw; rewrite Z2Nat.id by lia; reflexivity).
  rewrite !EB by lia. apply pw_mod_2n with n; auto. apply Nat2Z.inj. rewrite !Nat2Z.inj_mod, Nat2Z.inj_mul. change (Z.of_nat 2) with 2.
  rewrite !Z2Nat.id by lia. exact E.
Qed.

(** The ciphertext is decrypted after the automorphism X -> X^x and decoded. *)
Definition rotate_decode (pr : profile) (sk : SecretKey) (c : RqContext) (i : nat) (rnd : RndKsk) (x : Z) (ct : Ct) : outcome (list Z) :=
  g <- subst_new pr c x ;; gk <- galois_new pr sk g i rnd ;; ct' <- galois_relinearize pr gk ct ;;
  pt <- decrypt pr sk ct' ;; pt_decode pr (pt_set_encoding pt EncSIMD).
Definition plain_decode (pr : profile) (sk : SecretKey) (ct : Ct) : outcome (list Z) :=
  pt <- decrypt pr sk ct ;; pt_decode pr (pt_set_encoding pt EncSIMD).

Lemma pow_eqm' p y z e : 0 <= e -> eqm p y z -> eqm p (y ^ e) (z ^ e).
Proof. intros He H. unfold eqm in *. rewrite <- mod_pow, H, mod_pow by exact He. reflexivity. Qed.
Lemma pow_one' p y e : 0 <= e -> eqm p y 1 -> eqm p (y ^ e) 1.
Proof. intros He H. rewrite (pow_eqm' p y 1 e He H). rewrite Z.pow_1_l by exact He. reflexivity. Qed.
Lemma pow_odd' p y e h : 0 <= h -> e = 2 * h + 1 -> eqm p y (-1) -> eqm p (y ^ e) (-1).
Proof.
  intros Hh E H. assert (He : 0 <= e) by (clear - Hh E; lia). rewrite (pow_eqm' p y (-1) e He H). rewrite E.
  rewrite Z.pow_add_r by (clear - Hh; lia). rewrite Z.pow_mul_r by (clear - Hh; lia). change ((-1) ^ 2) with 1. rewrite Z.pow_1_l by exact Hh. reflexivity.
Qed.
Lemma pow_even' p y h : 0 <= h -> eqm p y (-1) -> eqm p (y ^ (2 * h)) 1.
Proof.
  intros Hh H. assert (He : 0 <= 2 * h) by (clear - Hh; lia). rewrite (pow_eqm' p y (-1) _ He H).
  rewrite Z.pow_mul_r by (clear - Hh; lia). change ((-1) ^ 2) with 1. rewrite Z.pow_1_l by exact Hh. reflexivity.
Qed.

Lemma psi_order p psi L : 2 < p -> eqm p (psi ^ 2 ^ Z.of_nat L) (-1) -> forall d, 0 <= d -> eqm p (psi ^ d) 1 ->
  exists z, d = 2 ^ Z.of_nat (S L) * z.
Proof.
  intros Hp HM d Hd H1.
  assert (X : forall j, (j <= S L)%nat -> exists z, d = 2 ^ Z.of_nat j * z).
  { induction j as [|j IH]; intros Hj; [exists d; change (2 ^ Z.of_nat 0) with 1; lia|].
    destruct (IH ltac:(lia)) as [z Ez]. rewrite Nat2Z.inj_succ, Z.pow_succ_r by lia.
    destruct (Z.Even_or_Odd z) as [[y Ey]|[y Ey]]; [exists y; rewrite Ez, Ey; ring|exfalso].
    pose proof (Z.pow_pos_nonneg 2 (Z.of_nat j) ltac:(lia) ltac:(lia)) as HJ. assert (0 <= y) by nia.
    assert (A : eqm p (psi ^ (d * 2 ^ (Z.of_nat L - Z.of_nat j))) 1).
    { rewrite Z.pow_mul_r by (try exact Hd; apply Z.pow_nonneg; lia). apply pow_one'; [apply Z.pow_nonneg; lia|exact H1]. }
    replace (d * 2 ^ (Z.of_nat L - Z.of_nat j)) with (2 ^ Z.of_nat L * z) in A.
    2:{ replace (Z.of_nat L) with (Z.of_nat j + (Z.of_nat L - Z.of_nat j)) at 1 by lia. rewrite Z.pow_add_r by lia. rewrite Ez. ring. }
    assert (Hz : 0 <= z) by (clear - H Ey; lia). rewrite Z.pow_mul_r in A by (try exact Hz; apply Z.pow_nonneg; lia).
    rewrite (pow_odd' p _ z y H Ey HM) in A. clear - A Hp. unfold eqm in A.
    rewrite (Z.mod_small 1) in A by lia. assert (B : (-1) mod p = p - 1) by (symmetry; apply Z.mod_unique with (-1); lia). lia. }
  apply X. lia.
Qed.

Lemma psi_inj p psi L a b : 2 < p -> eqm p (psi ^ 2 ^ Z.of_nat L) (-1) -> 0 <= a -> 0 <= b -> eqm p (psi ^ a) (psi ^ b) ->
  exists z, a - b = 2 ^ Z.of_nat (S L) * z.
Proof.
  intros Hp HM Ha Hb H. pose proof (Z.pow_pos_nonneg 2 (Z.of_nat L) ltac:(lia) ltac:(lia)) as HL.
  set (N := 2 ^ Z.of_nat (S L)). assert (EN : N = 2 * 2 ^ Z.of_nat L) by (unfold N; rewrite Nat2Z.inj_succ, Z.pow_succ_r by lia; ring).
  destruct (psi_order p psi L Hp HM (a + (N - 1) * b)) as [z E].
  - assert (0 <= (N - 1) * b) by (apply Z.mul_nonneg_nonneg; lia). lia.
  - assert (0 <= (N - 1) * b) by (apply Z.mul_nonneg_nonneg; lia).
    rewrite Z.pow_add_r by lia. unfold eqm in *. rewrite <- Z.mul_mod_idemp_l, H, Z.mul_mod_idemp_l by lia.
    rewrite <- Z.pow_add_r by lia. replace (b + (N - 1) * b) with (2 ^ Z.of_nat L * (2 * b)) by (rewrite EN; ring).
    rewrite Z.pow_mul_r by (clear - HL Hb; lia). apply pow_even'; [exact Hb|exact HM].
  - fold N in E. exists (z - b). replace (a - b) with (a + (N - 1) * b - N * b) by ring. rewrite E. ring.
Qed.

Lemma rot_gen pr P i c sk rnd x f0 f1 m E B : built_params P -> level P i c -> sk_params sk = P -> sk_ok sk ->
    1 <= bp_variance P <= 16 -> rnd_ok c rnd -> 0 <= x -> x mod 2 = 1 -> length (bp_moduli P) <> 1%nat -> small_degree pr (bp_degree P) ->
    small_basis (rq_moduli_64 c) -> 2 * bp_t P <= cx_q c 0 ->
    carries (bp_degree P) (cx_Q c) (bp_t P) (phase (bp_degree P) (sk_fun sk) [f0; f1]) m E ->
    (forall j, (j < bp_degree P)%nat -> Z.abs (E j) <= B) ->
    2 ^ 54 * (2 * (B + bp_t P * ks_bound c (2 * bp_variance P))) <= (2 ^ 54 - 1) * cx_Q c ->
  exists L psi r r', (3 <= L)%nat /\ bp_degree P = (2 ^ L)%nat /\ eqm (bp_t P) (psi ^ 2 ^ Z.of_nat L) (-1)
    /\ plain_decode pr sk (ct_of P i c [f0; f1]) = Ok r /\ rotate_decode pr sk c i rnd x (ct_of P i c [f0; f1]) = Ok r'
    /\ forall k, (k < bp_degree P / 2)%nat -> let e := slot_pos L k in let e2 := 4 * Z.of_nat (bp_degree P) - 2 * e - 1 in
       nth k r 0 = peval (bp_degree P) m (psi ^ e) mod bp_t P
       /\ nth (bp_degree P / 2 + k) r 0 = peval (bp_degree P) m (psi ^ e2) mod bp_t P
       /\ nth k r' 0 = peval (bp_degree P) m (psi ^ (e * x)) mod bp_t P
       /\ nth (bp_degree P / 2 + k) r' 0 = peval (bp_degree P) m (psi ^ (e2 * x)) mod bp_t P.
Proof.
  intros BP LV SP SO Hv HR Hx Ho HL SD SB Hq HC HB HQ.
  pose proof (C38_decrypt_lem pr P i c sk rnd x f0 f1 m E B BP LV SP SO Hv HR Hx Ho HL SD SB Hq HC HB HQ) as D1.
  pose proof (built_params_wf P BP) as WB. destruct (level_wf P i c WB LV) as [_ LW]. pose proof (wf_t17 P WB) as T1.
  pose proof (wl_n _ (wf_ctx_loc _ (lv_wf _ _ _ LW))) as EN. rewrite (lv_n _ _ _ LW) in EN. pose proof (wl_L _ (wf_ctx_loc _ (lv_wf _ _ _ LW))) as HLL.
  assert (KB : 0 <= ks_bound c (2 * bp_variance P)).
  { destruct (C38_galois_lem pr P i c sk rnd x BP LV SP SO Hv HR Hx Ho HL SD) as [g [gk [e [E1 [E2 H]]]]].
    destruct (H f0 f1) as [h0 [h1 [E3 HP]]]. cbv zeta in HP. assert (0 < bp_degree P)%nat as N0 by (rewrite EN; apply pow2_pos).
    destruct (HP 0%nat N0) as [_ HW]. lia. }
  assert (D0 : decrypt pr sk (ct_of P i c [f0; f1]) = Ok (mkPt P i EncNone (map (fun j => m j mod bp_t P) (seq 0 (bp_degree P))))).
  { apply (decrypt_shift pr P i c sk f0 f1 (phase (bp_degree P) (sk_fun sk) [f0; f1]) (fun _ => 0) m E B); auto.
    - intros j Hj. rewrite Z.add_0_r. reflexivity.
    - intros j Hj. specialize (HB j Hj). change (Z.abs 0) with 0. lia.
    - clear - HQ KB T1. assert (0 <= bp_t P * ks_bound c (2 * bp_variance P)) by (apply Z.mul_nonneg_nonneg; lia).
      set (X := bp_t P * ks_bound c (2 * bp_variance P)) in *. change (2 ^ 54) with 18014398509481984 in *. lia. }
  destruct (C66_decode_lem P BP) as [psi [RP [HP HD]]]. exists (cx_L c), psi.
  assert (RV : forall f, length (map (fun j => f j mod bp_t P) (seq 0 (bp_degree P))) = bp_degree P /\ Forall (fun x => 0 <= x < bp_t P) (map (fun j => f j mod bp_t P) (seq 0 (bp_degree P)))).
  { intros f. split; [apply len_seq|]. apply Forall_forall. intros y Hy. apply in_map_iff in Hy. destruct Hy as [j [<- _]]. apply Z.mod_pos_bound. lia. }
  destruct (HD pr i _ (proj1 (RV m)) (proj2 (RV m))) as [r [R1 [R2 R3]]].
  destruct (HD pr i _ (proj1 (RV (rsubst (bp_degree P) (Z.to_nat x) m))) (proj2 (RV (rsubst (bp_degree P) (Z.to_nat x) m)))) as [r' [R1' [R2' R3']]].
  exists r, r'. split; [lia|]. split; [exact EN|].
  assert (PM : eqm (bp_t P) (psi ^ 2 ^ Z.of_nat (cx_L c)) (-1)).
  { unfold eqm. rewrite EN, pow2_Z in HP. rewrite HP. apply Z.mod_unique with (-1); lia. }
  split; [exact PM|]. split; [unfold plain_decode; rewrite D0; exact R1|]. split.
  { unfold rotate_decode. revert D1. destruct (subst_new pr c x) as [g| | |]; cbn [bind]; try discriminate.
    destruct (galois_new pr sk g i rnd) as [gk| | |]; cbn [bind]; try discriminate.
    destruct (galois_relinearize pr gk _) as [ct'| | |]; cbn [bind]; try discriminate. intros D1. rewrite D1. exact R1'. }
  intros k Hk. cbv zeta. specialize (R3 k Hk). specialize (R3' k Hk). cbv zeta in R3, R3'.
  assert (EE : 3 ^ Z.of_nat k mod (2 * Z.of_nat (bp_degree P)) = slot_pos (cx_L c) k).
  { unfold slot_pos. rewrite EN, pow2_Z, (Nat2Z.inj_succ (cx_L c)), Z.pow_succ_r by lia. reflexivity. }
  rewrite EE in R3, R3'. pose proof (slot_pos_range (cx_L c) k) as SR. pose proof (slot_pos_odd (cx_L c) k) as SO'.
  assert (ND : Z.of_nat (bp_degree P) = 2 ^ Z.of_nat (cx_L c)) by (rewrite EN; apply pow2_Z).
  rewrite Nat2Z.inj_succ, Z.pow_succ_r in SR by lia. rewrite <- ND in SR.
  set (n := bp_degree P) in *. set (e := slot_pos (cx_L c) k) in *. set (e2 := 4 * Z.of_nat n - 2 * e - 1) in *.
  assert (Pe : 0 <= e) by (clear - SR; lia). assert (Pe2 : 0 <= e2) by (unfold e2; clear - SR; lia).
  assert (N0 : (0 < n)%nat) by (rewrite EN; apply pow2_pos).
  assert (VM : forall f y, peval n (vfun (map (fun j => f j mod bp_t P) (seq 0 n))) y mod bp_t P = peval n f y mod bp_t P).
  { intros f y. apply peval_eqm. intros j Hj. unfold vfun, eqm. rewrite nth_map_seq by auto. apply Z.mod_mod. lia. }
  assert (OD : forall d, 0 <= d -> d mod 2 = 1 -> eqm (bp_t P) (pw (psi ^ d) n) (-1)).
  { intros d Hd Od. unfold pw. rewrite <- Z.pow_mul_r by lia. rewrite Z.mul_comm, Z.pow_mul_r by lia. rewrite ND. apply (pow_odd' _ _ d (d / 2)); [apply Z.div_pos; lia| |exact PM].
    pose proof (Z.div_mod d 2 ltac:(lia)) as D2. rewrite Od in D2. exact D2. }
  assert (SB' : forall d, 0 <= d -> d mod 2 = 1 -> peval n (vfun (map (fun j => rsubst n (Z.to_nat x) m j mod bp_t P) (seq 0 n))) (psi ^ d) mod bp_t P
              = peval n m (psi ^ (d * x)) mod bp_t P).
  { intros d Hd Od. rewrite VM. rewrite (peval_rsubst (bp_t P) n (Z.to_nat x) m (psi ^ d) N0 (OD d Hd Od) : _ mod _ = _).
    unfold pw. rewrite Z2Nat.id by lia. rewrite <- Z.pow_mul_r by lia. reflexivity. }
  destruct R3 as [A1 A2], R3' as [A1' A2'].
  assert (OE : e2 mod 2 = 1).
  { unfold e2. replace (4 * Z.of_nat n - 2 * e - 1) with (1 + (2 * Z.of_nat n - e - 1) * 2) by ring. rewrite Z.mod_add by lia. reflexivity. }
  split; [rewrite A1; apply VM|]. split; [rewrite A2; apply VM|]. split; [rewrite A1'|rewrite A2']; apply SB'; assumption.
Qed.

(** C66: the automorphism X -> X^x with x = 3^k modulo 2n rotates the first row
    of slots by k to the left. *)
Lemma C66_first_row_lem :
  forall pr P i c sk rnd x k f0 f1 m E B, built_params P -> level P i c -> sk_params sk = P -> sk_ok sk ->
    1 <= bp_variance P <= 16 -> rnd_ok c rnd -> 0 <= x -> length (bp_moduli P) <> 1%nat -> small_degree pr (bp_degree P) ->
    small_basis (rq_moduli_64 c) -> 2 * bp_t P <= cx_q c 0 ->
    carries (bp_degree P) (cx_Q c) (bp_t P) (phase (bp_degree P) (sk_fun sk) [f0; f1]) m E ->
    (forall j, (j < bp_degree P)%nat -> Z.abs (E j) <= B) ->
    2 ^ 54 * (2 * (B + bp_t P * ks_bound c (2 * bp_variance P))) <= (2 ^ 54 - 1) * cx_Q c ->
    x mod (2 * Z.of_nat (bp_degree P)) = 3 ^ Z.of_nat k mod (2 * Z.of_nat (bp_degree P)) ->
    exists r r', plain_decode pr sk (ct_of P i c [f0; f1]) = Ok r /\ rotate_decode pr sk c i rnd x (ct_of P i c [f0; f1]) = Ok r'
      /\ forall j, (j < bp_degree P / 2)%nat -> nth j r' 0 = nth ((j + k) mod (bp_degree P / 2)) r 0.
Proof.
  intros pr P i c sk rnd x k f0 f1 m E B BP LV SP SO Hv HR Hx HL SD SB Hq HC HB HQ HX.
  assert (N0 : (0 < bp_degree P)%nat).
  { pose proof (built_params_wf P BP) as WB. destruct (level_wf P i c WB LV) as [_ LW]. pose proof (wl_n _ (wf_ctx_loc _ (lv_wf _ _ _ LW))) as EN.
    rewrite (lv_n _ _ _ LW) in EN. rewrite EN. apply pow2_pos. }
  assert (Ho : x mod 2 = 1).
  { assert (Y : forall y, y mod 2 = (y mod (2 * Z.of_nat (bp_degree P))) mod 2).
    { intros y. rewrite Z.rem_mul_r by lia. rewrite Z.mul_comm, Z.mod_add, Z.mod_mod by lia. reflexivity. }
    rewrite Y, HX, <- Y. rewrite <- mod_pow by lia. change (3 mod 2) with 1. rewrite Z.pow_1_l by lia. reflexivity. }
  destruct (rot_gen pr P i c sk rnd x f0 f1 m E B BP LV SP SO Hv HR Hx Ho HL SD SB Hq HC HB HQ) as [L [psi [r [r' [H3 [EN [PM [R [R' H]]]]]]]]].
  exists r, r'. split; auto. split; auto. intros j Hj.
  assert (E2 : (2 ^ L = 2 * 2 ^ (L - 1))%nat) by (replace L with (S (L - 1)) at 1 by lia; apply Nat.pow_succ_r').
  assert (EH : (bp_degree P / 2 = 2 ^ (L - 1))%nat) by (rewrite EN, E2, Nat.mul_comm, Nat.div_mul; lia).
  pose proof (pow2_pos (L - 1)) as P2. assert (HJK : ((j + k) mod (bp_degree P / 2) < bp_degree P / 2)%nat) by (apply Nat.mod_upper_bound; lia).
  destruct (H j Hj) as [_ [_ [A _]]]. destruct (H _ HJK) as [A' _]. rewrite A, A'. apply peval_point.
  assert (ND : Z.of_nat (bp_degree P) = 2 ^ Z.of_nat L) by (rewrite EN; apply pow2_Z).
  pose proof (slot_pos_range L j). pose proof (slot_pos_range L ((j + k) mod (bp_degree P / 2))).
  apply pow_eqm_exp with (bp_degree P); [| |apply Z.mul_nonneg_nonneg; [clear - H0; lia|exact Hx]|clear - H1; lia|].
  - unfold pw. rewrite ND. exact PM.
  - exact N0.
  - assert (EM : 2 * Z.of_nat (bp_degree P) = 2 ^ Z.of_nat (S L)) by (rewrite ND, Nat2Z.inj_succ, Z.pow_succ_r by lia; reflexivity).
    rewrite EM in *. pose proof (Z.pow_pos_nonneg 2 (Z.of_nat (S L)) ltac:(lia) ltac:(lia)).
    rewrite Z.mul_mod, HX, <- Z.mul_mod by lia. unfold slot_pos. rewrite Z.mul_mod_idemp_l, Z.mod_mod by lia. rewrite <- Z.pow_add_r by lia.
    rewrite <- Nat2Z.inj_add. apply pow3_period; auto. rewrite EH, Nat.mod_mod by lia. reflexivity.
Qed.

(*EXAMPLE
(** Degree 8, plaintext X: X -> X^3 rotates the first row 3 10 14 7 by one; the
    second row 12 14 12 14 becomes 11 7 11 7 instead of 14 12 14 12, and
    X -> X^15 does not swap the rows. *)
Example C66_example :
  (P <- test_bfv Debug ;; c <- tctx P ;; let sk := mkSk P [1; -1; 0; 1; 1; 0; 2; -1] in
   pa <- pt_new Debug P [0; 1] 0 EncPoly ;;
   a <- encrypt Debug sk pa (trows bms 4) (tw 5) ;;
   r <- plain_decode Debug sk a ;; r1 <- rotate_decode Debug sk c 0 (trnd 3) 3 a ;; r2 <- rotate_decode Debug sk c 0 (trnd 3) 15 a ;; Ok (r, r1, r2))
  = Ok ([3; 10; 14; 7; 12; 14; 12; 14], [10; 14; 7; 3; 11; 7; 11; 7], [6; 12; 11; 5; 10; 11; 10; 11]).
Proof. vm_compute. reflexivity. Qed.
EXAMPLE*)

(** The polynomial X. *)
Definition mono_x (j : nat) : Z := if (j =? 1)%nat then 1 else 0.
Lemma peval_mono_x n y : (2 <= n)%nat -> peval n mono_x y = y.
Proof.
  intros Hn. unfold peval. replace n with (2 + (n - 2))%nat by lia. generalize (n - 2)%nat as d. intros d.
  induction d as [|d IH].
  - cbn [Nat.add sumn]. unfold mono_x. cbn [Nat.eqb]. change (Z.of_nat 1) with 1. rewrite Z.pow_1_r. ring.
  - replace (2 + S d)%nat with (S (2 + d)) by lia. cbn [sumn]. rewrite IH. unfold mono_x.
    destruct (Nat.eqb_spec (2 + d) 1); [lia|]. ring.
Qed.

(** C66: the second row is not rotated: for the plaintext X and every rotation
    other than the trivial one every slot of the second row differs from the
    slot k places on. *)
Lemma C66_second_row_refuted_lem :
  forall pr P i c sk rnd x k f0 f1 E B, built_params P -> level P i c -> sk_params sk = P -> sk_ok sk ->
    1 <= bp_variance P <= 16 -> rnd_ok c rnd -> 0 <= x -> length (bp_moduli P) <> 1%nat -> small_degree pr (bp_degree P) ->
    small_basis (rq_moduli_64 c) -> 2 * bp_t P <= cx_q c 0 ->
    carries (bp_degree P) (cx_Q c) (bp_t P) (phase (bp_degree P) (sk_fun sk) [f0; f1]) mono_x E ->
    (forall j, (j < bp_degree P)%nat -> Z.abs (E j) <= B) ->
    2 ^ 54 * (2 * (B + bp_t P * ks_bound c (2 * bp_variance P))) <= (2 ^ 54 - 1) * cx_Q c ->
    x mod (2 * Z.of_nat (bp_degree P)) = 3 ^ Z.of_nat k mod (2 * Z.of_nat (bp_degree P)) ->
    x mod (2 * Z.of_nat (bp_degree P)) <> 1 ->
    exists r r', plain_decode pr sk (ct_of P i c [f0; f1]) = Ok r /\ rotate_decode pr sk c i rnd x (ct_of P i c [f0; f1]) = Ok r'
      /\ forall j, (j < bp_degree P / 2)%nat ->
           nth (bp_degree P / 2 + j) r' 0 <> nth (bp_degree P / 2 + (j + k) mod (bp_degree P / 2)) r 0.
Proof.
  intros pr P i c sk rnd x k f0 f1 E B BP LV SP SO Hv HR Hx HL SD SB Hq HC HB HQ HX HX1.
  pose proof (built_params_wf P BP) as WB. pose proof (wf_t17 P WB) as T1.
  assert (N0 : (8 <= bp_degree P)%nat).
  { destruct (level_wf P i c WB LV) as [_ LW]. pose proof (cx_n8 c (wf_ctx_loc _ (lv_wf _ _ _ LW))) as Hn. rewrite (lv_n _ _ _ LW) in Hn. exact Hn. }
  assert (Ho : x mod 2 = 1).
  { assert (Y : forall y, y mod 2 = (y mod (2 * Z.of_nat (bp_degree P))) mod 2).
    { intros y. rewrite Z.rem_mul_r by lia. rewrite Z.mul_comm, Z.mod_add, Z.mod_mod by lia. reflexivity. }
    rewrite Y, HX, <- Y. rewrite <- mod_pow by lia. change (3 mod 2) with 1. rewrite Z.pow_1_l by lia. reflexivity. }
  destruct (rot_gen pr P i c sk rnd x f0 f1 mono_x E B BP LV SP SO Hv HR Hx Ho HL SD SB Hq HC HB HQ) as [L [psi [r [r' [H3 [EN [PM [R [R' H]]]]]]]]].
  exists r, r'. split; [exact R|]. split; [exact R'|]. intros j Hj.
  assert (E2 : (2 ^ L = 2 * 2 ^ (L - 1))%nat) by (replace L with (S (L - 1)) at 1 by lia; apply Nat.pow_succ_r').
  assert (EH : (bp_degree P / 2 = 2 ^ (L - 1))%nat) by (rewrite EN, E2, Nat.mul_comm, Nat.div_mul; lia).
  pose proof (pow2_pos (L - 1)) as P2. assert (HJK : ((j + k) mod (bp_degree P / 2) < bp_degree P / 2)%nat) by (apply Nat.mod_upper_bound; lia).
  destruct (H j Hj) as [_ [_ [_ A]]]. destruct (H _ HJK) as [_ [A' _]]. rewrite A, A', !peval_mono_x by lia. clear A A' H.
  assert (ND : Z.of_nat (bp_degree P) = 2 ^ Z.of_nat L) by (rewrite EN; apply pow2_Z).
  assert (EM : 2 * Z.of_nat (bp_degree P) = 2 ^ Z.of_nat (S L)) by (rewrite ND, Nat2Z.inj_succ, Z.pow_succ_r by lia; reflexivity).
  pose proof (slot_pos_range L j) as RJ. pose proof (slot_pos_range L ((j + k) mod (bp_degree P / 2))) as RK.
  assert (SJ : (slot_pos L j * x) mod 2 ^ Z.of_nat (S L) = slot_pos L ((j + k) mod (bp_degree P / 2))).
  { rewrite EM in HX. pose proof (Z.pow_pos_nonneg 2 (Z.of_nat (S L)) ltac:(lia) ltac:(lia)).
    rewrite <- Z.mul_mod_idemp_r, HX, Z.mul_mod_idemp_r by lia. unfold slot_pos. rewrite Z.mul_mod_idemp_l by lia. rewrite <- Z.pow_add_r by lia.
    rewrite <- Nat2Z.inj_add. apply pow3_period; auto. rewrite EH, Nat.mod_mod by lia. reflexivity. }
  intros C. set (e := slot_pos L j) in *. set (e' := slot_pos L ((j + k) mod (bp_degree P / 2))) in *. set (N := 2 ^ Z.of_nat (S L)) in *.
  assert (E4 : 4 * Z.of_nat (bp_degree P) = 2 * N) by (clear - EM; lia). rewrite E4 in C.
  assert (TP : 2 < bp_t P) by (clear - T1; lia).
  assert (Q1 : 0 <= (2 * N - 2 * e - 1) * x) by (apply Z.mul_nonneg_nonneg; [clear - RJ; lia|exact Hx]).
  assert (Q2 : 0 <= 2 * N - 2 * e' - 1) by (clear - RK; lia).
  destruct (psi_inj (bp_t P) psi L _ _ TP PM Q1 Q2 C) as [z Ez]. fold N in Ez.
  apply HX1. rewrite EM. pose proof (Z.div_mod (e * x) N ltac:(clear - RJ; lia)) as DM. rewrite SJ in DM.
  symmetry. apply Z.mod_unique with (2 * x - 2 - 2 * (e * x / N) - z); [clear - RJ EM N0; lia|].
  set (w := e * x / N) in *. clear - Ez DM.
  assert (A : (2 * N - 2 * e - 1) * x = 2 * N * x - 2 * (e * x) - x) by ring. rewrite A, DM in Ez. clear - Ez.
  replace (N * (2 * x - 2 - 2 * w - z)) with (2 * N * x - 2 * N - 2 * (N * w) - N * z) by ring. rewrite <- Ez. ring.
Qed.

(** C66: X -> X^(2n-1) does not swap the rows: for the plaintext X every slot is
    wrong. *)
Lemma C66_swap_refuted_lem :
  forall pr P i c sk rnd x f0 f1 E B, built_params P -> level P i c -> sk_params sk = P -> sk_ok sk ->
    1 <= bp_variance P <= 16 -> rnd_ok c rnd -> 0 <= x -> length (bp_moduli P) <> 1%nat -> small_degree pr (bp_degree P) ->
    small_basis (rq_moduli_64 c) -> 2 * bp_t P <= cx_q c 0 ->
    carries (bp_degree P) (cx_Q c) (bp_t P) (phase (bp_degree P) (sk_fun sk) [f0; f1]) mono_x E ->
    (forall j, (j < bp_degree P)%nat -> Z.abs (E j) <= B) ->
    2 ^ 54 * (2 * (B + bp_t P * ks_bound c (2 * bp_variance P))) <= (2 ^ 54 - 1) * cx_Q c ->
    x mod (2 * Z.of_nat (bp_degree P)) = 2 * Z.of_nat (bp_degree P) - 1 ->
    exists r r', plain_decode pr sk (ct_of P i c [f0; f1]) = Ok r /\ rotate_decode pr sk c i rnd x (ct_of P i c [f0; f1]) = Ok r'
      /\ forall j, (j < bp_degree P / 2)%nat ->
           nth j r' 0 <> nth (bp_degree P / 2 + j) r 0 /\ nth (bp_degree P / 2 + j) r' 0 <> nth j r 0.
Proof.
  intros pr P i c sk rnd x f0 f1 E B BP LV SP SO Hv HR Hx HL SD SB Hq HC HB HQ HX.
  pose proof (built_params_wf P BP) as WB. pose proof (wf_t17 P WB) as T1.
  assert (N0 : (8 <= bp_degree P)%nat).
  { destruct (level_wf P i c WB LV) as [_ LW]. pose proof (cx_n8 c (wf_ctx_loc _ (lv_wf _ _ _ LW))) as Hn. rewrite (lv_n _ _ _ LW) in Hn. exact Hn. }
  assert (Ho : x mod 2 = 1).
  { assert (Y : forall y, y mod 2 = (y mod (2 * Z.of_nat (bp_degree P))) mod 2).
    { intros y. rewrite Z.rem_mul_r by lia. rewrite Z.mul_comm, Z.mod_add, Z.mod_mod by lia. reflexivity. }
    rewrite Y, HX. replace (2 * Z.of_nat (bp_degree P) - 1) with (1 + (Z.of_nat (bp_degree P) - 1) * 2) by ring. rewrite Z.mod_add by lia. reflexivity. }
  destruct (rot_gen pr P i c sk rnd x f0 f1 mono_x E B BP LV SP SO Hv HR Hx Ho HL SD SB Hq HC HB HQ) as [L [psi [r [r' [H3 [EN [PM [R [R' H]]]]]]]]].
  exists r, r'. split; [exact R|]. split; [exact R'|]. intros j Hj.
  destruct (H j Hj) as [A1 [A2 [A3 A4]]]. rewrite A1, A2, A3, A4, !peval_mono_x by lia. clear A1 A2 A3 A4 H.
  assert (ND : Z.of_nat (bp_degree P) = 2 ^ Z.of_nat L) by (rewrite EN; apply pow2_Z).
  assert (EM : 2 * Z.of_nat (bp_degree P) = 2 ^ Z.of_nat (S L)) by (rewrite ND, Nat2Z.inj_succ, Z.pow_succ_r by lia; reflexivity).
  pose proof (slot_pos_range L j) as RJ.
  (* the positions are 1 or 3 modulo 8 *)
  assert (E8 : exists h, 2 ^ Z.of_nat (S L) = 8 * h).
  { exists (2 ^ Z.of_nat (L - 2)). replace (S L) with (3 + (L - 2))%nat by lia. rewrite Nat2Z.inj_add, Z.pow_add_r by lia. reflexivity. }
  assert (S8 : slot_pos L j mod 8 = 1 \/ slot_pos L j mod 8 = 3).
  { destruct E8 as [h Eh]. assert (Y : slot_pos L j mod 8 = 3 ^ Z.of_nat j mod 8).
    { unfold slot_pos. rewrite Eh. assert (0 < h) by (clear - RJ Eh; lia). rewrite Z.rem_mul_r by lia. rewrite Z.mul_comm, Z.mod_add, Z.mod_mod by lia. reflexivity. }
    rewrite Y. clear. induction j as [|j IH]; [left; reflexivity|]. rewrite Nat2Z.inj_succ, Z.pow_succ_r by lia. rewrite <- Z.mul_mod_idemp_r by lia.
    destruct IH as [-> | ->]; [right|left]; reflexivity. }
  destruct E8 as [h Eh]. set (e := slot_pos L j) in *. set (N := 2 ^ Z.of_nat (S L)) in *.
  assert (E4 : 4 * Z.of_nat (bp_degree P) = 2 * N) by (clear - EM; lia). rewrite E4.
  assert (TP : 2 < bp_t P) by (clear - T1; lia).
  assert (EX : x = N * (x / N) + (N - 1)) by (pose proof (Z.div_mod x N ltac:(clear - RJ; lia)) as DM; rewrite <- EM in DM at 3; rewrite HX in DM; clear - DM EM; lia).
  set (w := x / N) in *. pose proof (Z.div_mod e 8 ltac:(lia)) as D8. set (f := e / 8) in *.
  assert (Q1 : 0 <= (2 * N - 2 * e - 1) * x) by (apply Z.mul_nonneg_nonneg; [clear - RJ; lia|exact Hx]).
  assert (Q2 : 0 <= 2 * N - 2 * e - 1) by (clear - RJ; lia).
  assert (Q3 : 0 <= e * x) by (apply Z.mul_nonneg_nonneg; [clear - RJ; lia|exact Hx]).
  assert (Q4 : 0 <= e) by (clear - RJ; lia).
  split; intros C.
  - destruct (psi_inj (bp_t P) psi L _ _ TP PM Q3 Q2 C) as [z Ez]. fold N in Ez. rewrite EX in Ez.
    assert (K : e + 1 = 8 * (h * (z - e * w - e + 2))) by (clear - Ez Eh; nia). set (y := h * (z - e * w - e + 2)) in *. clear - K D8 S8. lia.
  - destruct (psi_inj (bp_t P) psi L _ _ TP PM Q1 Q4 C) as [z Ez]. fold N in Ez. rewrite EX in Ez.
    assert (K : e + 1 = 8 * (h * (z - (2 * N - 2 * e - 1) * (w + 1) + 2))) by (clear - Ez Eh; nia).
    set (y := h * (z - (2 * N - 2 * e - 1) * (w + 1) + 2)) in *. clear - K D8 S8. lia.
Qed.
