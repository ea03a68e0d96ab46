(** Claim C82: the SIMD operations with the slot map repaired. *)
From Verif Require Import PBase NT Spec PSum MModulus MUtils MNtt MRns MRq MBfv MKsk MGalois MRgsw MCirc MFix PModulus PNttMath PNtt PCrt PRns PUtils SpecRq SpecBfv SpecKsk SpecCirc SpecSimd PRing PRingT PRq PRq2 PRq3 PBfv PBfv2 PBfv3 PBfv4 PKsk PKsk2 QKsk QBfv PNttNew QRot QCirc PSimd PSimd2 TestBfv.

(** C82: the repaired map is a permutation of the coefficients. *)
Lemma C82_permutation_lem :
  forall P mq, built_params P -> index_map_fixed (bp_degree P) = Ok mq -> Permutation mq (seq 0 (bp_degree P)).
Proof.
  intros P mq BP EM. destruct (fixed_simd P mq BP EM) as [L [psi [HL [En _]]]]. rewrite En in EM. destruct (fixed_map_facts L mq HL EM) as [Lm [HM HI]]. rewrite En.
  symmetry. apply NoDup_Permutation_bis.
  - apply seq_NoDup.
  - rewrite seq_length. lia.
  - intros x Hx. apply in_seq in Hx.
    assert (X : incl (seq 0 (2 ^ L)) mq).
    { apply NoDup_length_incl.
      - apply (NoDup_nth mq 0%nat). intros a b Ha Hb E. rewrite Lm in Ha, Hb. apply HI; auto.
      - rewrite seq_length. lia.
      - intros y Hy. apply (In_nth _ _ 0%nat) in Hy. destruct Hy as [k [Hk <-]]. apply in_seq. pose proof (proj1 (HM k ltac:(lia))). lia. }
    apply X. apply in_seq. lia.
Qed.

(** C82: the map exists. *)
Lemma C82_map_lem :
  forall P, built_params P -> exists mq, index_map_fixed (bp_degree P) = Ok mq.
Proof.
  intros P BP. pose proof (built_params_wf P BP) as WB. destruct (map_facts P WB) as [L [HL [En _]]]. rewrite En.
  destruct (fixed_map_ok L ltac:(lia)) as [mq [E _]]. exists mq. exact E.
Qed.

(** C82: decoding inverts encoding. *)
Lemma C82_round_trip_lem :
  forall pr P mq i u, built_params P -> index_map_fixed (bp_degree P) = Ok mq -> slot_vec P u ->
    (pt <- pt_new pr (with_index_map P mq) u i EncSIMD ;; pt_decode pr pt) = Ok u.
Proof.
  intros pr P mq i u BP EM [Lu Ru]. destruct (fixed_simd P mq BP EM) as [L [psi [HL [En [_ [_ [HD HE]]]]]]].
  destruct (HE pr i u ltac:(lia) Ru) as [v [E [Lv [Rv Hv]]]]. rewrite E. cbn [bind]. rewrite HD by auto. f_equal.
  apply nth_ext with 0 0; [rewrite len_seq; lia|]. intros j Hj. rewrite len_seq in Hj. rewrite nth_map_seq by auto. apply Hv. exact Hj.
Qed.

(** C82: two rows of slots, at the powers of 3 and at their inverses. *)
Lemma C82_decode_lem :
  forall P mq, built_params P -> index_map_fixed (bp_degree P) = Ok mq ->
    exists psi, 0 <= psi < bp_t P /\ psi ^ Z.of_nat (bp_degree P) mod bp_t P = bp_t P - 1
    /\ forall pr i v, length v = bp_degree P -> Forall (fun x => 0 <= x < bp_t P) v ->
       exists r, pt_decode pr (mkPt (with_index_map P mq) i EncSIMD v) = Ok r /\ length r = bp_degree P
         /\ forall k, (k < bp_degree P / 2)%nat ->
            let e := 3 ^ Z.of_nat k mod (2 * Z.of_nat (bp_degree P)) in
            nth k r 0 = peval (bp_degree P) (vfun v) (psi ^ e) mod bp_t P
            /\ nth (bp_degree P / 2 + k) r 0 = peval (bp_degree P) (vfun v) (psi ^ (2 * Z.of_nat (bp_degree P) - e)) mod bp_t P.
Proof.
  intros P mq BP EM. pose proof (built_params_wf P BP) as WB. pose proof (wf_t17 P WB) as RT.
  destruct (fixed_simd P mq BP EM) as [L [psi [HL [En [RP [PM [HD _]]]]]]].
  assert (E2 : (2 ^ L = 2 * 2 ^ (L - 1))%nat) by (replace L with (S (L - 1)) at 1 by lia; apply Nat.pow_succ_r').
  assert (EH : (bp_degree P / 2 = 2 ^ (L - 1))%nat) by (rewrite En, E2, Nat.mul_comm, Nat.div_mul; lia).
  exists psi. split; [exact RP|]. split.
  { unfold eqm in PM. rewrite En, pow2_Z, PM. symmetry. apply Z.mod_unique with (-1); lia. }
  intros pr i v Lv Rv. eexists. split; [apply (HD pr i v Lv Rv)|]. split; [apply len_seq|]. intros k Hk. cbv zeta. rewrite EH in *.
  rewrite !nth_map_seq by (rewrite En; lia).
  assert (EE : 3 ^ Z.of_nat k mod (2 * Z.of_nat (bp_degree P)) = slot_pos L k).
  { unfold slot_pos. rewrite En, pow2_Z, Nat2Z.inj_succ, Z.pow_succ_r by lia. reflexivity. }
  rewrite EE. unfold slot_exp. destruct (Nat.ltb_spec k (2 ^ (L - 1))); [|lia]. destruct (Nat.ltb_spec (2 ^ (L - 1) + k) (2 ^ (L - 1))); [lia|].
  replace (2 ^ (L - 1) + k - 2 ^ (L - 1))%nat with k by lia. rewrite En, pow2_Z. split; reflexivity.
Qed.

(** *** Rotations of slots *)
Lemma slot_exp_mod L j : (3 <= L)%nat -> (j < 2 ^ L)%nat ->
  slot_exp L j mod 2 ^ Z.of_nat (S L) = ((if (j <? 2 ^ (L - 1))%nat then 1 else -1) * 3 ^ Z.of_nat (j mod 2 ^ (L - 1))) mod 2 ^ Z.of_nat (S L).
Proof.
  intros HL Hj. assert (E2 : (2 ^ L = 2 * 2 ^ (L - 1))%nat) by (replace L with (S (L - 1)) at 1 by lia; apply Nat.pow_succ_r').
  assert (EN : 2 * 2 ^ Z.of_nat L = 2 ^ Z.of_nat (S L)) by (rewrite Nat2Z.inj_succ, Z.pow_succ_r by lia; reflexivity).
  unfold slot_exp. rewrite EN. pose proof (Z.pow_pos_nonneg 2 (Z.of_nat (S L)) ltac:(lia) ltac:(lia)) as HP. unfold slot_pos.
  destruct (Nat.ltb_spec j (2 ^ (L - 1))) as [Hl|Hl].
  - rewrite Nat.mod_small by exact Hl. rewrite Z.mod_mod by lia. rewrite Z.mul_1_l. reflexivity.
  - assert (EJ : (j mod 2 ^ (L - 1) = j - 2 ^ (L - 1))%nat).
    { symmetry. apply Nat.mod_unique with 1%nat; lia. }
    rewrite EJ. generalize (3 ^ Z.of_nat (j - 2 ^ (L - 1))). intros z. generalize dependent (2 ^ Z.of_nat (S L)). intros N _ HN. clear - HN.
    rewrite Zminus_mod, Z.mod_mod, Z.mod_same by lia. rewrite Z.sub_0_l. rewrite <- (Z.mul_1_l (z mod N)), <- Z.mul_opp_l, Z.mul_mod_idemp_r by lia. reflexivity.
Qed.
Lemma slot_source_lt h s r j : (0 < h)%nat -> (j < 2 * h)%nat -> (slot_source (2 * h) s r j < 2 * h)%nat
  /\ (slot_source (2 * h) s r j mod h = (j + r) mod h)%nat /\ ((slot_source (2 * h) s r j <? h)%nat = if s then negb (j <? h)%nat else (j <? h)%nat).
Proof.
  intros Hh Hj. unfold slot_source. replace (2 * h / 2)%nat with h by (rewrite Nat.mul_comm, Nat.div_mul by lia; reflexivity). cbv zeta.
  set (c := ((j mod h + r) mod h)%nat). assert (Hc : (c < h)%nat) by (apply Nat.mod_upper_bound; lia).
  assert (Ec : c = ((j + r) mod h)%nat) by (unfold c; rewrite Nat.add_mod_idemp_l by lia; reflexivity).
  assert (HR : (j / h = if (j <? h)%nat then 0 else 1)%nat).
  { destruct (Nat.ltb_spec j h); [apply Nat.div_small; lia|]. symmetry. apply Nat.div_unique with (j - h)%nat; lia. }
  rewrite HR. assert (X : forall q, ((q * h + c) mod h = c)%nat) by (intros q; rewrite Nat.add_comm, Nat.mod_add by lia; apply Nat.mod_small; lia).
  rewrite X, <- Ec. clearbody c. clear - Hh Hj Hc.
  destruct s; destruct (j <? h)%nat; cbn [negb]; (split; [lia|]); (split; [reflexivity|]);
    match goal with |- (?x <? h)%nat = _ => destruct (Nat.ltb_spec x h); [try reflexivity; exfalso; lia|try reflexivity; exfalso; lia] end.
Qed.
Lemma slot_rotate L s r x j : (3 <= L)%nat -> (j < 2 ^ L)%nat -> slot_galois (2 ^ L) s r x ->
  (slot_exp L j * x) mod (2 * Z.of_nat (2 ^ L)) = slot_exp L (slot_source (2 ^ L) s r j) mod (2 * Z.of_nat (2 ^ L)).
Proof.
  intros HL Hj [Hx HX]. assert (E2 : (2 ^ L = 2 * 2 ^ (L - 1))%nat) by (replace L with (S (L - 1)) at 1 by lia; apply Nat.pow_succ_r').
  assert (EN : 2 * Z.of_nat (2 ^ L) = 2 ^ Z.of_nat (S L)) by (rewrite pow2_Z, Nat2Z.inj_succ, Z.pow_succ_r by lia; reflexivity).
  rewrite EN in *. destruct (slot_source_lt (2 ^ (L - 1)) s r j (pow2_pos _) ltac:(lia)) as [S1 [S2 S3]]. rewrite <- E2 in S1, S2, S3.
  rewrite (slot_exp_mod L (slot_source (2 ^ L) s r j)) by auto. rewrite S2, S3.
  pose proof (Z.pow_pos_nonneg 2 (Z.of_nat (S L)) ltac:(lia) ltac:(lia)) as HP. pose proof (slot_exp_mod L j HL Hj) as SE. set (N := 2 ^ Z.of_nat (S L)) in *.
  rewrite Z.mul_mod, HX, SE by lia. rewrite <- Z.mul_mod by lia.
  assert (P3 : 3 ^ Z.of_nat ((j + r) mod 2 ^ (L - 1)) mod N = (3 ^ Z.of_nat (j mod 2 ^ (L - 1)) * 3 ^ Z.of_nat r) mod N).
  { rewrite <- Z.pow_add_r, <- Nat2Z.inj_add by lia. apply pow3_period; auto. pose proof (pow2_pos (L - 1)). rewrite Nat.mod_mod, Nat.add_mod_idemp_l by lia. reflexivity. }
  set (a := 3 ^ Z.of_nat (j mod 2 ^ (L - 1))) in *. set (b := 3 ^ Z.of_nat r) in *.
  rewrite <- Z.mul_mod_idemp_r by lia. rewrite <- (Z.mul_mod_idemp_r _ (3 ^ _)), P3, Z.mul_mod_idemp_r by lia. rewrite Z.mul_mod_idemp_r by lia. clearbody a b.
  destruct s, (j <? 2 ^ (L - 1))%nat; cbn [negb]; f_equal; ring.
Qed.

(** *** Slots of the value of a circuit *)
Definition at_slot (n : nat) (t psi : Z) (L : nat) (f : nat -> Z) (j : nat) : Z := peval n f (psi ^ slot_exp L j) mod t.
Section Slots.
Variables (L : nat) (t psi : Z).
Hypothesis HL : (3 <= L)%nat.
Hypothesis Ht : 2 < t.
Hypothesis PM : eqm t (psi ^ 2 ^ Z.of_nat L) (-1).
Notation n := (2 ^ L)%nat.

Lemma slot_odd d : 0 <= d -> d mod 2 = 1 -> eqm t (pw (psi ^ d) n) (-1).
Proof.
  intros Hd Od. unfold pw. rewrite <- Z.pow_mul_r by lia. rewrite Z.mul_comm, Z.pow_mul_r by lia. rewrite pow2_Z. apply (pow_odd' _ _ d (d / 2)); [apply Z.div_pos; lia| |exact PM].
  pose proof (Z.div_mod d 2 ltac:(lia)) as D2. rewrite Od in D2. exact D2.
Qed.
Lemma cval_slots d sd Q B S K e : slot_fits n Q t B S K sd e ->
  Forall2 (fun u l => forall j, (j < n)%nat -> at_slot n t psi L (coeffs l) j = coeffs u j mod t) (sl_in sd) (cd_in d) ->
  Forall2 (fun u l => forall j, (j < n)%nat -> at_slot n t psi L (coeffs l) j = coeffs u j mod t) (sl_pt sd) (cd_pt d) ->
  Forall2 (fun u l => forall j, (j < n)%nat -> at_slot n t psi L (coeffs l) j = coeffs u j mod t) (sl_sel sd) (cd_sel d) ->
  Forall2 (fun rot x => slot_galois n (fst rot) (snd rot) x) (sl_rot sd) (cd_rot d) ->
  forall j, (j < n)%nat -> at_slot n t psi L (cval n d e) j = slot_val n sd e j mod t.
Proof.
  intros F H1 H2 H3 H4. pose proof (pow2_pos L) as N0. unfold at_slot in *.
  assert (OD : forall j, eqm t (pw (psi ^ slot_exp L j) n) (-1)).
  { intros j. pose proof (slot_exp_facts L j HL) as [A B']. apply slot_odd; [lia|exact B']. }
  assert (NT' : forall R (us : list (list Z)) (ls : list (list Z)) k, Forall2 R us ls -> (k < length us)%nat -> R (nth k us []) (nth k ls [])).
  { intros R us ls k HF. revert k. induction HF as [|a b us ls HR HF IH]; intros k Hk; cbn [length] in Hk; [lia|]. destruct k; [exact HR|]. apply IH. lia. }
  assert (NR : forall k, (k < length (sl_rot sd))%nat -> slot_galois n (fst (nth k (sl_rot sd) (false, 0%nat))) (snd (nth k (sl_rot sd) (false, 0%nat))) (nth k (cd_rot d) 1)).
  { clear - H4. induction H4 as [|a b us ls HR HF IH]; intros k Hk; cbn [length] in Hk; [lia|]. destruct k; [exact HR|]. apply IH. lia. }
  induction e as [k|a IHa b IHb|a IHa b IHb|a IHa b IHb|a IHa k|a IHa z|a IHa k|a IHa k]; cbn [slot_fits] in F; cbn [cval slot_val]; intros j Hj.
  - apply (NT' _ _ _ k H1 F). exact Hj.
  - destruct F as [Fa Fb]. rewrite peval_add. rewrite Z.add_mod, (IHa Fa j Hj), (IHb Fb j Hj), <- Z.add_mod by lia. reflexivity.
  - destruct F as [Fa Fb]. rewrite peval_sub. rewrite Zminus_mod, (IHa Fa j Hj), (IHb Fb j Hj), <- Zminus_mod. reflexivity.
  - destruct F as [Fa [Fb _]]. rewrite (peval_rmul t n _ _ _ N0 (OD j) : _ mod _ = _). rewrite Z.mul_mod, (IHa Fa j Hj), (IHb Fb j Hj), <- Z.mul_mod by lia. reflexivity.
  - destruct F as [Fa Fk]. rewrite (peval_rmul t n _ _ _ N0 (OD j) : _ mod _ = _). rewrite Z.mul_mod, (IHa Fa j Hj) by lia.
    rewrite (NT' _ _ _ k H2 Fk j Hj), <- Z.mul_mod by lia. reflexivity.
  - replace (peval n (fun j0 => z * cval n d a j0) (psi ^ slot_exp L j)) with (z * peval n (cval n d a) (psi ^ slot_exp L j)).
    2:{ unfold peval. rewrite <- sumn_mul_l. apply sumn_ext. intros. ring. }
    rewrite <- Z.mul_mod_idemp_r, (IHa F j Hj), Z.mul_mod_idemp_r by lia. reflexivity.
  - destruct F as [Fa Fk]. cbv zeta. pose proof (NR k Fk) as G. set (rot := nth k (sl_rot sd) (false, 0%nat)) in *. set (x := nth k (cd_rot d) 1) in *.
    assert (E2 : (2 ^ L = 2 * 2 ^ (L - 1))%nat) by (replace L with (Datatypes.S (L - 1)) at 1 by lia; apply Nat.pow_succ_r').
    destruct (slot_source_lt (2 ^ (L - 1)) (fst rot) (snd rot) j (pow2_pos _) ltac:(lia)) as [S1 _]. rewrite <- E2 in S1.
    rewrite <- (IHa Fa _ S1). rewrite (peval_rsubst t n (Z.to_nat x) _ _ N0 (OD j) : _ mod _ = _).
    apply peval_point. pose proof (slot_rotate L _ _ x j HL Hj G) as R. destruct G as [Hx _].
    unfold pw. rewrite Z2Nat.id by exact Hx. pose proof (slot_exp_facts L j HL) as [A _]. pose proof (slot_exp_facts L (slot_source n (fst rot) (snd rot) j) HL) as [A' _].
    rewrite <- Z.pow_mul_r by lia. apply pow_eqm_exp with n; auto; [|apply Z.mul_nonneg_nonneg; lia|lia]. unfold pw. rewrite pow2_Z. exact PM.
  - destruct F as [Fa Fk]. rewrite (peval_rmul t n _ _ _ N0 (OD j) : _ mod _ = _). rewrite Z.mul_mod, (IHa Fa j Hj) by lia.
    rewrite (NT' _ _ _ k H3 Fk j Hj), <- Z.mul_mod by lia. reflexivity.
Qed.
End Slots.

(** *** The noise *)
Lemma noise_slots n t B S K d e : 0 <= t -> 0 <= B -> 0 <= S -> 0 <= K ->
  Forall (fun l => l1norm n (coeffs l) <= Z.of_nat n * t) (cd_pt d) -> Forall (fun l => l1norm n (coeffs l) <= Z.of_nat n * t) (cd_sel d) ->
  0 <= cnoise n t B S K d e <= slot_noise n t B S K e.
Proof.
  intros Ht HB HS HK H1 H2. assert (NT0 : 0 <= Z.of_nat n * t) by (apply Z.mul_nonneg_nonneg; lia). assert (TK : 0 <= t * K) by (apply Z.mul_nonneg_nonneg; lia).
  assert (L0 : forall ls k, Forall (fun l => l1norm n (coeffs l) <= Z.of_nat n * t) ls -> 0 <= l1norm n (coeffs (nth k ls [])) <= Z.of_nat n * t).
  { intros ls k HF. split; [apply l1_nonneg|]. destruct (Nat.lt_ge_cases k (length ls)) as [Hk|Hk].
    - rewrite Forall_forall in HF. apply HF. apply nth_In. exact Hk.
    - rewrite nth_overflow by exact Hk. unfold l1norm. rewrite sumn_0; [exact NT0|]. intros i _. unfold coeffs. destruct i; reflexivity. }
  assert (MM : forall x y x' y', 0 <= x <= x' -> 0 <= y <= y' -> 0 <= x * y <= x' * y').
  { intros x y x' y' Hx Hy. split; [apply Z.mul_nonneg_nonneg; lia|apply Z.mul_le_mono_nonneg; lia]. }
  induction e as [k|a IHa b IHb|a IHa b IHb|a IHa b IHb|a IHa k|a IHa z|a IHa k|a IHa k]; cbn [cnoise slot_noise]; try lia.
  - unfold mul_noise. set (x := Z.max _ _) in *. assert (Hx : 0 <= x <= Z.max (slot_noise n t B S K a) (slot_noise n t B S K b)) by (unfold x; lia).
    set (x' := Z.max (slot_noise n t B S K a) (slot_noise n t B S K b)) in *. clearbody x x'.
    pose proof (MM (Z.of_nat n * t) x (Z.of_nat n * t) x' ltac:(lia) Hx) as A. pose proof (MM _ (S + 5) _ (S + 5) A ltac:(lia)) as A'.
    pose proof (MM (Z.of_nat n) x (Z.of_nat n) x' ltac:(lia) Hx) as A''.
    assert (T0 : 0 <= t * (1 + S + S * S)) by (apply Z.mul_nonneg_nonneg; [lia|]; pose proof (Z.mul_nonneg_nonneg S S HS HS); lia).
    clear - A' A'' T0 TK. lia.
  - apply MM; [apply L0; exact H1|exact IHa].
  - apply MM; [lia|exact IHa].
  - pose proof (MM _ _ _ _ (L0 (cd_sel d) k H2) IHa). lia.
Qed.
Lemma fits_slots n Q t B S K d sd e : 0 <= t -> 0 <= B -> 0 <= S -> 0 <= K ->
  Forall (fun l => l1norm n (coeffs l) <= Z.of_nat n * t) (cd_pt d) -> Forall (fun l => l1norm n (coeffs l) <= Z.of_nat n * t) (cd_sel d) ->
  length (cd_in d) = length (sl_in sd) -> length (cd_pt d) = length (sl_pt sd) -> length (cd_rot d) = length (sl_rot sd) -> length (cd_sel d) = length (sl_sel sd) ->
  slot_fits n Q t B S K sd e -> cfits n Q t B S K d e.
Proof.
  intros Ht HB HS HK H1 H2 L1 L2 L3 L4. assert (N : forall a, cnoise n t B S K d a <= slot_noise n t B S K a) by (intros a; apply noise_slots; auto).
  induction e as [k|a IHa b IHb|a IHa b IHb|a IHa b IHb|a IHa k|a IHa z|a IHa k|a IHa k]; cbn [cfits slot_fits]; rewrite ?L1, ?L2, ?L3, ?L4; try tauto.
  intros [Fa [Fb [Na Nb]]]. split; [auto|]. split; [auto|]. pose proof (N a). pose proof (N b). lia.
Qed.

Lemma f2_split {A B C} (R1 : A -> B -> Prop) (R2 : B -> C -> Prop) l l' : Forall2 (fun a c => exists b, R1 a b /\ R2 b c) l l' ->
  exists m, Forall2 R1 l m /\ Forall2 R2 m l'.
Proof.
  induction 1 as [|a c l l' [b [H1 H2]] H [m [I1 I2]]]; [exists []; split; constructor|]. exists (b :: m). split; constructor; auto.
Qed.
Lemma f2_map {A B C} (R : A -> B -> Prop) (R' : A -> C -> Prop) (f : B -> C) l l' : (forall a b, R a b -> R' a (f b)) -> Forall2 R l l' -> Forall2 R' l (map f l').
Proof. intros HR. induction 1; cbn [map]; constructor; auto. Qed.
Lemma f2_map_l {A B C D} (R : A -> B -> Prop) (R' : C -> D -> Prop) (g : A -> C) (f : B -> D) l l' : (forall a b, R a b -> R' (g a) (f b)) -> Forall2 R l l' -> Forall2 R' (map g l) (map f l').
Proof. intros HR. induction 1; cbn [map]; constructor; auto. Qed.
Lemma f2_and {A B} (P : A -> Prop) (R : A -> B -> Prop) l l' : Forall P l -> Forall2 R l l' -> Forall2 (fun a b => P a /\ R a b) l l'.
Proof. intros HP H. induction H; constructor; inversion HP; auto. Qed.
Lemma f2_forall {A B} (R : A -> B -> Prop) (Q : B -> Prop) l l' : (forall a b, R a b -> Q b) -> Forall2 R l l' -> Forall Q l'.
Proof. intros HR. induction 1; constructor; eauto. Qed.

Lemma f2_impl {A B} (R R' : A -> B -> Prop) l l' : (forall a b, R a b -> R' a b) -> Forall2 R l l' -> Forall2 R' l l'.
Proof. intros HR. induction 1; constructor; auto. Qed.
Lemma f2_len {A B} (R : A -> B -> Prop) l l' : Forall2 R l l' -> length l = length l'.
Proof. induction 1; cbn [length]; congruence. Qed.

(** C82: with the repaired map every circuit computes slot by slot: encode,
    encrypt, evaluate, decrypt, decode. *)
Lemma C82_circuit_lem :
  forall pr P mq c ec sk d K pts cts S e,
    built_params P -> index_map_fixed (bp_degree P) = Ok mq ->
    let P' := with_index_map P mq in let n := bp_degree P in let t := bp_t P in
    level P' 0 c -> sk_params sk = P' -> sk_ok sk -> 1 <= bp_variance P <= 16 ->
    small_basis (rq_moduli_64 c) -> 2 * t <= cx_q c 0 ->
    get (bp_e_ctxs P') 0 = Ok ec /\ small_basis (rq_moduli_64 ec) /\ 2 * Z.of_nat n * (cx_Q c * cx_Q c) <= cx_Q ec ->
    l1norm n (sk_fun sk) <= S -> S < 2 ^ 54 ->
    simd_keys pr P' c sk d K ->
    Forall2 (simd_pt pr P') (sl_in d) pts ->
    Forall2 (fun pt ct => exists rows w, wf_poly (mkPoly c Ntt rows) /\ (forall k, 0 <= w k < 2 ^ 64) /\ encrypt pr sk pt rows w = Ok ct) pts cts ->
    let KB := ks_bound c (2 * bp_variance P) in let B := t * (2 * bp_variance P + 2) in
    slot_fits n (cx_Q c) t B S KB d e ->
    2 ^ 54 * (2 * slot_noise n t B S KB e) <= (2 ^ 54 - 1) * cx_Q c ->
    (ct <- run_circ pr K cts e ;; pt <- decrypt pr sk ct ;; pt_decode pr (pt_set_encoding pt EncSIMD))
    = Ok (map (fun j => slot_val n d e j mod t) (seq 0 n)).
Proof.
  intros pr P mq c ec sk d K pts cts S e BP EM P' n t LV SP SO Hv SB Hq HM HS S54 [KR [KG [KS KP]]] HI HC KB B F HN.
  pose proof (built_params_wf P BP) as WB. pose proof (wf_t17 P WB) as T1. fold t in T1.
  destruct (fixed_simd P mq BP EM) as [L [psi [HL [En [RP [PM [HD HE]]]]]]]. fold n t P' in En, RP, PM, HD, HE.
  pose proof (level_wf P 0 c WB LV) as [_ LW].
  set (m0 := bp_index_map P). assert (MB : with_index_map P' m0 = P) by apply with_map_back.
  assert (SP0 : sk_params (im_sk m0 sk) = P) by (cbn [im_sk sk_params]; rewrite SP; exact MB).
  assert (SP1 : forall u p, simd_pt pr P' u p -> good_pt P 0 (pt_values p) (im_pt m0 p) /\ length (pt_values p) = n /\ Forall (fun x => 0 <= x < t) (pt_values p)
             /\ forall j, (j < 2 ^ L)%nat -> at_slot (2 ^ L) t psi L (coeffs (pt_values p)) j = coeffs u j mod t).
  { intros u p [[Lu Ru] E]. destruct (HE pr 0%nat u) as [v [E' [Lv [Rv Hv']]]]; [change (bp_degree P' <= length u)%nat; lia|exact Ru|].
    rewrite E in E'. apply Ok_inj in E'. subst p. cbn [pt_values]. split.
    { split; [exact MB|]. split; [reflexivity|]. split; [reflexivity|]. split; [|unfold n in Lv; lia].
      eapply Forall_impl; [|exact Rv]. cbv beta. intros x Hx. clear - Hx T1. lia. }
    split; [exact Lv|]. split; [exact Rv|]. intros j Hj. unfold at_slot. rewrite <- En. rewrite <- En in Hj. rewrite (Hv' j Hj : peval _ (coeffs v) _ mod _ = _). unfold coeffs.
    rewrite Z.mod_small; [reflexivity|]. rewrite Forall_forall in Ru. apply Ru. apply nth_In. change (bp_degree P') with n in Lu. lia. }
  assert (L1 : forall us ps, Forall2 (simd_pt pr P') us ps -> Forall (fun l => l1norm n (coeffs l) <= Z.of_nat n * t) (map pt_values ps)).
  { intros us ps HF. apply Forall_forall. intros l Hl. apply in_map_iff in Hl. destruct Hl as [p [<- Hp]].
    assert (X : Forall (fun p => Forall (fun x => 0 <= x < t) (pt_values p)) ps) by (eapply f2_forall; [|exact HF]; intros u q Hq0; apply (SP1 u q Hq0)).
    rewrite Forall_forall in X. specialize (X p Hp). unfold l1norm. rewrite <- sumn_const. apply sumn_le. intros j Hj. unfold coeffs.
    destruct (Nat.lt_ge_cases j (length (pt_values p))) as [Hl|Hl]; [|rewrite nth_overflow by exact Hl; cbn; lia].
    rewrite Forall_forall in X. specialize (X _ (nth_In _ 0 Hl)). lia. }
  assert (AS : forall us ps, Forall2 (simd_pt pr P') us ps -> Forall2 (fun u l => forall j, (j < 2 ^ L)%nat -> at_slot (2 ^ L) t psi L (coeffs l) j = coeffs u j mod t) us (map pt_values ps)).
  { intros us ps. apply f2_map. intros u p Hp. apply (SP1 u p Hp). }
  assert (GP : forall us ps, Forall2 (simd_pt pr P') us ps -> Forall2 (good_pt P 0) (map pt_values ps) (map (im_pt m0) ps)).
  { intros us ps. induction 1 as [|u p us ps Hp HF IH]; cbn [map]; constructor; auto. apply (SP1 u p Hp). }
  (* the data *)
  destruct (f2_split (simd_pt pr P') (fun p r => exists rnd0 rnd1, rnd_ok c rnd0 /\ rnd_ok c rnd1 /\ rgsw_encrypt pr sk p rnd0 rnd1 = Ok r) (sl_sel d) (ks_rgsw K)) as [sps [KS1 KS2]].
  { revert KS. apply f2_impl. intros u r [p [r0 [r1 [A1 [A2 [A3 A4]]]]]]. exists p. split; [exact A1|]. exists r0, r1. auto. }
  destruct (f2_split (fun rot x => slot_galois n (fst rot) (snd rot) x) (fun x gk => exists g rnd, (0 <= x /\ x mod 2 = 1) /\ rnd_ok c rnd /\ subst_new pr c x = Ok g /\ galois_new pr sk g 0 rnd = Ok gk) (sl_rot d) (ks_gks K)) as [xs [KG1 KG2]].
  { revert KG. apply f2_impl. intros rot gk [x [g [rnd [A1 A2]]]]. exists x. split; [exact A1|]. exists g, rnd. split; [|exact A2]. destruct A1 as [X0 X1]. split; [exact X0|].
    change (bp_degree P') with n in X1. assert (N0 : 0 < Z.of_nat n) by (rewrite En; pose proof (pow2_pos L); lia).
    assert (Y : forall y, y mod 2 = (y mod (2 * Z.of_nat n)) mod 2).
    { intros y. rewrite Z.rem_mul_r by lia. rewrite Z.mul_comm, Z.mod_add, Z.mod_mod by lia. reflexivity. }
    assert (O3 : 3 ^ Z.of_nat (snd rot) mod 2 = 1) by (rewrite <- mod_pow by lia; change (3 mod 2) with 1; rewrite Z.pow_1_l by lia; reflexivity).
    rewrite Y, X1, <- Y. destruct (fst rot); [|exact O3]. generalize dependent (3 ^ Z.of_nat (snd rot)). intros z _ O3. clear - O3.
    pose proof (Z.div_mod z 2 ltac:(lia)) as D. rewrite O3 in D. rewrite D. replace (- (2 * (z / 2) + 1)) with (1 + (- (z / 2) - 1) * 2) by ring. rewrite Z.mod_add by lia. reflexivity. }
  set (d0 := mkCData (map pt_values pts) (map pt_values (ks_pts K)) xs (map pt_values sps)).
  assert (GK : good_keys pr P 0 c (im_sk m0 sk) d0 (im_keys m0 K)).
  { split; [|split; [|split]]; cbn [im_keys ks_rlk ks_gks ks_rgsw ks_pts d0 cd_rot cd_sel cd_pt].
    - destruct KR as [rnd [R1 R2]]. exists rnd. split; [exact R1|]. rewrite im_rlk_new, R2. reflexivity.
    - revert KG2. apply f2_map. intros x gk [g [rnd [[A1 A2] [A3 [A4 A5]]]]]. exists g, rnd. repeat (split; [assumption|]). rewrite im_galois_new, A5. reflexivity.
    - clear - KS1 KS2 SP1. revert KS2. generalize (ks_rgsw K). intros rs KS2. revert KS1. generalize (sl_sel d). induction KS2 as [|p r ps rs [r0 [r1 [A1 [A2 A3]]]] HF IH]; intros us KS1; cbn [map]; constructor.
      + inversion KS1; subst. exists (im_pt m0 p), r0, r1. split; [eapply SP1; eassumption|]. split; [exact A1|]. split; [exact A2|]. rewrite im_rgsw_encrypt, A3. reflexivity.
      + inversion KS1; subst. eapply IH. eassumption.
    - apply (GP (sl_pt d)). exact KP. }
  assert (KB0 : 0 <= KB).
  { unfold KB, ks_bound. apply Z.mul_nonneg_nonneg; [apply Z.mul_nonneg_nonneg; lia|]. apply sumn_nonneg. intros i Hi. pose proof (cx_range c (wf_ctx_loc _ (lv_wf _ _ _ LW)) i Hi). lia. }
  assert (B0 : 0 <= B) by (unfold B; apply Z.mul_nonneg_nonneg; lia).
  assert (S0 : 0 <= S) by (pose proof (l1_nonneg n (sk_fun sk)); lia).
  assert (T0 : 0 <= t) by (clear - T1; lia).
  pose proof (C64_program_lem pr P c ec (im_sk m0 sk) d0 (im_keys m0 K) (map (im_pt m0) pts) (map (im_ct m0) cts) S e BP LV SP0) as T.
  assert (SO' : sk_ok (im_sk m0 sk)) by exact SO.
  specialize (T SO' Hv SB Hq HM HS S54 GK (GP _ _ HI)). cbv zeta in T. fold n t KB B in T.
  assert (R : (ct <- run_circ pr (im_keys m0 K) (map (im_ct m0) cts) e ;; decrypt pr (im_sk m0 sk) ct) = Ok (mkPt P 0 EncNone (map (fun j => cval n d0 e j mod t) (seq 0 n)))).
  { apply T.
    - revert HC. apply f2_map_l. intros p ct [rows [w [A1 [A2 A3]]]]. exists rows, w. split; [exact A1|]. split; [exact A2|]. rewrite im_encrypt, A3. reflexivity.
    - apply (fits_slots n (cx_Q c) t B S KB d0 d e T0 B0 S0 KB0); cbn [d0 cd_in cd_pt cd_rot cd_sel]; rewrite ?map_length; auto.
      + apply (L1 (sl_pt d)). exact KP.
      + apply (L1 (sl_sel d)). exact KS1.
      + symmetry. eapply f2_len. exact HI.
      + symmetry. eapply f2_len. exact KP.
      + symmetry. eapply f2_len. exact KG1.
      + symmetry. eapply f2_len. exact KS1.
    - eapply Z.le_trans; [|exact HN]. apply Z.mul_le_mono_nonneg_l; [apply Z.pow_nonneg; lia|]. apply Z.mul_le_mono_nonneg_l; [lia|].
      apply noise_slots; auto; [apply (L1 (sl_pt d)); exact KP|apply (L1 (sl_sel d)); exact KS1]. }
  rewrite im_run, bind_omap in R. destruct (run_circ pr K cts e) as [ct| | |]; cbn [bind] in R |- *; try discriminate.
  rewrite im_decrypt in R. destruct (decrypt pr sk ct) as [pt| | |] eqn:ED; cbn [omap bind] in R |- *; try discriminate.
  pose proof (decrypt_params pr sk ct pt ED) as EP. rewrite SP in EP. apply Ok_inj in R. destruct pt as [pp pl pe pv]. cbn [pt_params] in EP. subst pp.
  unfold im_pt in R. cbn [pt_params pt_level pt_enc pt_values] in R. inversion R as [[R1 R2 R3 R4]]. unfold pt_set_encoding. cbn [pt_params pt_level pt_values]. rewrite HD.
  - f_equal. apply map_ext_in. intros j Hj. apply in_seq in Hj. 
    assert (EQ : peval n (vfun (map (fun k => cval n d0 e k mod t) (seq 0 n))) (psi ^ slot_exp L j) mod t = peval n (cval n d0 e) (psi ^ slot_exp L j) mod t).
    { apply peval_eqm. intros k Hk. unfold vfun, eqm. rewrite nth_map_seq by auto. apply Z.mod_mod. lia. }
    rewrite EQ. rewrite En in *. apply (cval_slots L t psi ltac:(lia) ltac:(lia) PM d0 d (cx_Q c) B S KB e F); cbn [d0 cd_in cd_pt cd_rot cd_sel]; auto. lia.
  - apply len_seq.
  - apply Forall_forall. intros y Hy. apply in_map_iff in Hy. destruct Hy as [j [<- _]]. apply Z.mod_pos_bound. lia.
Qed.

Lemma opp_odd z : z mod 2 = 1 -> (- z) mod 2 = 1.
Proof.
  intros O3. pose proof (Z.div_mod z 2 ltac:(lia)) as D. rewrite O3 in D. rewrite D. replace (- (2 * (z / 2) + 1)) with (1 + (- (z / 2) - 1) * 2) by ring. rewrite Z.mod_add by lia. reflexivity.
Qed.

(** C82: the encodings, keys and encryptions the theorem speaks about can always
    be made. *)
Lemma C82_exist_lem :
  forall pr P mq c sk d rlkr gkr rr0 rr1 rows w,
    built_params P -> index_map_fixed (bp_degree P) = Ok mq ->
    let P' := with_index_map P mq in
    level P' 0 c -> sk_params sk = P' -> sk_ok sk -> 1 <= bp_variance P <= 16 ->
    length (bp_moduli P) <> 1%nat -> small_degree pr (bp_degree P) ->
    Forall (slot_vec P') (sl_in d) -> Forall (slot_vec P') (sl_pt d) -> Forall (slot_vec P') (sl_sel d) ->
    rnd_ok c rlkr -> rnd_ok c gkr -> rnd_ok c rr0 -> rnd_ok c rr1 ->
    wf_poly (mkPoly c Ntt rows) -> (forall k, 0 <= w k < 2 ^ 64) ->
    exists K pts cts, simd_keys pr P' c sk d K /\ Forall2 (simd_pt pr P') (sl_in d) pts
      /\ Forall2 (fun pt ct => encrypt pr sk pt rows w = Ok ct) pts cts.
Proof.
  intros pr P mq c sk d rlkr gkr rr0 rr1 rows w BP EM P' LV SP SO Hv ML SD VI VP VS RR RG R0 R1 WR Hw.
  pose proof (built_params_wf P BP) as WB. pose proof (wf_t17 P WB) as T1.
  destruct (fixed_simd P mq BP EM) as [L [psi [HL [En [RP [PM [HD HE]]]]]]]. fold P' in HD, HE.
  set (m0 := bp_index_map P). assert (MB : with_index_map P' m0 = P) by apply with_map_back.
  assert (SP0 : sk_params (im_sk m0 sk) = P) by (cbn [im_sk sk_params]; rewrite SP; exact MB).
  assert (SO' : sk_ok (im_sk m0 sk)) by exact SO.
  assert (IV : forall {A B} (f : A -> B) o y, omap f o = Ok y -> exists x, o = Ok x) by (intros A B f o y; destruct o; cbn; try discriminate; eauto).
  assert (EX : forall {A B} (R : A -> B -> Prop) l, Forall (fun a => exists b, R a b) l -> exists l', Forall2 R l l').
  { intros A B R. induction 1 as [|a l [b Hb] HF [l' IH]]; [exists []; constructor|exists (b :: l'); constructor; auto]. }
  assert (PT : forall u, slot_vec P' u -> exists p, simd_pt pr P' u p /\ good_pt P 0 (pt_values p) (im_pt m0 p)).
  { intros u [Lu Ru]. destruct (HE pr 0%nat u) as [v [E [Lv [Rv _]]]]; [change (bp_degree P' <= length u)%nat; lia|exact Ru|].
    exists (mkPt P' 0 EncSIMD v). split; [split; [split; assumption|exact E]|]. split; [exact MB|]. split; [reflexivity|]. split; [reflexivity|]. cbn [pt_values]. split; [|lia].
    eapply Forall_impl; [|exact Rv]. cbv beta. intros x Hx. clear - Hx T1. lia. }
  destruct (C39_relinearize_lem pr P 0 c (im_sk m0 sk) rlkr BP LV SP0 SO' Hv RR) as [r0 [_ [Er _]]].
  rewrite im_rlk_new in Er. apply IV in Er. destruct Er as [r Er].
  destruct (EX _ _ (fun (rot : bool * nat) gk => exists x g rnd, slot_galois (bp_degree P') (fst rot) (snd rot) x /\ rnd_ok c rnd /\ subst_new pr c x = Ok g /\ galois_new pr sk g 0 rnd = Ok gk) (sl_rot d)) as [gks HG].
  { apply Forall_forall. intros rot _. set (x := (if fst rot then - 3 ^ Z.of_nat (snd rot) else 3 ^ Z.of_nat (snd rot)) mod (2 * Z.of_nat (bp_degree P))).
    assert (N0 : 0 < Z.of_nat (bp_degree P)) by (rewrite En; pose proof (pow2_pos L); lia).
    assert (X0 : 0 <= x) by (apply Z.mod_pos_bound; lia).
    assert (X1 : x mod 2 = 1).
    { unfold x. assert (Y : forall y, (y mod (2 * Z.of_nat (bp_degree P))) mod 2 = y mod 2).
      { intros y. rewrite Z.rem_mul_r by lia. rewrite Z.mul_comm, Z.mod_add, Z.mod_mod by lia. reflexivity. }
      assert (O3 : 3 ^ Z.of_nat (snd rot) mod 2 = 1) by (rewrite <- mod_pow by lia; change (3 mod 2) with 1; rewrite Z.pow_1_l by lia; reflexivity).
      rewrite Y. destruct (fst rot); [|exact O3]. apply opp_odd. exact O3. }
    destruct (C38_galois_lem pr P 0 c (im_sk m0 sk) gkr x BP LV SP0 SO' Hv RG X0 X1 ML SD) as [g [gk0 [_ [E1 [E2 _]]]]].
    rewrite im_galois_new in E2. apply IV in E2. destruct E2 as [gk E2]. exists gk, x, g, gkr. split; [|auto].
    split; [exact X0|]. change (bp_degree P') with (bp_degree P). unfold x. apply Z.mod_mod. lia. }
  destruct (EX _ _ (fun u r => exists p rnd0 rnd1, simd_pt pr P' u p /\ rnd_ok c rnd0 /\ rnd_ok c rnd1 /\ rgsw_encrypt pr sk p rnd0 rnd1 = Ok r) (sl_sel d)) as [rs HS].
  { eapply Forall_impl; [|exact VS]. cbv beta. intros u Hu. destruct (PT u Hu) as [p [Hp [P1 [P2 [P3 [P4 P5]]]]]].
    destruct (C40_external_lem pr P 0 c (im_sk m0 sk) (im_pt m0 p) rr0 rr1 BP LV SP0 SO' Hv R0 R1 P1 P2 P4 P5) as [x [Ex _]].
    rewrite im_rgsw_encrypt in Ex. apply IV in Ex. destruct Ex as [y Ey]. exists y, p, rr0, rr1. auto. }
  destruct (EX _ _ (simd_pt pr P') (sl_pt d)) as [ps HP].
  { eapply Forall_impl; [|exact VP]. cbv beta. intros u Hu. destruct (PT u Hu) as [p [Hp _]]. exists p. exact Hp. }
  destruct (EX _ _ (fun u p => simd_pt pr P' u p /\ good_pt P 0 (pt_values p) (im_pt m0 p)) (sl_in d)) as [pts HI].
  { eapply Forall_impl; [|exact VI]. cbv beta. intros u Hu. exact (PT u Hu). }
  destruct (EX _ _ (fun pt ct => encrypt pr sk pt rows w = Ok ct) pts) as [cts HC].
  { eapply f2_forall; [|exact HI]. cbv beta. intros u p [_ [P1 [P2 [P3 [P4 P5]]]]].
    destruct (fresh_carried pr P c (im_sk m0 sk) (im_pt m0 p) rows w BP LV SP0 SO' Hv P1 P2 P4 P5 WR Hw) as [ct [E _]].
    rewrite im_encrypt in E. apply IV in E. exact E. }
  exists (mkKeys r gks rs ps), pts, cts. split; [|split; [|exact HC]].
  - split; [exists rlkr; auto|]. split; [exact HG|]. split; [exact HS|exact HP].
  - revert HI. apply f2_impl. intros u p [Hp _]. exact Hp.
Qed.

(*EXAMPLE
(** Degree 8: the vectors a and b are multiplied slot by slot, a is added, the
    rows are rotated by one and swapped.  The noise bound of the theorem holds. *)
Definition ex_slots : circ := Rotate (Plus (Times (Input 0) (Input 1)) (Input 0)) 0.
Definition ex_slot_data : SlotData := mkSlotData [[1; 2; 3; 4; 5; 6; 7; 8]; [10; 11; 12; 13; 14; 15; 16; 1]] [] [(true, 1%nat)] [].
Definition ex_simd : outcome (list Z * bool) :=
  P0 <- test_bfv Debug ;; mq <- index_map_fixed 8 ;; let P := with_index_map P0 mq in
  c <- tctx P ;; let sk := mkSk P [1; -1; 0; 1; 1; 0; 2; -1] in
  pa <- pt_new Debug P [1; 2; 3; 4; 5; 6; 7; 8] 0 EncSIMD ;; pb <- pt_new Debug P [10; 11; 12; 13; 14; 15; 16; 1] 0 EncSIMD ;;
  a <- encrypt Debug sk pa (trows bms 4) (tw 5) ;; b <- encrypt Debug sk pb (trows bms 6) (tw 7) ;;
  r <- rlk_new Debug sk 0 (trnd 3) ;; g <- subst_new Debug c 13 ;; gk <- galois_new Debug sk g 0 (trnd 5) ;;
  x <- run_circ Debug (mkKeys r [gk] [] []) [a; b] ex_slots ;; d <- decrypt Debug sk x ;; v <- pt_decode Debug (pt_set_encoding d EncSIMD) ;;
  Ok (v, 2 ^ 54 * (2 * slot_noise 8 17 (17 * 4) 7 (ks_bound c 2) ex_slots) <=? (2 ^ 54 - 1) * cx_Q c).
Example C82_example :
  index_map_fixed 8 = Ok [0; 4; 1; 5; 7; 3; 6; 2]%nat /\ slot_galois 8 true 1 13
  /\ map (fun j => slot_val 8 ex_slot_data ex_slots j mod 17) (seq 0 8) = [11; 0; 16; 7; 7; 5; 5; 11]
  /\ ex_simd = Ok ([11; 0; 16; 7; 7; 5; 5; 11], true).
Proof. vm_compute. repeat split; discriminate. Qed.
EXAMPLE*)
