(** Claim C91: how large the noise of external products typically is, and chains of
    external products with fresh RGSW encryptions. *)
From Verif Require Import PBase NT Spec SpecProb SpecTail PSum MModulus MUtils MNtt MRns MRq MBfv MKsk MGalois MRgsw MEval MCirc MRgswT MTests SpecCirc SpecDef PModulus PUtils PNttMath PNtt PNttNew PCrt PRns PRnsScale PUtils2 SpecRq SpecBfv SpecKsk PRing PRingT PRq PRq2 PRq3 PRq4 PRq5 TestEnv QRq PBfv PBfv2 PBfv3 PBfv4 PBfv5 QBfv PMul PKsk PKsk2 PGal QKsk PDefData PDef QDef QTests QProb QPvwProb TestBfv QTail SpecChain.

Lemma sumb_two a b : forall (f : list bool -> list bool -> Z),
  sumb (a + b) (fun l => f (firstn a l) (skipn a l)) = sumb a (fun x => sumb b (f x)).
Proof.
  induction a as [|a IH]; intros f; [reflexivity|]. cbn [Nat.add sumb firstn skipn]. rewrite <- (IH (fun x => f (false :: x))), <- (IH (fun x => f (true :: x))). reflexivity.
Qed.
Lemma skipn_add {A} : forall a b (l : list A), skipn (a + b) l = skipn b (skipn a l).
Proof. induction a as [|a IH]; intros b [|x l]; auto; [cbn [Nat.add skipn]; destruct b; reflexivity|]. cbn [Nat.add skipn]. apply IH. Qed.
Lemma ksum_app V M a b : forall l, ksum V M (a ++ b) l = ksum V M a l + ksum V M b (skipn (length a * M) l).
Proof.
  induction a as [|e a IH]; intros l; [reflexivity|]. cbn [app ksum length Nat.mul]. rewrite IH, skipn_add. ring.
Qed.
Lemma sqs_app a b : sqs (a ++ b) = sqs a + sqs b.
Proof. induction a as [|e a IH]; [reflexivity|]. cbn [app sqs fold_right]. fold (sqs a) (sqs (a ++ b)). lia. Qed.
Lemma block_shift M k l bits : block M (k + l) bits = block M l (skipn (k * M) bits).
Proof. unfold block. rewrite Nat.mul_add_distr_r, skipn_add. reflexivity. Qed.
Lemma block_firstn M k l bits : (l < k)%nat -> block M l (firstn (k * M) bits) = block M l bits.
Proof.
  intros H. unfold block. rewrite skipn_firstn_comm, firstn_firstn. f_equal. apply Nat.min_l. nia.
Qed.
Lemma odd_nonneg k : 0 <= odd_product k.
Proof. induction k as [|k IH]; cbn [odd_product]; [lia|]. apply Z.mul_nonneg_nonneg; lia. Qed.

Section ExtNoise.
Variables (P : BfvParams) (i0 : nat) (c : RqContext).
Hypothesis LV : wf_level P i0 c.
Let W := wf_ctx_loc _ (lv_wf _ _ _ LV).
Local Notation n := (rq_degree c).
Local Notation K := (cx_k c).

(** The noise of an external product with a fresh RGSW encryption whose errors are read from [bits]. *)
Definition ext_noise (v : Z) (M : nat) (bits : list bool) (f0 f1 : nat -> Z) (j : nat) : Z :=
  ks_noise c (fun l => cbd_f (words_of (block M l bits)) v) f1 j + ks_noise c (fun l => cbd_f (words_of (block M (K + l) bits)) v) f0 j.
Lemma ext_ksum V M f0 f1 j bits : (j < n)%nat -> (1 <= V <= 16)%nat -> (4 * V * n <= M)%nat -> length bits = ((K + K) * M)%nat ->
  ext_noise (Z.of_nat V) M bits f0 f1 j = ksum V M (wts c f1 j ++ wts c f0 j) bits.
Proof.
  intros Hj HV HM HL. rewrite ksum_app. assert (LW : length (wts c f1 j) = K) by apply len_seq. rewrite LW. unfold ext_noise. f_equal.
  - transitivity (ksum V M (wts c f1 j) (firstn (K * M) bits)).
    + rewrite <- (noise_ksum c) by (auto; rewrite firstn_length_le; lia). unfold ks_noise. apply sumn_ext. intros l Hl. rewrite block_firstn by auto. reflexivity.
    + rewrite !ksum_blocks. apply sumn_ext. intros l Hl. rewrite LW in Hl. rewrite block_firstn by auto. reflexivity.
  - rewrite <- (noise_ksum c) by (auto; rewrite skipn_length; lia). unfold ks_noise. apply sumn_ext. intros l Hl. rewrite block_shift. reflexivity.
Qed.
Lemma ext_tail V M f0 f1 j B k : (j < n)%nat -> (1 <= V <= 16)%nat -> (4 * V * n <= M)%nat -> 0 <= B ->
  countb ((K + K) * M) (fun bits => B <=? Z.abs (ext_noise (Z.of_nat V) M bits f0 f1 j)) * B ^ (2 * Z.of_nat k)
  <= odd_product k * (Z.of_nat V * (2 * Z.of_nat n * sumn K (fun l => cx_q c l * cx_q c l))) ^ Z.of_nat k * 2 ^ Z.of_nat ((K + K) * M).
Proof.
  intros Hj HV HM HB. eapply Z.le_trans; [apply markov; exact HB|].
  rewrite (sumb_ext _ _ (fun l => ksum V M (wts c f1 j ++ wts c f0 j) l ^ (2 * Z.of_nat k))) by (intros l Hl; rewrite ext_ksum by auto; reflexivity).
  assert (LW : length (wts c f1 j ++ wts c f0 j) = (K + K)%nat) by (rewrite app_length; unfold wts; rewrite !len_seq; reflexivity).
  pose proof (ksum_moment V M (wts c f1 j ++ wts c f0 j) k) as X. rewrite LW in X. eapply Z.le_trans; [apply X|].
  - intros e He. apply in_app_or in He. unfold wts in He. destruct He as [He|He]; apply in_map_iff in He; destruct He as [i [<- _]]; rewrite len_seq; exact HM.
  - apply Z.mul_le_mono_nonneg_r; [apply Z.pow_nonneg; lia|]. apply Z.mul_le_mono_nonneg_l; [apply odd_nonneg|].
    pose proof (wts_sqs P i0 c LV f1 j Hj) as X1. pose proof (wts_sqs P i0 c LV f0 j Hj) as X0.
    apply Z.pow_le_mono_l. rewrite sqs_app. split; [apply Z.mul_nonneg_nonneg; [lia|]|apply Z.mul_le_mono_nonneg_l; lia].
    rewrite !sqs_sumn. apply Z.add_nonneg_nonneg; apply sumn_nonneg; intros i _; apply sq_nonneg.
Qed.
End ExtNoise.

Section ExactRgsw.
Variables (pr : profile) (P : BfvParams) (i0 : nat) (c : RqContext).
Hypothesis LV : wf_level P i0 c.
Let W := wf_ctx_loc _ (lv_wf _ _ _ LV).
Local Notation n := (rq_degree c).
Lemma rgsw_exact sk pt rnd0 rnd1 : sk_of P sk -> 1 <= bp_variance P <= 16 -> rnd_ok c rnd0 -> rnd_ok c rnd1 ->
  pt_params pt = P -> pt_level pt = i0 -> Forall (fun x => 0 <= x < 2 ^ 64) (pt_values pt) -> (length (pt_values pt) <= bp_degree P)%nat ->
  exists r, rgsw_encrypt pr sk pt rnd0 rnd1 = Ok r
    /\ ksk_for P c (rg_ksk0 r) (sk_fun sk) (rmul n (sk_fun sk) (pt_fun pt)) (fun i => cbd_f (rnd_words rnd0 i) (bp_variance P))
    /\ ksk_for P c (rg_ksk1 r) (sk_fun sk) (pt_fun pt) (fun i => cbd_f (rnd_words rnd1 i) (bp_variance P)).
Proof.
  intros HS Hv R0 R1 PP PL PV Pl. set (m := pt_fun pt).
  destruct (ksk_exact pr P i0 c LV sk (rmul n (sk_fun sk) m) rnd0 HS Hv R0) as [k0 [E0 HK0]].
  destruct (ksk_exact pr P i0 c LV sk m rnd1 HS Hv R1) as [k1 [E1 HK1]].
  destruct HS as [SP [S1 S2]]. rewrite SP in S2. unfold rgsw_encrypt. rewrite SP, PP, PL. rewrite params_eqb_refl. cbn [rassert bind].
  rewrite (lv_ctx _ _ _ LV). cbn [bind]. rewrite rep_from_u64 by (auto; rewrite (lv_n _ _ _ LV); auto). cbn [bind].
  rewrite change_fwd by auto. cbn [bind]. change (fun j => nth j (pt_values pt) 0) with m.
  rewrite (sk_ntt_ok pr P i0 c LV) by auto. cbn [bind]. change (fun j => nth j (sk_coeffs sk) 0) with (sk_fun sk).
  rewrite rep_mul by auto. cbn [bind]. rewrite E0. cbn [bind]. rewrite E1. cbn [bind]. eexists. split; [reflexivity|]. auto.
Qed.
End ExactRgsw.

(** C91: the noise that an external product with a fresh RGSW encryption adds. *)
Lemma C91_external_lem :
  forall pr P i c sk s M, built_params P -> level P i c -> sk_params sk = P -> sk_ok sk ->
    1 <= bp_variance P <= 16 -> step_ok P i c s -> (4 * Z.to_nat (bp_variance P) * bp_degree P <= M)%nat ->
    exists noise : list bool -> (nat -> Z) -> (nat -> Z) -> nat -> Z,
      (forall bits, exists r, step_rgsw pr sk (cx_k c) M s bits = Ok r
           /\ forall f0 f1, exists h0 h1, external_product pr r (ct_of P i c [f0; f1]) = Ok (rep c Ntt h0, rep c Ntt h1)
                /\ forall j, (j < bp_degree P)%nat ->
                     phase (bp_degree P) (sk_fun sk) [h0; h1] j mod cx_Q c
                     = (rmul (bp_degree P) (phase (bp_degree P) (sk_fun sk) [f0; f1]) (st_fun s) j + noise bits f0 f1 j) mod cx_Q c)
      /\ forall f0 f1 j B k, (j < bp_degree P)%nat -> 0 <= B ->
           countb ((cx_k c + cx_k c) * M) (fun bits => B <=? Z.abs (noise bits f0 f1 j)) * B ^ (2 * Z.of_nat k)
           <= odd_product k * (bp_variance P * (2 * Z.of_nat (bp_degree P) * sumn (cx_k c) (fun l => cx_q c l * cx_q c l))) ^ Z.of_nat k
              * 2 ^ Z.of_nat ((cx_k c + cx_k c) * M).
Proof.
  intros pr P i c sk s M B L SP SO Hv [S1 [S2 [S3 [S4 [S5 S6]]]]] HM. pose proof (built_params_wf P B) as WB. destruct (level_wf P i c WB L) as [_ LV].
  set (V := Z.to_nat (bp_variance P)) in *. assert (EV : bp_variance P = Z.of_nat V) by (unfold V; rewrite Z2Nat.id; lia).
  exists (ext_noise c (bp_variance P) M). split.
  - intros bits. destruct (rgsw_exact pr P i c LV sk (st_pt s) (mkRnd (st_masks0 s) (fun l => words_of (block M l bits))) (mkRnd (st_masks1 s) (fun l => words_of (block M (cx_k c + l) bits))) (conj SP SO) Hv) as [r [ER [H0 H1]]]; auto.
    { split; [exact S5|intros; apply words_range]. } { split; [exact S6|intros; apply words_range]. }
    exists r. split; [exact ER|]. intros f0 f1. destruct (external_ok pr P i c LV r (sk_fun sk) _ _ _ f0 f1 H0 H1) as [h0 [h1 [EE HP]]].
    exists h0, h1. split; [exact EE|]. rewrite <- (lv_n _ _ _ LV). intros j Hj. rewrite (rmul_comm _ (phase _ _ _)). apply HP. exact Hj.
  - intros f0 f1 j D k Hj HD. rewrite EV. rewrite <- (lv_n _ _ _ LV) in *. apply (ext_tail P i c LV); auto. lia.
Qed.

(** C91: external products with a list of fresh RGSW encryptions: the result decrypts
    to the product except for a fraction that is the number of steps times that of one. *)
Lemma C91_chain_lem :
  forall pr P i c sk ss M f0 f1 m E N B k, built_params P -> level P i c -> sk_params sk = P -> sk_ok sk ->
    1 <= bp_variance P <= 16 -> Forall (step_ok P i c) ss -> (4 * Z.to_nat (bp_variance P) * bp_degree P <= M)%nat ->
    small_basis (rq_moduli_64 c) -> 2 * bp_t P <= cx_q c 0 ->
    carries (bp_degree P) (cx_Q c) (bp_t P) (phase (bp_degree P) (sk_fun sk) [f0; f1]) m E ->
    (forall j, (j < bp_degree P)%nat -> Z.abs (E j) <= N) -> 0 <= B ->
    2 ^ 54 * (2 * chain_noise (bp_degree P) (bp_t P) B ss N) <= (2 ^ 54 - 1) * cx_Q c ->
    let T := (length ss * ((cx_k c + cx_k c) * M))%nat in
    countb T (fun bits => negb (decrypts_to
        (ct <- chain pr sk (cx_k c) M ss bits (ct_of P i c [f0; f1]) ;; decrypt pr sk ct)
        (map (fun j => chain_val (bp_degree P) ss m j mod bp_t P) (seq 0 (bp_degree P))))) * B ^ (2 * Z.of_nat k)
    <= Z.of_nat (length ss) * (Z.of_nat (bp_degree P) * (odd_product k
         * (bp_variance P * (2 * Z.of_nat (bp_degree P) * sumn (cx_k c) (fun l => cx_q c l * cx_q c l))) ^ Z.of_nat k * 2 ^ Z.of_nat T)).
Proof.
  intros pr P i c sk ss M f0 f1 m E N B k BP L SP SO Hv HS HM SB Hq HC HE HB HQ. pose proof (built_params_wf P BP) as WB. destruct (level_wf P i c WB L) as [_ LV].
  pose proof (wf_ctx_loc _ (lv_wf _ _ _ LV)) as W. pose proof (cx_n8 c W) as Hn. pose proof (wf_t17 P WB) as T1. pose proof (lv_n _ _ _ LV) as EN. pose proof (cx_Q1 c W) as Q1.
  set (n := bp_degree P) in *. set (D := B ^ (2 * Z.of_nat k)). assert (D0 : 0 <= D) by (apply Z.pow_nonneg; exact HB).
  revert f0 f1 m E N HC HE HQ. induction HS as [|s ss HS1 HS IH]; intros f0 f1 m E N HC HE HQ T.
  - subst T. cbn [length Nat.mul]. unfold countb. cbn [sumb chain bind chain_val]. cbn [chain_noise] in HQ.
    rewrite (decrypt_shift pr P i c sk f0 f1 (phase n (sk_fun sk) [f0; f1]) (fun _ => 0) m E N); auto.
    + unfold decrypts_to. cbn [pt_values]. fold n. destruct (list_eq_dec _ _ _) as [|Y]; [cbn; lia|exfalso; apply Y; reflexivity].
    + intros j Hj. rewrite Z.add_0_r. reflexivity.
    + intros j Hj. specialize (HE j Hj). cbn. lia.
  - cbn [length chain_noise] in *. set (KM := ((cx_k c + cx_k c) * M)%nat) in *. set (T' := (length ss * KM)%nat) in *.
    assert (ET : T = (KM + T')%nat) by reflexivity. clearbody T. subst T.
    destruct (C91_external_lem pr P i c sk s M BP L SP SO Hv HS1 HM) as [noise [HX HT]]. fold KM in HT.
    set (U := odd_product k * (bp_variance P * (2 * Z.of_nat n * sumn (cx_k c) (fun l => cx_q c l * cx_q c l))) ^ Z.of_nat k) in *.
    set (bad := fun x => existsb (fun j => B <=? Z.abs (noise x f0 f1 j)) (seq 0 n)).
    set (vals := map _ _).
    set (F := fun x y => if negb (decrypts_to (ct <- chain pr sk (cx_k c) M (s :: ss) (x ++ y) (ct_of P i c [f0; f1]) ;; decrypt pr sk ct) vals) then 1 else 0).
    assert (EC : countb (KM + T') (fun bits => negb (decrypts_to (ct <- chain pr sk (cx_k c) M (s :: ss) bits (ct_of P i c [f0; f1]) ;; decrypt pr sk ct) vals)) = sumb KM (fun x => sumb T' (F x))).
    { rewrite <- sumb_two. unfold countb. apply sumb_ext. intros l Hl. unfold F. rewrite firstn_skipn. reflexivity. }
    rewrite EC. clear EC.
    assert (SUM : sumb KM (fun x => sumb T' (F x)) * D <= sumb KM (fun x => 2 ^ Z.of_nat T' * (if bad x then D else 0) + Z.of_nat (length ss) * (Z.of_nat n * (U * 2 ^ Z.of_nat T')))).
    { rewrite Z.mul_comm, <- sumb_mul. apply sumb_le. intros x Hx.
      assert (U0 : 0 <= U).
      { unfold U. apply Z.mul_nonneg_nonneg; [apply odd_nonneg|]. apply Z.pow_nonneg. apply Z.mul_nonneg_nonneg; [lia|]. apply Z.mul_nonneg_nonneg; [lia|]. apply sumn_nonneg. intros l _. apply Z.square_nonneg. }
      assert (P2 : 0 <= 2 ^ Z.of_nat T') by (apply Z.pow_nonneg; lia).
      destruct (bad x) eqn:EB.
      - assert (H1 : sumb T' (F x) <= 2 ^ Z.of_nat T').
        { eapply Z.le_trans; [apply (sumb_le T' _ (fun _ => 1))|rewrite sumb_const; lia]. intros y _. unfold F. destruct (negb _); lia. }
        assert (H2 : 0 <= Z.of_nat (length ss) * (Z.of_nat n * (U * 2 ^ Z.of_nat T'))) by (apply Z.mul_nonneg_nonneg; [lia|apply Z.mul_nonneg_nonneg; [lia|apply Z.mul_nonneg_nonneg; auto]]).
        assert (H3 : D * sumb T' (F x) <= D * 2 ^ Z.of_nat T') by (apply Z.mul_le_mono_nonneg_l; auto). rewrite (Z.mul_comm (2 ^ Z.of_nat T') D). lia.
      - rewrite Z.mul_0_r, Z.add_0_l.
        assert (NX : forall j, (j < n)%nat -> Z.abs (noise x f0 f1 j) < B).
        { intros j Hj. apply Z.leb_gt. destruct (B <=? Z.abs (noise x f0 f1 j)) eqn:Q; [|reflexivity]. rewrite <- EB. symmetry. apply existsb_exists. exists j. split; [apply in_seq; lia|exact Q]. }
        destruct (HX x) as [r [ER HE1]]. destruct (HE1 f0 f1) as [h0 [h1 [EE HP]]]. fold n in HP.
        specialize (IH h0 h1 (rmul n m (st_fun s)) (fun j => rmul n E (st_fun s) j + bp_t P * noise x f0 f1 j) (l1norm n (st_fun s) * N + bp_t P * B)).
        assert (EF : countb T' (fun bits => negb (decrypts_to (ct <- chain pr sk (cx_k c) M ss bits (ct_of P i c [h0; h1]) ;; decrypt pr sk ct)
             (map (fun j => chain_val n ss (rmul n m (st_fun s)) j mod bp_t P) (seq 0 n)))) = sumb T' (F x)).
        { unfold countb. apply sumb_ext. intros y Hy. unfold F. cbn [chain].
          assert (EX : firstn KM (x ++ y) = x) by (rewrite <- Hx, firstn_app, firstn_all, Nat.sub_diag; cbn [firstn]; apply app_nil_r).
          assert (EY : skipn KM (x ++ y) = y) by (rewrite <- Hx, skipn_app, skipn_all, Nat.sub_diag; reflexivity).
          fold KM. rewrite EX, EY, ER. cbn [bind]. rewrite EE. cbn [bind]. reflexivity. }
        rewrite <- EF, Z.mul_comm. apply IH; auto.
        + apply (carries_shift _ _ _ (rmul n (phase n (sk_fun sk) [f0; f1]) (st_fun s))); auto; try lia.
          apply (carries_rmul P c). exact HC.
        + intros j Hj. specialize (NX j Hj). eapply Z.le_trans; [apply Z.abs_triangle|]. rewrite Z.abs_mul, (Z.abs_eq (bp_t P)) by lia.
          apply Z.add_le_mono; [|apply Z.mul_le_mono_nonneg_l; lia]. rewrite rmul_comm. apply rmul_bound_l1; auto; try lia.
          specialize (HE j Hj). lia. }
    eapply Z.le_trans; [exact SUM|]. clear SUM. rewrite sumb_add, sumb_mul, sumb_const.
    assert (BD : sumb KM (fun x => if bad x then D else 0) <= Z.of_nat n * (U * 2 ^ Z.of_nat KM)).
    { rewrite (sumb_ext KM _ (fun x => D * (if bad x then 1 else 0))) by (intros x _; destruct (bad x); lia). rewrite sumb_mul, Z.mul_comm.
      apply (union_bound KM n bad (fun j x => noise x f0 f1 j) B D (U * 2 ^ Z.of_nat KM)); auto.
      - intros x _ HF. apply existsb_exists in HF. destruct HF as [j [Hj HX']]. apply in_seq in Hj. apply Z.leb_le in HX'. exists j. split; [lia|exact HX'].
      - intros j Hj. apply (HT f0 f1 j B k Hj HB). }
    rewrite Nat2Z.inj_add, Z.pow_add_r by lia. rewrite Nat2Z.inj_succ. unfold Z.succ.
    set (p1 := 2 ^ Z.of_nat KM) in *. set (p2 := 2 ^ Z.of_nat T'). assert (H2 : 0 <= p2) by (apply Z.pow_nonneg; lia). clearbody p1 p2. clear - BD H2.
    set (X := sumb _ _) in *. clearbody X. apply (Z.mul_le_mono_nonneg_l _ _ p2) in BD; [|exact H2]. 
    eapply Z.le_trans; [apply Z.add_le_mono_r; exact BD|]. apply Z.eq_le_incl. ring.
Qed.

(** C91: if every plaintext has absolute coefficient sum 1 (0 or 1 times a monomial with
    sign), the noise grows only linearly with the number of steps. *)
Lemma C91_noise_lem :
  forall n t B ss N, Forall (fun s => l1norm n (st_fun s) = 1) ss ->
    chain_noise n t B ss N = N + Z.of_nat (length ss) * (t * B).
Proof.
  intros n t B ss N H. revert N. induction H as [|s ss H1 H IH]; intros N; cbn [chain_noise length]; [lia|]. rewrite H1, IH, Nat2Z.inj_succ. unfold Z.succ. ring.
Qed.

(*EXAMPLE
(** 2 + 3X^7 times X, times 1 + X; the noise bound of the last two lemmas. *)
Example C91_example :
  (P <- test_bfv Debug ;; c <- tctx P ;; let sk := mkSk P [1; -1; 0; 1; 1; 0; 2; -1] in
   let M := (4 * Z.to_nat (bp_variance P) * 8)%nat in
   px <- pt_new Debug P [0; 1] 0 EncPoly ;; py <- pt_new Debug P [1; 1] 0 EncPoly ;;
   let ss := [mkStep px (rnd_rows (trnd 3)) (rnd_rows (trnd 4)); mkStep py (rnd_rows (trnd 7)) (rnd_rows (trnd 8))] in
   let bits := map (fun i => Nat.odd (i * 5 / 3)) (seq 0 (2 * ((cx_k c + cx_k c) * M))) in
   pa <- pt_new Debug P [2; 0; 0; 0; 0; 0; 0; 3] 0 EncPoly ;; a <- encrypt Debug sk pa (trows bms 4) (tw 5) ;;
   ct <- chain Debug sk (cx_k c) M ss bits a ;; d <- decrypt Debug sk ct ;;
   Ok (pt_values d, map (fun j => chain_val 8 ss (fun j => nth j [2; 0; 0; 0; 0; 0; 0; 3] 0) j mod 17) (seq 0 8),
       chain_noise 8 17 5 ss 100, (2 ^ 54 * (2 * chain_noise 8 17 (2 ^ 22) ss 1000) <=? (2 ^ 54 - 1) * cx_Q c)))
  = Ok ([14; 16; 2; 0; 0; 0; 0; 0], [14; 16; 2; 0; 0; 0; 0; 0], 455, true).
Proof. vm_compute. reflexivity. Qed.
EXAMPLE*)
