(** Claim C89: the crate's failing tests pass once the defects are repaired. *)
From Verif Require Import PBase NT Spec PSum MModulus MUtils MNtt MRns MRq MBfv MKsk MGalois MRgsw MCirc MFix PModulus PNttMath PNtt PCrt PRns PUtils SpecRq SpecBfv SpecKsk SpecCirc SpecSimd PRing PRingT PRq PRq2 PRq3 PBfv PBfv2 PBfv3 PBfv4 PKsk PKsk2 QKsk QBfv PNttNew QRot QCirc PSimd PSimd2 TestBfv MEval MRgswT MTests2 SpecDef PRnsScale PUtils2 PRq4 PRq5 TestEnv QRq PBfv5 PMul PGal QNtt PDefData PDef QDef QBudget QRgswT PEval PEval2 PClient QEval PPrime PDefData2 PDef2 PSafe PSafe3 MFix5 MFix3 SpecEval PFold PFold2 TestEval SpecAddr QAddr MSwitch SpecSwitch QSwitch MPvw SpecPvw QPvw QSimd QTests QTests2 QHelp QFixDef MTests MFixTests QFixPir PRetr PAsm.

(** ** The parameters of the evaluation tests *)
Lemma eval_facts pr env sizes n P c : env_exact env -> (1 <= n)%nat -> Forall (fun s => 50 <= s <= 62) sizes ->
  eval_test_params pr env sizes n = Ok P -> level P 0 c ->
  built_params P /\ bp_degree P = n /\ bp_t P = 1785857 /\ bp_variance P = 10 /\ length (bp_moduli P) = length sizes
  /\ wf_level P 0 c /\ rq_degree c = n /\ bp_moduli P = rq_moduli_64 c /\ Forall2 (fun s q => ntt_prime s n q) sizes (rq_moduli_64 c).
Proof.
  intros EX Hn HS E L. unfold eval_test_params in E. binv E. rename v into o, E0 into EG. binv E. rename v into ms, E0 into EU.
  assert (Eo : o = Some ms) by (destruct o; [apply Ok_inj in EU; subst; auto|discriminate]). subst o. clear EU.
  assert (GM : Forall2 (fun s p => ntt_prime s n p) sizes ms).
  { destruct (C26_generate_moduli_lem pr env sizes n (proj1 EX) Hn) as [[ms' [E' [ND [F _]]]]|[E' _]].
    - eapply Forall_impl; [|exact HS]. cbv beta. intros s Hs. clear - Hs. lia.
    - rewrite E' in EG. apply Ok_inj in EG. injection EG as <-. auto.
    - rewrite E' in EG. discriminate. }
  assert (FM : forall q, In q ms -> 2 ^ 49 <= q).
  { intros q Hq. clear - GM Hq HS. induction GM as [|s p l l' H _ IH]; [destruct Hq|]. inversion HS as [|? ? H1 H2]; subst. destruct Hq as [<-|Hq]; auto.
    destruct H as [_ [[H _] _]]. eapply Z.le_trans; [|exact H]. apply Z.pow_le_mono_r; clear - H1; lia. }
  destruct (bfv_new_built pr env n 1785857 ms 10 (mkBD 4 8) P EX Hn) as [B [D1 [D2 [D3 [D4 D5]]]]]; auto.
  { apply Forall_forall. intros q Hq. specialize (FM q Hq). clear - FM. lia. }
  { lia. }
  { intros q Hq. specialize (FM q Hq). clear - FM. lia. }
  destruct (D5 c L) as [LV MC].
  assert (LM : length ms = length sizes) by (clear - GM; induction GM; cbn [length]; congruence).
  split; auto. split; auto. split; auto. split; auto. split; [congruence|]. split; auto. split; [rewrite (lv_n _ _ _ LV); auto|]. split; [congruence|]. rewrite MC. auto.
Qed.

(** ** Expansion, then decryption of the constant terms *)
Lemma cst_carries n Q t f m E j : (j < n)%nat -> carries n Q t f m E -> carries n Q t (cst (f j)) (cst (m j)) (cst (E j)).
Proof.
  intros Hj C l Hl. unfold cst. destruct (l =? 0)%nat; [apply C; auto|]. rewrite !Z.mul_0_r. reflexivity.
Qed.
Lemma unpack_heads pr P c sk rnd rk0 rk1 : built_params P -> level P 0 c -> sk_params sk = P -> sk_ok sk ->
  1 <= bp_variance P <= 16 -> length (bp_moduli P) <> 1%nat -> small_degree pr (bp_degree P) -> small_basis (rq_moduli_64 c) -> 2 * bp_t P <= cx_q c 0 ->
  (forall i, rnd_ok c (rnd i)) -> rnd_ok c rk0 -> rnd_ok c rk1 ->
  2 ^ 54 * (2 * (fresh_noise P + bp_t P * expand_noise P c)) <= (2 ^ 54 - 1) * cx_Q c ->
  exists ev, eval_build pr sk P rnd rk0 rk1 = Ok ev
    /\ forall vals r, enc_ok c r -> Forall (fun x => 0 <= x < 2 ^ 64) vals -> (length vals <= bp_degree P)%nat ->
       exists ct cts, (pt <- pt_new pr P vals 0 EncPoly ;; encrypt pr sk pt (re_rows r) (re_words r)) = Ok ct
         /\ unpack_fixed pr ev ct = Ok cts
         /\ heads pr sk cts = Ok (map (fun j => nth j vals 0 mod bp_t P) (seq 0 (bp_degree P))).
Proof.
  intros B L SP SO Hv HM SD SB Hq RK RK0 RK1 HN. pose proof (built_params_wf P B) as WB. destruct (level_wf P 0 c WB L) as [_ LV].
  pose proof (wf_ctx_loc _ (lv_wf _ _ _ LV)) as W. pose proof (cx_n8 c W) as N8. pose proof (cx_Q1 c W) as Q1. pose proof (wf_t17 P WB) as T17.
  destruct (C85_x_pows_lem pr P 0 c (mkEval [] (mkRgsw (mkKsk P [] [] c c) (mkKsk P [] [] c c))) [] B L) as [xs [EX [_ [XO _]]]].
  destruct (C42_expand_lem pr P c sk rnd rk0 rk1 xs B L SP SO Hv HM SD RK RK0 RK1 XO) as [ev [EE HX]]. exists ev. split; auto.
  intros vals r [R1 R2] HV HL. unfold pt_new. rewrite copy_prefix_pad by auto. cbn [bind].
  destruct (fresh_carried pr P c sk (mkPt P 0 EncPoly (vals ++ repeat 0 (bp_degree P - length vals))) (re_rows r) (re_words r) B L SP SO Hv eq_refl eq_refl) as [ct [E1 [f0 [f1 [E [ECT [HC HB]]]]]]]; auto.
  { cbn [pt_values]. apply Forall_app. split; auto. apply Forall_forall. intros x Hx. apply repeat_spec in Hx. subst x. lia. }
  { cbn [pt_values]. rewrite app_length, repeat_length. lia. }
  destruct (HX f0 f1) as [bits [EU [LU HU]]]. exists ct, bits. split; [exact E1|]. split.
  { destruct (C85_x_pows_lem pr P 0 c ev [rep c Ntt f0; rep c Ntt f1] B L) as [xs' [EX' [_ [_ EF]]]]. rewrite EX in EX'. apply Ok_inj in EX'. subst xs'.
    rewrite ECT. unfold ct_of. cbn [map]. rewrite EF. exact EU. }
  unfold heads. rewrite (list_seq bits (mkCt P [] 0) (bp_degree P)) by auto. apply mapM_seq.
  intros j Hj. destruct (HU j Hj) as [g0 [g1 [w [EG HG]]]]. rewrite (get_ok _ j (mkCt P [] 0)) in EG by lia. apply Ok_inj in EG. rewrite EG.
  assert (D : decrypt pr sk (ct_of P 0 c [g0; g1]) = Ok (mkPt P 0 EncNone (map (fun l => cst (coeffs (vals ++ repeat 0 (bp_degree P - length vals)) j) l mod bp_t P) (seq 0 (bp_degree P))))).
  { pose proof (decrypt_ok pr P 0 c WB LV sk [g0; g1] (cst (coeffs (vals ++ repeat 0 (bp_degree P - length vals)) j)) (fun l => cst (E j) l + bp_t P * w l) (conj SP SO) ltac:(discriminate) SB Hq) as X.
    rewrite (lv_n _ _ _ LV) in *. apply X.
    - apply (carries_shift _ _ _ (cst (phase (bp_degree P) (sk_fun sk) [f0; f1] j))); [lia|lia| |].
      + intros l Hl. apply HG. auto.
      + apply cst_carries; auto.
    - intros l Hl. apply noise_ok_abs with (B := fresh_noise P + bp_t P * expand_noise P c); [lia| |exact HN]. destruct (HG l Hl) as [_ HW]. specialize (HB j Hj).
      assert (Z.abs (cst (E j) l) <= fresh_noise P) by (unfold cst; destruct (l =? 0)%nat; lia).
      assert (Z.abs (bp_t P * w l) <= bp_t P * expand_noise P c) by (rewrite Z.abs_mul, (Z.abs_eq (bp_t P)) by lia; apply Z.mul_le_mono_nonneg_l; lia). lia. }
  rewrite D. cbn [bind pt_values]. rewrite (get_ok _ 0 0) by (rewrite len_seq; rewrite <- (lv_n _ _ _ LV); lia). f_equal.
  rewrite nth_map_seq by (rewrite <- (lv_n _ _ _ LV); lia). cbn [cst Nat.eqb]. f_equal. unfold coeffs.
  destruct (Nat.lt_ge_cases j (length vals)); [rewrite app_nth1 by auto; reflexivity|]. rewrite app_nth2, nth_repeat by auto. rewrite nth_overflow by auto. reflexivity.
Qed.

Lemma small_facts pr env n P c : env_exact env -> (1 <= n)%nat -> Z.of_nat n <= 4096 -> eval_test_params pr env [50; 55; 55] n = Ok P -> level P 0 c ->
  length (bp_moduli P) <> 1%nat /\ small_basis (rq_moduli_64 c) /\ 2 * bp_t P <= cx_q c 0
  /\ 2 ^ 54 * (2 * (fresh_noise P + bp_t P * expand_noise P c)) <= (2 ^ 54 - 1) * cx_Q c.
Proof.
  intros EX Hn Hn2 EP L. destruct (eval_facts pr env [50; 55; 55] n P c EX ltac:(lia) ltac:(repeat constructor; lia) EP L) as [B [D1 [D2 [D3 [D4 [LV [DC [MC F]]]]]]]].
  assert (X : exists q0 q1 q2, rq_moduli_64 c = [q0; q1; q2] /\ 2 ^ (50 - 1) <= q0 < 2 ^ 50 /\ 2 ^ (55 - 1) <= q1 < 2 ^ 55 /\ 2 ^ (55 - 1) <= q2 < 2 ^ 55).
  { clear - F. revert F. generalize (rq_moduli_64 c). intros ms F. inversion F as [|? q0 ? l0 [_ [H0 _]] F0]; subst. inversion F0 as [|? q1 ? l1 [_ [H1 _]] F1]; subst.
    inversion F1 as [|? q2 ? l2 [_ [H2 _]] F2]; subst. inversion F2; subst. exists q0, q1, q2. auto. }
  destruct X as [q0 [q1 [q2 [EM [H0 [H1 H2]]]]]]. clear F.
  change (2 ^ (50 - 1)) with 562949953421312 in H0. change (2 ^ 50) with 1125899906842624 in H0.
  change (2 ^ (55 - 1)) with 18014398509481984 in H1, H2. change (2 ^ 55) with 36028797018963968 in H1, H2.
  split; [rewrite D4; discriminate|]. split.
  { unfold small_basis. rewrite EM. cbn [length]. change (2 ^ 68) with 295147905179352825856. intros q [<-|[<-|[<-|[]]]]; lia. }
  assert (Q0 : cx_q c 0 = q0) by (unfold cx_q; rewrite EM; reflexivity).
  split; [rewrite Q0, D2; clear - H0; lia|].
  assert (EK : cx_k c = 3%nat) by (unfold cx_k; rewrite EM; reflexivity).
  assert (ES : sumn (cx_k c) (fun i => cx_q c i) = q0 + q1 + q2) by (rewrite EK; cbn [sumn]; unfold cx_q; rewrite EM; cbn [nth]; ring).
  assert (EQ : cx_Q c = q0 * (q1 * q2)) by (unfold cx_Q; rewrite EM; unfold zprod; cbn [fold_right]; ring).
  unfold fresh_noise, expand_noise, ks_bound. rewrite ES, EQ, D2, D3. rewrite DC. clear - H0 H1 H2 Hn Hn2.
  set (N := Z.of_nat n) in *. assert (HN : 1 <= N <= 4096) by (unfold N; lia). clearbody N. clear Hn Hn2.
  assert (A1 : 0 <= N * (2 * 10) <= 81920) by lia.
  assert (A2 : 0 <= N * (2 * 10) * (q0 + q1 + q2) <= 81920 * 73183493944770560) by (split; [apply Z.mul_nonneg_nonneg; lia|apply Z.mul_le_mono_nonneg; lia]).
  assert (A3 : 0 <= (N - 1) * (N * (2 * 10) * (q0 + q1 + q2)) <= 4095 * (81920 * 73183493944770560)) by (split; [apply Z.mul_nonneg_nonneg; lia|apply Z.mul_le_mono_nonneg; lia]).
  assert (A4 : 18014398509481984 * 18014398509481984 <= q1 * q2) by (apply Z.mul_le_mono_nonneg; lia).
  assert (A5 : 562949953421312 * (18014398509481984 * 18014398509481984) <= q0 * (q1 * q2)) by (apply Z.mul_le_mono_nonneg; lia).
  change (2 ^ 54) with 18014398509481984. lia.
Qed.

Lemma mod_vals vals n t : (length vals <= n)%nat -> Forall (fun x => 0 <= x < t) vals -> 0 < t ->
  map (fun j => nth j vals 0 mod t) (seq 0 n) = vals ++ repeat 0 (n - length vals).
Proof.
  intros HL HV Ht. apply (nth_ext _ _ 0 0); [rewrite len_seq, app_length, repeat_length; lia|]. intros j Hj. rewrite len_seq in Hj. rewrite nth_map_seq by auto.
  destruct (Nat.lt_ge_cases j (length vals)).
  - rewrite app_nth1 by auto. apply Z.mod_small. rewrite Forall_forall in HV. apply HV, nth_In. auto.
  - rewrite app_nth2, nth_repeat, nth_overflow by auto. apply Z.mod_0_l. lia.
Qed.
Lemma mismatches_pad l r : mismatches l (l ++ r) = 0%nat.
Proof.
  unfold mismatches. induction l as [|x l IH]; [destruct r; reflexivity|]. cbn [app combine filter fst snd]. rewrite Z.eqb_refl. exact IH.
Qed.

(** C89: the test [unpack] prints the values, the same values (padded with zeros up
    to the degree) and no mismatch, whatever the values below the plaintext modulus
    and the randomness (code: degree 64, 64 values below 100). *)
Lemma C89_unpack_lem :
  forall pr env n P c wsk vals r rnd rk0 rk1, env_exact env -> (1 <= n)%nat -> Z.of_nat n <= 4096 ->
    eval_test_params pr env [50; 55; 55] n = Ok P -> level P 0 c ->
    (forall j, 0 <= wsk j < 2 ^ 64) -> enc_ok c r -> (forall i, rnd_ok c (rnd i)) -> rnd_ok c rk0 -> rnd_ok c rk1 ->
    (length vals <= n)%nat -> Forall (fun x => 0 <= x < 1785857) vals ->
    ftest_unpack pr env n wsk vals r rnd rk0 rk1 = Ok (vals, vals ++ repeat 0 (n - length vals), 0%nat).
Proof.
  intros pr env n P c wsk vals r rnd rk0 rk1 EX Hn Hn2 EP L HW RE RK RK0 RK1 HL HV.
  destruct (eval_facts pr env [50; 55; 55] n P c EX ltac:(lia) ltac:(repeat constructor; lia) EP L) as [B [D1 [D2 [D3 _]]]].
  destruct (small_facts pr env n P c EX Hn Hn2 EP L) as [HM [SB [Hq HN]]].
  unfold ftest_unpack. rewrite EP. cbn [bind]. unfold ftest_unpack_with.
  destruct (C30_keygen_lem pr P wsk B ltac:(lia) HW) as [sk [ES [SP [SO _]]]]. rewrite ES. cbn [bind].
  destruct (unpack_heads pr P c sk rnd rk0 rk1 B L SP SO ltac:(lia) HM ltac:(right; lia) SB Hq RK RK0 RK1 HN) as [ev [EE HU]]. rewrite EE. cbn [bind].
  destruct (HU vals r RE) as [ct [cts [E1 [E2 E3]]]]; [|lia|].
  { eapply Forall_impl; [|exact HV]. cbv beta. intros x Hx. change (2 ^ 64) with 18446744073709551616. clear - Hx. lia. }
  apply bind_inv in E1. destruct E1 as [pt [E0 E1]]. rewrite E0. cbn [bind]. rewrite E1. cbn [bind]. rewrite E2. cbn [bind]. rewrite E3. cbn [bind].
  rewrite D1, D2, mod_vals by (auto; lia). rewrite mismatches_pad. reflexivity.
Qed.
(** C89: the test [client_encode] recovers the encoded query (code: degree 2048). *)
Lemma C89_client_encode_lem :
  forall pr env n P c wsk0 wsk r rnd rk0 rk1, env_exact env -> (12 <= n)%nat -> Z.of_nat n <= 4096 ->
    eval_test_params pr env [50; 55; 55] n = Ok P -> level P 0 c ->
    (forall j, 0 <= wsk0 j < 2 ^ 64) -> (forall j, 0 <= wsk j < 2 ^ 64) -> enc_ok c r -> (forall i, rnd_ok c (rnd i)) -> rnd_ok c rk0 -> rnd_ok c rk1 ->
    ftest_client_encode pr env n wsk0 wsk r rnd rk0 rk1
    = Ok ([0; 0; 0; 1; 1; 0; 0; 0; 1; 0; 0; 0], [0; 0; 0; 1; 1; 0; 0; 0; 1; 0; 0; 0] ++ repeat 0 (n - 12)).
Proof.
  intros pr env n P c wsk0 wsk r rnd rk0 rk1 EX Hn Hn2 EP L HW0 HW RE RK RK0 RK1.
  destruct (eval_facts pr env [50; 55; 55] n P c EX ltac:(lia) ltac:(repeat constructor; lia) EP L) as [B [D1 [D2 [D3 _]]]].
  destruct (small_facts pr env n P c EX ltac:(lia) Hn2 EP L) as [HM [SB [Hq HN]]].
  unfold ftest_client_encode. rewrite EP. cbn [bind].
  destruct (C30_keygen_lem pr P wsk0 B ltac:(lia) HW0) as [sk0 [ES0 _]]. rewrite ES0. cbn [bind].
  replace (client_encode_fixed (mkClient 4 4) [3; 0; 0]%nat 64) with (Ok [0; 0; 0; 1; 1; 0; 0; 0; 1; 0; 0; 0]) by reflexivity. cbn [bind].
  destruct (C30_keygen_lem pr P wsk B ltac:(lia) HW) as [sk [ES [SP [SO _]]]]. rewrite ES. cbn [bind].
  destruct (unpack_heads pr P c sk rnd rk0 rk1 B L SP SO ltac:(lia) HM ltac:(right; lia) SB Hq RK RK0 RK1 HN) as [ev [EE HU]]. rewrite EE. cbn [bind].
  destruct (HU [0; 0; 0; 1; 1; 0; 0; 0; 1; 0; 0; 0] r RE) as [ct [cts [E1 [E2 E3]]]]; [repeat constructor; lia|cbn [length]; lia|].
  apply bind_inv in E1. destruct E1 as [pt [E0 E1]]. rewrite E0. cbn [bind]. rewrite E1. cbn [bind]. rewrite E2. cbn [bind]. rewrite E3. cbn [bind].
  rewrite D1, D2, mod_vals by (try (cbn [length]; lia); repeat constructor; lia). reflexivity.
Qed.

Lemma big_facts pr env n P c : env_exact env -> (1 <= n)%nat -> Z.of_nat n <= 4096 -> eval_test_params pr env [62; 62; 62; 62] n = Ok P -> level P 0 c ->
  length (bp_moduli P) <> 1%nat /\ Forall (fun q => 2 ^ 61 <= q < 2 ^ 62) (rq_moduli_64 c) /\ cx_k c = 4%nat
  /\ small_basis (rq_moduli_64 c) /\ 2 * bp_t P <= cx_q c 0
  /\ forall first dim k S M, 0 <= S <= 2 ^ 17 -> 0 <= M <= 2 ^ 64 -> (first <= 64)%nat -> (k * dim <= 64)%nat ->
       4 * retrieval_noise P c first dim k S M <= cx_Q c.
Proof.
  intros EX Hn Hn2 EP L. destruct (eval_facts pr env [62; 62; 62; 62] n P c EX ltac:(lia) ltac:(repeat constructor; lia) EP L) as [B [D1 [D2 [D3 [D4 [LV [DC [MC F]]]]]]]].
  split; [rewrite D4; discriminate|].
  assert (FM : Forall (fun q => 2 ^ 61 <= q < 2 ^ 62) (bp_moduli P)).
  { rewrite MC. apply Forall_forall. intros q Hq. change [62; 62; 62; 62] with (repeat 62 4) in F. clear - F Hq. revert F. generalize 4%nat. generalize dependent (rq_moduli_64 c).
    induction l as [|x l IH]; intros Hq m F; [destruct Hq|]. inversion F as [|s ? l0 ? H F' E1]; subst. destruct m as [|m]; [discriminate|]. cbn [repeat] in E1. injection E1 as -> ->.
    destruct Hq as [<-|Hq]; [exact (proj1 (proj2 H))|]. eauto. }
  destruct (level62 P 0 c B L FM ltac:(rewrite D4; cbn [length]; lia) ltac:(rewrite D2; lia)) as [FC [SB [Hq [_ EK]]]]. rewrite D4 in EK. cbn [length] in EK.
  split; auto. split; [lia|]. split; auto. split; auto.
  intros first dim k S M HS HM Hf Hd. pose proof (cx_n8 c (wf_ctx_loc _ (lv_wf _ _ _ LV))) as N8.
  apply retrieval_fits; auto; try lia; try (rewrite D2; lia).
Qed.

(** C89: the test [query] prints one result and the values of the requested entry,
    for every database of 16 entries and every position, at every degree up to 4096
    (code: entries [i; i; i; i], position 3, 1, 1, degree 64). *)
Lemma C89_query_lem :
  forall pr env n P c db q0 q1 q2 wsk r rq rnd rk0 rk1, env_exact env -> (1 <= n)%nat -> Z.of_nat n <= 4096 ->
    eval_test_params pr env [62; 62; 62; 62] n = Ok P -> level P 0 c ->
    (forall j, 0 <= wsk j < 2 ^ 64) -> enc_ok c r -> rnd_ok c rq -> (forall i, rnd_ok c (rnd i)) -> rnd_ok c rk0 -> rnd_ok c rk1 ->
    (forall i, (i < 16)%nat -> (length (db i) <= n)%nat /\ Forall (fun x => 0 <= x < 1785857) (db i)) ->
    (q0 < 4)%nat -> (q1 < 2)%nat -> (q2 < 2)%nat ->
    let v := db (q0 + 4 * (q1 + 2 * q2))%nat in
    ftest_query pr env n db q0 q1 q2 wsk r rq rnd rk0 rk1 = Ok (1%nat, v ++ repeat 0 (n - length v)).
Proof.
  intros pr env n P c db q0 q1 q2 wsk r rq rnd rk0 rk1 EX Hn Hn2 EP L HW [R1 R2] RQ RK RK0 RK1 HD H0 H1 H2 v.
  destruct (eval_facts pr env [62; 62; 62; 62] n P c EX ltac:(lia) ltac:(repeat constructor; lia) EP L) as [B [D1 [D2 [D3 [_ [LV [DC _]]]]]]].
  destruct (big_facts pr env n P c EX Hn Hn2 EP L) as [HM [FC [EK [SB [Hq HN]]]]].
  pose proof (cx_n8 c (wf_ctx_loc _ (lv_wf _ _ _ LV))) as N8. rewrite DC in N8. pose proof (cx_Q1 c (wf_ctx_loc _ (lv_wf _ _ _ LV))) as Q1.
  unfold ftest_query. rewrite EP. cbn [bind].
  set (f := fun i : nat => mkPt P 0 EncPoly (db i ++ repeat 0 (n - length (db i)))).
  rewrite (mapM_ok _ f) by (intros i Hi; apply in_seq in Hi; unfold pt_new; rewrite D1, copy_prefix_pad by (apply HD; lia); reflexivity). cbn [bind].
  destruct (C30_keygen_lem pr P wsk B ltac:(lia) HW) as [sk [ES _]]. rewrite ES. cbn [bind].
  destruct (l1_generated pr P wsk sk B ltac:(lia) HW ES) as [SP [SO SL]]. rewrite D1 in SL.
  assert (FV : forall i, (i < 16)%nat -> Forall (fun x => 0 <= x < 1785857) (pt_values (f i))).
  { intros i Hi. cbn [f pt_values]. apply Forall_app. split; [apply HD; auto|]. apply Forall_forall. intros x Hx. apply repeat_spec in Hx. subst x. lia. }
  assert (LF : forall i, (i < 16)%nat -> length (pt_values (f i)) = n).
  { intros i Hi. cbn [f pt_values]. rewrite app_length, repeat_length. destruct (HD i Hi) as [X _]. lia. }
  destruct (C85_retrieve_lem pr P c sk 4 2 q0 [q1; q2] (map f (seq 0 16)) (2 ^ 64) (32 * Z.of_nat n) (re_rows r) (re_words r) rq rnd rk0 rk1) as [p [GP ER]]; auto; try lia.
  - right. lia.
  - rewrite D1. exact SL.
  - cbn [length]. lia.
  - rewrite len_seq. lia.
  - rewrite D1. apply Forall_forall. intros p Hp. apply in_map_iff in Hp. destruct Hp as [i [<- Hi]]. apply in_seq in Hi. split; [|rewrite LF; lia].
    eapply Forall_impl; [|apply FV; lia]. cbv beta. intros x Hx. change (2 ^ 64) with 18446744073709551616. clear - Hx. lia.
  - intros p x Hp Hx. apply in_map_iff in Hp. destruct Hp as [i [<- Hi]]. apply in_seq in Hi. pose proof (FV i ltac:(lia)) as X. rewrite Forall_forall in X. specialize (X x Hx).
    change (2 ^ 64) with 18446744073709551616. clear - X. lia.
  - cbn [length]. assert (HNN := HN 4%nat 2%nat 2%nat (32 * Z.of_nat n) (2 ^ 64)). assert (H32 : 0 <= 32 * Z.of_nat n <= 2 ^ 17) by (change (2 ^ 17) with 131072; lia).
    specialize (HNN H32 ltac:(clear; lia) ltac:(lia) ltac:(lia)). revert HNN Q1. generalize (retrieval_noise P c 4 2 2 (32 * Z.of_nat n) (2 ^ 64)) (cx_Q c). clear. intros a Q H Q1.
    change (2 ^ 54) with 18014398509481984. lia.
  - cbn [row_index fold_right] in GP. replace (q0 + 4 * (q1 + 2 * (q2 + 2 * 0)))%nat with (q0 + 4 * (q1 + 2 * q2))%nat in GP by lia.
    rewrite (get_ok _ _ (f 0%nat)) in GP by (rewrite len_seq; lia). rewrite nth_map_seq in GP by lia. apply Ok_inj in GP. subst p. rewrite D1, D2 in ER.
    rewrite mod_vals in ER by (first [lia|(rewrite LF by lia; lia)|(apply FV; lia)]). rewrite LF, Nat.sub_diag in ER by lia. cbn [repeat] in ER. rewrite app_nil_r in ER. cbn [f pt_values] in ER. fold v in ER.
    repeat (apply bind_inv in ER; destruct ER as [? [? ER]]; match goal with H : _ = Ok ?x |- _ => rewrite H; cbn [bind]; clear H end).
    match goal with |- context [get ?o 0] => destruct o as [|ct os] end; [discriminate|]. cbn [mapM] in ER. apply bind_inv in ER. destruct ER as [y [E1 ER]].
    apply bind_inv in ER. destruct ER as [ys [E2 ER]]. apply Ok_inj in ER. injection ER as -> ->. destruct os as [|ct' os].
    + cbn [get nth_error bind]. rewrite E1. reflexivity.
    + cbn [mapM] in E2. apply bind_inv in E2. destruct E2 as [? [_ E2]]. apply bind_inv in E2. destruct E2 as [? [_ E2]]. discriminate.
Qed.

(** ** The packed selector *)
Lemma rmul_cst n b f j : (j < n)%nat -> rmul n (cst b) f j = b * f j.
Proof.
  intros Hj. rewrite (rmul_ext n (cst b) (fun i => b * one i) f f) by (auto; intros i _; unfold cst, one; destruct (i =? 0)%nat; lia).
  rewrite rmul_scal_l, rmul_one_l by lia. reflexivity.
Qed.
Lemma scaled_decrypt pr P c sk b f0 f1 h0 h1 m E w V W : built_params P -> level P 0 c -> sk_params sk = P -> sk_ok sk -> small_basis (rq_moduli_64 c) -> 2 * bp_t P <= cx_q c 0 ->
  carries (bp_degree P) (cx_Q c) (bp_t P) (phase (bp_degree P) (sk_fun sk) [f0; f1]) m E -> (forall j, (j < bp_degree P)%nat -> Z.abs (E j) <= V) ->
  (forall j, (j < bp_degree P)%nat -> phase (bp_degree P) (sk_fun sk) [h0; h1] j mod cx_Q c = (rmul (bp_degree P) (cst b) (phase (bp_degree P) (sk_fun sk) [f0; f1]) j + w j) mod cx_Q c
     /\ Z.abs (w j) <= W) -> 0 <= b ->
  2 ^ 54 * (2 * (b * V + bp_t P * W)) <= (2 ^ 54 - 1) * cx_Q c ->
  decrypt pr sk (mkCt P [rep c Ntt h0; rep c Ntt h1] 0) = Ok (mkPt P 0 EncNone (map (fun j => (b * m j) mod bp_t P) (seq 0 (bp_degree P)))).
Proof.
  intros B L SP SO SB Hq C HE HW Hb HN. pose proof (built_params_wf P B) as WB. destruct (level_wf P 0 c WB L) as [_ LV].
  pose proof (wf_ctx_loc _ (lv_wf _ _ _ LV)) as W0. pose proof (cx_Q1 c W0) as Q1. pose proof (wf_t17 P WB) as T17.
  pose proof (decrypt_ok pr P 0 c WB LV sk [h0; h1] (fun j => b * m j) (fun j => b * E j + bp_t P * w j) (conj SP SO) ltac:(discriminate) SB Hq) as X.
  apply X; clear X.
  - apply (carries_shift _ _ _ (fun j => b * phase (bp_degree P) (sk_fun sk) [f0; f1] j)); [lia|lia| |].
    + intros j Hj. destruct (HW j Hj) as [H _]. rewrite rmul_cst in H by auto. exact H.
    + intros j Hj. replace (bp_t P * (b * phase (bp_degree P) (sk_fun sk) [f0; f1] j)) with (b * (bp_t P * phase (bp_degree P) (sk_fun sk) [f0; f1] j)) by ring.
      replace (cx_Q c * (b * m j) + b * E j) with (b * (cx_Q c * m j + E j)) by ring. apply (eqm_mul (bp_t P * cx_Q c)); [reflexivity|]. apply (C j Hj).
  - intros j Hj. apply noise_ok_abs with (B := b * V + bp_t P * W); [lia| |exact HN]. specialize (HE j Hj). destruct (HW j Hj) as [_ Hw].
    assert (Z.abs (b * E j) <= b * V) by (rewrite Z.abs_mul, (Z.abs_eq b) by lia; apply Z.mul_le_mono_nonneg_l; lia).
    assert (Z.abs (bp_t P * w j) <= bp_t P * W) by (rewrite Z.abs_mul, (Z.abs_eq (bp_t P)) by lia; apply Z.mul_le_mono_nonneg_l; lia). lia.
Qed.

(** C89: the test [pack_and_construct_rgsw] passes: the product with the RGSW
    ciphertext built from the query and with the ideal one decrypt to the same
    values, b times the message (code: b = 1, degree 64). *)
Lemma C89_pack_and_construct_lem :
  forall pr env n P c b wsk rnd rk0 rk1 rs ri0 ri1 m r1, env_exact env -> (1 <= n)%nat -> Z.of_nat n <= 4096 ->
    eval_test_params pr env [62; 62; 62; 62] n = Ok P -> level P 0 c -> 0 <= b < 1785857 ->
    (forall j, 0 <= wsk j < 2 ^ 64) -> (forall i, rnd_ok c (rnd i)) -> rnd_ok c rk0 -> rnd_ok c rk1 -> (forall i, enc_ok c (rs i)) ->
    rnd_ok c ri0 -> rnd_ok c ri1 -> (length m <= n)%nat -> Forall (fun x => 0 <= x < 1785857) m -> enc_ok c r1 ->
    ftest_pack_and_construct pr env n b wsk rnd rk0 rk1 rs ri0 ri1 m r1
    = Ok (map (fun x => (b * x) mod 1785857) (m ++ repeat 0 (n - length m))).
Proof.
  intros pr env n P c b wsk rnd rk0 rk1 rs ri0 ri1 m r1 EX Hn Hn2 EP L Hb HW RK RK0 RK1 RS RI0 RI1 HL HV [R1 R2].
  destruct (eval_facts pr env [62; 62; 62; 62] n P c EX ltac:(lia) ltac:(repeat constructor; lia) EP L) as [B [D1 [D2 [D3 [_ [LV [DC _]]]]]]].
  destruct (big_facts pr env n P c EX Hn Hn2 EP L) as [HM [FC [EK [SB [Hq HN]]]]].
  pose proof (built_params_wf P B) as WB. pose proof (wf_ctx_loc _ (lv_wf _ _ _ LV)) as W.
  pose proof (cx_n8 c W) as N8. rewrite DC in N8. pose proof (cx_Q1 c W) as Q1.
  unfold ftest_pack_and_construct. rewrite EP. cbn [bind].
  destruct (C30_keygen_lem pr P wsk B ltac:(lia) HW) as [sk [ES _]]. rewrite ES. cbn [bind].
  destruct (l1_generated pr P wsk sk B ltac:(lia) HW ES) as [SP [SO SL]]. rewrite D1 in SL. assert (SK : sk_of P sk) by (split; auto).
  pose proof L as L'. unfold level in L'. rewrite L'. cbn [bind].
  destruct SO as [S1 S2]. rewrite SP in S2. rewrite (sk_ntt_ok pr P 0 c LV) by (auto; rewrite DC, <- D1; auto). cbn [bind].
  assert (SO : sk_ok sk) by (split; [auto|rewrite SP; auto]).
  assert (B64 : 0 <= b < 2 ^ 64) by (change (2 ^ 64) with 18446744073709551616; clear - Hb; lia).
  rewrite (rep_from_u64 pr c W [b; 0; 1; 0]) by (try (cbn [length]; lia); repeat constructor; auto; lia). cbn [bind]. rewrite change_fwd by auto. cbn [bind].
  destruct (eval_build_ok pr P c sk WB LV rnd rk0 rk1 SK ltac:(lia) HM RK RK0 RK1 ltac:(right; lia)) as [ev [EE [GK [e0 [e1 [K0 [K1 [NK0 NK1]]]]]]]]. rewrite EE. cbn [bind].
  pose proof (wr_gl _ _ (wl_rns _ W)) as GL. fold (cx_k c) in GL. rewrite GL.
  destruct (C85_x_pows_lem pr P 0 c ev [] B L) as [xs [EXP [_ [XO _]]]].
  assert (KB0 : 0 <= ks_bound c (2 * bp_variance P)) by (apply (ks_bound_nonneg P c sk LV); lia).
  set (n0 := rq_degree c) in *. set (s := sk_fun sk) in *. set (q := fun j => nth j [b; 0; 1; 0] 0) in *.
  set (G := fun k => nth k (rns_garner (rq_rns c)) 0).
  destruct (mapM_choice (fun i => g <- get (rns_garner (rq_rns c)) i ;; qp <- poly_mul_big pr (rep c Ntt q) g ;;
                       ct <- encrypt_poly pr sk qp (re_rows (rs i)) (re_words (rs i)) ;; unpack_fixed pr ev ct)
    (fun k u => (k < cx_k c)%nat -> exists x : (nat -> Z) * (nat -> Z) * (nat -> Z), get u 0 = Ok (ct_of P 0 c [fst (fst x); snd (fst x)])
       /\ forall l, (l < n0)%nat -> phase n0 s [fst (fst x); snd (fst x)] l mod cx_Q c = (G k * cst b l + snd x l) mod cx_Q c
            /\ Z.abs (snd x l) <= 2 * bp_variance P + expand_noise P c) [] 0 (cx_k c)) as [un [EU [LU HU]]].
  { intros k Hk. rewrite Nat.add_0_l. rewrite (get_ok _ k 0) by lia. cbn [bind]. fold (G k). rewrite rep_mul_big by auto. cbn [bind]. destruct (RS k) as [A1 A2].
    destruct (encrypt_poly_ok pr P 0 c LV sk (fun j => G k * q j) (re_rows (rs k)) (re_words (rs k)) SK A1 ltac:(lia) A2) as [f0 [f1 [e [E1 [_ [He HP]]]]]]. rewrite E1. cbn [bind].
    destruct (C85_x_pows_lem pr P 0 c ev [rep c Ntt f0; rep c Ntt f1] B L) as [xs' [EX' [_ [_ EF]]]]. rewrite EXP in EX'. apply Ok_inj in EX'. subst xs'. rewrite EF.
    destruct (unpack_core_ok pr P 0 c s LV ev xs f0 f1 _ KB0 GK XO) as [bits [E2 [L2 H2]]]. change (mkCt P [rep c Ntt f0; rep c Ntt f1] 0) with (ct_of P 0 c [f0; f1]). exists bits. split; [exact E2|]. intros _.
    destruct (H2 0%nat ltac:(fold n0; lia)) as [g0 [g1 [w [E3 H3]]]]. exists (g0, g1, fun l => cst (e 0%nat) l + w l). cbn [fst snd]. split.
    - rewrite (get_ok _ 0 (mkCt P [] 0)) by (rewrite L2; fold n0; lia). f_equal. exact E3.
    - intros l Hl. destruct (H3 l Hl) as [H4 H5]. split.
      + change (eqm (cx_Q c) (phase n0 s [g0; g1] l) (G k * cst b l + (cst (e 0%nat) l + w l))). eapply eqm_trans; [exact H4|].
        rewrite <- (lv_n _ _ _ LV) in HP. fold n0 s in HP. fold n0. rewrite (HP 0%nat ltac:(lia)). change (q 0%nat) with b. unfold cst. destruct (l =? 0)%nat; apply f_equal2; ring.
      + unfold expand_noise. fold n0. fold n0 in H5. pose proof (He 0%nat). clear - H H5 D3. unfold cst. destruct (l =? 0)%nat; lia. }
  rewrite EU. cbn [bind].
  assert (HC : forall k, (k < cx_k c)%nat -> exists x : (nat -> Z) * (nat -> Z) * (nat -> Z), get (nth k un []) 0 = Ok (ct_of P 0 c [fst (fst x); snd (fst x)])
       /\ forall l, (l < n0)%nat -> phase n0 s [fst (fst x); snd (fst x)] l mod cx_Q c = (G k * cst b l + snd x l) mod cx_Q c
            /\ Z.abs (snd x l) <= 2 * bp_variance P + expand_noise P c) by (intros k Hk; apply (HU k Hk Hk)).
  destruct (fin_choice (fun _ => 0, fun _ => 0, fun _ => 0) _ _ HC) as [x Hx]. clear HC HU.
  set (Be := 2 * bp_variance P + expand_noise P c) in *. set (S := 32 * Z.of_nat n). set (Bs := S * Be + 2 * ks_bound c (2 * bp_variance P)).
  assert (X0 : 0 <= expand_noise P c) by (unfold expand_noise; apply Z.mul_nonneg_nonneg; [fold n0; lia|auto]).
  assert (Be0 : 0 <= Be) by (unfold Be; lia).
  set (ee := fun k l => if ((k <? cx_k c) && (l <? n0))%nat then snd (x k) l else 0).
  destruct (build_rgsw_ok pr P c LV (ev_sk_rgsw ev) s e0 e1 (fun k => fst (fst (x k))) (fun k => snd (fst (x k))) G (cst b) ee Be Bs S (2 * bp_variance P) un 0) as [rg [ERG HRG]]; auto.
  { lia. }
  { exact (gadget_garner P 0 c LV). }
  { intros k j Hk Hj. destruct (Hx k Hk) as [_ H]. unfold ee. pose proof Hk as Hk'. pose proof Hj as Hj'. apply Nat.ltb_lt in Hk', Hj'. fold n0 in Hj'. rewrite Hk', Hj'. cbn [andb]. apply H. exact Hj. }
  { intros k j. unfold ee. destruct (Nat.ltb_spec k (cx_k c)) as [Hk|]; [|cbn [andb]; rewrite Z.abs_0; auto]. destruct (Nat.ltb_spec j n0) as [Hj|]; [|cbn [andb]; rewrite Z.abs_0; auto].
    cbn [andb]. apply (Hx k Hk). auto. }
  { fold n0. rewrite DC. exact SL. }
  { rewrite (list_seq un [] (cx_k c)) by auto. apply mapM_seq. intros k Hk. apply (Hx k Hk). }
  rewrite ERG. cbn [bind].
  rewrite (rep_from_u64 pr c W [b]) by (try (cbn [length]; fold n0; lia); repeat constructor; auto; lia). cbn [bind]. rewrite change_fwd by auto. cbn [bind].
  destruct (rgsw_poly_ok pr P 0 c WB LV sk (fun j => nth j [b] 0) ri0 ri1 SK ltac:(lia) RI0 RI1) as [rgi [d0 [d1 [EI [KI0 [KI1 [NI0 NI1]]]]]]]. rewrite EI. cbn [bind].
  unfold pt_new. rewrite copy_prefix_pad by lia. cbn [bind]. rewrite D1. set (mv := m ++ repeat 0 (n - length m)).
  assert (HV64 : Forall (fun x => 0 <= x < 2 ^ 64) mv).
  { apply Forall_app. split; [eapply Forall_impl; [|exact HV]; cbv beta; intros y Hy; change (2 ^ 64) with 18446744073709551616; clear - Hy; lia|].
    apply Forall_forall. intros y Hy. apply repeat_spec in Hy. subst y. lia. }
  assert (LMV : length mv = n) by (unfold mv; rewrite app_length, repeat_length; lia).
  destruct (fresh_carried pr P c sk (mkPt P 0 EncPoly mv) (re_rows r1) (re_words r1) B L SP SO ltac:(lia) eq_refl eq_refl HV64 ltac:(cbn [pt_values]; lia) R1 R2) as [ct [E1 [f0 [f1 [E [ECT [HCC HB]]]]]]].
  rewrite E1. cbn [bind]. rewrite ECT. destruct (HRG f0 f1) as [h0 [h1 [w [EH HH]]]]. rewrite EH. cbn [bind].
  destruct (external_ok pr P 0 c LV rgi s (fun j => nth j [b] 0) d0 d1 f0 f1 KI0 KI1) as [i0 [i1 [EHI HHI]]]. rewrite EHI. cbn [bind].
  set (Wb := ks_bound c Be + ks_bound c Bs) in *.
  assert (S0 : 0 <= S) by (unfold S; clear; lia).
  assert (Bs0 : 0 <= Bs) by (unfold Bs; apply Z.add_nonneg_nonneg; [apply Z.mul_nonneg_nonneg; auto|lia]).
  assert (KM : forall x y, 0 <= x <= y -> ks_bound c x <= ks_bound c y).
  { intros y z Hyz. unfold ks_bound. apply Z.mul_le_mono_nonneg_r; [apply sumn_nonneg; intros i Hi; pose proof (cx_range c W i Hi); lia|]. apply Z.mul_le_mono_nonneg_l; lia. }
  assert (S1' : 1 <= S) by (unfold S; clear - Hn; lia).
  assert (WI : ks_bound c (2 * bp_variance P) + ks_bound c (2 * bp_variance P) <= Wb).
  { unfold Wb. apply Z.add_le_mono; apply KM; (split; [lia|]); [unfold Be; lia|]. unfold Bs. assert (1 * Be <= S * Be) by (apply Z.mul_le_mono_nonneg_r; auto). unfold Be in *. lia. }
  assert (NB : 2 ^ 54 * (2 * (b * fresh_noise P + bp_t P * Wb)) <= (2 ^ 54 - 1) * cx_Q c).
  { pose proof (HN 1%nat 1%nat 1%nat S (2 ^ 64)) as X. assert (H32 : 0 <= S <= 2 ^ 17) by (unfold S; change (2 ^ 17) with 131072; clear - Hn2; lia).
    specialize (X H32 ltac:(clear; lia) ltac:(lia) ltac:(lia)). unfold retrieval_noise in X. fold Be in X. fold Bs in X. fold Wb in X.
    assert (FN : b * fresh_noise P <= Z.of_nat n0 * ((bp_t P * (2 * bp_variance P + 2) + bp_t P * expand_noise P c) * 2 ^ 64)).
    { unfold fresh_noise. assert (F0 : 0 <= bp_t P * (2 * bp_variance P + 2)) by (rewrite D2, D3; lia). assert (F1 : 0 <= bp_t P * expand_noise P c) by (apply Z.mul_nonneg_nonneg; [rewrite D2; lia|auto]).
      apply Z.le_trans with (1 * ((bp_t P * (2 * bp_variance P + 2) + bp_t P * expand_noise P c) * 2 ^ 64)).
      - rewrite Z.mul_1_l. rewrite Z.mul_comm. apply Z.mul_le_mono_nonneg; lia.
      - apply Z.mul_le_mono_nonneg_r; [apply Z.mul_nonneg_nonneg; lia|]. clear - N8 DC. lia. }
    fold n0 in X. change (Z.of_nat 1) with 1 in X. rewrite !Z.mul_1_l in X. revert X FN Q1. generalize (b * fresh_noise P) (Z.of_nat n0 * ((bp_t P * (2 * bp_variance P + 2) + bp_t P * expand_noise P c) * 2 ^ 64)) (bp_t P * Wb) (cx_Q c).
    clear. intros u v t Q X F Q1. change (2 ^ 54) with 18014398509481984. lia. }
  assert (EN : n0 = bp_degree P) by (rewrite D1; exact DC). cbv zeta in HH. unfold n0 in EN. change n0 with (rq_degree c) in HH, HHI. rewrite EN in HH, HHI. unfold s in HH, HHI.
  rewrite (scaled_decrypt pr P c sk b f0 f1 h0 h1 (coeffs mv) E w (fresh_noise P) Wb B L SP SO SB Hq HCC HB HH ltac:(lia) NB). cbn [bind].
  rewrite (scaled_decrypt pr P c sk b f0 f1 i0 i1 (coeffs mv) E (fun j => ks_noise c d0 f1 j + ks_noise c d1 f0 j) (fresh_noise P) Wb B L SP SO SB Hq HCC HB); [|..|lia|exact NB].
  - cbn [bind pt_values]. rewrite zlist_refl. cbn [rassert bind]. f_equal. rewrite D1, D2. rewrite (list_seq mv 0 n) at 1 by auto. rewrite map_map. reflexivity.
  - intros j Hj. split.
    + specialize (HHI j Hj). unfold eqm in HHI. rewrite HHI.
      rewrite (rmul_ext (bp_degree P) (fun j => nth j [b] 0) (cst b) _ (phase (bp_degree P) (sk_fun sk) [f0; f1])); auto. intros i _. unfold cst. destruct i as [|[|i]]; reflexivity.
    + pose proof (ks_noise_bound P 0 c LV d0 (2 * bp_variance P) f1 j ltac:(rewrite EN; exact Hj) ltac:(lia) ltac:(auto)) as Y1.
      pose proof (ks_noise_bound P 0 c LV d1 (2 * bp_variance P) f0 j ltac:(rewrite EN; exact Hj) ltac:(lia) ltac:(auto)) as Y2. lia.
Qed.

(** ** The noise measurement *)
Lemma measure_range pr Q l : 1 <= Q < 2 ^ 248 -> Forall (fun x => 0 <= x < Q) l ->
  mapM (fun coeff => d <- sub64 pr (bitlen Q) (bitlen coeff) ;; Ok (Z.min (bitlen coeff) d)) l = Ok (map (fun x => Z.min (bitlen x) (bitlen Q - bitlen x)) l)
  /\ Forall (fun x => 0 <= x <= 124) (map (fun x => Z.min (bitlen x) (bitlen Q - bitlen x)) l).
Proof.
  intros HQ HF. assert (BQ : bitlen Q <= 248) by (apply bitlen_le; lia).
  assert (BX : forall x, In x l -> 0 <= bitlen x <= bitlen Q).
  { intros x Hx. rewrite Forall_forall in HF. specialize (HF x Hx). split; [apply PUtils.bitlen_nonneg|]. apply bitlen_mono. lia. }
  split.
  - apply mapM_ok. intros x Hx. specialize (BX x Hx). rewrite sub64_ok by (change W64 with (2 ^ 64); clear - BX BQ; change (2 ^ 64) with 18446744073709551616; lia). reflexivity.
  - apply Forall_forall. intros y Hy. apply in_map_iff in Hy. destruct Hy as [x [<- Hx]]. specialize (BX x Hx). clear - BX BQ. lia.
Qed.
Lemma big_Q pr env n P c : env_exact env -> (1 <= n)%nat -> Z.of_nat n <= 4096 -> eval_test_params pr env [62; 62; 62; 62] n = Ok P -> level P 0 c ->
  2 ^ 244 <= cx_Q c < 2 ^ 248 /\ 0 <= expand_noise P c <= Z.of_nat n * Z.of_nat n * 20 * 2 ^ 64 - 20.
Proof.
  intros EX Hn Hn2 EP L. destruct (eval_facts pr env [62; 62; 62; 62] n P c EX ltac:(lia) ltac:(repeat constructor; lia) EP L) as [B [D1 [D2 [D3 [D4 [LV [DC [MC F]]]]]]]].
  destruct (big_facts pr env n P c EX Hn Hn2 EP L) as [HM [FC [EK [SB [Hq HN]]]]]. pose proof (cx_n8 c (wf_ctx_loc _ (lv_wf _ _ _ LV))) as N8. rewrite DC in N8.
  assert (X : exists q0 q1 q2 q3, rq_moduli_64 c = [q0; q1; q2; q3]).
  { unfold cx_k in EK. destruct (rq_moduli_64 c) as [|q0 [|q1 [|q2 [|q3 [|? ?]]]]]; try discriminate. exists q0, q1, q2, q3. auto. }
  destruct X as [q0 [q1 [q2 [q3 EM]]]]. rewrite EM in FC. change (2 ^ 61) with 2305843009213693952 in FC. change (2 ^ 62) with 4611686018427387904 in FC.
  apply Forall_cons_iff in FC. destruct FC as [H0 FC]. apply Forall_cons_iff in FC. destruct FC as [H1 FC]. apply Forall_cons_iff in FC. destruct FC as [H2 FC]. apply Forall_cons_iff in FC. destruct FC as [H3 _]. clear F.
  assert (EQ : cx_Q c = q0 * (q1 * (q2 * q3))) by (unfold cx_Q; rewrite EM; unfold zprod; cbn [fold_right]; ring).
  assert (ES : sumn (cx_k c) (fun i => cx_q c i) = q0 + q1 + q2 + q3) by (rewrite EK; cbn [sumn]; unfold cx_q; rewrite EM; cbn [nth]; ring).
  split.
  - rewrite EQ. clear - H0 H1 H2 H3. 
    assert (A1 : 2305843009213693952 * 2305843009213693952 <= q2 * q3 < 4611686018427387904 * 4611686018427387904) by (split; [apply Z.mul_le_mono_nonneg; lia|apply Z.mul_lt_mono_nonneg; lia]).
    assert (A2 : 2305843009213693952 * (2305843009213693952 * 2305843009213693952) <= q1 * (q2 * q3) < 4611686018427387904 * (4611686018427387904 * 4611686018427387904)) by (split; [apply Z.mul_le_mono_nonneg; lia|apply Z.mul_lt_mono_nonneg; lia]).
    change (2 ^ 244) with (2305843009213693952 * (2305843009213693952 * (2305843009213693952 * 2305843009213693952))).
    change (2 ^ 248) with (4611686018427387904 * (4611686018427387904 * (4611686018427387904 * 4611686018427387904))).
    split; [apply Z.mul_le_mono_nonneg; lia|apply Z.mul_lt_mono_nonneg; lia].
  - unfold expand_noise, ks_bound. rewrite DC, ES, D3. clear - H0 H1 H2 H3 N8 Hn2. change (2 ^ 64) with 18446744073709551616.
    set (N := Z.of_nat n) in *. assert (8 <= N) by (unfold N; lia). clearbody N. set (q := q0 + q1 + q2 + q3). assert (Hq : 0 <= q <= 18446744073709551616) by (unfold q; lia). clearbody q. clear - H Hn2 Hq.
    assert (A1 : 0 <= N * (2 * 10) * q <= N * 20 * 18446744073709551616) by (split; [apply Z.mul_nonneg_nonneg; lia|apply Z.mul_le_mono_nonneg; lia]).
    assert (A2 : 0 <= (N - 1) * (N * (2 * 10) * q) <= (N - 1) * (N * 20 * 18446744073709551616)) by (split; [apply Z.mul_nonneg_nonneg; lia|apply Z.mul_le_mono_nonneg_l; lia]).
    split; [lia|]. eapply Z.le_trans; [apply A2|]. replace (N * N * 20 * 18446744073709551616) with (N * (N * 20 * 18446744073709551616)) by ring. lia.
Qed.

Lemma decomp_run pr env n P c wsk rnd rk0 rk1 vals r : env_exact env -> (1 <= n)%nat -> Z.of_nat n <= 4096 ->
  eval_test_params pr env [62; 62; 62; 62] n = Ok P -> level P 0 c ->
  (forall j, 0 <= wsk j < 2 ^ 64) -> (forall i, rnd_ok c (rnd i)) -> rnd_ok c rk0 -> rnd_ok c rk1 -> enc_ok c r ->
  (length vals <= n)%nat -> Forall (fun x => 0 <= x < 2 ^ 64) vals ->
  exists F W : nat -> nat -> Z, (forall j l, (j < n)%nat -> (l < n)%nat -> F j l mod cx_Q c = (cst (5 * nth j vals 0) l + W j l) mod cx_Q c /\ Z.abs (W j l) <= 20 + expand_noise P c)
    /\ forall rp vals0, rp <> NttShoup -> length vals0 = n -> Forall (fun x => 0 <= x < 2 ^ 64) vals0 ->
       ftest_unpack_decomp pr env rp n wsk rnd rk0 rk1 vals vals0 r
       = mapM (fun j => l <- poly_to_big (rep c rp (fun l => F j l - 5 * nth l [nth j vals0 0] 0)) ;;
                        mapM (fun coeff => d <- sub64 pr (bitlen (cx_Q c)) (bitlen coeff) ;; Ok (Z.min (bitlen coeff) d)) l) (seq 0 n).
Proof.
  intros EX Hn Hn2 EP L HW RK RK0 RK1 [R1 R2] HL HV.
  destruct (eval_facts pr env [62; 62; 62; 62] n P c EX ltac:(lia) ltac:(repeat constructor; lia) EP L) as [B [D1 [D2 [D3 [_ [LV [DC _]]]]]]].
  destruct (big_facts pr env n P c EX Hn Hn2 EP L) as [HM [FC [EK [SB [Hq HN]]]]].
  pose proof (built_params_wf P B) as WB. pose proof (wf_ctx_loc _ (lv_wf _ _ _ LV)) as W.
  pose proof (cx_n8 c W) as N8. rewrite DC in N8. pose proof (cx_Q1 c W) as Q1.
  destruct (C30_keygen_lem pr P wsk B ltac:(lia) HW) as [sk [ES [SP [SO _]]]]. assert (SK : sk_of P sk) by (split; auto).
  destruct (C85_x_pows_lem pr P 0 c (mkEval [] (mkRgsw (mkKsk P [] [] c c) (mkKsk P [] [] c c))) [] B L) as [xs [EXP [_ [XO _]]]].
  destruct (C42_expand_lem pr P c sk rnd rk0 rk1 xs B L SP SO ltac:(lia) HM ltac:(right; lia) RK RK0 RK1 XO) as [ev [EE HX]].
  destruct (encrypt_poly_ok pr P 0 c LV sk (fun j => 5 * nth j vals 0) (re_rows r) (re_words r) SK R1 ltac:(lia) R2) as [f0 [f1 [e [E1 [_ [He HP]]]]]].
  destruct (HX f0 f1) as [bits [EU [LU HU]]]. rewrite D1 in HU, LU, HP.
  assert (HC : forall j, (j < n)%nat -> exists x : (nat -> Z) * (nat -> Z) * (nat -> Z), get bits j = Ok (ct_of P 0 c [fst (fst x); snd (fst x)])
    /\ forall l, (l < n)%nat -> phase n (sk_fun sk) [fst (fst x); snd (fst x)] l mod cx_Q c = (cst (phase n (sk_fun sk) [f0; f1] j) l + snd x l) mod cx_Q c
         /\ Z.abs (snd x l) <= expand_noise P c) by (intros j Hj; destruct (HU j Hj) as [g0 [g1 [w H]]]; exists (g0, g1, w); exact H).
  destruct (fin_choice (fun _ => 0, fun _ => 0, fun _ => 0) _ _ HC) as [x Hx]. clear HC HU.
  exists (fun j => phase n (sk_fun sk) [fst (fst (x j)); snd (fst (x j))]), (fun j l => cst (e j) l + snd (x j) l). split.
  - intros j l Hj Hl. destruct (Hx j Hj) as [_ H]. destruct (H l Hl) as [H1 H2]. split.
    + rewrite H1. f_equal. rewrite HP by auto. unfold cst. destruct (l =? 0)%nat; ring.
    + specialize (He j). rewrite D3 in He. clear - He H2. unfold cst. destruct (l =? 0)%nat; lia.
  - intros rp vals0 HR L0 HV0. unfold ftest_unpack_decomp. rewrite EP. cbn [bind]. pose proof L as L'. unfold level in L'. rewrite L'. cbn [bind]. rewrite ES. cbn [bind]. rewrite EE. cbn [bind].
    rewrite (rep_from_u64 pr c W vals HV) by lia. cbn [bind]. rewrite change_fwd by auto. cbn [bind]. rewrite rep_mul_big by auto. cbn [bind]. rewrite E1. cbn [bind].
    destruct (C85_x_pows_lem pr P 0 c ev [rep c Ntt f0; rep c Ntt f1] B L) as [xs' [EX' [_ [_ EF]]]]. rewrite EXP in EX'. apply Ok_inj in EX'. subst xs'. rewrite EF.
    change (mkCt P [rep c Ntt f0; rep c Ntt f1] 0) with (ct_of P 0 c [f0; f1]). rewrite EU. cbn [bind].
    rewrite (list_seq bits (mkCt P [] 0) n) by auto. rewrite (list_seq vals0 0 n) at 1 by auto. rewrite combine_map_seq, mapM_comp. apply mapM_mapM_ext. intros j Hj. apply in_seq in Hj. cbn [fst snd].
    destruct (Hx j ltac:(lia)) as [EG _]. rewrite (get_ok _ j (mkCt P [] 0)) in EG by lia. apply Ok_inj in EG. rewrite EG. cbn [ct_of ct_cts map get nth_error bind].
    assert (V0 : Forall (fun x => 0 <= x < 2 ^ 64) [nth j vals0 0]) by (apply Forall_cons; [rewrite Forall_forall in HV0; apply HV0, nth_In; lia|apply Forall_nil]).
    rewrite (rep_from_u64 pr c W [nth j vals0 0] V0) by (cbn [length]; lia). cbn [bind]. rewrite change_fwd by auto. cbn [bind].
    rewrite rep_mul_big by auto. cbn [bind].
    destruct (C84_trial_lem pr P 0 c sk (fst (fst (x j))) (snd (fst (x j))) B L SP SO) as [g [ET HG]]. rewrite ET. cbn [bind]. rewrite rep_sub by auto. cbn [bind]. rewrite change_any by (auto; discriminate). cbn [bind].
    rewrite rns_product_Q by auto. rewrite (rep_ext c W rp (fun l => g l - 5 * nth l [nth j vals0 0] 0) (fun l => phase n (sk_fun sk) [fst (fst (x j)); snd (fst (x j))] l - 5 * nth l [nth j vals0 0] 0)); [reflexivity|].
    intros l Hl. rewrite HG by (rewrite D1, <- DC; auto). rewrite D1. reflexivity.
Qed.

Lemma to_big_any (pr : profile) c rp f : wf_loc c -> exists g, (forall j, 0 <= g j < cx_Q c) /\ poly_to_big (rep c rp f) = Ok (map g (seq 0 (rq_degree c))).
Proof.
  intros W. pose proof (rep_wf c W rp f) as [H1 H2]. 
  destruct (wf_rep pr c W (mkPoly c PowerBasis (p_rows (rep c rp f))) eq_refl) as [g [HG E]]; [split; auto|]. exists g. split; auto.
  change (poly_to_big (rep c rp f)) with (poly_to_big (mkPoly c PowerBasis (p_rows (rep c rp f)))). rewrite E. cbn [p_repr]. rewrite rep_to_big by auto. f_equal. apply map_ext. intros j. apply Z.mod_small, HG.
Qed.
Lemma mapM_forall {A B} (f : A -> outcome B) (R : B -> Prop) l : (forall x, In x l -> exists y, f x = Ok y /\ R y) -> exists ys, mapM f l = Ok ys /\ length ys = length l /\ Forall R ys.
Proof.
  induction l as [|x l IH]; intros H; [exists []; repeat split; constructor|]. destruct (H x (or_introl eq_refl)) as [y [E R0]]. destruct IH as [ys [E1 [L1 F1]]]; [intros z Hz; apply H; right; auto|].
  exists (y :: ys). cbn [mapM]. rewrite E. cbn [bind]. rewrite E1. cbn [bind length]. repeat split; auto.
Qed.

(** C89: the test [unpack_decomp] runs; it prints a number of bits for each of the n
    coefficients of each of the n differences, none above 124 (code: degree 8; the
    difference stays in the transformed representation). *)
Lemma C89_unpack_decomp_lem :
  forall pr env n P c wsk rnd rk0 rk1 vals vals0 r rp, env_exact env -> (1 <= n)%nat -> Z.of_nat n <= 4096 ->
    eval_test_params pr env [62; 62; 62; 62] n = Ok P -> level P 0 c ->
    (forall j, 0 <= wsk j < 2 ^ 64) -> (forall i, rnd_ok c (rnd i)) -> rnd_ok c rk0 -> rnd_ok c rk1 -> enc_ok c r ->
    (length vals <= n)%nat -> Forall (fun x => 0 <= x < 2 ^ 64) vals -> length vals0 = n -> Forall (fun x => 0 <= x < 2 ^ 64) vals0 -> rp <> NttShoup ->
    exists ls, ftest_unpack_decomp pr env rp n wsk rnd rk0 rk1 vals vals0 r = Ok ls /\ length ls = n
      /\ Forall (fun l => length l = n /\ Forall (fun x => 0 <= x <= 124) l) ls.
Proof.
  intros pr env n P c wsk rnd rk0 rk1 vals vals0 r rp EX Hn Hn2 EP L HW RK RK0 RK1 RE HL HV L0 HV0 HR.
  destruct (eval_facts pr env [62; 62; 62; 62] n P c EX ltac:(lia) ltac:(repeat constructor; lia) EP L) as [B [D1 [D2 [D3 [_ [LV [DC _]]]]]]]. pose proof (wf_ctx_loc _ (lv_wf _ _ _ LV)) as W.
  destruct (big_Q pr env n P c EX Hn Hn2 EP L) as [[Q1 Q2] _].
  destruct (decomp_run pr env n P c wsk rnd rk0 rk1 vals r EX Hn Hn2 EP L HW RK RK0 RK1 RE HL HV) as [F [V [_ HT]]]. rewrite (HT rp vals0 HR L0 HV0).
  match goal with |- context [mapM ?f (seq 0 n)] => destruct (mapM_forall f (fun l => length l = n /\ Forall (fun x => 0 <= x <= 124) l) (seq 0 n)) as [ls [E1 [E2 E3]]] end.
  - intros j Hj. destruct (to_big_any pr c rp (fun l => F j l - 5 * nth l [nth j vals0 0] 0) W) as [g [HG E]]. rewrite E. cbn [bind]. pose proof (cx_Q1 c W) as Q0.
    destruct (measure_range pr (cx_Q c) (map g (seq 0 (rq_degree c))) ltac:(lia)) as [E4 E5].
    { apply Forall_forall. intros y Hy. apply in_map_iff in Hy. destruct Hy as [i [<- _]]. apply HG. }
    rewrite E4. eexists. split; [reflexivity|]. split; [rewrite !map_length, seq_length; auto|exact E5].
  - exists ls. split; auto. split; [rewrite E2; apply seq_length|auto].
Qed.

(** C89: measured as intended, in the power basis and against the values that were
    encrypted, every printed number is at most the number of bits of
    20 n^2 2^64, which is 75 for the degree 8 of the test. *)
Lemma C89_unpack_decomp_noise_lem :
  forall pr env n P c wsk rnd rk0 rk1 vals r, env_exact env -> (1 <= n)%nat -> Z.of_nat n <= 4096 ->
    eval_test_params pr env [62; 62; 62; 62] n = Ok P -> level P 0 c ->
    (forall j, 0 <= wsk j < 2 ^ 64) -> (forall i, rnd_ok c (rnd i)) -> rnd_ok c rk0 -> rnd_ok c rk1 -> enc_ok c r ->
    length vals = n -> Forall (fun x => 0 <= x < 2 ^ 64) vals ->
    exists ls, ftest_unpack_decomp pr env PowerBasis n wsk rnd rk0 rk1 vals vals r = Ok ls /\ length ls = n
      /\ Forall (fun l => length l = n /\ Forall (fun x => 0 <= x <= Z.log2 (20 * Z.of_nat n * Z.of_nat n * 2 ^ 64) + 1) l) ls.
Proof.
  intros pr env n P c wsk rnd rk0 rk1 vals r EX Hn Hn2 EP L HW RK RK0 RK1 RE HL HV.
  destruct (eval_facts pr env [62; 62; 62; 62] n P c EX ltac:(lia) ltac:(repeat constructor; lia) EP L) as [B [D1 [D2 [D3 [_ [LV [DC _]]]]]]]. pose proof (wf_ctx_loc _ (lv_wf _ _ _ LV)) as W.
  destruct (big_Q pr env n P c EX Hn Hn2 EP L) as [[Q1 Q2] [X0 X1]]. set (Bd := 20 * Z.of_nat n * Z.of_nat n * 2 ^ 64).
  assert (HB : 20 + expand_noise P c <= Bd) by (unfold Bd; replace (20 * Z.of_nat n * Z.of_nat n * 2 ^ 64) with (Z.of_nat n * Z.of_nat n * 20 * 2 ^ 64) by ring; clear - X1; lia).
  assert (HB1 : 20 <= Bd) by (clear - HB X0; lia).
  assert (HB2 : Bd <= 2 ^ 93).
  { unfold Bd. change (2 ^ 93) with (20 * 4096 * 4096 * 2 ^ 64 + (2 ^ 93 - 20 * 4096 * 4096 * 2 ^ 64)). assert (Z.of_nat n * Z.of_nat n <= 4096 * 4096) by (apply Z.mul_le_mono_nonneg; lia). clear - H.
    change (2 ^ 64) with 18446744073709551616. change (2 ^ 93) with 9903520314283042199192993792. lia. }
  destruct (decomp_run pr env n P c wsk rnd rk0 rk1 vals r EX Hn Hn2 EP L HW RK RK0 RK1 RE ltac:(lia) HV) as [F [V [HF HT]]]. rewrite (HT PowerBasis vals ltac:(discriminate) HL HV).
  match goal with |- context [mapM ?f (seq 0 n)] => destruct (mapM_forall f (fun l => length l = n /\ Forall (fun x => 0 <= x <= Z.log2 Bd + 1) l) (seq 0 n)) as [ls [E1 [E2 E3]]] end.
  - intros j Hj. apply in_seq in Hj. rewrite rep_to_big by auto. cbn [bind]. pose proof (cx_Q1 c W) as Q0.
    destruct (measure_range pr (cx_Q c) (map (fun l => (F j l - 5 * nth l [nth j vals 0] 0) mod cx_Q c) (seq 0 (rq_degree c))) ltac:(clear - Q0 Q2; lia)) as [E4 E5].
    { apply Forall_forall. intros y Hy. apply in_map_iff in Hy. destruct Hy as [i [<- _]]. apply Z.mod_pos_bound. clear - Q0. lia. }
    rewrite E4. eexists. split; [reflexivity|]. split; [rewrite !map_length, seq_length; auto|].
    apply Forall_forall. intros y Hy. pose proof Hy as Hy0. rewrite Forall_forall in E5. specialize (E5 y Hy0). split; [apply E5|]. clear E5 Hy0.
    apply in_map_iff in Hy. destruct Hy as [z [<- Hz]]. apply in_map_iff in Hz. destruct Hz as [l [<- Hl]]. apply in_seq in Hl. rewrite DC in Hl.
    destruct (HF j l ltac:(lia) ltac:(lia)) as [H1 H2].
    assert (EV : (F j l - 5 * nth l [nth j vals 0] 0) mod cx_Q c = V j l mod cx_Q c).
    { rewrite <- Zminus_mod_idemp_l, H1, Zminus_mod_idemp_l. f_equal. unfold cst. destruct l as [|[|l]]; cbn [nth Nat.eqb]; ring. }
    rewrite EV. assert (HV2 : Z.abs (V j l) <= Bd) by (clear - H2 HB; lia). clear - HV2 HB1 HB2 Q1 Q2. set (v := V j l) in *. clearbody v. set (Q := cx_Q c) in *. clearbody Q. clearbody Bd.
    assert (BL : forall w, 0 <= w <= Bd -> bitlen w <= Z.log2 Bd + 1).
    { intros w Hw. unfold bitlen. pose proof (Z.log2_nonneg Bd). destruct (w =? 0); [lia|]. pose proof (Z.log2_le_mono w Bd ltac:(lia)). lia. }
    change (2 ^ 93) with 9903520314283042199192993792 in HB2.
    destruct (Z.leb_spec 0 v) as [Hv|Hv].
    + rewrite Z.mod_small. 2:{ split; [lia|]. apply Z.lt_le_trans with (2 ^ 244); [|exact Q1]. apply Z.le_lt_trans with 9903520314283042199192993792; [lia|reflexivity]. }
      pose proof (BL v ltac:(lia)). lia.
    + assert (EM : v mod Q = Q + v).
      { rewrite <- (Z.mod_add v 1 Q), Z.mul_1_l, Z.add_comm; [apply Z.mod_small|]; (assert (9903520314283042199192993792 < Q) by (apply Z.lt_le_trans with (2 ^ 244); [reflexivity|exact Q1])); lia. }
      rewrite EM. assert (B1 : 243 < bitlen (Q + v)).
      { apply bitlen_ge; [lia|]. apply Z.le_trans with (2 ^ 244 - 9903520314283042199192993792); [vm_compute; discriminate|]. clear - Q1 HB2 HV2 Hv. revert Q1. generalize (2 ^ 244). intros. lia. }
      assert (B2 : bitlen Q <= 248) by (apply bitlen_le; [lia|]; split; [clear - Q1; revert Q1; generalize (Z.pow_nonneg 2 244 ltac:(lia)); generalize (2 ^ 244); intros; lia|exact Q2]).
      assert (B3 : 4 <= Z.log2 Bd + 1 \/ Bd < 8) by (destruct (Z.leb_spec 8 Bd); [left; pose proof (Z.log2_le_mono 8 Bd ltac:(lia)) as X; change (Z.log2 8) with 3 in X; lia|right; lia]).
      destruct B3 as [B3|B3]; [clear - B1 B2 B3; lia|].
      exfalso. lia.
  - exists ls. split; auto. split; [rewrite E2; apply seq_length|auto].
Qed.

(** ** The tests with SIMD encoding *)
Lemma poly_test_im m pr P sk vals r : test_encrypt_decrypt_poly pr (with_index_map P m) (im_sk m sk) vals r = test_encrypt_decrypt_poly pr P sk vals r.
Proof.
  unfold test_encrypt_decrypt_poly. unfold pt_new. cbn [with_index_map bp_degree]. destruct (copy_prefix (repeat 0 (bp_degree P)) vals) as [v| | |]; cbn [bind]; auto.
  change (mkPt (with_index_map P m) 0 EncPoly v) with (im_pt m (mkPt P 0 EncPoly v)). rewrite im_encrypt, bind_omap. apply bind_ext. intros ct. rewrite im_decrypt, bind_omap. reflexivity.
Qed.
Section Simd8.
Variables (pr : profile) (env : Env) (P : BfvParams) (c : RqContext) (mq : list nat) (wsk : nat -> Z) (vals : list Z).
Hypotheses (EX : env_exact env) (EP : bfv_default pr env 6 8 (mkBD 4 8) = Ok P) (L : level P 0 c) (EM : index_map_fixed 8 = Ok mq)
  (HW : forall j, 0 <= wsk j < 2 ^ 64) (HL : length vals = 8%nat) (HV : Forall (fun x => 0 <= x < 1153) vals).
Notation P' := (with_index_map P mq).

Lemma simd8_run sk r rots gks e : sk_generate pr P wsk = Ok sk -> enc_ok c r ->
  Forall2 (fun rot gk => exists x g rnd, slot_galois 8 (fst rot) (snd rot) x /\ rnd_ok c rnd /\ subst_new pr c x = Ok g /\ galois_new pr (im_sk mq sk) g 0 rnd = Ok gk) rots gks ->
  e = Input 0 \/ (e = Rotate (Input 0) 0 /\ (0 < length rots)%nat) ->
  exists pt ct rlk, pt_new pr P' vals 0 EncSIMD = Ok pt /\ encrypt pr (im_sk mq sk) pt (re_rows r) (re_words r) = Ok ct
    /\ (ct' <- run_circ pr (mkKeys rlk gks [] []) [ct] e ;; p <- decrypt pr (im_sk mq sk) ct' ;; pt_decode pr (pt_set_encoding p EncSIMD))
       = Ok (map (fun j => slot_val 8 (mkSlotData [vals] [] rots []) e j mod 1153) (seq 0 8)).
Proof.
  intros ES [R1 R2] HG HE. destruct (def_facts pr env 6 P c EX ltac:(lia) EP L) as [B [D1 [D2 [D3 [D4 [WB [LV [W [DC [SB [Hq [HQ HKB]]]]]]]]]]]].
  destruct (def_key pr env 6 P c EX ltac:(lia) EP L wsk HW) as [sk' [ES' [SP [SO SL]]]]. rewrite ES in ES'. apply Ok_inj in ES'. subst sk'.
  destruct (default_level pr env 6 8 _ P 0 c EX ltac:(lia) EP L) as [_ [_ [_ [_ [ec HEC]]]]].
  set (zr := mkRnd (fun _ => p_rows (rep c Ntt (fun _ => 0))) (fun _ _ => 0)).
  assert (RZ : rnd_ok c zr) by (split; cbn [zr rnd_rows rnd_words]; [intros i _; exact (rep_wf c W Ntt (fun _ => 0))|intros; lia]).
  destruct (rlk_new_ok pr P 0 c LV sk zr (conj SP SO) ltac:(lia) RZ) as [rlk0 [_ [ER _]]].
  assert (SV : slot_vec P vals) by (split; [rewrite D1; auto|rewrite D2; auto]).
  destruct (fixed_simd P mq B ltac:(rewrite D1; exact EM)) as [Lg [psi [_ [En [_ [_ [HD HP]]]]]]].
  destruct (HP pr 0%nat vals ltac:(rewrite D1; lia) ltac:(rewrite D2; exact HV)) as [v [EPT [Lv [Rv _]]]]. rewrite D1 in Lv. rewrite D2 in Rv.
  destruct (fresh_carried pr P c sk (mkPt P 0 EncSIMD v) (re_rows r) (re_words r) B L SP SO ltac:(lia) eq_refl eq_refl (all64 _ Rv) ltac:(cbn [pt_values]; lia) R1 R2) as [ct [E1 _]].
  assert (E1' : encrypt pr (im_sk mq sk) (mkPt P' 0 EncSIMD v) (re_rows r) (re_words r) = Ok (im_ct mq ct)).
  { change (mkPt P' 0 EncSIMD v) with (im_pt mq (mkPt P 0 EncSIMD v)). rewrite im_encrypt, E1. reflexivity. }
  exists (mkPt P' 0 EncSIMD v), (im_ct mq ct), (im_rlk mq rlk0). split; [exact EPT|]. split; [exact E1'|].
  set (d := mkSlotData [vals] [] rots []).
  pose proof (C82_circuit_lem pr P mq c ec (im_sk mq sk) d (mkKeys (im_rlk mq rlk0) gks [] []) [mkPt P' 0 EncSIMD v] [im_ct mq ct] 160 e B ltac:(rewrite D1; exact EM)) as X. cbv zeta in X.
  rewrite D1, D2, D3 in X. apply X; clear X; auto.
  - cbn [im_sk sk_params]. rewrite SP. reflexivity.
  - lia.
  - rewrite D2 in Hq. exact Hq.
  - rewrite D1 in HEC. exact HEC.
  - change (2 ^ 54) with 18014398509481984. lia.
  - split; [exists zr; split; [exact RZ|]; cbn [ks_rlk]; rewrite im_rlk_new, ER; reflexivity|]. split; [|split; [constructor|constructor]]. cbn [d sl_rot ks_gks with_index_map bp_degree]. rewrite D1. exact HG.
  - constructor; [split; [exact SV|exact EPT]|constructor].
  - constructor; [|constructor]. exists (re_rows r), (re_words r). split; [exact R1|]. split; [exact R2|exact E1'].
  - destruct HE as [->|[-> HE]]; cbn [slot_fits d sl_in sl_rot length]; [lia|]. split; [lia|exact HE].
  - assert (N : slot_noise 8 1153 (1153 * (2 * 10 + 2)) 160 (ks_bound c (2 * 10)) e <= 1153 * 22 + 1153 * ks_bound c 20).
    { change (2 * 10) with 20. destruct HE as [->|[-> HE]]; cbn [slot_noise]; lia. }
    change (2 ^ (61 * Z.of_nat 6)) with (2 ^ 366) in HQ. assert (HQ2 : 2 ^ 100 <= cx_Q c) by (eapply Z.le_trans; [|exact HQ]; apply Z.pow_le_mono_r; lia).
    revert N HKB HQ2. generalize (slot_noise 8 1153 (1153 * (2 * 10 + 2)) 160 (ks_bound c (2 * 10)) e) (ks_bound c 20) (cx_Q c). clear. intros N K Q H1 H2 H3.
    change (2 ^ 100) with 1267650600228229401496703205376 in H3. change (2 ^ 54) with 18014398509481984. lia.
Qed.
End Simd8.

Lemma map_range pr env P : env_exact env -> bfv_default pr env 6 8 (mkBD 4 8) = Ok P -> exists mq, index_map_fixed 8 = Ok mq /\ mapped_default pr env 6 8 = Ok (with_index_map P mq).
Proof.
  intros EX EP. unfold mapped_default. rewrite EP. cbn [bind]. destruct (index_map_fixed 8) as [mq| | |] eqn:E; [|vm_compute in E; discriminate E..]. exists mq. auto.
Qed.
Lemma sk_generate_im m pr P w sk : sk_generate pr P w = Ok sk -> sk_generate pr (with_index_map P m) w = Ok (im_sk m sk).
Proof.
  unfold sk_generate. cbn [with_index_map bp_degree bp_variance]. intros H. apply bind_inv in H. destruct H as [l [-> H]]. apply Ok_inj in H. subst sk. reflexivity.
Qed.

(** C89: with the repaired slot map the test [encrypt_decrypt] passes for all values
    and all randomness. *)
Lemma C89_encrypt_decrypt_lem :
  forall pr env P c wsk vals r1 r2, env_exact env -> bfv_default pr env 6 8 (mkBD 4 8) = Ok P -> level P 0 c ->
    (forall j, 0 <= wsk j < 2 ^ 64) -> enc_ok c r1 -> enc_ok c r2 ->
    length vals = 8%nat -> Forall (fun x => 0 <= x < 1153) vals ->
    ftest_encrypt_decrypt pr env wsk vals r1 r2 = Ok tt.
Proof.
  intros pr env P c wsk vals r1 r2 EX EP L HW R1 R2 HL HV. destruct (map_range pr env P EX EP) as [mq [EM EMD]]. unfold ftest_encrypt_decrypt. rewrite EMD. cbn [bind].
  destruct (def_key pr env 6 P c EX ltac:(lia) EP L wsk HW) as [sk [ES _]]. rewrite (sk_generate_im mq pr P wsk sk ES). cbn [bind].
  rewrite poly_test_im, (C72_encrypt_decrypt_poly_lem pr env 6 P c wsk sk vals r1) by (auto; lia). cbn [bind].
  destruct (simd8_run pr env P c mq wsk vals EX EP L EM HW HL HV sk r2 [] [] (Input 0) ES R2 ltac:(constructor) ltac:(left; reflexivity)) as [pt [ct [rlk [E1 [E2 E3]]]]].
  unfold test_encrypt_decrypt_simd. rewrite E1. cbn [bind]. rewrite E2. cbn [bind]. cbn [run_circ get nth_error bind] in E3.
  apply bind_inv in E3. destruct E3 as [p [E3 E4]]. rewrite E3. cbn [bind]. rewrite E4. cbn [bind slot_val sl_in nth].
  unfold coeffs. rewrite allmod by auto. rewrite zlist_refl. reflexivity.
Qed.
(** C89: with the repaired slot map the test [simd_slot_rotations] prints the values
    and the values with the two rows swapped, which is what exponent 15 stands for. *)
Lemma C89_simd_slot_rotations_lem :
  forall pr env P c wsk v0 v1 v2 v3 v4 v5 v6 v7 r rk, env_exact env -> bfv_default pr env 6 8 (mkBD 4 8) = Ok P -> level P 0 c ->
    (forall j, 0 <= wsk j < 2 ^ 64) -> enc_ok c r -> rnd_ok c rk ->
    Forall (fun x => 0 <= x < 1153) [v0; v1; v2; v3; v4; v5; v6; v7] ->
    ftest_simd_slot_rotations pr env wsk [v0; v1; v2; v3; v4; v5; v6; v7] r rk
    = Ok ([v0; v1; v2; v3; v4; v5; v6; v7], [v4; v5; v6; v7; v0; v1; v2; v3]).
Proof.
  intros pr env P c wsk v0 v1 v2 v3 v4 v5 v6 v7 r rk EX EP L HW R1 RK HV. destruct (map_range pr env P EX EP) as [mq [EM EMD]]. unfold ftest_simd_slot_rotations. rewrite EMD. cbn [bind].
  destruct (def_facts pr env 6 P c EX ltac:(lia) EP L) as [B [D1 [D2 [D3 [D4 [WB [LV [W [DC [SB [Hq [HQ HKB]]]]]]]]]]]].
  destruct (def_key pr env 6 P c EX ltac:(lia) EP L wsk HW) as [sk [ES [SP [SO SL]]]]. rewrite (sk_generate_im mq pr P wsk sk ES). cbn [bind].
  destruct (C38_galois_lem pr P 0 c sk rk 15 B L SP SO ltac:(lia) RK ltac:(lia) eq_refl ltac:(lia) ltac:(rewrite D1; right; lia)) as [g [gk [ge [EG [EK _]]]]].
  assert (EK' : galois_new pr (im_sk mq sk) g 0 rk = Ok (im_gk mq gk)) by (rewrite im_galois_new, EK; reflexivity).
  destruct (simd8_run pr env P c mq wsk [v0; v1; v2; v3; v4; v5; v6; v7] EX EP L EM HW eq_refl HV sk r [(true, 0%nat)] [im_gk mq gk] (Rotate (Input 0) 0) ES R1) as [pt [ct [rlk [E1 [E2 E3]]]]].
  { constructor; [|constructor]. exists 15, g, rk. split; [split; [lia|reflexivity]|]. auto. }
  { right. cbn [length]. split; [reflexivity|lia]. }
  rewrite E1. cbn [bind]. rewrite E2. cbn [bind with_index_map bp_q_ctxs]. pose proof L as L'. unfold level in L'. rewrite L'. cbn [bind]. rewrite EG. cbn [bind]. rewrite EK'. cbn [bind].
  cbn [run_circ get nth_error bind ks_gks] in E3.
  apply bind_inv in E3. destruct E3 as [ct' [E3 E4]]. rewrite E3. cbn [bind]. apply bind_inv in E4. destruct E4 as [p [E4 E5]]. rewrite E4. cbn [bind]. rewrite E5. cbn [bind]. f_equal. f_equal.
  rewrite <- (allmod [v4; v5; v6; v7; v0; v1; v2; v3] 8); [reflexivity|reflexivity|].
  repeat match goal with H : Forall _ (_ :: _) |- _ => apply Forall_cons_iff in H; destruct H as [? H] end. repeat constructor; lia.
Qed.

(** ** Non-vacuity: the parameters of the tests exist *)
Lemma ev_primes50 x : ntt_prime 50 64 x -> 1125899906840833 <= x -> x = 1125899906840833.
Proof.
  assert (WK : walk (2 ^ 50 - 128 + 1) 128 [3; 229; 127; 3; 5; 7; 3; 2153; 4957; 3; 283; 4428869; 3; 0] [1125899906840833] = true) by (vm_compute; reflexivity).
  destruct (walk_sound 128 ltac:(lia) _ _ _ WK) as [_ [_ W3]]. change (2 ^ 50 - 128 + 1) with 1125899906842497 in *. change (1125899906842497 mod 128) with 1 in *. cbn [length] in W3. change (Z.of_nat 14) with 14 in *.
  intros [P1 [P2 P3]] HX. change (2 * Z.of_nat 64) with 128 in P3. change (2 ^ 50) with 1125899906842624 in P2.
  assert (I : In x [1125899906840833]) by (apply W3; auto; split; [lia|]; apply (below_top 128); auto; lia). destruct I as [I|[]]. auto.
Qed.
Lemma ev_primes55 x : ntt_prime 55 64 x -> 36028797018963457 <= x -> x = 36028797018963841 \/ x = 36028797018963457.
Proof.
  assert (WK : walk (2 ^ 55 - 128 + 1) 128 [0; 41; 3; 0] [36028797018963841; 36028797018963457] = true) by (vm_compute; reflexivity).
  destruct (walk_sound 128 ltac:(lia) _ _ _ WK) as [_ [_ W3]]. change (2 ^ 55 - 128 + 1) with 36028797018963841 in *. change (36028797018963841 mod 128) with 1 in *. cbn [length] in W3. change (Z.of_nat 4) with 4 in *.
  intros [P1 [P2 P3]] HX. change (2 * Z.of_nat 64) with 128 in P3. change (2 ^ 55) with 36028797018963968 in P2.
  assert (I : In x [36028797018963841; 36028797018963457]) by (apply W3; auto; split; [lia|]; apply (below_top 128); auto; lia). cbn [In] in I. lia.
Qed.
Lemma ev_ms_found pr : generate_moduli pr denv [50; 55; 55] 64 = Ok (Some trial_moduli).
Proof.
  assert (N0 : ntt_prime 50 64 1125899906840833) by (split; [apply tprime; vm_compute; reflexivity|split; [change (2 ^ (50 - 1)) with 562949953421312; change (2 ^ 50) with 1125899906842624; lia|reflexivity]]).
  assert (N1 : ntt_prime 55 64 36028797018963841) by (split; [apply tprime; vm_compute; reflexivity|split; [change (2 ^ (55 - 1)) with 18014398509481984; change (2 ^ 55) with 36028797018963968; lia|reflexivity]]).
  assert (N2 : ntt_prime 55 64 36028797018963457) by (split; [apply tprime; vm_compute; reflexivity|split; [change (2 ^ (55 - 1)) with 18014398509481984; change (2 ^ 55) with 36028797018963968; lia|reflexivity]]).
  assert (NN : forall x, ntt_prime 50 64 x -> x < 36028797018963457) by (intros x [_ [H _]]; change (2 ^ 50) with 1125899906842624 in H; lia).
  destruct (C26_generate_moduli_lem pr denv [50; 55; 55] 64 (proj1 denv_exact) ltac:(lia) ltac:(repeat constructor; lia)) as [[ms [E [ND [F HM]]]]|[E [s1 [size [s2 [ms [ES [ND [F HA]]]]]]]]].
  - rewrite E. do 2 f_equal. inversion F as [|? m0 ? ? M0 F1]; subst. inversion F1 as [|? m1 ? ? M1 F2]; subst. inversion F2 as [|? m2 ? ? M2 F3]; subst. inversion F3; subst. clear F F1 F2 F3.
    pose proof (HM 0%nat 1125899906840833 ltac:(cbn; lia) ltac:(cbn [nth]; exact N0) ltac:(cbn; tauto)) as H0. cbn [nth] in H0. pose proof (ev_primes50 m0 M0 H0) as E0. subst m0.
    pose proof (HM 1%nat 36028797018963841 ltac:(cbn; lia) ltac:(cbn [nth]; exact N1) ltac:(cbn [firstn In]; lia)) as H1. cbn [nth] in H1.
    inversion ND as [|? ? NI0 ND1]; subst. inversion ND1 as [|? ? NI1 _]; subst. cbn [In] in NI0, NI1.
    assert (E1 : m1 = 36028797018963841) by (destruct (ev_primes55 m1 M1); lia). subst m1.
    pose proof (HM 2%nat 36028797018963457 ltac:(cbn; lia) ltac:(cbn [nth]; exact N2) ltac:(cbn [firstn In]; lia)) as H2. cbn [nth] in H2.
    assert (E2 : m2 = 36028797018963457) by (destruct (ev_primes55 m2 M2); lia). subst m2. reflexivity.
  - exfalso. destruct s1 as [|a s1]; [|destruct s1 as [|b s1]; [|destruct s1 as [|d s1]]]; cbn [app] in ES.
    + inversion F; subst ms. injection ES as E1 E2. subst size. destruct (HA _ N0).
    + injection ES as Ea E1 E2. subst size a. inversion F as [|? m0 ? ? M0 F1]; subst. inversion F1; subst.
      destruct (HA _ N1) as [H|[]]. apply NN in M0. lia.
    + injection ES as Ea Eb E1 E2. subst size a b. inversion F as [|? m0 ? ? M0 F1]; subst. inversion F1 as [|? m1 ? ? M1 F2]; subst. inversion F2; subst.
      destruct (HA _ N1) as [H|[H|[]]]; destruct (HA _ N2) as [H'|[H'|[]]]; apply NN in M0; lia.
    + apply (f_equal (@length Z)) in ES. cbn [length] in ES. rewrite app_length in ES. cbn [length] in ES. lia.
Qed.
Lemma root64 : forallb (fun q => root_find 100 q 0) (dprimes 64) = true.
Proof. vm_compute. reflexivity. Qed.
Lemma root_t : draws_root denv 1785857.
Proof. apply (root_find_sound 1785857 ltac:(lia) 100 0); [lia|]. vm_compute. reflexivity. Qed.
Lemma ev_small_exists pr : exists P c, eval_test_params pr denv [50; 55; 55] 64 = Ok P /\ level P 0 c.
Proof.
  destruct (bfv_new_away' pr 64 1785857 trial_moduli 10 (mkBD 4 8)) as [P [c [E [L W]]]]; [unfold ddeg; auto|discriminate|cbn; lia|unfold trial_moduli; repeat constructor; cbn [In]; lia|vm_compute; reflexivity|vm_compute; reflexivity|exact root64|].
  exists P, c. split; [|exact L]. unfold eval_test_params. rewrite ev_ms_found. cbn [bind unwrap]. exact E.
Qed.
Lemma ev_big_exists pr : exists P c, eval_test_params pr denv [62; 62; 62; 62] 64 = Ok P /\ level P 0 c.
Proof.
  change (exists P c, bfv_default_with pr denv 1785857 4 64 (mkBD 4 8) = Ok P /\ level P 0 c). assert (Hn : ddeg 64) by (unfold ddeg; auto). destruct (dprimes_ok 64 Hn) as [LL [FL [SL HL]]].
  assert (LP : largest_primes 64 (dprimes 64)) by (split; [auto|split; [auto|]]; intros x Hx H; rewrite last_nth, LL in H; apply HL; auto).
  destruct (C88_default_lem pr denv 1785857 4 64 (mkBD 4 8) (firstn 9 (dprimes 64)) denv_exact) as [P [E [_ [_ [_ [_ HC]]]]]].
  - apply tprime. vm_compute. reflexivity.
  - change (2 ^ 61) with 2305843009213693952. lia.
  - reflexivity.
  - exists 6%nat. split; [lia|reflexivity].
  - lia.
  - lia.
  - apply firstn_largest; [lia|exact LP].
  - apply firstn_length_le. rewrite LL. lia.
  - exact root_t.
  - apply Forall_forall. intros q Hq. apply firstn_in in Hq. pose proof root64 as C. rewrite forallb_forall in C. specialize (C q Hq). rewrite Forall_forall in FL. pose proof (np_range _ _ (FL q Hq)) as R.
    apply (root_find_sound q ltac:(lia) 100 0); [lia|exact C].
  - destruct (HC 0%nat ltac:(lia)) as [c [e [L _]]]. exists P, c. auto.
Qed.
Lemma ev_rnd P c : wf_level P 0 c -> exists r rk, enc_ok c r /\ rnd_ok c rk.
Proof.
  intros LV. pose proof (wf_ctx_loc _ (lv_wf _ _ _ LV)) as W. exists (mkRndEnc (p_rows (rep c Ntt (fun _ => 0))) (fun _ => 7)), (mkRnd (fun _ => p_rows (rep c Ntt (fun _ => 0))) (fun _ _ => 7)).
  split; split; cbn [re_rows re_words rnd_rows rnd_words]; intros; try exact (rep_wf c W Ntt (fun _ => 0)); lia.
Qed.
Lemma ev_hyps pr : (exists P c r rk, eval_test_params pr denv [50; 55; 55] 64 = Ok P /\ level P 0 c /\ enc_ok c r /\ rnd_ok c rk)
  /\ (exists P c r rk, eval_test_params pr denv [62; 62; 62; 62] 64 = Ok P /\ level P 0 c /\ enc_ok c r /\ rnd_ok c rk).
Proof.
  split; [destruct (ev_small_exists pr) as [P [c [E L]]]; destruct (eval_facts pr denv [50; 55; 55] 64 P c denv_exact ltac:(lia) ltac:(repeat constructor; lia) E L) as [_ [_ [_ [_ [_ [LV _]]]]]]
         |destruct (ev_big_exists pr) as [P [c [E L]]]; destruct (eval_facts pr denv [62; 62; 62; 62] 64 P c denv_exact ltac:(lia) ltac:(repeat constructor; lia) E L) as [_ [_ [_ [_ [_ [LV _]]]]]]];
    destruct (ev_rnd P c LV) as [r [rk [R1 R2]]]; exists P, c, r, rk; auto.
Qed.

(*EXAMPLE
(** The hypotheses of the theorems on the evaluation tests hold together at degree
    64, and the theorems say there what the tests print. *)
Example C89_params_example pr : env_exact denv
  /\ (exists P c r rk, eval_test_params pr denv [50; 55; 55] 64 = Ok P /\ level P 0 c /\ enc_ok c r /\ rnd_ok c rk)
  /\ (exists P c r rk, eval_test_params pr denv [62; 62; 62; 62] 64 = Ok P /\ level P 0 c /\ enc_ok c r /\ rnd_ok c rk).
Proof. split; [exact denv_exact|exact (ev_hyps pr)]. Qed.
Example C89_unpack_example pr : exists r rk, ftest_unpack pr denv 64 (fun _ => 7) [3; 5] r (fun _ => rk) rk rk = Ok ([3; 5], [3; 5] ++ repeat 0 62, 0%nat).
Proof.
  destruct (ev_hyps pr) as [[P [c [r [rk [E [L [R1 R2]]]]]]] _]. exists r, rk.
  apply (C89_unpack pr denv 64 P c (fun _ => 7) [3; 5] r (fun _ => rk) rk rk denv_exact); auto; try lia; [cbn [length]; lia|repeat constructor; lia].
Qed.
(** The database of the test [query]: the entry at (3, 1, 0) is the seventh. *)
Example C89_query_example pr : exists r rk, ftest_query pr denv 64 (fun i => repeat (Z.of_nat i) 4) 3 1 0 (fun _ => 7) r rk (fun _ => rk) rk rk = Ok (1%nat, [7; 7; 7; 7] ++ repeat 0 60).
Proof.
  destruct (ev_hyps pr) as [_ [P [c [r [rk [E [L [R1 R2]]]]]]]]. exists r, rk.
  apply (C89_query pr denv 64 P c (fun i => repeat (Z.of_nat i) 4) 3 1 0 (fun _ => 7) r rk (fun _ => rk) rk rk denv_exact); auto; try lia.
  intros i Hi. cbn [repeat length]. split; [lia|repeat constructor; lia].
Qed.
Example C89_encrypt_decrypt_example pr : exists r rk,
  ftest_encrypt_decrypt pr denv (fun _ => 7) [0; 1; 2; 3; 4; 5; 6; 7] r r = Ok tt
  /\ ftest_simd_slot_rotations pr denv (fun _ => 7) [0; 1; 2; 3; 4; 5; 6; 7] r rk = Ok ([0; 1; 2; 3; 4; 5; 6; 7], [4; 5; 6; 7; 0; 1; 2; 3]).
Proof.
  destruct (test_params pr 6 ltac:(lia)) as [P [c [r [rk [_ [EX [EP [L [R1 [R2 _]]]]]]]]]]. exists r, rk. split.
  - apply (C89_encrypt_decrypt pr denv P c); auto; [lia|repeat constructor; lia].
  - apply (C89_simd_slot_rotations pr denv P c); auto; [lia|repeat constructor; lia].
Qed.
EXAMPLE*)
