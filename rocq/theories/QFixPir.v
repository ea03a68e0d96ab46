(** Claim C85: retrieval once the defects of src/evaluations.rs are repaired. *)
From Verif Require Import PBase NT Spec PSum MModulus MUtils MNtt MRns MRq MBfv MKsk MGalois MRgsw MEval MFix3 PModulus PUtils PNttMath PNtt PNttNew PCrt PRns PRnsScale PUtils2 SpecRq SpecBfv SpecKsk SpecEval PRing PRq PRq2 PRq3 PRq4 PRq5 TestEnv QRq PBfv PBfv2 PBfv3 QBfv PKsk PGal PKsk2 PRingT PExpand PEval PEval2 PAsm PFold PFold2 PClient PRetr TestBfv TestEval QEval SpecAddr QAddr MSwitch SpecDef SpecSwitch PDefData PDef QDef QSwitch QKsk QBudget.

(** ** The monomials *)
(** C85: the repaired [gen_x_pows] returns the monomials X^(-2^i), so the repaired
    [unpack] is the expansion of C42 with them. *)
Lemma gen_x_pows_fixed_ok pr c : wf_loc c ->
  gen_x_pows_fixed pr (rq_degree c) c = Ok (map (fun i => rep c PowerBasis (xinv (rq_degree c) (2 ^ i))) (seq 0 (cx_L c))).
Proof.
  intros W. unfold gen_x_pows_fixed. rewrite (ilog2_n pr c W). cbn [bind]. rewrite Nat2Z.id.
  apply mapM_ok. intros i Hi. apply in_seq in Hi.
  assert (HP : (2 ^ i < rq_degree c)%nat) by (rewrite (wl_n _ W); apply Nat.pow_lt_mono_r; lia).
  assert (H1 : (1 <= 2 ^ i)%nat) by (pose proof (Nat.pow_nonzero 2 i); lia).
  pose proof (pow2_small (cx_L c) ltac:(pose proof (wl_L _ W); lia)) as B. rewrite <- (wl_n _ W) in B.
  replace (2 ^ Z.of_nat i) with (Z.of_nat (2 ^ i)) by (rewrite Nat2Z.inj_pow; reflexivity).
  rewrite sub64_ok by (change W64 with (2 ^ 64); lia). cbn [bind].
  rewrite <- Nat2Z.inj_sub by lia. rewrite Nat2Z.id.
  rewrite (rep_from_u64 pr c W).
  - cbn [bind]. rewrite rep_neg by auto. f_equal. apply rep_ext; auto. intros j Hj.
    unfold xinv. destruct (Nat.eqb_spec j (rq_degree c - 2 ^ i)) as [->|Hne].
    + rewrite app_nth2; rewrite repeat_length; [|lia]. rewrite Nat.sub_diag. reflexivity.
    + destruct (Nat.lt_ge_cases j (rq_degree c - 2 ^ i)).
      * rewrite app_nth1 by (rewrite repeat_length; auto). rewrite nth_repeat. reflexivity.
      * rewrite nth_overflow; [reflexivity|]. rewrite app_length, repeat_length. cbn [length]. lia.
  - apply Forall_app. split.
    + apply Forall_forall. intros x Hx. apply repeat_spec in Hx. subst. lia.
    + repeat constructor; lia.
  - rewrite app_length, repeat_length. cbn [length]. lia.
Qed.

Lemma C85_x_pows_lem :
  forall pr P i c ev cs, built_params P -> level P i c ->
    exists xs, gen_x_pows_fixed pr (bp_degree P) c = Ok xs /\ length xs = cx_L c /\ x_pows_ok c xs
      /\ unpack_fixed pr ev (mkCt P cs i) = unpack_core pr ev (mkCt P cs i) xs.
Proof.
  intros pr P i c ev cs B L. pose proof (built_params_wf P B) as WB. destruct (level_wf P i c WB L) as [_ LV].
  pose proof (wf_ctx_loc _ (lv_wf _ _ _ LV)) as W. pose proof (gen_x_pows_fixed_ok pr c W) as E. pose proof (ilog2_n pr c W) as EL. rewrite (lv_n _ _ _ LV) in E, EL.
  eexists. split; [exact E|]. split; [apply len_seq|]. split.
  - rewrite <- (lv_n _ _ _ LV). apply C42_x_pows_exist_lem. discriminate.
  - unfold unpack_fixed. cbn [ct_params ct_level]. rewrite (lv_ctx _ _ _ LV). cbn [bind]. rewrite E. cbn [bind].
    destruct pr; [|reflexivity]. rewrite EL. cbn [bind]. rewrite len_seq, Z.eqb_refl. reflexivity.
Qed.

(** ** The encoding *)
(** C85: the repaired [Client::encode] accepts exactly the queries in range of
    databases of the right size, and its result is one-hot in each segment;
    where it accepts, the code accepts with the same result (if the number of
    rows fits a machine word). *)
Lemma client_encode_fixed_ok first dim q0 qs rows :
  (q0 < first)%nat -> Forall (fun q => (q < dim)%nat) qs -> rows = (first * dim ^ length qs)%nat ->
  client_encode_fixed (mkClient first dim) (q0 :: qs) rows = Ok (encoding_of first dim q0 qs).
Proof.
  intros H0 HF ->. unfold client_encode_fixed. cbn [get nth_error bind cl_first_dim cl_dim length tl].
  rewrite rassert_true by (apply Nat.ltb_lt; auto). cbn [bind]. replace (Z.of_nat (S (length qs) - 1)) with (Z.of_nat (length qs)) by lia.
  rewrite rassert_true by (apply Z.eqb_eq; rewrite Nat2Z.inj_mul, Nat2Z.inj_pow; reflexivity). cbn [bind]. rewrite dims_mapM by auto. reflexivity.
Qed.
Lemma C85_encode_lem :
  forall first dim qs rows v,
    client_encode_fixed (mkClient first dim) qs rows = Ok v <->
    exists q0 qs', qs = q0 :: qs' /\ (q0 < first)%nat /\ Forall (fun q => (q < dim)%nat) qs' /\ rows = (first * dim ^ length qs')%nat
      /\ length v = (first + dim * length qs')%nat
      /\ (forall j, (j < first)%nat -> nth j v 0 = if (j =? q0)%nat then 1 else 0)
      /\ (forall d j, (d < length qs')%nat -> (j < dim)%nat -> nth (first + (d * dim + j)) v 0 = if (j =? nth d qs' 0)%nat then 1 else 0).
Proof.
  intros first dim qs rows v. split.
  - intros H. unfold client_encode_fixed in H. cbn [cl_first_dim cl_dim] in H. destruct qs as [|q0 qs]; [discriminate|]. exists q0, qs.
    cbn [get nth_error bind length tl] in H. replace (Z.of_nat (S (length qs) - 1)) with (Z.of_nat (length qs)) in H by lia.
    apply bind_inv in H. destruct H as [u [E1 H]]. apply rassert_inv in E1. apply Nat.ltb_lt in E1.
    apply bind_inv in H. destruct H as [u' [E2 H]]. apply rassert_inv in E2. apply Z.eqb_eq in E2. rewrite <- Nat2Z.inj_pow, <- Nat2Z.inj_mul in E2. apply Nat2Z.inj in E2.
    apply bind_inv in H. destruct H as [rg [E3 H]]. pose proof (dims_mapM_inv _ _ _ E3) as HF. rewrite dims_mapM in E3 by auto. apply Ok_inj in E3. apply Ok_inj in H. subst rg v.
    split; auto. split; auto. split; auto. split; auto. apply encoding_facts.
  - intros [q0 [qs' [-> [H0 [HF [-> [L [F1 F2]]]]]]]]. rewrite client_encode_fixed_ok by auto. f_equal.
    destruct (encoding_facts first dim q0 qs') as [L' [F1' F2']]. apply nth_ext with (d := 0) (d' := 0); [congruence|].
    rewrite L'. intros i Hi. destruct (Nat.lt_ge_cases i first) as [Hlt|Hge].
    + rewrite F1, F1' by auto. reflexivity.
    + assert (D : dim <> 0%nat) by (intros ->; lia).
      assert (HD : ((i - first) / dim < length qs')%nat) by (apply Nat.div_lt_upper_bound; lia).
      pose proof (Nat.mod_upper_bound (i - first) dim D) as HM. pose proof (Nat.div_mod_eq (i - first) dim) as E.
      replace i with (first + ((i - first) / dim * dim + (i - first) mod dim))%nat by lia.
      rewrite F2, F2' by auto. reflexivity.
Qed.
Lemma C85_encode_agree_lem :
  forall pr first dim qs rows v, client_encode_fixed (mkClient first dim) qs rows = Ok v -> (0 < rows)%nat -> Z.of_nat rows < 2 ^ 64 ->
    client_encode pr (mkClient first dim) qs rows = Ok v.
Proof.
  intros pr first dim qs rows v H HR HW. pose proof H as H'. apply C85_encode_lem in H'. destruct H' as [q0 [qs' [-> [H0 [HF [E _]]]]]].
  rewrite client_encode_fixed_ok in H by auto. rewrite <- H.
  set (d := (dim ^ length qs')%nat) in *.
  assert (Hd : (0 < d)%nat) by (destruct d; lia). assert (HZ : Z.of_nat d < 2 ^ 64) by nia.
  apply client_encode_ok; auto; rewrite <- Nat2Z.inj_pow; fold d; [lia|].
  rewrite E, Nat2Z.inj_mul, (Z.mul_comm (Z.of_nat first)), Z.div_mul by lia. lia.
Qed.

(** ** The number of dimensions *)
Lemma dims_loop_ok pr dim : (2 <= dim)%nat -> forall k fuel count, (k <= fuel)%nat -> 0 <= count -> count + Z.of_nat k < 2 ^ 64 ->
  dims_loop pr fuel dim (dim ^ k) count = Ok (count + Z.of_nat k).
Proof.
  intros Hd. induction k as [|k IH]; intros fuel count Hf H0 HB.
  - cbn [Nat.pow]. destruct fuel; cbn [dims_loop Nat.ltb Nat.leb]; f_equal; lia.
  - destruct fuel as [|fuel]; [lia|]. cbn [dims_loop].
    assert (1 <= dim ^ k)%nat by (pose proof (Nat.pow_nonzero dim k ltac:(lia)); lia).
    assert (E : (dim ^ S k = dim ^ k * dim)%nat) by (rewrite Nat.pow_succ_r'; lia).
    rewrite (proj2 (Nat.ltb_lt 1 (dim ^ S k))) by (rewrite E; nia). rewrite E, Nat.div_mul by lia.
    rewrite add64_ok by (change W64 with (2 ^ 64); lia). cbn [bind]. rewrite IH by lia. f_equal. lia.
Qed.
(** C85: the repaired count is right for every side. *)
Lemma C85_dims_lem :
  forall pr s k, (1 <= sv_first_dim s)%nat -> (2 <= sv_dim s)%nat ->
    length (sv_db s) = (sv_first_dim s * sv_dim s ^ k)%nat -> Z.of_nat (length (sv_db s)) < 2 ^ 64 ->
    decode_dimensions_fixed pr s = Ok (Z.of_nat k + 1).
Proof.
  intros pr s k H1 H2 HL HB. unfold decode_dimensions_fixed. rewrite rassert_true by (apply Nat.leb_le; auto). cbn [bind].
  rewrite rassert_true by (rewrite (proj2 (Nat.eqb_neq _ _)) by lia; reflexivity). cbn [bind].
  rewrite HL, Nat.mul_comm, Nat.div_mul by lia.
  assert (HP : Z.of_nat (sv_dim s ^ k) < 2 ^ 64) by (rewrite HL in HB; nia). pose proof (pow_exp_lt _ _ _ H2 HP) as HK.
  rewrite dims_loop_ok; try lia. f_equal. lia.
Qed.

(** ** Retrieval *)
Lemma decode_body_ext pr P dims u u' srv cts ev : (forall q, In q cts -> u q = u' q) ->
  decode_body pr P dims u srv cts ev = decode_body pr P dims u' srv cts ev.
Proof.
  intros H. unfold decode_body. destruct (get (bp_q_ctxs P) 0); cbn [bind]; auto. destruct (rassert _); cbn [bind]; auto.
  destruct cts as [|q cts]; [reflexivity|]. cbn [get nth_error bind tl]. rewrite (H q) by (left; reflexivity).
  destruct (u' q) as [u0| | |]; cbn [bind]; auto. destruct (slice_to u0 (sv_first_dim srv)); cbn [bind]; auto.
  destruct dims as [z| | |]; cbn [bind]; auto. destruct (sub64 pr z 1) as [z1| | |]; cbn [bind]; auto. destruct (mul64 pr z1 (Z.of_nat (sv_dim srv))) as [z2| | |]; cbn [bind]; auto.
  rewrite (mapM_mapM_ext (fun q => u1 <- u q ;; slice_toz u1 z2) (fun q => u1 <- u' q ;; slice_toz u1 z2) cts); [reflexivity|].
  intros x Hx. rewrite H by (right; auto). reflexivity.
Qed.

(** The answer of the repaired server as a ciphertext. *)
Lemma retrieve_fixed :
  forall pr P c sk first dim q0 qs db M S rows0 w0 rndq rnd rnd0 rnd1,
    built_params P -> level P 0 c -> sk_params sk = P -> sk_ok sk -> 1 <= bp_variance P <= 16 -> length (bp_moduli P) <> 1%nat -> small_degree pr (bp_degree P) ->
    l1norm (bp_degree P) (sk_fun sk) <= S ->
    wf_poly (mkPoly c Ntt rows0) -> (forall k, 0 <= w0 k < 2 ^ 64) -> rnd_ok c rndq ->
    (forall i, rnd_ok c (rnd i)) -> rnd_ok c rnd0 -> rnd_ok c rnd1 ->
    (2 <= dim)%nat -> (q0 < first)%nat -> Forall (fun q => (q < dim)%nat) qs ->
    (first + dim * length qs <= bp_degree P)%nat ->
    length db = (first * dim ^ length qs)%nat -> Z.of_nat (length db) < 2 ^ 64 -> Forall (entry_ok (bp_degree P)) db ->
    (forall p x, In p db -> In x (pt_values p) -> x <= M) -> 0 <= M ->
    exists p g0 g1 E, get db (q0 + first * row_index dim qs) = Ok p
      /\ (enc <- client_encode_fixed (mkClient first dim) (q0 :: qs) (length db) ;;
          cts <- client_query pr sk P first enc rows0 w0 rndq ;;
          ev <- eval_build pr sk P rnd rnd0 rnd1 ;;
          srv <- server_new pr first dim db P ;;
          server_decode_fixed pr srv cts ev P) = Ok [ct_of P 0 c [g0; g1]]
      /\ carries (bp_degree P) (cx_Q c) (bp_t P) (phase (bp_degree P) (sk_fun sk) [g0; g1]) (pt_fun p) E
      /\ forall j, (j < bp_degree P)%nat -> Z.abs (E j) <= retrieval_noise P c first dim (length qs) S M.
Proof.
  intros pr P c sk first dim q0 qs db M S rows0 w0 rndq rnd rnd0 rnd1 BP L SP SO Hv HK SD HS WR Hw RQ HR R0 R1 Hd Hq0 HQ HN HL H64 HE HM M0.
  pose proof (built_params_wf P BP) as WB. destruct (level_wf P 0 c WB L) as [_ LV]. pose proof (lv_n _ _ _ LV) as EN. pose proof (wf_ctx_loc _ (lv_wf _ _ _ LV)) as W.
  set (ix := (q0 + first * row_index dim qs)%nat).
  assert (Hix : (ix < length db)%nat).
  { pose proof (row_index_lt c (sk_fun sk) dim qs HQ) as RI. rewrite HL. unfold ix. clear - RI Hq0. set (r := row_index dim qs) in *. set (d := (dim ^ length qs)%nat) in *. nia. }
  set (dp := mkPt P 0 EncNone []). exists (nth ix db dp).
  assert (GP : get db ix = Ok (nth ix db dp)) by (apply get_ok; auto).
  rewrite (client_encode_fixed_ok first dim q0 qs (length db) Hq0 HQ HL). cbn [bind]. destruct (encoding_facts first dim q0 qs) as [L1 [F1 F2]].
  destruct (client_query_ok pr P c sk WB LV (conj SP SO) Hv first (encoding_of first dim q0 qs) rows0 w0 rndq) as [cts [E1 HQ1]]; auto; try lia.
  { apply encoding_range. }
  rewrite E1. cbn [bind].
  destruct (eval_build_ok pr P c sk WB LV rnd rnd0 rnd1 (conj SP SO) Hv HK HR R0 R1 ltac:(rewrite (lv_n _ _ _ LV); exact SD)) as [ev [E2 HEV]]. rewrite E2. cbn [bind].
  rewrite (server_new_ok pr P c LV first dim db) by (rewrite <- EN in HE; exact HE). cbn [bind]. fold dp.
  set (srv := mkServer _ _ _ _).
  destruct (C85_x_pows_lem pr P 0 c ev [] BP L) as [xs [EX [_ [HX _]]]].
  change (server_decode_fixed pr srv cts ev P) with (decode_body pr P (decode_dimensions_fixed pr srv) (unpack_fixed pr ev) srv cts ev).
  rewrite (decode_body_ext pr P _ (unpack_fixed pr ev) (fun ct => unpack_core pr ev ct xs)).
  2:{ assert (U : forall cs, unpack_fixed pr ev (mkCt P cs 0) = unpack_core pr ev (mkCt P cs 0) xs).
      { intros cs. destruct (C85_x_pows_lem pr P 0 c ev cs BP L) as [xs' [EX' [_ [_ U]]]]. rewrite EX in EX'. apply Ok_inj in EX'. subst xs'. exact U. }
      destruct HQ1 as [h0 [h1 [E0 [b [a [e [-> _]]]]]]]. intros q [<-|Hq]; [apply U|]. apply in_map_iff in Hq. destruct Hq as [k [<- _]]. apply U. }
  assert (T17 := wf_t17 P WB). destruct (decode_body_ok pr P c sk WB LV Hv (bp_t P * (2 * bp_variance P + 2)) (2 * bp_variance P) ltac:(nia) ltac:(lia) (decode_dimensions_fixed pr srv) ev xs first dim q0 qs srv cts (fun x => pt_fun (nth x db dp)) M S HEV HX eq_refl eq_refl ltac:(lia)
    (C85_dims_lem pr srv (length qs) ltac:(cbn [srv sv_first_dim]; lia) Hd HL H64) Hq0 HQ
    ltac:(lia) HL eq_refl) as [g0 [g1 [E [E3 [E4 E5]]]]]; auto.
  { intros x l. unfold pt_fun. destruct (nth_in_or_default x db dp) as [Hp| ->]; [|destruct l; cbn; lia].
    set (p := nth x db dp) in *. destruct (nth_in_or_default l (pt_values p) 0) as [Hx| ->]; [|cbn; lia].
    specialize (HM p _ Hp Hx). rewrite Forall_forall in HE. destruct (HE p Hp) as [HE1 _]. rewrite Forall_forall in HE1. specialize (HE1 _ Hx). lia. }
  { rewrite EN. auto. }
  exists g0, g1, E. split; [exact GP|]. split; [exact E3|]. fold ix in E4. split; [rewrite EN in E4; exact E4|]. intros j Hj. apply E5. rewrite EN. exact Hj.
Qed.

(** C85: the repaired system returns the entry asked for, for every side, every
    shape and every query in range, within the noise budget. *)
Lemma C85_retrieve_lem :
  forall pr P c sk first dim q0 qs db M S rows0 w0 rndq rnd rnd0 rnd1,
    built_params P -> level P 0 c -> sk_params sk = P -> sk_ok sk -> 1 <= bp_variance P <= 16 -> length (bp_moduli P) <> 1%nat -> small_degree pr (bp_degree P) ->
    small_basis (rq_moduli_64 c) -> 2 * bp_t P <= cx_q c 0 -> l1norm (bp_degree P) (sk_fun sk) <= S ->
    wf_poly (mkPoly c Ntt rows0) -> (forall k, 0 <= w0 k < 2 ^ 64) -> rnd_ok c rndq ->
    (forall i, rnd_ok c (rnd i)) -> rnd_ok c rnd0 -> rnd_ok c rnd1 ->
    (2 <= dim)%nat -> (q0 < first)%nat -> Forall (fun q => (q < dim)%nat) qs ->
    (first + dim * length qs <= bp_degree P)%nat ->
    length db = (first * dim ^ length qs)%nat -> Z.of_nat (length db) < 2 ^ 64 -> Forall (entry_ok (bp_degree P)) db ->
    (forall p x, In p db -> In x (pt_values p) -> x <= M) -> 0 <= M ->
    2 ^ 54 * (2 * retrieval_noise P c first dim (length qs) S M) <= (2 ^ 54 - 1) * cx_Q c ->
    exists p, get db (q0 + first * row_index dim qs) = Ok p
      /\ (enc <- client_encode_fixed (mkClient first dim) (q0 :: qs) (length db) ;;
          cts <- client_query pr sk P first enc rows0 w0 rndq ;;
          ev <- eval_build pr sk P rnd rnd0 rnd1 ;;
          srv <- server_new pr first dim db P ;;
          out <- server_decode_fixed pr srv cts ev P ;;
          mapM (decrypt pr sk) out)
         = Ok [mkPt P 0 EncNone (map (fun j => nth j (pt_values p) 0 mod bp_t P) (seq 0 (bp_degree P)))].
Proof.
  intros pr P c sk first dim q0 qs db M S rows0 w0 rndq rnd rnd0 rnd1 BP L SP SO Hv HK SD SB Hq2 HS WR Hw RQ HR R0 R1 Hd Hq0 HQ HN HL H64 HE HM M0 HB.
  destruct (retrieve_fixed pr P c sk first dim q0 qs db M S rows0 w0 rndq rnd rnd0 rnd1) as [p [g0 [g1 [E [GP [ER [C N]]]]]]]; auto.
  exists p. split; [exact GP|].
  pose proof (built_params_wf P BP) as WB. destruct (level_wf P 0 c WB L) as [_ LV].
  repeat (match goal with |- (x <- ?m ;; _) = _ => destruct m eqn:?; cbn [bind] in ER |- *; try discriminate ER end).
  apply Ok_inj in ER. rewrite ER. cbn [mapM].
  rewrite (decrypt_ok pr P 0 c WB LV sk [g0; g1] (pt_fun p) E (conj SP SO) ltac:(discriminate) SB Hq2 C); [reflexivity|].
  intros j Hj. eapply noise_ok_abs; [apply (cx_Q1 c (wf_ctx_loc _ (lv_wf _ _ _ LV)))|apply N; auto|exact HB].
Qed.

(** C85: with the default parameters and four or more moduli there is no noise
    condition: asking for position ix returns entry ix modulo t. *)
Lemma C85_default_lem :
  forall pr env k n bd P c w sk first dim d ix db rows0 w0 rndq rnd rnd0 rnd1,
    env_exact env -> (4 <= k <= 31)%nat -> bfv_default pr env k n bd = Ok P -> level P 0 c ->
    (forall j, 0 <= w j < 2 ^ 64) -> sk_generate pr P w = Ok sk ->
    wf_poly (mkPoly c Ntt rows0) -> (forall k, 0 <= w0 k < 2 ^ 64) -> rnd_ok c rndq ->
    (forall i, rnd_ok c (rnd i)) -> rnd_ok c rnd0 -> rnd_ok c rnd1 ->
    (2 <= dim)%nat -> (first + dim * d <= n)%nat ->
    length db = (first * dim ^ d)%nat -> Z.of_nat (length db) < 2 ^ 64 -> Forall (entry_ok n) db ->
    (ix < length db)%nat ->
    exists p, nth_error db ix = Some p
      /\ (enc <- client_encode_fixed (mkClient first dim) (address first dim d ix) (length db) ;;
          cts <- client_query pr sk P first enc rows0 w0 rndq ;;
          ev <- eval_build pr sk P rnd rnd0 rnd1 ;;
          srv <- server_new pr first dim db P ;;
          out <- server_decode_fixed pr srv cts ev P ;;
          mapM (decrypt pr sk) out)
         = Ok [mkPt P 0 EncNone (map (fun j => nth j (pt_values p) 0 mod 1153) (seq 0 n))].
Proof.
  intros pr env k n bd P c w sk first dim d ix db rows0 w0 rndq rnd rnd0 rnd1 EX Hk E L Hw ES WR Hw0 RQ HR R0 R1 Hd HN HL H64 HE Hix.
  destruct (default_inv pr env k n bd P EX ltac:(lia) E) as [B [D1 [D2 [D3 [D4 [D5 [D6 [D7 [D8 _]]]]]]]]].
  assert (Hn : (n <= 64)%nat) by (clear - D8; destruct D8 as [-> |[-> |[-> | ->]]]; lia).
  rewrite <- D1 in *. rewrite <- D2.
  assert (HF : Forall (fun q => 2 ^ 61 <= q < 2 ^ 62) (bp_moduli P)).
  { rewrite Forall_forall in *. intros q Hq. specialize (D7 q Hq). apply np_range in D7. exact D7. }
  assert (HK : (4 <= length (bp_moduli P) <= 64)%nat) by lia. assert (Ht : bp_t P <= 2 ^ 40) by lia. assert (Hv : 1 <= bp_variance P <= 16) by lia.
  destruct (l1_generated pr P w sk B Hv Hw ES) as [SP [SO L1]].
  pose proof (built_params_wf P B) as WB. destruct (level_wf P 0 c WB L) as [_ LV].
  destruct (level62 P 0 c B L HF (proj2 HK) Ht) as [F [SB [Hq [Q61 EK]]]].
  pose proof (cx_n8 c (wf_ctx_loc _ (lv_wf _ _ _ LV))) as N8. rewrite (lv_n _ _ _ LV) in N8.
  rewrite HL in Hix. destruct (C78_address_lem _ _ _ _ Hix) as [q0 [qs [EA [Hq0 [HQ [LK [EI _]]]]]]]. rewrite EA, <- EI. subst d. clear EA EI.
  assert (BN : 4 * retrieval_noise P c first dim (length qs) (32 * Z.of_nat (bp_degree P)) (2 ^ 64) <= cx_Q c).
  { apply retrieval_fits; auto; rewrite ?(lv_n _ _ _ LV); try lia. }
  assert (G : forall j p, get db j = Ok p -> nth_error db j = Some p) by (intros j p; unfold get; destruct (nth_error db j); [intros G; injection G as ->; reflexivity|discriminate]).
  destruct (C85_retrieve_lem pr P c sk first dim q0 qs db (2 ^ 64) (32 * Z.of_nat (bp_degree P)) rows0 w0 rndq rnd rnd0 rnd1) as [p [E1 E2]]; auto; try lia; try (right; lia).
  { intros p x Hp Hx. rewrite Forall_forall in HE. destruct (HE p Hp) as [V _]. rewrite Forall_forall in V. specialize (V x Hx). lia. }
  exists p. split; [apply G; exact E1|exact E2].
Qed.

(*EXAMPLE
(** A 2 x 3 x 3 database: the repaired count is right, the code's is not; a database
    with one row too many is rejected, the code accepts it. *)
Example C85_shape_example : forall p,
  let s := mkServer 2 3 (repeat p 18) [] in
  decode_dimensions_fixed Debug s = Ok 3 /\ decode_dimensions Debug s = Ok 4
  /\ client_encode_fixed (mkClient 2 3) [1; 2; 0]%nat 18 = Ok [0; 1; 0; 0; 1; 1; 0; 0]
  /\ client_encode_fixed (mkClient 2 3) [1; 2; 0]%nat 19 = Panic
  /\ client_encode Debug (mkClient 2 3) [1; 2; 0]%nat 19 = Ok [0; 1; 0; 0; 1; 1; 0; 0].
Proof. intros p s. repeat split; reflexivity. Qed.

(** The hypotheses of C85_default hold together for the default parameters of
    degree 8 with four moduli and a database of 2 x 3 x 3 entries. *)
Example C85_example pr : exists P c w sk rows0 rnd db,
  env_exact denv /\ bfv_default pr denv 4 8 (mkBD 4 5) = Ok P /\ level P 0 c /\ (forall j : nat, 0 <= w j < 2 ^ 64) /\ sk_generate pr P w = Ok sk
  /\ wf_poly (mkPoly c Ntt rows0) /\ rnd_ok c rnd
  /\ length db = (2 * 3 ^ 2)%nat /\ Forall (entry_ok 8) db /\ (2 + 3 * 2 <= 8)%nat.
Proof.
  destruct (budget_hyps pr) as [P [c [w [sk [rows0 [rnd [xs [H1 [H2 [H3 [H4 [H5 [H6 [H7 _]]]]]]]]]]]]]].
  exists P, c, w, sk, rows0, rnd, (map (fun i => mkPt P 0 EncPoly [Z.of_nat i; 7]) (seq 0 18)).
  split; auto. split; auto. split; auto. split; auto. split; auto. split; auto. split; auto. split; [reflexivity|]. split; [|lia].
  apply Forall_forall. intros p Hp. apply in_map_iff in Hp. destruct Hp as [i [<- Hi]]. apply in_seq in Hi.
  split; cbn [pt_values]; [|cbn; lia]. repeat constructor; lia.
Qed.
EXAMPLE*)
