(** Claim C71: with four or more 62-bit moduli the noise of a retrieval never
    matters. *)
From Verif Require Import PBase NT Spec PSum MModulus MUtils MNtt MRns MRq MBfv MKsk MGalois MRgsw MCirc MEval MSwitch SpecDef SpecSwitch PModulus PUtils SpecRq SpecBfv SpecKsk SpecEval PRing PRingT PCrt PRq PRq2 PRq3 PRq4 PRq5 QRq PBfv PBfv2 PBfv3 QBfv PKsk PKsk2 QKsk PRetr QEval PDefData PDef QDef QSwitch TestEnv TestBfv.

Lemma zprod62 l : Forall (fun q => 2 ^ 61 <= q < 2 ^ 62) l -> 2 ^ (61 * Z.of_nat (length l)) <= zprod l.
Proof.
  intros H. induction H as [|q l Hq _ IH]; [reflexivity|]. cbn [length]. change (zprod (q :: l)) with (q * zprod l).
  replace (61 * Z.of_nat (S (length l))) with (61 + 61 * Z.of_nat (length l)) by lia. rewrite Z.pow_add_r by lia.
  apply Z.mul_le_mono_nonneg; try lia; auto with zarith.
Qed.
Lemma sum62 l : Forall (fun q => 2 ^ 61 <= q < 2 ^ 62) l -> 0 <= sumn (length l) (fun i => nth i l 1) <= Z.of_nat (length l) * 2 ^ 62.
Proof.
  intros H. assert (G : forall j, (j <= length l)%nat -> 0 <= sumn j (fun i => nth i l 1) <= Z.of_nat j * 2 ^ 62).
  { induction j as [|j IH]; intros Hj; cbn [sumn]; [lia|]. specialize (IH ltac:(lia)).
    assert (I : In (nth j l 1) l) by (apply nth_In; lia). rewrite Forall_forall in H. specialize (H _ I). lia. }
  apply G. lia.
Qed.
Lemma sq_pow K : (4 <= K)%nat -> Z.of_nat K * Z.of_nat K <= 2 ^ Z.of_nat K.
Proof.
  intros H. induction H as [|m H IH]; [reflexivity|]. rewrite Nat2Z.inj_succ, Z.pow_succ_r by lia. nia.
Qed.

(** The arithmetic of the budget, in powers of two; G bounds the sum of the moduli. *)
Lemma budget n v t S M G X first dk : 0 <= n <= 2 ^ 12 -> 1 <= v <= 16 -> 0 <= t <= 2 ^ 40 -> 0 <= S <= 2 ^ 17 -> 0 <= M <= 2 ^ 64 -> 2 ^ 62 <= G ->
  0 <= X <= 2 ^ 29 * G -> 0 <= first <= 2 ^ 12 -> 0 <= dk <= 2 ^ 12 -> forall s, 0 <= s <= G ->
  first * (n * ((t * (2 * v + 2) + t * X) * M))
  + t * (dk * (n * (2 * v + X) * s + n * (S * (2 * v + X) + 2 * (n * (2 * v) * s)) * s)) <= 2 ^ 114 * (G * G).
Proof.
  intros Hn Hv Ht HS HM HG HX Hf Hd s Hs.
  assert (G0 : 1 <= G) by lia.
  assert (A1 : 0 <= 2 * v + X <= 2 ^ 30 * G) by lia.
  assert (A2 : 0 <= t * (2 * v + 2) + t * X <= 2 ^ 70 * G).
  { replace (t * (2 * v + 2) + t * X) with (t * (2 * v + 2 + X)) by ring. replace (2 ^ 70 * G) with (2 ^ 40 * (2 ^ 30 * G)) by ring.
    split; [apply Z.mul_nonneg_nonneg; lia|apply Z.mul_le_mono_nonneg; lia]. }
  assert (A3 : 0 <= (t * (2 * v + 2) + t * X) * M <= 2 ^ 134 * G).
  { replace (2 ^ 134 * G) with (2 ^ 70 * G * 2 ^ 64) by ring. split; [apply Z.mul_nonneg_nonneg; lia|apply Z.mul_le_mono_nonneg; lia]. }
  assert (A4 : 0 <= first * (n * ((t * (2 * v + 2) + t * X) * M)) <= 2 ^ 158 * G).
  { replace (2 ^ 158 * G) with (2 ^ 12 * (2 ^ 12 * (2 ^ 134 * G))) by ring.
    assert (0 <= n * ((t * (2 * v + 2) + t * X) * M) <= 2 ^ 12 * (2 ^ 134 * G)) by (split; [apply Z.mul_nonneg_nonneg; lia|apply Z.mul_le_mono_nonneg; lia]).
    split; [apply Z.mul_nonneg_nonneg; lia|apply Z.mul_le_mono_nonneg; lia]. }
  assert (A5 : 2 ^ 158 * G <= 2 ^ 96 * (G * G)).
  { replace (2 ^ 158 * G) with (2 ^ 96 * (2 ^ 62 * G)) by ring. apply Z.mul_le_mono_nonneg_l; [lia|]. apply Z.mul_le_mono_nonneg_r; lia. }
  assert (B1 : 0 <= n * (2 * v + X) * s <= 2 ^ 42 * (G * G)).
  { replace (2 ^ 42 * (G * G)) with (2 ^ 12 * (2 ^ 30 * G) * G) by ring.
    assert (0 <= n * (2 * v + X) <= 2 ^ 12 * (2 ^ 30 * G)) by (split; [apply Z.mul_nonneg_nonneg; lia|apply Z.mul_le_mono_nonneg; lia]).
    split; [apply Z.mul_nonneg_nonneg; lia|apply Z.mul_le_mono_nonneg; lia]. }
  assert (B2 : 0 <= n * (2 * v) * s <= 2 ^ 17 * G).
  { replace (2 ^ 17 * G) with (2 ^ 12 * 2 ^ 5 * G) by ring.
    assert (0 <= n * (2 * v) <= 2 ^ 12 * 2 ^ 5) by (split; [apply Z.mul_nonneg_nonneg; lia|apply Z.mul_le_mono_nonneg; lia]).
    split; [apply Z.mul_nonneg_nonneg; lia|apply Z.mul_le_mono_nonneg; lia]. }
  assert (B3 : 0 <= S * (2 * v + X) <= 2 ^ 47 * G).
  { replace (2 ^ 47 * G) with (2 ^ 17 * (2 ^ 30 * G)) by ring. split; [apply Z.mul_nonneg_nonneg; lia|apply Z.mul_le_mono_nonneg; lia]. }
  assert (B4 : 0 <= n * (S * (2 * v + X) + 2 * (n * (2 * v) * s)) * s <= 2 ^ 60 * (G * G)).
  { replace (2 ^ 60 * (G * G)) with (2 ^ 12 * (2 ^ 48 * G) * G) by ring.
    assert (0 <= n * (S * (2 * v + X) + 2 * (n * (2 * v) * s)) <= 2 ^ 12 * (2 ^ 48 * G)) by (split; [apply Z.mul_nonneg_nonneg; lia|apply Z.mul_le_mono_nonneg; lia]).
    split; [apply Z.mul_nonneg_nonneg; lia|apply Z.mul_le_mono_nonneg; lia]. }
  set (z := n * (2 * v + X) * s + n * (S * (2 * v + X) + 2 * (n * (2 * v) * s)) * s) in *.
  assert (B5 : 0 <= z <= 2 ^ 61 * (G * G)) by (unfold z; lia). clearbody z.
  assert (B6 : 0 <= dk * z <= 2 ^ 73 * (G * G)).
  { replace (2 ^ 73 * (G * G)) with (2 ^ 12 * (2 ^ 61 * (G * G))) by ring. split; [apply Z.mul_nonneg_nonneg; lia|apply Z.mul_le_mono_nonneg; lia]. }
  assert (B7 : t * (dk * z) <= 2 ^ 113 * (G * G)).
  { replace (2 ^ 113 * (G * G)) with (2 ^ 40 * (2 ^ 73 * (G * G))) by ring. apply Z.mul_le_mono_nonneg; lia. }
  lia.
Qed.

Lemma retrieval_fits P c first dim k S M :
  (8 <= rq_degree c <= 4096)%nat -> 1 <= bp_variance P <= 16 -> 0 <= bp_t P <= 2 ^ 40 -> 0 <= S <= 2 ^ 17 -> 0 <= M <= 2 ^ 64 ->
  Forall (fun q => 2 ^ 61 <= q < 2 ^ 62) (rq_moduli_64 c) -> (4 <= cx_k c)%nat -> (first <= 4096)%nat -> (k * dim <= 4096)%nat ->
  4 * retrieval_noise P c first dim k S M <= cx_Q c.
Proof.
  intros Hn Hv Ht HS HM HF HK Hf Hd. pose proof (zprod62 _ HF) as HQ. pose proof (sum62 _ HF) as HS'. fold (cx_k c) in HQ, HS'. fold (cx_Q c) in HQ.
  unfold retrieval_noise, expand_noise, ks_bound. change (fun i => cx_q c i) with (fun i => nth i (rq_moduli_64 c) 1) in *.
  set (s := sumn (cx_k c) (fun i => nth i (rq_moduli_64 c) 1)) in *. clearbody s.
  set (G := Z.of_nat (cx_k c) * 2 ^ 62) in *. set (X := (Z.of_nat (rq_degree c) - 1) * (Z.of_nat (rq_degree c) * (2 * bp_variance P) * s)).
  assert (HX : 0 <= X <= 2 ^ 29 * G).
  { unfold X. assert (0 <= Z.of_nat (rq_degree c) * (2 * bp_variance P) <= 2 ^ 12 * 2 ^ 5) by (split; [apply Z.mul_nonneg_nonneg; lia|apply Z.mul_le_mono_nonneg; lia]).
    assert (0 <= Z.of_nat (rq_degree c) * (2 * bp_variance P) * s <= 2 ^ 12 * 2 ^ 5 * G) by (split; [apply Z.mul_nonneg_nonneg; lia|apply Z.mul_le_mono_nonneg; lia]).
    replace (2 ^ 29 * G) with (2 ^ 12 * (2 ^ 12 * 2 ^ 5 * G)) by ring. split; [apply Z.mul_nonneg_nonneg; lia|apply Z.mul_le_mono_nonneg; lia]. }
  pose proof (budget (Z.of_nat (rq_degree c)) (bp_variance P) (bp_t P) S M G X (Z.of_nat first) (Z.of_nat (k * dim)) ltac:(lia) Hv Ht HS HM ltac:(unfold G; lia) HX ltac:(lia) ltac:(lia) s HS') as B.
  rewrite Nat2Z.inj_mul in B. rewrite <- !Z.mul_assoc in B. rewrite <- !Z.mul_assoc. clearbody X.
  eapply Z.le_trans; [apply Z.mul_le_mono_nonneg_l; [lia|exact B]|].
  eapply Z.le_trans; [|exact HQ]. unfold G. pose proof (sq_pow (cx_k c) HK) as SQ. set (K := Z.of_nat (cx_k c)) in *.
  replace (4 * (2 ^ 114 * (K * 2 ^ 62 * (K * 2 ^ 62)))) with (2 ^ 240 * (K * K)) by ring.
  apply Z.le_trans with (2 ^ 240 * 2 ^ K); [apply Z.mul_le_mono_nonneg_l; lia|]. rewrite <- Z.pow_add_r by lia. apply Z.pow_le_mono_r; lia.
Qed.

Section Generated.
Variable pr : profile.
Lemma l1_generated P w sk : built_params P -> 1 <= bp_variance P <= 16 -> (forall j, 0 <= w j < 2 ^ 64) -> sk_generate pr P w = Ok sk ->
  sk_params sk = P /\ sk_ok sk /\ l1norm (bp_degree P) (sk_fun sk) <= 32 * Z.of_nat (bp_degree P).
Proof.
  intros B Hv Hw ES. destruct (C30_keygen_lem pr P w B Hv Hw) as [sk' [ES' [SP [SO [SL SF]]]]]. rewrite ES in ES'. apply Ok_inj in ES'. subst sk'.
  split; auto. split; auto. unfold l1norm. clear - SF Hv. induction (bp_degree P) as [|m IH]; cbn [sumn]; [lia|].
  assert (Z.abs (sk_fun sk m) <= 32); [|lia]. unfold sk_fun. destruct (nth_in_or_default m (sk_coeffs sk) 0) as [I| ->]; [|lia].
  rewrite Forall_forall in SF. specialize (SF _ I). lia.
Qed.
End Generated.


(** What the hypotheses of C71 say about a level. *)
Lemma level62 P i c : built_params P -> level P i c -> Forall (fun q => 2 ^ 61 <= q < 2 ^ 62) (bp_moduli P) -> (length (bp_moduli P) <= 64)%nat -> bp_t P <= 2 ^ 40 ->
  Forall (fun q => 2 ^ 61 <= q < 2 ^ 62) (rq_moduli_64 c) /\ small_basis (rq_moduli_64 c) /\ 2 * bp_t P <= cx_q c 0 /\ 2 ^ 61 <= cx_Q c
  /\ cx_k c = (length (bp_moduli P) - i)%nat.
Proof.
  intros B L HF HK Ht. pose proof (built_params_wf P B) as WB. destruct (level_wf P i c WB L) as [Hi LV].
  assert (F : Forall (fun q => 2 ^ 61 <= q < 2 ^ 62) (rq_moduli_64 c)).
  { rewrite (lv_ms _ _ _ LV). rewrite Forall_forall in *. intros q Hq. apply HF. eapply firstn_in; eauto. }
  assert (EL : cx_k c = (length (bp_moduli P) - i)%nat) by (unfold cx_k; rewrite (lv_ms _ _ _ LV); apply firstn_length_le; lia).
  split; auto. split; [|split; [|split; auto]].
  - intros q Hq. rewrite Forall_forall in F. specialize (F q Hq). fold (cx_k c). replace (2 ^ 68) with (2 ^ 62 * 64) by reflexivity. apply Z.mul_le_mono_nonneg; lia.
  - unfold cx_q. rewrite Forall_forall in F. assert (I : In (nth 0 (rq_moduli_64 c) 1) (rq_moduli_64 c)) by (apply nth_In; fold (cx_k c); lia).
    specialize (F _ I). lia.
  - pose proof (zprod62 _ F) as Z. fold (cx_k c) in Z. fold (cx_Q c) in Z. eapply Z.le_trans; [|exact Z]. apply Z.pow_le_mono_r; lia.
Qed.

(** C71: retrieval without any condition on the noise; the answer may be switched
    down to any level first. *)
Lemma C71_compressed_lem :
  forall pr P c w sk first dim q0 qs db rows0 w0 rndq rnd rnd0 rnd1 xs j,
    built_params P -> level P 0 c ->
    Forall (fun q => 2 ^ 61 <= q < 2 ^ 62) (bp_moduli P) -> (4 <= length (bp_moduli P) <= 64)%nat ->
    (bp_degree P <= 4096)%nat -> bp_t P <= 2 ^ 40 -> 1 <= bp_variance P <= 16 ->
    (forall j, 0 <= w j < 2 ^ 64) -> sk_generate pr P w = Ok sk ->
    wf_poly (mkPoly c Ntt rows0) -> (forall k, 0 <= w0 k < 2 ^ 64) -> rnd_ok c rndq ->
    (forall i, rnd_ok c (rnd i)) -> rnd_ok c rnd0 -> rnd_ok c rnd1 -> x_pows_ok c xs ->
    countable dim (length qs) -> (q0 < first)%nat -> Forall (fun q => (q < dim)%nat) qs ->
    (first + dim * length qs <= bp_degree P)%nat ->
    length db = (first * dim ^ length qs)%nat -> Z.of_nat (length db) < 2 ^ 64 -> Z.of_nat dim < 2 ^ 64 -> Forall (entry_ok (bp_degree P)) db ->
    (j < length (bp_moduli P))%nat ->
    exists p, get db (q0 + first * row_index dim qs) = Ok p
      /\ (enc <- client_encode pr (mkClient first dim) (q0 :: qs) (length db) ;;
          cts <- client_query pr sk P first enc rows0 w0 rndq ;;
          ev <- eval_build pr sk P rnd rnd0 rnd1 ;;
          srv <- server_new pr first dim db P ;;
          out <- server_decode_with pr (fun ct => unpack_core pr ev ct xs) srv cts ev P ;;
          small <- mapM (fun ct => ct_switch pr ct j) out ;;
          mapM (decrypt pr sk) small)
         = Ok [mkPt P j EncNone (map (fun j => nth j (pt_values p) 0 mod bp_t P) (seq 0 (bp_degree P)))].
Proof.
  intros pr P c w sk first dim q0 qs db rows0 w0 rndq rnd rnd0 rnd1 xs j B L HF HK Hn Ht Hv Hw ES WR Hw0 RQ HR R0 R1 HX Hd Hq0 HQ HN HL H64 D64 HE Hj.
  destruct (l1_generated pr P w sk B Hv Hw ES) as [SP [SO L1]].
  pose proof (built_params_wf P B) as WB. destruct (level_wf P 0 c WB L) as [_ LV]. destruct (wb_lv _ WB j Hj) as [c' LV'].
  pose proof (lv_ctx _ _ _ LV') as L'. change (level P j c') in L'.
  destruct (level62 P 0 c B L HF (proj2 HK) Ht) as [F [SB [Hq [Q61 EK]]]]. destruct (level62 P j c' B L' HF (proj2 HK) Ht) as [F' [SB' [Hq' [Q61' EK']]]].
  pose proof (cx_n8 c (wf_ctx_loc _ (lv_wf _ _ _ LV))) as N8. pose proof (wf_t17 P WB) as T17.
  destruct (retrieve_answer pr P c sk first dim q0 qs db (2 ^ 64) (32 * Z.of_nat (bp_degree P)) rows0 w0 rndq rnd rnd0 rnd1 xs) as [p [g0 [g1 [E [GP [ER [C N]]]]]]]; auto; try lia; try (right; lia).
  { intros p x Hp Hx. rewrite Forall_forall in HE. destruct (HE p Hp) as [V _]. rewrite Forall_forall in V. specialize (V x Hx). lia. }
  exists p. split; [exact GP|].
  do 5 (match goal with |- (x <- ?m ;; _) = _ => destruct m eqn:?; cbn [bind] in ER |- *; try discriminate ER end).
  apply Ok_inj in ER. rewrite ER. cbn [mapM].
  assert (BN : 4 * retrieval_noise P c first dim (length qs) (32 * Z.of_nat (bp_degree P)) (2 ^ 64) <= cx_Q c).
  { rewrite (lv_n _ _ _ LV) in N8. apply retrieval_fits; auto; rewrite ?(lv_n _ _ _ LV); try lia. }
  set (Bd := retrieval_noise P c first dim (length qs) (32 * Z.of_nat (bp_degree P)) (2 ^ 64)) in *. clearbody Bd.
  assert (B0 : 0 <= Bd) by (rewrite (lv_n _ _ _ LV) in N8; specialize (N 0%nat ltac:(lia)); lia).
  pose proof (C69_switch_lem pr P 0 j c c' sk g0 g1 (pt_fun p) E Bd (32 * Z.of_nat (bp_degree P)) B L L' ltac:(lia) L1 C B0 N) as [h0 [h1 [E' [SW [DV [C' N']]]]]].
  rewrite SW. cbn [bind mapM].
  rewrite (decrypt_ok pr P j c' WB LV' sk [h0; h1] (pt_fun p) E' (conj SP SO) ltac:(discriminate) SB' Hq' C'); [reflexivity|].
  intros k Hk. eapply noise_ok_abs; [apply (cx_Q1 c' (wf_ctx_loc _ (lv_wf _ _ _ LV')))|apply N'; auto|].
  destruct DV as [R ERr]. pose proof (cx_Q1 c' (wf_ctx_loc _ (lv_wf _ _ _ LV'))) as Q1. clear - ERr BN B0 Ht T17 Hn Q1 Q61' Q61.
  assert (R1 : 1 <= R) by nia. unfold switch_noise. rewrite ERr, Z.div_mul by lia.
  assert (D : Bd / R <= cx_Q c' / 4).
  { apply Z.div_le_lower_bound; [lia|]. pose proof (Z.mul_div_le Bd R ltac:(lia)). rewrite ERr in BN. nia. }
  pose proof (Z.mul_div_le (cx_Q c') 4 ltac:(lia)) as D4.
  assert (T : bp_t P * (1 + 32 * Z.of_nat (bp_degree P)) <= 2 ^ 40 * (2 ^ 17 + 1)) by (apply Z.mul_le_mono_nonneg; lia).
  lia.
Qed.

Lemma C71_retrieve_lem :
  forall pr P c w sk first dim q0 qs db rows0 w0 rndq rnd rnd0 rnd1 xs,
    built_params P -> level P 0 c ->
    Forall (fun q => 2 ^ 61 <= q < 2 ^ 62) (bp_moduli P) -> (4 <= length (bp_moduli P) <= 64)%nat ->
    (bp_degree P <= 4096)%nat -> bp_t P <= 2 ^ 40 -> 1 <= bp_variance P <= 16 ->
    (forall j, 0 <= w j < 2 ^ 64) -> sk_generate pr P w = Ok sk ->
    wf_poly (mkPoly c Ntt rows0) -> (forall k, 0 <= w0 k < 2 ^ 64) -> rnd_ok c rndq ->
    (forall i, rnd_ok c (rnd i)) -> rnd_ok c rnd0 -> rnd_ok c rnd1 -> x_pows_ok c xs ->
    countable dim (length qs) -> (q0 < first)%nat -> Forall (fun q => (q < dim)%nat) qs ->
    (first + dim * length qs <= bp_degree P)%nat ->
    length db = (first * dim ^ length qs)%nat -> Z.of_nat (length db) < 2 ^ 64 -> Z.of_nat dim < 2 ^ 64 -> Forall (entry_ok (bp_degree P)) db ->
    exists p, get db (q0 + first * row_index dim qs) = Ok p
      /\ (enc <- client_encode pr (mkClient first dim) (q0 :: qs) (length db) ;;
          cts <- client_query pr sk P first enc rows0 w0 rndq ;;
          ev <- eval_build pr sk P rnd rnd0 rnd1 ;;
          srv <- server_new pr first dim db P ;;
          out <- server_decode_with pr (fun ct => unpack_core pr ev ct xs) srv cts ev P ;;
          mapM (decrypt pr sk) out)
         = Ok [mkPt P 0 EncNone (map (fun j => nth j (pt_values p) 0 mod bp_t P) (seq 0 (bp_degree P)))].
Proof.
  intros pr P c w sk first dim q0 qs db rows0 w0 rndq rnd rnd0 rnd1 xs B L HF HK Hn Ht Hv Hw ES WR Hw0 RQ HR R0 R1 HX Hd Hq0 HQ HN HL H64 D64 HE.
  destruct (l1_generated pr P w sk B Hv Hw ES) as [SP [SO L1]].
  pose proof (built_params_wf P B) as WB. destruct (level_wf P 0 c WB L) as [_ LV].
  destruct (level62 P 0 c B L HF (proj2 HK) Ht) as [F [SB [Hq [Q61 EK]]]]. 
  pose proof (cx_n8 c (wf_ctx_loc _ (lv_wf _ _ _ LV))) as N8. rewrite (lv_n _ _ _ LV) in N8.
  assert (BN : 4 * retrieval_noise P c first dim (length qs) (32 * Z.of_nat (bp_degree P)) (2 ^ 64) <= cx_Q c).
  { apply retrieval_fits; auto; rewrite ?(lv_n _ _ _ LV); try lia. pose proof (wf_t17 P WB). lia. }
  apply (C45_retrieve_lem pr P c sk first dim q0 qs db (2 ^ 64) (32 * Z.of_nat (bp_degree P))); auto; try lia; try (right; lia).
  intros p x Hp Hx. rewrite Forall_forall in HE. destruct (HE p Hp) as [V _]. rewrite Forall_forall in V. specialize (V x Hx). lia.
Qed.

(** The default parameters with four or more moduli are such parameters. *)
Lemma C71_default_lem :
  forall pr env k n bd P c w sk first dim q0 qs db rows0 w0 rndq rnd rnd0 rnd1 xs,
    env_exact env -> (4 <= k <= 31)%nat -> bfv_default pr env k n bd = Ok P -> level P 0 c ->
    (forall j, 0 <= w j < 2 ^ 64) -> sk_generate pr P w = Ok sk ->
    wf_poly (mkPoly c Ntt rows0) -> (forall k, 0 <= w0 k < 2 ^ 64) -> rnd_ok c rndq ->
    (forall i, rnd_ok c (rnd i)) -> rnd_ok c rnd0 -> rnd_ok c rnd1 -> x_pows_ok c xs ->
    countable dim (length qs) -> (q0 < first)%nat -> Forall (fun q => (q < dim)%nat) qs ->
    (first + dim * length qs <= n)%nat ->
    length db = (first * dim ^ length qs)%nat -> Z.of_nat (length db) < 2 ^ 64 -> Z.of_nat dim < 2 ^ 64 -> Forall (entry_ok n) db ->
    exists p, get db (q0 + first * row_index dim qs) = Ok p
      /\ (enc <- client_encode pr (mkClient first dim) (q0 :: qs) (length db) ;;
          cts <- client_query pr sk P first enc rows0 w0 rndq ;;
          ev <- eval_build pr sk P rnd rnd0 rnd1 ;;
          srv <- server_new pr first dim db P ;;
          out <- server_decode_with pr (fun ct => unpack_core pr ev ct xs) srv cts ev P ;;
          mapM (decrypt pr sk) out)
         = Ok [mkPt P 0 EncNone (map (fun j => nth j (pt_values p) 0 mod 1153) (seq 0 n))].
Proof.
  intros pr env k n bd P c w sk first dim q0 qs db rows0 w0 rndq rnd rnd0 rnd1 xs EX Hk E L Hw ES WR Hw0 RQ HR R0 R1 HX Hd Hq0 HQ HN HL H64 D64 HE.
  destruct (default_inv pr env k n bd P EX ltac:(lia) E) as [B [D1 [D2 [D3 [D4 [D5 [D6 [D7 [D8 _]]]]]]]]].
  assert (Hn : (n <= 64)%nat) by (clear - D8; destruct D8 as [-> |[-> |[-> | ->]]]; lia).
  rewrite <- D1 in *. rewrite <- D2.
  apply (C71_retrieve_lem pr P c w sk first dim q0 qs db); auto; try lia.
  rewrite Forall_forall in *. intros q Hq. specialize (D7 q Hq). apply np_range in D7. exact D7.
Qed.

(** Non-vacuity: four default moduli of degree 8, a database of 4 x 2 entries. *)
Lemma denv_roots8 : Forall (draws_root denv) (firstn 9 (dprimes 8)).
Proof.
  assert (C : forallb (fun q => (2 <? q) && root_find 100 q 0) (firstn 9 (dprimes 8)) = true) by (vm_compute; reflexivity).
  rewrite forallb_forall in C. apply Forall_forall. intros q Hq. specialize (C q Hq). apply andb_true_iff in C. destruct C as [C1 C2].
  apply Z.ltb_lt in C1. apply (root_find_sound q C1 100 0); auto.
Qed.
Definition budget_db (P : BfvParams) : list Plaintext := map (fun i => mkPt P 0 EncPoly [Z.of_nat i; 7]) (seq 0 8).
Lemma budget_hyps pr : exists P c w sk rows0 rnd xs,
  env_exact denv /\ bfv_default pr denv 4 8 (mkBD 4 5) = Ok P /\ level P 0 c /\ (forall j : nat, 0 <= w j < 2 ^ 64) /\ sk_generate pr P w = Ok sk
  /\ wf_poly (mkPoly c Ntt rows0) /\ rnd_ok c rnd /\ x_pows_ok c xs
  /\ length (budget_db P) = (4 * 2 ^ length [1%nat])%nat /\ Forall (entry_ok 8) (budget_db P) /\ (4 + 2 * length [1%nat] <= 8)%nat
  /\ Forall (fun q => 2 ^ 61 <= q < 2 ^ 62) (bp_moduli P) /\ length (bp_moduli P) = 4%nat /\ built_params P.
Proof.
  assert (Hn : ddeg 8) by (left; reflexivity). destruct (dprimes_ok 8 Hn) as [LL [FL [SL HL]]].
  assert (LP : largest_primes 8 (dprimes 8)) by (split; [auto|split; [auto|]]; intros x Hx H; rewrite last_nth, LL in H; apply HL; auto).
  destruct (denv_roots 8 Hn) as [_ R2].
  destruct (C68_default_lem pr denv 4 8 (mkBD 4 5) (firstn (2 * 4 + 1) (dprimes 8)) denv_exact Hn ltac:(lia) ltac:(lia)) as [P [E _]]; auto.
  { apply firstn_largest; auto. lia. }
  { exact denv_roots8. }
  destruct (default_inv pr denv 4 8 _ P denv_exact ltac:(lia) E) as [B [D1 [D2 [D3 [D4 [D5 [D6 [D7 _]]]]]]]].
  pose proof (built_params_wf P B) as WB.
  destruct (wb_lv _ WB 0 ltac:(lia)) as [c LV]. pose proof (lv_ctx _ _ _ LV) as L. change (level P 0 c) in L.
  set (w0 := fun _ : nat => 7). assert (Hw : forall j : nat, 0 <= w0 j < 2 ^ 64) by (intros; unfold w0; lia).
  destruct (C30_keygen_lem pr P w0 B ltac:(lia) Hw) as [sk [ES [SP [SO _]]]].
  assert (RW : wf_poly (mkPoly c Ntt (p_rows (rep c Ntt (fun _ => 0))))).
  { exact (rep_wf c (wf_ctx_loc _ (lv_wf _ _ _ LV)) Ntt (fun _ => 0)). }
  exists P, c, w0, sk, (p_rows (rep c Ntt (fun _ => 0))), (mkRnd (fun _ => p_rows (rep c Ntt (fun _ => 0))) (fun _ => w0)),
    (map (fun i => rep c Ntt (xinv (rq_degree c) (2 ^ i))) (seq 0 (cx_L c))).
  split; [exact denv_exact|]. split; auto. split; auto. split; auto. split; auto. split; auto.
  split; [split; cbn [rnd_rows rnd_words]; auto|].
  split. { intros i Hi. exists Ntt. split; [|discriminate]. rewrite (PBase.get_ok _ _ (rep c Ntt (fun _ => 0))) by (rewrite map_length, seq_length; auto). rewrite nth_map_seq by auto. reflexivity. }
  split; [reflexivity|]. split.
  { unfold budget_db. apply Forall_forall. intros p Hp. apply in_map_iff in Hp. destruct Hp as [i [<- Hi]]. apply in_seq in Hi.
    split; cbn [pt_values]; [|cbn; lia]. repeat constructor; lia. }
  split; [cbn; lia|]. split; [|split; auto].
  rewrite Forall_forall in *. intros q Hq. specialize (D7 q Hq). apply np_range in D7. exact D7.
Qed.

(*EXAMPLE
(** The hypotheses hold together: default parameters of degree 8 with four moduli and a database of 4 x 2 entries. *)
Example C71_example pr : exists P c w sk rows0 rnd xs,
  env_exact denv /\ bfv_default pr denv 4 8 (mkBD 4 5) = Ok P /\ level P 0 c /\ (forall j : nat, 0 <= w j < 2 ^ 64) /\ sk_generate pr P w = Ok sk
  /\ wf_poly (mkPoly c Ntt rows0) /\ rnd_ok c rnd /\ x_pows_ok c xs
  /\ length (budget_db P) = (4 * 2 ^ length [1%nat])%nat /\ Forall (entry_ok 8) (budget_db P) /\ (4 + 2 * length [1%nat] <= 8)%nat
  /\ Forall (fun q => 2 ^ 61 <= q < 2 ^ 62) (bp_moduli P) /\ length (bp_moduli P) = 4%nat /\ built_params P.
Proof. exact (budget_hyps pr). Qed.
EXAMPLE*)
