(** Claim C72, continued: the tests that print measurements. *)
From Verif Require Import PBase NT Spec PSum MModulus MUtils MNtt MRns MRq MBfv MKsk MGalois MRgsw MEval MCirc MRgswT MTests MTests2 SpecCirc SpecDef PModulus PUtils PNttMath PNtt PNttNew PCrt PRns PRnsScale PUtils2 SpecRq SpecBfv SpecKsk PRing PRingT PRq PRq2 PRq3 PRq4 PRq5 TestEnv QRq PBfv PBfv2 PBfv3 PBfv4 PBfv5 QBfv PMul PKsk PKsk2 PGal QKsk QCirc QNtt PDefData PDef QDef QBudget QRgswT PEval PEval2 PClient PRetr QEval QRot QTests.

(** Certificates of primality (PDef.v) for the moduli that these tests name, and
    for the ones they search for. *)
Definition t2certs : list (Z * list (Z * Z * Z)) :=
  [(262657, [(19, 1, 3); (3, 3, 2)]);
   (536870909, [(262657, 1, 2)]);
   (2017, [(7, 1, 2); (3, 2, 3)]);
   (8069, [(2017, 1, 2)]);
   (4611686018427387761, [(536870909, 1, 2); (8069, 1, 2)]);
   (1785857, [(109, 1, 2); (2, 14, 3)]);
   (77158710721, [(109, 1, 2); (73, 1, 2); (37, 1, 2)]);
   (1125899906840833, [(77158710721, 1, 2)]);
   (36028797018963841, [(673, 1, 2); (257, 1, 2); (241, 1, 2); (97, 1, 2)]);
   (2796203, [(683, 1, 3); (89, 1, 3)]);
   (178481, [(97, 1, 3); (23, 1, 2)]);
   (36028797018963457, [(2796203, 1, 2); (178481, 1, 2)]);
   (7877, [(179, 1, 2)]);
   (2239, [(373, 1, 2)]);
   (246912443, [(7877, 1, 2); (2239, 1, 2)]);
   (486391, [(523, 1, 2); (31, 1, 2)]);
   (2305843009213689601, [(246912443, 1, 2); (486391, 1, 2)]);
   (1000453, [(317, 1, 2); (263, 1, 2)]);
   (11059, [(97, 1, 2); (19, 1, 2)]);
   (2305843009213689089, [(1000453, 1, 2); (11059, 1, 2)]);
   (4734991, [(71, 1, 2); (19, 1, 2); (13, 1, 2)]);
   (39199, [(139, 1, 2); (47, 1, 2)]);
   (156797, [(39199, 1, 2)]);
   (940783, [(156797, 1, 2)]);
   (2305843009213687297, [(4734991, 1, 2); (940783, 1, 2)]);
   (296363, [(709, 1, 2)]);
   (7112713, [(296363, 1, 2)]);
   (810849283, [(7112713, 1, 2)]);
   (1152921504577486849, [(810849283, 1, 2); (113, 1, 2)])].
Lemma t2certs_ok : Forall prime (map fst t2certs).
Proof. apply (pocs_sound t2certs []); [constructor|]. vm_compute. reflexivity. Qed.
Lemma tprime q : zmem q (map fst t2certs) = true -> prime q.
Proof. intros H. pose proof t2certs_ok as C. rewrite Forall_forall in C. apply C, zmem_in, H. Qed.

Definition q_ntt_test : Z := 4611686018427387761.
Lemma q_ntt_test_prime : prime q_ntt_test.
Proof. apply tprime. vm_compute. reflexivity. Qed.

(** The search for a root, for a prime of any size. *)
Lemma primitive_root_find pr env m n L q : valid_mod m -> mp m = q -> n = (2 ^ L)%nat -> prime q -> (2 * Z.of_nat n | q - 1) -> 2 * Z.of_nat n < q ->
  (forall k, 0 <= draw env q k < q) ->
  ((exists k, (k < 100)%nat /\ draw env q k ^ ((q - 1) / 2) mod q = q - 1) -> exists x, primitive_root pr env n m = Ok x)
  /\ ((forall k, (k < 100)%nat -> draw env q k ^ ((q - 1) / 2) mod q <> q - 1) -> primitive_root pr env n m = Panic).
Proof.
  intros V Em En Hp HD Hn Hd. subst q n.
  assert (GD : forall k, good_draw env m L k = true <-> draw env (mp m) k ^ ((mp m - 1) / 2) mod mp m = mp m - 1).
  { intros k. apply good_draw_iff; auto. }
  assert (EP : primitive_root pr env (2 ^ L) m = match find (good_draw env m L) (seq 0 100) with
    | Some j => Ok (draw env (mp m) j ^ ((mp m - 1) / (2 * Z.of_nat (2 ^ L))) mod mp m) | None => Panic end).
  { unfold primitive_root. pose proof (valid_range m V) as R. rewrite sub64_ok by lia. cbn [bind]. rewrite udiv_ok by lia. cbn [bind]. apply loop_find; auto. }
  split.
  - intros [k [Hk HR]]. rewrite EP. destruct (find (good_draw env m L) (seq 0 100)) as [j|] eqn:EF; [eauto|].
    exfalso. pose proof (find_none _ _ EF k ltac:(apply in_seq; lia)) as N. apply GD in HR. congruence.
  - intros HN. rewrite EP. destruct (find (good_draw env m L) (seq 0 100)) as [j|] eqn:EF; [|reflexivity].
    apply find_some in EF. destruct EF as [I G]. apply in_seq in I. apply GD in G. exfalso. apply (HN j); auto; lia.
Qed.

(** C72: construct_ntt_operator passes unless the first hundred draws are all
    quadratic residues (or zero). *)
Lemma C72_construct_ntt_operator_lem :
  forall pr env, (forall k, 0 <= draw env 4611686018427387761 k < 4611686018427387761) ->
    (draws_root env 4611686018427387761 -> test_construct_ntt_operator pr env = Ok tt)
    /\ (~ draws_root env 4611686018427387761 -> test_construct_ntt_operator pr env = Panic).
Proof.
  intros pr env. unfold test_construct_ntt_operator, draws_root. fold q_ntt_test. intros Hd.
  destruct (modulus_new q_ntt_test) as [m| | |] eqn:EM; [|vm_compute in EM; discriminate..].
  cbn [bind]. destruct (modulus_new_valid q_ntt_test m ltac:(unfold q_ntt_test; lia) EM) as [V Em].
  destruct (primitive_root_find pr env m 8 3 q_ntt_test V Em eq_refl q_ntt_test_prime) as [H1 H2]; auto.
  { exists 288230376151711735. reflexivity. }
  { unfold q_ntt_test. lia. }
  clear - H1 H2. generalize dependent q_ntt_test. intros q H1 H2. split.
  - intros H. destruct (H1 H) as [x ->]. reflexivity.
  - intros H. rewrite H2; [reflexivity|]. intros k Hk E. apply H. eauto.
Qed.

(** Parameters built by [new] under an exact primality test. *)
Lemma bfv_new_built pr env n t ms v bd P : env_exact env -> (1 <= n)%nat -> Forall (fun q => 0 <= q) ms -> 0 <= t -> (forall q, In q ms -> t < q) ->
  bfv_new pr env n t ms v bd = Ok P ->
  built_params P /\ bp_degree P = n /\ bp_t P = t /\ bp_moduli P = ms /\ bp_variance P = v
  /\ forall c, level P 0 c -> wf_level P 0 c /\ rq_moduli_64 c = ms.
Proof.
  intros [PE DR] Hn H0 Ht Hq E. unfold bfv_new in E. binv E. rename v0 into ext, E0 into EX.
  assert (FX : Forall (fun q => 0 <= q) ext).
  { destruct (gen_ext_ok pr env PE n ms Hn) as [[e [E' [Le [_ Fe]]]]|[E' _]]; rewrite E' in EX; [|discriminate].
    apply Ok_inj in EX. subst e. eapply Forall_impl; [|exact Fe]. cbv beta. intros q [Hp _]. apply np_range in Hp. lia. }
  assert (B : built_params P).
  { exists pr, env, ext, n, t, ms, v, bd. split; [split; auto; intros x Hx H; apply PE; auto|]. auto. }
  destruct (bfv_new_from_fields _ _ _ _ _ _ _ _ _ E) as [F1 [F3 [F4 F5]]].
  split; auto. split; auto. split; auto. split; auto. split; auto.
  intros c L. destruct (level_wf P 0 c (built_params_wf P B) L) as [_ LV]. split; auto.
  rewrite (lv_ms _ _ _ LV), F4, Nat.sub_0_r. apply firstn_all.
Qed.

(** C72: trial prints 10000 as the constant coefficient, whatever is drawn. *)
Lemma C72_trial_lem :
  forall pr env P c wsk r, env_exact env -> bfv_new pr env 8 1785857 trial_moduli 10 (mkBD 4 8) = Ok P -> level P 0 c ->
    (forall j, 0 <= wsk j < 2 ^ 64) -> enc_ok c r ->
    test_trial pr env wsk r = Ok (mkPt P 0 EncNone [10000; 0; 0; 0; 0; 0; 0; 0]).
Proof.
  intros pr env P c wsk r EX EP L HW [R1 R2]. unfold test_trial. change (2 ^ 20 + 2 ^ 19 + 2 ^ 17 + 2 ^ 16 + 2 ^ 14 + 1) with 1785857. rewrite EP. cbn [bind].
  destruct (bfv_new_built pr env 8 1785857 trial_moduli 10 (mkBD 4 8) P EX ltac:(lia)) as [B [D1 [D2 [D3 [D4 HL]]]]]; auto; try lia.
  { repeat constructor; lia. }
  { intros q Hq. cbn [trial_moduli In] in Hq. lia. }
  destruct (HL c L) as [LV MC]. pose proof (wf_ctx_loc _ (lv_wf _ _ _ LV)) as W.
  destruct (C30_keygen_lem pr P wsk B ltac:(lia) HW) as [sk [ES [SP [SO _]]]]. rewrite ES. cbn [bind].
  pose proof L as L'. unfold level in L'. rewrite L'. cbn [bind].
  assert (DC : rq_degree c = 8%nat) by (rewrite (lv_n _ _ _ LV); auto).
  rewrite rep_from_big by (auto; rewrite DC; cbn; lia). cbn [bind]. rewrite change_fwd by auto. cbn [bind].
  unfold pt_new. rewrite D1, copy_prefix_pad by (cbn; lia). cbn [bind length Nat.sub repeat app].
  set (pt := mkPt P 0 EncPoly _).
  assert (HV : Forall (fun x => 0 <= x < 2 ^ 64) (pt_values pt)) by (cbn [pt pt_values]; repeat constructor; lia).
  destruct (fresh_carried pr P c sk pt (re_rows r) (re_words r) B L SP SO ltac:(lia) eq_refl eq_refl HV ltac:(rewrite D1; cbn; lia) R1 R2) as [ct [E1 [f0 [f1 [E [ECT [HC HB]]]]]]].
  rewrite E1. cbn [bind]. rewrite ECT.
  set (h := fun j : nat => nth j [10000] 0).
  assert (HH : forall f j, (j < 8)%nat -> rmul 8 f h j = 10000 * f j).
  { intros f j Hj. apply rmul_const; auto. }
  assert (SB : small_basis (rq_moduli_64 c)).
  { rewrite MC. intros q Hq. cbn [trial_moduli In] in Hq. cbn [trial_moduli length]. change (2 ^ 68) with 295147905179352825856. lia. }
  assert (EQ : cx_Q c = zprod trial_moduli) by (unfold cx_Q; rewrite MC; reflexivity).
  assert (Q0 : cx_q c 0 = 1125899906840833) by (unfold cx_q; rewrite MC; reflexivity).
  destruct (C33_decrypt_lem pr P 0 c sk f0 f1 h 0 pt _ E B L SP SO eq_refl HV ltac:(rewrite D1; cbn; lia) SB ltac:(rewrite D2, Q0; lia) HC) as [_ [X _]].
  rewrite D1, D2 in X. rewrite X.
  - do 2 f_equal.
  - intros j Hj. rewrite HH by auto. specialize (HB j ltac:(rewrite D1; auto)). unfold fresh_noise in HB. rewrite D2, D4 in HB.
    unfold noise_ok. rewrite EQ. change (zprod trial_moduli) with 1461501637328552186930621645355808203581462574721. change (2 ^ 54) with 18014398509481984. lia.
Qed.

(** C72: simd_slot_rotations prints the drawn values and, instead of their
    rotation, two of them among zeros. *)
Lemma C72_simd_slot_rotations_lem :
  forall pr env P c wsk v0 v1 v2 v3 v4 v5 v6 v7 r rk, env_exact env -> bfv_default pr env 6 8 (mkBD 4 8) = Ok P -> level P 0 c ->
    (forall j, 0 <= wsk j < 2 ^ 64) -> enc_ok c r -> rnd_ok c rk ->
    Forall (fun x => 0 <= x < 1153) [v0; v1; v2; v3; v4; v5; v6; v7] ->
    test_simd_slot_rotations pr env wsk [v0; v1; v2; v3; v4; v5; v6; v7] r rk
    = Ok ([v0; v1; v2; v3; v4; v5; v6; v7], [0; v6; 0; 0; v1; 0; v1; 0]).
Proof.
  intros pr env P c wsk v0 v1 v2 v3 v4 v5 v6 v7 r rk EX EP L HW [R1 R2] RK HV. unfold test_simd_slot_rotations. rewrite EP. cbn [bind].
  destruct (def_facts pr env 6 P c EX ltac:(lia) EP L) as [B [D1 [D2 [D3 [D4 [WB [LV [W [DC [SB [Hq [HQ HKB]]]]]]]]]]]].
  destruct (def_key pr env 6 P c EX ltac:(lia) EP L wsk HW) as [sk [ES [SP [SO SL]]]]. rewrite ES. cbn [bind].
  assert (EM : bp_index_map P = [0; 4; 1; 5; 3; 1; 3; 1]%nat) by (pose proof (wb_map P WB) as X; rewrite D1 in X; vm_compute in X; apply Ok_inj in X; auto).
  destruct (wb_ntt _ WB) as [op [Lg [psi [Eo [En [Ep Wn]]]]]]. rewrite D1 in En. rewrite D2 in Ep.
  assert (Lg = 3)%nat by (apply (Nat.pow_inj_r 2); [lia|]; change (2 ^ 3)%nat with 8%nat; lia). subst Lg. clear En.
  set (acc := [v0; v7; 0; v6; v1; v3; 0; 0]).
  assert (RA : rng 3 (mp (nt_p op)) acc).
  { split; [reflexivity|]. rewrite Ep. intros k Hk. change (2 ^ 3)%nat with 8%nat in Hk. rewrite Forall_forall in HV. unfold acc.
    do 8 (destruct k as [|k]; [cbn [nth]; first [lia|apply HV; cbn [In]; tauto]|]). lia. }
  destruct (ntt_forward_backward pr op 3 psi Wn acc RA) as [a [Eb [Ra Ef]]].
  assert (EPT : pt_new pr P [v0; v1; v2; v3; v4; v5; v6; v7] 0 EncSIMD = Ok (mkPt P 0 EncSIMD a)).
  { unfold pt_new. rewrite D1, EM, Eo. cbn [unwrap]. 
    match goal with |- (_ <- (_ <- ?f ;; _) ;; _) = _ => replace f with (Ok acc : outcome (list Z)) by reflexivity end.
    cbn [bind]. rewrite Eb. reflexivity. }
  rewrite EPT. cbn [bind].
  destruct Ra as [La Ra]. change (2 ^ 3)%nat with 8%nat in La, Ra. rewrite Ep in Ra.
  assert (FA : Forall (fun x => 0 <= x < 1153) a).
  { apply Forall_forall. intros x Hx. apply (In_nth _ _ 0) in Hx. destruct Hx as [k [Hk <-]]. apply Ra. lia. }
  destruct (fresh_carried pr P c sk (mkPt P 0 EncSIMD a) (re_rows r) (re_words r) B L SP SO ltac:(lia) eq_refl eq_refl (all64 _ FA) ltac:(cbn [pt_values]; lia) R1 R2) as [ct [E1 [f0 [f1 [E [ECT [HC HB]]]]]]].
  cbn [pt_values] in *. rewrite E1. cbn [bind]. pose proof L as L'. unfold level in L'. rewrite L'. cbn [bind].
  pose proof (C38_decrypt_lem pr P 0 c sk rk 15 f0 f1 _ E (fresh_noise P) B L SP SO ltac:(lia) RK ltac:(lia) eq_refl ltac:(lia) ltac:(right; lia) SB Hq HC HB) as X.
  rewrite D1, D2, D3 in X. unfold fresh_noise in X. rewrite D2, D3 in X.
  assert (X0 : 2 ^ 54 * (2 * (1153 * (2 * 10 + 2) + 1153 * ks_bound c (2 * 10))) <= (2 ^ 54 - 1) * cx_Q c).
  { change (2 * 10) with 20. change (2 ^ 54) with 18014398509481984. assert (2 ^ (61 * Z.of_nat 2) <= 2 ^ (61 * Z.of_nat 6)) by (apply Z.pow_le_mono_r; lia).
    change (2 ^ (61 * Z.of_nat 2)) with 5316911983139663491615228241121378304 in *. lia. }
  specialize (X X0). clear X0.
  binv X. rename v into g, E0 into EG. binv X. rename v into gk, E0 into EK. binv X. rename v into ct2, E0 into ER.
  rewrite EG. cbn [bind]. rewrite EK. cbn [bind]. rewrite ECT, ER. cbn [bind]. rewrite X. cbn [bind].
  set (m' := map (fun j => rsubst 8 (Z.to_nat 15) (coeffs a) j mod 1153) (seq 0 8)).
  unfold pt_decode, pt_set_encoding. cbn [pt_enc pt_params pt_values pt_level]. rewrite Eo. cbn [unwrap bind].
  assert (Lm : length m' = 8%nat) by reflexivity.
  assert (Rm : rng 3 (4 * mp (nt_p op)) m').
  { split; auto. intros k Hk. change (2 ^ 3)%nat with 8%nat in Hk. unfold m'. rewrite nth_map_seq by auto. rewrite Ep.
    pose proof (Z.mod_pos_bound (rsubst 8 (Z.to_nat 15) (coeffs a) k) 1153 ltac:(lia)). lia. }
  destruct (ntt_forward_ok pr op 3 psi Wn m' Rm) as [b [EB [[Lb Rb] Hb]]]. rewrite EB. cbn [bind].
  assert (R4 : rng 3 (4 * mp (nt_p op)) a) by (split; auto; intros k Hk; change (2 ^ 3)%nat with 8%nat in Hk; specialize (Ra k Hk); rewrite Ep; lia).
  destruct (ntt_forward_ok pr op 3 psi Wn a R4) as [acc' [EA [_ Ha]]]. rewrite Ef in EA. apply Ok_inj in EA. subst acc'.
  pose proof (wn_psi _ _ _ Wn) as PM. rewrite Ep in *. change (2 ^ 3)%nat with 8%nat in *.
  assert (KEY : forall j, (j < 8)%nat -> nth j b 0 = nth (7 - j) acc 0).
  { intros j Hj. rewrite <- (Z.mod_small (nth j b 0) 1153) by auto. destruct RA as [_ RA]. rewrite <- (Z.mod_small (nth (7 - j) acc 0) 1153) by (apply RA; lia).
    rewrite (Hb j Hj : _ mod _ = _). rewrite (Ha (7 - j)%nat ltac:(lia) : _ mod _ = _).
    set (y := point 3 psi j). assert (YM : eqm 1153 (pw y 8) (-1)).
    { unfold y, point. unfold pw. rewrite <- Z.pow_mul_r by lia. rewrite Z.mul_comm, Z.pow_mul_r by lia.
      apply (pow_odd' _ _ _ (Z.of_nat (bitrev 3 j))); [lia|lia|]. exact PM. }
    transitivity (peval 8 (rsubst 8 15 (coeffs a)) y mod 1153).
    { apply peval_eqm. intros k Hk. unfold eqm, nf, m'. rewrite nth_map_seq by auto. rewrite Z.mod_mod by lia. reflexivity. }
    rewrite (peval_rsubst 1153 8 15 (coeffs a) y ltac:(lia) YM : _ mod _ = _).
    assert (PE : eqm 1153 (pw y 15) (point 3 psi (7 - j))).
    { unfold y, point. rewrite <- pw_mul. apply (pw_mod_2n 1153 psi 8); auto; [lia|]. do 8 (destruct j as [|j]; [reflexivity|]). lia. }
    exact (peval_point 1153 8 (coeffs a) _ _ PE). }
  rewrite D1, EM. cbn [seq mapM get nth_error bind].
  assert (GB : forall j, (j < 8)%nat -> nth_error b j = Some (nth (7 - j) acc 0)).
  { intros j Hj. rewrite <- KEY by auto. apply nth_error_nth'. lia. }
  do 8 (destruct b as [|? b]; [discriminate|]). 
  pose proof (KEY 0%nat ltac:(lia)). pose proof (KEY 1%nat ltac:(lia)). pose proof (KEY 3%nat ltac:(lia)). pose proof (KEY 4%nat ltac:(lia)). pose proof (KEY 5%nat ltac:(lia)).
  cbn [nth_error bind] in *. cbn [nth acc Nat.sub] in *. subst. reflexivity.
Qed.

(** C72: encrypt_poly of rgsw.rs passes.  The printed triple j of pair i is
    determined by the secret key and two errors: one of magnitude at most 20,
    one below 2^74. *)
Lemma nth_one_pad j d : nth j (1 :: repeat 0 d) 0 = nth j [1] 0.
Proof. destruct j as [|j]; [reflexivity|]. cbn [nth]. destruct j; [destruct d; reflexivity|]. rewrite nth_repeat. reflexivity. Qed.
Lemma gadget_unique c G H i : wf_loc c -> gadget c G -> gadget c H -> (i < cx_k c)%nat -> eqm (cx_Q c) (G i) (H i).
Proof.
  intros W HG HH Hi. apply (cx_crt c W). intros j Hj. unfold eqm. rewrite (HG i j Hi Hj), (HH i j Hi Hj). reflexivity.
Qed.
Lemma key_bound c sk ms : rq_degree c = 64%nat -> rq_moduli_64 c = ms -> length ms = 3%nat -> Forall (fun q => 1152921504606846976 <= q < 2305843009213693952) ms ->
  Forall (fun x => Z.abs x <= 20) (sk_coeffs sk) -> l1norm (rq_degree c) (sk_fun sk) * 20 + 2 * ks_bound c 20 < 2 ^ 74.
Proof.
  intros DC MC LM FM SF.
  assert (H1 : l1norm 64 (sk_fun sk) <= 1280).
  { unfold l1norm. change 1280 with (20 * Z.of_nat 64). generalize 64%nat as m. induction m as [|m IH]; cbn [sumn]; [lia|].
    assert (Z.abs (sk_fun sk m) <= 20); [|lia]. unfold sk_fun. destruct (nth_in_or_default m (sk_coeffs sk) 0) as [I| ->]; [|lia].
    rewrite Forall_forall in SF. apply SF. exact I. }
  unfold ks_bound, cx_k, cx_q. rewrite DC, MC, LM. do 3 (destruct ms as [|? ms]; [discriminate|]). cbn [sumn nth].
  inversion FM as [|? ? B1 F1]; subst. inversion F1 as [|? ? B2 F2]; subst. inversion F2 as [|? ? B3 F3]; subst.
  change (2 ^ 74) with 18889465931478580854784. lia.
Qed.
Lemma C72_rgsw_encrypt_poly_lem :
  forall pr env t ms P c wsk sk rk0 rk1 rx0 rx1, env_exact env ->
    generate_prime pr (is_prime env) 60 2097152 (2 ^ 60 - 1) = Ok (Some t) -> generate_moduli pr env [61; 61; 61] 64 = Ok (Some ms) ->
    bfv_new pr env 64 t ms 10 (mkBD 4 8) = Ok P -> level P 0 c ->
    (forall j, 0 <= wsk j < 2 ^ 64) -> sk_generate pr P wsk = Ok sk ->
    rnd_ok c rk0 -> rnd_ok c rk1 -> rnd_ok c rx0 -> rnd_ok c rx1 ->
    exists out, test_rgsw_encrypt_poly pr env wsk rk0 rk1 rx0 rx1 = Ok out /\ length out = 3%nat
      /\ forall i, (i < 3)%nat -> length (nth i out []) = 64%nat
      /\ forall j G, (j < 64)%nat -> gadget c G -> exists e e', Z.abs e <= 20 /\ Z.abs e' < 2 ^ 74
         /\ nth j (nth i out []) (0, 0, 0)
            = let Q := zprod ms in let x := G i * nth j (sk_coeffs sk) 0 in
              (bitlen (Q - (x + e) mod Q), bitlen (Q - (x + e') mod Q), bitlen (Q - (e - e') mod Q)).
Proof.
  intros pr env t ms P c wsk sk rk0 rk1 rx0 rx1 EX ET EM EP L HW ES K0 K1 X0 X1.
  pose proof EX as [PE DR]. unfold test_rgsw_encrypt_poly. change (2 * 1048576) with 2097152. rewrite ET. cbn [bind unwrap]. rewrite EM. cbn [bind unwrap]. rewrite EP. cbn [bind]. rewrite ES. cbn [bind].
  assert (Ht : 0 <= t < 1152921504606846975).
  { destruct (generate_prime_spec pr (is_prime env) 60 2097152 (2 ^ 60 - 1) ltac:(lia) ltac:(lia) ltac:(lia) PE) as [[x [E' [[A1 [A2 [A3 A4]]] _]]]|[E' _]]; rewrite E' in ET; [|discriminate].
    apply Ok_inj in ET. injection ET as ->. change (2 ^ (60 - 1)) with 576460752303423488 in A2. change (2 ^ 60 - 1) with 1152921504606846975 in A4. lia. }
  assert (GM : length ms = 3%nat /\ Forall (fun q => 1152921504606846976 <= q < 2305843009213693952) ms).
  { destruct (C26_generate_moduli_lem pr env [61; 61; 61] 64 PE ltac:(lia) ltac:(repeat constructor; lia)) as [[ms' [E' [_ [F _]]]]|[E' _]]; rewrite E' in EM; [|discriminate].
    apply Ok_inj in EM. injection EM as <-. inversion F as [|? ? ? ? [_ [B1 _]] F1]; subst. inversion F1 as [|? ? ? ? [_ [B2 _]] F2]; subst. inversion F2 as [|? ? ? ? [_ [B3 _]] F3]; subst. inversion F3; subst.
    change (2 ^ (61 - 1)) with 1152921504606846976 in *. change (2 ^ 61) with 2305843009213693952 in *. split; [reflexivity|]. repeat constructor; lia. }
  destruct GM as [LM FM].
  destruct (bfv_new_built pr env 64 t ms 10 (mkBD 4 8) P EX ltac:(lia)) as [B [D1 [D2 [D3 [D4 HL]]]]]; auto; try lia.
  { eapply Forall_impl; [|exact FM]. cbv beta. lia. }
  { intros q Hq. rewrite Forall_forall in FM. specialize (FM q Hq). lia. }
  destruct (HL c L) as [LV MC]. clear HL. pose proof (wf_ctx_loc _ (lv_wf _ _ _ LV)) as W. pose proof (built_params_wf P B) as WB.
  destruct (C30_keygen_lem pr P wsk B ltac:(lia) HW) as [sk' [ES' [SP [SO [SL SF]]]]]. rewrite ES in ES'. apply Ok_inj in ES'. subst sk'.
  pose proof L as L'. unfold level in L'. rewrite L'. cbn [bind].
  assert (DC : rq_degree c = 64%nat) by (rewrite (lv_n _ _ _ LV); auto).
  assert (KC : cx_k c = 3%nat) by (unfold cx_k; rewrite MC; auto).
  assert (EQ : cx_Q c = zprod ms) by (unfold cx_Q; rewrite MC; reflexivity).
  pose proof SO as [S1 S2]. rewrite SP in S2. rewrite !(sk_ntt_ok pr P 0 c LV) by auto. cbn [bind].
  change (fun j => nth j (sk_coeffs sk) 0) with (sk_fun sk).
  destruct (rgsw_poly_ok pr P 0 c WB LV sk (sk_fun sk) rk0 rk1 (conj SP SO) ltac:(lia) K0 K1) as [rs [e0 [e1 [ER [KA [KB [N0 N1]]]]]]]. rewrite ER. cbn [bind].
  unfold pt_new. rewrite D1, copy_prefix_pad by (cbn; lia). cbn [bind]. change ([1] ++ repeat 0 (64 - length [1])) with (1 :: repeat 0 63).
  set (pt := mkPt P 0 EncPoly _).
  destruct (rgsw_ok pr P 0 c LV sk pt rx0 rx1 (conj SP SO) ltac:(lia) X0 X1 eq_refl eq_refl) as [ex [x0 [x1 [EE [HA [HB [M0 M1]]]]]]].
  { cbn [pt pt_values]. constructor; [lia|]. apply Forall_forall. intros x Hx. apply repeat_spec in Hx. lia. }
  { rewrite D1. cbn [pt pt_values length]. rewrite repeat_length. lia. }
  rewrite EE. cbn [bind].
  destruct HA as [_ [_ [_ [b0 [a0 [G0 [HG0 [EA0 [EA1 HPA]]]]]]]]]. destruct HB as [_ [_ [_ [b1 [a1 [G1 [HG1 [EB0 [EB1 HPB]]]]]]]]].
  destruct (transform_digits pr P 0 c LV rs (sk_fun sk) (sk_fun sk) e0 e1 (2 * bp_variance P) b1 a1 G1 _ x1 _ KA KB ltac:(rewrite D4; lia) N0 N1 HG1 HPB M1) as [b' [a' [e' [EX' [HP' HE']]]]].
  rewrite EB0, EB1, combine_map_seq. rewrite (mapM_seq _ _ (fun i => (rep c Ntt (b' i), rep c Ntt (a' i)))) by (intros i Hi; cbn [fst snd]; apply EX'; auto). cbn [bind].
  rewrite EA0, EA1, !combine_map_seq.
  set (n := rq_degree c) in *. set (Q := cx_Q c) in *. pose proof (cx_Q1 c W) as Q1. fold Q in Q1.
  set (fe := fun i j => rmul n (a0 i) (sk_fun sk) j + b0 i j). set (fp := fun i j => rmul n (a' i) (sk_fun sk) j + b' i j).
  set (tr := fun i j => (bitlen (Q - fe i j mod Q), bitlen (Q - fp i j mod Q), bitlen (Q - (fe i j - fp i j) mod Q))).
  rewrite (mapM_seq _ _ (fun i => map (tr i) (seq 0 64))).
  2:{ intros i Hi. cbn [fst snd]. rewrite rep_mul by auto. cbn [bind]. rewrite rep_add by auto. cbn [bind]. rewrite rep_mul by auto. cbn [bind]. rewrite rep_add by auto. cbn [bind].
      rewrite rep_sub by auto. cbn [bind]. rewrite !change_bwd by auto. cbn [bind].
      destruct (rns_new_ok (bp_moduli P)) as [rns [ERN WR]].
      { rewrite D3. eapply Forall_impl; [|exact FM]. cbv beta. change (2 ^ 62) with 4611686018427387904. lia. }
      { rewrite D3, <- MC. exact (wr_pw _ _ (wl_rns _ W)). }
      rewrite ERN. cbn [bind]. rewrite !rep_to_big by auto. cbn [bind]. unfold measure. fold n. fold (fe i) (fp i). fold Q. rewrite DC.
      rewrite !combine_map_seq. apply mapM_seq. intros j Hj. cbn [fst snd]. rewrite (wr_prod _ _ WR), D3. fold (zprod ms). rewrite <- EQ. fold Q.
      assert (BS : forall z, big_sub Q (z mod Q) = Ok (Q - z mod Q)).
      { intros z. unfold big_sub. pose proof (Z.mod_pos_bound z Q ltac:(lia)). replace (z mod Q <=? Q) with true by (symmetry; apply Z.leb_le; lia). reflexivity. }
      rewrite !BS. cbn [bind]. unfold tr, fe, fp. rewrite DC. reflexivity. }
  eexists. split; [reflexivity|]. split; [rewrite map_length, seq_length; auto|]. intros i Hi. rewrite KC.
  rewrite nth_map_seq by auto. split; [apply len_seq|]. intros j G Hj HG. rewrite nth_map_seq by auto.
  exists (x0 i j), (e' i j). rewrite D4 in *. split; [apply M0|]. split.
  { eapply Z.le_lt_trans; [apply HE'|]. exact (key_bound c sk ms DC MC LM FM SF). }
  cbv zeta. rewrite <- EQ. fold Q. fold (sk_fun sk j).
  assert (ONE : forall l, (l < n)%nat -> rmul n (sk_fun sk) (pt_fun pt) l = sk_fun sk l).
  { intros l Hl. transitivity (rmul n (sk_fun sk) (fun k => nth k [1] 0) l); [|rewrite rmul_const by auto; ring].
    apply rmul_ext; auto. intros k _. unfold pt_fun. cbn [pt pt_values]. apply nth_one_pad. }
  assert (Hn : (j < n)%nat) by lia.
  assert (A1 : eqm Q (fe i j) (G i * sk_fun sk j + x0 i j)).
  { unfold fe. rewrite rmul_comm, Z.add_comm. rewrite <- (phase2 c). specialize (HPA i j ltac:(lia) Hn).
    transitivity (G0 i * rmul n (sk_fun sk) (pt_fun pt) j + x0 i j); [exact HPA|]. apply eqm_add; [|reflexivity]. rewrite ONE by auto. apply eqm_mul; [|reflexivity]. apply (gadget_unique c); auto. lia. }
  assert (A2 : eqm Q (fp i j) (G i * sk_fun sk j + e' i j)).
  { unfold fp. rewrite rmul_comm, Z.add_comm. rewrite <- (phase2 c). specialize (HP' i j ltac:(lia) Hn).
    transitivity (G1 i * rmul n (sk_fun sk) (pt_fun pt) j + e' i j); [exact HP'|]. apply eqm_add; [|reflexivity]. rewrite ONE by auto. apply eqm_mul; [|reflexivity]. apply (gadget_unique c); auto. lia. }
  unfold tr. assert (A3 : eqm Q (fe i j - fp i j) (x0 i j - e' i j)).
  { transitivity ((G i * sk_fun sk j + x0 i j) - (G i * sk_fun sk j + e' i j)); [apply eqm_sub; auto|]. unfold eqm. f_equal. ring. }
  unfold eqm in A1, A2, A3. rewrite A1, A2, A3. reflexivity.
Qed.

(** Such parameters exist. *)
Section Ext.
Variables (pr : profile) (env : Env) (n : nat).
Hypothesis PE : forall x, 0 <= x < 2 ^ 64 -> (is_prime env x = true <-> prime x).
Hypothesis N2 : (1 <= n)%nat.
Variables (L : list Z) (N : nat).
Hypothesis LL : length L = N.
Hypothesis F : Forall (ntt_prime 62 n) L.
Hypothesis S : Sorted.StronglySorted (fun a b => b < a) L.
Hypothesis C : forall x, ntt_prime 62 n x -> nth (N - 1) L 0 <= x -> In x L.
Variable ms : list Z.
Hypothesis ND : forall x, In x L -> ~ In x ms.
Hypothesis HN : (length ms + 1 <= N)%nat.

Lemma gen_ext_away_loop d : forall fuel i, (length ms + 1 - i = d)%nat -> (i <= length ms + 1)%nat -> (d < fuel)%nat ->
  gen_ext_loop pr env fuel n ms (firstn i L) (dub L i) = Ok (firstn (length ms + 1) L).
Proof.
  induction d as [|d IH]; intros fuel i Hd Hi Hf; (destruct fuel as [|f]; [lia|]); cbn [gen_ext_loop]; rewrite firstn_length_le by lia.
  - assert (i = length ms + 1)%nat by lia. subst i. rewrite Nat.eqb_refl. reflexivity.
  - replace (i =? length ms + 1)%nat with false by (symmetry; apply Nat.eqb_neq; lia).
    replace (Z.of_nat (2 * n)) with (2 * Z.of_nat n) by lia. rewrite (generate_next pr env n PE N2 L N LL F S C) by lia. cbn [bind unwrap].
    assert (Z0 : zmem (nth i L 0) ms = false) by (apply zmem_false; apply ND, nth_In; lia).
    assert (Z2 : zmem (nth i L 0) (firstn i L) = false) by (apply zmem_false; rewrite (firstn_in_nth env n PE N2 L N LL S C) by lia; lia).
    rewrite Z0, Z2. cbn [negb andb]. rewrite <- (firstn_S_nth n N2 L N LL) by lia. apply (IH f (Datatypes.S i)); lia.
Qed.
Lemma gen_ext_away : gen_ext pr env n ms = Ok (firstn (length ms + 1) L).
Proof.
  unfold gen_ext. change (2 ^ 62) with (dub L 0). change (@nil Z) with (firstn 0 L). apply (gen_ext_away_loop (length ms + 1)); lia.
Qed.
End Ext.

Lemma nodup_app (l1 l2 : list Z) : NoDup l1 -> NoDup l2 -> (forall x, In x l2 -> ~ In x l1) -> NoDup (l1 ++ l2).
Proof.
  intros H1 H2 H. induction H1 as [|a l Ha _ IH]; cbn [app]; auto. constructor.
  - intros I. apply in_app_or in I. destruct I as [I|I]; auto. apply (H a I). left. auto.
  - apply IH. intros x Hx Hi. apply (H x Hx). right. auto.
Qed.
Lemma bfv_new_away pr n t ms v bd : ddeg n -> ms <> [] -> Z.of_nat (length ms) <= 12 -> NoDup ms ->
  (forall x, In x (dprimes n) -> ~ In x ms) ->
  (forall q, In q ms -> 2 < q < 2 ^ 62 /\ prime q /\ q mod (2 * Z.of_nat n) = 1 /\ root_find 100 q 0 = true /\ t < q) ->
  2 < t -> prime t -> t mod (2 * Z.of_nat n) = 1 -> root_find 100 t 0 = true -> forallb (fun q => root_find 100 q 0) (dprimes n) = true ->
  exists P c, bfv_new pr denv n t ms v bd = Ok P /\ level P 0 c /\ wf_loc c.
Proof.
  intros Hn Hne Hl NDm HX Hms Ht Pt Mt Rt RD. destruct (dprimes_ok n Hn) as [LL [FL [SL HL]]].
  destruct denv_exact as [PE DR]. assert (EO : env_ok denv) by (split; auto; intros x Hx H; apply PE; auto).
  assert (N1 : (1 <= n)%nat) by (clear - Hn; destruct Hn as [-> |[-> |[-> | ->]]]; lia).
  assert (HD : exists Lg, (3 <= Lg)%nat /\ n = (2 ^ Lg)%nat).
  { clear - Hn. destruct Hn as [-> |[-> |[-> | ->]]]; [exists 3%nat|exists 4%nat|exists 5%nat|exists 6%nat]; split; auto. }
  assert (GX : gen_ext pr denv n ms = Ok (firstn (length ms + 1) (dprimes n))) by (apply (gen_ext_away pr denv n PE N1 (dprimes n) 13 LL FL SL HL); auto; lia).
  set (ext := firstn (length ms + 1) (dprimes n)) in *.
  assert (POS : forall q, 2 < q < 2 ^ 62 -> prime q -> q mod (2 * Z.of_nat n) = 1 -> root_find 100 q 0 = true -> ntt_possible denv q n).
  { intros q B Pq Mq Rq. split; [exact HD|]. split; [exact Mq|]. split; [apply PE; [change (2 ^ 62) with 4611686018427387904 in B; lia|exact Pq]|].
    apply (root_find_sound q ltac:(lia) 100 0); auto. }
  assert (Ht62 : t < 2 ^ 62) by (destruct ms as [|q ms']; [congruence|]; destruct (Hms q ltac:(left; auto)) as [B1 [_ [_ [_ B2]]]]; lia).
  destruct (bfv_new_from_some pr denv ext n t ms v bd EO) as [P [EP HLv]]; auto.
  { change (2 ^ 57) with 144115188075855872. lia. }
  { apply nodup_app; auto.
    - apply NoDup_firstn_Z. clear - SL. induction SL as [|a l0 S IH F]; constructor; auto. intros C. rewrite Forall_forall in F. specialize (F a C). lia.
    - intros x Hx. apply HX. eapply firstn_in; eauto. }
  { intros q Hq. apply in_app_or in Hq. destruct Hq as [Hq|Hq].
    - destruct (Hms q Hq) as [B [Pq [Mq [Rq _]]]]. split; [lia|]. apply POS; auto.
    - apply firstn_in in Hq. rewrite Forall_forall in FL. pose proof (FL q Hq) as [F1 [F2 F3]]. pose proof (np_range _ _ (FL q Hq)) as R.
      rewrite forallb_forall in RD. split; [change (2 ^ 62) with 4611686018427387904; lia|]. apply POS; auto. change (2 ^ 62) with 4611686018427387904; lia. }
  { unfold ext. rewrite firstn_length_le; lia. }
  { split; [lia|]. apply POS; auto. }
  { intros q Hq. apply Hms. auto. }
  exists P. destruct (HLv 0%nat) as [c [_ [_ [LV _]]]]; [destruct ms; [congruence|cbn; lia]|]. exists c.
  assert (EB : bfv_new pr denv n t ms v bd = Ok P) by (unfold bfv_new; rewrite GX; cbn [bind]; exact EP). split; auto. split; auto.
  destruct (bfv_new_built pr denv n t ms v bd P denv_exact N1) as [_ [_ [_ [_ [_ HW]]]]]; auto.
  { apply Forall_forall. intros q Hq. destruct (Hms q Hq). lia. }
  { lia. }
  { intros q Hq. apply Hms. auto. }
  destruct (HW c LV) as [LW _]. exact (wf_ctx_loc _ (lv_wf _ _ _ LW)).
Qed.

Definition away (n : nat) (t q : Z) : bool :=
  (t <? q) && (q <? 2 ^ 62) && zmem q (map fst t2certs) && (q mod (2 * Z.of_nat n) =? 1) && root_find 100 q 0 && negb (zmem q (dprimes n)).
Lemma bfv_new_away' pr n t ms v bd : ddeg n -> ms <> [] -> Z.of_nat (length ms) <= 12 -> NoDup ms -> forallb (away n t) ms = true ->
  (2 <? t) && zmem t (map fst t2certs) && (t mod (2 * Z.of_nat n) =? 1) && root_find 100 t 0 = true -> forallb (fun q => root_find 100 q 0) (dprimes n) = true ->
  exists P c, bfv_new pr denv n t ms v bd = Ok P /\ level P 0 c /\ wf_loc c.
Proof.
  intros Hn H1 H2 H3 HA HT HD. rewrite forallb_forall in HA. rewrite !andb_true_iff, Z.ltb_lt, Z.eqb_eq in HT. destruct HT as [[[T1 T2] T3] T4].
  assert (HA' : forall q, In q ms -> t < q /\ q < 2 ^ 62 /\ zmem q (map fst t2certs) = true /\ q mod (2 * Z.of_nat n) = 1 /\ root_find 100 q 0 = true /\ zmem q (dprimes n) = false).
  { intros q Hq. specialize (HA q Hq). unfold away in HA. rewrite !andb_true_iff, !Z.ltb_lt, Z.eqb_eq, negb_true_iff in HA. tauto. }
  clear HA. apply bfv_new_away; auto.
  - intros x Hx Hi. destruct (HA' x Hi) as [_ [_ [_ [_ [_ C]]]]]. apply zmem_in in Hx. congruence.
  - intros q Hq. destruct (HA' q Hq) as [A1 [A2 [A3 [A4 [A5 _]]]]]. split; [lia|]. split; [apply tprime; auto|]. auto.
  - apply tprime. auto.
Qed.
Lemma trial_bfv pr : exists P c, bfv_new pr denv 8 1785857 trial_moduli 10 (mkBD 4 8) = Ok P /\ level P 0 c /\ wf_loc c.
Proof.
  apply bfv_new_away'.
  - left. reflexivity.
  - discriminate.
  - cbn. lia.
  - unfold trial_moduli. repeat constructor; cbn [In]; lia.
  - vm_compute. reflexivity.
  - vm_compute. reflexivity.
  - vm_compute. reflexivity.
Qed.
Lemma trial_params pr : exists P c r, env_exact denv /\ bfv_new pr denv 8 1785857 trial_moduli 10 (mkBD 4 8) = Ok P /\ level P 0 c /\ enc_ok c r.
Proof.
  destruct (trial_bfv pr) as [P [c [EP [L W]]]].
  exists P, c, (mkRndEnc (p_rows (rep c Ntt (fun _ => 0))) (fun _ => 7)). split; [exact denv_exact|]. split; [exact EP|]. split; [exact L|].
  split; [exact (rep_wf c W Ntt (fun _ => 0))|]. intros j. cbn [re_words]. lia.
Qed.

(** The primes the last test searches for. *)
Definition rg_t : Z := 1152921504577486849.
Definition rg_ms : list Z := [2305843009213689601; 2305843009213689089; 2305843009213687297].
Definition rg_tdivs : list Z := [3; 7; 13; 3; 383; 5; 3; 131; 7; 3; 5; 11; 3; 0].
Definition rg_mdivs : list Z := [5; 11; 3; 307; 7; 3; 3967; 285334501; 3; 29; 5; 3; 11; 19079; 3; 5; 41; 3; 7; 877; 3; 109; 37; 3; 1637; 5; 3; 23; 71; 3; 5; 17; 3; 0; 11; 3; 47303; 0; 3; 7; 5; 3; 7699; 13; 3; 5; 7; 3; 17; 1249; 3; 0].
Lemma below_top m x y : 0 < m -> y mod m = x mod m -> y < x + m -> y <= x.
Proof.
  intros Hm E H. assert (D : (m | x - y)) by (apply Z.mod_divide; [lia|]; rewrite Zminus_mod, E, Z.sub_diag; apply Z.mod_0_l; lia).
  destruct D as [z Hz]. clear E. assert (0 <= z); [|nia]. assert (- 1 < z); [|lia]. apply Z.mul_lt_mono_pos_r with m; lia.
Qed.
Lemma rg_t_found pr : generate_prime pr (is_prime denv) 60 2097152 (2 ^ 60 - 1) = Ok (Some rg_t).
Proof.
  assert (WK : walk (2 ^ 60 - 2097152 + 1) 2097152 rg_tdivs [rg_t] = true) by (vm_compute; reflexivity).
  destruct (walk_sound 2097152 ltac:(lia) _ _ _ WK) as [W1 [W2 W3]].
  change (2 ^ 60 - 2097152 + 1) with 1152921504604749825 in *. change (1152921504604749825 mod 2097152) with 1 in *. change (Z.of_nat (length rg_tdivs)) with 14 in *.
  destruct (W1 rg_t ltac:(left; auto)) as [B1 B2].
  destruct (generate_prime_spec pr (is_prime denv) 60 2097152 (2 ^ 60 - 1) ltac:(lia) ltac:(lia) ltac:(lia) (proj1 denv_exact)) as [[r [E [[A1 [A2 [A3 A4]]] HM]]]|[_ HN]].
  - rewrite E. do 2 f_equal. change (2 ^ 60 - 1) with 1152921504606846975 in A4.
    assert (G : rg_t <= r).
    { apply HM. split; [apply tprime; vm_compute; reflexivity|]. split; [unfold rg_t; lia|]. split; [reflexivity|unfold rg_t; lia]. }
    assert (I : In r [rg_t]).
    { apply W3; auto. split; [unfold rg_t in G; lia|]. apply (below_top 2097152); auto; lia. }
    destruct I as [<-|[]]. reflexivity.
  - exfalso. apply (HN rg_t). split; [apply tprime; vm_compute; reflexivity|]. split; [unfold rg_t; lia|]. split; [reflexivity|unfold rg_t; lia].
Qed.
Lemma rg_ms_found pr : generate_moduli pr denv [61; 61; 61] 64 = Ok (Some rg_ms).
Proof.
  assert (WK : walk (2 ^ 61 - 128 + 1) 128 rg_mdivs rg_ms = true) by (vm_compute; reflexivity).
  destruct (walk_sound 128 ltac:(lia) _ _ _ WK) as [W1 [W2 W3]].
  change (2 ^ 61 - 128 + 1) with 2305843009213693825 in *. change (2305843009213693825 mod 128) with 1 in *. change (Z.of_nat (length rg_mdivs)) with 52 in *.
  assert (NP : forall q, In q rg_ms -> ntt_prime 61 64 q).
  { intros q Hq. destruct (W1 q Hq) as [B1 B2]. split; [|split; [change (2 ^ (61 - 1)) with 1152921504606846976; change (2 ^ 61) with 2305843009213693952; lia|exact B2]].
    apply tprime. assert (C : forallb (fun q => zmem q (map fst t2certs)) rg_ms = true) by (vm_compute; reflexivity). rewrite forallb_forall in C. auto. }
  assert (IN : forall x, ntt_prime 61 64 x -> 2305843009213687297 <= x -> In x rg_ms).
  { intros x [P1 [P2 P3]] HX. change (2 * Z.of_nat 64) with 128 in P3. change (2 ^ 61) with 2305843009213693952 in P2. apply W3; auto. split; [lia|]. apply (below_top 128); auto; lia. }
  assert (ND3 : NoDup rg_ms) by (unfold rg_ms; repeat constructor; cbn [In]; lia).
  destruct (C26_generate_moduli_lem pr denv [61; 61; 61] 64 (proj1 denv_exact) ltac:(lia) ltac:(repeat constructor; lia)) as [[ms [E [ND [F HM]]]]|[E [s1 [size [s2 [ms [ES [ND [F HA]]]]]]]]].
  - rewrite E. do 2 f_equal. inversion F as [|? m0 ? ? N0 F1]; subst. inversion F1 as [|? m1 ? ? N1 F2]; subst. inversion F2 as [|? m2 ? ? N2 F3]; subst. inversion F3; subst. clear F F1 F2 F3.
    pose proof (HM 0%nat 2305843009213689601 ltac:(cbn; lia) ltac:(cbn [nth]; apply NP; cbn; auto) ltac:(cbn; tauto)) as H0. cbn [nth] in H0.
    assert (E0 : m0 = 2305843009213689601) by (assert (I : In m0 rg_ms) by (apply IN; auto; lia); cbn [rg_ms In] in I; lia). subst m0.
    pose proof (HM 1%nat 2305843009213689089 ltac:(cbn; lia) ltac:(cbn [nth]; apply NP; cbn; auto) ltac:(cbn [firstn In]; lia)) as H1. cbn [nth] in H1.
    inversion ND as [|? ? NI0 ND1]; subst. inversion ND1 as [|? ? NI1 _]; subst. cbn [In] in NI0, NI1.
    assert (E1 : m1 = 2305843009213689089) by (assert (I : In m1 rg_ms) by (apply IN; auto; lia); cbn [rg_ms In] in I; lia). subst m1.
    pose proof (HM 2%nat 2305843009213687297 ltac:(cbn; lia) ltac:(cbn [nth]; apply NP; cbn; auto) ltac:(cbn [firstn In]; lia)) as H2. cbn [nth] in H2.
    assert (E2 : m2 = 2305843009213687297) by (assert (I : In m2 rg_ms) by (apply IN; auto; lia); cbn [rg_ms In] in I; lia). subst m2. reflexivity.
  - exfalso. assert (LS : length ms = length s1) by (clear - F; induction F; cbn [length]; congruence).
    assert (SZ : size = 61 /\ (length s1 < 3)%nat).
    { clear - ES. do 3 (destruct s1 as [|? s1]; [cbn [app] in ES; injection ES; intros; subst; cbn [length]; split; auto; lia|]). apply (f_equal (@length Z)) in ES. rewrite app_length in ES. cbn [length] in ES. lia. }
    destruct SZ as [-> L3]. assert (IC : incl rg_ms ms) by (intros q Hq; apply HA, NP, Hq).
    pose proof (NoDup_incl_length ND3 IC) as X. cbn [rg_ms length] in X. lia.
Qed.
Lemma rgsw_test_bfv pr : exists P c, bfv_new pr denv 64 rg_t rg_ms 10 (mkBD 4 8) = Ok P /\ level P 0 c /\ wf_loc c.
Proof.
  apply bfv_new_away'.
  - unfold ddeg. auto.
  - discriminate.
  - cbn. lia.
  - unfold rg_ms. repeat constructor; cbn [In]; lia.
  - vm_compute. reflexivity.
  - vm_compute. reflexivity.
  - vm_compute. reflexivity.
Qed.
Lemma rgsw_test_params pr : exists t ms P c rk, env_exact denv /\ generate_prime pr (is_prime denv) 60 2097152 (2 ^ 60 - 1) = Ok (Some t)
  /\ generate_moduli pr denv [61; 61; 61] 64 = Ok (Some ms) /\ bfv_new pr denv 64 t ms 10 (mkBD 4 8) = Ok P /\ level P 0 c /\ rnd_ok c rk.
Proof.
  destruct (rgsw_test_bfv pr) as [P [c [EP [L W]]]]. exists rg_t, rg_ms, P, c, (mkRnd (fun _ => p_rows (rep c Ntt (fun _ => 0))) (fun _ _ => 7)).
  split; [exact denv_exact|]. split; [apply rg_t_found|]. split; [apply rg_ms_found|]. split; [exact EP|]. split; [exact L|].
  split; cbn [rnd_rows rnd_words]; [intros; exact (rep_wf c W Ntt (fun _ => 0))|]. intros; lia.
Qed.

Lemma root_verdicts : test_construct_ntt_operator Debug (mkEnv (fun _ => true) (fun _ _ => 3)) = Ok tt
  /\ test_construct_ntt_operator Debug (mkEnv (fun _ => true) (fun _ _ => 1)) = Panic.
Proof.
  split; apply C72_construct_ntt_operator_lem; cbn [draw]; try (intros; lia).
  - exists 0%nat. split; [lia|]. cbn [draw]. change ((4611686018427387761 - 1) / 2) with 2305843009213693880. change (4611686018427387761 - 1) with 4611686018427387760.
    transitivity (PPrime.powm 3 2305843009213693880 4611686018427387761 mod 4611686018427387761); [symmetry; apply (PPrime.powm_ok 3 2305843009213693880 4611686018427387761); lia|]. vm_compute. reflexivity.
  - intros [k [_ H]]. cbn [draw] in H. rewrite Z.pow_1_l in H by (apply Z.div_pos; lia). discriminate.
Qed.

(*EXAMPLE
(** The hypotheses of the theorems on trial and on encrypt_poly hold together,
    and both verdicts of construct_ntt_operator occur. *)
Example C72_trial_example pr : exists P c r, env_exact denv /\ bfv_new pr denv 8 1785857 trial_moduli 10 (mkBD 4 8) = Ok P /\ level P 0 c /\ enc_ok c r.
Proof. exact (trial_params pr). Qed.
Example C72_rgsw_example pr : exists t ms P c rk, env_exact denv /\ generate_prime pr (is_prime denv) 60 2097152 (2 ^ 60 - 1) = Ok (Some t)
  /\ generate_moduli pr denv [61; 61; 61] 64 = Ok (Some ms) /\ bfv_new pr denv 64 t ms 10 (mkBD 4 8) = Ok P /\ level P 0 c /\ rnd_ok c rk.
Proof. exact (rgsw_test_params pr). Qed.
Example C72_root_example : test_construct_ntt_operator Debug (mkEnv (fun _ => true) (fun _ _ => 3)) = Ok tt
  /\ test_construct_ntt_operator Debug (mkEnv (fun _ => true) (fun _ _ => 1)) = Panic.
Proof. exact root_verdicts. Qed.
EXAMPLE*)
