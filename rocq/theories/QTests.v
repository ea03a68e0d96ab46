(** Claim C72: verdicts of the crate's own tests, for all randomness. *)
From Verif Require Import PBase NT Spec PSum MModulus MUtils MNtt MRns MRq MBfv MKsk MGalois MRgsw MEval MCirc MRgswT MTests SpecCirc SpecDef PModulus PUtils PNttMath PNtt PNttNew PCrt PRns PRnsScale PUtils2 SpecRq SpecBfv SpecKsk PRing PRingT PRq PRq2 PRq3 PRq4 PRq5 TestEnv QRq PBfv PBfv2 PBfv3 PBfv4 PBfv5 QBfv PMul PKsk PKsk2 PGal QKsk QCirc QNtt PDefData PDef QDef QBudget QRgswT PEval PEval2 PClient PRetr QEval.

Lemma zlist_refl l : zlist_eqb l l = true.
Proof. apply zlist_eqb_eq. reflexivity. Qed.
Lemma poly_eqb_refl p : poly_eqb p p = true.
Proof.
  unfold poly_eqb. rewrite ctx_eqb_refl, Nat.eqb_refl. replace (repr_eqb (p_repr p) (p_repr p)) with true by (destruct (p_repr p); reflexivity).
  cbn [andb]. apply forallb_forall. intros [x y] H. cbn [fst snd]. assert (x = y); [|subst; apply zlist_refl].
  revert H. induction (p_rows p) as [|r l IH]; cbn [combine In]; intros []; auto. congruence.
Qed.

(** C72: the transform test passes. *)
Lemma C72_bijection_lem :
  forall pr env m op vals, env_ok env -> modulus_new 1153 = Ok m -> ntt_new pr env m 8 = Ok op ->
    length vals = 8%nat -> Forall (fun x => 0 <= x < 1153) vals ->
    test_bijection pr env vals = Ok tt.
Proof.
  intros pr env m op vals EO EM EN HL HV. unfold test_bijection. rewrite EM. cbn [bind]. rewrite EN. cbn [bind].
  destruct (C09_inverse_lem pr env 1153 m 8 op vals ltac:(lia) EM (proj1 EO) ltac:(intros; apply (proj2 EO); lia) EN HL HV) as [[b [E1 E2]] _].
  rewrite E1. cbn [bind]. rewrite E2. cbn [bind]. rewrite zlist_refl. reflexivity.
Qed.

(** C72: the change of representation test passes. *)
Lemma C72_change_representation_lem :
  forall pr env P c rows, env_exact env -> bfv_default pr env 1 8 (mkBD 4 8) = Ok P -> level P 0 c ->
    wf_poly (mkPoly c PowerBasis rows) -> test_change_representation pr env rows = Ok tt.
Proof.
  intros pr env P c rows EX EP L WR. unfold test_change_representation. rewrite EP. cbn [bind]. unfold level in L. rewrite L. cbn [bind].
  destruct (default_inv pr env 1 8 _ P EX ltac:(lia) EP) as [B _]. pose proof (built_params_wf P B) as WB. destruct (level_wf P 0 c WB L) as [_ LV].
  pose proof (wf_ctx_loc _ (lv_wf _ _ _ LV)) as W. unfold poly_random.
  destruct (wf_rep pr c W (mkPoly c PowerBasis rows) eq_refl WR) as [f [_ E]]. cbn [p_repr] in E. rewrite E.
  rewrite change_fwd by auto. cbn [bind]. rewrite change_bwd by auto. cbn [bind]. rewrite poly_eqb_refl. reflexivity.
Qed.

(** C72: the substitutions 3 and 11 of the substitution test undo each other. *)
Lemma rsubst_3_11 f j : (j < 8)%nat -> rsubst 8 11 (rsubst 8 3 f) j = f j.
Proof.
  intros H. unfold rsubst. do 8 (destruct j as [|j]; [cbn; ring|]). lia.
Qed.
Lemma subst_ex pr c (W : wf_loc c) x : (rq_degree c <= 8)%nat -> 0 <= x -> x mod 2 = 1 -> exists g, subst_new pr c x = Ok g.
Proof. intros H0 H1 H2. eexists. apply (subst_new_ok pr c W x H1 H2). apply sfits_small; auto. lia. Qed.
Lemma test_moduli_pos : Forall (fun q => 0 <= q) test_moduli.
Proof. repeat constructor; lia. Qed.
Lemma C72_substitute_lem :
  forall pr env c rows, env_ok env -> rq_new pr env test_moduli 8 (mkBD 4 8) = Ok c ->
    wf_poly (mkPoly c PowerBasis rows) ->
    test_substitute pr env rows = Ok (mkPoly c PowerBasis rows, mkPoly c PowerBasis rows).
Proof.
  intros pr env c rows EO EC WR. unfold test_substitute. rewrite EC. cbn [bind].
  destruct (rq_new_inv pr env EO _ _ _ _ test_moduli_pos EC) as [WC [MC [DC _]]]. pose proof (wf_ctx_loc _ WC) as W. unfold poly_random.
  destruct (wf_rep pr c W (mkPoly c PowerBasis rows) eq_refl WR) as [f [_ E]]. cbn [p_repr] in E. rewrite E.
  rewrite change_fwd by auto. cbn [bind].
  destruct (subst_ex pr c W 3 ltac:(lia) ltac:(lia) eq_refl) as [s3 S3]. destruct (subst_ex pr c W 11 ltac:(lia) ltac:(lia) eq_refl) as [s11 S11].
  rewrite S3. cbn [bind]. rewrite (rep_substitute pr c W _ _ 3 _ ltac:(lia) S3). cbn [bind].
  rewrite S11. cbn [bind]. rewrite (rep_substitute pr c W _ _ 11 _ ltac:(lia) S11). cbn [bind].
  rewrite change_bwd by auto. cbn [bind]. rewrite DC. change (Z.to_nat (3 mod (2 * Z.of_nat 8))) with 3%nat. change (Z.to_nat (11 mod (2 * Z.of_nat 8))) with 11%nat.
  f_equal. f_equal. apply rep_ext; auto. intros j Hj. rewrite DC in Hj. apply rsubst_3_11; auto.
Qed.

(** C72: the modulus switching test passes. *)
Lemma switch_loop_eq pr c p l : mod_switch_test_loop pr c p l =
  match rq_next c with
  | None => Ok tt
  | Some c' =>
      poly' <- mod_switch_down_next pr p ;;
      rassert (ctx_eqb (p_ctx poly') c') ;;;
      b <- poly_to_big poly' ;;
      let expected := map (fun coeff => ((coeff * rns_product (rq_rns c') + Z.shiftr (rns_product (rq_rns c)) 1) / rns_product (rq_rns c)) mod rns_product (rq_rns c')) l in
      rassert (zlist_eqb b expected) ;;;
      mod_switch_test_loop pr c' poly' expected
  end.
Proof. destruct c. reflexivity. Qed.
Lemma odd_zprod l : Forall (fun q => q mod 2 = 1) l -> zprod l mod 2 = 1.
Proof.
  intros H. induction H as [|q l Hq _ IH]; [reflexivity|]. change (zprod (q :: l)) with (q * zprod l).
  rewrite Z.mul_mod, Hq, IH by lia. reflexivity.
Qed.
Lemma half_round f Q q : 0 < Q -> 0 < q -> Q mod 2 = 1 -> q mod 2 = 1 -> (f * Q + (Q * q) / 2) / (Q * q) = (f + q / 2) / q.
Proof.
  intros HQ Hq OQ Oq. pose proof (Z.div_mod Q 2 ltac:(lia)) as A. pose proof (Z.div_mod q 2 ltac:(lia)) as B. rewrite OQ in A. rewrite Oq in B.
  set (a := q / 2) in *. set (b := Q / 2) in *.
  assert (E : Q * q / 2 = Q * a + b). { symmetry. apply Z.div_unique with 1; [lia|]. rewrite A, B. ring. }
  rewrite E. rewrite <- Z.div_div by lia. f_equal. symmetry. apply Z.div_unique with b; [lia|]. ring.
Qed.
Lemma switch_loop_passes pr : forall k c f l, wf_ctx c -> cx_k c = k -> Forall (fun q => q mod 2 = 1) (rq_moduli_64 c) ->
  l = map f (seq 0 (rq_degree c)) -> (forall j, 0 <= f j < cx_Q c) ->
  mod_switch_test_loop pr c (rep c PowerBasis f) l = Ok tt.
Proof.
  induction k as [|k IH]; intros c f l WC HK HO HL HF; pose proof (wf_ctx_loc _ WC) as W.
  { pose proof (wl_ne _ W). lia. }
  rewrite switch_loop_eq. destruct (rq_next c) as [c'|] eqn:EN; [|reflexivity].
  destruct (wl_some _ W c' EN) as [H2 [Em [Ed _]]]. pose proof (wf_ctx_next _ _ WC EN) as WC'. pose proof (wf_ctx_loc _ WC') as W'.
  rewrite (rep_msd pr c c' W EN). cbn [bind p_ctx]. change (p_ctx (rep c' PowerBasis _)) with c'. rewrite ctx_eqb_refl. cbn [rassert bind].
  set (ql := cx_q c (cx_k c - 1)).
  pose proof (next_Q c c' W EN) as EQ. fold ql in EQ.
  set (f' := fun j => ((f j + ql / 2) / ql) mod cx_Q c'). pose proof (cx_Q1 c' W') as Q1.
  replace (rep c' PowerBasis (fun j => (f j + ql / 2) / ql)) with (rep c' PowerBasis f').
  2:{ unfold f'. apply rep_eqm; auto. intros j Hj. unfold eqm. apply Z.mod_mod. lia. }
  rewrite rep_to_big by auto. cbn [bind]. rewrite !rns_product_Q by auto.
  rewrite HL, map_map. cbv zeta. rewrite <- Ed.
  assert (EE : map (fun j => f' j mod cx_Q c') (seq 0 (rq_degree c')) = map f' (seq 0 (rq_degree c'))).
  { apply map_ext. intros j. unfold f'. apply Z.mod_mod. lia. }
  assert (ER : map (fun x => ((f x * cx_Q c' + Z.shiftr (cx_Q c) 1) / cx_Q c) mod cx_Q c') (seq 0 (rq_degree c')) = map f' (seq 0 (rq_degree c'))).
  { apply map_ext. intros j. unfold f'. f_equal. rewrite Z.shiftr_div_pow2 by lia. change (2 ^ 1) with 2. rewrite EQ.
    pose proof (cx_range c W (cx_k c - 1) ltac:(lia)) as R. fold ql in R. apply half_round; try lia.
    - unfold cx_Q. apply odd_zprod. rewrite Em. apply Forall_forall. intros q Hq. rewrite Forall_forall in HO. apply HO. eapply firstn_in; eauto.
    - rewrite Forall_forall in HO. apply HO. unfold ql, cx_q. apply nth_In. unfold cx_k in *. lia. }
  rewrite EE, ER, zlist_refl. cbn [rassert bind]. apply IH; auto.
  - unfold cx_k in *. rewrite Em, firstn_length. lia.
  - rewrite Em. apply Forall_forall. intros q Hq. rewrite Forall_forall in HO. apply HO. eapply firstn_in; eauto.
  - intros j. unfold f'. apply Z.mod_pos_bound. lia.
Qed.
Lemma C72_mod_switch_lem :
  forall pr env c rows, env_ok env -> rq_new pr env test_moduli 8 (mkBD 4 3) = Ok c ->
    wf_poly (mkPoly c PowerBasis rows) -> test_mod_switch pr env rows = Ok tt.
Proof.
  intros pr env c rows EO EC WR. unfold test_mod_switch. rewrite EC. cbn [bind].
  destruct (rq_new_inv pr env EO _ _ _ _ test_moduli_pos EC) as [WC [MC [DC _]]]. pose proof (wf_ctx_loc _ WC) as W. unfold poly_random.
  destruct (wf_rep pr c W (mkPoly c PowerBasis rows) eq_refl WR) as [f [HF E]]. cbn [p_repr] in E. rewrite E.
  rewrite rep_to_big by auto. cbn [bind]. eapply switch_loop_passes; eauto.
  - rewrite MC. repeat constructor.
  - apply map_ext. intros j. apply Z.mod_small, HF.
Qed.

(** What the tests share: default parameters of degree 8 and a generated key. *)
Section Def.
Variables (pr : profile) (env : Env) (k : nat) (P : BfvParams) (c : RqContext).
Hypotheses (EX : env_exact env) (HK : (1 <= k <= 31)%nat) (EP : bfv_default pr env k 8 (mkBD 4 8) = Ok P) (L : level P 0 c).

Lemma def_facts : built_params P /\ bp_degree P = 8%nat /\ bp_t P = 1153 /\ bp_variance P = 10 /\ length (bp_moduli P) = k
  /\ wf_bfv P /\ wf_level P 0 c /\ wf_loc c /\ rq_degree c = 8%nat /\ small_basis (rq_moduli_64 c) /\ 2 * bp_t P <= cx_q c 0
  /\ 2 ^ (61 * Z.of_nat k) <= cx_Q c /\ 0 <= ks_bound c 20 <= Z.of_nat k * 737869762948382064640.
Proof.
  destruct (default_inv pr env k 8 _ P EX ltac:(lia) EP) as [B [D1 [D2 [D3 [D4 _]]]]].
  destruct (default_level pr env k 8 _ P 0 c EX ltac:(lia) EP L) as [SB [Hq [HQ [HKB _]]]]. rewrite Nat.sub_0_r in *.
  pose proof (built_params_wf P B) as WB. destruct (level_wf P 0 c WB L) as [_ LV]. pose proof (wf_ctx_loc _ (lv_wf _ _ _ LV)) as W.
  repeat (split; [solve [auto]|]). split; [rewrite (lv_n _ _ _ LV); auto|]. repeat (split; [solve [auto]|]). split; [|lia].
  unfold ks_bound. apply Z.mul_nonneg_nonneg; [lia|]. apply sumn_nonneg. intros i Hi. pose proof (cx_range c W i Hi). lia.
Qed.
Lemma def_key wsk : (forall j, 0 <= wsk j < 2 ^ 64) -> exists sk, sk_generate pr P wsk = Ok sk /\ sk_params sk = P /\ sk_ok sk /\ l1norm 8 (sk_fun sk) <= 160.
Proof.
  intros HW. destruct def_facts as [B [D1 [D2 [D3 _]]]].
  destruct (C30_keygen_lem pr P wsk B ltac:(lia) HW) as [sk [ES [SP [SO [SL SF]]]]]. exists sk. repeat (split; [solve [auto]|]).
  unfold l1norm. rewrite D3 in SF. clear - SF. change 160 with (20 * Z.of_nat 8). generalize 8%nat as m. induction m as [|m IH]; cbn [sumn]; [lia|].
  assert (Z.abs (sk_fun sk m) <= 20); [|lia]. unfold sk_fun. destruct (nth_in_or_default m (sk_coeffs sk) 0) as [I| ->]; [|lia].
  rewrite Forall_forall in SF. specialize (SF _ I). lia.
Qed.
Lemma def_pt vals : (length vals <= 8)%nat -> pt_new pr P vals 0 EncPoly = Ok (mkPt P 0 EncPoly (vals ++ repeat 0 (8 - length vals))).
Proof. intros H. destruct def_facts as [_ [D1 _]]. unfold pt_new. rewrite D1, copy_prefix_pad by auto. reflexivity. Qed.
Lemma def_decrypt sk h0 h1 f v m E Bd : sk_params sk = P -> sk_ok sk ->
  (forall j, (j < 8)%nat -> phase 8 (sk_fun sk) [h0; h1] j mod cx_Q c = (f j + v j) mod cx_Q c) ->
  carries 8 (cx_Q c) 1153 f m E -> (forall j, (j < 8)%nat -> Z.abs (E j) + 1153 * Z.abs (v j) <= Bd) -> 4 * Bd <= 2 ^ (61 * Z.of_nat k) ->
  decrypt pr sk (mkCt P [rep c Ntt h0; rep c Ntt h1] 0) = Ok (mkPt P 0 EncNone (map (fun j => m j mod 1153) (seq 0 8))).
Proof.
  intros SP SO HP HC HE HB. destruct def_facts as [B [D1 [D2 [D3 [D4 [WB [LV [W [DC [SB [Hq [HQ HKB]]]]]]]]]]]].
  pose proof (decrypt_shift pr P 0 c sk h0 h1 f v m E Bd B L SP SO SB Hq) as X. rewrite D1, D2 in X. apply X; auto.
  change (2 ^ 54) with 18014398509481984. pose proof (HE 0%nat ltac:(lia)). lia.
Qed.
Lemma def_carries_rmul f m E h : carries 8 (cx_Q c) 1153 f m E -> carries 8 (cx_Q c) 1153 (rmul 8 f h) (rmul 8 m h) (rmul 8 E h).
Proof. destruct def_facts as [_ [D1 [D2 _]]]. pose proof (carries_rmul P c f m E h) as X. rewrite D1, D2 in X. exact X. Qed.
End Def.

Lemma allmod l n : length l = n -> Forall (fun x => 0 <= x < 1153) l -> map (fun j => nth j l 0 mod 1153) (seq 0 n) = l.
Proof.
  intros H1 H2. apply (nth_ext _ _ 0 0); [rewrite map_length, seq_length; auto|]. intros j Hj. rewrite map_length, seq_length in Hj.
  rewrite nth_map_seq by auto. apply Z.mod_small. rewrite Forall_forall in H2. apply H2. apply nth_In. lia.
Qed.
Lemma all64 l : Forall (fun x => 0 <= x < 1153) l -> Forall (fun x => 0 <= x < 2 ^ 64) l.
Proof. apply Forall_impl. intros x H. change (2 ^ 64) with 18446744073709551616. lia. Qed.

(** C72: the polynomial half of the encryption test passes; the SIMD half passes
    exactly when three pairs of the random values agree. *)
Definition simd_same (v : list Z) : bool := (nth 2 v 0 =? nth 7 v 0) && (nth 4 v 0 =? nth 6 v 0) && (nth 5 v 0 =? nth 7 v 0).
Definition enc_ok (c : RqContext) (r : RndEnc) : Prop := wf_poly (mkPoly c Ntt (re_rows r)) /\ forall j, 0 <= re_words r j < 2 ^ 64.
Lemma C72_encrypt_decrypt_poly_lem :
  forall pr env k P c wsk sk vals r, env_exact env -> (1 <= k <= 31)%nat -> bfv_default pr env k 8 (mkBD 4 8) = Ok P -> level P 0 c ->
    (forall j, 0 <= wsk j < 2 ^ 64) -> sk_generate pr P wsk = Ok sk -> enc_ok c r ->
    length vals = 8%nat -> Forall (fun x => 0 <= x < 1153) vals ->
    test_encrypt_decrypt_poly pr P sk vals r = Ok tt.
Proof.
  intros pr env k P c wsk sk vals r EX HK EP L HW ES [R1 R2] HL HV.
  destruct (def_facts pr env k P c EX HK EP L) as [B [D1 _]].
  unfold test_encrypt_decrypt_poly. rewrite (def_pt pr env k P c EX HK EP L) by lia. cbn [bind]. rewrite HL, Nat.sub_diag. cbn [repeat]. rewrite app_nil_r.
  pose proof (C68_encrypt_lem pr env k 8 _ P c wsk sk (mkPt P 0 EncPoly vals) (re_rows r) (re_words r) EX ltac:(lia) EP L HW ES eq_refl eq_refl (all64 _ HV) ltac:(cbn [pt_values]; lia) R1 R2) as E.
  cbn [pt_values] in E. rewrite allmod in E by auto. apply bind_inv in E. destruct E as [ct [E1 E2]]. rewrite E1. cbn [bind]. rewrite E2. cbn [bind].
  unfold pt_decode, pt_set_encoding. cbn [pt_enc pt_params pt_values]. rewrite D1, HL. cbn [Nat.eqb rassert bind]. rewrite zlist_refl. reflexivity.
Qed.
Lemma C72_encrypt_decrypt_simd_lem :
  forall pr env k P c wsk sk vals r, env_exact env -> (1 <= k <= 31)%nat -> bfv_default pr env k 8 (mkBD 4 8) = Ok P -> level P 0 c ->
    (forall j, 0 <= wsk j < 2 ^ 64) -> sk_generate pr P wsk = Ok sk -> enc_ok c r ->
    length vals = 8%nat -> Forall (fun x => 0 <= x < 1153) vals ->
    test_encrypt_decrypt_simd pr P sk vals r = if simd_same vals then Ok tt else Panic.
Proof.
  intros pr env k P c wsk sk vals r EX HK EP L HW ES [R1 R2] HL HV.
  destruct (def_facts pr env k P c EX HK EP L) as [B [D1 [D2 [_ [_ [WB _]]]]]].
  unfold test_encrypt_decrypt_simd.
  destruct (simd_ok pr P WB vals 0 ltac:(rewrite D1; lia) ltac:(rewrite D2; auto)) as [pt [v [E1 [PP [PL [LP [FP [E2 [Lv HR]]]]]]]]].
  rewrite D1 in *. rewrite D2 in *. rewrite E1. cbn [bind].
  pose proof (C68_encrypt_lem pr env k 8 _ P c wsk sk pt (re_rows r) (re_words r) EX ltac:(lia) EP L HW ES PP PL (all64 _ FP) ltac:(lia) R1 R2) as E.
  rewrite allmod in E by auto. apply bind_inv in E. destruct E as [ct [E3 E4]]. rewrite E3. cbn [bind]. rewrite E4. cbn [bind].
  assert (EE : pt_enc pt = EncSIMD).
  { unfold pt_new in E1. binv E1. apply Ok_inj in E1. rewrite <- E1. reflexivity. }
  replace (pt_set_encoding (mkPt P 0 EncNone (pt_values pt)) EncSIMD) with pt.
  2:{ destruct pt as [p1 l1 e1 v1]. cbn [pt_params pt_level pt_enc pt_values] in *. unfold pt_set_encoding. cbn [pt_params pt_level pt_enc pt_values]. congruence. }
  rewrite E2. cbn [bind].
  assert (EM : bp_index_map P = [0; 4; 1; 5; 3; 1; 3; 1]%nat) by (pose proof (wb_map P WB) as X; rewrite D1 in X; vm_compute in X; apply Ok_inj in X; auto).
  rewrite EM in HR.
  assert (LW : forall i j, (i < 8)%nat -> (j < 8)%nat -> nth j [0; 4; 1; 5; 3; 1; 3; 1]%nat 0%nat = nth i [0; 4; 1; 5; 3; 1; 3; 1]%nat 0%nat ->
    forallb (fun j' => (j' <=? j)%nat || negb (nth j' [0; 4; 1; 5; 3; 1; 3; 1] 0 =? nth i [0; 4; 1; 5; 3; 1; 3; 1] 0)%nat) (seq 0 8) = true -> nth i v 0 = nth j vals 0).
  { intros i j Hi Hj H1 H2. apply HR; auto. split; auto. split; auto. intros j' Hj'. rewrite forallb_forall in H2.
    specialize (H2 j' ltac:(apply in_seq; lia)). apply orb_true_iff in H2. destruct H2 as [H2|H2].
    - apply Nat.leb_le in H2. lia.
    - apply negb_true_iff, Nat.eqb_neq in H2. auto. }
  pose proof (LW 0%nat 0%nat ltac:(lia) ltac:(lia) eq_refl eq_refl) as V0. pose proof (LW 1%nat 1%nat ltac:(lia) ltac:(lia) eq_refl eq_refl) as V1.
  pose proof (LW 2%nat 7%nat ltac:(lia) ltac:(lia) eq_refl eq_refl) as V2. pose proof (LW 3%nat 3%nat ltac:(lia) ltac:(lia) eq_refl eq_refl) as V3.
  pose proof (LW 4%nat 6%nat ltac:(lia) ltac:(lia) eq_refl eq_refl) as V4. pose proof (LW 5%nat 7%nat ltac:(lia) ltac:(lia) eq_refl eq_refl) as V5.
  pose proof (LW 6%nat 6%nat ltac:(lia) ltac:(lia) eq_refl eq_refl) as V6. pose proof (LW 7%nat 7%nat ltac:(lia) ltac:(lia) eq_refl eq_refl) as V7.
  clear - HL Lv V0 V1 V2 V3 V4 V5 V6 V7. unfold simd_same.
  do 8 (destruct vals as [|? vals]; [discriminate|]). destruct vals; [|discriminate]. do 8 (destruct v as [|? v]; [discriminate|]). destruct v; [|discriminate].
  cbn [nth] in *. subst. cbn [zlist_eqb]. rewrite !Z.eqb_refl. cbn [andb]. rewrite !andb_true_r.
  rewrite !andb_assoc. match goal with |- rassert (if ?b then _ else _) = _ => destruct b end || match goal with |- rassert ?b = (if ?b' then _ else _) => replace b' with b by reflexivity; destruct b end; reflexivity.
Qed.
Lemma C72_encrypt_decrypt_lem :
  forall pr env P c wsk vals r1 r2, env_exact env -> bfv_default pr env 6 8 (mkBD 4 8) = Ok P -> level P 0 c ->
    (forall j, 0 <= wsk j < 2 ^ 64) -> enc_ok c r1 -> enc_ok c r2 ->
    length vals = 8%nat -> Forall (fun x => 0 <= x < 1153) vals ->
    test_encrypt_decrypt pr env wsk vals r1 r2 = if simd_same vals then Ok tt else Panic.
Proof.
  intros pr env P c wsk vals r1 r2 EX EP L HW R1 R2 HL HV. unfold test_encrypt_decrypt. rewrite EP. cbn [bind].
  destruct (def_key pr env 6 P c EX ltac:(lia) EP L wsk HW) as [sk [ES _]]. rewrite ES. cbn [bind].
  rewrite (C72_encrypt_decrypt_poly_lem pr env 6 P c wsk sk vals r1) by (auto; lia). cbn [bind].
  apply (C72_encrypt_decrypt_simd_lem pr env 6 P c wsk); auto; lia.
Qed.

(** The context of the plaintext modulus that two tests build. *)
Lemma pc_facts pr env pc : env_exact env -> rq_new pr env [1153] 8 (mkBD 4 8) = Ok pc ->
  wf_loc pc /\ rq_degree pc = 8%nat /\ cx_k pc = 1%nat /\ cx_Q pc = 1153 /\ cx_q pc 0 = 1153.
Proof.
  intros [E1 E2] H. assert (EO : env_ok env) by (split; auto; intros x Hx Hp; apply E1; auto).
  destruct (rq_new_inv pr env EO [1153] _ _ _ ltac:(repeat constructor; lia) H) as [WC [MC [DC _]]].
  split; [apply wf_ctx_loc; auto|]. split; auto. unfold cx_k, cx_Q, cx_q. rewrite MC. split; [|split]; reflexivity.
Qed.

(** C72: the Galois key test passes. *)
Lemma C72_galois_key_lem :
  forall pr env P c pc wsk v r rk, env_exact env -> bfv_default pr env 2 8 (mkBD 4 8) = Ok P -> level P 0 c ->
    rq_new pr env [1153] 8 (mkBD 4 8) = Ok pc -> (forall j, 0 <= wsk j < 2 ^ 64) -> enc_ok c r -> rnd_ok c rk ->
    length v = 8%nat -> Forall (fun x => 0 <= x < 1153) v ->
    test_galois_key pr env wsk v r rk = Ok tt.
Proof.
  intros pr env P c pc wsk v r rk EX EP L EC HW [R1 R2] RK HL HV. unfold test_galois_key. rewrite EP. cbn [bind].
  destruct (def_facts pr env 2 P c EX ltac:(lia) EP L) as [B [D1 [D2 [D3 [D4 [WB [LV [W [DC [SB [Hq [HQ HKB]]]]]]]]]]]].
  destruct (def_key pr env 2 P c EX ltac:(lia) EP L wsk HW) as [sk [ES [SP [SO SL]]]]. rewrite ES. cbn [bind].
  pose proof L as L'. unfold level in L'. rewrite L'. cbn [bind].
  destruct (fresh_carried pr P c sk (mkPt P 0 EncPoly v) (re_rows r) (re_words r) B L SP SO ltac:(lia) eq_refl eq_refl (all64 _ HV) ltac:(cbn [pt_values]; lia) R1 R2) as [ct [E1 [f0 [f1 [E [ECT [HC HB]]]]]]].
  cbn [pt_values] in *.
  pose proof (C38_decrypt_lem pr P 0 c sk rk 3 f0 f1 _ E (fresh_noise P) B L SP SO ltac:(lia) RK ltac:(lia) eq_refl ltac:(lia) ltac:(right; lia) SB Hq HC HB) as X.
  rewrite D1, D2, D3 in X. unfold fresh_noise in X. rewrite D2, D3 in X.
  assert (X0 : 2 ^ 54 * (2 * (1153 * (2 * 10 + 2) + 1153 * ks_bound c (2 * 10))) <= (2 ^ 54 - 1) * cx_Q c).
  { change (2 * 10) with 20. change (2 ^ 54) with 18014398509481984. change (2 ^ (61 * Z.of_nat 2)) with 5316911983139663491615228241121378304 in HQ. lia. }
  specialize (X X0). clear X0.
  binv X. rename v0 into g, E0 into EG. binv X. rename v0 into gk, E0 into EK. binv X. rename v0 into ct2, E0 into ER.
  rewrite EG. cbn [bind]. rewrite EK. cbn [bind]. rewrite (def_pt pr env 2 P c EX ltac:(lia) EP L) by lia. cbn [bind].
  rewrite HL. cbn [Nat.sub repeat]. rewrite app_nil_r. rewrite E1. cbn [bind]. rewrite ECT, ER. cbn [bind]. rewrite X. cbn [bind].
  rewrite D2, D1, EC. cbn [bind]. destruct (pc_facts pr env pc EX EC) as [Wp [Dp [Kp [Qp qp]]]].
  rewrite (rep_from_u64 pr pc Wp v (all64 _ HV)) by lia. cbn [bind].
  assert (EG' : subst_new pr pc 3 = Ok g) by (rewrite <- EG; unfold subst_new; rewrite Dp, DC; reflexivity).
  rewrite (rep_substitute pr pc Wp _ _ 3 g ltac:(lia) EG'). cbn [bind]. rewrite rep_to_u64 by auto. cbn [bind pt_values].
  rewrite Dp, Qp. change (Z.to_nat (3 mod (2 * Z.of_nat 8))) with (Z.to_nat 3).
  match goal with |- rassert (zlist_eqb ?a ?b) = _ => replace b with a; [rewrite zlist_refl; reflexivity|] end.
  apply map_ext. intros j. reflexivity.
Qed.

Lemma m1153 : exists tm, modulus_new 1153 = Ok tm.
Proof. eexists. vm_compute. reflexivity. Qed.

(** C72: the external product test passes. *)
Lemma l1_vals v : Forall (fun x => 0 <= x < 1153) v -> forall j, 0 <= nth j v 0 < 1153.
Proof. intros H j. destruct (nth_in_or_default j v 0) as [I| ->]; [|lia]. rewrite Forall_forall in H. apply H; auto. Qed.
Lemma C72_external_product_lem :
  forall pr env P c pc wsk v1 v2 r rk0 rk1, env_exact env -> bfv_default pr env 6 8 (mkBD 4 8) = Ok P -> level P 0 c ->
    rq_new pr env [1153] 8 (mkBD 4 8) = Ok pc -> (forall j, 0 <= wsk j < 2 ^ 64) -> enc_ok c r -> rnd_ok c rk0 -> rnd_ok c rk1 ->
    length v1 = 8%nat -> Forall (fun x => 0 <= x < 1153) v1 -> length v2 = 8%nat -> Forall (fun x => 0 <= x < 1153) v2 ->
    test_external_product pr env wsk v1 v2 r rk0 rk1 = Ok tt.
Proof.
  intros pr env P c pc wsk v1 v2 r rk0 rk1 EX EP L EC HW [R1 R2] RK0 RK1 HL1 HV1 HL2 HV2. unfold test_external_product. rewrite EP. cbn [bind].
  destruct (def_facts pr env 6 P c EX ltac:(lia) EP L) as [B [D1 [D2 [D3 [D4 [WB [LV [W [DC [SB [Hq [HQ HKB]]]]]]]]]]]].
  destruct (def_key pr env 6 P c EX ltac:(lia) EP L wsk HW) as [sk [ES [SP [SO SL]]]]. rewrite ES. cbn [bind].
  rewrite (def_pt pr env 6 P c EX ltac:(lia) EP L) by lia. cbn [bind]. rewrite HL1. cbn [Nat.sub repeat]. rewrite app_nil_r.
  destruct (fresh_carried pr P c sk (mkPt P 0 EncPoly v1) (re_rows r) (re_words r) B L SP SO ltac:(lia) eq_refl eq_refl (all64 _ HV1) ltac:(cbn [pt_values]; lia) R1 R2) as [ct [E1 [f0 [f1 [E [ECT [HC HB]]]]]]].
  cbn [pt_values] in *. rewrite E1. cbn [bind]. pose proof L as L'. unfold level in L'. rewrite L'. cbn [bind].
  rewrite (rep_from_u64 pr c W v2 (all64 _ HV2)) by lia. cbn [bind]. rewrite change_fwd by auto. cbn [bind].
  set (m2 := fun j => nth j v2 0).
  destruct (C40_external_poly_lem pr P 0 c sk m2 rk0 rk1 B L SP SO ltac:(lia) RK0 RK1) as [rg [ER HX]]. rewrite ER. cbn [bind].
  destruct (HX f0 f1) as [h0 [h1 [w [EE HH]]]]. rewrite ECT, EE. cbn [bind]. clear HX.
  rewrite D1 in *. rewrite D2 in *. rewrite D3 in *. change (2 * 10) with 20 in HH. unfold fresh_noise in HB. rewrite D2, D3 in HB.
  rewrite (def_decrypt pr env 6 P c EX ltac:(lia) EP L sk h0 h1 (rmul 8 (phase 8 (sk_fun sk) [f0; f1]) m2) w (rmul 8 (coeffs v1) m2) (rmul 8 E m2)
    (8 * (1153 * 22 * 1153) + 1153 * (2 * (6 * 737869762948382064640))) SP SO).
  2:{ intros j Hj. rewrite (rmul_comm 8 _ m2). apply (HH j Hj). }
  2:{ apply (def_carries_rmul pr env 6 P c EX ltac:(lia) EP L). exact HC. }
  2:{ intros j Hj. destruct (HH j Hj) as [_ Hw].
      pose proof (rmul_bound 8 ltac:(lia) E m2 (1153 * 22) 1153 j Hj ltac:(lia) HB ltac:(intros i Hi; pose proof (l1_vals v2 HV2 i); unfold m2; lia)) as X.
      clear - X Hw HKB. lia. }
  2:{ change (2 ^ (61 * Z.of_nat 6)) with (2 ^ 366). vm_compute. discriminate. }
  cbn [bind pt_values]. rewrite EC. cbn [bind]. destruct (pc_facts pr env pc EX EC) as [Wp [Dp [Kp [Qp qp]]]].
  rewrite (rep_from_u64 pr pc Wp v1 (all64 _ HV1)) by lia. cbn [bind]. rewrite (rep_from_u64 pr pc Wp v2 (all64 _ HV2)) by lia. cbn [bind].
  rewrite !change_fwd by auto. cbn [bind]. rewrite rep_mul by auto. cbn [bind]. rewrite change_bwd by auto. cbn [bind].
  destruct m1153 as [tm EM]. rewrite EM. cbn [bind]. destruct (modulus_new_valid 1153 tm ltac:(lia) EM) as [VM PM].
  rewrite rep_rows. fold (cx_k pc). rewrite Kp. change (seq 0 1) with [0%nat]. cbn [map concat]. rewrite app_nil_r. unfold rrow, rep_entry. rewrite qp, Dp.
  rewrite reduce_vec_u64_ok; auto.
  2:{ apply Forall_forall. intros x Hx. apply in_map_iff in Hx. destruct Hx as [j [<- _]]. pose proof (Z.mod_pos_bound (rmul 8 (fun j0 => nth j0 v1 0) (fun j0 => nth j0 v2 0) j) 1153 ltac:(lia)). change W64 with 18446744073709551616. lia. }
  cbn [bind]. rewrite PM, map_map.
  match goal with |- rassert (zlist_eqb ?a ?b) = _ => replace b with a; [rewrite zlist_refl; reflexivity|] end.
  apply map_ext. intros j. rewrite Z.mod_mod by lia. reflexivity.
Qed.

(** C72: the multiplication test prints 20000 mod 1153 = 399. *)
Lemma C72_mul_op_lem :
  forall pr env P c wsk r1 r2 rk, env_exact env -> bfv_default pr env 6 8 (mkBD 4 8) = Ok P -> level P 0 c ->
    (forall j, 0 <= wsk j < 2 ^ 64) -> enc_ok c r1 -> enc_ok c r2 -> rnd_ok c rk ->
    test_mul_op pr env wsk r1 r2 rk = Ok [399; 0; 0; 0; 0; 0; 0; 0].
Proof.
  intros pr env P c wsk r1 r2 rk EX EP L HW [R1 R2] [R3 R4] RK. unfold test_mul_op. rewrite EP. cbn [bind].
  destruct (def_facts pr env 6 P c EX ltac:(lia) EP L) as [B [D1 [D2 [D3 [D4 [WB [LV [W [DC [SB [Hq [HQ HKB]]]]]]]]]]]].
  destruct (default_level pr env 6 8 _ P 0 c EX ltac:(lia) EP L) as [_ [_ [_ [_ [ec [GE [SE QE]]]]]]].
  destruct (def_key pr env 6 P c EX ltac:(lia) EP L wsk HW) as [sk [ES [SP [SO SL]]]]. rewrite ES. cbn [bind].
  rewrite !(def_pt pr env 6 P c EX ltac:(lia) EP L) by (cbn; lia). cbn [bind app length Nat.sub repeat].
  destruct (fresh_carried pr P c sk (mkPt P 0 EncPoly [100; 0; 0; 0; 0; 0; 0; 0]) (re_rows r1) (re_words r1) B L SP SO ltac:(lia) eq_refl eq_refl ltac:(repeat constructor; lia) ltac:(cbn; lia) R1 R2) as [ct1 [E1 [f0 [f1 [E [ECT [HC HB]]]]]]].
  destruct (fresh_carried pr P c sk (mkPt P 0 EncPoly [200; 0; 0; 0; 0; 0; 0; 0]) (re_rows r2) (re_words r2) B L SP SO ltac:(lia) eq_refl eq_refl ltac:(repeat constructor; lia) ltac:(cbn; lia) R3 R4) as [ct2 [E2 [g0 [g1 [E' [ECT' [HC' HB']]]]]]].
  cbn [pt_values] in *. rewrite E1. cbn [bind]. rewrite E2. cbn [bind].
  pose proof (C36_decrypt_lem pr P 0 c ec sk rk f0 f1 g0 g1 (coeffs [100; 0; 0; 0; 0; 0; 0; 0]) (coeffs [200; 0; 0; 0; 0; 0; 0; 0]) E E' (fresh_noise P) 160 B L GE SP SO ltac:(lia) RK SB SE Hq QE) as X. cbv zeta in X.
  unfold fresh_noise in *. rewrite D1, D2, D3 in *. change (2 * 10) with 20 in *.
  change (2 ^ (61 * Z.of_nat 6)) with 150306725297525326584926758194517569752043683130132471725266622178061377607334940381676735896625196994043838464 in HQ.
  specialize (X SL ltac:(lia) ltac:(lia) HC HC').
  assert (M1 : forall a j, 0 <= a < 1153 -> 0 <= coeffs [a; 0; 0; 0; 0; 0; 0; 0] j < 1153).
  { intros a j Ha. apply l1_vals. repeat constructor; lia. }
  specialize (X ltac:(intros; apply M1; lia) ltac:(intros; apply M1; lia) HB HB').
  assert (X0 : 2 ^ 54 * (2 * (mul_noise 8 1153 (1153 * (20 + 2)) 160 + 1153 * ks_bound c 20)) <= (2 ^ 54 - 1) * cx_Q c).
  { unfold mul_noise. change (2 ^ 54) with 18014398509481984. lia. }
  specialize (X X0). clear X0. binv X. rename v into rl, E0 into ERL. binv X. rename v into ct3, E0 into E3.
  rewrite ERL. cbn [bind]. rewrite ECT, ECT', E3. cbn [bind]. rewrite X. cbn [bind pt_values]. vm_compute. reflexivity.
Qed.

(** Exact error terms of keys and ciphertexts. *)
Section Exact.
Variables (pr : profile) (P : BfvParams) (c : RqContext).
Hypotheses (B : built_params P) (L : level P 0 c).
Lemma ksk_new_exact sk u rnd : sk_params sk = P -> sk_ok sk -> 1 <= bp_variance P <= 16 -> rnd_ok c rnd ->
  exists k, ksk_new pr sk (rep c Ntt u) 0 0 rnd = Ok k /\ ksk_for P c k (sk_fun sk) u (fun i => cbd_f (rnd_words rnd i) (bp_variance P)).
Proof.
  intros SP [S1 S2] Hv HR. rewrite SP in S2. pose proof (built_params_wf P B) as WB. destruct (level_wf P 0 c WB L) as [_ LV].
  pose proof (wf_ctx_loc _ (lv_wf _ _ _ LV)) as W.
  destruct (ksk_entries pr P 0 c LV (sk_fun sk) u rnd (bp_variance P) Hv HR) as [a [Ea HM]].
  unfold ksk_new. rewrite SP. rewrite (lv_ctx _ _ _ LV). cbn [bind]. rewrite (sk_ntt_ok pr P 0 c LV) by auto. cbn [bind].
  change (fun j => nth j (sk_coeffs sk) 0) with (sk_fun sk).
  assert (Lk : length (rns_moduli (rq_rns c)) = cx_k c).
  { rewrite <- (wl_mod _ W). apply (cx_moduli_len c W). }
  rewrite Lk, Ea, len_seq.
  assert (EG : rns_garner (rq_rns c) = map (fun i => nth i (rns_garner (rq_rns c)) 0) (seq 0 (cx_k c))).
  { apply list_seq. apply (wr_gl _ _ (wl_rns _ W)). }
  rewrite EG. rewrite HM. cbn [bind].
  eexists. split; [reflexivity|]. split; [reflexivity|]. split; [reflexivity|]. split; [reflexivity|].
  eexists. exists a. exists (fun i => nth i (rns_garner (rq_rns c)) 0). split; [apply (gadget_garner P 0 c LV)|]. cbn [k_c0 k_c1].
  split; [reflexivity|]. split; [reflexivity|]. intros i j Hi Hj. rewrite phase2. f_equal.
  rewrite (rmul_comm _ (sk_fun sk)). ring.
Qed.
Lemma encrypt_poly_exact sk u rows w : sk_params sk = P -> sk_ok sk -> wf_poly (mkPoly c Ntt rows) ->
  1 <= bp_variance P <= 16 -> (forall k, 0 <= w k < 2 ^ 64) ->
  exists f0 f1, encrypt_poly pr sk (rep c Ntt u) rows w = Ok (mkCt P [rep c Ntt f0; rep c Ntt f1] 0)
    /\ forall j, (j < bp_degree P)%nat -> phase (bp_degree P) (sk_fun sk) [f0; f1] j = u j + cbd_f w (bp_variance P) j.
Proof.
  intros SP [S1 S2] HR HV HW. rewrite SP in S2. pose proof (built_params_wf P B) as WB. destruct (level_wf P 0 c WB L) as [_ LV].
  pose proof (wf_ctx_loc _ (lv_wf _ _ _ LV)) as W. pose proof (lv_n _ _ _ LV) as EN.
  destruct (poly_random_rep pr P 0 c LV rows HR) as [a Ea].
  unfold encrypt_poly. change (p_ctx (rep c Ntt u)) with c. rewrite (sk_ntt_ok pr P 0 c LV) by auto. cbn [bind].
  rewrite Ea. rewrite rep_mul by auto. cbn [bind]. rewrite SP.
  rewrite rep_random_small by (auto; congruence). cbn [bind]. rewrite rep_sub by auto. cbn [bind]. rewrite rep_add by auto. cbn [bind].
  eexists _, a. split; [reflexivity|]. intros j Hj. rewrite <- EN. rewrite phase2. rewrite (rmul_comm _ (sk_fun sk)). unfold sk_fun. ring.
Qed.
End Exact.

(** The key-switching test: what the difference polynomial is. *)
Lemma test_ksk_run pr env P c wsk fr ir rk limit : env_exact env -> bfv_default pr env 2 8 (mkBD 4 8) = Ok P -> level P 0 c ->
  (forall j, 0 <= wsk j < 2 ^ 64) -> wf_poly (mkPoly c Ntt fr) -> wf_poly (mkPoly c PowerBasis ir) -> rnd_ok c rk ->
  exists p, mkPoly c PowerBasis ir = rep c PowerBasis p /\
  test_ksk pr env limit wsk fr ir rk =
  foldM (fun _ b => rassert (Z.min (bitlen b) (bitlen (cx_Q c - b)) <=? limit))
    (map (fun j => (- ks_noise c (fun i => cbd_f (rnd_words rk i) 10) p j) mod cx_Q c) (seq 0 8)) tt.
Proof.
  intros EX EP L HW WF WI RK. unfold test_ksk. rewrite EP. cbn [bind].
  destruct (def_facts pr env 2 P c EX ltac:(lia) EP L) as [B [D1 [D2 [D3 [D4 [WB [LV [W [DC [SB [Hq [HQ HKB]]]]]]]]]]]].
  destruct (def_key pr env 2 P c EX ltac:(lia) EP L wsk HW) as [sk [ES [SP [SO SL]]]]. pose proof L as L'. unfold level in L'. rewrite L'. cbn [bind].
  rewrite ES. cbn [bind]. pose proof SO as [S1 S2]. rewrite SP in S2. rewrite (sk_ntt_ok pr P 0 c LV) by auto. cbn [bind]. unfold poly_random.
  destruct (wf_rep pr c W (mkPoly c PowerBasis ir) eq_refl WI) as [p [_ EI]]. cbn [p_repr] in EI. rewrite EI.
  destruct (wf_rep pr c W (mkPoly c Ntt fr) eq_refl WF) as [u [_ EF]]. cbn [p_repr] in EF. rewrite EF. exists p. split; [reflexivity|].
  destruct (ksk_new_exact pr P c B L sk u rk SP SO ltac:(lia) RK) as [k [EK HKK]]. rewrite EK. cbn [bind]. rewrite D3 in HKK.
  destruct (key_switch_ok pr P 0 c LV k _ _ _ p HKK) as [c0 [c1 [EW HP]]]. rewrite EW. cbn [bind].
  rewrite rep_mul by auto. cbn [bind]. rewrite rep_add by auto. cbn [bind].
  rewrite change_same by (auto; discriminate). cbn [bind]. rewrite change_fwd by auto. cbn [bind]. rewrite rep_mul by auto. cbn [bind].
  rewrite rep_sub by auto. cbn [bind]. rewrite change_bwd by auto. cbn [bind].
  assert (EM : rq_moduli_64 c = bp_moduli P) by (rewrite (lv_ms _ _ _ LV), Nat.sub_0_r, firstn_all; reflexivity).
  destruct (rns_new_ok (bp_moduli P)) as [rn [ER WR]].
  { rewrite <- EM. exact (wr_range _ _ (wl_rns _ W)). } { rewrite <- EM. exact (wr_pw _ _ (wl_rns _ W)). }
  rewrite ER. cbn [bind]. rewrite rep_to_big by auto. cbn [bind]. rewrite (wr_prod _ _ WR).
  assert (EQ : zprod (bp_moduli P) = cx_Q c).
  { unfold cx_Q. rewrite EM. reflexivity. }
  rewrite EQ, DC. f_equal. apply map_seq_ext. intros j Hj. specialize (HP j ltac:(lia)). rewrite phase2 in HP. rewrite DC in HP.
  rewrite (rmul_comm 8 c1). rewrite (rmul_comm 8 u). change (fun j0 => nth j0 (sk_coeffs sk) 0) with (sk_fun sk).
  revert HP. clear. unfold eqm. generalize (ks_noise c (fun i => cbd_f (rnd_words rk i) 10) p j) (rmul 8 p u j) (rmul 8 (sk_fun sk) c1 j) (c0 j) (cx_Q c).
  intros x a b d Q HP. rewrite Zminus_mod, (Z.add_comm b d), HP, <- Zminus_mod. f_equal. lia.
Qed.
Lemma bitlen_le x b : 0 <= b -> 0 <= x < 2 ^ b -> bitlen x <= b.
Proof.
  intros Hb Hx. unfold bitlen. destruct (Z.eqb_spec x 0); [lia|]. pose proof (Z.log2_lt_pow2 x b ltac:(lia)). lia.
Qed.
Lemma bitlen_ge x b : 0 <= b -> 2 ^ b <= x -> b < bitlen x.
Proof.
  intros Hb Hx. assert (0 < 2 ^ b) by (apply Z.pow_pos_nonneg; lia). unfold bitlen. destruct (Z.eqb_spec x 0); [lia|]. pose proof (Z.log2_le_pow2 x b ltac:(lia)). lia.
Qed.

(** C72: the key-switching test would always pass with the limit 71 ... *)
Lemma C72_ksk_71_lem :
  forall pr env P c wsk fr ir rk, env_exact env -> bfv_default pr env 2 8 (mkBD 4 8) = Ok P -> level P 0 c ->
    (forall j, 0 <= wsk j < 2 ^ 64) -> wf_poly (mkPoly c Ntt fr) -> wf_poly (mkPoly c PowerBasis ir) -> rnd_ok c rk ->
    test_ksk pr env 71 wsk fr ir rk = Ok tt.
Proof.
  intros pr env P c wsk fr ir rk EX EP L HW WF WI RK.
  destruct (test_ksk_run pr env P c wsk fr ir rk 71 EX EP L HW WF WI RK) as [p [_ E]]. rewrite E. clear E.
  destruct (def_facts pr env 2 P c EX ltac:(lia) EP L) as [B [D1 [D2 [D3 [D4 [WB [LV [W [DC [SB [Hq [HQ HKB]]]]]]]]]]]].
  set (e := fun i => cbd_f (rnd_words rk i) 10).
  assert (NB : forall j, (j < 8)%nat -> Z.abs (ks_noise c e p j) <= 1475739525896764129280).
  { intros j Hj. eapply Z.le_trans; [apply (ks_noise_bound P 0 c LV e 20 p j); [lia|lia|]|lia].
    intros i l _. apply (cbd_f_bound c (rnd_words rk i) 10 l). lia. }
  assert (G : forall l, (forall j, In j l -> (j < 8)%nat) ->
    foldM (fun _ b => rassert (Z.min (bitlen b) (bitlen (cx_Q c - b)) <=? 71)) (map (fun j => (- ks_noise c e p j) mod cx_Q c) l) tt = Ok tt).
  { induction l as [|j l IH]; intros Hl; [reflexivity|]. cbn [map foldM]. rewrite rassert_true; [cbn [bind]; apply IH; intros; apply Hl; right; auto|].
    specialize (NB j (Hl j (or_introl eq_refl))). set (x := ks_noise c e p j) in *. clearbody x. apply Z.leb_le.
    change (2 ^ (61 * Z.of_nat 2)) with 5316911983139663491615228241121378304 in HQ. set (Q := cx_Q c) in *. clearbody Q. clear - HQ NB.
    destruct (Z.le_gt_cases x 0) as [H|H].
    - rewrite Z.mod_small by lia. pose proof (bitlen_le (- x) 71 ltac:(lia) ltac:(change (2 ^ 71) with 2361183241434822606848; lia)). lia.
    - replace ((- x) mod Q) with (Q - x) by (apply Z.mod_unique with (-1); lia).
      replace (Q - (Q - x)) with x by ring. pose proof (bitlen_le x 71 ltac:(lia) ltac:(change (2 ^ 71) with 2361183241434822606848; lia)). lia. }
  apply G. intros j Hj. apply in_seq in Hj. lia.
Qed.

(** ... but with the limit 70 of the code it fails for some randomness, whatever
    the key and the masks. *)
Definition w20 (k : nat) : Z := nth (k mod 5) [1152920405096267775; 18374686548391034880; 4503595332407295; 18446462599001276160; 17592169267215] 0.
Lemma w20_range k : 0 <= w20 k < 2 ^ 64.
Proof.
  unfold w20. pose proof (Nat.mod_upper_bound k 5 ltac:(lia)) as H. revert H. generalize (k mod 5)%nat. intros m H.
  do 5 (destruct m as [|m]; [cbn [nth]; change (2 ^ 64) with 18446744073709551616; lia|]). lia.
Qed.
Lemma w20_cbd j : (j < 8)%nat -> cbd_f w20 10 j = 20.
Proof. intros H. do 8 (destruct j as [|j]; [vm_compute; reflexivity|]). lia. Qed.
Lemma C72_ksk_refuted_lem :
  forall pr env P c wsk fr masks, env_exact env -> bfv_default pr env 2 8 (mkBD 4 8) = Ok P -> level P 0 c ->
    (forall j, 0 <= wsk j < 2 ^ 64) -> wf_poly (mkPoly c Ntt fr) -> (forall i, (i < 2)%nat -> wf_poly (mkPoly c Ntt (masks i))) ->
    exists ir words, wf_poly (mkPoly c PowerBasis ir) /\ rnd_ok c (mkRnd masks words)
      /\ test_ksk pr env 70 wsk fr ir (mkRnd masks words) = Panic.
Proof.
  intros pr env P c wsk fr masks EX EP L HW WF WM.
  destruct (def_facts pr env 2 P c EX ltac:(lia) EP L) as [B [D1 [D2 [D3 [D4 [WB [LV [W [DC [SB [Hq [HQ HKB]]]]]]]]]]]].
  assert (EM : rq_moduli_64 c = bp_moduli P) by (rewrite (lv_ms _ _ _ LV), Nat.sub_0_r, firstn_all; reflexivity).
  assert (K2 : cx_k c = 2%nat) by (unfold cx_k; rewrite EM; auto).
  set (p := fun _ : nat => -1). exists (p_rows (rep c PowerBasis p)), (fun _ => w20).
  assert (WI : wf_poly (mkPoly c PowerBasis (p_rows (rep c PowerBasis p)))) by exact (rep_wf c W PowerBasis p).
  assert (RK : rnd_ok c (mkRnd masks (fun _ => w20))).
  { split; cbn [rnd_rows rnd_words]; [rewrite K2; auto|intros; apply w20_range]. }
  split; [exact WI|]. split; [exact RK|].
  destruct (test_ksk_run pr env P c wsk fr _ _ 70 EX EP L HW WF WI RK) as [p' [EP' E]]. rewrite E. clear E. cbn [rnd_words].
  assert (PP : forall j, (j < 8)%nat -> eqm (cx_Q c) (p' j) (-1)).
  { intros j Hj. symmetry. apply (rep_inj pr c W PowerBasis p p'); [discriminate| |lia]. rewrite <- EP'. reflexivity. }
  destruct (C68_moduli_lem pr env 2 8 _ P (dprimes 8) EX ltac:(lia) EP) as [_ [_ [_ MS]]].
  { destruct (dprimes_ok 8 ltac:(left; reflexivity)) as [LL [FL [SL HL]]]. split; [auto|split; [auto|]]. intros x Hx H; rewrite last_nth, LL in H; apply HL; auto. }
  { cbn. lia. }
  assert (NV : ks_noise c (fun _ => cbd_f w20 10) p' 7%nat = 1475739525896764060160).
  { unfold ks_noise. rewrite K2, DC.
    assert (DG : forall i l, (i < 2)%nat -> (l < 8)%nat -> p' l mod cx_q c i = cx_q c i - 1).
    { intros i l Hi Hl. pose proof (cx_range c W i ltac:(lia)) as R. pose proof (eqm_Q_q c W i _ _ ltac:(lia) (PP l Hl)) as X.
      unfold eqm in X. rewrite X. symmetry. apply Z.mod_unique with (-1); lia. }
    rewrite (sumn_ext 2 _ (fun i => rmul 8 (fun _ => cx_q c i - 1) (fun _ => 20) 7)).
    2:{ intros i Hi. apply rmul_ext; intros; [apply DG; auto|apply w20_cbd; auto]. }
    unfold cx_q. rewrite EM, MS. vm_compute. reflexivity. }
  assert (G : forall l, In 7%nat l ->
    foldM (fun _ b => rassert (Z.min (bitlen b) (bitlen (cx_Q c - b)) <=? 70)) (map (fun j => (- ks_noise c (fun _ => cbd_f w20 10) p' j) mod cx_Q c) l) tt = Panic).
  { induction l as [|j l IH]; intros Hl; [destruct Hl|]. cbn [map foldM]. destruct Hl as [->|Hl].
    - rewrite NV. unfold rassert. match goal with |- context [if ?b then _ else _] => replace b with false; [reflexivity|] end. symmetry. apply Z.leb_gt.
      change (2 ^ (61 * Z.of_nat 2)) with 5316911983139663491615228241121378304 in HQ. revert HQ. generalize (cx_Q c). clear. intros Q HQ.
      replace ((Z.opp 1475739525896764060160) mod Q) with (Q - 1475739525896764060160) by (apply Z.mod_unique with (-1); lia).
      replace (Q - (Q - 1475739525896764060160)) with 1475739525896764060160 by ring.
      pose proof (bitlen_ge (Q - 1475739525896764060160) 70 ltac:(lia) ltac:(change (2 ^ 70) with 1180591620717411303424; lia)).
      pose proof (bitlen_ge 1475739525896764060160 70 ltac:(lia) ltac:(change (2 ^ 70) with 1180591620717411303424; lia)). lia.
    - unfold rassert. destruct (_ <=? 70); [cbn [bind]; auto|reflexivity]. }
  apply G. apply in_seq. lia.
Qed.

(** A scaled plaintext carries its values. *)
Lemma def_scaled pr env k P c vals : env_exact env -> (1 <= k <= 31)%nat -> bfv_default pr env k 8 (mkBD 4 8) = Ok P -> level P 0 c ->
  Forall (fun x => 0 <= x < 1153) vals -> (length vals <= 8)%nat ->
  exists u E, pt_to_poly pr (mkPt P 0 EncPoly vals) = Ok (rep c Ntt u) /\ carries 8 (cx_Q c) 1153 u (coeffs vals) E
    /\ forall j, (j < 8)%nat -> Z.abs (E j) <= 2306.
Proof.
  intros EX HK EP L HV HL. destruct (def_facts pr env k P c EX HK EP L) as [B [D1 [D2 [D3 [D4 [WB [LV _]]]]]]].
  destruct (pt_to_poly_ok pr P 0 c WB LV (mkPt P 0 EncPoly vals) eq_refl eq_refl (all64 _ HV) ltac:(cbn [pt_values]; lia)) as [u [EU HU]].
  exists u, (fun j => 1153 * u j - cx_Q c * coeffs vals j). split; [exact EU|]. unfold encodes in HU. rewrite D1, D2 in HU. split.
  - intros j Hj. f_equal. ring.
  - intros j Hj. specialize (HU j Hj). change (pt_fun _ j) with (coeffs vals j) in HU. lia.
Qed.
Lemma ks_lin c B : 20 * ks_bound c B = B * ks_bound c 20.
Proof. unfold ks_bound. ring. Qed.

(** C72: the test of key-switching keys for plaintexts prints 5 * 34 = 170. *)
Lemma C72_ksk_with_pt_lem :
  forall pr env P c wsk rk, env_exact env -> bfv_default pr env 2 8 (mkBD 4 8) = Ok P -> level P 0 c ->
    (forall j, 0 <= wsk j < 2 ^ 64) -> rnd_ok c rk ->
    test_ksk_with_pt pr env wsk rk = Ok [170; 0; 0; 0; 0; 0; 0; 0].
Proof.
  intros pr env P c wsk rk EX EP L HW RK. unfold test_ksk_with_pt. rewrite EP. cbn [bind].
  destruct (def_facts pr env 2 P c EX ltac:(lia) EP L) as [B [D1 [D2 [D3 [D4 [WB [LV [W [DC [SB [Hq [HQ HKB]]]]]]]]]]]].
  destruct (def_key pr env 2 P c EX ltac:(lia) EP L wsk HW) as [sk [ES [SP [SO SL]]]]. rewrite ES. cbn [bind].
  rewrite (def_pt pr env 2 P c EX ltac:(lia) EP L) by (cbn; lia). cbn [bind app length Nat.sub repeat].
  destruct (def_scaled pr env 2 P c [5; 0; 0; 0; 0; 0; 0; 0] EX ltac:(lia) EP L ltac:(repeat constructor; lia) ltac:(cbn; lia)) as [u [E [EU [HC HE]]]].
  unfold ksk_new_with_pt. rewrite EU. cbn [bind].
  destruct (ksk_new_ok pr P 0 c LV sk u rk ltac:(split; auto) ltac:(lia) RK) as [k [e [EK [HK HEB]]]]. rewrite EK. cbn [bind].
  pose proof L as L'. unfold level in L'. rewrite L'. cbn [bind].
  rewrite (rep_from_u64 pr c W [34]) by (try (cbn; lia); repeat constructor; lia). cbn [bind]. set (h := fun j => nth j [34] 0).
  destruct (key_switch_ok pr P 0 c LV k _ _ _ h HK) as [c0 [c1 [EW HP]]]. rewrite EW. cbn [bind].
  rewrite (def_decrypt pr env 2 P c EX ltac:(lia) EP L sk c0 c1 (rmul 8 u h) (ks_noise c e h) (rmul 8 (coeffs [5; 0; 0; 0; 0; 0; 0; 0]) h) (rmul 8 E h)
    (8 * (2306 * 34) + 1153 * (2 * 737869762948382064640)) SP SO).
  - cbn [bind pt_values]. f_equal.
  - intros j Hj. rewrite DC in HP. rewrite (rmul_comm 8 u h). apply (HP j Hj).
  - apply (def_carries_rmul pr env 2 P c EX ltac:(lia) EP L). exact HC.
  - intros j Hj.
    pose proof (rmul_bound 8 ltac:(lia) E h 2306 34 j Hj ltac:(lia) HE ltac:(intros i Hi; unfold h; do 8 (destruct i as [|i]; [cbn; lia|]); lia)) as X.
    pose proof (ks_noise_bound P 0 c LV e (2 * bp_variance P) h j ltac:(lia) ltac:(lia) ltac:(auto)) as Y. rewrite D3 in Y. change (2 * 10) with 20 in Y. lia.
  - change (2 ^ (61 * Z.of_nat 2)) with (2 ^ 122). vm_compute. discriminate.
Qed.

(** C72: the test of keys derived from RGSW ciphertexts prints 2 * 2 * 3 = 12. *)
Lemma C72_ksk_from_rgsw_lem :
  forall pr env P c wsk rk rk0 rk1, env_exact env -> bfv_default pr env 6 8 (mkBD 4 8) = Ok P -> level P 0 c ->
    (forall j, 0 <= wsk j < 2 ^ 64) -> rnd_ok c rk -> rnd_ok c rk0 -> rnd_ok c rk1 ->
    test_ksk_from_rgsw pr env wsk rk rk0 rk1 = Ok [12; 0; 0; 0; 0; 0; 0; 0].
Proof.
  intros pr env P c wsk rk rk0 rk1 EX EP L HW RK RK0 RK1. unfold test_ksk_from_rgsw. rewrite EP. cbn [bind].
  destruct (def_facts pr env 6 P c EX ltac:(lia) EP L) as [B [D1 [D2 [D3 [D4 [WB [LV [W [DC [SB [Hq [HQ HKB]]]]]]]]]]]].
  destruct (def_key pr env 6 P c EX ltac:(lia) EP L wsk HW) as [sk [ES [SP [SO SL]]]]. rewrite ES. cbn [bind].
  pose proof L as L'. unfold level in L'. rewrite L'. cbn [bind].
  rewrite (def_pt pr env 6 P c EX ltac:(lia) EP L) by (cbn; lia). cbn [bind app length Nat.sub repeat].
  set (pt := mkPt P 0 EncPoly _). assert (SK : sk_of P sk) by (split; auto).
  destruct (rgsw_ok pr P 0 c LV sk pt rk0 rk1 SK ltac:(lia) RK0 RK1 eq_refl eq_refl ltac:(repeat constructor; lia) ltac:(rewrite D1; cbn; lia)) as [rg [e0 [e1 [ER [K0 [K1 [N0 N1]]]]]]].
  rewrite ER. cbn [bind].
  destruct (def_scaled pr env 6 P c [2; 0; 0; 0; 0; 0; 0; 0] EX ltac:(lia) EP L ltac:(repeat constructor; lia) ltac:(cbn; lia)) as [u [E [EU [HC HE]]]].
  unfold ksk_new_with_pt. unfold pt at 1. rewrite EU. cbn [bind].
  destruct (ksk_new_ok pr P 0 c LV sk u rk SK ltac:(lia) RK) as [k [e [EK [HK HEB]]]]. rewrite EK. cbn [bind].
  destruct (transform_ok pr P 0 c LV rg (sk_fun sk) (pt_fun pt) e0 e1 (2 * bp_variance P) k u e (2 * bp_variance P) K0 K1 ltac:(lia) N0 N1 HK HEB) as [k' [e' [ET [HK' HE']]]].
  rewrite ET. cbn [bind].
  rewrite (rep_from_u64 pr c W [3]) by (try (cbn; lia); repeat constructor; lia). cbn [bind]. set (h := fun j => nth j [3] 0).
  destruct (key_switch_ok pr P 0 c LV k' _ _ _ h HK') as [c0 [c1 [EW HP]]]. rewrite EW. cbn [bind].
  rewrite D3, DC in *. change (2 * 10) with 20 in *. set (m := pt_fun pt) in *.
  assert (LM : l1norm 8 m = 2) by reflexivity. rewrite LM in HE'.
  assert (HB : forall h' Bh, (forall i, (i < 8)%nat -> Z.abs (h' i) <= Bh) -> 0 <= Bh -> True) by auto. clear HB.
  rewrite (def_decrypt pr env 6 P c EX ltac:(lia) EP L sk c0 c1 (rmul 8 (rmul 8 u m) h) (ks_noise c e' h) (rmul 8 (rmul 8 (coeffs [2; 0; 0; 0; 0; 0; 0; 0]) m) h) (rmul 8 (rmul 8 E m) h)
    (8 * ((8 * (2306 * 2)) * 3) + 1153 * ((40 + 2 * (6 * 737869762948382064640)) * (6 * 737869762948382064640))) SP SO).
  - cbn [bind pt_values]. f_equal.
  - intros j Hj. rewrite (rmul_comm 8 (rmul 8 u m) h). rewrite (rmul_ext 8 h h (rmul 8 u m) (rmul 8 m u)) by (auto; intros; apply rmul_comm). apply (HP j Hj).
  - apply (def_carries_rmul pr env 6 P c EX ltac:(lia) EP L). apply (def_carries_rmul pr env 6 P c EX ltac:(lia) EP L). exact HC.
  - intros j Hj.
    pose proof (fun j Hj => rmul_bound 8 ltac:(lia) E m 2306 2 j Hj ltac:(lia) HE ltac:(intros i Hi; do 8 (destruct i as [|i]; [cbn; lia|]); lia)) as X0.
    pose proof (rmul_bound 8 ltac:(lia) (rmul 8 E m) h (8 * (2306 * 2)) 3 j Hj ltac:(lia) ltac:(intros i Hi; specialize (X0 i Hi); lia) ltac:(intros i Hi; unfold h; do 8 (destruct i as [|i]; [cbn; lia|]); lia)) as X.
    pose proof (ks_noise_bound P 0 c LV e' (2 * 20 + 2 * ks_bound c 20) h j ltac:(lia) ltac:(lia) ltac:(auto)) as Y.
    pose proof (ks_lin c (2 * 20 + 2 * ks_bound c 20)) as Z1. set (b := ks_bound c 20) in *. clearbody b. set (y := ks_bound c _) in *. clearbody y.
    clear - X Y Z1 HKB. change (Z.of_nat 6) with 6 in HKB.
    assert (y <= (40 + 2 * (6 * 737869762948382064640)) * (6 * 737869762948382064640)) by nia. lia.
  - change (2 ^ (61 * Z.of_nat 6)) with (2 ^ 366). vm_compute. discriminate.
Qed.

(** C72: the test of RGSW ciphertexts completed from half prints the random
    values plus the errors of their unscaled encryption. *)
Lemma C72_full_from_half_lem :
  forall pr env P c wsk rk rk0 rk1 m_values r, env_exact env -> bfv_default pr env 3 8 (mkBD 4 8) = Ok P -> level P 0 c ->
    (forall j, 0 <= wsk j < 2 ^ 64) -> rnd_ok c rk -> rnd_ok c rk0 -> rnd_ok c rk1 -> enc_ok c r ->
    length m_values = 8%nat -> Forall (fun x => 0 <= x < 1153) m_values ->
    test_full_from_half pr env wsk rk rk0 rk1 m_values r
    = Ok (map (fun j => (nth j m_values 0 + cbd_f (re_words r) 10 j) mod 1153) (seq 0 8)).
Proof.
  intros pr env P c wsk rk rk0 rk1 mv r EX EP L HW RK RK0 RK1 [R1 R2] HL HV. unfold test_full_from_half. rewrite EP. cbn [bind].
  destruct (def_facts pr env 3 P c EX ltac:(lia) EP L) as [B [D1 [D2 [D3 [D4 [WB [LV [W [DC [SB [Hq [HQ HKB]]]]]]]]]]]].
  destruct (def_key pr env 3 P c EX ltac:(lia) EP L wsk HW) as [sk [ES [SP [SO SL]]]]. rewrite ES. cbn [bind].
  pose proof L as L'. unfold level in L'. rewrite L'. cbn [bind].
  destruct (def_scaled pr env 3 P c [1] EX ltac:(lia) EP L ltac:(repeat constructor; lia) ltac:(cbn; lia)) as [u [E [EU [HC HE]]]].
  destruct (C67_full_from_half_lem pr P c sk u rk rk0 rk1 B L SP SO ltac:(lia) RK RK0 RK1) as [rs [k [rg [E1 [E2 [E3 HX]]]]]].
  apply bind_inv in E1. destruct E1 as [s [E0 E1]]. rewrite E0. cbn [bind]. rewrite E1. cbn [bind].
  unfold ksk_new_with_pt. rewrite EU. cbn [bind]. rewrite E2. cbn [bind]. rewrite E3. cbn [bind].
  rewrite (rep_from_u64 pr c W mv (all64 _ HV)) by lia. cbn [bind]. rewrite change_fwd by auto. cbn [bind].
  destruct (encrypt_poly_exact pr P c B L sk (fun j => nth j mv 0) (re_rows r) (re_words r) SP SO R1 ltac:(lia) R2) as [f0 [f1 [EE HF]]].
  rewrite EE. cbn [bind]. destruct (HX f0 f1) as [h0 [h1 [w [EW HH]]]]. unfold ct_of in EW. cbn [map] in EW. rewrite EW. cbn [bind]. clear HX.
  rewrite D1, D3 in *. change (2 * 10) with 20 in *. set (h := fun j => nth j mv 0 + cbd_f (re_words r) 10 j) in *.
  rewrite (def_decrypt pr env 3 P c EX ltac:(lia) EP L sk h0 h1 (rmul 8 u h) w (rmul 8 (coeffs [1]) h) (rmul 8 E h)
    (8 * (2306 * 1173) + 1153 * ((160 + 2 * (3 * 737869762948382064640)) * (3 * 737869762948382064640) + 3 * 737869762948382064640)) SP SO).
  - cbn [bind pt_values]. f_equal. apply map_ext_in. intros j Hj. apply in_seq in Hj. f_equal. change (nth j mv 0 + cbd_f (re_words r) 10 j) with (h j).
    transitivity (rmul 8 one h j); [apply rmul_ext; auto; intros i Hi; do 8 (destruct i as [|i]; [reflexivity|]); lia|]. apply rmul_one_l; lia.
  - intros j Hj. destruct (HH j Hj) as [HH1 _]. rewrite HH1. rewrite (Zplus_mod (rmul _ _ _ _)), (Zplus_mod (rmul 8 u h j)). f_equal. f_equal.
    apply (rmul_eqm 8 (cx_Q c)); intros i Hi; [reflexivity|]. rewrite HF by auto. reflexivity.
  - apply (def_carries_rmul pr env 3 P c EX ltac:(lia) EP L). exact HC.
  - intros j Hj. destruct (HH j Hj) as [_ Hw].
    assert (Hh : forall i, (i < 8)%nat -> Z.abs (h i) <= 1173).
    { intros i Hi. unfold h. pose proof (l1_vals mv HV i) as A1. unfold coeffs in A1. pose proof (cbd_f_bound c (re_words r) 10 i ltac:(lia)) as A2. lia. }
    pose proof (rmul_bound 8 ltac:(lia) E h 2306 1173 j Hj ltac:(lia) HE Hh) as X.
    pose proof (ks_lin c (l1norm 8 (sk_fun sk) * 20 + 2 * ks_bound c 20)) as Z1. set (b := ks_bound c 20) in *. clearbody b. set (y := ks_bound c _) in *. clearbody y.
    assert (0 <= l1norm 8 (sk_fun sk)) by (apply sumn_nonneg; intros; lia). set (l1 := l1norm _ _) in *. clearbody l1.
    clear - X Hw Z1 HKB SL H. change (Z.of_nat 3) with 3 in HKB.
    assert (y <= (160 + 2 * (3 * 737869762948382064640)) * (3 * 737869762948382064640)) by nia. lia.
  - change (2 ^ (61 * Z.of_nat 3)) with (2 ^ 183). vm_compute. discriminate.
Qed.

(** C72: every test that unpacks panics. *)
Section Panics.
Variables (pr : profile) (P : BfvParams) (c : RqContext).
Hypothesis B : built_params P.
Hypothesis L : level P 0 c.
Hypothesis Hv : 1 <= bp_variance P <= 16.
Hypothesis HM : length (bp_moduli P) <> 1%nat.
Hypothesis SD : small_degree pr (bp_degree P).
Lemma unpack_panics wsk vals r rnd rk0 rk1 A (rest : list Ct -> outcome A) :
  (forall j, 0 <= wsk j < 2 ^ 64) -> Forall (fun x => 0 <= x < 2 ^ 64) vals -> (length vals <= bp_degree P)%nat ->
  enc_ok c r -> (forall i, rnd_ok c (rnd i)) -> rnd_ok c rk0 -> rnd_ok c rk1 ->
  test_unpack pr A P wsk vals r rnd rk0 rk1 rest = Panic.
Proof.
  intros HW HV HL [R1 R2] RK RK0 RK1. pose proof (built_params_wf P B) as WB. destruct (level_wf P 0 c WB L) as [_ LV]. unfold test_unpack.
  destruct (C30_keygen_lem pr P wsk B Hv HW) as [sk [ES [SP [SO _]]]]. rewrite ES. cbn [bind].
  destruct (eval_build_ok pr P c sk WB LV rnd rk0 rk1 ltac:(split; auto) Hv HM RK RK0 RK1 ltac:(rewrite (lv_n _ _ _ LV); exact SD)) as [ev [EE _]]. rewrite EE. cbn [bind].
  unfold pt_new. rewrite copy_prefix_pad by auto. cbn [bind].
  destruct (fresh_carried pr P c sk (mkPt P 0 EncPoly (vals ++ repeat 0 (bp_degree P - length vals))) (re_rows r) (re_words r) B L SP SO Hv eq_refl eq_refl) as [ct [E1 [f0 [f1 [E [ECT _]]]]]]; auto.
  { cbn [pt_values]. apply Forall_app. split; auto. apply Forall_forall. intros x Hx. apply repeat_spec in Hx. subst x. lia. }
  { cbn [pt_values]. rewrite app_length, repeat_length. lia. }
  rewrite E1. cbn [bind]. rewrite ECT. unfold ct_of. rewrite (proj2 (C42_unpack_refuted_lem pr P 0 c ev _ B L)). reflexivity.
Qed.
Lemma unpack_decomp_panics wsk vals r rnd rk0 rk1 A (rest : list Ct -> outcome A) :
  (forall j, 0 <= wsk j < 2 ^ 64) -> Forall (fun x => 0 <= x < 2 ^ 64) vals -> (length vals <= bp_degree P)%nat ->
  enc_ok c r -> (forall i, rnd_ok c (rnd i)) -> rnd_ok c rk0 -> rnd_ok c rk1 ->
  test_unpack_decomp pr A P wsk vals r rnd rk0 rk1 rest = Panic.
Proof.
  intros HW HV HL [R1 R2] RK RK0 RK1. pose proof (built_params_wf P B) as WB. destruct (level_wf P 0 c WB L) as [_ LV]. unfold test_unpack_decomp.
  pose proof (wf_ctx_loc _ (lv_wf _ _ _ LV)) as W.
  pose proof L as L'. unfold level in L'. rewrite L'. cbn [bind].
  destruct (C30_keygen_lem pr P wsk B Hv HW) as [sk [ES [SP [SO _]]]]. rewrite ES. cbn [bind].
  destruct (eval_build_ok pr P c sk WB LV rnd rk0 rk1 ltac:(split; auto) Hv HM RK RK0 RK1 ltac:(rewrite (lv_n _ _ _ LV); exact SD)) as [ev [EE _]]. rewrite EE. cbn [bind].
  rewrite (rep_from_u64 pr c W vals HV) by (rewrite (lv_n _ _ _ LV); auto). cbn [bind]. rewrite change_fwd by auto. cbn [bind].
  rewrite rep_mul_big by auto. cbn [bind].
  destruct (encrypt_poly_ok pr P 0 c LV sk (fun j => 5 * nth j vals 0) (re_rows r) (re_words r) ltac:(split; auto) R1 Hv R2) as [f0 [f1 [e [E1 _]]]].
  rewrite E1. cbn [bind]. rewrite (proj2 (C42_unpack_refuted_lem pr P 0 c ev _ B L)). reflexivity.
Qed.
Lemma pack_panics wsk rnd rk0 rk1 rs A (rest : list (list Ct) -> outcome A) :
  (forall j, 0 <= wsk j < 2 ^ 64) -> (forall i, enc_ok c (rs i)) -> (forall i, rnd_ok c (rnd i)) -> rnd_ok c rk0 -> rnd_ok c rk1 ->
  test_pack_and_construct pr A P wsk rnd rk0 rk1 rs rest = Panic.
Proof.
  intros HW RE RK RK0 RK1. pose proof (built_params_wf P B) as WB. destruct (level_wf P 0 c WB L) as [_ LV]. unfold test_pack_and_construct.
  pose proof (wf_ctx_loc _ (lv_wf _ _ _ LV)) as W. pose proof (cx_n8 c W) as N8.
  destruct (C30_keygen_lem pr P wsk B Hv HW) as [sk [ES [SP [SO _]]]]. rewrite ES. cbn [bind].
  pose proof L as L'. unfold level in L'. rewrite L'. cbn [bind].
  rewrite (rep_from_u64 pr c W [1; 0; 1; 0]) by (try (cbn; lia); repeat constructor; lia). cbn [bind]. rewrite change_fwd by auto. cbn [bind].
  destruct (eval_build_ok pr P c sk WB LV rnd rk0 rk1 ltac:(split; auto) Hv HM RK RK0 RK1 ltac:(rewrite (lv_n _ _ _ LV); exact SD)) as [ev [EE _]]. rewrite EE. cbn [bind].
  pose proof (wl_ne _ W) as NE. pose proof (wr_gl _ _ (wl_rns _ W)) as GL. fold (cx_k c) in GL. rewrite GL.
  destruct (cx_k c) as [|k] eqn:EK; [lia|]. cbn [seq mapM].
  rewrite (get_ok (rns_garner (rq_rns c)) 0 0) by lia. cbn [bind]. rewrite rep_mul_big by auto. cbn [bind]. destruct (RE 0%nat) as [R1 R2].
  match goal with |- context [encrypt_poly pr sk (rep c Ntt ?u) _ _] =>
    destruct (encrypt_poly_ok pr P 0 c LV sk u (re_rows (rs 0%nat)) (re_words (rs 0%nat)) ltac:(split; auto) R1 Hv R2) as [f0 [f1 [e [E1 _]]]] end.
  rewrite E1. cbn [bind]. rewrite (proj2 (C42_unpack_refuted_lem pr P 0 c ev _ B L)). reflexivity.
Qed.
Lemma query_panics wsk r rq rnd rk0 rk1 A (rest : list Ct -> outcome A) :
  (forall j, 0 <= wsk j < 2 ^ 64) -> enc_ok c r -> rnd_ok c rq -> (forall i, rnd_ok c (rnd i)) -> rnd_ok c rk0 -> rnd_ok c rk1 ->
  test_query pr A P wsk r rq rnd rk0 rk1 rest = Panic.
Proof.
  intros HW [R1 R2] RQ RK RK0 RK1. pose proof (built_params_wf P B) as WB. destruct (level_wf P 0 c WB L) as [_ LV]. unfold test_query.
  pose proof (wf_ctx_loc _ (lv_wf _ _ _ LV)) as W. pose proof (cx_n8 c W) as N8. pose proof (lv_n _ _ _ LV) as EN.
  set (f := fun i : nat => mkPt P 0 EncPoly ([Z.of_nat i; Z.of_nat i; Z.of_nat i; Z.of_nat i] ++ repeat 0 (bp_degree P - 4))).
  rewrite (mapM_ok _ f) by (intros i _; unfold pt_new; rewrite copy_prefix_pad by (cbn [length]; lia); reflexivity). cbn [bind].
  destruct (C30_keygen_lem pr P wsk B Hv HW) as [sk [ES [SP [SO _]]]]. rewrite ES. cbn [bind]. assert (SK : sk_of P sk) by (split; auto).
  rewrite map_length, seq_length.
  replace (client_encode pr (mkClient 4 2) [3; 1; 1]%nat 16) with (Ok [0; 0; 0; 1; 0; 1; 0; 1]) by (destruct pr; reflexivity). cbn [bind].
  destruct (client_query_ok pr P c sk WB LV SK Hv 4 [0; 0; 0; 1; 0; 1; 0; 1] (re_rows r) (re_words r) rq
    ltac:(repeat constructor; lia) ltac:(cbn [length]; lia) ltac:(cbn [length]; lia) R1 R2 RQ) as [cts [EQ [h0 [h1 [E [b [a [e [EC _]]]]]]]]].
  rewrite EQ. cbn [bind].
  destruct (eval_build_ok pr P c sk WB LV rnd rk0 rk1 SK Hv HM RK RK0 RK1 ltac:(rewrite (lv_n _ _ _ LV); exact SD)) as [ev [EE _]]. rewrite EE. cbn [bind].
  rewrite (server_new_ok pr P c LV).
  - cbn [bind]. rewrite EC. unfold ct_of at 1. rewrite (C45_decode_refuted_lem pr P c _ ev _ _ B L). reflexivity.
  - apply Forall_forall. intros p Hp. apply in_map_iff in Hp. destruct Hp as [i [<- Hi]]. apply in_seq in Hi. split; cbn [pt_values f].
    + apply Forall_app. split; [repeat constructor; lia|]. apply Forall_forall. intros x Hx. apply repeat_spec in Hx. subst x. lia.
    + rewrite app_length, repeat_length. cbn [length]. lia.
Qed.
Lemma client_encode_panics wsk0 wsk r rnd rk0 rk1 A (rest : list Ct -> outcome A) : (12 <= bp_degree P)%nat ->
  (forall j, 0 <= wsk0 j < 2 ^ 64) -> (forall j, 0 <= wsk j < 2 ^ 64) ->
  enc_ok c r -> (forall i, rnd_ok c (rnd i)) -> rnd_ok c rk0 -> rnd_ok c rk1 ->
  test_client_encode pr A P wsk0 wsk r rnd rk0 rk1 rest = Panic.
Proof.
  intros HN HW0 HW RE RK RK0 RK1. unfold test_client_encode.
  destruct (C30_keygen_lem pr P wsk0 B Hv HW0) as [sk [ES _]]. rewrite ES. cbn [bind].
  replace (client_encode pr (mkClient 4 4) [3; 0; 0]%nat 64) with (Ok [0; 0; 0; 1; 1; 0; 0; 0; 1; 0; 0; 0]) by (destruct pr; reflexivity). cbn [bind].
  apply unpack_panics; auto. repeat constructor; lia.
Qed.
End Panics.
Lemma C72_evaluation_refuted_lem :
  forall pr P c wsk wsk' vals r rq rnd rk0 rk1 rs A (rest : list Ct -> outcome A) (rest' : list (list Ct) -> outcome A),
    built_params P -> level P 0 c -> 1 <= bp_variance P <= 16 -> length (bp_moduli P) <> 1%nat -> small_degree pr (bp_degree P) ->
    (forall j, 0 <= wsk j < 2 ^ 64) -> (forall j, 0 <= wsk' j < 2 ^ 64) -> enc_ok c r -> rnd_ok c rq ->
    (forall i, rnd_ok c (rnd i)) -> rnd_ok c rk0 -> rnd_ok c rk1 -> (forall i, enc_ok c (rs i)) ->
    Forall (fun x => 0 <= x < 2 ^ 64) vals -> (length vals <= bp_degree P)%nat ->
    test_pack_and_construct pr A P wsk rnd rk0 rk1 rs rest' = Panic
    /\ test_query pr A P wsk r rq rnd rk0 rk1 rest = Panic
    /\ ((12 <= bp_degree P)%nat -> test_client_encode pr A P wsk wsk' r rnd rk0 rk1 rest = Panic)
    /\ test_unpack_decomp pr A P wsk vals r rnd rk0 rk1 rest = Panic
    /\ test_unpack pr A P wsk vals r rnd rk0 rk1 rest = Panic.
Proof.
  intros pr P c wsk wsk' vals r rq rnd rk0 rk1 rs A rest rest' B L Hv HM SD HW HW' RE RQ RK RK0 RK1 RS HV HL.
  repeat split; intros.
  - apply (pack_panics pr P c); auto.
  - apply (query_panics pr P c); auto.
  - apply (client_encode_panics pr P c); auto.
  - apply (unpack_decomp_panics pr P c); auto.
  - apply (unpack_panics pr P c); auto.
Qed.

(** C72: the two tests of bit decompositions pass. *)
Lemma C72_utils_lem : forall pr, test_decompose_bits pr = Ok tt /\ test_bit_vector pr = Ok tt.
Proof. intros [|]; split; vm_compute; reflexivity. Qed.

(** Non-vacuity: parameters and contexts exist in the environment [denv]. *)
Definition tcerts : list (Z * list (Z * Z * Z)) :=
  [(2912521, [(1867, 1, 2)]);
   (47189, [(251, 1, 2)]);
   (4611686018326724609, [(2912521, 1, 2); (47189, 1, 2)]);
   (296363, [(709, 1, 2)]);
   (7112713, [(296363, 1, 2)]);
   (810849283, [(7112713, 1, 2)]);
   (4611686018309947393, [(810849283, 1, 2); (113, 1, 2)]);
   (202343, [(149, 1, 2); (97, 1, 2)]);
   (37271580601, [(202343, 1, 2)]);
   (4611686018232352769, [(37271580601, 1, 2)]);
   (3613, [(43, 1, 2); (7, 1, 2)]);
   (187877, [(3613, 1, 2)]);
   (130051, [(17, 2, 2); (5, 2, 2)]);
   (4611686018171535361, [(187877, 1, 2); (130051, 1, 2)])].
Lemma test_moduli_possible q : In q test_moduli -> 2 <= q < 2 ^ 62 /\ ntt_possible denv q 8.
Proof.
  intros Hq. assert (PQ : prime q).
  { destruct Hq as [<-|Hq]; [apply isp_sound; reflexivity|].
    assert (F : Forall prime (map fst tcerts)) by (apply (pocs_sound tcerts []); [constructor|]; vm_compute; reflexivity).
    rewrite Forall_forall in F. apply F. cbn [map fst tcerts]. clear F. unfold test_moduli in Hq. cbn [In] in *. tauto. }
  assert (C : forallb (fun q => (2 <? q) && (q <? 2 ^ 62) && (q mod 16 =? 1) && root_find 100 q 0) test_moduli = true) by (vm_compute; reflexivity).
  rewrite forallb_forall in C. specialize (C q Hq). rewrite !andb_true_iff, !Z.ltb_lt, Z.eqb_eq in C. destruct C as [[[C1 C2] C3] C4].
  split; [lia|]. split; [exists 3%nat; split; [lia|reflexivity]|]. split; [exact C3|]. split.
  - apply (proj1 denv_exact q); auto. change (2 ^ 62) with 4611686018427387904 in C2. change (2 ^ 64) with 18446744073709551616. lia.
  - apply (root_find_sound q C1 100 0); auto.
Qed.
Lemma test_context pr l bd : l = test_moduli \/ l = [1153] -> exists c, rq_new pr denv l 8 bd = Ok c.
Proof.
  intros Hl. assert (HI : forall q, In q l -> In q test_moduli).
  { intros q Hq. destruct Hl as [->| ->]; auto. destruct Hq as [<-|[]]. left. reflexivity. }
  apply (proj1 (C57_construct_lem pr denv l 8 bd ltac:(destruct denv_exact as [A1 A2]; split; [intros; apply A1; auto|exact A2]) ltac:(destruct Hl as [->| ->]; repeat constructor; lia))).
  split; [destruct Hl as [->| ->]; discriminate|]. split; [intros q Hq; apply test_moduli_possible; auto|].
  assert (C : forallb (fun i => forallb (fun j => (i =? j)%nat || (Z.gcd (nth i test_moduli 1) (nth j test_moduli 1) =? 1)) (seq 0 5)) (seq 0 5) = true) by (vm_compute; reflexivity).
  rewrite forallb_forall in C. intros i j Hi Hj Hne. assert (LL : (length l <= 5)%nat) by (destruct Hl as [->| ->]; cbn; lia).
  specialize (C i ltac:(apply in_seq; lia)). rewrite forallb_forall in C. specialize (C j ltac:(apply in_seq; lia)).
  apply orb_true_iff in C. destruct C as [C|C]; [apply Nat.eqb_eq in C; contradiction|]. apply Z.eqb_eq in C.
  destruct Hl as [->| ->]; [exact C|]. cbn [length] in *. lia.
Qed.
Lemma denv_roots13 : Forall (draws_root denv) (dprimes 8).
Proof.
  assert (C : forallb (fun q => (2 <? q) && root_find 100 q 0) (dprimes 8) = true) by (vm_compute; reflexivity).
  rewrite forallb_forall in C. apply Forall_forall. intros q Hq. specialize (C q Hq). apply andb_true_iff in C. destruct C as [C1 C2].
  apply Z.ltb_lt in C1. apply (root_find_sound q C1 100 0); auto.
Qed.
Lemma test_params pr k : (1 <= k <= 6)%nat -> exists P c r rk prows,
  env_exact denv /\ bfv_default pr denv k 8 (mkBD 4 8) = Ok P /\ level P 0 c /\ enc_ok c r /\ rnd_ok c rk /\ wf_poly (mkPoly c PowerBasis prows)
  /\ built_params P /\ bp_variance P = 10 /\ length (bp_moduli P) = k /\ bp_degree P = 8%nat.
Proof.
  intros Hk. assert (Hn : ddeg 8) by (left; reflexivity). destruct (dprimes_ok 8 Hn) as [LL [FL [SL HL]]].
  assert (LP : largest_primes 8 (dprimes 8)) by (split; [auto|split; [auto|]]; intros x Hx H; rewrite last_nth, LL in H; apply HL; auto).
  destruct (denv_roots 8 Hn) as [_ R2].
  destruct (C68_default_lem pr denv k 8 (mkBD 4 8) (firstn (2 * k + 1) (dprimes 8)) denv_exact Hn ltac:(lia) ltac:(lia)) as [P [E _]]; auto.
  { apply firstn_largest; auto. lia. }
  { apply firstn_length_le. lia. }
  { apply Forall_forall. intros q Hq. pose proof denv_roots13 as X. rewrite Forall_forall in X. apply X. eapply firstn_in; eauto. }
  destruct (default_inv pr denv k 8 _ P denv_exact ltac:(lia) E) as [B [D1 [D2 [D3 [D4 [D5 [D6 [D7 _]]]]]]]].
  pose proof (built_params_wf P B) as WB.
  destruct (wb_lv _ WB 0 ltac:(lia)) as [c LV]. pose proof (lv_ctx _ _ _ LV) as L. change (level P 0 c) in L.
  pose proof (wf_ctx_loc _ (lv_wf _ _ _ LV)) as W.
  set (w0 := fun _ : nat => 7). assert (Hw : forall j : nat, 0 <= w0 j < 2 ^ 64) by (intros; unfold w0; lia).
  assert (RW : wf_poly (mkPoly c Ntt (p_rows (rep c Ntt (fun _ => 0))))) by exact (rep_wf c W Ntt (fun _ => 0)).
  exists P, c, (mkRndEnc (p_rows (rep c Ntt (fun _ => 0))) w0), (mkRnd (fun _ => p_rows (rep c Ntt (fun _ => 0))) (fun _ => w0)), (p_rows (rep c PowerBasis (fun _ => 3))).
  split; [exact denv_exact|]. split; auto. split; auto. split; [split; cbn [re_rows re_words]; auto|]. split; [split; cbn [rnd_rows rnd_words]; auto|].
  split; [exact (rep_wf c W PowerBasis (fun _ => 3))|]. auto.
Qed.

(*EXAMPLE
(** The hypotheses of the theorems on default parameters hold together, for the
    numbers of moduli the tests use (1, 2, 3 and 6). *)
Example C72_params_example pr k : (1 <= k <= 6)%nat -> exists P c r rk prows,
  env_exact denv /\ bfv_default pr denv k 8 (mkBD 4 8) = Ok P /\ level P 0 c /\ enc_ok c r /\ rnd_ok c rk /\ wf_poly (mkPoly c PowerBasis prows)
  /\ built_params P /\ bp_variance P = 10 /\ length (bp_moduli P) = k /\ bp_degree P = 8%nat.
Proof. exact (test_params pr k). Qed.
(** The contexts of the other tests can be constructed. *)
Example C72_contexts_example pr bd : (exists c, rq_new pr denv test_moduli 8 bd = Ok c) /\ (exists c, rq_new pr denv [1153] 8 bd = Ok c).
Proof. split; apply test_context; auto. Qed.
Example C72_ntt_example : exists m op, modulus_new 1153 = Ok m /\ ntt_new Debug tenv m 8 = Ok op.
Proof. eexists. eexists. split; [vm_compute; reflexivity|]. vm_compute. reflexivity. Qed.
EXAMPLE*)
