(** Claim C70: everything published under a secret key is a list of Ring-LWE
    samples plus an encoding of the message. *)
From Verif Require Import PBase NT Spec PSum MModulus MUtils MNtt MRns MRq MBfv MKsk MGalois MRgsw MEval SpecRlwe PModulus PUtils PUtils2 SpecRq SpecBfv SpecKsk PRing PRingT PRq PRq2 PRq3 PRq4 PRq5 QRq PBfv PBfv2 PBfv3 QBfv PKsk PKsk2 QKsk PRns PFold TestEnv TestBfv.

Section Rlwe.
Variable pr : profile.
Variables (P : BfvParams) (i : nat) (c : RqContext) (sk : SecretKey).
Hypothesis BP : built_params P.
Hypothesis L : level P i c.
Hypothesis SP : sk_params sk = P.
Hypothesis SO : sk_ok sk.
Hypothesis Hv : 1 <= bp_variance P <= 16.
Let n := bp_degree P.

Lemma rlwe_ex rows w : wf_poly (mkPoly c Ntt rows) -> (forall k, 0 <= w k < 2 ^ 64) -> exists b, rlwe pr P c sk rows w b
  /\ forall u, encrypt_poly pr sk (rep c Ntt u) rows w = Ok (mkCt P [rep c Ntt (fun j => b j + u j); mkPoly c Ntt rows] 0).
Proof.
  intros WR Hw. pose proof (built_params_wf P BP) as WB. destruct (level_wf P i c WB L) as [_ LV].
  pose proof (wf_ctx_loc _ (lv_wf _ _ _ LV)) as W. pose proof (lv_n _ _ _ LV) as EN. destruct SO as [S1 S2]. rewrite SP in S2.
  destruct (poly_random_rep pr P i c LV rows WR) as [a Ea].
  exists (fun j => cbd_f w (bp_variance P) j - rmul n a (sk_fun sk) j). split.
  - exists a, (map (cbd_f w (bp_variance P)) (seq 0 n)). split; [exact Ea|]. split; [apply sample_vec_cbd_ok; auto|].
    split; [rewrite map_length, seq_length; reflexivity|]. intros j Hj. rewrite nth_map_seq by auto. fold n. ring.
  - intros u. unfold encrypt_poly. change (p_ctx (rep c Ntt u)) with c. rewrite (sk_ntt_ok pr P i c LV) by auto. cbn [bind].
    rewrite Ea. rewrite rep_mul by auto. cbn [bind]. rewrite SP.
    rewrite rep_random_small by (auto; congruence). cbn [bind]. rewrite rep_sub by auto. cbn [bind]. rewrite rep_add by auto. cbn [bind].
    rewrite EN. rewrite <- Ea. reflexivity.
Qed.

Lemma rlwe_ksk rnd : rnd_ok c rnd -> exists b, rlwes pr P c sk rnd b
  /\ forall u, ksk_new pr sk (rep c Ntt u) i i rnd = Ok (ksk_of P c rnd b u).
Proof.
  intros HR. pose proof (built_params_wf P BP) as WB. destruct (level_wf P i c WB L) as [_ LV].
  pose proof (wf_ctx_loc _ (lv_wf _ _ _ LV)) as W. pose proof (lv_n _ _ _ LV) as EN. destruct SO as [S1 S2]. rewrite SP in S2.
  destruct (ksk_entries pr P i c LV (sk_fun sk) (fun _ => 0) rnd (bp_variance P) Hv HR) as [a [Ea _]].
  exists (fun k j => cbd_f (rnd_words rnd k) (bp_variance P) j - rmul n (a k) (sk_fun sk) j). split.
  - intros k Hk. exists (a k), (map (cbd_f (rnd_words rnd k) (bp_variance P)) (seq 0 n)).
    split. { assert (X := f_equal (fun l => nth k l (mkPoly c Ntt [])) Ea). cbv beta in X. rewrite !nth_map_seq in X by auto. exact X. }
    destruct HR as [_ R2]. split; [apply sample_vec_cbd_ok; auto|].
    split; [rewrite map_length, seq_length; reflexivity|]. intros j Hj. rewrite nth_map_seq by auto. fold n. ring.
  - intros u. unfold ksk_new. rewrite SP. rewrite (lv_ctx _ _ _ LV). cbn [bind]. rewrite (sk_ntt_ok pr P i c LV) by auto. cbn [bind].
    change (fun j => nth j (sk_coeffs sk) 0) with (sk_fun sk).
    assert (Lk : length (rns_moduli (rq_rns c)) = cx_k c) by (rewrite <- (wl_mod _ W); apply (cx_moduli_len c W)).
    rewrite Lk, Ea, len_seq.
    assert (EG : rns_garner (rq_rns c) = map (fun i => nth i (rns_garner (rq_rns c)) 0) (seq 0 (cx_k c))) by (apply list_seq; apply (wr_gl _ _ (wl_rns _ W))).
    unfold ksk_of. remember (fun i => nth i (rns_garner (rq_rns c)) 0) as g eqn:Eg. rewrite EG at 1.
    assert (Eg' : forall k, nth k (rns_garner (rq_rns c)) 0 = g k) by (intros; rewrite Eg; reflexivity).
    assert (HM : mapM (fun x : nat * (Poly * Z) => ksk_entry pr c (bp_variance P) (rep c Ntt (sk_fun sk)) (rep c Ntt u) (rnd_words rnd (fst x)) (fst (snd x)) (snd (snd x)))
       (combine (seq 0 (cx_k c)) (combine (map (fun i => rep c Ntt (a i)) (seq 0 (cx_k c))) (map g (seq 0 (cx_k c)))))
     = Ok (map (fun i => rep c Ntt (fun j => cbd_f (rnd_words rnd i) (bp_variance P) j - rmul n (a i) (sk_fun sk) j + g i * u j)) (seq 0 (cx_k c)))).
    { rewrite combine_map, combine_self. apply mapM_seq. intros k Hk. cbn [fst snd]. unfold ksk_entry. destruct HR as [_ R2].
      rewrite rep_mul by auto. cbn [bind]. rewrite rep_random_small by (auto; congruence). cbn [bind].
      rewrite rep_sub by auto. cbn [bind]. rewrite rep_mul_big by auto. cbn [bind]. rewrite rep_add by auto. rewrite EN. reflexivity. }
    rewrite HM. cbn [bind]. rewrite <- Ea. f_equal. f_equal. apply map_seq_ext. intros k Hk. rewrite Eg'. reflexivity.
Qed.
End Rlwe.

(** C70, encryption: the mask, the error and the sample do not depend on the
    plaintext; the encoding of the plaintext is added to the first component. *)
Lemma C70_encrypt_lem :
  forall pr P i c sk rows w,
    built_params P -> level P i c -> sk_params sk = P -> sk_ok sk -> 1 <= bp_variance P <= 16 ->
    wf_poly (mkPoly c Ntt rows) -> (forall k, 0 <= w k < 2 ^ 64) ->
    exists b, rlwe pr P c sk rows w b
    /\ forall pt, pt_params pt = P -> pt_level pt = i -> Forall (fun x => 0 <= x < 2 ^ 64) (pt_values pt) -> (length (pt_values pt) <= bp_degree P)%nat ->
       exists u, pt_to_poly pr pt = Ok (rep c Ntt u)
       /\ encrypt pr sk pt rows w = Ok (mkCt P [rep c Ntt (fun j => b j + u j); mkPoly c Ntt rows] 0).
Proof.
  intros pr P i c sk rows w BP L SP SO Hv WR Hw. destruct (rlwe_ex pr P i c sk BP L SP SO Hv rows w WR Hw) as [b [Hb HE]].
  exists b. split; auto. intros pt PP PL PV PN.
  pose proof (built_params_wf P BP) as WB. destruct (level_wf P i c WB L) as [_ LV].
  destruct (pt_to_poly_ok pr P i c WB LV pt PP PL PV PN) as [u [E _]]. exists u. split; auto.
  unfold encrypt. rewrite E. cbn [bind]. apply HE.
Qed.

(** C70, key-switching keys, with the public constants of the context. *)
Lemma C70_ksk_lem :
  forall pr P i c sk rnd,
    built_params P -> level P i c -> sk_params sk = P -> sk_ok sk -> 1 <= bp_variance P <= 16 -> rnd_ok c rnd ->
    exists b, rlwes pr P c sk rnd b
    /\ forall u, ksk_new pr sk (rep c Ntt u) i i rnd = Ok (ksk_of P c rnd b u).
Proof. intros pr P i c sk rnd BP L SP SO Hv HR. apply rlwe_ksk; auto. Qed.

(** C70, Galois and relinearisation keys: the same with the rotated and the
    squared secret as message, RGSW ciphertexts with m s and m. *)
Lemma C70_galois_lem :
  forall pr P i c sk rnd,
    built_params P -> level P i c -> sk_params sk = P -> sk_ok sk -> 1 <= bp_variance P <= 16 -> rnd_ok c rnd ->
    exists b, rlwes pr P c sk rnd b
    /\ rlk_new pr sk i rnd = Ok (mkRlk (ksk_of P c rnd b (rmul (bp_degree P) (sk_fun sk) (sk_fun sk))) P)
    /\ forall x g, length (bp_moduli P) <> 1%nat -> 0 <= x -> subst_new pr c x = Ok g ->
       galois_new pr sk g i rnd = Ok (mkGk (ksk_of P c rnd b (rsubst (bp_degree P) (Z.to_nat (x mod (2 * Z.of_nat (bp_degree P)))) (sk_fun sk))) g i).
Proof.
  intros pr P i c sk rnd BP L SP SO Hv HR. destruct (rlwe_ksk pr P i c sk BP L SP SO Hv rnd HR) as [b [Hb HE]]. exists b. split; auto.
  pose proof (built_params_wf P BP) as WB. destruct (level_wf P i c WB L) as [_ LV].
  pose proof (wf_ctx_loc _ (lv_wf _ _ _ LV)) as W. pose proof (lv_n _ _ _ LV) as EN. destruct SO as [S1 S2]. rewrite SP in S2. split.
  - unfold rlk_new. rewrite SP. rewrite (lv_ctx _ _ _ LV). cbn [bind]. rewrite (sk_ntt_ok pr P i c LV) by auto. cbn [bind].
    change (fun j => nth j (sk_coeffs sk) 0) with (sk_fun sk). rewrite rep_mul by auto. cbn [bind]. rewrite EN, HE. reflexivity.
  - intros x g HL Hx Hg. unfold galois_new. rewrite SP. rewrite rassert_true by (apply negb_true_iff, Nat.eqb_neq; auto). cbn [bind].
    rewrite (lv_ctx _ _ _ LV). cbn [bind]. rewrite rep_from_i64 by (auto; rewrite (lv_n _ _ _ LV); auto). cbn [bind].
    change (fun j => nth j (sk_coeffs sk) 0) with (sk_fun sk). rewrite (rep_substitute pr c W _ _ x g Hx Hg). cbn [bind].
    rewrite change_fwd by auto. cbn [bind]. rewrite EN, HE. reflexivity.
Qed.
Lemma C70_rgsw_lem :
  forall pr P i c sk rnd0 rnd1,
    built_params P -> level P i c -> sk_params sk = P -> sk_ok sk -> 1 <= bp_variance P <= 16 -> rnd_ok c rnd0 -> rnd_ok c rnd1 ->
    exists b0 b1, rlwes pr P c sk rnd0 b0 /\ rlwes pr P c sk rnd1 b1
    /\ forall pt, pt_params pt = P -> pt_level pt = i -> Forall (fun x => 0 <= x < 2 ^ 64) (pt_values pt) -> (length (pt_values pt) <= bp_degree P)%nat ->
       rgsw_encrypt pr sk pt rnd0 rnd1
       = Ok (mkRgsw (ksk_of P c rnd0 b0 (rmul (bp_degree P) (sk_fun sk) (pt_fun pt))) (ksk_of P c rnd1 b1 (pt_fun pt))).
Proof.
  intros pr P i c sk rnd0 rnd1 BP L SP SO Hv R0 R1.
  destruct (rlwe_ksk pr P i c sk BP L SP SO Hv rnd0 R0) as [b0 [Hb0 HE0]]. destruct (rlwe_ksk pr P i c sk BP L SP SO Hv rnd1 R1) as [b1 [Hb1 HE1]].
  exists b0, b1. split; auto. split; auto. intros pt PP PL PV PN.
  pose proof (built_params_wf P BP) as WB. destruct (level_wf P i c WB L) as [_ LV].
  pose proof (wf_ctx_loc _ (lv_wf _ _ _ LV)) as W. pose proof (lv_n _ _ _ LV) as EN. destruct SO as [S1 S2]. rewrite SP in S2.
  unfold rgsw_encrypt. rewrite SP, PP, PL, params_eqb_refl. cbn [rassert bind]. rewrite (lv_ctx _ _ _ LV). cbn [bind].
  rewrite rep_from_u64 by (auto; rewrite EN; auto). cbn [bind]. rewrite change_fwd by auto. cbn [bind].
  rewrite (sk_ntt_ok pr P i c LV) by auto. cbn [bind]. rewrite rep_mul by auto. cbn [bind].
  change (fun j => nth j (sk_coeffs sk) 0) with (sk_fun sk). change (fun j => nth j (pt_values pt) 0) with (pt_fun pt).
  rewrite EN, HE0. cbn [bind]. rewrite HE1. reflexivity.
Qed.

(** C70, the whole query: samples drawn once, then, for every query, the
    ciphertexts are the samples plus encodings. *)
Lemma C70_query_lem :
  forall pr P c sk rows0 w0 rnd,
    built_params P -> level P 0 c -> sk_params sk = P -> sk_ok sk -> 1 <= bp_variance P <= 16 ->
    wf_poly (mkPoly c Ntt rows0) -> (forall k, 0 <= w0 k < 2 ^ 64) -> rnd_ok c rnd ->
    exists b0 b, rlwe pr P c sk rows0 w0 b0 /\ rlwes pr P c sk rnd b
    /\ forall first enc, Forall (fun x => 0 <= x < 2 ^ 64) enc -> (length enc <= bp_degree P)%nat -> (first <= length enc)%nat ->
       exists pt u, pt_new pr P enc 0 EncPoly = Ok pt /\ pt_to_poly pr pt = Ok (rep c Ntt u)
       /\ client_query pr sk P first enc rows0 w0 rnd
          = Ok (mkCt P [rep c Ntt (fun j => b0 j + u j); mkPoly c Ntt rows0] 0
                :: map (fun k => mkCt P [rep c Ntt (fun j => b k j + nth k (rns_garner (rq_rns c)) 0 * nth (first + j) enc 0);
                                         mkPoly c Ntt (rnd_rows rnd k)] 0) (seq 0 (cx_k c))).
Proof.
  intros pr P c sk rows0 w0 rnd BP L SP SO Hv WR Hw [R1 R2].
  destruct (rlwe_ex pr P 0 c sk BP L SP SO Hv rows0 w0 WR Hw) as [b0 [Hb0 HE0]].
  assert (H : forall m, (m <= cx_k c)%nat -> exists b, forall k, (k < m)%nat -> rlwe pr P c sk (rnd_rows rnd k) (rnd_words rnd k) (b k)
    /\ forall u, encrypt_poly pr sk (rep c Ntt u) (rnd_rows rnd k) (rnd_words rnd k) = Ok (mkCt P [rep c Ntt (fun j => b k j + u j); mkPoly c Ntt (rnd_rows rnd k)] 0)).
  { induction m as [|m IH]; intros Hm; [exists (fun _ _ => 0); lia|]. destruct IH as [b IHb]; [lia|].
    destruct (rlwe_ex pr P 0 c sk BP L SP SO Hv (rnd_rows rnd m) (rnd_words rnd m) (R1 m ltac:(lia)) (R2 m)) as [bm Hbm].
    exists (fun k => if (k =? m)%nat then bm else b k). intros k Hk. destruct (Nat.eqb_spec k m) as [->|]; auto. apply IHb. lia. }
  destruct (H (cx_k c) (le_n _)) as [b Hb]. exists b0, b. split; auto. split; [intros k Hk; apply Hb; auto|].
  intros first enc H64 HL HF.
  pose proof (built_params_wf P BP) as WB. destruct (level_wf P 0 c WB L) as [_ LV].
  pose proof (wf_ctx_loc _ (lv_wf _ _ _ LV)) as W. pose proof (lv_n _ _ _ LV) as EN.
  unfold client_query, pt_new. rewrite copy_prefix_pad by lia. cbn [bind]. set (pt := mkPt _ _ _ _).
  assert (PV : pt_values pt = enc ++ repeat 0 (bp_degree P - length enc)) by reflexivity.
  destruct (pt_to_poly_ok pr P 0 c WB LV pt eq_refl eq_refl) as [u [E1 _]].
  { rewrite PV. apply Forall_app. split; auto. apply Forall_forall. intros x Hx. apply repeat_spec in Hx. subst. lia. }
  { rewrite PV, app_length, repeat_length. lia. }
  exists pt, u. split; auto. split; auto. unfold encrypt. rewrite E1. cbn [bind]. rewrite HE0. cbn [bind].
  rewrite (lv_ctx _ _ _ LV). cbn [bind]. rewrite rassert_true by (apply Nat.leb_le; auto). cbn [bind].
  pose proof (wl_rns _ W) as WRn. rewrite (wr_gl _ _ WRn). change (length (rq_moduli_64 c)) with (cx_k c).
  rewrite (PBase.mapM_ok _ (fun k => mkCt P [rep c Ntt (fun j => b k j + nth k (rns_garner (rq_rns c)) 0 * nth (first + j) enc 0); mkPoly c Ntt (rnd_rows rnd k)] 0)); [reflexivity|].
  intros k Hk. apply in_seq in Hk. assert (Hk1 : (k < cx_k c)%nat) by lia. clear Hk. rename Hk1 into Hk. rewrite (get_ok _ k 0) by (rewrite (wr_gl _ _ WRn); exact Hk). cbn [bind].
  rewrite rep_from_u64; [|auto| |rewrite skipn_length, EN; lia].
  2:{ apply Forall_forall. intros x Hx. rewrite Forall_forall in H64. apply H64. rewrite <- (firstn_skipn first enc). apply in_or_app. auto. }
  cbn [bind]. rewrite change_fwd by auto. cbn [bind]. rewrite rep_mul_big by auto. cbn [bind].
  destruct (Hb k Hk) as [_ Hk']. rewrite Hk'. f_equal. f_equal. f_equal. apply (rep_ext c W). intros j Hj. rewrite nth_skip. reflexivity.
Qed.

(** C70: adding an encoding to a uniform element hides it perfectly: for any two
    messages, adding the first to [p] is adding the second to exactly one [p']. *)
Lemma C70_pad_lem :
  forall pr c u0 u1 p, built c -> wf_poly p -> p_ctx p = c -> p_repr p = Ntt ->
    exists! p', wf_poly p' /\ p_ctx p' = c /\ p_repr p' = Ntt
      /\ poly_add pr p' (rep c Ntt u1) = poly_add pr p (rep c Ntt u0).
Proof.
  intros pr c u0 u1 p B Wp Cp Rp. pose proof (wf_ctx_loc _ (built_wf _ B)) as W.
  assert (HX : forall p, wf_poly p -> p_ctx p = c -> p_repr p = Ntt -> exists f, p = rep c Ntt f).
  { intros [x r rows] H1 H2 H3. cbn [p_ctx p_repr] in H2, H3. subst x r. destruct (wf_rep pr c W (mkPoly c Ntt rows) eq_refl H1) as [a [_ E]]. exists a. exact E. }
  destruct (HX p Wp Cp Rp) as [f ->]. exists (rep c Ntt (fun j => f j + u0 j - u1 j)). split.
  - split; [apply (rep_wf c W)|]. split; [reflexivity|]. split; [reflexivity|]. rewrite !rep_add by auto. f_equal. apply (rep_ext c W). intros j Hj. ring.
  - intros p' [W' [C' [R' H]]]. destruct (HX p' W' C' R') as [f' ->]. rewrite !rep_add in H by auto. apply Ok_inj in H.
    apply (rep_eqm c W). intros j Hj. pose proof (rep_inj pr c W Ntt _ _ ltac:(discriminate) H j Hj) as X. cbv beta in X.
    replace (f j + u0 j - u1 j) with (f j + u0 j + (- u1 j)) by ring. replace (f' j) with (f' j + u1 j + (- u1 j)) by ring.
    symmetry. apply eqm_add; [exact X|reflexivity].
Qed.

(*EXAMPLE
(** Two messages under the same randomness: the masks agree, the first
    components differ by the difference of the encodings. *)
Example C70_example :
  (P <- test_bfv Debug ;; let sk := mkSk P [1; -1; 0; 1; 1; 0; 2; -1] in
   pa <- pt_new Debug P [2; 3; 16] 0 EncPoly ;; pb <- pt_new Debug P [5] 0 EncPoly ;;
   a <- encrypt Debug sk pa (trows bms 4) (tw 5) ;; b <- encrypt Debug sk pb (trows bms 4) (tw 5) ;;
   ua <- pt_to_poly Debug pa ;; ub <- pt_to_poly Debug pb ;;
   a0 <- get (ct_cts a) 0 ;; b0 <- get (ct_cts b) 0 ;; d <- poly_sub Debug a0 b0 ;; e <- poly_sub Debug ua ub ;;
   Ok (match ct_cts a, ct_cts b with [_; x], [_; y] => if list_eq_dec (list_eq_dec Z.eq_dec) (p_rows x) (p_rows y) then 1 else 0 | _, _ => 2 end,
       if list_eq_dec (list_eq_dec Z.eq_dec) (p_rows d) (p_rows e) then 1 else 0))
  = Ok (1, 1).
Proof. vm_compute. reflexivity. Qed.
EXAMPLE*)
