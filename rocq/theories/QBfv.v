(** Claims C26-C35, C46, C47, C51 (level lookup), C52, C58: src/bfv.rs. *)
From Verif Require Import PBase NT Spec PSum MModulus MUtils MNtt MRns MRq MBfv PModulus PUtils PNttMath PNtt PNttNew PCrt PRns PRnsScale PUtils2 SpecRq SpecBfv PRing PRq PRq2 PRq4 PRq5 TestEnv QRq PBfv PBfv2 PBfv3 PBfv4 PBfv5 TestBfv.

(** C26: one prime per requested size, each the largest not used before. *)
Lemma C26_generate_moduli_lem :
  forall pr env sizes n,
    (forall x, 0 <= x < 2 ^ 64 -> (is_prime env x = true <-> prime x)) ->
    (1 <= n)%nat -> Forall (fun s => 10 <= s <= 62) sizes ->
    (exists ms, generate_moduli pr env sizes n = Ok (Some ms) /\ NoDup ms
       /\ Forall2 (fun s p => ntt_prime s n p) sizes ms
       /\ forall i x, (i < length sizes)%nat -> ntt_prime (nth i sizes 0) n x -> ~ In x (firstn i ms) -> x <= nth i ms 0)
    \/ (generate_moduli pr env sizes n = Ok None
        /\ exists s1 size s2 ms, sizes = s1 ++ size :: s2 /\ NoDup ms /\ Forall2 (fun s p => ntt_prime s n p) s1 ms
           /\ forall x, ntt_prime size n x -> In x ms).
Proof.
  intros pr env sizes n PE Hn HF. unfold generate_moduli.
  destruct (gen_loop_spec pr env PE n sizes Hn HF []) as [[ms [E G]]|[E [s1 [size [s2 [ms [ES [G H]]]]]]]].
  - left. exists ms. destruct (greedy_facts n sizes [] ms G (NoDup_nil _)) as [ND [l [El F]]]. cbn [app] in El. subst l.
    split; auto. split; auto. split; auto. intros i x Hi HX HN. apply (greedy_largest n sizes [] ms G i x Hi HX HN).
  - right. split; auto. exists s1, size, s2, ms. destruct (greedy_facts n s1 [] ms G (NoDup_nil _)) as [ND [l [El F]]]. cbn [app] in El. subst l. auto.
Qed.

(** C26: a size outside [10, 62] panics when it is reached. *)
Lemma C26_size_guard_lem :
  forall pr env size sizes n, ~ (10 <= size <= 62) -> generate_moduli pr env (size :: sizes) n = Panic.
Proof.
  intros pr env size sizes n H. unfold generate_moduli. cbn [gen_moduli_loop].
  replace ((size <=? 62) && (10 <=? size)) with false by (symmetry; apply andb_false_iff; lia). reflexivity.
Qed.

(*EXAMPLE
Example C26_example :
  generate_moduli Debug tenv [20; 20; 21; 20] 8 = Ok (Some [1048433; 1048273; 2097041; 1048193])
  /\ generate_moduli Release tenv [10; 63] 8 = Panic
  /\ generate_moduli Release tenv [10] 256 = Ok None.
Proof. vm_compute. auto. Qed.
EXAMPLE*)

(** C27: polynomial encoding. *)
Lemma C27_poly_round_trip_lem :
  forall pr P values lv, (length values <= bp_degree P)%nat ->
    exists pt, pt_new pr P values lv EncPoly = Ok pt
      /\ pt_decode pr pt = Ok (values ++ repeat 0 (bp_degree P - length values)).
Proof.
  intros pr P values lv H. unfold pt_new. rewrite copy_prefix_pad by auto. cbn [bind]. eexists. split; [reflexivity|].
  unfold pt_decode. cbn [pt_enc pt_params pt_values]. rewrite rassert_true; [reflexivity|].
  apply Nat.eqb_eq. rewrite app_length, repeat_length. lia.
Qed.

Lemma C27_guards_lem :
  forall pr P values lv e,
    ((bp_degree P < length values)%nat -> pt_new pr P values lv EncPoly = Panic)
    /\ pt_new pr P values lv EncNone = Panic
    /\ pt_decode pr (mkPt P lv EncNone values) = Panic
    /\ (length values <> bp_degree P -> pt_decode pr (pt_set_encoding (mkPt P lv e values) EncPoly) = Panic).
Proof.
  intros pr P values lv e. split; [|split; [reflexivity|split; [reflexivity|]]].
  - intros H. unfold pt_new, copy_prefix. rewrite repeat_length. destruct (Nat.leb_spec (length values) (bp_degree P)); [lia|]. reflexivity.
  - intros H. unfold pt_decode, pt_set_encoding. cbn [pt_enc pt_params pt_values].
    destruct (Nat.eqb_spec (length values) (bp_degree P)); [contradiction|]. reflexivity.
Qed.

(*EXAMPLE
Example C27_example :
  (P <- test_bfv Debug ;; pt <- pt_new Debug P [1; 2; 3] 0 EncPoly ;; pt_decode Debug pt) = Ok [1; 2; 3; 0; 0; 0; 0; 0].
Proof. vm_compute. reflexivity. Qed.
EXAMPLE*)

(** C28: for every parameter set there are vectors that do not round-trip. *)
Lemma C28_simd_refuted_lem :
  forall pr P lv, built_params P ->
    exists values pt r, length values = bp_degree P /\ Forall (fun x => 0 <= x < bp_t P) values
      /\ pt_new pr P values lv EncSIMD = Ok pt /\ pt_decode pr pt = Ok r /\ r <> values.
Proof.
  intros pr P lv B. pose proof (built_params_wf P B) as WB. destruct (map_facts P WB) as [L [HL [En [Lm [HM HC]]]]].
  set (n := bp_degree P) in *. set (values := map (fun j => if (j =? n / 2)%nat then 1 else 0) (seq 0 n)).
  pose proof (wf_t17 P WB) as Rt. assert (Lv : length values = n) by apply len_seq.
  assert (N8 : (8 <= n)%nat).
  { pose proof (cx_n8 _ (wf_ctx_loc _ (wb_ptwf _ WB))) as X. rewrite (wb_ptn _ WB) in X. exact X. }
  assert (D2 : (n / 2 < n)%nat) by (apply Nat.div_lt; lia). assert (D4 : (n / 2 + n / 4 < n /\ 2 <= n / 4)%nat).
  { pose proof (Nat.div_mod n 2 ltac:(lia)). pose proof (Nat.div_mod n 4 ltac:(lia)). lia. }
  assert (FV : Forall (fun x => 0 <= x < bp_t P) values).
  { apply Forall_forall. intros x Hx. apply in_map_iff in Hx. destruct Hx as [j [<- _]]. destruct (j =? n / 2)%nat; lia. }
  destruct (simd_ok pr P WB values lv ltac:(fold n; lia) FV) as [pt [r [E1 [_ [_ [_ [_ [E2 [Lr HR]]]]]]]]].
  exists values, pt, r. split; auto. split; auto. split; auto. split; auto. intros C.
  destruct (last_writer_ex (bp_index_map P) n (n / 2) ltac:(lia)) as [j HJ]. specialize (HR (n / 2)%nat j ltac:(fold n; lia) HJ).
  rewrite C in HR. unfold values in HR. rewrite nth_map_seq in HR by lia. rewrite Nat.eqb_refl in HR.
  destruct HJ as [J1 [J2 J3]]. rewrite nth_map_seq in HR by lia. destruct (Nat.eqb_spec j (n / 2)) as [Ej|]; [|discriminate].
  rewrite Ej in J3. apply (J3 (n / 2 + n / 4)%nat); [lia|]. symmetry. exact HC.
Qed.

(** C28: what SIMD encoding does.  The decoded slot is the value of the last
    slot that the index map sends to the same position. *)
Lemma C28_simd_actual_lem :
  forall pr P values lv, built_params P -> (bp_degree P <= length values)%nat -> Forall (fun x => 0 <= x < bp_t P) values ->
    let M := bp_index_map P in
    exists pt r, pt_new pr P values lv EncSIMD = Ok pt /\ pt_decode pr pt = Ok r /\ length r = bp_degree P
      /\ forall i j, (i < bp_degree P)%nat -> (j < bp_degree P)%nat -> nth j M 0%nat = nth i M 0%nat ->
           (forall j', (j < j' < bp_degree P)%nat -> nth j' M 0%nat <> nth i M 0%nat) -> nth i r 0 = nth j values 0.
Proof.
  intros pr P values lv B Hl HV M. pose proof (built_params_wf P B) as WB.
  destruct (simd_ok pr P WB values lv Hl HV) as [pt [r [E1 [_ [_ [_ [_ [E2 [Lr HR]]]]]]]]].
  exists pt, r. split; auto. split; auto. split; auto. intros i j Hi Hj H1 H2. apply HR; auto. split; auto.
Qed.

(** C28: the encoder panics on fewer values than the degree. *)
Lemma C28_short_panics_lem :
  forall pr P values lv, built_params P -> (length values < bp_degree P)%nat -> pt_new pr P values lv EncSIMD = Panic.
Proof. intros pr P values lv B H. apply simd_short; auto. apply built_params_wf; auto. Qed.

(*EXAMPLE
Example C28_example :
  (P <- test_bfv Debug ;; pt <- pt_new Debug P [1; 2; 3; 4; 5; 6; 7; 8] 0 EncSIMD ;; pt_decode Debug pt) = Ok [1; 2; 8; 4; 7; 8; 7; 8].
Proof. vm_compute. reflexivity. Qed.
EXAMPLE*)

(** C29: the scaled plaintext. *)
Lemma C29_scaled_plaintext_lem :
  forall pr P i c pt, built_params P -> level P i c -> pt_params pt = P -> pt_level pt = i ->
    Forall (fun x => 0 <= x < 2 ^ 64) (pt_values pt) -> (length (pt_values pt) <= bp_degree P)%nat ->
    exists u, pt_to_poly pr pt = Ok (rep c Ntt u)
      /\ forall j, (j < bp_degree P)%nat ->
           let x := cx_Q c * nth j (pt_values pt) 0 / bp_t P in u j = x \/ u j = x - 1.
Proof.
  intros pr P i c pt B L EP EL H64 Hl. pose proof (built_params_wf P B) as WB. destruct (level_wf P i c WB L) as [Hi LV].
  destruct (pt_to_poly_ok pr P i c WB LV pt EP EL H64 Hl) as [u [E HU]]. exists u. split; auto. intros j Hj.
  apply (encodes_floor P i c WB LV (pt_fun pt)); auto.
Qed.

(*EXAMPLE
(** At level 1 (Q = 65633): values 1 and 20 (>= t); the second
    coefficient is 20Q/17 reduced modulo Q. *)
Example C29_example :
  (P <- test_bfv Debug ;; p <- pt_to_poly Debug (mkPt P 1 EncPoly [1; 20]) ;; p' <- change_repr Debug p PowerBasis ;; poly_to_big p')
  = (let Q := 65633 in Ok [Q / 17; (20 * Q / 17) mod Q; 0; 0; 0; 0; 0; 0]).
Proof. vm_compute. reflexivity. Qed.
EXAMPLE*)

(** C30: the secret key: centred binomial coefficients. *)
Lemma C30_keygen_lem :
  forall pr P w, built_params P -> 1 <= bp_variance P <= 16 -> (forall k, 0 <= w k < 2 ^ 64) ->
    exists sk, sk_generate pr P w = Ok sk /\ sk_params sk = P /\ sk_ok sk
      /\ length (sk_coeffs sk) = bp_degree P /\ Forall (fun x => Z.abs x <= 2 * bp_variance P) (sk_coeffs sk).
Proof.
  intros pr P w B Hv Hw. unfold sk_generate. rewrite sample_vec_cbd_ok by auto. cbn [bind].
  set (l := map _ _). assert (HB : Forall (fun x => Z.abs x <= 2 * bp_variance P) l).
  { apply Forall_forall. intros x Hx. apply in_map_iff in Hx. destruct Hx as [j [<- _]].
    pose proof (cbd_sample_bound w (Z.to_nat (bp_variance P)) (4 * Z.to_nat (bp_variance P) * j)). lia. }
  assert (Ll : length l = bp_degree P) by apply len_seq.
  exists (mkSk P l). split; auto. split; auto. split; [|auto]. split; cbn [sk_coeffs sk_params]; [|lia].
  eapply Forall_impl; [|exact HB]. cbv beta. intros a Ha. change (2 ^ 63) with 9223372036854775808. lia.
Qed.

(** C30: a fresh encryption decrypts to the message. *)
Lemma C30_encrypt_decrypt_lem :
  forall pr P c sk pt rows w,
    built_params P -> level P 0 c -> sk_params sk = P -> sk_ok sk ->
    pt_params pt = P -> pt_level pt = 0%nat -> Forall (fun x => 0 <= x < 2 ^ 64) (pt_values pt) ->
    (length (pt_values pt) <= bp_degree P)%nat ->
    wf_poly (mkPoly c Ntt rows) -> (forall k, 0 <= w k < 2 ^ 64) ->
    1 <= bp_variance P <= 16 -> small_basis (rq_moduli_64 c) -> 2 * bp_t P <= cx_q c 0 ->
    2 ^ 54 * (2 * bp_t P * (2 * bp_variance P + 2)) <= (2 ^ 54 - 1) * cx_Q c ->
    exists ct, encrypt pr sk pt rows w = Ok ct
      /\ decrypt pr sk ct = Ok (mkPt P 0 EncNone (map (fun j => nth j (pt_values pt) 0 mod bp_t P) (seq 0 (bp_degree P)))).
Proof.
  intros pr P c sk pt rows w B L SP SK PP PL H64 Hl WR Hw Hv SB Hq HB.
  pose proof (built_params_wf P B) as WB. destruct (level_wf P 0 c WB L) as [Hi LV].
  destruct (pt_to_poly_ok pr P 0 c WB LV pt PP PL H64 Hl) as [u [E HU]].
  destruct (encrypt_poly_ok pr P 0 c LV sk u rows w (conj SP SK) WR Hv Hw) as [f0 [f1 [e [EE [_ [He HP]]]]]].
  unfold encrypt. rewrite E. cbn [bind]. rewrite EE. eexists. split; [reflexivity|].
  apply (decrypt_ok pr P 0 c WB LV sk [f0; f1] (pt_fun pt) (fun j => bp_t P * u j - cx_Q c * pt_fun pt j + bp_t P * e j)); auto.
  - split; auto.
  - discriminate.
  - eapply (carries_ext P c); [| | |apply (encode_carries P c _ _ e HU)]; intros j Hj; cbv beta; auto.
    symmetry. apply HP; auto.
  - intros j Hj. specialize (HU j Hj). specialize (He j). pose proof (wf_t17 P WB) as Rt. pose proof (Q_pos P 0 c LV) as RQ.
    change (2 ^ 62) with 4611686018427387904 in Rt. unfold noise_ok. change (2 ^ 54) with 18014398509481984 in *.
    set (Q := cx_Q c) in *. set (t := bp_t P) in *. set (v := bp_variance P) in *. set (d := t * u j - Q * pt_fun pt j) in *.
    assert (D : - 2 * t < d <= 0) by (unfold d; lia). assert (T : - (2 * t * v) <= t * e j <= 2 * t * v) by (clear - He Rt; nia).
    replace (2 * t * (2 * v + 2)) with (2 * (2 * t * v) + 4 * t) in HB by ring.
    set (x := t * e j) in *. set (y := 2 * t * v) in *. clear - D T HB RQ Rt. lia.
Qed.

(*EXAMPLE
Example C30_example :
  (P <- test_bfv Debug ;; sk <- sk_generate Debug P (tw 1) ;; pt <- pt_new Debug P [1; 2; 3; 4; 5; 16] 0 EncPoly ;;
   ct <- encrypt Debug sk pt (trows bms 4) (tw 5) ;; d <- decrypt Debug sk ct ;; Ok (sk_coeffs sk, pt_values d))
  = Ok ([-1; 0; -2; 0; 2; -1; 0; 0], [1; 2; 3; 4; 5; 16; 0; 0]).
Proof. vm_compute. reflexivity. Qed.
EXAMPLE*)

(** C31: decryption removes every scaled noise of magnitude below (almost) Q/2,
    for any number of components. *)
Lemma C31_decrypt_lem :
  forall pr P i c sk fs m E,
    built_params P -> level P i c -> sk_params sk = P -> sk_ok sk -> fs <> [] ->
    small_basis (rq_moduli_64 c) -> 2 * bp_t P <= cx_q c 0 ->
    carries (bp_degree P) (cx_Q c) (bp_t P) (phase (bp_degree P) (sk_fun sk) fs) m E ->
    (forall j, (j < bp_degree P)%nat -> noise_ok (cx_Q c) (E j)) ->
    decrypt pr sk (ct_of P i c fs) = Ok (mkPt P i EncNone (map (fun j => m j mod bp_t P) (seq 0 (bp_degree P)))).
Proof.
  intros pr P i c sk fs m E B L SP SK Hf SB Hq HC HN. pose proof (built_params_wf P B) as WB. destruct (level_wf P i c WB L) as [Hi LV].
  apply (decrypt_ok pr P i c WB LV sk fs m E); auto. split; auto.
Qed.

(** C31: the same in terms of floor(Qm/t) + e. *)
Lemma C31_budget_lem :
  forall pr P i c sk fs m e B,
    built_params P -> level P i c -> sk_params sk = P -> sk_ok sk -> fs <> [] ->
    small_basis (rq_moduli_64 c) -> 2 * bp_t P <= cx_q c 0 ->
    (forall j, (j < bp_degree P)%nat ->
       phase (bp_degree P) (sk_fun sk) fs j mod cx_Q c = (cx_Q c * m j / bp_t P + e j) mod cx_Q c /\ Z.abs (e j) <= B) ->
    2 ^ 54 * (2 * bp_t P * (B + 1)) <= (2 ^ 54 - 1) * cx_Q c ->
    decrypt pr sk (ct_of P i c fs) = Ok (mkPt P i EncNone (map (fun j => m j mod bp_t P) (seq 0 (bp_degree P)))).
Proof.
  intros pr P i c sk fs m e B BP L SP SK Hf SB Hq HC HB. pose proof (built_params_wf P BP) as WB. destruct (level_wf P i c WB L) as [Hi LV].
  pose proof (wf_t17 P WB) as Rt. pose proof (Q_pos P i c LV) as RQ. change (2 ^ 62) with 4611686018427387904 in Rt.
  set (Q := cx_Q c) in *. set (t := bp_t P) in *.
  apply (C31_decrypt_lem pr P i c sk fs m (fun j => t * e j - (Q * m j) mod t)); auto.
  - intros j Hj. destruct (HC j Hj) as [H1 _]. fold t Q. change (eqm Q (phase (bp_degree P) (sk_fun sk) fs j) (Q * m j / t + e j)) in H1.
    apply eqm_divide in H1; [|lia]. destruct H1 as [k Hk]. change (eqm (t * Q) (t * phase (bp_degree P) (sk_fun sk) fs j) (Q * m j + (t * e j - (Q * m j) mod t))).
    apply eqm_divide; [nia|]. exists k. pose proof (Z.div_mod (Q * m j) t ltac:(lia)) as D.
    set (f := phase _ _ _ _) in *. set (a := Q * m j / t) in *. set (b := (Q * m j) mod t) in *. rewrite D.
    replace (t * f - (t * a + b + (t * e j - b))) with (t * (f - (a + e j))) by ring. rewrite Hk. ring.
  - intros j Hj. destruct (HC j Hj) as [_ H2]. fold Q. unfold noise_ok. change (2 ^ 54) with 18014398509481984 in *.
    pose proof (Z.mod_pos_bound (Q * m j) t ltac:(lia)) as R. set (b := (Q * m j) mod t) in *.
    assert (T : - (t * B) <= t * e j <= t * B) by (clear - H2 Rt; nia).
    replace (2 * t * (B + 1)) with (2 * (t * B) + 2 * t) in HB by ring. set (x := t * e j) in *. set (y := t * B) in *. clear - R T HB RQ Rt. lia.
Qed.

(*EXAMPLE
(** A three-component ciphertext (f0, 1, 1) with phase floor(Q*5/17) + 1000
    under s = 1 + X. *)
Example C31_example :
  (P <- test_bfv Debug ;; c <- get (bp_q_ctxs P) 0 ;;
   d <- decrypt Debug (mkSk P [1; 1]) (ct_of P 0 c [fun j => if (j =? 0)%nat then cx_Q c * 5 / 17 + 1000 - 2 else if (j =? 1)%nat then - 3 else if (j =? 2)%nat then -1 else 0;
                                                    one; one]) ;;
   Ok (pt_values d)) = Ok [5; 0; 0; 0; 0; 0; 0; 0].
Proof. vm_compute. reflexivity. Qed.
EXAMPLE*)

(** C32: the phase of a sum (difference) is the sum (difference) of the phases. *)
Lemma C32_add_sub_lem :
  forall pr P i c f0 f1 g0 g1, built_params P -> level P i c ->
    exists h k, ct_add pr (ct_of P i c [f0; f1]) (ct_of P i c [g0; g1]) = Ok (ct_of P i c h)
      /\ ct_sub pr (ct_of P i c [f0; f1]) (ct_of P i c [g0; g1]) = Ok (ct_of P i c k)
      /\ length h = 2%nat /\ length k = 2%nat
      /\ forall s j, (j < bp_degree P)%nat ->
           phase (bp_degree P) s h j = phase (bp_degree P) s [f0; f1] j + phase (bp_degree P) s [g0; g1] j
           /\ phase (bp_degree P) s k j = phase (bp_degree P) s [f0; f1] j - phase (bp_degree P) s [g0; g1] j.
Proof.
  intros pr P i c f0 f1 g0 g1 B L. pose proof (built_params_wf P B) as WB. destruct (level_wf P i c WB L) as [Hi LV].
  eexists. eexists. split; [apply (ct_add_ok pr P i c LV)|]. split; [apply (ct_sub_ok pr P i c LV)|].
  split; [reflexivity|]. split; [reflexivity|]. intros s j Hj. split; [apply phase_add|apply phase_sub].
Qed.

(** C32: and it decrypts to the sum (difference) while the noise is in budget. *)
Lemma C32_decrypt_lem :
  forall pr P i c sk f0 f1 g0 g1 m m' E E', built_params P -> level P i c -> sk_params sk = P -> sk_ok sk ->
    small_basis (rq_moduli_64 c) -> 2 * bp_t P <= cx_q c 0 ->
    carries (bp_degree P) (cx_Q c) (bp_t P) (phase (bp_degree P) (sk_fun sk) [f0; f1]) m E ->
    carries (bp_degree P) (cx_Q c) (bp_t P) (phase (bp_degree P) (sk_fun sk) [g0; g1]) m' E' ->
    ((forall j, (j < bp_degree P)%nat -> noise_ok (cx_Q c) (E j + E' j)) ->
       (x <- ct_add pr (ct_of P i c [f0; f1]) (ct_of P i c [g0; g1]) ;; decrypt pr sk x)
       = Ok (mkPt P i EncNone (map (fun j => (m j + m' j) mod bp_t P) (seq 0 (bp_degree P)))))
    /\ ((forall j, (j < bp_degree P)%nat -> noise_ok (cx_Q c) (E j - E' j)) ->
       (x <- ct_sub pr (ct_of P i c [f0; f1]) (ct_of P i c [g0; g1]) ;; decrypt pr sk x)
       = Ok (mkPt P i EncNone (map (fun j => (m j - m' j) mod bp_t P) (seq 0 (bp_degree P))))).
Proof.
  intros pr P i c sk f0 f1 g0 g1 m m' E E' B L SP SK SB Hq H1 H2. pose proof (built_params_wf P B) as WB. destruct (level_wf P i c WB L) as [Hi LV].
  split; intros HN.
  - rewrite (ct_add_ok pr P i c LV). cbn [bind]. apply (decrypt_ok pr P i c WB LV sk _ (fun j => m j + m' j) (fun j => E j + E' j)); auto.
    + split; auto. + discriminate.
    + eapply (carries_ext P c); [| | |apply (carries_add P c _ _ _ _ _ _ H1 H2)]; intros j Hj; cbv beta; auto. symmetry. apply phase_add.
  - rewrite (ct_sub_ok pr P i c LV). cbn [bind]. apply (decrypt_ok pr P i c WB LV sk _ (fun j => m j - m' j) (fun j => E j - E' j)); auto.
    + split; auto. + discriminate.
    + eapply (carries_ext P c); [| | |apply (carries_sub P c _ _ _ _ _ _ H1 H2)]; intros j Hj; cbv beta; auto. symmetry. apply phase_sub.
Qed.

(** C32: ciphertexts of different levels or parameters are refused. *)
Lemma C32_mismatch_lem :
  forall pr a b,
    ct_level a <> ct_level b \/ bp_degree (ct_params a) <> bp_degree (ct_params b) \/ bp_t (ct_params a) <> bp_t (ct_params b)
    \/ bp_moduli (ct_params a) <> bp_moduli (ct_params b) \/ bp_variance (ct_params a) <> bp_variance (ct_params b) ->
    ct_add pr a b = Panic /\ ct_sub pr a b = Panic.
Proof.
  intros pr a b H. unfold ct_add, ct_sub. destruct (params_eqb (ct_params a) (ct_params b)) eqn:EP; [|split; reflexivity].
  destruct (Nat.eqb_spec (ct_level a) (ct_level b)) as [EL|NL]; [|split; reflexivity]. exfalso.
  unfold params_eqb in EP. repeat rewrite andb_true_iff in EP. rewrite Nat.eqb_eq, !Z.eqb_eq in EP. rewrite zlist_eqb_eq in EP.
  tauto.
Qed.

(*EXAMPLE
Example C32_example :
  (P <- test_bfv Release ;; let sk := mkSk P [1; -1; 0; 1; 1; 0; 2; -1] in
   pa <- pt_new Release P [1; 2; 16] 0 EncPoly ;; pb <- pt_new Release P [3; 4; 5; 6] 0 EncPoly ;;
   a <- encrypt Release sk pa (trows bms 4) (tw 5) ;; b <- encrypt Release sk pb (trows bms 6) (tw 7) ;;
   s <- ct_add Release a b ;; d <- ct_sub Release a b ;; s' <- decrypt Release sk s ;; d' <- decrypt Release sk d ;;
   Ok (pt_values s', pt_values d'))
  = Ok ([4; 6; 4; 6; 0; 0; 0; 0], [15; 15; 11; 11; 0; 0; 0; 0]).
Proof. vm_compute. reflexivity. Qed.
EXAMPLE*)

Lemma cx_Q_gt1 P i c : wf_bfv P -> wf_level P i c -> 2 < cx_Q c.
Proof.
  intros WB LV. pose proof (wf_ctx_loc _ (lv_wf _ _ _ LV)) as W.
  destruct (cx_q_Q c 0 (wl_ne _ W)) as [z Hz]. pose proof (Q_pos P i c LV).
  assert (17 < cx_q c 0); [|assert (1 <= z) by nia; nia].
  pose proof (wl_ne _ W) as Hk. unfold cx_q, cx_k in *. pose proof (wf_t17 P WB) as Rt.
  pose proof (wb_tq _ WB (nth 0 (rq_moduli_64 c) 1)) as X.
  assert (In (nth 0 (rq_moduli_64 c) 1) (bp_moduli P)); [|specialize (X H0); lia].
  pose proof (nth_In (rq_moduli_64 c) 1 Hk) as Y. rewrite (lv_ms _ _ _ LV) in Y at 2. eapply firstn_in; eauto.
Qed.
Lemma phase_sk1 n fs : (0 < n)%nat -> forall j, (j < n)%nat -> phase n (fun j => nth j [1] 0) fs j = fold_right (fun f a => f j + a) 0 fs.
Proof.
  intros Hn. induction fs as [|f fs IH]; intros j Hj; cbn [phase fold_right]; auto. f_equal. rewrite <- IH by auto.
  rewrite (rmul_ext n _ one _ (phase n (fun j => nth j [1] 0) fs)); auto; [apply rmul_one_l; auto|].
  intros k _. unfold one. destruct k as [|[|k]]; reflexivity.
Qed.
Lemma sk1_ok P : (0 < bp_degree P)%nat -> sk_ok (mkSk P [1]).
Proof. intros H. split; [repeat constructor|]; cbn [sk_params sk_coeffs length]; lia. Qed.

(** C58: a third component is dropped by the addition. *)
Lemma C58_add_three_refuted_lem :
  forall pr P i c, built_params P -> level P i c ->
    exists sk f g h, sk_params sk = P /\ sk_ok sk /\ length f = 3%nat /\ length g = 3%nat
      /\ ct_add pr (ct_of P i c f) (ct_of P i c g) = Ok (ct_of P i c h)
      /\ (phase (bp_degree P) (sk_fun sk) h 0%nat) mod cx_Q c
         <> (phase (bp_degree P) (sk_fun sk) f 0%nat + phase (bp_degree P) (sk_fun sk) g 0%nat) mod cx_Q c.
Proof.
  intros pr P i c B L. pose proof (built_params_wf P B) as WB. destruct (level_wf P i c WB L) as [Hi LV].
  pose proof (wf_ctx_loc _ (lv_wf _ _ _ LV)) as W. pose proof (n_pos P i c LV) as Hn.
  exists (mkSk P [1]), [fun _ => 0; fun _ => 0; one], [fun _ => 0; fun _ => 0; fun _ => 0], [fun _ => 0 + 0; fun _ => 0 + 0].
  split; [reflexivity|]. split; [apply sk1_ok; auto|].
  split; [reflexivity|]. split; [reflexivity|]. split.
  { unfold ct_add, ct_of. cbn [ct_params ct_level ct_cts map]. rewrite params_eqb_refl, Nat.eqb_refl. cbn [rassert bind get nth_error].
    rewrite !rep_add by auto. cbn [bind]. reflexivity. }
  unfold sk_fun. cbn [sk_coeffs]. rewrite !phase_sk1 by auto. cbn [fold_right one Nat.eqb].
  pose proof (cx_Q_gt1 P i c WB LV). rewrite (Z.mod_small (0 + 0 + (0 + 0 + 0))) by lia. rewrite Z.mod_small by lia. discriminate.
Qed.

(** C58, what happens: only the components 0 and 1 are read, the others are
    dropped; with fewer than two components the operations panic. *)
Lemma C58_actual_lem :
  forall pr P i c, built_params P -> level P i c ->
    (forall f0 f1 fs g0 g1 gs,
       ct_add pr (ct_of P i c (f0 :: f1 :: fs)) (ct_of P i c (g0 :: g1 :: gs)) = Ok (ct_of P i c [fun j => f0 j + g0 j; fun j => f1 j + g1 j])
       /\ ct_sub pr (ct_of P i c (f0 :: f1 :: fs)) (ct_of P i c (g0 :: g1 :: gs)) = Ok (ct_of P i c [fun j => f0 j - g0 j; fun j => f1 j - g1 j]))
    /\ forall f g, (length f < 2 \/ length g < 2)%nat ->
         ct_add pr (ct_of P i c f) (ct_of P i c g) = Panic /\ ct_sub pr (ct_of P i c f) (ct_of P i c g) = Panic.
Proof.
  intros pr P i c B L. pose proof (built_params_wf P B) as WB. destruct (level_wf P i c WB L) as [Hi LV].
  pose proof (wf_ctx_loc _ (lv_wf _ _ _ LV)) as W. split.
  - intros f0 f1 fs g0 g1 gs. unfold ct_add, ct_sub, ct_of. cbn [ct_params ct_level ct_cts map]. rewrite params_eqb_refl, Nat.eqb_refl. cbn [rassert bind get nth_error].
    rewrite !rep_add, !rep_sub by auto. cbn [bind]. split; reflexivity.
  - intros f g H. unfold ct_add, ct_sub, ct_of. cbn [ct_params ct_level ct_cts map]. rewrite params_eqb_refl, Nat.eqb_refl. cbn [rassert bind].
    destruct f as [|f0 [|f1 fs]], g as [|g0 [|g1 gs]]; cbn [map length] in *; cbn [get nth_error bind]; rewrite ?rep_add, ?rep_sub by auto; cbn [bind]; try (split; reflexivity); lia.
Qed.

(** C33: products with a plaintext, a polynomial and an integer multiply the
    phase. *)
Lemma C33_multiply_lem :
  forall pr P i c f0 f1 h k pt, built_params P -> level P i c ->
    pt_level pt = i -> Forall (fun x => 0 <= x < 2 ^ 64) (pt_values pt) -> (length (pt_values pt) <= bp_degree P)%nat ->
    let ph s fs := phase (bp_degree P) s fs in
    exists a b d, ct_mul_pt pr (ct_of P i c [f0; f1]) pt = Ok (ct_of P i c a)
      /\ ct_mul_poly pr (ct_of P i c [f0; f1]) (rep c Ntt h) = Ok (ct_of P i c b)
      /\ ct_mul_big pr (ct_of P i c [f0; f1]) k = Ok (ct_of P i c d)
      /\ length a = 2%nat /\ length b = 2%nat /\ length d = 2%nat
      /\ forall s j, ph s a j = rmul (bp_degree P) (ph s [f0; f1]) (fun l => nth l (pt_values pt) 0) j
          /\ ph s b j = rmul (bp_degree P) (ph s [f0; f1]) h j
          /\ ph s d j = k * ph s [f0; f1] j.
Proof.
  intros pr P i c f0 f1 h k pt B L PL PV Pl ph. pose proof (built_params_wf P B) as WB. destruct (level_wf P i c WB L) as [Hi LV].
  eexists. eexists. eexists. split; [apply (ct_mul_pt_ok pr P i c LV); auto|]. split; [apply (ct_mul_poly_ok pr P i c LV)|].
  split; [apply (ct_mul_big_ok pr P i c LV)|]. split; [reflexivity|]. split; [reflexivity|]. split; [reflexivity|].
  intros s j. unfold ph. split; [apply (phase_rmul P i c LV)|]. split; [apply (phase_rmul P i c LV)|apply phase_scal].
Qed.

Lemma C33_decrypt_lem :
  forall pr P i c sk f0 f1 h k pt m E, built_params P -> level P i c -> sk_params sk = P -> sk_ok sk ->
    pt_level pt = i -> Forall (fun x => 0 <= x < 2 ^ 64) (pt_values pt) -> (length (pt_values pt) <= bp_degree P)%nat ->
    small_basis (rq_moduli_64 c) -> 2 * bp_t P <= cx_q c 0 ->
    carries (bp_degree P) (cx_Q c) (bp_t P) (phase (bp_degree P) (sk_fun sk) [f0; f1]) m E ->
    let n := bp_degree P in let p l := nth l (pt_values pt) 0 in
    ((forall j, (j < n)%nat -> noise_ok (cx_Q c) (rmul n E p j)) ->
       (x <- ct_mul_pt pr (ct_of P i c [f0; f1]) pt ;; decrypt pr sk x)
       = Ok (mkPt P i EncNone (map (fun j => rmul n m p j mod bp_t P) (seq 0 n))))
    /\ ((forall j, (j < n)%nat -> noise_ok (cx_Q c) (rmul n E h j)) ->
       (x <- ct_mul_poly pr (ct_of P i c [f0; f1]) (rep c Ntt h) ;; decrypt pr sk x)
       = Ok (mkPt P i EncNone (map (fun j => rmul n m h j mod bp_t P) (seq 0 n))))
    /\ ((forall j, (j < n)%nat -> noise_ok (cx_Q c) (k * E j)) ->
       (x <- ct_mul_big pr (ct_of P i c [f0; f1]) k ;; decrypt pr sk x)
       = Ok (mkPt P i EncNone (map (fun j => (k * m j) mod bp_t P) (seq 0 n)))).
Proof.
  intros pr P i c sk f0 f1 h k pt m E B L SP SK PL PV Pl SB Hq HC n p. pose proof (built_params_wf P B) as WB. destruct (level_wf P i c WB L) as [Hi LV].
  split; [|split]; intros HN.
  - rewrite (ct_mul_pt_ok pr P i c LV) by auto. cbn [bind]. apply (decrypt_ok pr P i c WB LV sk _ (rmul n m p) (rmul n E p)); auto.
    + split; auto. + discriminate.
    + eapply (carries_ext P c); [| | |apply (carries_rmul P c _ _ _ p HC)]; intros j Hj; cbv beta; auto. symmetry. apply (phase_rmul P i c LV).
  - rewrite (ct_mul_poly_ok pr P i c LV) by auto. cbn [bind]. apply (decrypt_ok pr P i c WB LV sk _ (rmul n m h) (rmul n E h)); auto.
    + split; auto. + discriminate.
    + eapply (carries_ext P c); [| | |apply (carries_rmul P c _ _ _ h HC)]; intros j Hj; cbv beta; auto. symmetry. apply (phase_rmul P i c LV).
  - rewrite (ct_mul_big_ok pr P i c LV) by auto. cbn [bind]. apply (decrypt_ok pr P i c WB LV sk _ (fun j => k * m j) (fun j => k * E j)); auto.
    + split; auto. + discriminate.
    + eapply (carries_ext P c); [| | |apply (carries_scal P c _ _ _ k HC)]; intros j Hj; cbv beta; auto. symmetry. apply phase_scal.
Qed.

(*EXAMPLE
(** (1 + 2X + 16X^2) * (3 + X^7), and 5 times the message. *)
Example C33_example :
  (P <- test_bfv Release ;; let sk := mkSk P [1; -1; 0; 1; 1; 0; 2; -1] in
   pa <- pt_new Release P [1; 2; 16] 0 EncPoly ;; pb <- pt_new Release P [3; 0; 0; 0; 0; 0; 0; 1] 0 EncPoly ;;
   a <- encrypt Release sk pa (trows bms 4) (tw 5) ;;
   s <- ct_mul_pt Release a pb ;; d <- ct_mul_big Release a 5 ;; s' <- decrypt Release sk s ;; d' <- decrypt Release sk d ;;
   Ok (pt_values s', pt_values d'))
  = Ok ([1; 7; 14; 0; 0; 0; 0; 1], [5; 10; 12; 0; 0; 0; 0; 0]).
Proof. vm_compute. reflexivity. Qed.
EXAMPLE*)

(** C34: adding a polynomial h changes the phase by h + h*s: it is added to
    both components. *)
Lemma C34_add_poly_actual_lem :
  forall pr P i c f0 f1 h, built_params P -> level P i c ->
    exists g, ct_add_poly pr (ct_of P i c [f0; f1]) (rep c Ntt h) = Ok (ct_of P i c g)
      /\ forall s j, phase (bp_degree P) s g j = phase (bp_degree P) s [f0; f1] j + h j + rmul (bp_degree P) s h j.
Proof.
  intros pr P i c f0 f1 h B L. pose proof (built_params_wf P B) as WB. destruct (level_wf P i c WB L) as [Hi LV].
  eexists. split; [apply (ct_add_poly_ok pr P i c LV)|]. intros s j. rewrite (phase_add P s f0 f1 h h j).
  rewrite <- Z.add_assoc. f_equal. cbn [phase]. f_equal. apply rmul_ext; auto. intros l _. rewrite rmul_0_r. lia.
Qed.

Lemma C34_add_poly_refuted_lem :
  forall pr P i c, built_params P -> level P i c ->
    exists sk f h g, sk_params sk = P /\ sk_ok sk /\ length f = 2%nat
      /\ ct_add_poly pr (ct_of P i c f) (rep c Ntt h) = Ok (ct_of P i c g)
      /\ (phase (bp_degree P) (sk_fun sk) g 0%nat) mod cx_Q c
         <> (phase (bp_degree P) (sk_fun sk) f 0%nat + h 0%nat) mod cx_Q c.
Proof.
  intros pr P i c B L. pose proof (built_params_wf P B) as WB. destruct (level_wf P i c WB L) as [Hi LV]. pose proof (n_pos P i c LV) as Hn.
  exists (mkSk P [1]), [fun _ => 0; fun _ => 0], one. eexists. split; [reflexivity|]. split; [apply sk1_ok; auto|]. split; [reflexivity|].
  split; [apply (ct_add_poly_ok pr P i c LV)|]. unfold sk_fun. cbn [sk_coeffs]. rewrite !phase_sk1 by auto. cbn [fold_right one Nat.eqb].
  pose proof (cx_Q_gt1 P i c WB LV). rewrite (Z.mod_small (0 + 1 + (0 + 1 + 0))) by lia. rewrite Z.mod_small by lia. discriminate.
Qed.

(*EXAMPLE
(** Adding the encoding of 3 to an encryption of 1 does not give 4. *)
Example C34_example :
  (P <- test_bfv Release ;; let sk := mkSk P [1; -1; 0; 1; 1; 0; 2; -1] in
   pa <- pt_new Release P [1] 0 EncPoly ;; pb <- pt_new Release P [3] 0 EncPoly ;;
   a <- encrypt Release sk pa (trows bms 4) (tw 5) ;; h <- pt_to_poly Release pb ;;
   s <- ct_add_poly Release a h ;; d <- decrypt Release sk s ;; Ok (pt_values d)) = Ok [7; 14; 0; 3; 3; 0; 6; 14].
Proof. vm_compute. reflexivity. Qed.
EXAMPLE*)

(** C35: the product by [*] loses a cross term. *)
Definition mul_run (pr : profile) : outcome (list Z * list Z) :=
  P <- test_bfv pr ;; let sk := mkSk P [1; -1; 0; 1; 1; 0; 2; -1] in
  pa <- pt_new pr P [2; 3] 0 EncPoly ;;
  a <- encrypt pr sk pa (trows bms 4) (tw 5) ;;
  m <- ct_mul pr a a ;; d0 <- decrypt pr sk a ;; d <- decrypt pr sk m ;; Ok (pt_values d0, pt_values d).
Lemma mul_run_val pr : mul_run pr = Ok ([2; 3; 0; 0; 0; 0; 0; 0], [16; 14; 15; 15; 6; 2; 1; 15]).
Proof. destruct pr; vm_compute; reflexivity. Qed.

Lemma C35_product_refuted_lem :
  forall pr, exists P sk pa a prod d0 d,
    built_params P /\ sk_params sk = P /\ sk_ok sk
    /\ pt_new pr P [2; 3] 0 EncPoly = Ok pa /\ encrypt pr sk pa (trows bms 4) (tw 5) = Ok a
    /\ decrypt pr sk a = Ok d0 /\ pt_values d0 = [2; 3; 0; 0; 0; 0; 0; 0]
    /\ ct_mul pr a a = Ok prod /\ decrypt pr sk prod = Ok d
    /\ pt_values d <> [4; 12; 9; 0; 0; 0; 0; 0].
Proof.
  intros pr. pose proof (mul_run_val pr) as E. unfold mul_run in E.
  apply bind_inv in E. destruct E as [P [EP E]]. cbv zeta in E.
  apply bind_inv in E. destruct E as [pa [E1 E]]. apply bind_inv in E. destruct E as [a [E2 E]].
  apply bind_inv in E. destruct E as [m [E3 E]]. apply bind_inv in E. destruct E as [d0 [E4 E]]. apply bind_inv in E. destruct E as [d [E5 E]].
  apply Ok_inj in E. assert (E6 := f_equal fst E). assert (E7 := f_equal snd E). cbn [fst snd] in E6, E7.
  exists P, (mkSk P [1; -1; 0; 1; 1; 0; 2; -1]), pa, a, m, d0, d.
  split; [apply (test_bfv_built pr); auto|]. split; [reflexivity|]. split.
  { split; [repeat constructor; cbn; lia|]. cbn [sk_params sk_coeffs length]. rewrite (test_bfv_degree pr P EP). auto. }
  repeat (split; [assumption|]). rewrite E7. discriminate.
Qed.

(** C46: above level 0 a fresh ciphertext carries the wrong level, so that its
    decryption panics. *)
Lemma C46_level_refuted_lem :
  forall pr P i c sk pt rows w,
    built_params P -> level P i c -> (1 <= i)%nat -> sk_params sk = P -> sk_ok sk ->
    pt_params pt = P -> pt_level pt = i -> Forall (fun x => 0 <= x < 2 ^ 64) (pt_values pt) ->
    (length (pt_values pt) <= bp_degree P)%nat ->
    wf_poly (mkPoly c Ntt rows) -> (forall k, 0 <= w k < 2 ^ 64) -> 1 <= bp_variance P <= 16 ->
    exists ct, encrypt pr sk pt rows w = Ok ct /\ ct_level ct = 0%nat /\ decrypt pr sk ct = Panic.
Proof.
  intros pr P i c sk pt rows w B L I1 SP SK PP PL H64 Hl WR Hw Hv.
  pose proof (built_params_wf P B) as WB. destruct (level_wf P i c WB L) as [Hi LV].
  destruct (pt_to_poly_ok pr P i c WB LV pt PP PL H64 Hl) as [u [E HU]].
  destruct (encrypt_poly_ok pr P i c LV sk u rows w (conj SP SK) WR Hv Hw) as [f0 [f1 [e [EE _]]]].
  unfold encrypt. rewrite E. cbn [bind]. rewrite EE. eexists. split; [reflexivity|]. split; [reflexivity|].
  destruct SK as [S1 S2]. rewrite SP in S2. pose proof (wf_ctx_loc _ (lv_wf _ _ _ LV)) as W.
  unfold decrypt. cbn [ct_cts ct_level]. change (get [rep c Ntt f0; rep c Ntt f1] 0) with (Ok (rep c Ntt f0)).
  cbn [bind tl]. change (p_ctx (rep c Ntt f0)) with c. rewrite (sk_ntt_ok pr P i c LV) by auto. cbn [bind].
  destruct (phase_ok pr P i c LV (fun j => nth j (sk_coeffs sk) 0) f0 [f1]) as [g' EP]. cbn [map] in EP. rewrite EP. cbn [bind].
  rewrite change_bwd by auto. cbn [bind]. rewrite SP.
  destruct (wb_lv _ WB 0%nat (wb_k _ WB)) as [c0 LV0]. destruct (lv_sc _ _ _ LV0) as [sc [GS [Ef _]]]. rewrite GS. cbn [bind].
  unfold rq_scale. change (p_ctx (rep c PowerBasis _)) with c. destruct (ctx_eqb c (sc_from sc)) eqn:EC; [|reflexivity]. exfalso.
  rewrite Ef in EC. apply ctx_eqb_iff in EC. destruct EC as [EC _]. rewrite (lv_ms _ _ _ LV), (lv_ms _ _ _ LV0) in EC.
  apply (f_equal (@length Z)) in EC. rewrite !firstn_length in EC. lia.
Qed.

(** C46, the ciphertext that comes out: its components are a correct encryption
    at level i, only its level field is wrong; with that field set to i it
    decrypts to the message. *)
Lemma C46_actual_lem :
  forall pr P i c sk pt rows w,
    built_params P -> level P i c -> sk_params sk = P -> sk_ok sk ->
    pt_params pt = P -> pt_level pt = i -> Forall (fun x => 0 <= x < 2 ^ 64) (pt_values pt) ->
    (length (pt_values pt) <= bp_degree P)%nat ->
    wf_poly (mkPoly c Ntt rows) -> (forall k, 0 <= w k < 2 ^ 64) ->
    1 <= bp_variance P <= 16 -> small_basis (rq_moduli_64 c) -> 2 * bp_t P <= cx_q c 0 ->
    2 ^ 54 * (2 * bp_t P * (2 * bp_variance P + 2)) <= (2 ^ 54 - 1) * cx_Q c ->
    exists ct, encrypt pr sk pt rows w = Ok ct /\ ct_params ct = P /\ ct_level ct = 0%nat
      /\ decrypt pr sk (mkCt P (ct_cts ct) i) = Ok (mkPt P i EncNone (map (fun j => nth j (pt_values pt) 0 mod bp_t P) (seq 0 (bp_degree P)))).
Proof.
  intros pr P i c sk pt rows w B L SP SK PP PL H64 Hl WR Hw Hv SB Hq HB.
  pose proof (built_params_wf P B) as WB. destruct (level_wf P i c WB L) as [Hi LV].
  destruct (pt_to_poly_ok pr P i c WB LV pt PP PL H64 Hl) as [u [E HU]].
  destruct (encrypt_poly_ok pr P i c LV sk u rows w (conj SP SK) WR Hv Hw) as [f0 [f1 [e [EE [_ [He HP]]]]]].
  unfold encrypt. rewrite E. cbn [bind]. rewrite EE. eexists. split; [reflexivity|]. split; [first [reflexivity|exact SP]|]. split; [reflexivity|]. cbn [ct_cts].
  apply (decrypt_ok pr P i c WB LV sk [f0; f1] (pt_fun pt) (fun j => bp_t P * u j - cx_Q c * pt_fun pt j + bp_t P * e j)); auto.
  - split; auto.
  - discriminate.
  - eapply (carries_ext P c); [| | |apply (encode_carries P c _ _ e HU)]; intros j Hj; cbv beta; auto.
    symmetry. apply HP; auto.
  - intros j Hj. specialize (HU j Hj). specialize (He j). pose proof (wf_t17 P WB) as Rt. pose proof (Q_pos P i c LV) as RQ.
    change (2 ^ 62) with 4611686018427387904 in Rt. unfold noise_ok. change (2 ^ 54) with 18014398509481984 in *.
    set (Q := cx_Q c) in *. set (t := bp_t P) in *. set (v := bp_variance P) in *. set (d := t * u j - Q * pt_fun pt j) in *.
    assert (D : - 2 * t < d <= 0) by (unfold d; lia). assert (T : - (2 * t * v) <= t * e j <= 2 * t * v) by (clear - He Rt; nia).
    replace (2 * t * (2 * v + 2)) with (2 * (2 * t * v) + 4 * t) in HB by ring.
    set (x := t * e j) in *. set (y := 2 * t * v) in *. clear - D T HB RQ Rt. lia.
Qed.

(*EXAMPLE
Example C46_example :
  (P <- test_bfv Debug ;; let sk := mkSk P [1; -1; 0; 1; 1; 0; 2; -1] in
   pt <- pt_new Debug P [2; 3] 1 EncPoly ;; ct <- encrypt Debug sk pt (trows [65633] 4) (tw 5) ;; decrypt Debug sk ct) = Panic
  /\ (P <- test_bfv Debug ;; let sk := mkSk P [1; -1; 0; 1; 1; 0; 2; -1] in
   pt <- pt_new Debug P [2; 3] 1 EncPoly ;; ct <- encrypt Debug sk pt (trows [65633] 4) (tw 5) ;; Ok tt) = Ok tt.
Proof. split; vm_compute; reflexivity. Qed.
EXAMPLE*)

(** C47: the measured noise is the least N with all centred coefficients of
    phase - encode(decrypt) below 2^N. *)
Lemma C47_measure_noise_lem :
  forall pr P i c sk f0 f1, built_params P -> level P i c -> sk_params sk = P -> sk_ok sk -> small_basis (rq_moduli_64 c) ->
    let Q := cx_Q c in
    exists pt u N, decrypt pr sk (ct_of P i c [f0; f1]) = Ok pt /\ pt_to_poly pr pt = Ok (rep c Ntt u)
      /\ measure_noise pr sk (ct_of P i c [f0; f1]) = Ok N /\ 0 <= N
      /\ let d j := (phase (bp_degree P) (sk_fun sk) [f0; f1] j - u j) mod Q in
         (forall j, (j < bp_degree P)%nat -> Z.min (d j) (Q - d j) < 2 ^ N)
         /\ (N = 0 \/ exists j, (j < bp_degree P)%nat /\ 2 ^ (N - 1) <= Z.min (d j) (Q - d j)).
Proof.
  intros pr P i c sk f0 f1 B L SP SK SB Q. pose proof (built_params_wf P B) as WB. destruct (level_wf P i c WB L) as [Hi LV].
  destruct (decrypt_run pr P i c WB LV sk [f0; f1] (conj SP SK) ltac:(discriminate) SB) as [y [_ ED]].
  pose proof (wf_t17 P WB) as Rt. change (2 ^ 62) with 4611686018427387904 in Rt.
  destruct (measure_noise_ok pr P i c WB LV sk f0 f1 _ (conj SP SK) ED) as [u [N H]]; auto.
  - cbn [pt_values]. apply Forall_forall. intros x Hx. apply in_map_iff in Hx. destruct Hx as [j [<- _]].
    match goal with |- context [?a mod bp_t P] => pose proof (Z.mod_pos_bound a (bp_t P) ltac:(lia)) end.
    change (2 ^ 64) with 18446744073709551616. lia.
  - cbn [pt_values]. rewrite len_seq. auto.
  - eexists. exists u, N. split; [exact ED|]. exact H.
Qed.

(*EXAMPLE
Example C47_example :
  (P <- test_bfv Debug ;; c <- get (bp_q_ctxs P) 0 ;;
   measure_noise Debug (mkSk P [0; 1]) (ct_of P 0 c [fun j => if (j =? 3)%nat then -1000 else 1; fun j => 0])) = Ok 10.
Proof. vm_compute. reflexivity. Qed.
EXAMPLE*)

(** C51: level lookup. *)
Lemma C51_ctx_level_lem :
  forall P c, built_params P ->
    (forall i, ctx_level P c = Some i <->
       (i < length (bp_moduli P))%nat /\ rq_moduli_64 c = firstn (length (bp_moduli P) - i) (bp_moduli P)
       /\ rq_degree c = bp_degree P /\ rq_bd c = rq_bd (bp_pt_ctx P))
    /\ (ctx_level P c = None <->
       ~ exists i, (i < length (bp_moduli P))%nat /\ rq_moduli_64 c = firstn (length (bp_moduli P) - i) (bp_moduli P)
                  /\ rq_degree c = bp_degree P /\ rq_bd c = rq_bd (bp_pt_ctx P)).
Proof.
  intros P c B. pose proof (built_params_wf P B) as WB.
  assert (X : forall i, ctx_level P c = Some i <->
       (i < length (bp_moduli P))%nat /\ rq_moduli_64 c = firstn (length (bp_moduli P) - i) (bp_moduli P)
       /\ rq_degree c = bp_degree P /\ rq_bd c = rq_bd (bp_pt_ctx P)).
  { intros i. rewrite (ctx_level_iff P WB c i). split.
    - intros [c' [L E]]. destruct (level_wf P i c' WB L) as [Hi LV]. apply ctx_eqb_iff in E. destruct E as [E1 [E2 E3]].
      rewrite E1, E2, E3. split; auto. split; [apply (lv_ms _ _ _ LV)|]. split; [apply (lv_n _ _ _ LV)|apply (lv_bd _ _ _ LV)].
    - intros [Hi [E1 [E2 E3]]]. destruct (wb_lv _ WB i Hi) as [c' LV]. exists c'. split; [apply (lv_ctx _ _ _ LV)|].
      apply ctx_eqb_iff. rewrite E1, E2, E3. split; [symmetry; apply (lv_ms _ _ _ LV)|]. split; [symmetry; apply (lv_n _ _ _ LV)|symmetry; apply (lv_bd _ _ _ LV)]. }
  split; auto. split.
  - intros E [i H]. apply X in H. congruence.
  - intros H. destruct (ctx_level P c) as [i|] eqn:E; auto. exfalso. apply H. exists i. apply X. auto.
Qed.

(*EXAMPLE
Example C51_ctx_level_example :
  (P <- test_bfv Debug ;; c <- get (bp_q_ctxs P) 1 ;; Ok (ctx_level P c, ctx_level P (bp_pt_ctx P))) = Ok (Some 1%nat, Some 1%nat)
  /\ (P <- test_bfv Debug ;; c <- get (bp_e_ctxs P) 0 ;; Ok (ctx_level P c)) = Ok None.
Proof. split; vm_compute; reflexivity. Qed.
EXAMPLE*)

Lemma bits_prod l : Forall (fun q => 0 <= q < 2 ^ 62) l -> forall z, 0 <= z ->
  2 ^ z * zprod l <= 2 ^ (fold_left Z.add (map (fun q => 64 - leading_zeros 64 q) l) z).
Proof.
  intros H. induction H as [|q l Hq HF IH]; intros z Hz; cbn [map fold_left zprod fold_right]; [lia|]. fold (zprod l).
  pose proof (bits_le q Hq) as B. eapply Z.le_trans; [|apply IH; lia]. rewrite Z.pow_add_r by lia.
  rewrite Z.mul_assoc. apply Z.mul_le_mono_nonneg_r.
  { clear - HF. induction HF as [|x l Hx _ IH]; cbn [zprod fold_right]; [lia|]. fold (zprod l). nia. }
  apply Z.mul_le_mono_nonneg_l; [apply Z.pow_nonneg; lia|]. unfold leading_zeros.
  replace (64 - (64 - bitlen q)) with (bitlen q) by lia. destruct (bitlen_spec q ltac:(lia)) as [_ [X _]]. lia.
Qed.
Lemma zprod_lower l : Forall (fun q => 2 ^ 61 <= q) l -> 2 ^ (61 * Z.of_nat (length l)) <= zprod l.
Proof.
  intros H. induction H as [|q l Hq HF IH]; cbn [length zprod fold_right]; [lia|]. fold (zprod l).
  replace (61 * Z.of_nat (S (length l))) with (61 + 61 * Z.of_nat (length l)) by lia. rewrite Z.pow_add_r by lia.
  apply Z.mul_le_mono_nonneg; auto; lia.
Qed.
Lemma bfv_new_from_fields pr env ext n t ms v bd P : bfv_new_from pr env ext n t ms v bd = Ok P ->
  bp_degree P = n /\ bp_t P = t /\ bp_moduli P = ms /\ bp_variance P = v.
Proof.
  unfold bfv_new_from. intros E. repeat (apply bind_inv in E; let x := fresh "x" in destruct E as [x [? E]]).
  apply Ok_inj in E. rewrite <- E. auto.
Qed.

(** C52: construction succeeds whenever enough 62-bit primes exist; the
    extension of level i is large enough for products: E * 2^cnt >= Q * 2^60. *)
Lemma C52_construct_lem :
  forall pr env n t ms variance bd spare,
    env_ok env -> (forall x, 0 <= x < 2 ^ 64 -> prime x -> is_prime env x = true) ->
    ms <> [] -> Z.of_nat (length ms) < 2 ^ 57 -> NoDup ms ->
    (forall q, In q ms -> 2 <= q < 2 ^ 62 /\ ntt_possible env q n) ->
    2 <= t < 2 ^ 62 -> ntt_possible env t n -> (forall q, In q ms -> t < q) ->
    (forall x, ntt_prime 62 n x -> ntt_possible env x n) ->
    NoDup spare -> length spare = (length ms + 1)%nat -> Forall (fun x => ntt_prime 62 n x /\ ~ In x ms) spare ->
    exists P ext, bfv_new pr env n t ms variance bd = Ok P /\ built_params P
      /\ NoDup (ms ++ ext) /\ Forall (ntt_prime 62 n) ext
      /\ bp_degree P = n /\ bp_t P = t /\ bp_moduli P = ms /\ bp_variance P = variance
      /\ forall i, (i < length ms)%nat -> exists c e cnt, level P i c /\ get (bp_e_ctxs P) i = Ok e
           /\ rq_moduli_64 c = firstn (length ms - i) ms /\ rq_moduli_64 e = firstn (length ms - i) ms ++ firstn cnt ext
           /\ (cnt <= length ext)%nat /\ cx_Q c * 2 ^ 60 <= zprod (firstn cnt ext) * 2 ^ Z.of_nat cnt.
Proof.
  intros pr env n t ms variance bd spare EO PC Hne Hlen ND Hms Rt NPt Htq HX NDf Lf Ff.
  assert (PE : forall x, 0 <= x < 2 ^ 64 -> (is_prime env x = true <-> prime x)).
  { intros x Hx. split; [apply (proj1 EO); auto|apply PC; auto]. }
  assert (Hn : (1 <= n)%nat). { destruct NPt as [[L [_ ->]] _]. pose proof (Nat.pow_nonzero 2 L). lia. }
  destruct (gen_ext_ok pr env PE n ms Hn) as [[ext [E [Le [NDe Fe]]]]|[_ [e [Ll HA]]]].
  2:{ exfalso. assert (incl spare e).
      { intros x Hx. rewrite Forall_forall in Ff. destruct (Ff x Hx) as [F1 F2]. destruct (HA x F1); [contradiction|auto]. }
      pose proof (NoDup_incl_length NDf H). lia. }
  rewrite Forall_forall in Fe.
  assert (NDa : NoDup (ms ++ ext)).
  { clear - ND NDe Fe. induction ms as [|q l IH]; cbn [app]; auto. inversion ND as [|? ? N1 N2]; subst. constructor.
    - intros C. apply in_app_or in C. destruct C as [C|C]; [auto|]. destruct (Fe q C) as [_ X]. apply X. left. auto.
    - apply IH; auto. intros x Hx. destruct (Fe x Hx) as [X1 X2]. split; auto. intros C. apply X2. right. auto. }
  assert (HA : forall q, In q (ms ++ ext) -> 2 <= q < 2 ^ 62 /\ ntt_possible env q n).
  { intros q Hq. apply in_app_or in Hq. destruct Hq as [Hq|Hq]; [apply Hms; auto|]. destruct (Fe q Hq) as [X _]. split; [|apply HX; auto].
    destruct X as [_ [X _]]. change (62 - 1) with 61 in X. change (2 ^ 61) with 2305843009213693952 in X. change (2 ^ 62) with 4611686018427387904 in *. lia. }
  destruct (bfv_new_from_some pr env ext n t ms variance bd EO Hne Hlen NDa HA Le (conj Rt NPt) Htq) as [P [EP HL]].
  exists P, ext. unfold bfv_new. rewrite E. cbn [bind]. split; auto. split.
  { exists pr, env, ext, n, t, ms, variance, bd. split; auto. 
    split; [apply Forall_forall; intros q Hq; destruct (Hms q Hq); lia|].
    split; [apply Forall_forall; intros q Hq; destruct (HA q); [apply in_or_app; auto|lia]|].
    split; [lia|]. split; auto. }
  split; auto. split; [apply Forall_forall; intros x Hx; apply Fe; auto|].
  destruct (bfv_new_from_fields _ _ _ _ _ _ _ _ _ EP) as [F1 [F2 [F3 F4]]]. split; auto. split; auto. split; auto. split; auto.
  intros i Hi. destruct (HL i Hi) as [c [e [cnt [H1 [H2 [H3 [H4 [H5 H6]]]]]]]]. exists c, e, cnt. repeat (split; auto).
  cbv zeta in H6. set (l := firstn (length ms - i) ms) in *. unfold cx_Q. rewrite H3.
  assert (FB : Forall (fun q => 0 <= q < 2 ^ 62) l).
  { apply Forall_forall. intros q Hq. apply firstn_in in Hq. destruct (Hms q Hq). lia. }
  pose proof (bits_prod l FB 0 ltac:(lia)) as B1. set (bits := fold_left _ _ 0) in *.
  assert (B2 : 2 ^ (61 * Z.of_nat cnt) <= zprod (firstn cnt ext)).
  { pose proof (zprod_lower (firstn cnt ext)) as Z0. rewrite firstn_length_le in Z0 by lia. apply Z0.
    apply Forall_forall. intros x Hx. apply firstn_in in Hx. destruct (Fe x Hx) as [[_ [X _]] _]. exact (proj1 X). }
  change (2 ^ 0) with 1 in B1. rewrite Z.mul_1_l in B1.
  apply Z.le_trans with (2 ^ (61 * Z.of_nat cnt) * 2 ^ Z.of_nat cnt); [|apply Z.mul_le_mono_nonneg_r; [apply Z.pow_nonneg; lia|auto]].
  rewrite <- Z.pow_add_r by lia. assert (0 <= bits) by (destruct (size_sum_le l FB 0); unfold bits; lia).
  apply Z.le_trans with (2 ^ bits * 2 ^ 60); [apply Z.mul_le_mono_nonneg_r; [lia|auto]|].
  rewrite <- Z.pow_add_r by lia. apply Z.pow_le_mono_r; lia.
Qed.

(*EXAMPLE
(** Construction for one modulus; the primality oracle knows the two largest
    62-bit primes that are 1 modulo 16. *)
Example C52_example :
  (P <- bfv_new Debug (mkEnv (fun x => zmem x [17; 65633; 4611686018427387761; 4611686018427387617]) (fun p k => (3 + Z.of_nat k) mod p))
        8 17 [65633] 1 (mkBD 4 8) ;;
   c <- get (bp_q_ctxs P) 0 ;; e <- get (bp_e_ctxs P) 0 ;; Ok (rq_moduli_64 c, rq_moduli_64 e))
  = Ok ([65633], [65633; 4611686018427387761; 4611686018427387617]).
Proof. vm_compute. reflexivity. Qed.
EXAMPLE*)
