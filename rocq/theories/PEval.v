(** Oblivious expansion (src/evaluations.rs). *)
From Verif Require Import PBase NT Spec PSum MModulus MUtils MNtt MRns MRq MBfv MKsk MGalois MRgsw MEval PModulus PUtils PNttMath PNtt PNttNew PCrt PRns PRnsScale PUtils2 SpecRq SpecBfv SpecKsk SpecEval PRing PRq PRq2 PRq3 PRq4 PRq5 PBfv PBfv2 PBfv3 PKsk PGal PKsk2 PExpand.

Lemma log2_pow2_nat L : Z.log2 (Z.of_nat (2 ^ L)) = Z.of_nat L.
Proof. rewrite Nat2Z.inj_pow. apply Z.log2_pow2. lia. Qed.
Lemma pow2_small L : (L <= 60)%nat -> 0 < Z.of_nat (2 ^ L) < 2 ^ 64.
Proof.
  intros H. rewrite Nat2Z.inj_pow. change (Z.of_nat 2) with 2. split; [apply Z.pow_pos_nonneg; lia|].
  apply Z.pow_lt_mono_r; lia.
Qed.
Lemma ilog2_n pr c : wf_loc c -> ilog2 pr 64 (Z.of_nat (rq_degree c)) = Ok (Z.of_nat (cx_L c)).
Proof.
  intros W. rewrite (wl_n _ W). rewrite ilog2_ok; [f_equal; apply log2_pow2_nat|lia|].
  apply pow2_small. apply (wl_L _ W).
Qed.

(** [gen_x_pows] asks for the substitution X -> X^(n-2), which [Substitution::new]
    rejects. *)
Lemma gen_x_pows_panic pr c : wf_loc c -> gen_x_pows pr (rq_degree c) c = Panic.
Proof.
  intros W. pose proof (cx_n8 c W) as N8. pose proof (wl_L _ W) as HL. unfold gen_x_pows.
  rewrite rep_from_u64; [|auto|constructor; [|constructor; [|constructor]]; change W64 with 18446744073709551616; lia|cbn [length]; lia]. cbn [bind]. rewrite (ilog2_n pr c W). cbn [bind].
  rewrite Nat2Z.id. replace (cx_L c) with (2 + (cx_L c - 2))%nat by lia. cbn [seq plus mapM].
  assert (E0 : forall i, (i < 2)%nat -> sub64 pr (Z.of_nat (rq_degree c)) (2 ^ Z.of_nat i) = Ok (Z.of_nat (rq_degree c) - 2 ^ Z.of_nat i)).
  { intros i Hi. apply sub64_ok. pose proof (pow2_small (cx_L c) ltac:(lia)) as B. rewrite <- (wl_n _ W) in B.
    destruct i as [|[|]]; [change (2 ^ Z.of_nat 0) with 1|change (2 ^ Z.of_nat 1) with 2|lia]; lia. }
  rewrite !E0 by lia. cbn [bind]. change (p_ctx (rep c PowerBasis _)) with c.
  assert (EV : exists m, Z.of_nat (rq_degree c) = 2 * m /\ 4 <= m).
  { exists (2 ^ Z.of_nat (cx_L c - 1)). rewrite (wl_n _ W), Nat2Z.inj_pow, <- Z.pow_succ_r by lia. split; [f_equal; lia|].
    change 4 with (2 ^ 2). apply Z.pow_le_mono_r; lia. }
  destruct EV as [m [Em Hm]]. rewrite Em. change (2 ^ Z.of_nat 0) with 1. change (2 ^ Z.of_nat 1) with 2.
  assert (Om : (2 * m - 1) mod 2 = 1) by (replace (2 * m - 1) with (1 + (m - 1) * 2) by ring; rewrite Z.mod_add by lia; reflexivity).
  destruct (sfits_dec pr c (2 * m - 1)) as [SF|SF]; [|rewrite (subst_new_over pr c W (2 * m - 1)) by (auto; lia); reflexivity].
  pose proof (subst_new_ok pr c W (2 * m - 1) ltac:(lia) Om SF) as EG. set (g := mkSubst _ _) in EG. rewrite EG. cbn [bind].
  rewrite (rep_substitute pr c W _ _ (2 * m - 1) g ltac:(lia) EG).
  cbn [bind]. rewrite rep_neg by auto. cbn [bind].
  rewrite (subst_new_even pr c W (2 * m - 2)) by (try lia; replace (2 * m - 2) with ((m - 1) * 2) by ring; apply Z.mod_mul; lia).
  reflexivity.
Qed.

Section Phase.
Variables (P : BfvParams) (i0 : nat) (c : RqContext) (s : nat -> Z).
Hypothesis LV : wf_level P i0 c.
Lemma ph_add f0 f1 g0 g1 j : phase (rq_degree c) s [fun j => f0 j + g0 j; fun j => f1 j + g1 j] j
  = phase (rq_degree c) s [f0; f1] j + phase (rq_degree c) s [g0; g1] j.
Proof. rewrite (lv_n _ _ _ LV). apply phase_add. Qed.
Lemma ph_sub f0 f1 g0 g1 j : phase (rq_degree c) s [fun j => f0 j - g0 j; fun j => f1 j - g1 j] j
  = phase (rq_degree c) s [f0; f1] j - phase (rq_degree c) s [g0; g1] j.
Proof. rewrite (lv_n _ _ _ LV). apply phase_sub. Qed.
Lemma ph_rmul fs h j : phase (rq_degree c) s (map (fun f => rmul (rq_degree c) f h) fs) j = rmul (rq_degree c) (phase (rq_degree c) s fs) h j.
Proof. rewrite (lv_n _ _ _ LV). apply (phase_rmul P i0 c LV). Qed.
Lemma ph_scal fs k j : phase (rq_degree c) s (map (fun f j => k * f j) fs) j = k * phase (rq_degree c) s fs j.
Proof. rewrite (lv_n _ _ _ LV). apply phase_scal. Qed.
End Phase.

Section Unpack.
Variables (pr : profile) (P : BfvParams) (i0 : nat) (c : RqContext) (s : nat -> Z).
Hypothesis LV : wf_level P i0 c.
Let W : wf_loc c := wf_ctx_loc _ (lv_wf _ _ _ LV).
Let n := rq_degree c.
Let L := cx_L c.
Let Q := cx_Q c.
Let En : n = (2 ^ L)%nat := wl_n c W.
Let d := mkCt P [] 0.

(** A Galois key for the exponent k whose switching noise is at most KB. *)
Definition gkey (k : nat) (KB : Z) (gk : GaliosKey) : Prop :=
  exists g e, subst_new pr c (Z.of_nat k) = Ok g /\ gk_subst gk = g /\ gk_level gk = i0
    /\ ksk_for P c (gk_ksk gk) s (rsubst n k s) e
    /\ forall f l, (l < n)%nat -> Z.abs (ks_noise c e f l) <= KB.

Definition slot (i j : nat) (p : nat -> Z) (B : Z) (ct : Ct) : Prop :=
  exists g0 g1 w, ct = ct_of P i0 c [g0; g1] /\ forall l, (l < n)%nat ->
    eqm Q (phase n s [g0; g1] l) (expd i j p l + w l) /\ Z.abs (w l) <= B.

Lemma exp_range i : (i < L)%nat -> (2 <= n / 2 ^ i <= n)%nat.
Proof.
  intros Hi. rewrite En. split.
  - rewrite (exp_div L i Hi). pose proof (pow2_pos (L - i - 1)). lia.
  - apply Nat.div_le_upper_bound; [apply Nat.pow_nonzero; lia|]. pose proof (pow2_pos i). nia.
Qed.
Lemma gexp_small i : (i < L)%nat -> gexp c (Z.of_nat (n / 2 ^ i + 1)) = (n / 2 ^ i + 1)%nat.
Proof.
  intros Hi. pose proof (exp_range i Hi) as R. unfold gexp. fold n.
  rewrite Z.mod_small by (clear - R; lia). apply Nat2Z.id.
Qed.
Lemma exp_odd_z i : (i < L)%nat -> Z.of_nat (n / 2 ^ i + 1) mod 2 = 1.
Proof.
  intros Hi. rewrite En, (exp_div L i Hi). set (m := (2 ^ (L - i - 1))%nat).
  replace (Z.of_nat (2 * m + 1)) with (1 + Z.of_nat m * 2) by lia. rewrite Z.mod_add by lia. reflexivity.
Qed.

Lemma three_abs a b e B K : Z.abs a <= B -> Z.abs b <= B -> Z.abs e <= K -> Z.abs (a + (b + e)) <= 2 * B + K.
Proof. lia. Qed.
Lemma three_abs' a b e B K : Z.abs a <= B -> Z.abs b <= B -> Z.abs e <= K -> Z.abs (a - (b + e)) <= 2 * B + K.
Proof. lia. Qed.

Lemma unpack_step_ok gk r i j p B KB bits : (i < L)%nat -> r <> NttShoup -> gkey (n / 2 ^ i + 1) KB gk ->
  (j + 2 ^ i < length bits)%nat -> 0 <= B -> slot i j p B (nth j bits d) ->
  exists ce co, unpack_step pr gk (rep c r (xinv n (2 ^ i))) i bits j = Ok (upd (upd bits j ce) (j + 2 ^ i) co)
    /\ slot (S i) j p (2 * B + KB) ce /\ slot (S i) (j + 2 ^ i) p (2 * B + KB) co.
Proof.
  intros Hi Hr [g [e [G1 [G2 [G3 [GK GN]]]]]] Hj HB0 [f0 [f1 [w [Ec HC]]]].
  pose proof (exp_range i Hi) as R. pose proof (exp_odd_z i Hi) as Ho. set (k := (n / 2 ^ i + 1)%nat) in *.
  assert (HK : gexp c (Z.of_nat k) = k) by (apply gexp_small; auto).
  rewrite <- HK in GK. destruct (galois_relin_ok pr P i0 c LV gk g (Z.of_nat k) s e f0 f1 ltac:(lia) G1 Ho G2 G3 GK) as [h0 [h1 [ER HP]]].
  rewrite HK in HP. unfold unpack_step. rewrite (get_ok bits j d) by lia. cbn [bind]. rewrite Ec, ER. cbn [bind].
  rewrite (ct_add_ok pr P i0 c LV). cbn [bind]. rewrite (change_any pr c W r Ntt) by (auto; discriminate). cbn [bind].
  rewrite (ct_sub_ok pr P i0 c LV). cbn [bind ct_of ct_cts map get nth_error ct_params ct_level].
  rewrite !rep_mul by auto. cbn [bind]. fold n.
  rewrite set_ok by lia. cbn [bind]. rewrite set_ok by (rewrite upd_length; lia).
  set (ks := fun l => ks_noise c e (rsubst n k f1) l) in *.
  assert (Hk1 : Nat.odd k = true) by (unfold k; rewrite En; apply exp_odd; auto).
  assert (SW : forall l, (l < n)%nat -> Z.abs (rsubst n k w l) <= B).
  { intros l Hl. rewrite En in Hl |- *. apply (rsubst_bound L k w B l Hk1 HB0); auto. intros l' Hl'. apply HC. rewrite En. auto. }
  assert (HS : forall l, (l < n)%nat -> eqm Q (phase n s [h0; h1] l) (rsubst n k (expd i j p) l + (rsubst n k w l + ks l))).
  { intros l Hl. rewrite Z.add_assoc, <- rsubst_add. eapply eqm_trans; [apply HP; auto|]. apply eqm_add; [|reflexivity].
    apply rsubst_eqm. intros l' Hl'. apply HC. auto. }
  eexists. eexists. split; [reflexivity|]. split.
  - exists (fun l => f0 l + h0 l), (fun l => f1 l + h1 l), (fun l => w l + (rsubst n k w l + ks l)). split; [reflexivity|].
    intros l Hl. split.
    + unfold n at 1. rewrite (ph_add P i0 c s LV). fold n. destruct (HC l Hl) as [H1 _]. specialize (HS l Hl).
      rewrite En in Hl. rewrite <- (expd_even L i j p l Hi Hl). rewrite <- En. fold k.
      replace (expd i j p l + rsubst n k (expd i j p) l + (w l + (rsubst n k w l + ks l)))
        with ((expd i j p l + w l) + (rsubst n k (expd i j p) l + (rsubst n k w l + ks l))) by ring.
      apply eqm_add; assumption.
    + apply three_abs; [apply HC; auto|apply SW; auto|apply GN; auto].
  - exists (rmul n (fun l => f0 l - h0 l) (xinv n (2 ^ i))), (rmul n (fun l => f1 l - h1 l) (xinv n (2 ^ i))),
      (rmul n (fun l => w l - (rsubst n k w l + ks l)) (xinv n (2 ^ i))). split; [reflexivity|].
    assert (Hb : (0 < 2 ^ i < n)%nat).
    { pose proof (pow2_pos i). pose proof (pow2_pos (L - i - 1)). rewrite En, (pow2_split L i Hi). nia. }
    intros l Hl. split.
    + change [rmul n (fun l0 => f0 l0 - h0 l0) (xinv n (2 ^ i)); rmul n (fun l0 => f1 l0 - h1 l0) (xinv n (2 ^ i))]
        with (map (fun f => rmul n f (xinv n (2 ^ i))) [fun l0 => f0 l0 - h0 l0; fun l0 => f1 l0 - h1 l0]).
      unfold n at 1. rewrite (ph_rmul P i0 c s LV). fold n.
      pose proof Hl as Hl'. rewrite En in Hl'. rewrite <- (expd_odd L i j p l Hi Hl'). rewrite <- En. fold k. rewrite <- rmul_add_l.
      apply rmul_eqm; [|intros; reflexivity]. intros a Ha. unfold n at 1. rewrite (ph_sub P i0 c s LV). fold n.
      destruct (HC a Ha) as [H1 _]. specialize (HS a Ha).
      replace (expd i j p a - rsubst n k (expd i j p) a + (w a - (rsubst n k w a + ks a)))
        with ((expd i j p a + w a) - (rsubst n k (expd i j p) a + (rsubst n k w a + ks a))) by ring.
      apply eqm_sub; assumption.
    + rewrite En in Hb, Hl |- *. apply (rmul_xinv_bound L); auto. intros a Ha. rewrite <- En in *.
      apply three_abs'; [apply HC; auto|apply SW; auto|apply GN; auto].
Qed.

(** One level of the tree. *)
Lemma unpack_level_ok ev xs i p B KB bits : (i < L)%nat -> 0 <= B ->
  (exists gk, gk_lookup (ev_gk ev) (n / 2 ^ i + 1) = Some gk /\ gkey (n / 2 ^ i + 1) KB gk) ->
  (exists r, get xs i = Ok (rep c r (xinv n (2 ^ i))) /\ r <> NttShoup) ->
  length bits = n -> (forall j, (j < 2 ^ i)%nat -> slot i j p B (nth j bits d)) ->
  exists bits', foldM (fun bits j => gk <- unwrap (gk_lookup (ev_gk ev) (n / 2 ^ i + 1)) ;;
                            xp <- get xs i ;; unpack_step pr gk xp i bits j) (seq 0 (2 ^ i)) bits = Ok bits'
    /\ length bits' = n /\ forall j, (j < 2 ^ S i)%nat -> slot (S i) j p (2 * B + KB) (nth j bits' d).
Proof.
  intros Hi HB [gk [EG HG]] [r [EX Hr]] Hlen H0.
  assert (H2 : (2 ^ i + 2 ^ i <= n)%nat).
  { rewrite En. replace (2 ^ i + 2 ^ i)%nat with (2 ^ S i)%nat by (rewrite Nat.pow_succ_r'; lia). apply Nat.pow_le_mono_r; lia. }
  destruct (foldM_seq_inv (fun bits j => gk <- unwrap (gk_lookup (ev_gk ev) (n / 2 ^ i + 1)) ;;
                            xp <- get xs i ;; unpack_step pr gk xp i bits j)
    (fun m b => length b = n /\ (forall j, (j < m)%nat -> slot (S i) j p (2 * B + KB) (nth j b d))
       /\ (forall j, (m <= j < 2 ^ i)%nat -> slot i j p B (nth j b d))
       /\ (forall j, (j < m)%nat -> slot (S i) (j + 2 ^ i) p (2 * B + KB) (nth (j + 2 ^ i) b d))) 0 (2 ^ i) bits) as [b' [E [I1 [I2 [I3 I4]]]]].
  - split; auto. split; [intros; lia|]. split; [intros j Hj; apply H0; lia|intros; lia].
  - intros m b Hm [J1 [J2 [J3 J4]]]. rewrite EG. cbn [unwrap bind]. rewrite EX. cbn [bind].
    destruct (unpack_step_ok gk r i m p B KB b Hi Hr HG ltac:(lia) HB ltac:(apply J3; lia)) as [ce [co [ES [SE SO]]]].
    exists (upd (upd b m ce) (m + 2 ^ i) co). split; auto. pose proof (pow2_pos i) as PP. split; [rewrite !upd_length; auto|]. split; [|split].
    + intros j Hj. rewrite upd_nth_other by lia. destruct (Nat.eq_dec j m) as [->|Hne].
      * rewrite upd_nth_same by lia. auto.
      * rewrite upd_nth_other by lia. apply J2. lia.
    + intros j Hj. rewrite upd_nth_other by lia. rewrite upd_nth_other by lia. apply J3. lia.
    + intros j Hj. destruct (Nat.eq_dec j m) as [->|Hne].
      * rewrite upd_nth_same by (rewrite upd_length; lia). auto.
      * rewrite upd_nth_other by lia. rewrite upd_nth_other by lia. apply J4. lia.
  - exists b'. split; auto. split; auto. intros j Hj. rewrite Nat.pow_succ_r' in Hj. rewrite Nat.add_0_l in *.
    destruct (Nat.lt_ge_cases j (2 ^ i)) as [Hlt|Hge]; [apply I2; auto|].
    replace j with (j - 2 ^ i + 2 ^ i)%nat by lia. apply I4. lia.
Qed.

Lemma n_inv_ok : exists x, mod_inverse_big (Z.of_nat n) (rns_product_dig (rq_rns c)) = Some x /\ eqm Q (Z.of_nat n * x) 1.
Proof.
  rewrite (wr_dig _ _ (wl_rns _ W)). fold (cx_Q c). fold Q. pose proof (cx_Q2 c W) as Q2. fold Q in Q2.
  destruct (mod_inverse_big_some (Z.of_nat n) Q ltac:(lia)) as [x [E [_ C]]].
  - apply Zgcd_1_rel_prime. apply rel_prime_zprod. intros q Hq. apply In_nth with (d := 1) in Hq. destruct Hq as [i [Hi <-]].
    change (nth i (rq_moduli_64 c) 1) with (cx_q c i). destruct (wl_op _ W i Hi) as [Ep Wn]. destruct (cx_mod c W i Hi) as [_ Em].
    pose proof (wn_si _ _ _ Wn) as S. rewrite Ep, Em in S. change (2 ^ cx_L c)%nat with (2 ^ L)%nat in S. rewrite <- En in S.
    apply bezout_rel_prime. pose proof (cx_range c W i Hi) as R.
    apply eqm_divide in S; [|lia]. destruct S as [z Hz]. apply Bezout_intro with (nt_size_inv (cx_op c i)) (- z). lia.
  - exists x. split; auto. unfold eqm. rewrite C. rewrite Z.mod_small; lia.
Qed.

Lemma unpack_core_ok ev xs f0 f1 KB : 0 <= KB ->
  (forall i, (i < L)%nat -> exists gk, gk_lookup (ev_gk ev) (n / 2 ^ i + 1) = Some gk /\ gkey (n / 2 ^ i + 1) KB gk) ->
  x_pows_ok c xs ->
  exists bits, unpack_core pr ev (ct_of P i0 c [f0; f1]) xs = Ok bits /\ length bits = n
    /\ forall j, (j < n)%nat -> exists g0 g1 w, nth j bits d = ct_of P i0 c [g0; g1] /\ forall l, (l < n)%nat ->
         eqm Q (phase n s [g0; g1] l) (cst (phase n s [f0; f1] j) l + w l)
         /\ Z.abs (w l) <= (Z.of_nat n - 1) * KB.
Proof.
  intros HK HG HX. unfold unpack_core. cbn [ct_of ct_params ct_level ct_cts map]. rewrite (lv_ctx _ _ _ LV). cbn [bind].
  rewrite <- (lv_n _ _ _ LV). fold n. destruct n_inv_ok as [v [Ev Cv]]. rewrite Ev. cbn [unwrap bind mapM].
  rewrite !rep_mul_big by auto. cbn [bind]. unfold n at 1. rewrite (ilog2_n pr c W). fold n. fold L. cbn [bind]. rewrite Nat2Z.id.
  change (mkCt P [rep c Ntt (fun j => v * f0 j); rep c Ntt (fun j => v * f1 j)] i0)
    with (ct_of P i0 c (map (fun f j => v * f j) [f0; f1])).
  set (ct' := ct_of P i0 c _). set (p := fun l => v * phase n s [f0; f1] l).
  destruct (foldM_seq_inv (fun bits i => foldM (fun bits j => gk <- unwrap (gk_lookup (ev_gk ev) (n / 2 ^ i + 1)) ;;
                            xp <- get xs i ;; unpack_step pr gk xp i bits j) (seq 0 (2 ^ i)) bits)
    (fun i b => length b = n /\ forall j, (j < 2 ^ i)%nat -> slot i j p ((Z.of_nat (2 ^ i) - 1) * KB) (nth j b d)) 0 L (repeat ct' n))
    as [bits [E [I1 I2]]].
  - split; [apply repeat_length|]. intros j Hj. cbn [Nat.pow] in Hj. assert (j = 0)%nat by lia. subst j.
    pose proof (cx_n8 c W) as N8. fold n in N8. rewrite (nth_indep _ d ct') by (rewrite repeat_length; lia). rewrite nth_repeat.
    exists (fun j => v * f0 j), (fun j => v * f1 j), (fun _ => 0). split; [reflexivity|]. intros l Hl. split; [|cbn [Nat.pow]; rewrite Z.abs_0; lia].
    rewrite En in Hl. rewrite (expd_0 L) by auto. rewrite Z.add_0_r.
    change [fun j => v * f0 j; fun j => v * f1 j] with (map (fun f j => v * f j) [f0; f1]). unfold p.
    pose proof (ph_scal P i0 c s LV [f0; f1] v l) as PS. fold n in PS. rewrite PS. reflexivity.
  - intros i b Hi [J1 J2].
    destruct (unpack_level_ok ev xs i p ((Z.of_nat (2 ^ i) - 1) * KB) KB b ltac:(lia)) as [b' [E' [L' S']]]; auto.
    { pose proof (pow2_pos i). apply Z.mul_nonneg_nonneg; lia. }
    { apply HG. lia. } { apply HX. lia. }
    exists b'. split; [exact E'|]. split; auto. intros j Hj.
    replace ((Z.of_nat (2 ^ S i) - 1) * KB) with (2 * ((Z.of_nat (2 ^ i) - 1) * KB) + KB); [apply S'; auto|].
    rewrite Nat.pow_succ_r'. replace (Z.of_nat (2 * 2 ^ i)) with (2 * Z.of_nat (2 ^ i)) by lia. ring.
  - rewrite Nat.add_0_l in I2. exists bits. rewrite E. cbn [bind]. rewrite rassert_true by (apply Nat.eqb_eq; auto). cbn [bind]. split; auto. split; auto.
    rewrite <- En in I2. intros j Hj. destruct (I2 j Hj) as [g0 [g1 [w [Eg HS]]]]. exists g0, g1, w. split; auto. intros l Hl.
    destruct (HS l Hl) as [H1 H2]. split; auto. eapply eqm_trans; [exact H1|]. apply eqm_add; [|reflexivity].
    rewrite En in Hl, Hj. rewrite (expd_last L) by auto. rewrite <- En in *. unfold cst. destruct (l =? 0)%nat; [|reflexivity].
    unfold p. rewrite Z.mul_assoc. rewrite <- (Z.mul_1_l (phase n s [f0; f1] j)) at 2. apply eqm_mul; [exact Cv|reflexivity].
Qed.

End Unpack.
