(** Safety triples for the BFV layer and above, and for whole programs. *)
From Verif Require Import PBase NT Spec PSum MModulus MUtils MNtt MRns MRq MBfv MKsk MGalois MRgsw MEval MPvw MOmr MApi PModulus PUtils PUtils2 PNttMath PNtt PNttNew PRetr PSafe PSafe2.

Create HintDb sfp.
#[export] Hint Resolve sf_change_repr sf_poly_substitute sf_msd sf_mod_switch_to sf_poly_inverse sf_poly_neg sf_poly_from_u64 sf_poly_from_i64
  sf_poly_from_bigint sf_poly_random_small sf_poly_add sf_poly_sub sf_poly_mul sf_poly_mul_big sf_rq_scale sf_Forall_get ps_zero ph_ctx : sfp.

Ltac sp1 :=
  match goal with
  | |- safe Panic _ => exact I
  | |- safe (Ok _) any => exact I
  | |- safe _ any => solve [auto 2 with sf nocore]
  | |- safe (bind _ _) _ =>
      first [eapply safe_bind; [solve [eauto 6 with sfp]|intros; cbv beta in *]
            |apply safe_any; [solve [sf | eapply safe_to_any; eauto 6 with sfp]|intros]]
  | |- safe _ _ => solve [eauto 6 with sfp]
  | |- safe (match ?b with _ => _ end) _ => destruct b
  | p : _ * _ |- _ => destruct p
  end.
Ltac sp := cbv zeta; repeat (sp1; cbv beta iota zeta).

(** bfv.rs *)
Record mul_shape (m : MulParams) : Prop := {
  mh_from : ctx_shape (mu_from m); mh_to : ctx_shape (mu_to m); mh_up : rqs_shape (mu_up m); mh_down : rqs_shape (mu_down m) }.
Record bfv_shape (P : BfvParams) : Prop := {
  bh_pt : ctx_shape (bp_pt_ctx P);
  bh_q : Forall ctx_shape (bp_q_ctxs P);
  bh_mul : Forall mul_shape (bp_mul_params P);
  bh_delta : Forall poly_shape (bp_delta_ts P);
  bh_sc : Forall rqs_shape (bp_scalars P);
  bh_ntt : forall op, bp_pt_ntt P = Some op -> ntt_shape op }.
#[export] Hint Resolve bh_pt bh_q bh_mul bh_delta bh_sc mh_from mh_to mh_up mh_down : sfp.

Lemma sf_index_map_loop d : forall c i pos mp, safe (index_map_loop d c i pos mp) any.
Proof. induction c as [|c IH]; intros; cbn [index_map_loop]; sf. Qed.
Lemma sf_index_map d : safe (index_map d) any. Proof. apply sf_index_map_loop. Qed.
#[export] Hint Resolve sf_index_map : sf.

Definition below_ub (ub : Z) (l : list Z) : nat := length (filter (fun x => x <? ub) l).
Lemma below_ub_le ub l : (below_ub ub l <= length l)%nat.
Proof. unfold below_ub. induction l as [|x l IH]; cbn [filter length]; [lia|]. destruct (x <? ub); cbn [length]; lia. Qed.
Lemma below_ub_dec ub ub' l : ub' < ub -> zmem ub' l = true -> (below_ub ub' l < below_ub ub l)%nat.
Proof.
  intros H. unfold below_ub, zmem. assert (M : forall l, (length (filter (fun x => (x <? ub')%Z) l) <= length (filter (fun x => (x <? ub)%Z) l))%nat).
  { clear l. induction l as [|x l IH]; cbn [filter length]; [lia|].
    destruct (Z.ltb_spec x ub'), (Z.ltb_spec x ub); cbn [length]; lia. }
  induction l as [|x l IH]; cbn [existsb filter]; [discriminate|]. intros E. apply orb_true_iff in E. destruct E as [E|E].
  - apply Z.eqb_eq in E. subst x. specialize (M l). rewrite Z.ltb_irrefl. destruct (Z.ltb_spec ub' ub); [|lia]. cbn [length]. lia.
  - specialize (IH E). destruct (Z.ltb_spec x ub'), (Z.ltb_spec x ub); cbn [length]; lia.
Qed.
Lemma below_ub_mono ub ub' l : ub' < ub -> (below_ub ub' l <= below_ub ub l)%nat.
Proof.
  intros H. unfold below_ub. induction l as [|x l IH]; cbn [filter length]; [lia|].
  destruct (Z.ltb_spec x ub'), (Z.ltb_spec x ub); cbn [length]; lia.
Qed.
Lemma sf_gen_ext_loop pr env d moduli : forall f ext ub, 1 <= ub <= 2 ^ 62 -> (forall x, In x ext -> ub <= x) ->
  (length ext <= length moduli + 1)%nat ->
  (length moduli + 1 - length ext + below_ub ub moduli <= f)%nat -> safe (gen_ext_loop pr env f d moduli ext ub) any.
Proof.
  induction f as [|f IH]; intros ext ub Hub Hext Hl Hf; cbn [gen_ext_loop].
  - destruct (length ext =? length moduli + 1)%nat eqn:E; [exact I|]. apply Nat.eqb_neq in E. lia.
  - destruct (length ext =? length moduli + 1)%nat eqn:E; [exact I|]. apply Nat.eqb_neq in E.
    eapply safe_bind; [apply sf_generate_prime; [lia|assert (2 ^ 62 < 2 ^ 64) by reflexivity; lia]|]. intros o Ho. cbv beta in Ho.
    eapply safe_bind; [apply sf_unwrap|]. intros u Hu. cbv beta in Hu. destruct (Ho u Hu) as [R1 R2]. specialize (R2 (proj1 Hub)).
    assert (B0 : 0 < 2 ^ (62 - 1)) by reflexivity.
    assert (N : zmem u ext = false).
    { unfold zmem. destruct (existsb (Z.eqb u) ext) eqn:X; auto. apply existsb_exists in X. destruct X as [y [Y1 Y2]].
      apply Z.eqb_eq in Y2. subst y. specialize (Hext u Y1). lia. }
    rewrite N. cbn [negb andb]. destruct (zmem u moduli) eqn:M; cbn [negb].
    + pose proof (below_ub_dec ub u moduli R2 M). apply IH; [lia| |lia|lia]. intros x Hx. specialize (Hext x Hx). lia.
    + pose proof (below_ub_mono ub u moduli R2). apply IH; [lia| | |].
      * intros x Hx. apply in_app_or in Hx. destruct Hx as [Hx|[<-|[]]]; [specialize (Hext x Hx)|]; lia.
      * rewrite app_length. cbn [length]. lia.
      * rewrite app_length. cbn [length]. lia.
Qed.
Lemma sf_gen_ext pr env d moduli : safe (gen_ext pr env d moduli) any.
Proof.
  apply sf_gen_ext_loop; [split; [discriminate|apply Z.le_refl]|intros x []|cbn; lia|].
  pose proof (below_ub_le (2 ^ 62) moduli). cbn [length]. lia.
Qed.
#[export] Hint Resolve sf_gen_ext : sf.
Lemma sf_gen_moduli_one pr env size d moduli : 10 <= size <= 62 -> forall f ub, 1 <= ub <= 2 ^ size -> (below_ub ub moduli < f)%nat ->
  safe (gen_moduli_one pr env f size d moduli ub) any.
Proof.
  intros Hs. assert (B62 : 2 ^ size <= 2 ^ 62) by (apply Z.pow_le_mono_r; lia). assert (B64 : 2 ^ 62 < 2 ^ 64) by reflexivity.
  assert (B0 : 0 < 2 ^ (size - 1)) by (apply Z.pow_pos_nonneg; lia).
  induction f as [|f IH]; intros ub Hub Hf; [lia|]. cbn [gen_moduli_one].
  eapply safe_bind; [apply sf_generate_prime; lia|]. intros o Ho. cbv beta in Ho. destruct o as [p|]; [|exact I].
  destruct (Ho p eq_refl) as [R1 R2]. specialize (R2 (proj1 Hub)). destruct (zmem p moduli) eqn:M; [|exact I].
  pose proof (below_ub_dec ub p moduli R2 M). apply IH; lia.
Qed.
Lemma sf_gen_moduli_loop pr env d : forall sizes moduli, safe (gen_moduli_loop pr env sizes d moduli) any.
Proof.
  induction sizes as [|s sizes IH]; intros moduli; cbn [gen_moduli_loop]; [exact I|].
  eapply safe_bind; [apply sf_rassert|]. intros u E. cbv beta in E. apply andb_true_iff in E.
  assert (Hs : 10 <= s <= 62) by lia.
  apply safe_any; [|intros o; destruct o; [apply IH|exact I]].
  apply sf_gen_moduli_one; auto.
  - assert (0 < 2 ^ s) by (apply Z.pow_pos_nonneg; lia). lia.
  - pose proof (below_ub_le (2 ^ s) moduli). lia.
Qed.
Lemma sf_generate_moduli pr env s d : safe (generate_moduli pr env s d) any. Proof. apply sf_gen_moduli_loop. Qed.
#[export] Hint Resolve sf_generate_moduli : sf.

Definition lvl_shape (x : RqContext * Z * Poly * RqScaler * RqContext * MulParams) : Prop :=
  let '(q, _, d, s, e, m) := x in ctx_shape q /\ poly_shape d /\ rqs_shape s /\ ctx_shape e /\ mul_shape m.
Lemma sf_level_params pr env d t moduli ext ti bd pc i : Z.of_nat d < 2 ^ 64 -> ctx_shape pc ->
  safe (level_params pr env d t moduli ext ti bd pc i) lvl_shape.
Proof.
  intros Hd Hpc. unfold level_params. cbv zeta.
  eapply safe_bind; [apply sf_rq_new; auto|]. intros q [Hq _].
  repeat (apply safe_any; [solve [auto with sf]|]; intros).
  eapply safe_bind; [apply sf_poly_from_bigint; auto|]. intros dp Hdp.
  eapply safe_bind; [apply sf_change_repr; auto|]. intros dl Hdl.
  apply safe_any; [auto with sf|]. intros f.
  eapply safe_bind; [apply sf_rq_scaler_new; auto|]. intros sc [Hsc _].
  repeat (apply safe_any; [solve [auto with sf]|]; intros).
  eapply safe_bind; [apply sf_rq_new; auto|]. intros e [He _].
  repeat (apply safe_any; [solve [auto with sf]|]; intros).
  eapply (safe_bind _ _ mul_shape).
  { unfold mul_params_new. eapply safe_bind; [apply sf_rq_scaler_new; auto|]. intros u [Hu _].
    eapply safe_bind; [apply sf_rq_scaler_new; auto|]. intros dn [Hdn _]. split; cbn; auto. }
  intros m Hm. cbn [safe lvl_shape]. auto 10.
Qed.
Lemma sf_bfv_new_from pr env ext d t ms v bd : Z.of_nat d < 2 ^ 64 -> safe (bfv_new_from pr env ext d t ms v bd) bfv_shape.
Proof.
  intros Hd. unfold bfv_new_from. apply safe_any; [sf|]. intros ti. apply safe_any; [auto with sf|]. intros q0.
  eapply safe_bind; [apply sf_rq_new; auto|]. intros pc [Hpc _].
  eapply safe_bind; [apply (sf_mapM_Q _ _ lvl_shape); intros; apply sf_level_params; auto|]. intros lv Hlv. cbv beta in Hlv.
  apply safe_any; [auto with sf|]. intros mp_. apply safe_any; [auto with sf|]. intros tm.
  eapply safe_bind; [apply sf_ntt_new; auto|]. intros op [Hop _].
  cbn [safe]. rewrite Forall_forall in Hlv.
  split; cbn; auto; try (apply Forall_forall; intros x Hx; apply in_map_iff in Hx; destruct Hx as [[[[[[q1 q2] q3] q4] q5] q6] [<- Hx]];
    apply Hlv in Hx; cbn [lvl_shape] in Hx; tauto).
  intros o E. injection E as <-. exact Hop.
Qed.
Lemma sf_bfv_new pr env d t ms v bd : Z.of_nat d < 2 ^ 64 -> safe (bfv_new pr env d t ms v bd) bfv_shape.
Proof. intros Hd. unfold bfv_new. apply safe_any; [auto with sf|]. intros; apply sf_bfv_new_from; auto. Qed.
Lemma sf_bfv_default pr env n d bd : Z.of_nat d < 2 ^ 64 -> safe (bfv_default pr env n d bd) bfv_shape.
Proof.
  intros Hd. unfold bfv_default. apply safe_any; [auto with sf|]. intros o. apply safe_any; [auto with sf|]. intros ms.
  apply sf_bfv_new; auto.
Qed.
Record sk_shape (k : SecretKey) : Prop := { kh_p : bfv_shape (sk_params k) }.
Record pt_shape (p : Plaintext) : Prop := { th_p : bfv_shape (pt_params p) }.
Record ct_shape (c : Ct) : Prop := { ch_p : bfv_shape (ct_params c); ch_c : Forall poly_shape (ct_cts c) }.
#[export] Hint Resolve kh_p th_p ch_p ch_c : sfp.
Lemma sf_mkCt P ps l : bfv_shape P -> Forall poly_shape ps -> safe (Ok (mkCt P ps l)) ct_shape.
Proof. intros; split; cbn; auto. Qed.
Lemma sf_mkCt2 P a b l : bfv_shape P -> poly_shape a -> poly_shape b -> safe (Ok (mkCt P [a; b] l)) ct_shape.
Proof. intros; split; cbn; auto. Qed.
Lemma sf_mkPt P l e v : bfv_shape P -> safe (Ok (mkPt P l e v)) pt_shape.
Proof. intros; split; cbn; auto. Qed.
#[export] Hint Resolve sf_mkCt2 sf_mkPt : sfp.

Lemma sf_pt_new pr P v l e : bfv_shape P -> safe (pt_new pr P v l e) pt_shape.
Proof.
  intros HP. unfold pt_new. cbv zeta. apply safe_any; [|intros; apply sf_mkPt; auto].
  destruct e; [auto with sf| |exact I]. apply safe_any; [sf|]. intros x. eapply safe_bind; [apply sf_unwrap|]. intros op E.
  apply sf_ntt_backward. apply (bh_ntt P HP). exact E.
Qed.
Lemma sf_pt_decode pr p : pt_shape p -> safe (pt_decode pr p) any.
Proof.
  intros [HP]. unfold pt_decode. cbv zeta. destruct (pt_enc p); [sf| |exact I].
  eapply safe_bind; [apply sf_unwrap|]. intros op E. apply safe_any; [apply sf_ntt_forward; apply (bh_ntt _ HP); exact E|]. intros. sf.
Qed.
Lemma sf_pt_to_poly pr p : pt_shape p -> safe (pt_to_poly pr p) poly_shape.
Proof. intros H. unfold pt_to_poly. sp. Qed.
Lemma sf_sk_generate pr P w : bfv_shape P -> safe (sk_generate pr P w) sk_shape.
Proof. intros H. unfold sk_generate. apply safe_any; [auto with sf|]. intros. split; auto. Qed.
Lemma sf_sk_ntt pr c cs : ctx_shape c -> safe (sk_ntt pr c cs) poly_shape.
Proof. intros H. unfold sk_ntt. sp. Qed.
#[export] Hint Resolve sf_pt_new sf_pt_decode sf_pt_to_poly sf_sk_generate sf_sk_ntt : sfp.
Lemma ps_random c r rows : ctx_shape c -> length rows = length (rq_moduli_64 c) -> poly_shape (poly_random c r rows).
Proof. intros; split; auto. Qed.
Lemma sf_encrypt_poly pr k p rows w : sk_shape k -> poly_shape p -> length rows = length (rq_moduli_64 (p_ctx p)) ->
  safe (encrypt_poly pr k p rows w) ct_shape.
Proof. intros Hk Hp Hr. pose proof (ps_random _ Ntt rows (ph_ctx _ Hp) Hr). unfold encrypt_poly. sp. Qed.

(** The context of a scaled plaintext is the one of its level. *)
Lemma change_repr_ctx pr p r : safe (change_repr pr p r) (fun q => p_ctx q = p_ctx p) \/ ~ safe (change_repr pr p r) any.
Proof.
  unfold change_repr. destruct (p_repr p), r; try (left; exact I); try (left; reflexivity);
    destruct (zipM_upd _ _ _); try (left; exact I); try (left; reflexivity); right; intros H; exact H.
Qed.
Lemma sf_cr_ctx pr p r : poly_shape p -> safe (change_repr pr p r) (fun q => p_ctx q = p_ctx p /\ poly_shape q).
Proof.
  intros H. pose proof (sf_change_repr pr p r H) as S. apply safe_and; auto.
  destruct (change_repr_ctx pr p r) as [G|G]; auto. exfalso. apply G. eapply safe_to_any; eauto.
Qed.
Lemma sf_pt_to_poly_ctx pr p c : pt_shape p -> nth_error (bp_q_ctxs (pt_params p)) (pt_level p) = Some c ->
  safe (pt_to_poly pr p) (fun q => p_ctx q = c /\ poly_shape q).
Proof.
  intros H E. apply safe_and; [|apply sf_pt_to_poly; auto].
  assert (Hc : ctx_shape c). { pose proof (bh_q _ (th_p _ H)) as F. rewrite Forall_forall in F. apply F. eapply nth_error_In; eauto. }
  unfold pt_to_poly. apply safe_any; [auto with sf|]. intros qm. unfold get at 1. rewrite E. cbn [bind].
  eapply safe_bind; [eauto 6 with sfp|]. intros dl Hdl. apply safe_any; [auto with sf|]. intros tm. apply safe_any; [auto with sf|]. intros vs.
  apply (safe_bind _ _ (fun q => p_ctx q = c /\ poly_shape q)).
  { apply safe_and; [|apply sf_poly_from_u64; auto]. unfold poly_from_u64. apply safe_any; [sf|]. intros. reflexivity. }
  intros q [Eq Hq]. eapply safe_bind; [apply sf_cr_ctx; auto|]. intros q' [Eq' Hq']. unfold poly_mul.
  apply safe_any; [auto with sf|]. intros _. apply safe_any; [auto with sf|]. intros _.
  apply safe_any; [sf|]. intros rows. cbn [safe p_ctx]. congruence.
Qed.
Lemma sf_encrypt pr k p c rows w : sk_shape k -> pt_shape p -> nth_error (bp_q_ctxs (pt_params p)) (pt_level p) = Some c ->
  length rows = length (rq_moduli_64 c) -> safe (encrypt pr k p rows w) ct_shape.
Proof.
  intros Hk Hp Hc Hr. unfold encrypt. eapply safe_bind; [apply sf_pt_to_poly_ctx; eauto|]. intros q [E Hq].
  apply sf_encrypt_poly; auto. congruence.
Qed.
Lemma sf_decrypt_trial pr k a b : poly_shape a -> safe (decrypt_trial pr k a b) poly_shape.
Proof. intros H. unfold decrypt_trial. sp. Qed.
Lemma sf_phase_loop pr s cs m t : poly_shape m -> poly_shape t -> safe (phase_loop pr s cs m t) (fun x => poly_shape (fst x) /\ poly_shape (snd x)).
Proof.
  intros Hm Ht. unfold phase_loop. apply sf_foldM; [|auto]. intros [a b] c _ [Ha Hb]. cbn [fst snd] in *.
  eapply safe_bind; [apply sf_poly_mul; auto|]. intros x Hx. eapply safe_bind; [apply sf_poly_add; auto|]. intros y Hy.
  eapply safe_bind; [apply sf_poly_mul; auto|]. intros z Hz. cbn [safe fst snd]. auto.
Qed.
Lemma sf_decrypt pr k c : sk_shape k -> ct_shape c -> safe (decrypt pr k c) pt_shape.
Proof.
  intros Hk Hc. unfold decrypt. cbv zeta. eapply safe_bind; [eauto with sfp|]. intros c0 H0. cbv beta in H0.
  eapply safe_bind; [eauto with sfp|]. intros s Hs. cbv beta in Hs.
  eapply safe_bind; [apply sf_phase_loop; auto|]. intros [m x] [Hm _]. cbn [fst] in Hm. sp.
Qed.
#[export] Hint Resolve sf_decrypt_trial sf_decrypt : sfp.
Lemma sf_measure_noise pr k c : sk_shape k -> ct_shape c -> safe (measure_noise pr k c) any.
Proof. intros Hk Hc. unfold measure_noise, big_sub. sp. apply sf_foldM_any. intros. sp. Qed.
Lemma sf_ct_add pr a b : ct_shape a -> ct_shape b -> safe (ct_add pr a b) ct_shape.
Proof. intros. unfold ct_add. sp. Qed.
Lemma sf_ct_sub pr a b : ct_shape a -> ct_shape b -> safe (ct_sub pr a b) ct_shape.
Proof. intros. unfold ct_sub. sp. Qed.
Lemma sf_ct_add_poly pr a p : ct_shape a -> safe (ct_add_poly pr a p) ct_shape.
Proof. intros. unfold ct_add_poly. sp. Qed.
Lemma sf_ct_mul_pt pr a p : ct_shape a -> safe (ct_mul_pt pr a p) ct_shape.
Proof. intros. unfold ct_mul_pt. sp. Qed.
Lemma sf_ct_mul_poly pr a p : ct_shape a -> safe (ct_mul_poly pr a p) ct_shape.
Proof. intros. unfold ct_mul_poly. sp. Qed.
Lemma sf_ct_mul_big pr a k : ct_shape a -> safe (ct_mul_big pr a k) ct_shape.
Proof. intros. unfold ct_mul_big. sp. Qed.
Lemma sf_ct_mul pr a b : ct_shape a -> ct_shape b -> safe (ct_mul pr a b) ct_shape.
Proof.
  intros Ha Hb. unfold ct_mul. apply safe_any; [auto with sf|]. intros _.
  eapply safe_bind; [eauto with sfp|]. intros mu Hmu. cbv beta in Hmu.
  eapply safe_bind; [eapply sf_Forall_mapM; [apply (ch_c _ Ha)|]; intros; apply sf_rq_scale; eauto with sfp|]. intros sa Hsa.
  eapply safe_bind; [eapply sf_Forall_mapM; [apply (ch_c _ Hb)|]; intros; apply sf_rq_scale; eauto with sfp|]. intros sb Hsb.
  apply safe_any; [auto with sf|]. intros n.
  apply (safe_bind _ _ (Forall poly_shape)).
  { unfold vec_repeat. destruct (n * 80 <? W63); [|exact I]. cbn [safe]. apply Forall_forall. intros x Hx. apply repeat_spec in Hx. subst x.
    apply ps_zero. eauto with sfp. }
  intros cs Hcs. cbv beta in *. apply (safe_bind _ _ (Forall poly_shape)).
  { apply sf_foldM; auto. intros c [i j] _ Hc. cbn [fst snd].
    eapply safe_bind; [apply (sf_Forall_get poly_shape); auto|]. intros x Hx. apply safe_any; [auto with sf|]. intros y.
    eapply safe_bind; [apply sf_poly_mul; auto|]. intros p Hp. apply sf_set_in; auto. }
  intros cs' Hcs'. cbv beta in *.
  eapply safe_bind; [eapply sf_Forall_mapM; [exact Hcs'|]; intros; apply sf_rq_scale; eauto with sfp|]. intros r Hr. cbv beta in Hr.
  apply sf_mkCt; auto. eauto with sfp.
Qed.
#[export] Hint Resolve sf_ct_add sf_ct_sub sf_ct_add_poly sf_ct_mul_pt sf_ct_mul_poly sf_ct_mul_big sf_ct_mul : sfp.

(** ksk.rs *)
Record ksk_shape (k : Ksk) : Prop := {
  sh_p : bfv_shape (k_params k); sh_0 : Forall poly_shape (k_c0 k); sh_1 : Forall poly_shape (k_c1 k);
  sh_k : ctx_shape (k_ksk_ctx k); sh_c : ctx_shape (k_ct_ctx k) }.
#[export] Hint Resolve sh_p sh_0 sh_1 sh_k sh_c : sfp.
Definition poly2 (x : Poly * Poly) : Prop := poly_shape (fst x) /\ poly_shape (snd x).
Definition rnd_shape (c : RqContext) (r : RndKsk) : Prop := forall i, length (rnd_rows r i) = length (rq_moduli_64 c).
Lemma rnd_for_shape c r : rnd_shape c (rnd_for c r).
Proof. intros i. cbn [rnd_for rnd_rows]. unfold sample_rows. rewrite map_length, seq_length. reflexivity. Qed.
Lemma sf_ksk_new pr k from cl kl r c : sk_shape k -> poly_shape from -> nth_error (bp_q_ctxs (sk_params k)) kl = Some c -> rnd_shape c r ->
  safe (ksk_new pr k from cl kl r) ksk_shape.
Proof.
  intros Hk Hf Ec Hr. unfold ksk_new. cbv zeta. unfold get at 1. rewrite Ec. cbn [bind].
  assert (Hc : ctx_shape c). { pose proof (bh_q _ (kh_p _ Hk)) as F. rewrite Forall_forall in F. apply F. eapply nth_error_In; eauto. }
  eapply safe_bind; [eauto with sfp|]. intros cc Hcc. cbv beta in Hcc.
  eapply safe_bind; [eauto with sfp|]. intros s Hs. cbv beta in Hs.
  assert (F1 : Forall poly_shape (map (fun i => poly_random c Ntt (rnd_rows r i)) (seq 0 (length (rns_moduli (rq_rns cc)))))).
  { apply Forall_forall. intros x Hx. apply in_map_iff in Hx. destruct Hx as [i [<- _]]. apply ps_random; auto. }
  apply (safe_bind _ _ (Forall poly_shape)).
  { eapply safe_weak; [apply (sf_mapM _ _ poly_shape)|intros ? [_ H]; exact H]. intros [i [c1 g]] Hin. cbn [fst snd].
    apply in_combine_r in Hin. apply in_combine_l in Hin. rewrite Forall_forall in F1. specialize (F1 _ Hin).
    unfold ksk_entry. sp. }
  intros c0 H0. cbv beta in H0. cbn [safe]. split; cbn; auto. apply (kh_p _ Hk).
Qed.
Lemma sf_ksk_new_with_pt pr k p cl kl r c : sk_shape k -> pt_shape p -> nth_error (bp_q_ctxs (sk_params k)) kl = Some c -> rnd_shape c r ->
  safe (ksk_new_with_pt pr k p cl kl r) ksk_shape.
Proof. intros. unfold ksk_new_with_pt. eapply safe_bind; [eauto with sfp|]. intros q Hq. eapply sf_ksk_new; eauto. Qed.
Lemma sf_key_switch pr k p : ksk_shape k -> safe (key_switch pr k p) poly2.
Proof.
  intros Hk. unfold key_switch. do 2 (apply safe_any; [auto with sf|]; intros _).
  apply sf_foldM; [|split; cbn; apply ps_zero; eauto with sfp]. intros [a b] [row [x y]] _ [Ha Hb]. unfold key_switch_step. cbn [fst snd] in *.
  eapply safe_bind; [apply sf_poly_from_u64; eauto with sfp|]. intros d0 Hd0. eapply safe_bind; [apply sf_change_repr; auto|]. intros d Hd.
  eapply safe_bind; [apply sf_poly_mul; auto|]. intros b' _. eapply safe_bind; [apply sf_poly_mul; auto|]. intros a' _.
  eapply safe_bind; [apply sf_poly_add; auto|]. intros c0 H0. eapply safe_bind; [apply sf_poly_add; auto|]. intros c1 H1. split; auto.
Qed.
Lemma sf_ksk_from_rlwes P cs : bfv_shape P -> Forall ct_shape cs -> safe (ksk_from_rlwes P cs) ksk_shape.
Proof.
  intros HP Hcs. unfold ksk_from_rlwes.
  assert (G : forall i, safe (mapM (fun c => rassert (params_eqb (ct_params c) P) ;;; get (ct_cts c) i) cs) (Forall poly_shape)).
  { intros i. eapply sf_Forall_mapM; [exact Hcs|]. intros c Hc. apply safe_any; [auto with sf|]. intros _. eauto with sfp. }
  eapply safe_bind; [apply G|]. intros c0 H0. eapply safe_bind; [apply G|]. intros c1 H1.
  eapply safe_bind; [eauto with sfp|]. intros x Hx. cbv beta in *. split; cbn; auto.
Qed.
#[export] Hint Resolve sf_key_switch sf_ksk_from_rlwes : sfp.

Record gk_shape (g : GaliosKey) : Prop := { gh : ksk_shape (gk_ksk g) }.
Record rlk_shape (r : RelinKey) : Prop := { lh : ksk_shape (rlk_ksk r) }.
Record rgsw_shape (r : RgswCt) : Prop := { gw0 : ksk_shape (rg_ksk0 r); gw1 : ksk_shape (rg_ksk1 r) }.
#[export] Hint Resolve gh lh gw0 gw1 : sfp.
Lemma sf_galois_new pr k s l r c : sk_shape k -> nth_error (bp_q_ctxs (sk_params k)) l = Some c -> rnd_shape c r ->
  safe (galois_new pr k s l r) gk_shape.
Proof.
  intros Hk Ec Hr. unfold galois_new. apply safe_any; [auto with sf|]. intros _.
  eapply safe_bind; [eauto with sfp|]. intros x Hx. cbv beta in Hx. do 3 (eapply safe_bind; [eauto with sfp|]; intros ? ?; cbv beta in * ).
  eapply safe_bind; [eapply sf_ksk_new; eauto|]. intros g Hg. split; auto.
Qed.
Lemma sf_galois_relinearize pr g c : gk_shape g -> ct_shape c -> safe (galois_relinearize pr g c) ct_shape.
Proof.
  intros Hg Hc. unfold galois_relinearize. apply safe_any; [auto with sf|]. intros _. apply safe_any; [sf|]. intros _.
  do 3 (eapply safe_bind; [eauto with sfp|]; intros ? ?; cbv beta in * ).
  eapply safe_bind; [apply sf_key_switch; eauto with sfp|]. intros [x y] [Hx Hy]. cbn [fst snd] in *.
  do 3 (eapply safe_bind; [eauto with sfp|]; intros ? ?; cbv beta in * ). apply sf_mkCt2; eauto with sfp.
Qed.
Lemma sf_rlk_new pr k l r c : sk_shape k -> nth_error (bp_q_ctxs (sk_params k)) l = Some c -> rnd_shape c r ->
  safe (rlk_new pr k l r) rlk_shape.
Proof.
  intros Hk Ec Hr. unfold rlk_new. do 3 (eapply safe_bind; [eauto with sfp|]; intros ? ?; cbv beta in * ).
  eapply safe_bind; [eapply sf_ksk_new; eauto|]. intros g Hg. split; auto.
Qed.
Lemma sf_relinearize_poly pr r p : rlk_shape r -> poly_shape p -> safe (relinearize_poly pr r p) poly2.
Proof.
  intros Hr Hp. unfold relinearize_poly. destruct (repr_eqb _ _); [|apply sf_key_switch; eauto with sfp].
  eapply safe_bind; [eauto with sfp|]. intros. apply sf_key_switch; eauto with sfp.
Qed.
Lemma sf_multiply_with_strategy pr a b r : ct_shape a -> ct_shape b -> rlk_shape r -> safe (multiply_with_strategy pr a b r) ct_shape.
Proof.
  intros Ha Hb Hr. unfold multiply_with_strategy. do 5 (apply safe_any; [auto with sf|]; intros _).
  do 17 (eapply safe_bind; [eauto 6 with sfp|]; intros ? ?; cbv beta in * ).
  eapply safe_bind; [apply sf_relinearize_poly; auto|]. intros [x y] [Hx Hy]. cbn [fst snd] in *.
  do 2 (eapply safe_bind; [eauto with sfp|]; intros ? ?; cbv beta in * ). apply sf_mkCt2; eauto with sfp.
Qed.
Lemma sf_rgsw_encrypt_poly pr k m r0 r1 l c : sk_shape k -> poly_shape m -> ctx_level (sk_params k) (p_ctx m) = Some l ->
  nth_error (bp_q_ctxs (sk_params k)) l = Some c -> rnd_shape c r0 -> rnd_shape c r1 -> safe (rgsw_encrypt_poly pr k m r0 r1) rgsw_shape.
Proof.
  intros Hk Hm El Ec H0 H1. unfold rgsw_encrypt_poly. apply safe_any; [auto with sf|]. intros _. rewrite El. cbn [unwrap bind].
  do 2 (eapply safe_bind; [eauto with sfp|]; intros ? ?; cbv beta in * ).
  eapply safe_bind; [eapply sf_ksk_new; eauto|]. intros k0 Hk0. eapply safe_bind; [eapply sf_ksk_new; eauto|]. intros k1 Hk1. split; auto.
Qed.
Lemma sf_rgsw_encrypt pr k m r0 r1 c : sk_shape k -> nth_error (bp_q_ctxs (sk_params k)) (pt_level m) = Some c ->
  rnd_shape c r0 -> rnd_shape c r1 -> safe (rgsw_encrypt pr k m r0 r1) rgsw_shape.
Proof.
  intros Hk Ec H0 H1. unfold rgsw_encrypt. apply safe_any; [auto with sf|]. intros _.
  do 5 (eapply safe_bind; [eauto with sfp|]; intros ? ?; cbv beta in * ).
  eapply safe_bind; [eapply sf_ksk_new; eauto|]. intros k0 Hk0. eapply safe_bind; [eapply sf_ksk_new; eauto|]. intros k1 Hk1. split; auto.
Qed.
Lemma sf_external_product pr r c : rgsw_shape r -> ct_shape c -> safe (external_product pr r c) poly2.
Proof.
  intros Hr Hc. unfold external_product. do 4 (eapply safe_bind; [eauto with sfp|]; intros ? ?; cbv beta in * ).
  eapply safe_bind; [apply sf_key_switch; eauto with sfp|]. intros [x y] [Hx Hy]. cbn [fst snd] in *.
  eapply safe_bind; [apply sf_key_switch; eauto with sfp|]. intros [z w] [Hz Hw]. cbn [fst snd] in *.
  do 2 (eapply safe_bind; [eauto with sfp|]; intros ? ?; cbv beta in * ). split; auto.
Qed.

(** evaluations.rs *)
Record server_shape (s : Server) : Prop := { vh : Forall poly_shape (sv_db_scaled s) }.
Record eval_shape (e : Evaluation) : Prop := { eh_g : Forall (fun kg => gk_shape (snd kg)) (ev_gk e); eh_r : rgsw_shape (ev_sk_rgsw e) }.
#[export] Hint Resolve vh eh_r : sfp.
Lemma sf_client_encode pr c q r : safe (client_encode pr c q r) any. Proof. sfu client_encode. Qed.
Lemma sf_server_new pr fd d db P : bfv_shape P -> safe (server_new pr fd d db P) server_shape.
Proof.
  intros HP. unfold server_new. eapply safe_bind; [apply (sf_mapM_Q _ _ poly_shape); intros; sp|]. intros s Hs. split; auto.
Qed.
Lemma sf_gen_x_pows pr n c : ctx_shape c -> safe (gen_x_pows pr n c) (Forall poly_shape).
Proof.
  intros Hc. unfold gen_x_pows. eapply safe_bind; [eauto with sfp|]. intros x Hx. cbv beta in Hx. apply safe_any; [auto with sf|]. intros lg.
  apply sf_mapM_Q. intros i. sp.
Qed.
Lemma sf_Forall_set {A} (Q : A -> Prop) l i v : Forall Q l -> Q v -> safe (set l i v) (Forall Q).
Proof. apply sf_set_in. Qed.
Lemma sf_unpack_step pr gk xp i bits j : gk_shape gk -> poly_shape xp -> Forall ct_shape bits -> safe (unpack_step pr gk xp i bits j) (Forall ct_shape).
Proof.
  intros Hg Hx Hb. unfold unpack_step. eapply safe_bind; [apply (sf_Forall_get ct_shape); auto|]. intros c Hc. cbv beta in Hc.
  eapply safe_bind; [apply sf_galois_relinearize; auto|]. intros cr Hcr. eapply safe_bind; [apply sf_ct_add; auto|]. intros ce Hce.
  eapply safe_bind; [apply sf_change_repr; auto|]. intros xp' Hxp'. eapply safe_bind; [apply sf_ct_sub; auto|]. intros co Hco. cbv beta in *.
  do 4 (eapply safe_bind; [eauto with sfp|]; intros ? ?; cbv beta in * ). cbv zeta.
  eapply safe_bind; [apply sf_Forall_set; eauto|]. intros b1 Hb1. apply sf_Forall_set; auto. split; cbn; eauto with sfp.
Qed.
Lemma gk_lookup_shape m k g : Forall (fun kg => gk_shape (snd kg)) m -> gk_lookup m k = Some g -> gk_shape g.
Proof.
  unfold gk_lookup. intros H E. destruct (find _ m) as [[k' g']|] eqn:F; [|discriminate]. injection E as <-.
  apply find_some in F. rewrite Forall_forall in H. apply (H (k', g')), F.
Qed.
Lemma sf_unpack_core pr ev ct xs : eval_shape ev -> ct_shape ct -> Forall poly_shape xs -> safe (unpack_core pr ev ct xs) (Forall ct_shape).
Proof.
  intros He Hc Hx. unfold unpack_core. cbv zeta. apply safe_any; [auto with sf|]. intros ctx. apply safe_any; [auto with sf|]. intros ni.
  eapply safe_bind; [eapply sf_Forall_mapM; [apply (ch_c _ Hc)|]; intros; apply sf_poly_mul_big; auto|]. intros cts Hcts. cbv beta in Hcts.
  apply safe_any; [auto with sf|]. intros lg. apply (safe_bind _ _ (Forall ct_shape)).
  - apply sf_foldM.
    + intros b i _ Hb. apply (sf_foldM _ (Forall ct_shape)); auto. intros b' j _ Hb'. eapply safe_bind; [apply sf_unwrap|]. intros g Hg. cbv beta in Hg.
      eapply safe_bind; [apply (sf_Forall_get poly_shape); auto|]. intros xp Hxp. apply sf_unpack_step; auto.
      eapply gk_lookup_shape; [apply (eh_g _ He)|exact Hg].
    + apply Forall_forall. intros x Hxx. apply repeat_spec in Hxx. subst x. split; cbn; auto. apply (ch_p _ Hc).
  - intros bits Hb. apply safe_any; [auto with sf|]. intros _. exact Hb.
Qed.
Lemma sf_unpack pr ev ct : eval_shape ev -> ct_shape ct -> safe (unpack pr ev ct) (Forall ct_shape).
Proof.
  intros He Hc. unfold unpack. eapply safe_bind; [eauto with sfp|]. intros ctx Hctx. cbv beta in Hctx.
  eapply safe_bind; [apply sf_gen_x_pows; auto|]. intros xs Hxs. cbv beta in Hxs. apply safe_any; [sf|]. intros _. apply sf_unpack_core; auto.
Qed.
Lemma sf_sum_cts pr P l : bfv_shape P -> Forall ct_shape l -> safe (sum_cts pr P l) ct_shape.
Proof.
  intros HP H. unfold sum_cts. destruct l as [|c l]; [split; cbn; auto|]. inversion_clear H as [|? ? H1 H2]. rewrite Forall_forall in H2.
  apply sf_foldM; auto. intros b x Hx Hb. apply sf_ct_add; auto.
Qed.
Lemma sf_fold_first pr P fd cts db : bfv_shape P -> Forall ct_shape cts -> safe (fold_first pr P fd cts db) (Forall ct_shape).
Proof.
  intros HP H. rewrite Forall_forall in H. unfold fold_first. apply safe_any; [auto with sf|]. intros ch. apply sf_mapM_Q. intros ps.
  eapply safe_bind; [apply (sf_zipM _ ct_shape); intros; apply sf_ct_mul_poly; auto|]. intros r [_ Hr]. apply sf_sum_cts; auto.
Qed.
Lemma sf_ext_ct pr P r c : bfv_shape P -> rgsw_shape r -> ct_shape c ->
  safe ('(c0, c1) <- external_product pr r c ;; Ok (mkCt P [c0; c1] 0)) ct_shape.
Proof. intros HP Hr Hc. eapply safe_bind; [apply sf_external_product; auto|]. intros [x y] [Hx Hy]. apply sf_mkCt2; auto. Qed.
Lemma sf_fold_dim pr P d db rs : bfv_shape P -> Forall ct_shape db -> Forall rgsw_shape rs -> safe (fold_dim pr P d db rs) (Forall ct_shape).
Proof.
  intros HP H Hr. rewrite Forall_forall in H, Hr. unfold fold_dim. eapply safe_bind; [apply sf_chunks|]. intros ch Hch. cbv beta in Hch.
  eapply safe_weak; [apply (sf_mapM _ _ ct_shape)|intros ? [_ G]; exact G]. intros cts Hcts.
  eapply safe_bind; [apply (sf_zipM _ ct_shape); intros; apply sf_ext_ct; eauto|]. intros r [_ G]. apply sf_sum_cts; auto.
Qed.
Lemma sf_build_rgsw pr P r vals i : bfv_shape P -> rgsw_shape r -> Forall (Forall ct_shape) vals -> safe (build_rgsw pr P r vals i) rgsw_shape.
Proof.
  intros HP Hr Hv. unfold build_rgsw. eapply safe_bind; [eapply (sf_Forall_mapM _ _ _ ct_shape); [exact Hv|]; intros; apply sf_Forall_get; auto|].
  intros lo Hlo. cbv beta in Hlo. eapply safe_bind; [eapply (sf_Forall_mapM _ _ _ ct_shape); [exact Hlo|]; intros; apply sf_ext_ct; auto|].
  intros up Hup. cbv beta in Hup. eapply safe_bind; [apply sf_ksk_from_rlwes; auto|]. intros k1 Hk1. eapply safe_bind; [apply sf_ksk_from_rlwes; auto|].
  intros k0 Hk0. split; auto.
Qed.
Lemma sf_slice_Forall {A} (Q : A -> Prop) l k : Forall Q l -> safe (slice_to l k) (Forall Q).
Proof.
  intros H. eapply safe_weak; [apply sf_slice_to|]. intros r [-> _]. rewrite Forall_forall in *. intros x Hx. apply H.
  rewrite <- (firstn_skipn k l). apply in_or_app; auto.
Qed.
Lemma sf_slice_toz_Forall {A} (Q : A -> Prop) k (l : list A) : Forall Q l -> safe (slice_toz l k) (Forall Q).
Proof.
  intros H. unfold slice_toz. apply safe_any; [auto with sf|]. intros _. cbn. rewrite Forall_forall in *. intros x Hx. apply H.
  rewrite <- (firstn_skipn (Z.to_nat k) l). apply in_or_app; auto.
Qed.
Lemma sf_decode_dimensions pr s : safe (decode_dimensions pr s) any. Proof. sfu decode_dimensions. Qed.
Lemma sf_chunks_Forall {A} (Q : A -> Prop) k l : Forall Q l -> safe (chunks k l) (Forall (Forall Q)).
Proof.
  intros H. eapply safe_weak; [apply sf_chunks|]. intros ch Hch. cbv beta in Hch. rewrite Forall_forall in *. intros c Hc. apply Forall_forall.
  intros x Hx. apply H. eapply Hch; eauto.
Qed.
Lemma sf_server_decode pr s q e P : bfv_shape P -> server_shape s -> Forall ct_shape q -> eval_shape e -> safe (server_decode pr s q e P) (Forall ct_shape).
Proof.
  intros HP Hs Hq He. unfold server_decode, server_decode_with.
  eapply safe_bind; [eauto with sfp|]. intros ctx Hctx. apply safe_any; [auto with sf|]. intros _.
  eapply safe_bind; [apply (sf_Forall_get ct_shape); auto|]. intros q0 Hq0. eapply safe_bind; [apply sf_unpack; auto|]. intros u0 Hu0.
  eapply safe_bind; [apply (sf_slice_Forall ct_shape); auto|]. intros fd Hfd. apply safe_any; [apply sf_decode_dimensions|]. intros dims.
  apply safe_any; [auto with sf|]. intros d1. apply safe_any; [auto with sf|]. intros cnt.
  assert (Hq' : Forall ct_shape (tl q)) by (inversion Hq; cbn [tl]; auto).
  eapply safe_bind; [eapply (sf_Forall_mapM _ _ _ (Forall ct_shape)); [exact Hq'|]; intros x Hx; eapply safe_bind; [apply sf_unpack; auto|];
    intros; apply sf_slice_toz_Forall; auto|]. intros vals Hvals.
  eapply safe_bind; [apply (sf_mapM_Q _ _ rgsw_shape); intros; apply sf_build_rgsw; auto; eauto with sfp|]. intros rs Hrs.
  eapply safe_bind; [apply (sf_chunks_Forall rgsw_shape); auto|]. intros bd Hbd.
  eapply safe_bind; [apply sf_fold_first; auto|]. intros db Hdb. cbv beta in *. rewrite Forall_forall in Hbd.
  apply sf_foldM; auto. intros b x Hx Hb. apply sf_fold_dim; auto.
Qed.
Lemma sk_ntt_ctx pr c cs : ctx_shape c -> safe (sk_ntt pr c cs) (fun m => p_ctx m = c).
Proof.
  intros Hc. unfold sk_ntt. apply (safe_bind _ _ (fun q => p_ctx q = c /\ poly_shape q)).
  - apply safe_and; [|apply sf_poly_from_i64; auto]. unfold poly_from_i64. apply safe_any; [sf|]. intros. reflexivity.
  - intros q [E Hq]. eapply safe_weak; [apply sf_cr_ctx; auto|]. intros a [Ea _]. congruence.
Qed.

Lemma sf_eval_build pr k P r r0 r1 c c0 l c1 : sk_shape k -> bfv_shape P -> nth_error (bp_q_ctxs (sk_params k)) 0 = Some c ->
  nth_error (bp_q_ctxs P) 0 = Some c0 -> ctx_level (sk_params k) c0 = Some l -> nth_error (bp_q_ctxs (sk_params k)) l = Some c1 ->
  (forall i, rnd_shape c (r i)) -> rnd_shape c1 r0 -> rnd_shape c1 r1 -> safe (eval_build pr k P r r0 r1) eval_shape.
Proof.
  intros Hk HP Ec E0 El E1 Hr H0 H1. unfold eval_build. cbv zeta. apply safe_any; [auto with sf|]. intros lg.
  apply (safe_bind _ _ (Forall (fun kg => gk_shape (snd kg)))).
  { apply sf_foldM; auto. intros m i _ Hm. apply safe_any; [auto with sf|]. intros cx. apply safe_any; [auto with sf|]. intros sb.
    eapply safe_bind; [eapply sf_galois_new; eauto|]. intros g Hg. cbn [safe]. constructor; auto. }
  intros gks Hgks. cbv beta in Hgks. unfold get. rewrite E0. cbn [bind].
  assert (Hc0 : ctx_shape c0). { pose proof (bh_q _ HP) as F. rewrite Forall_forall in F. apply F. eapply nth_error_In; eauto. }
  eapply safe_bind; [apply safe_and; [apply sk_ntt_ctx; auto|apply sf_sk_ntt; auto]|]. intros m [Em Hm].
  apply (safe_bind _ _ rgsw_shape); [|intros; split; auto].
  eapply sf_rgsw_encrypt_poly; eauto. rewrite Em; auto.
Qed.

(** pvw.rs, omr.rs *)
Lemma sf_pvw_dot pr q n x y : (forall i, safe (x i) any) -> (forall i, safe (y i) any) -> safe (pvw_dot pr q n x y) any.
Proof. intros Hx Hy. sfu pvw_dot. Qed.
Lemma sf_pvw_acc pr q e x a : safe e any -> (forall i, safe (x i) any) -> safe (pvw_acc pr q e x a) any.
Proof. intros He Hx. sfu pvw_acc. Qed.
#[export] Hint Resolve sf_pvw_dot sf_pvw_acc : sf.
Lemma sf_get2 m i j : safe (get2 m i j) any. Proof. sfu get2. Qed.
#[export] Hint Resolve sf_get2 : sf.
Lemma sf_pvw_pk_entry pr q n sk a err l p m : safe (pvw_pk_entry pr q n sk a err l p m) any. Proof. sfu pvw_pk_entry. Qed.
#[export] Hint Resolve sf_pvw_pk_entry : sf.
Lemma sf_pvw_gen_pk pr sk P a w : safe (pvw_gen_pk pr sk P a w) any. Proof. sfu pvw_gen_pk. Qed.
Lemma sf_pvw_encrypt pr pk P m e : safe (pvw_encrypt pr pk P m e) any.
Proof.
  unfold pvw_encrypt. apply safe_any; [auto with sf|]. intros q. apply safe_any.
  - apply sf_foldM_any. intros st i. apply safe_any; [apply sf_pvw_acc; [auto with sf|intros; sf]|]. intros b.
    apply safe_any; [apply sf_pvw_acc; [auto with sf|intros; sf]|]. intros a. exact I.
  - intros [b a]. sf.
Qed.
Lemma sf_pvw_decrypt pr sk P c : safe (pvw_decrypt pr sk P c) any. Proof. sfu pvw_decrypt. Qed.
Lemma sf_inner_product pr cs ps : Forall ct_shape cs -> safe (inner_product pr cs ps) ct_shape.
Proof.
  intros H. unfold inner_product. apply safe_any; [auto with sf|]. intros _. eapply safe_bind; [apply (sf_Forall_get ct_shape); auto|]. intros c0 H0.
  apply safe_any; [auto with sf|]. intros p0. eapply safe_bind; [apply sf_ct_mul_poly; auto|]. intros x Hx. cbv beta in *.
  assert (H' : Forall ct_shape (tl cs)) by (inversion H; cbn [tl]; auto). rewrite Forall_forall in H'.
  apply sf_foldM; auto. intros b [c p] Hin Hb. cbn [fst snd]. apply in_combine_l in Hin.
  eapply safe_bind; [apply sf_ct_mul_poly; auto|]. intros y Hy. apply sf_ct_add; auto.
Qed.
Lemma sf_encode_column pr op d cl f l : ntt_shape op -> safe (encode_column pr op d cl f l) any.
Proof. intros H. unfold encode_column. apply safe_any; [sf|]. intros. apply sf_ntt_backward; auto. Qed.
Lemma sf_process_clues pr env P cl : safe (process_clues pr env P cl) any.
Proof.
  unfold process_clues. apply safe_any; [auto with sf|]. intros q. eapply safe_bind; [apply sf_ntt_new; reflexivity|]. intros op [Hop _].
  apply safe_any; [apply sf_mapM_any; intros; apply sf_encode_column; auto|]. intros b.
  apply safe_any; [apply sf_mapM_any; intros; apply sf_encode_column; auto|]. intros a. exact I.
Qed.

(** utils.rs: bit decomposition *)
Lemma sf_bit_vector_loop : forall f v i bv, 0 <= v < 2 ^ Z.of_nat f -> safe (bit_vector_loop f v i bv) any.
Proof.
  induction f as [|f IH]; intros v i bv Hv; cbn [bit_vector_loop].
  - change (2 ^ Z.of_nat 0) with 1 in Hv. assert (v = 0) by lia. subst v. exact I.
  - destruct (v =? 0); [exact I|]. apply safe_any; [auto with sf|]. intros bv'. apply IH.
    rewrite Z.shiftr_div_pow2 by lia. change (2 ^ 1) with 2. rewrite Nat2Z.inj_succ, Z.pow_succ_r in Hv by lia.
    split; [apply Z.div_pos; lia|apply Z.div_lt_upper_bound; lia].
Qed.
Lemma sf_decompose_bits pr m pb db : 0 <= m < 2 ^ 64 -> safe (decompose_bits pr m pb db) any.
Proof.
  intros Hm. unfold decompose_bits, bit_vector. apply safe_any; [|intros; sf].
  apply safe_any; [auto with sf|]. intros bv. apply sf_bit_vector_loop. exact Hm.
Qed.

(** Whole programs *)
Definition value_shape (v : value) : Prop :=
  match v with
  | VNtt op => ntt_shape op | VRns c => rns_shape c | VCtx c => ctx_shape c | VPoly p => poly_shape p | VScaler s => rqs_shape s
  | VParams P => bfv_shape P | VSk k => sk_shape k | VPt p => pt_shape p | VCt c => ct_shape c | VKsk k => ksk_shape k
  | VGk g => gk_shape g | VRlk r => rlk_shape r | VRgsw r => rgsw_shape r | VEval e => eval_shape e | VServer s => server_shape s
  | _ => True
  end.
Lemma sf_arg {A} (proj : value -> option A) (Q : A -> Prop) st i : (forall v a, proj v = Some a -> value_shape v -> Q a) -> Forall value_shape st ->
  safe (arg proj st i) Q.
Proof.
  intros H Hs. unfold arg. destruct (nth_error st i) as [v|] eqn:E; [|exact I]. destruct (proj v) as [a|] eqn:Ea; [|exact I].
  cbn [safe]. apply (H v a Ea). rewrite Forall_forall in Hs. apply Hs. eapply nth_error_In; eauto.
Qed.
Ltac prj := intros v a E H; destruct v; cbn in E; try discriminate; injection E as <-; exact H.
Lemma pj_ntt v a : isNtt v = Some a -> value_shape v -> ntt_shape a. Proof. revert v a; prj. Qed.
Lemma pj_rns v a : isRns v = Some a -> value_shape v -> rns_shape a. Proof. revert v a; prj. Qed.
Lemma pj_ctx v a : isCtx v = Some a -> value_shape v -> ctx_shape a. Proof. revert v a; prj. Qed.
Lemma pj_poly v a : isPoly v = Some a -> value_shape v -> poly_shape a. Proof. revert v a; prj. Qed.
Lemma pj_scaler v a : isScaler v = Some a -> value_shape v -> rqs_shape a. Proof. revert v a; prj. Qed.
Lemma pj_params v a : isParams v = Some a -> value_shape v -> bfv_shape a. Proof. revert v a; prj. Qed.
Lemma pj_sk v a : isSk v = Some a -> value_shape v -> sk_shape a. Proof. revert v a; prj. Qed.
Lemma pj_pt v a : isPt v = Some a -> value_shape v -> pt_shape a. Proof. revert v a; prj. Qed.
Lemma pj_ct v a : isCt v = Some a -> value_shape v -> ct_shape a. Proof. revert v a; prj. Qed.
Lemma pj_ksk v a : isKsk v = Some a -> value_shape v -> ksk_shape a. Proof. revert v a; prj. Qed.
Lemma pj_gk v a : isGk v = Some a -> value_shape v -> gk_shape a. Proof. revert v a; prj. Qed.
Lemma pj_rlk v a : isRlk v = Some a -> value_shape v -> rlk_shape a. Proof. revert v a; prj. Qed.
Lemma pj_rgsw v a : isRgsw v = Some a -> value_shape v -> rgsw_shape a. Proof. revert v a; prj. Qed.
Lemma pj_eval v a : isEval v = Some a -> value_shape v -> eval_shape a. Proof. revert v a; prj. Qed.
Lemma pj_server v a : isServer v = Some a -> value_shape v -> server_shape a. Proof. revert v a; prj. Qed.
Lemma pj_any {A} (f : value -> option A) v a : f v = Some a -> value_shape v -> any a. Proof. intros; exact I. Qed.
Lemma sf_args {A} (proj : value -> option A) (Q : A -> Prop) st is : (forall v a, proj v = Some a -> value_shape v -> Q a) -> Forall value_shape st ->
  safe (args proj st is) (Forall Q).
Proof. intros H Hs. apply sf_mapM_Q. intros; apply sf_arg; auto. Qed.
Lemma sf_ret1 {A} (mk : A -> value) x (Q : A -> Prop) : safe x Q -> (forall a, Q a -> value_shape (mk a)) -> safe (ret1 mk x) (Forall value_shape).
Proof. intros H1 H2. unfold ret1. eapply safe_bind; [exact H1|]. intros a Ha. cbn [safe]. auto. Qed.
Lemma sf_retz x : safe x any -> safe (retz x) (Forall value_shape).
Proof. intros H. unfold retz. eapply safe_bind; [exact H|]. intros a _. cbn [safe]. repeat constructor. Qed.
Lemma sf_get_nth {A} (l : list A) i : safe (get l i) (fun a => nth_error l i = Some a).
Proof. unfold get. destruct (nth_error l i); [reflexivity|exact I]. Qed.
Lemma sf_getq (l : list RqContext) i : Forall ctx_shape l -> safe (get l i) (fun c => nth_error l i = Some c /\ ctx_shape c).
Proof. intros H. apply safe_and; [apply sf_get_nth|apply sf_Forall_get; auto]. Qed.
Lemma sample_rows_len c f : length (sample_rows c f) = length (rq_moduli_64 c).
Proof. unfold sample_rows. rewrite map_length, seq_length. reflexivity. Qed.
Lemma Forall_map_shape {A} (mk : A -> value) (Q : A -> Prop) l : (forall a, Q a -> value_shape (mk a)) -> Forall Q l -> Forall value_shape (map mk l).
Proof. intros H. induction 1; cbn; auto. Qed.

Ltac pj := first [apply pj_ntt|apply pj_rns|apply pj_ctx|apply pj_poly|apply pj_scaler|apply pj_params|apply pj_sk|apply pj_pt|apply pj_ct
  |apply pj_ksk|apply pj_gk|apply pj_rlk|apply pj_rgsw|apply pj_eval|apply pj_server|apply pj_any].
Ltac st1 :=
  match goal with
  | H : Forall value_shape ?st |- safe (bind (arg _ ?st _) _) _ =>
      eapply safe_bind; [apply sf_arg; [pj|exact H]|]; intros ? ?; cbv beta in *
  | H : Forall value_shape ?st |- safe (bind (args _ ?st _) _) _ =>
      eapply safe_bind; [apply sf_args; [pj|exact H]|]; intros ? ?; cbv beta in *
  end.
#[export] Hint Resolve sf_pt_decode sf_measure_noise sf_abd sf_ntt_forward sf_ntt_backward sf_decompose_bits
  sf_client_encode sf_pvw_gen_pk sf_pvw_encrypt sf_pvw_decrypt sf_process_clues : sfa.
Lemma sf_mod1 pr o m a : safe (exec_mod1 pr o m a) any. Proof. destruct o; cbn [exec_mod1]; sf. Qed.
Lemma sf_mod2 pr o m a b : safe (exec_mod2 pr o m a b) any. Proof. destruct o; cbn [exec_mod2]; sf. Qed.
Lemma sf_vec1 pr o m a : safe (exec_vec1 pr o m a) any.
Proof. destruct o; cbn [exec_vec1]; sf. eapply safe_to_any. apply sf_shoup_vec. Qed.
Lemma sf_vec2 pr o m a b : safe (exec_vec2 pr o m a b) any. Proof. destruct o; cbn [exec_vec2]; sf. Qed.
#[export] Hint Resolve sf_mod1 sf_mod2 sf_vec1 sf_vec2 : sf.
Lemma sf_pop2 pr o a b : poly_shape a -> safe (exec_poly2 pr o a b) poly_shape. Proof. destruct o; cbn [exec_poly2]; eauto with sfp. Qed.
Lemma sf_cop2 pr o a b : ct_shape a -> ct_shape b -> safe (exec_ct2 pr o a b) ct_shape. Proof. destruct o; cbn [exec_ct2]; eauto with sfp. Qed.
Ltac ret := first
  [ eapply sf_ret1; [solve [eauto 3 with sfp sfa]|intros ? ?; cbn [value_shape]; solve [auto | exact I]]
  | eapply (sf_ret1 _ _ any); [solve [sf]|intros ? ?; cbn [value_shape]; exact I]
  | eapply sf_retz; solve [sf | eauto 3 with sfa] ].
Lemma sf_pair (x : outcome (Poly * Poly)) : safe x poly2 -> safe ('(a, b) <- x ;; Ok [VPoly a; VPoly b]) (Forall value_shape).
Proof. intros H. eapply safe_bind; [exact H|]. intros [a b] [Ha Hb]. cbn [safe fst snd] in *. constructor; [|constructor; [|constructor]]; auto. Qed.
Ltac r1 L := eapply sf_ret1; [eapply L; eauto|intros ? ?; cbn [value_shape] in *; auto].
Ltac r1c L := eapply sf_ret1; [eapply L; eauto|intros ? [? ?]; cbn [value_shape] in *; auto].
Ltac gq := match goal with H : sk_shape ?a |- safe (bind (get (bp_q_ctxs (sk_params ?a)) _) _) _ =>
         eapply safe_bind; [apply sf_getq; apply (bh_q _ (kh_p _ H))|]; intros ? [? ?]; cbv beta in * end.
Ltac mapf := match goal with |- safe (bind _ (fun r => Ok (map _ r))) _ => eapply safe_bind; [|intros ? ?; cbn [safe]; eapply Forall_map_shape; [|eassumption]; intros ? G; exact G] end.
Lemma sf_exec pr env st c : Forall value_shape st -> cmd_typed c -> safe (exec pr env st c) (Forall value_shape).
Proof.
  intros Hs Ht. destruct c; cbn [exec cmd_typed] in *; repeat st1; try solve [ret].
  all: try solve [cbn [safe]; constructor; [exact I|constructor]].
  - apply safe_any; [eapply safe_to_any; apply sf_generate_prime; lia|]. intros o. cbn [safe]. repeat constructor.
  - r1c sf_ntt_new.
  - r1c sf_rns_new.
  - eapply (sf_ret1 _ _ any); [eapply safe_to_any; apply sf_rns_project|]. intros; exact I.
  - r1c sf_rq_new.
  - eapply sf_ret1; [apply sf_unwrap|]. intros d E. cbv beta in E. cbn [value_shape]. inversion H; eauto.
  - cbn [safe]. constructor; [|constructor]. apply ps_zero; auto.
  - cbn [safe]. constructor; [|constructor]. apply ps_random; auto. apply sample_rows_len.
  - apply safe_any; [apply sf_abd|]. intros; constructor.
  - r1 sf_pop2.
  - eapply safe_bind; [apply sf_sf_new|]. intros f _. r1c sf_rq_scaler_new.
  - r1 sf_bfv_new.
  - r1 sf_bfv_default.
  - cbn [safe]. constructor; [|constructor]. split. apply (th_p _ H).
  - cbn [safe]. constructor; [|constructor]. split. auto.
  - r1 sf_encrypt_poly. apply sample_rows_len.
  - eapply safe_bind; [apply sf_getq; apply (bh_q _ (th_p _ H0))|]. intros cx [E ?]. r1 sf_encrypt. apply sample_rows_len.
  - cbn [safe]. constructor; [|constructor]. split; auto.
  - cbn [safe]. eapply Forall_map_shape; [|apply (ch_c _ H)]. auto.
  - r1 sf_cop2.
  - r1 sf_multiply_with_strategy.
  - gq. r1 sf_ksk_new. apply rnd_for_shape.
  - gq. r1 sf_ksk_new_with_pt. apply rnd_for_shape.
  - apply sf_pair, sf_key_switch; auto.
  - cbn [safe]. eapply Forall_map_shape; [|apply Forall_app; split; [apply (sh_0 _ H)|apply (sh_1 _ H)]]. auto.
  - gq. r1 sf_galois_new. apply rnd_for_shape.
  - r1 sf_galois_relinearize.
  - gq. r1 sf_rlk_new. apply rnd_for_shape.
  - apply sf_pair, sf_relinearize_poly; auto.
  - eapply safe_bind; [apply sf_unwrap|]. intros l El. cbv beta in El. gq. r1 sf_rgsw_encrypt_poly; apply rnd_for_shape.
  - gq. r1 sf_rgsw_encrypt; apply rnd_for_shape.
  - apply sf_pair, sf_external_product; auto.
  - cbn [safe]. constructor; [|constructor]. split; auto.
  - r1 sf_server_new.
  - mapf. { apply sf_server_decode; auto. }
  - gq. eapply safe_bind; [apply sf_getq; apply (bh_q _ H0)|]. intros c0 [E0 ?].
    eapply safe_bind; [apply sf_unwrap|]. intros l El. cbv beta in El. gq. r1 sf_eval_build; intros; apply rnd_for_shape.
  - mapf. apply sf_unpack; auto.
  - r1 sf_inner_product.
  - apply safe_any; [apply sf_process_clues|]. intros [b a]. cbn [safe]. apply Forall_forall. intros x Hx. apply in_map_iff in Hx.
    destruct Hx as [y [<- _]]. exact I.
Qed.
Lemma sf_run pr env prog : Forall cmd_typed prog -> safe (run pr env prog) (Forall value_shape).
Proof.
  intros H. rewrite Forall_forall in H. unfold run. apply sf_foldM; [|constructor]. intros st c Hc Hs.
  eapply safe_bind; [apply sf_exec; auto|]. intros vs Hv. cbn [safe]. apply Forall_app. auto.
Qed.
