(** Retrieval, end to end. *)
From Verif Require Import PBase NT Spec PSum MModulus MUtils MNtt MRns MRq MBfv MKsk MGalois MRgsw MEval PModulus PUtils PNttMath PNtt PNttNew PCrt PRns PRnsScale PUtils2 SpecRq SpecBfv SpecKsk SpecEval PRing PRq PRq2 PRq3 PRq4 PRq5 PBfv PBfv2 PBfv3 PKsk PGal PKsk2 PRingT PExpand PEval PEval2 PAsm PFold PFold2 PClient.

Lemma slice_to_ok {A} (l : list A) k : (k <= length l)%nat -> slice_to l k = Ok (firstn k l).
Proof. intros H. unfold slice_to. rewrite (proj2 (Nat.leb_le _ _)) by auto. reflexivity. Qed.
Lemma forall2_seq {A B} (R : A -> B -> Prop) (f : nat -> A) (g : nat -> B) x d :
  (forall k, (k < d)%nat -> R (f (x + k)%nat) (g (x + k)%nat)) -> Forall2 R (map f (seq x d)) (map g (seq x d)).
Proof.
  revert x. induction d as [|d IH]; intros x H; [constructor|]. cbn [seq map]. constructor.
  - specialize (H 0%nat ltac:(lia)). rewrite Nat.add_0_r in H. auto.
  - apply IH. intros k Hk. specialize (H (S k) ltac:(lia)). replace (S x + k)%nat with (x + S k)%nat by lia. auto.
Qed.

Section Retr.
Variables (pr : profile) (P : BfvParams) (c : RqContext) (sk : SecretKey).
Hypothesis WB : wf_bfv P.
Hypothesis LV : wf_level P 0 c.
Hypothesis SK : sk_of P sk.
Hypothesis Hv : 1 <= bp_variance P <= 16.
Let W : wf_loc c := wf_ctx_loc _ (lv_wf _ _ _ LV).
Let n := rq_degree c.
Let K := cx_k c.
Let Q := cx_Q c.
Let t := bp_t P.
Let v := bp_variance P.
Let s := sk_fun sk.
Let dc := mkCt P [] 0.
Let KB := ks_bound c (2 * v).

Definition db_entry_ok (p : Plaintext) : Prop := Forall (fun x => 0 <= x < 2 ^ 64) (pt_values p) /\ (length (pt_values p) <= n)%nat.
Let dp := mkPt P 0 EncNone [].

Lemma server_new_ok first dim db : Forall db_entry_ok db ->
  server_new pr first dim db P = Ok (mkServer first dim db (map (fun x => rep c Ntt (pt_fun (nth x db dp))) (seq 0 (length db)))).
Proof.
  intros H. unfold server_new. rewrite (mapM_ok _ (fun p => rep c Ntt (pt_fun p))).
  - cbn [bind]. f_equal. f_equal. rewrite (list_seq db dp (length db)) at 1 by reflexivity. rewrite map_map. reflexivity.
  - intros p Hp. rewrite Forall_forall in H. destruct (H p Hp) as [H1 H2]. rewrite (lv_ctx _ _ _ LV). cbn [bind].
    rewrite rep_from_u64 by auto. cbn [bind]. rewrite change_fwd by auto. reflexivity.
Qed.

Definition query_within (B0 B1 : Z) (first : nat) (enc : list Z) (cts : list Ct) : Prop :=
  exists h0 h1 E b a e, cts = ct_of P 0 c [h0; h1] :: map (fun k => ct_of P 0 c [b k; a k]) (seq 0 K)
    /\ carries n Q t (phase n s [h0; h1]) (fun j => nth j enc 0) E
    /\ (forall j, (j < n)%nat -> Z.abs (E j) <= B0)
    /\ forall k, (k < K)%nat -> forall j, (j < n)%nat ->
         phase n s [b k; a k] j = nth k (rns_garner (rq_rns c)) 0 * nth (first + j) enc 0 + e k j /\ Z.abs (e k j) <= B1.
Definition query_ok := query_within (t * (2 * v + 2)) (2 * v).

Lemma client_query_ok first enc rows0 w0 rnd : Forall (fun x => 0 <= x < 2 ^ 64) enc -> (length enc <= n)%nat -> (first <= length enc)%nat ->
  wf_poly (mkPoly c Ntt rows0) -> (forall k, 0 <= w0 k < 2 ^ 64) -> rnd_ok c rnd ->
  exists cts, client_query pr sk P first enc rows0 w0 rnd = Ok cts /\ query_ok first enc cts.
Proof.
  intros H64 HL HF WR Hw [R1 R2]. unfold client_query, pt_new. pose proof (lv_n _ _ _ LV) as EN. fold n in EN.
  rewrite copy_prefix_pad by lia. cbn [bind]. set (pt := mkPt _ _ _ _).
  assert (PV : pt_values pt = enc ++ repeat 0 (bp_degree P - length enc)) by reflexivity.
  destruct (pt_to_poly_ok pr P 0 c WB LV pt eq_refl eq_refl) as [u [E1 HU]].
  { rewrite PV. apply Forall_app. split; auto. apply Forall_forall. intros x Hx. apply repeat_spec in Hx. subst. lia. }
  { rewrite PV, app_length, repeat_length. lia. }
  destruct (encrypt_poly_ok pr P 0 c LV sk u rows0 w0 SK WR Hv Hw) as [h0 [h1 [e0 [E2 [_ [He HP]]]]]].
  unfold encrypt. rewrite E1. cbn [bind]. rewrite E2. cbn [bind]. rewrite (lv_ctx _ _ _ LV). cbn [bind].
  rewrite rassert_true by (apply Nat.leb_le; auto). cbn [bind]. pose proof (wl_rns _ W) as WRn. rewrite (wr_gl _ _ WRn).
  change (length (rq_moduli_64 c)) with K.
  assert (HC : forall k, (k < K)%nat -> exists bae : (nat -> Z) * (nat -> Z) * (nat -> Z),
    (g <- get (rns_garner (rq_rns c)) k ;; p <- poly_from_u64 pr c (skipn first enc) ;; p' <- change_repr pr p Ntt ;;
     p'' <- poly_mul_big pr p' g ;; encrypt_poly pr sk p'' (rnd_rows rnd k) (rnd_words rnd k)) = Ok (ct_of P 0 c [fst (fst bae); snd (fst bae)])
    /\ forall j, (j < n)%nat -> phase n s [fst (fst bae); snd (fst bae)] j = nth k (rns_garner (rq_rns c)) 0 * nth (first + j) enc 0 + snd bae j
       /\ Z.abs (snd bae j) <= 2 * v).
  { intros k Hk. rewrite (get_ok _ k 0) by (rewrite (wr_gl _ _ WRn); exact Hk). cbn [bind].
    rewrite rep_from_u64; [|auto| |rewrite skipn_length; fold n; lia].
    2:{ apply Forall_forall. intros x Hx. rewrite Forall_forall in H64. apply H64. rewrite <- (firstn_skipn first enc). apply in_or_app. auto. }
    cbn [bind]. rewrite change_fwd by auto. cbn [bind]. rewrite rep_mul_big by auto. cbn [bind].
    match goal with |- context [rep c Ntt ?u] => set (uk := u) end.
    destruct (encrypt_poly_ok pr P 0 c LV sk uk (rnd_rows rnd k) (rnd_words rnd k) SK (R1 k Hk) Hv (R2 k)) as [b [a [e [E3 [_ [He3 HP3]]]]]].
    exists (b, a, e). cbn [fst snd]. split; [exact E3|]. intros j Hj. split; [|apply He3]. unfold s. rewrite EN. rewrite HP3 by (rewrite <- EN; auto).
    unfold uk. rewrite nth_skip. reflexivity. }
  destruct (fin_choice (fun _ => 0, fun _ => 0, fun _ => 0) _ _ HC) as [bae HB].
  pose proof (mapM_ok (fun i => g <- get (rns_garner (rq_rns c)) i ;; p <- poly_from_u64 pr c (skipn first enc) ;; p' <- change_repr pr p Ntt ;;
     p'' <- poly_mul_big pr p' g ;; encrypt_poly pr sk p'' (rnd_rows rnd i) (rnd_words rnd i))
     (fun k => ct_of P 0 c [fst (fst (bae k)); snd (fst (bae k))]) (seq 0 K)) as EM.
  rewrite EM by (intros k Hk; apply in_seq in Hk; apply HB; lia). cbn [bind].
  eexists. split; [reflexivity|].
  exists h0, h1, (fun j => t * u j - Q * pt_fun pt j + t * e0 j), (fun k => fst (fst (bae k))), (fun k => snd (fst (bae k))), (fun k => snd (bae k)).
  split; [reflexivity|].
  assert (PF : forall j, pt_fun pt j = nth j enc 0).
  { intros j. unfold pt_fun. rewrite PV. destruct (Nat.lt_ge_cases j (length enc)); [apply app_nth1; auto|].
    rewrite app_nth2, nth_repeat, nth_overflow by auto. reflexivity. }
  split; [|split].
  - pose proof (encode_carries P c (pt_fun pt) u e0 HU) as C. rewrite EN.
    eapply (carries_ext P c); [| | |exact C]; intros j Hj; cbv beta; auto. symmetry. apply HP. auto.
  - intros j Hj. rewrite EN in Hj. specialize (HU j Hj). specialize (He j). fold t Q v in HU, He |- *. pose proof (wf_t17 P WB) as T17. fold t in T17.
    set (x := t * u j - Q * pt_fun pt j). assert (X : - (2 * t) < x <= 0) by (unfold x; lia). clearbody x.
    assert (Y : Z.abs (t * e0 j) <= t * (2 * v)) by (rewrite Z.abs_mul, Z.abs_eq by lia; apply Z.mul_le_mono_nonneg_l; lia).
    replace (t * (2 * v + 2)) with (t * (2 * v) + 2 * t) by ring. lia.
  - intros k Hk j Hj. apply (HB k Hk). auto.
Qed.

Section Decode.
Variables B0 B1 : Z.
Hypothesis B0n : 0 <= B0.
Hypothesis B1n : 0 <= B1.
Definition first_noise : Z := B0 + t * ((Z.of_nat n - 1) * KB).
Definition digit_noise : Z := B1 + (Z.of_nat n - 1) * KB.
Definition rgsw_noise (S : Z) : Z := ks_bound c digit_noise + ks_bound c (S * digit_noise + 2 * KB).

Lemma ks_bound_nonneg B : 0 <= B -> 0 <= ks_bound c B.
Proof.
  intros HB. unfold ks_bound. apply Z.mul_nonneg_nonneg; [lia|]. apply sumn_nonneg. intros i Hi. pose proof (cx_range c W i Hi). lia.
Qed.

(** [server_decode_with] with the number of dimensions as an argument. *)
Definition decode_body (dims : outcome Z) (unpk : Ct -> outcome (list Ct)) (srv : Server) (query_cts : list Ct) (ev : Evaluation) : outcome (list Ct) :=
  ctx <- get (bp_q_ctxs P) 0 ;;
  rassert (length (rq_moduli ctx) + 1 =? length query_cts)%nat ;;;
  q0 <- get query_cts 0 ;;
  u0 <- unpk q0 ;;
  first_dim_cts <- slice_to u0 (sv_first_dim srv) ;;
  dimensions <- dims ;;
  d1 <- sub64 pr dimensions 1 ;;
  rgsws_count <- mul64 pr d1 (Z.of_nat (sv_dim srv)) ;;
  vals <- mapM (fun q => u <- unpk q ;; slice_toz u rgsws_count) (tl query_cts) ;;
  rgsws <- mapM (build_rgsw pr P (ev_sk_rgsw ev) vals) (seq 0 (Z.to_nat rgsws_count)) ;;
  by_dim <- chunks (sv_dim srv) rgsws ;;
  db <- fold_first pr P (sv_first_dim srv) first_dim_cts (sv_db_scaled srv) ;;
  foldM (fun db dim_rgsws => fold_dim pr P (sv_dim srv) db dim_rgsws) by_dim db.

Lemma decode_body_ok dims ev xs first dim q0 qs srv cts (m : nat -> nat -> Z) M S :
  eval_key pr P c sk ev -> x_pows_ok c xs ->
  sv_first_dim srv = first -> sv_dim srv = dim -> (1 <= dim)%nat -> dims = Ok (Z.of_nat (length qs) + 1) ->
  (q0 < first)%nat -> Forall (fun q => (q < dim)%nat) qs -> (first + dim * length qs <= n)%nat ->
  length (sv_db srv) = (first * dim ^ length qs)%nat ->
  sv_db_scaled srv = map (fun x => rep c Ntt (m x)) (seq 0 (length (sv_db srv))) ->
  (forall x l, Z.abs (m x l) <= M) -> l1norm n s <= S ->
  query_within B0 B1 first (encoding_of first dim q0 qs) cts ->
  exists g0 g1 E, decode_body dims (fun ct => unpack_core pr ev ct xs) srv cts ev = Ok [ct_of P 0 c [g0; g1]]
    /\ carries n Q t (phase n s [g0; g1]) (m (q0 + first * row_index dim qs)%nat) E
    /\ forall l, (l < n)%nat -> Z.abs (E l) <=
         Z.of_nat first * (Z.of_nat n * (first_noise * M)) + t * (Z.of_nat (length qs) * (Z.of_nat dim * rgsw_noise S)).
Proof.
  intros [GK [e0 [e1 [K0 [K1 [N0 N1]]]]]] HX Hfd Hdm Hd1 -> Hq0 HQ HN HL HS HM HSn [h0 [h1 [E0 [bq [aq [eq [-> [C0 [E0b HQK]]]]]]]]].
  pose proof (cx_n8 c W) as N8. fold n in N8. pose proof (wf_t17 P WB) as T17. fold t in T17. pose proof (cx_Q1 c W) as Q1. fold Q in Q1.
  assert (KB0 : 0 <= KB) by (apply ks_bound_nonneg; unfold v; lia).
  assert (NK : 0 <= (Z.of_nat n - 1) * KB) by (apply Z.mul_nonneg_nonneg; lia).
  assert (v0 : 1 <= v) by (unfold v; lia).
  destruct (encoding_facts first dim q0 qs) as [L1 [F1 F2]]. set (enc := encoding_of first dim q0 qs) in *.
  pose proof (fun f0 f1 => unpack_core_ok pr P 0 c s LV ev xs f0 f1 KB KB0 GK HX) as UN. fold n Q in UN.
  unfold decode_body. rewrite (lv_ctx _ _ _ LV). cbn [bind].
  rewrite rassert_true by (apply Nat.eqb_eq; cbn [length]; rewrite len_seq; unfold K; pose proof (cx_moduli_len c W); lia).
  cbn [bind]. change (get (ct_of P 0 c [h0; h1] :: ?l) 0) with (Ok (ct_of P 0 c [h0; h1])). cbn [bind tl].
  destruct (UN h0 h1) as [bits [EU [LU HU]]]. rewrite EU. cbn [bind]. rewrite Hfd, Hdm.
  rewrite slice_to_ok by (rewrite LU; lia). cbn [bind].
  assert (Hn64 : Z.of_nat n < 2 ^ 64).
  { unfold n. rewrite (wl_n _ W), Nat2Z.inj_pow. apply Z.pow_lt_mono_r; pose proof (wl_L _ W); lia. }
  rewrite sub64_ok by (change W64 with (2 ^ 64); clear - HN Hn64 Hd1; nia). cbn [bind].
  rewrite mul64_ok by (change W64 with (2 ^ 64); clear - HN Hn64; nia). cbn [bind].
  replace ((Z.of_nat (length qs) + 1 - 1) * Z.of_nat dim) with (Z.of_nat (length qs * dim)) by lia. rewrite Nat2Z.id. set (cnt := (length qs * dim)%nat).
  rewrite mapM_comp.
  destruct (mapM_choice (fun k => u <- unpack_core pr ev (ct_of P 0 c [bq k; aq k]) xs ;; slice_toz u (Z.of_nat cnt))
    (fun k u => (k < K)%nat -> length u = cnt /\ forall j, (j < cnt)%nat -> exists g0 g1 w, nth j u dc = ct_of P 0 c [g0; g1] /\ forall l, (l < n)%nat ->
         eqm Q (phase n s [g0; g1] l) (cst (phase n s [bq k; aq k] j) l + w l) /\ Z.abs (w l) <= (Z.of_nat n - 1) * KB) [] 0 K) as [vals [EV [LV' HV]]].
  { intros k Hk. rewrite Nat.add_0_l. destruct (UN (bq k) (aq k)) as [u [Eu [Lu Hu]]]. rewrite Eu. cbn [bind].
    unfold slice_toz. rewrite rassert_true by (apply Z.leb_le; rewrite Lu; unfold cnt; lia). cbn [bind]. rewrite Nat2Z.id. eexists. split; [reflexivity|]. intros _. split; [rewrite firstn_length, Lu; unfold cnt; lia|].
    intros j Hj. rewrite firstn_nth by auto. apply Hu. unfold cnt in Hj. lia. }
  rewrite EV. cbn [bind].
  set (G := fun k => nth k (rns_garner (rq_rns c)) 0). set (tail := fun j => nth (first + j) enc 0).
  destruct (mapM_choice (build_rgsw pr P (ev_sk_rgsw ev) vals) (fun i r => rgsw_acts pr P c s r (cst (tail i)) (rgsw_noise S)) (dr P c) 0 cnt) as [rgs [ER [LR HR]]].
  { intros i Hi. rewrite Nat.add_0_l.
    assert (HC : forall k, (k < K)%nat -> exists x : (nat -> Z) * (nat -> Z) * (nat -> Z), nth i (nth k vals []) dc = ct_of P 0 c [fst (fst x); snd (fst x)]
      /\ forall l, (l < n)%nat -> eqm Q (phase n s [fst (fst x); snd (fst x)] l) (cst (phase n s [bq k; aq k] i) l + snd x l) /\ Z.abs (snd x l) <= (Z.of_nat n - 1) * KB).
    { intros k Hk. destruct (HV k Hk Hk) as [_ H]. destruct (H i Hi) as [g0 [g1 [w Hw]]]. exists (g0, g1, w). exact Hw. }
    destruct (fin_choice (fun _ => 0, fun _ => 0, fun _ => 0) _ _ HC) as [x Hx].
    set (ee := fun k l => if ((k <? K) && (l <? n))%nat then cst (eq k i) l + snd (x k) l else 0).
    assert (Hin : (i < n)%nat) by (unfold cnt in Hi; lia).
    apply (build_rgsw_ok pr P c LV (ev_sk_rgsw ev) s e0 e1 (fun k => fst (fst (x k))) (fun k => snd (fst (x k))) G (cst (tail i)) ee digit_noise
             (S * digit_noise + 2 * KB) S (2 * v)); auto.
    - lia.
    - exact (gadget_garner P 0 c LV).
    - intros k j Hk Hj. destruct (Hx k Hk) as [_ H]. destruct (H j Hj) as [H1 _]. destruct (HQK k Hk i Hin) as [H2 _].
      change (eqm Q (phase n s [fst (fst (x k)); snd (fst (x k))] j) (G k * cst (tail i) j + ee k j)). eapply eqm_trans; [exact H1|].
      rewrite H2. unfold ee. apply Nat.ltb_lt in Hk, Hj. fold K in Hk. fold n in Hj. rewrite Hk, Hj. cbn [andb]. fold (G k) (tail i).
      unfold cst. destruct (j =? 0)%nat; apply f_equal2; ring.
    - intros k j. unfold ee. destruct (Nat.ltb_spec k K) as [Hk|]; [|cbn [andb]; rewrite Z.abs_0; unfold digit_noise; lia].
      destruct (Nat.ltb_spec j n) as [Hj|]; [|cbn [andb]; rewrite Z.abs_0; unfold digit_noise; lia]. cbn [andb].
      destruct (Hx k Hk) as [_ H]. destruct (H j Hj) as [_ H1]. destruct (HQK k Hk i Hin) as [_ H2]. unfold digit_noise.
      unfold cst. destruct (j =? 0)%nat; lia.
    - rewrite (list_seq vals [] K) by auto. rewrite (mapM_seq _ _ (fun k => ct_of P 0 c [fst (fst (x k)); snd (fst (x k))])); [reflexivity|].
      intros k Hk. destruct (HV k Hk Hk) as [Lk _]. rewrite (get_ok _ i dc) by (rewrite Lk; auto). f_equal. apply (Hx k Hk). }
  rewrite ER. cbn [bind]. rewrite (chunks_ok (dr P c) dim (length qs) rgs) by (auto; lia).
  cbn [bind]. rewrite HS, HL. replace (first * dim ^ length qs)%nat with (dim ^ length qs * first)%nat by lia.
  assert (BN : 0 <= rgsw_noise S).
  { assert (0 <= S) by (eapply Z.le_trans; [apply l1_nonneg|exact HSn]). assert (0 <= digit_noise) by (unfold digit_noise; lia).
    unfold rgsw_noise. apply Z.add_nonneg_nonneg; apply ks_bound_nonneg; [lia|]. apply Z.add_nonneg_nonneg; [apply Z.mul_nonneg_nonneg; lia|lia]. }
  apply (fold_all_ok pr P c s WB LV first dim q0 qs (firstn first bits) _ m first_noise (rgsw_noise S) M); auto.
  - unfold first_noise. apply Z.add_nonneg_nonneg; [exact B0n|]. apply Z.mul_nonneg_nonneg; lia.
  - rewrite firstn_length, LU. lia.
  - intros k Hk. rewrite firstn_nth by auto. destruct (HU k ltac:(lia)) as [g0 [g1 [w [Eg Hg]]]].
    exists g0, g1, (fun l => cst (E0 k) l + t * w l). split; [exact Eg|]. split.
    + apply (carries_shift n Q t (cst (phase n s [h0; h1] k)) _ _ _ w Q1 ltac:(lia)); [intros l Hl; apply (Hg l Hl)|].
      intros l Hl. specialize (C0 k ltac:(lia)). cbv beta in C0. rewrite F1 in C0 by auto. unfold cst. destruct (l =? 0)%nat; [exact C0|].
      f_equal. ring.
    + intros l Hl. destruct (Hg l Hl) as [_ Hw]. specialize (E0b k ltac:(lia)). unfold first_noise.
      assert (Z.abs (t * w l) <= t * ((Z.of_nat n - 1) * KB)) by (rewrite Z.abs_mul, (Z.abs_eq t) by lia; apply Z.mul_le_mono_nonneg_l; lia).
      unfold cst. destruct (l =? 0)%nat; [lia|]. pose proof (Z.abs_nonneg (E0 k)). lia.
  - rewrite (list_seq qs 0%nat (length qs)) at 1 by reflexivity. apply forall2_seq. intros d Hdd. rewrite Nat.add_0_l. split; [|split].
    + rewrite Forall_forall in HQ. apply HQ, nth_In. auto.
    + apply len_seq.
    + intros k Hk. rewrite nth_map_seq by auto. rewrite <- (F2 d k) by auto. apply HR. unfold cnt. nia.
Qed.

Lemma decode_gen ev xs first dim q0 qs srv cts (m : nat -> nat -> Z) M S :
  eval_key pr P c sk ev -> x_pows_ok c xs ->
  sv_first_dim srv = first -> sv_dim srv = dim -> countable dim (length qs) ->
  (q0 < first)%nat -> Forall (fun q => (q < dim)%nat) qs -> (first + dim * length qs <= n)%nat ->
  length (sv_db srv) = (first * dim ^ length qs)%nat -> Z.of_nat (length (sv_db srv)) < 2 ^ 64 -> Z.of_nat dim < 2 ^ 64 ->
  sv_db_scaled srv = map (fun x => rep c Ntt (m x)) (seq 0 (length (sv_db srv))) ->
  (forall x l, Z.abs (m x l) <= M) -> l1norm n s <= S ->
  query_within B0 B1 first (encoding_of first dim q0 qs) cts ->
  exists g0 g1 E, server_decode_with pr (fun ct => unpack_core pr ev ct xs) srv cts ev P = Ok [ct_of P 0 c [g0; g1]]
    /\ carries n Q t (phase n s [g0; g1]) (m (q0 + first * row_index dim qs)%nat) E
    /\ forall l, (l < n)%nat -> Z.abs (E l) <=
         Z.of_nat first * (Z.of_nat n * (first_noise * M)) + t * (Z.of_nat (length qs) * (Z.of_nat dim * rgsw_noise S)).
Proof.
  intros H1 HX Hfd Hdm Hd Hq0 HQ HN HL HB64 HD64 HS HM HSn HQ1.
  exact (decode_body_ok (decode_dimensions pr srv) ev xs first dim q0 qs srv cts m M S H1 HX Hfd Hdm ltac:(destruct Hd; lia)
    (decode_dimensions_ok pr srv (length qs) ltac:(lia) ltac:(rewrite Hdm; exact Hd) ltac:(rewrite Hfd, Hdm; exact HL) HB64 ltac:(rewrite Hdm; exact HD64))
    Hq0 HQ HN HL HS HM HSn HQ1).
Qed.
End Decode.
End Retr.
