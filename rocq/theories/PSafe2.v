(** Safety triples for the RNS, polynomial and BFV layers. *)
From Verif Require Import PBase NT Spec PSum MModulus MUtils MNtt MRns MRq MBfv MKsk MGalois MRgsw MEval MPvw MOmr PModulus PUtils PUtils2 PNttMath PNtt PNttNew PRetr PSafe.

Lemma sf_Forall_get {A} (Q : A -> Prop) l i : Forall Q l -> safe (get l i) Q.
Proof. intros H. eapply safe_weak; [apply sf_get|]. intros a Ha. rewrite Forall_forall in H. apply H, Ha. Qed.
Lemma sf_Forall_mapM {A B} (f : A -> outcome B) l (P : A -> Prop) (Q : B -> Prop) :
  Forall P l -> (forall x, P x -> safe (f x) Q) -> safe (mapM f l) (Forall Q).
Proof.
  intros H1 H2. eapply safe_weak; [apply (sf_mapM f l Q)|]; [|intros r [_ H]; exact H].
  intros x Hx. apply H2. rewrite Forall_forall in H1. auto.
Qed.
Lemma sf_mapM_Q {A B} (f : A -> outcome B) l (Q : B -> Prop) : (forall x, safe (f x) Q) -> safe (mapM f l) (Forall Q).
Proof. intros H. eapply safe_weak; [apply (sf_mapM f l Q); auto|]. intros r [_ G]; exact G. Qed.
Lemma sf_unwrap_Q {A} (Q : A -> Prop) (o : option A) : (forall a, o = Some a -> Q a) -> safe (unwrap o) Q.
Proof. intros H. destruct o; [apply H; reflexivity|exact I]. Qed.

(** rns.rs *)
Record rns_shape (c : RnsContext) : Prop := {
  rh_moduli : length (rns_moduli c) = length (rns_moduli_u64 c);
  rh_garner : length (rns_garner c) = length (rns_moduli_u64 c) }.

Lemma sf_rns_new ms : safe (rns_new ms) (fun c => rns_shape c /\ rns_moduli_u64 c = ms).
Proof.
  unfold rns_new. eapply safe_bind; [apply sf_mapM_len; intros; apply sf_modulus_new|]. intros moduli Hm. cbv zeta.
  eapply safe_bind; [apply sf_mapM_len; intros; apply sf_udiv|]. intros qs Hq.
  eapply safe_bind; [apply sf_mapM_len; intros; sf|]. intros qt Ht.
  eapply safe_bind; [apply (sf_zipM _ any); intros; exact I|]. intros g [Hg _]. cbv beta in *.
  cbn [safe]. split; [split; cbn|reflexivity]; lia.
Qed.
Lemma sf_rns_project c a : safe (rns_project c a) (fun r => length r = length (rns_moduli_u64 c)).
Proof. apply sf_mapM_len; intros; sf. Qed.
Lemma sf_rns_lift c r : safe (rns_lift c r) any. Proof. apply sf_umod. Qed.
Lemma sf_sf_new n d : safe (sf_new n d) any. Proof. sfu sf_new. Qed.
#[export] Hint Resolve sf_rns_lift sf_sf_new : sf.

Definition ext_shape (to : RnsContext) (e : list Z * Z * Z * bool) : Prop := length (fst (fst (fst e))) = length (rns_moduli_u64 to).
Lemma sf_extract to i n d b : safe (extract_projection_and_theta to i n d b) (ext_shape to).
Proof.
  unfold extract_projection_and_theta. apply safe_any; [apply sf_udiv|]. intros g.
  eapply safe_bind; [apply sf_rns_project|]. intros p Hp. cbv beta in Hp.
  apply safe_any; [apply sf_umod|]. intros th. cbv zeta.
  destruct (if 1 <? d then _ else _) as [t1 sg].
  apply safe_any; [destruct b, sg; apply sf_udiv|]. intros t2. cbv zeta.
  apply safe_any; [auto with sf|]. intros lo. apply safe_any; [auto with sf|]. intros hi. exact Hp.
Qed.

Record scaler_shape (s : RnsScaler) (n m : nat) : Prop := {
  ss_to : length (rns_moduli (rs_to s)) = m;
  ss_om : length (rs_omega s) = m;
  ss_omr : Forall (fun r => length r = n) (rs_omega s);
  ss_oms : length (rs_omega_shoup s) = m;
  ss_omsr : Forall (fun r => length r = n) (rs_omega_shoup s);
  ss_ga : length (rs_gamma s) = m;
  ss_gas : length (rs_gamma_shoup s) = m }.

Lemma sf_rns_scaler_new pr from to f : rns_shape from -> rns_shape to ->
  safe (rns_scaler_new pr from to f) (fun s => scaler_shape s (length (rns_moduli_u64 from)) (length (rns_moduli_u64 to))).
Proof.
  intros Hf Ht. pose proof (rh_moduli _ Ht) as Lm. pose proof (rh_garner _ Hf) as Lg. unfold rns_scaler_new.
  eapply safe_bind; [apply sf_extract|]. intros [[[gamma lo] hi] sg] Hg. unfold ext_shape in Hg. cbn [fst] in Hg.
  eapply safe_bind; [apply (sf_zipM _ any); intros; auto with sf|]. intros gs [Lgs _].
  eapply safe_bind; [apply sf_mapM; intros; apply sf_extract|]. intros exts [Le _].
  eapply safe_bind.
  { apply (sf_mapM _ _ (fun r => length r = length exts)). intros [j q] _. cbv beta.
    apply sf_mapM_len. intros e. sf. }
  intros om [Lo Fo]. rewrite combine_length, seq_length, Nat.min_id in Lo.
  eapply safe_bind.
  { apply (sf_zipM _ (fun r => length r = length exts)). intros row q Hr _.
    eapply safe_weak; [apply sf_mapM_len; intros; auto with sf|]. intros r Hr'. cbv beta in Hr'.
    rewrite Forall_forall in Fo. rewrite Hr'. apply Fo; auto. }
  intros oms [Los Fos]. cbv zeta.
  apply safe_any; [sf|]. intros sh. apply safe_any; [auto with sf|]. intros mn.
  apply safe_any; [sf|]. intros th.
  cbn [safe]. assert (El : length exts = length (rns_moduli_u64 from)) by lia.
  rewrite El in *. split; cbn; auto; lia.
Qed.

Lemma sf_scale_inner pr q : forall rests o os y, (length rests <= length o)%nat -> (length rests <= length os)%nat ->
  safe (scale_inner pr q rests o os y) any.
Proof.
  induction rests as [|r rests IH]; intros [|o os'] [|s ss] y H1 H2; cbn [scale_inner length] in *; try lia; try exact I.
  apply safe_any; [auto with sf|]. intros t. apply safe_any; [auto with sf|]. intros y'. apply IH; lia.
Qed.
Lemma sf_stg pr : forall l h r a, safe (sum_theta_garner pr l h r a) any.
Proof. induction l as [|x l IH]; intros [|y h] [|z r] a; cbn [sum_theta_garner]; try exact I; sf. Qed.
Lemma sf_sto pr : forall l h s r a, safe (sum_theta_omega pr l h s r a) any.
Proof. induction l as [|x l IH]; intros [|y h] [|b s] [|z r] a; cbn [sum_theta_omega]; try exact I; sf. Qed.
#[export] Hint Resolve sf_stg sf_sto : sf.
Lemma sf_scale_v pr s r : safe (scale_v pr s r) any. Proof. sfu scale_v. Qed.
Lemma sf_scale_w pr s r v : safe (scale_w pr s r v) any.
Proof.
  unfold scale_w. destruct (sf_is_one _); [exact I|]. repeat (apply safe_any; [solve [auto with sf]|]; intros). cbv zeta.
  destruct (0 <? _); sf.
Qed.
#[export] Hint Resolve sf_scale_v sf_scale_w : sf.
Lemma sf_getu_Forall {A} (Q : A -> Prop) l i : Forall Q l -> (i < length l)%nat -> safe (getu l i) Q.
Proof. intros H Hi. eapply safe_weak; [apply sf_getu_in; auto|]. intros a Ha. rewrite Forall_forall in H. apply H, Ha. Qed.
Lemma sf_scale_out pr s n m r v ws i : scaler_shape s n m -> (length r <= n)%nat -> (i < m)%nat -> safe (scale_out pr s r v ws i) any.
Proof.
  intros W Hr Hi. unfold scale_out. destruct ws as [wsg w].
  apply safe_any; [apply sf_getu; rewrite (ss_to _ _ _ W); auto|]. intros q.
  eapply safe_bind; [apply (sf_getu_Forall (fun r => length r = n)); [apply (ss_omr _ _ _ W)|rewrite (ss_om _ _ _ W); auto]|]. intros o Ho.
  eapply safe_bind; [apply (sf_getu_Forall (fun r => length r = n)); [apply (ss_omsr _ _ _ W)|rewrite (ss_oms _ _ _ W); auto]|]. intros os Hos.
  apply safe_any; [apply sf_getu; rewrite (ss_ga _ _ _ W); auto|]. intros ga.
  apply safe_any; [apply sf_getu; rewrite (ss_gas _ _ _ W); auto|]. intros gas. cbv beta in *.
  repeat (apply safe_any; [solve [auto with sf]|]; intros).
  apply safe_any; [sf|]. intros y1. apply safe_any; [auto with sf|]. intros _. apply safe_any; [auto with sf|]. intros _.
  apply safe_any; [apply sf_scale_inner; lia|]. intros yi. auto with sf.
Qed.
Lemma sf_rns_scale pr s n m r ol si : scaler_shape s n m -> (length r <= n)%nat -> (si + ol <= m)%nat -> safe (rns_scale pr s r ol si) any.
Proof.
  intros W Hr Hs. unfold rns_scale. repeat (apply safe_any; [solve [auto with sf]|]; intros).
  eapply safe_to_any. apply (sf_mapM _ _ any). intros i Hi. apply in_seq in Hi. eapply sf_scale_out; eauto. lia.
Qed.

(** rq.rs *)
Inductive ctx_shape : RqContext -> Prop := Cs : forall c,
  length (rq_moduli c) = length (rq_moduli_64 c) -> rns_shape (rq_rns c) -> rns_moduli_u64 (rq_rns c) = rq_moduli_64 c ->
  Forall ntt_shape (rq_ntt_ops c) ->
  (forall d, rq_next c = Some d -> ctx_shape d) ->
  (forall d, rq_next c = Some d -> rq_moduli_64 d = firstn (length (rq_moduli_64 c) - 1) (rq_moduli_64 c)) -> ctx_shape c.

Lemma sf_rq_new_fuel pr env d bd : Z.of_nat d < 2 ^ 64 -> forall f ms, (length ms < f)%nat ->
  safe (rq_new_fuel pr env f ms d bd) (fun c => ctx_shape c /\ rq_moduli_64 c = ms).
Proof.
  intros Hd. induction f as [|f IH]; intros ms Hf; [lia|]. cbn [rq_new_fuel].
  eapply safe_bind; [apply sf_rns_new|]. intros rns [Hr Er]. cbv zeta.
  eapply safe_bind; [apply (sf_mapM_Q _ _ ntt_shape); intros m; eapply safe_weak; [apply sf_ntt_new; auto|]; intros op [H _]; exact H|].
  intros ops Hops. cbv beta in Hops.
  apply (safe_bind _ _ (fun o => forall c, o = Some c -> ctx_shape c /\ rq_moduli_64 c = firstn (length ms - 1) ms)).
  { destruct (2 <=? length ms)%nat eqn:E; [|intros c H; discriminate].
    eapply safe_bind; [apply IH; rewrite firstn_length; apply Nat.leb_le in E; lia|]. intros c Hc c' E'. injection E' as <-. exact Hc. }
  intros next Hn. apply safe_any; [auto with sf|]. intros ql.
  apply safe_any; [sf|]. intros invs. cbn [safe]. split; [|reflexivity].
  constructor; cbn; auto.
  - rewrite (rh_moduli _ Hr). congruence.
  - intros e He. apply (Hn e He).
  - intros e He. apply (Hn e He).
Qed.
Lemma sf_rq_new pr env ms d bd : Z.of_nat d < 2 ^ 64 -> safe (rq_new pr env ms d bd) (fun c => ctx_shape c /\ rq_moduli_64 c = ms).
Proof. intros Hd. apply sf_rq_new_fuel; auto. Qed.

Record poly_shape (p : Poly) : Prop := { ph_ctx : ctx_shape (p_ctx p); ph_len : length (p_rows p) = length (rq_moduli_64 (p_ctx p)) }.
Lemma cs_len c : ctx_shape c -> length (rq_moduli c) = length (rq_moduli_64 c).
Proof. inversion 1; auto. Qed.
Lemma zero_rows_len c : ctx_shape c -> length (zero_rows c) = length (rq_moduli_64 c).
Proof. intros H. unfold zero_rows. rewrite repeat_length. apply cs_len; auto. Qed.
Lemma ps_zero c r : ctx_shape c -> poly_shape (poly_zero c r).
Proof. intros H. split; cbn; auto. apply zero_rows_len; auto. Qed.

(** Every zip over a row array keeps the number of rows. *)
Lemma sf_zip_rows {B} (f : list Z -> B -> outcome (list Z)) c r rows bs :
  ctx_shape c -> length rows = length (rq_moduli_64 c) -> (forall x y, In x rows -> In y bs -> safe (f x y) any) ->
  safe (rows <- zipM_upd f rows bs ;; Ok (mkPoly c r rows)) poly_shape.
Proof.
  intros Hc Hl Hf. eapply safe_bind; [apply sf_zipM_upd; auto|]. intros rs Hrs. cbv beta in Hrs. split; cbn; auto. lia.
Qed.
Lemma sf_change_repr pr p r : poly_shape p -> safe (change_repr pr p r) poly_shape.
Proof.
  intros [Hc Hl]. unfold change_repr. inversion Hc as [c H1 H2 H3 H4 H5 H6 Ec]; subst c.
  destruct (p_repr p), r; try exact I; try (split; auto); apply sf_zip_rows; auto; intros x op _ Ho;
    rewrite Forall_forall in H4; [apply sf_ntt_forward|apply sf_ntt_backward]; auto.
Qed.
Lemma sf_subst_loop pr d m e : forall cnt pw, safe (subst_loop pr d m e pw cnt) any.
Proof. induction cnt as [|c IH]; intros; cbn [subst_loop]; [exact I|]. cbv zeta. apply safe_any; [sf|]. intros p. apply safe_any; [apply IH|]. intros; exact I. Qed.
#[export] Hint Resolve sf_subst_loop : sf.
Lemma sf_subst_step pr d pw j dst q src : safe (subst_pb_step pr d pw j dst q src) any. Proof. unfold subst_pb_step. cbv zeta. sf. Qed.
Lemma sf_subst_pb pr d e qs : forall cnt j pw rows, safe (subst_pb_loop pr d e qs cnt j pw rows) (fun r => length r = length rows).
Proof.
  induction cnt as [|c IH]; intros; cbn [subst_pb_loop]; [reflexivity|].
  eapply safe_bind; [apply sf_zipM_upd; intros; cbv beta; apply sf_subst_step|]. intros rs Hrs. cbv beta in Hrs.
  apply safe_any; [sf|]. intros pw'. rewrite <- Hrs. apply IH.
Qed.
Lemma sf_subst_new pr c e : safe (subst_new pr c e) any. Proof. sfu subst_new. Qed.
#[export] Hint Resolve sf_subst_new : sf.
Lemma sf_poly_substitute pr p a : poly_shape p -> safe (poly_substitute pr p a) poly_shape.
Proof.
  intros [Hc Hl]. unfold poly_substitute. cbv zeta. pose proof (zero_rows_len _ Hc).
  destruct (p_repr p).
  - eapply safe_bind; [apply sf_subst_pb|]. intros rs Hrs. cbv beta in Hrs. split; cbn; auto. lia.
  - apply sf_zip_rows; auto; intros; cbv beta; sf; unfold subst_ntt_row; sf.
  - apply sf_zip_rows; auto; intros; cbv beta; sf; unfold subst_ntt_row; sf.
Qed.
Lemma sf_msd_row pr q i s d p l : safe (msd_row pr q i s d p l) any. Proof. sfu msd_row. Qed.
#[export] Hint Resolve sf_msd_row : sf.
Lemma firstn_len_le {A} n (l : list A) : (n <= length l)%nat -> length (firstn n l) = n.
Proof. intros. rewrite firstn_length. lia. Qed.
Lemma sf_msd pr p : poly_shape p -> safe (mod_switch_down_next pr p) poly_shape.
Proof.
  intros [Hc Hl]. pose proof (cs_len _ Hc) as L. inversion Hc as [c H1 H2 H3 H4 H5 H6 Ec]; subst c. unfold mod_switch_down_next. cbv zeta.
  eapply safe_bind; [apply sf_unwrap|]. intros nx Hn. cbv beta in Hn. specialize (H5 _ Hn). specialize (H6 _ Hn).
  apply safe_any; [auto with sf|]. intros _. apply safe_any; [auto with sf|]. intros ql.
  eapply safe_bind; [apply sf_rassert|]. intros u E. cbv beta in E. apply Nat.leb_le in E.
  eapply safe_bind; [apply sf_mapM_len; intros; sf|]. intros lasts Hlast. cbv beta in Hlast.
  eapply safe_bind; [apply sf_zipM_upd; intros; cbv beta; auto with sf|]. intros rows Hr. cbv beta in Hr.
  eapply safe_bind; [apply sf_rassert|]. intros u' E'. cbv beta in E'. apply Nat.ltb_lt in E'.
  rewrite firstn_len_le in Hr by lia. rewrite skipn_length in Hlast.
  cbn [safe]. split; cbn [p_ctx p_rows]; auto. rewrite app_length, skipn_length, H6, firstn_len_le by lia. lia.
Qed.
Lemma sf_msd_iter pr : forall n p, poly_shape p -> safe (msd_iter pr n p) poly_shape.
Proof. induction n as [|n IH]; intros p H; cbn [msd_iter]; [exact H|]. eapply safe_bind; [apply sf_msd; auto|]. intros; apply IH; auto. Qed.
Lemma sf_mod_switch_to pr p c : poly_shape p -> safe (mod_switch_to pr p c) poly_shape.
Proof. intros H. unfold mod_switch_to. apply safe_any; [auto with sf|]. intros; apply sf_msd_iter; auto. Qed.
Lemma sf_poly_inverse pr p : poly_shape p -> safe (poly_inverse pr p) poly_shape.
Proof. intros [Hc Hl]. unfold poly_inverse. cbv zeta. apply sf_zip_rows; auto; [apply zero_rows_len; auto|]. intros; cbv beta; sf. Qed.
Lemma sf_poly_neg pr p : poly_shape p -> safe (poly_neg pr p) poly_shape.
Proof. intros [Hc Hl]. unfold poly_neg. cbv zeta. apply sf_zip_rows; auto; [apply zero_rows_len; auto|]. intros; cbv beta; sf. Qed.
Lemma sf_poly_from_u64 pr c a : ctx_shape c -> safe (poly_from_u64 pr c a) poly_shape.
Proof. intros Hc. unfold poly_from_u64. apply sf_zip_rows; auto; [apply zero_rows_len; auto|]. intros; cbv beta; sf. Qed.
Lemma sf_poly_from_i64 pr c a : ctx_shape c -> safe (poly_from_i64 pr c a) poly_shape.
Proof. intros Hc. unfold poly_from_i64. apply sf_zip_rows; auto; [apply zero_rows_len; auto|]. intros; cbv beta; sf. Qed.
Lemma sf_poly_from_bigint c a : ctx_shape c -> safe (poly_from_bigint c a) poly_shape.
Proof. intros Hc. unfold poly_from_bigint. apply sf_zip_rows; auto; [apply zero_rows_len; auto|]. intros; cbv beta; sf. Qed.
Lemma sf_poly_random_small pr c r v w : ctx_shape c -> safe (poly_random_small pr c r v w) poly_shape.
Proof.
  intros Hc. unfold poly_random_small. apply safe_any; [auto with sf|]. intros vs.
  eapply safe_bind; [apply sf_poly_from_i64; auto|]. intros p Hp. apply sf_change_repr; auto.
Qed.
Lemma sf_poly_add pr a b : poly_shape a -> safe (poly_add pr a b) poly_shape.
Proof. intros [Hc Hl]. unfold poly_add. do 2 (apply safe_any; [auto with sf|]; intros _). apply sf_zip_rows; auto. intros; cbv beta; sf. Qed.
Lemma sf_poly_sub pr a b : poly_shape a -> safe (poly_sub pr a b) poly_shape.
Proof. intros [Hc Hl]. unfold poly_sub. do 2 (apply safe_any; [auto with sf|]; intros _). apply sf_zip_rows; auto. intros; cbv beta; sf. Qed.
Lemma sf_poly_mul pr a b : poly_shape a -> safe (poly_mul pr a b) poly_shape.
Proof. intros [Hc Hl]. unfold poly_mul. do 2 (apply safe_any; [auto with sf|]; intros _). apply sf_zip_rows; auto. intros; cbv beta; sf. Qed.
Lemma sf_poly_mul_big pr a k : poly_shape a -> safe (poly_mul_big pr a k) poly_shape.
Proof.
  intros Ha. pose proof (ph_ctx _ Ha). unfold poly_mul_big. eapply safe_bind; [apply sf_poly_from_bigint; auto|]. intros r Hr.
  eapply safe_bind; [apply sf_change_repr; auto|]. intros r' Hr'. apply safe_any; [auto with sf|]. intros _. apply sf_poly_mul; auto.
Qed.
Lemma sf_column rows j : safe (column rows j) (fun c => length c = length rows).
Proof. apply sf_mapM_len. intros; auto with sf. Qed.
Lemma sf_column_any rows j : safe (column rows j) any.
Proof. eapply safe_to_any, sf_column. Qed.
#[export] Hint Resolve sf_column_any : sf.
Lemma sf_poly_to_big p : safe (poly_to_big p) any. Proof. sfu poly_to_big. Qed.
Lemma sf_poly_to_u64 p : safe (poly_to_u64 p) any. Proof. sfu poly_to_u64. Qed.
#[export] Hint Resolve sf_poly_to_big sf_poly_to_u64 : sf.
Lemma modulus_bits_big m : W63 <= modulus_bits m * 1.
Proof.
  unfold modulus_bits, leading_zeros, bitlen. pose proof (Z.log2_nonneg (mp m)).
  change W64 with 18446744073709551616. change W63 with 9223372036854775808. destruct (mp m =? 0); lia.
Qed.
Lemma sf_abd pr p : safe (apply_bit_decomposition pr p) any.
Proof.
  unfold apply_bit_decomposition. apply sf_foldM_any. intros _ [row q]. apply sf_foldM_any. intros _ [c v]. cbn [fst snd].
  apply safe_any; [|intros; auto with sf]. unfold decompose_bits, bit_vector, vec_repeat. pose proof (modulus_bits_big q).
  destruct (Z.ltb_spec (modulus_bits q * 1) W63); [lia|exact I].
Qed.

Lemma zlist_eqb_len : forall a b, zlist_eqb a b = true -> length a = length b.
Proof. induction a as [|x a IH]; intros [|y b] H; cbn in *; try discriminate; auto. apply andb_true_iff in H. f_equal. apply IH. tauto. Qed.
Lemma ctx_eqb_len a b : ctx_eqb a b = true -> length (rq_moduli_64 a) = length (rq_moduli_64 b).
Proof. unfold ctx_eqb. intros H. repeat (apply andb_true_iff in H; destruct H as [H ?]). apply zlist_eqb_len; auto. Qed.

Record rqs_shape (s : RqScaler) : Prop := {
  rqs_from : ctx_shape (sc_from s); rqs_to : ctx_shape (sc_to s);
  rqs_rns : scaler_shape (sc_rns s) (length (rq_moduli_64 (sc_from s))) (length (rq_moduli_64 (sc_to s))) }.
Lemma sf_rq_scaler_new pr a b f : ctx_shape a -> ctx_shape b -> safe (rq_scaler_new pr a b f) (fun s => rqs_shape s /\ sc_from s = a /\ sc_to s = b).
Proof.
  intros Ha Hb. unfold rq_scaler_new. apply safe_any; [auto with sf|]. intros _. cbv zeta.
  inversion Ha as [c H1 H2 H3 H4 H5 H6 Ec]; subst c. inversion Hb as [c G1 G2 G3 G4 G5 G6 Ec]; subst c.
  eapply safe_bind; [apply sf_rns_scaler_new; auto|]. intros s Hs. cbv beta in Hs. rewrite H3, G3 in Hs.
  cbn [safe]. split; [split; cbn; auto|split; reflexivity].
Qed.
Lemma sf_rq_scale_pb pr s p : rqs_shape s -> poly_shape p -> length (rq_moduli_64 (p_ctx p)) = length (rq_moduli_64 (sc_from s)) ->
  safe (rq_scale_pb pr s p) poly_shape.
Proof.
  intros [Hf Ht Hs] [Hc Hl] HE. unfold rq_scale_pb. cbv zeta. pose proof (cs_len _ Ht) as Lt.
  eapply safe_bind; [apply sf_rassert|]. intros u E. cbv beta in E. apply Nat.leb_le in E.
  eapply safe_bind; [apply sf_slice_to|]. intros top [Etop Htop].
  apply (safe_bind _ _ (fun b => length b = (length (rq_moduli (sc_to s)) - sc_common s)%nat)).
  - destruct (sc_common s <? length (rq_moduli_64 (sc_to s)))%nat; [|apply repeat_length].
    apply safe_any; [|intros outs; cbn [safe]; rewrite map_length, seq_length; auto].
    apply sf_mapM_any. intros j. eapply safe_bind; [apply sf_column|]. intros c Lc. cbv beta in Lc.
    eapply sf_rns_scale; eauto; lia.
  - intros b Hb. cbv beta in Hb. subst top. cbn [safe]. split; cbn [p_ctx p_rows]; auto.
    rewrite app_length, firstn_len_le by auto. lia.
Qed.
Lemma sf_rq_scale pr s p : rqs_shape s -> poly_shape p -> safe (rq_scale pr s p) poly_shape.
Proof.
  intros Hs Hp. unfold rq_scale. eapply safe_bind; [apply sf_rassert|]. intros u E. cbv beta in E. apply ctx_eqb_len in E.
  assert (G : forall r, safe (tmp <- change_repr pr p PowerBasis ;; t <- rq_scale_pb pr s tmp ;; change_repr pr t r) poly_shape).
  { intros r. eapply safe_bind; [eapply safe_and; [apply sf_change_repr; auto|]|].
    - instantiate (1 := fun q => p_ctx q = p_ctx p). unfold change_repr.
      destruct (change_repr pr p PowerBasis) eqn:Ec; pose proof (sf_change_repr pr p PowerBasis Hp) as S; rewrite Ec in S;
        unfold change_repr in Ec; rewrite Ec; try exact S; try exact I.
      cbn [safe]. destruct (p_repr p); try discriminate; [injection Ec as <-; auto|].
      destruct (zipM_upd _ _ _); try discriminate. injection Ec as <-. reflexivity.
    - intros tmp [Ht Ect]. eapply safe_bind; [apply sf_rq_scale_pb; auto; congruence|]. intros t Hst. apply sf_change_repr; auto. }
  destruct (p_repr p); [apply sf_rq_scale_pb; auto|apply G|apply G].
Qed.
