(** Claim C83: the operators of BFV ciphertexts, once their defects are repaired. *)
From Verif Require Import PBase NT Spec PSum MModulus MUtils MNtt MRns MRq MBfv MKsk MGalois MFix2 PModulus PUtils PNttMath PNtt PNttNew PCrt PRns PRnsScale PUtils2 SpecRq SpecBfv SpecKsk SpecFix PRing PRq PRq2 PRq3 PRq4 PRq5 QRq PBfv PBfv2 PBfv3 QBfv PKsk PGal PRingT PMul PMul2 QMulOp PFix TestEnv TestBfv.

Section Zip.
Variables (pr : profile) (c : RqContext).
Hypothesis W : wf_loc c.

Fixpoint fzip (f : Z -> Z -> Z) (a b : list (nat -> Z)) : list (nat -> Z) :=
  match a, b with
  | [], _ => map (fun y j => f 0 (y j)) b
  | _, [] => a
  | x :: a', y :: b' => (fun j => f (x j) (y j)) :: fzip f a' b'
  end.
Lemma zip_add a b : zip_long (poly_add pr) (fun p => Ok p) (map (rep c Ntt) a) (map (rep c Ntt) b) = Ok (map (rep c Ntt) (fzip Z.add a b)).
Proof.
  revert b. induction a as [|x a IH]; intros [|y b]; cbn [map zip_long fzip mapM]; auto.
  - cbn [bind]. rewrite map_map. clear. assert (E : forall l, mapM (fun p => Ok p) (map (rep c Ntt) l) = Ok (map (fun y => rep c Ntt (fun j => 0 + y j)) l)).
    { induction l as [|z l IH]; [reflexivity|]. cbn [map mapM bind]. rewrite IH. reflexivity. }
    rewrite E. reflexivity.
  - rewrite rep_add by auto. cbn [bind]. rewrite IH. reflexivity.
Qed.
Lemma zip_sub a b : zip_long (poly_sub pr) (poly_neg pr) (map (rep c Ntt) a) (map (rep c Ntt) b) = Ok (map (rep c Ntt) (fzip Z.sub a b)).
Proof.
  revert b. induction a as [|x a IH]; intros [|y b]; cbn [map zip_long fzip mapM]; auto.
  - assert (E : forall l, mapM (poly_neg pr) (map (rep c Ntt) l) = Ok (map (rep c Ntt) (map (fun y j => 0 - y j) l))).
    { induction l as [|z l IH]; [reflexivity|]. cbn [map mapM]. rewrite rep_neg by auto. cbn [bind]. rewrite IH. reflexivity. }
    apply (E (y :: b)).
  - rewrite rep_sub by auto. cbn [bind]. rewrite IH. reflexivity.
Qed.
End Zip.

Lemma fzip_len f a b : length (fzip f a b) = max (length a) (length b).
Proof. revert b. induction a as [|x a IH]; intros [|y b]; cbn [fzip length max]; rewrite ?map_length; auto. Qed.
Lemma phase_fzip_add n s a b j : phase n s (fzip Z.add a b) j = phase n s a j + phase n s b j.
Proof.
  revert b j. induction a as [|x a IH]; intros [|y b] j; cbn [fzip]; [reflexivity| |cbn [phase]; ring|cbn [phase]].
  - assert (E : forall l i, phase n s (map (fun (y : nat -> Z) j => 0 + y j) l) i = phase n s l i).
    { induction l as [|z l IHl]; intros i; [reflexivity|]. cbn [map phase]. rewrite (rmul_ext n s s _ (phase n s l)); auto. }
    rewrite (E (y :: b)). cbn [phase]. ring.
  - rewrite (rmul_ext n s s (phase n s (fzip Z.add a b)) (fun j => phase n s a j + phase n s b j)); auto. rewrite rmul_add_r. ring.
Qed.
Lemma phase_fzip_sub n s a b j : phase n s (fzip Z.sub a b) j = phase n s a j - phase n s b j.
Proof.
  revert b j. induction a as [|x a IH]; intros [|y b] j; cbn [fzip]; [reflexivity| |cbn [phase]; ring|cbn [phase]].
  - assert (E : forall l i, phase n s (map (fun (y : nat -> Z) j => 0 - y j) l) i = - phase n s l i).
    { induction l as [|z l IHl]; intros i; [reflexivity|]. cbn [map phase]. rewrite (rmul_ext n s s _ (fun j => - phase n s l j)); auto. rewrite rmul_opp_r. ring. }
    rewrite (E (y :: b)). cbn [phase]. ring.
  - rewrite (rmul_ext n s s (phase n s (fzip Z.sub a b)) (fun j => phase n s a j - phase n s b j)); auto. rewrite rmul_sub_r. ring.
Qed.

(** Sums and differences of ciphertexts of any numbers of components. *)
Lemma C83_sum_lem :
  forall pr P i c fs gs, built_params P -> level P i c ->
    (exists h, ct_add_fixed pr (ct_of P i c fs) (ct_of P i c gs) = Ok (ct_of P i c h) /\ length h = max (length fs) (length gs)
       /\ forall s j, phase (bp_degree P) s h j = phase (bp_degree P) s fs j + phase (bp_degree P) s gs j)
    /\ (exists h, ct_sub_fixed pr (ct_of P i c fs) (ct_of P i c gs) = Ok (ct_of P i c h) /\ length h = max (length fs) (length gs)
       /\ forall s j, phase (bp_degree P) s h j = phase (bp_degree P) s fs j - phase (bp_degree P) s gs j).
Proof.
  intros pr P i c fs gs B L. pose proof (built_params_wf P B) as WB. destruct (level_wf P i c WB L) as [Hi LV].
  pose proof (wf_ctx_loc _ (lv_wf _ _ _ LV)) as W. split.
  - exists (fzip Z.add fs gs). split; [|split; [apply fzip_len|intros; apply phase_fzip_add]].
    unfold ct_add_fixed, ct_of. cbn [ct_params ct_level ct_cts]. rewrite params_eqb_refl, Nat.eqb_refl. cbn [rassert bind]. rewrite (zip_add pr c W). reflexivity.
  - exists (fzip Z.sub fs gs). split; [|split; [apply fzip_len|intros; apply phase_fzip_sub]].
    unfold ct_sub_fixed, ct_of. cbn [ct_params ct_level ct_cts]. rewrite params_eqb_refl, Nat.eqb_refl. cbn [rassert bind]. rewrite (zip_sub pr c W). reflexivity.
Qed.

(** Adding a polynomial adds it to the phase and keeps the other components. *)
Lemma C83_add_poly_lem :
  forall pr P i c f0 fs h, built_params P -> level P i c ->
    exists g0, ct_add_poly_fixed pr (ct_of P i c (f0 :: fs)) (rep c Ntt h) = Ok (ct_of P i c (g0 :: fs))
      /\ forall s j, phase (bp_degree P) s (g0 :: fs) j = phase (bp_degree P) s (f0 :: fs) j + h j.
Proof.
  intros pr P i c f0 fs h B L. pose proof (built_params_wf P B) as WB. destruct (level_wf P i c WB L) as [Hi LV].
  pose proof (wf_ctx_loc _ (lv_wf _ _ _ LV)) as W. exists (fun j => f0 j + h j). split.
  - unfold ct_add_poly_fixed, ct_of. cbn [ct_params ct_level ct_cts map get nth_error bind p_ctx rep tl].
    fold (rep c Ntt f0). fold (rep c Ntt h). rewrite ctx_eqb_refl. cbn [rassert bind]. rewrite rep_add by auto. cbn [bind]. reflexivity.
  - intros s j. cbn [phase]. ring.
Qed.

(** Encryption at any level round-trips. *)
Lemma C83_encrypt_lem :
  forall pr P i c sk pt rows w,
    built_params P -> level P i c -> sk_params sk = P -> sk_ok sk ->
    pt_params pt = P -> pt_level pt = i -> Forall (fun x => 0 <= x < 2 ^ 64) (pt_values pt) ->
    (length (pt_values pt) <= bp_degree P)%nat ->
    wf_poly (mkPoly c Ntt rows) -> (forall k, 0 <= w k < 2 ^ 64) ->
    1 <= bp_variance P <= 16 -> small_basis (rq_moduli_64 c) -> 2 * bp_t P <= cx_q c 0 ->
    2 ^ 54 * (2 * bp_t P * (2 * bp_variance P + 2)) <= (2 ^ 54 - 1) * cx_Q c ->
    exists ct, encrypt_fixed pr sk pt rows w = Ok ct /\ ct_params ct = P /\ ct_level ct = i
      /\ decrypt pr sk ct = Ok (mkPt P i EncNone (map (fun j => nth j (pt_values pt) 0 mod bp_t P) (seq 0 (bp_degree P)))).
Proof.
  intros pr P i c sk pt rows w B L SP SK PP PL H64 Hl WR Hw Hv SB Hq HB.
  destruct (C46_actual_lem pr P i c sk pt rows w B L SP SK PP PL H64 Hl WR Hw Hv SB Hq HB) as [ct [E [E1 [E2 E3]]]].
  unfold encrypt in E. apply bind_inv in E. destruct E as [p [EP E]].
  exists (mkCt P (ct_cts ct) i). split; [|split; [reflexivity|split; [reflexivity|exact E3]]].
  unfold encrypt_fixed. rewrite EP. cbn [bind]. rewrite E. cbn [bind]. rewrite E1, PL. reflexivity.
Qed.

(** Accumulating a table of entries along its antidiagonals. *)
Section Table2.
Variables (step : list Poly -> nat * nat -> outcome (list Poly)) (ec : RqContext) (n : nat) (e : nat -> nat -> nat -> Z).
Variables (la lb : nat).
Hypothesis W : wf_loc ec.
Let N := (la + lb - 1)%nat.
Hypothesis ST : forall (h : nat -> nat -> Z) a b, (a < la)%nat -> (b < lb)%nat ->
  step (map (fun k => rep ec Ntt (h k)) (seq 0 N)) (a, b)
  = set (map (fun k => rep ec Ntt (h k)) (seq 0 N)) (a + b) (rep ec Ntt (fun j => h (a + b)%nat j + e a b j)).

Lemma acc_row a h m : (a < la)%nat -> (m <= lb)%nat ->
  foldM step (map (pair a) (seq 0 m)) (map (fun k => rep ec Ntt (h k)) (seq 0 N))
  = Ok (map (fun k => rep ec Ntt (fun j => h k j + if ((a <=? k) && (k <? a + m))%nat then e a (k - a)%nat j else 0)) (seq 0 N)).
Proof.
  intros Ha. induction m as [|m IH]; intros Hm.
  - cbn [seq map foldM]. f_equal. apply map_seq_ext. intros k Hk.
    destruct (Nat.leb_spec a k); destruct (Nat.ltb_spec k (a + 0)); cbn [andb]; try lia; apply (rep_ext ec W); intros; ring.
  - rewrite seq_S, map_app, foldM_app, IH by lia. cbn [bind map foldM].
    rewrite (ST (fun k j => h k j + if ((a <=? k) && (k <? a + m))%nat then e a (k - a)%nat j else 0)) by lia.
    rewrite set_ok by (rewrite map_length, seq_length; unfold N; lia). cbn [bind plus]. rewrite upd_map_seq by (unfold N; lia).
    f_equal. apply map_seq_ext. intros k Hk.
    destruct (Nat.eqb_spec k (a + m)) as [->|E].
    + apply (rep_ext ec W). intros j Hj.
      destruct (Nat.leb_spec a (a + m)); destruct (Nat.ltb_spec (a + m) (a + m)); destruct (Nat.ltb_spec (a + m) (a + S m)); cbn [andb]; try lia.
      replace (a + m - a)%nat with m by lia. ring.
    + apply (rep_ext ec W). intros j Hj.
      destruct (Nat.leb_spec a k); destruct (Nat.ltb_spec k (a + m)); destruct (Nat.ltb_spec k (a + S m)); cbn [andb]; auto; lia.
Qed.

Lemma acc_rows m : (m <= la)%nat ->
  foldM step (list_prod (seq 0 m) (seq 0 lb)) (map (fun _ => rep ec Ntt (fun _ => 0)) (seq 0 N))
  = Ok (map (fun k => rep ec Ntt (conv_at n m lb e k)) (seq 0 N)).
Proof.
  intros Hm. induction m as [|m IH].
  - cbn [seq list_prod foldM]. f_equal. 
  - assert (EL : list_prod (seq 0 (S m)) (seq 0 lb) = list_prod (seq 0 m) (seq 0 lb) ++ map (pair m) (seq 0 lb)).
    { rewrite seq_S. change (0 + m)%nat with m. generalize (seq 0 m). intros l. induction l as [|x l IHl]; cbn [app list_prod plus].
      - rewrite app_nil_r. reflexivity.
      - rewrite IHl, app_assoc. reflexivity. }
    rewrite EL, foldM_app, IH by lia. cbn [bind]. rewrite (acc_row m (conv_at n m lb e)) by lia. f_equal.
Qed.
End Table2.

Local Notation big := 18014398509481984. (* 2^54 *)

(** The product of ciphertexts of any numbers of components carries the product of
    the messages. *)
Lemma C83_product_lem :
  forall pr P i c ec s fs gs m m' E E' B S,
    built_params P -> level P i c -> get (bp_e_ctxs P) i = Ok ec ->
    small_basis (rq_moduli_64 c) -> small_basis (rq_moduli_64 ec) ->
    let n := bp_degree P in let Q := cx_Q c in let t := bp_t P in
    fs <> [] -> gs <> [] -> Z.of_nat (length fs + length gs) <= 2 ^ 50 ->
    Z.of_nat (length fs) * Z.of_nat n * (Q * Q) <= cx_Q ec ->
    l1norm n s <= S -> powsum S (length fs) < 2 ^ 55 -> powsum S (length gs) < 2 ^ 55 -> 0 <= B <= Q ->
    carries n Q t (phase n s fs) m E -> carries n Q t (phase n s gs) m' E' ->
    (forall j, (j < n)%nat -> 0 <= m j < t) -> (forall j, (j < n)%nat -> 0 <= m' j < t) ->
    (forall j, (j < n)%nat -> Z.abs (E j) <= B) -> (forall j, (j < n)%nat -> Z.abs (E' j) <= B) ->
    exists ds E'',
      ct_mul_fixed pr (ct_of P i c fs) (ct_of P i c gs) = Ok (ct_of P i c ds)
      /\ length ds = (length fs + length gs - 1)%nat
      /\ carries n Q t (phase n s ds) (rmul n m m') E''
      /\ forall j, (j < n)%nat -> Z.abs (E'' j) <= mul_noise_gen n t B S (length fs) (length gs).
Proof.
  intros pr P i c ec s fs gs m m' E E' B S BP L GE SB SE n Q t Hf Hg HL HE HS Pa Pb HB CF CG Hm Hm' BE BE'.
  pose proof (built_params_wf P BP) as WB. destruct (level_wf P i c WB L) as [_ LV].
  destruct (lv_mu _ _ _ LV) as [mu [e [ext [Gm [Ge [_ [Mt [We [_ [De [_ [Up Dn]]]]]]]]]]]].
  rewrite GE in Ge. apply Ok_inj in Ge. subst e. specialize (Up SB pr). specialize (Dn SE pr).
  pose proof (wf_ctx_loc _ We) as WE. pose proof (wf_ctx_loc _ (lv_wf _ _ _ LV)) as W.
  pose proof (cx_n8 c W) as Hn8. pose proof (cx_Q1 c W) as HQ. fold Q in HQ. pose proof (cx_Q1 ec WE) as HQE.
  pose proof (wf_t17 P WB) as Rt. fold t in Rt. rewrite (lv_n _ _ _ LV) in Hn8. fold n in Hn8, De.
  assert (Hn : (0 < n)%nat) by lia.
  set (lift := scale_fun (mu_up mu) c 1 1).
  set (la := length fs) in *. set (lb := length gs) in *.
  assert (Hla : (1 <= la)%nat) by (unfold la; destruct fs; [congruence|cbn [length]; lia]).
  assert (Hlb : (1 <= lb)%nat) by (unfold lb; destruct gs; [congruence|cbn [length]; lia]).
  set (F := fun a => lift (nth a fs (fun _ => 0))). set (G := fun b => lift (nth b gs (fun _ => 0))).
  set (pp := fun a b => rmul n (F a) (G b)).
  set (D := fun k => scale_fun (mu_down mu) ec t Q (conv_at n la lb pp k)).
  assert (UP : forall f j, eqm Q (lift f j) (f j) /\ 4 * big * Z.abs (lift f j) <= (2 * big + 1) * Q).
  { intros f j. apply up_coeff. apply (scale_fun_spec pr 68 (mu_up mu) c ec 1 1 W Up). }
  assert (DN : forall f j, 9 * Z.abs (f j) <= 4 * cx_Q ec -> 2 * big * Z.abs (Q * scale_fun (mu_down mu) ec t Q f j - t * f j) <= (big + 1) * Q).
  { intros f j Hff. apply down_coeff with (cx_Q ec); auto; [lia..|]. apply (scale_fun_spec pr 68 (mu_down mu) ec c t Q WE Dn). }
  set (ds := map D (seq 0 (la + lb - 1))).
  assert (LF : map F (seq 0 la) = map lift fs).
  { unfold F. rewrite <- (map_map (fun a => nth a fs (fun _ => 0)) lift). f_equal. apply phase_nth. }
  assert (LG : map G (seq 0 lb) = map lift gs).
  { unfold G. rewrite <- (map_map (fun a => nth a gs (fun _ => 0)) lift). f_equal. apply phase_nth. }
  assert (PL : forall l j, (j < n)%nat -> eqm Q (phase n s (map lift l) j) (phase n s l j)).
  { induction l as [|f l IH]; intros j Hj; [reflexivity|]. cbn [map phase]. apply eqm_add; [apply UP|]. apply rmul_eqm; [intros; reflexivity|]. auto. }
  assert (CV : forall x y a b, (forall j, (j < n)%nat -> eqm Q (x j) (y j)) -> carries n Q t y a b -> carries n Q t x a b).
  { intros x y a b HXY HC j Hj. rewrite <- (HC j Hj). specialize (HXY j Hj). apply eqm_divide in HXY; [|lia]. destruct HXY as [z Z1].
    replace (t * x j) with (t * y j + z * (t * Q)) by (replace (x j) with (y j + z * Q) by lia; ring). apply eqm_add_mult. }
  assert (PB : forall l j, (j < n)%nat -> 4 * big * Z.abs (phase n s (map lift l) j) <= powsum S (length l) * ((2 * big + 1) * Q)).
  { intros l j Hj. rewrite <- (map_length lift l). apply (phase_bound_q n Hn S s HS); auto; [lia..|].
    intros f Hin k Hk. apply in_map_iff in Hin. destruct Hin as [g [<- _]]. apply UP. }
  assert (DB : forall k j, (j < n)%nat -> 2 * big * Z.abs (Q * D k j - t * conv_at n la lb pp k j) <= (big + 1) * Q).
  { intros k j Hj. apply DN. eapply Z.le_trans; [apply (conv_bound n la lb pp k j (4 * (Z.of_nat n * (Q * Q))))|].
    - pose proof (Z.mul_nonneg_nonneg (Z.of_nat n) (Q * Q) ltac:(lia) ltac:(apply Z.mul_nonneg_nonneg; lia)). lia.
    - intros a b. apply prod_small; auto; [lia| |]; intros k' Hk'; apply UP.
    - replace (Z.of_nat la * (4 * (Z.of_nat n * (Q * Q)))) with (4 * (Z.of_nat la * Z.of_nat n * (Q * Q))) by ring. lia. }
  pose proof (powsum_nonneg n Hn S s HS) as PN.
  destruct (mul_carries_gen n Hn Q t B ltac:(lia) ltac:(lia) HB (phase n s (map lift fs)) (phase n s (map lift gs)) (phase n s ds) m m' E E'
    (powsum S la) (powsum S lb) (powsum S (la + lb - 1))) as [E2 [C2 B2]]; auto.
  { intros j Hj. apply (PB fs j Hj). }
  { intros j Hj. apply (PB gs j Hj). }
  { eapply CV; [|exact CF]. intros; apply PL; auto. }
  { eapply CV; [|exact CG]. intros; apply PL; auto. }
  { intros j Hj. rewrite <- LF, <- LG. pose proof (phase_conv n Hn s F G la lb (la + lb - 1) ltac:(lia) j Hj) as PC.
    fold pp in PC. rewrite <- PC. set (R := fun k j => Q * D k j - t * conv_at n la lb pp k j).
    replace (Q * phase n s ds j - t * phase n s (map (conv_at n la lb pp) (seq 0 (la + lb - 1))) j) with (phase n s (map R (seq 0 (la + lb - 1))) j).
    - pose proof (phase_bound_q n Hn S s HS (map R (seq 0 (la + lb - 1))) ((big + 1) * Q) (2 * big) j Hj ltac:(lia) ltac:(lia)) as H.
      rewrite map_length, seq_length in H. apply H. intros f Hin k Hk. apply in_map_iff in Hin. destruct Hin as [x [<- _]]. apply DB; auto.
    - unfold ds. generalize (seq 0 (la + lb - 1)). intros l. revert j Hj PC. clear. intros j Hj _. revert j Hj.
      induction l as [|k l IH]; intros j Hj; cbn [map phase]; [ring|].
      rewrite (rmul_ext n s s (phase n s (map R l)) (fun j => Q * phase n s (map D l) j - t * phase n s (map (conv_at n la lb pp) l) j)); auto.
      rewrite rmul_sub_r, !rmul_scal_r. unfold R. ring. }
  exists ds, E2. split; [|split; [unfold ds; rewrite map_length, seq_length; reflexivity|split; [exact C2|exact B2]]].
  unfold ct_mul_fixed. cbn [ct_of ct_params ct_level ct_cts]. rewrite Nat.eqb_refl. cbn [rassert bind]. rewrite Gm. cbn [bind].
  rewrite !(mapM_scale pr (mu_up mu) c ec 1 1 _ W WE Up). cbn [bind]. fold lift.
  rewrite !map_length. fold la lb. change (2 ^ 50) with 1125899906842624 in HL.
  unfold sub64, chk. replace ((0 <=? Z.of_nat (la + lb) - 1) && (Z.of_nat (la + lb) - 1 <? W64)) with true.
  2:{ symmetry. apply andb_true_intro. split; [apply Z.leb_le|apply Z.ltb_lt]; change W64 with 18446744073709551616; lia. }
  cbn [bind]. unfold vec_repeat. replace ((Z.of_nat (la + lb) - 1) * 80 <? W63) with true.
  2:{ symmetry. apply Z.ltb_lt. change W63 with 9223372036854775808. lia. }
  cbn [bind]. replace (Z.to_nat (Z.of_nat (la + lb) - 1)) with (la + lb - 1)%nat by lia.
  rewrite repeat_seq, Mt, (rep_zero ec WE). rewrite (acc_rows _ ec n pp la lb WE).
  2:{ intros h a b Ha Hb. cbn [fst snd].
      rewrite (get_ok _ a (rep ec Ntt (lift (fun _ => 0)))) by (rewrite map_length; auto).
      rewrite (map_nth (fun f => rep ec Ntt (lift f))). cbn [bind].
      rewrite (get_ok _ b (rep ec Ntt (lift (fun _ => 0)))) by (rewrite map_length; auto).
      rewrite (map_nth (fun f => rep ec Ntt (lift f))). cbn [bind].
      rewrite (rep_mul pr ec WE). cbn [bind]. rewrite De.
      rewrite (get_ok _ (a + b)%nat (rep ec Ntt (fun _ => 0))) by (rewrite map_length, seq_length; lia).
      rewrite nth_map_seq by lia. cbn [bind]. rewrite (rep_add pr ec WE). cbn [bind]. reflexivity. }
  2: lia.
  cbn [bind]. rewrite <- (map_map (conv_at n la lb pp) (rep ec Ntt)).
  rewrite (mapM_scale pr (mu_down mu) ec c t Q _ WE W Dn). cbn [bind]. unfold ct_of, ds. rewrite !map_map. reflexivity.
Qed.

(** It decrypts to that product when the noise fits. *)
Lemma C83_decrypts_lem :
  forall pr P i c ec sk fs gs m m' E E' B S,
    built_params P -> level P i c -> get (bp_e_ctxs P) i = Ok ec ->
    small_basis (rq_moduli_64 c) -> small_basis (rq_moduli_64 ec) -> sk_params sk = P -> sk_ok sk ->
    let n := bp_degree P in let Q := cx_Q c in let t := bp_t P in
    2 * t <= cx_q c 0 ->
    fs <> [] -> gs <> [] -> Z.of_nat (length fs + length gs) <= 2 ^ 50 ->
    Z.of_nat (length fs) * Z.of_nat n * (Q * Q) <= cx_Q ec ->
    l1norm n (sk_fun sk) <= S -> powsum S (length fs) < 2 ^ 55 -> powsum S (length gs) < 2 ^ 55 -> 0 <= B <= Q ->
    carries n Q t (phase n (sk_fun sk) fs) m E -> carries n Q t (phase n (sk_fun sk) gs) m' E' ->
    (forall j, (j < n)%nat -> 0 <= m j < t) -> (forall j, (j < n)%nat -> 0 <= m' j < t) ->
    (forall j, (j < n)%nat -> Z.abs (E j) <= B) -> (forall j, (j < n)%nat -> Z.abs (E' j) <= B) ->
    2 ^ 54 * (2 * mul_noise_gen n t B S (length fs) (length gs)) <= (2 ^ 54 - 1) * Q ->
    exists d, ct_mul_fixed pr (ct_of P i c fs) (ct_of P i c gs) = Ok d
      /\ decrypt pr sk d = Ok (mkPt P i EncNone (map (fun j => rmul n m m' j mod t) (seq 0 n))).
Proof.
  intros pr P i c ec sk fs gs m m' E E' B S BP L GE SB SE SP SK n Q t Hq Hf Hg HL HE HS Pa Pb HB CF CG Hm Hm' BE BE' HN.
  destruct (C83_product_lem pr P i c ec (sk_fun sk) fs gs m m' E E' B S BP L GE SB SE Hf Hg HL HE HS Pa Pb HB CF CG Hm Hm' BE BE') as [ds [E2 [EM [LD [C2 B2]]]]].
  eexists. split; [exact EM|]. apply (C31_decrypt_lem pr P i c sk ds (rmul n m m') E2); auto.
  - intros ->. cbn [length] in LD. destruct fs; [congruence|]. destruct gs; [congruence|]. cbn [length] in LD. lia.
  - intros j Hj. fold n in Hj. specialize (B2 j Hj). unfold noise_ok. fold Q. change (2 ^ 54) with big in *.
    pose proof (built_params_wf P BP) as WB. destruct (level_wf P i c WB L) as [_ LV]. pose proof (Q_pos P i c LV) as RQ. fold Q in RQ.
    revert B2 HN RQ. fold n t Q. generalize (mul_noise_gen n t B S (length fs) (length gs)) (E2 j). generalize Q. clear. intros. lia.
Qed.

(** For two operands of two components the bound is that of [multiply1] before
    relinearization. *)
Lemma C83_noise_lem : forall n t B S, mul_noise_gen n t B S 2 2 = mul_noise n t B S.
Proof.
  intros n t B S. unfold mul_noise_gen, mul_noise. cbn [powsum plus Nat.sub].
  replace (1 + S * (1 + S * 0) + (1 + S * (1 + S * 0))) with ((S + 1) * 2) by ring. rewrite Z.div_mul by lia. ring.
Qed.

(** Where the code is right the repaired operators agree with it. *)
Lemma C83_agree_lem :
  forall pr P i c, built_params P -> level P i c ->
    (forall f0 f1 g0 g1,
       ct_add_fixed pr (ct_of P i c [f0; f1]) (ct_of P i c [g0; g1]) = ct_add pr (ct_of P i c [f0; f1]) (ct_of P i c [g0; g1])
       /\ ct_sub_fixed pr (ct_of P i c [f0; f1]) (ct_of P i c [g0; g1]) = ct_sub pr (ct_of P i c [f0; f1]) (ct_of P i c [g0; g1]))
    /\ forall sk pt rows w, pt_level pt = 0%nat -> encrypt_fixed pr sk pt rows w = encrypt pr sk pt rows w.
Proof.
  intros pr P i c B L. pose proof (built_params_wf P B) as WB. destruct (level_wf P i c WB L) as [Hi LV].
  pose proof (wf_ctx_loc _ (lv_wf _ _ _ LV)) as W. split.
  - intros f0 f1 g0 g1. unfold ct_add_fixed, ct_sub_fixed, ct_add, ct_sub, ct_of. cbn [ct_params ct_level ct_cts map].
    rewrite params_eqb_refl, Nat.eqb_refl. cbn [rassert bind get nth_error zip_long mapM]. rewrite !rep_add, !rep_sub by auto. cbn [bind]. split; reflexivity.
  - intros sk pt rows w H. unfold encrypt_fixed, encrypt. destruct (pt_to_poly pr pt) as [p| | |]; cbn [bind]; auto.
    destruct (encrypt_poly pr sk p rows w) as [ct| | |] eqn:E; cbn [bind]; auto. rewrite H.
    unfold encrypt_poly in E. repeat (apply bind_inv in E; destruct E as [? [_ E]]). apply Ok_inj in E. subst ct. reflexivity.
Qed.

(*EXAMPLE
(** The square of 2 + 3X, which the code gets wrong (C35), and a sum of 3 and 2 components. *)
Example C83_example :
  (P <- test_bfv Release ;; let sk := mkSk P [1; -1; 0; 1; 1; 0; 2; -1] in
   pa <- pt_new Release P [2; 3] 0 EncPoly ;;
   a <- encrypt_fixed Release sk pa (trows bms 4) (tw 5) ;;
   m <- ct_mul_fixed Release a a ;; d <- decrypt Release sk m ;;
   s <- ct_add_fixed Release m a ;; d2 <- decrypt Release sk s ;;
   Ok (length (ct_cts m), pt_values d, pt_values d2)) = Ok (3%nat, [4; 12; 9; 0; 0; 0; 0; 0], [6; 15; 9; 0; 0; 0; 0; 0]).
Proof. vm_compute. reflexivity. Qed.
EXAMPLE*)
