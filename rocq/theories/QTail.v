(** Claim C81: how large weighted sums of binomial samples typically are, and with
    them the noise of key switching. *)
From Verif Require Import PBase NT Spec SpecProb SpecTail PSum MModulus MUtils MNtt MRns MRq MBfv MKsk MGalois MRgsw MEval MCirc MRgswT MTests SpecCirc SpecDef PModulus PUtils PNttMath PNtt PNttNew PCrt PRns PRnsScale PUtils2 SpecRq SpecBfv SpecKsk PRing PRingT PRq PRq2 PRq3 PRq4 PRq5 TestEnv QRq PBfv PBfv2 PBfv3 PBfv4 PBfv5 QBfv PMul PKsk PKsk2 PGal QKsk PDefData PDef QDef QTests QProb QPvwProb TestBfv.

(** ** Odd powers *)
Lemma odd_mono u v (k : nat) : 0 <= (u - v) * (u ^ (2 * Z.of_nat k + 1) - v ^ (2 * Z.of_nat k + 1)).
Proof.
  induction k as [|k IH]; [change (2 * Z.of_nat 0 + 1) with 1; rewrite !Z.pow_1_r; apply Z.square_nonneg|].
  set (m := 2 * Z.of_nat k + 1) in *. assert (Hm : 0 <= m) by lia.
  replace (2 * Z.of_nat (S k) + 1) with (m + 2) by lia.
  assert (Eu : forall x, x ^ (m + 1) = (x ^ (Z.of_nat k + 1)) ^ 2) by (intros x; rewrite <- Z.pow_mul_r by lia; f_equal; lia).
  assert (Pu : forall x, 0 <= x ^ (m + 1)) by (intros x; rewrite Eu; apply Z.pow_even_nonneg; exists 1; reflexivity).
  assert (Ex : forall x, x ^ (m + 2) = x * x ^ (m + 1)) by (intros x; replace (m + 2) with (Z.succ (m + 1)) by lia; apply Z.pow_succ_r; lia).
  assert (Ey : forall x, x ^ (m + 1) = x * x ^ m) by (intros x; replace (m + 1) with (Z.succ m) by lia; apply Z.pow_succ_r; lia).
  destruct (Z.le_gt_cases 0 (u * v)) as [P|P].
  - replace (u ^ (m + 2) - v ^ (m + 2)) with ((u - v) * (u ^ (m + 1) + v ^ (m + 1)) + u * v * (u ^ m - v ^ m)) by (rewrite !Ex, !Ey; ring).
    replace ((u - v) * ((u - v) * (u ^ (m + 1) + v ^ (m + 1)) + u * v * (u ^ m - v ^ m)))
      with ((u - v) * (u - v) * (u ^ (m + 1) + v ^ (m + 1)) + u * v * ((u - v) * (u ^ m - v ^ m))) by ring.
    apply Z.add_nonneg_nonneg; apply Z.mul_nonneg_nonneg; auto; [apply Z.square_nonneg|]. apply Z.add_nonneg_nonneg; apply Pu.
  - rewrite !Ex. specialize (Pu u) as A. specialize (Pu v) as B. set (a := u ^ (m + 1)) in *. set (b := v ^ (m + 1)) in *. clearbody a b.
    replace ((u - v) * (u * a - v * b)) with (u * u * a + v * v * b + (- (u * v)) * (a + b)) by ring. clear - P A B. nia.
Qed.
Lemma odd_trapezoid u v (k : nat) :
  2 * ((u - v) * (u ^ (2 * Z.of_nat k + 1) - v ^ (2 * Z.of_nat k + 1))) <= (2 * Z.of_nat k + 1) * ((u - v) * (u - v)) * (u ^ (2 * Z.of_nat k) + v ^ (2 * Z.of_nat k)).
Proof.
  induction k as [|k IH]; [change (2 * Z.of_nat 0 + 1) with 1; change (2 * Z.of_nat 0) with 0; rewrite !Z.pow_1_r, !Z.pow_0_r; lia|].
  pose proof (odd_mono u v k) as X. set (m := 2 * Z.of_nat k + 1) in *. assert (Hm : 1 <= m) by lia.
  replace (2 * Z.of_nat (S k) + 1) with (m + 2) by lia. replace (2 * Z.of_nat (S k)) with (m + 1) by lia. replace (2 * Z.of_nat k) with (m - 1) in IH by lia.
  assert (Eu : forall x, x ^ (m + 1) = (x ^ (Z.of_nat k + 1)) ^ 2) by (intros x; rewrite <- Z.pow_mul_r by lia; f_equal; lia).
  assert (Pu : forall x, 0 <= x ^ (m + 1)) by (intros x; rewrite Eu; apply Z.pow_even_nonneg; exists 1; reflexivity).
  assert (Ex : forall x, x ^ (m + 2) = x * x ^ (m + 1)) by (intros x; replace (m + 2) with (Z.succ (m + 1)) by lia; apply Z.pow_succ_r; lia).
  assert (Ey : forall x, x ^ (m + 1) = x * x ^ m) by (intros x; replace (m + 1) with (Z.succ m) by lia; apply Z.pow_succ_r; lia).
  assert (Ez : forall x, x ^ m = x * x ^ (m - 1)) by (intros x; replace m with (Z.succ (m - 1)) at 1 by lia; apply Z.pow_succ_r; lia).
  replace ((u - v) * (u ^ (m + 2) - v ^ (m + 2))) with ((u - v) * (u - v) * (u ^ (m + 1) + v ^ (m + 1)) + u * v * ((u - v) * (u ^ m - v ^ m))) by (rewrite !Ex, !Ey; ring).
  assert (KEY : u * v * (2 * ((u - v) * (u ^ m - v ^ m))) <= m * ((u - v) * (u - v)) * (u ^ (m + 1) + v ^ (m + 1))).
  { pose proof (Pu u) as A. pose proof (Pu v) as B. destruct (Z.le_gt_cases 0 (u * v)) as [P|P].
    - eapply Z.le_trans; [apply Z.mul_le_mono_nonneg_l; [exact P|exact IH]|].
      assert (D : u ^ (m + 1) + v ^ (m + 1) = u * v * (u ^ (m - 1) + v ^ (m - 1)) + (u - v) * (u ^ m - v ^ m)) by (rewrite !Ey, !Ez; ring).
      rewrite D. replace (u * v * (m * ((u - v) * (u - v)) * (u ^ (m - 1) + v ^ (m - 1)))) with (m * ((u - v) * (u - v)) * (u * v * (u ^ (m - 1) + v ^ (m - 1)))) by ring.
      apply Z.mul_le_mono_nonneg_l; [apply Z.mul_nonneg_nonneg; [clear - Hm; lia|apply Z.square_nonneg]|]. clear - X. revert X. generalize ((u - v) * (u ^ m - v ^ m)) (u * v * (u ^ (m - 1) + v ^ (m - 1))). intros; lia.
    - assert (u * v * (2 * ((u - v) * (u ^ m - v ^ m))) <= 0) by (clear - P X; nia). assert (0 <= m * ((u - v) * (u - v)) * (u ^ (m + 1) + v ^ (m + 1))) by (apply Z.mul_nonneg_nonneg; [apply Z.mul_nonneg_nonneg; [clear - Hm; lia|apply Z.square_nonneg]|apply Z.add_nonneg_nonneg; assumption]). eapply Z.le_trans; eassumption. }
  replace ((m + 2) * ((u - v) * (u - v)) * (u ^ (m + 1) + v ^ (m + 1))) with (2 * ((u - v) * (u - v) * (u ^ (m + 1) + v ^ (m + 1))) + m * ((u - v) * (u - v)) * (u ^ (m + 1) + v ^ (m + 1))) by ring.
  rewrite Z.mul_add_distr_l. apply Z.add_le_mono_l. rewrite Z.mul_shuffle3. exact KEY.
Qed.

(** ** Sums of independent signs *)
Fixpoint rad (w : list Z) (l : list bool) : Z :=
  match w, l with a :: w', b :: l' => (if b then a else - a) + rad w' l' | _, _ => 0 end.
Fixpoint sq (w : list Z) : Z := match w with [] => 0 | a :: w' => a * a + sq w' end.
Lemma sq_nonneg w : 0 <= sq w.
Proof. induction w as [|a w IH]; cbn [sq]; nia. Qed.

Lemma stein (G H : Z -> Z) : (forall y a, a * (G (y + a) - G (y - a)) <= a * a * (H (y + a) + H (y - a))) -> forall w c,
  sumb (length w) (fun l => rad w l * G (c + rad w l)) <= sq w * sumb (length w) (fun l => H (c + rad w l)).
Proof.
  intros GH. induction w as [|a w IH]; intros c; [cbn; lia|]. cbn [length sumb sq rad].
  pose proof (IH (c - a)) as I1. pose proof (IH (c + a)) as I2.
  set (n := length w) in *. set (r := rad w) in *.
  rewrite (sumb_ext n (fun l => (- a + r l) * G (c + (- a + r l))) (fun l => (- a) * G (c - a + r l) + r l * G (c - a + r l))) by (intros l _; replace (c + (- a + r l)) with (c - a + r l) by ring; ring).
  rewrite (sumb_ext n (fun l => (a + r l) * G (c + (a + r l))) (fun l => a * G (c + a + r l) + r l * G (c + a + r l))) by (intros l _; replace (c + (a + r l)) with (c + a + r l) by ring; ring).
  rewrite (sumb_ext n (fun l => H (c + (- a + r l))) (fun l => H (c - a + r l))) by (intros l _; f_equal; ring).
  rewrite (sumb_ext n (fun l => H (c + (a + r l))) (fun l => H (c + a + r l))) by (intros l _; f_equal; ring).
  rewrite !sumb_add.
  assert (D : sumb n (fun l => - a * G (c - a + r l)) + sumb n (fun l => a * G (c + a + r l)) <= a * a * (sumb n (fun l => H (c - a + r l)) + sumb n (fun l => H (c + a + r l)))).
  { rewrite <- !sumb_add, <- sumb_mul. apply sumb_le. intros l _. specialize (GH (c + r l) a).
    replace (c - a + r l) with (c + r l - a) by ring. replace (c + a + r l) with (c + r l + a) by ring. lia. }
  lia.
Qed.

(** The even moments. *)
Lemma rad_moment w : forall k, sumb (length w) (fun l => rad w l ^ (2 * Z.of_nat k)) <= odd_product k * sq w ^ Z.of_nat k * 2 ^ Z.of_nat (length w).
Proof.
  induction k as [|k IH].
  - cbn [odd_product]. change (2 * Z.of_nat 0) with 0. change (Z.of_nat 0) with 0. rewrite (sumb_ext _ _ (fun _ => 1)) by (intros; apply Z.pow_0_r). rewrite sumb_const, Z.pow_0_r. lia.
  - pose proof (stein (fun x => x ^ (2 * Z.of_nat k + 1)) (fun x => (2 * Z.of_nat k + 1) * x ^ (2 * Z.of_nat k))) as ST. cbv beta in ST.
    specialize (ST ltac:(intros y a; pose proof (odd_trapezoid (y + a) (y - a) k) as T; replace (y + a - (y - a)) with (2 * a) in T by ring; lia) w 0).
    rewrite (sumb_ext _ (fun l => rad w l * (0 + rad w l) ^ _) (fun l => rad w l ^ (2 * Z.of_nat (S k)))) in ST.
    2:{ intros l _. rewrite Z.add_0_l. replace (2 * Z.of_nat (S k)) with (Z.succ (2 * Z.of_nat k + 1)) by lia. rewrite Z.pow_succ_r by lia. reflexivity. }
    rewrite (sumb_ext _ (fun l => (2 * Z.of_nat k + 1) * (0 + rad w l) ^ _) (fun l => (2 * Z.of_nat k + 1) * rad w l ^ (2 * Z.of_nat k))) in ST by (intros; rewrite Z.add_0_l; reflexivity).
    rewrite sumb_mul in ST. eapply Z.le_trans; [exact ST|]. cbn [odd_product]. rewrite Nat2Z.inj_succ, Z.pow_succ_r by lia. pose proof (sq_nonneg w) as SN.
    set (S := sumb _ _) in *. set (o := odd_product k) in *. set (p := sq w ^ Z.of_nat k) in *. set (q := 2 ^ _) in *.
    replace ((2 * Z.of_nat k + 1) * o * (sq w * p) * q) with (sq w * ((2 * Z.of_nat k + 1) * (o * p * q))) by ring. apply Z.mul_le_mono_nonneg_l; [exact SN|]. apply Z.mul_le_mono_nonneg_l; lia.
Qed.

(** Markov's inequality for an even power. *)
Lemma markov m (X : list bool -> Z) B k : 0 <= B ->
  countb m (fun l => B <=? Z.abs (X l)) * B ^ (2 * Z.of_nat k) <= sumb m (fun l => X l ^ (2 * Z.of_nat k)).
Proof.
  intros HB. unfold countb. rewrite Z.mul_comm, <- sumb_mul. apply sumb_le. intros l _.
  assert (E : X l ^ (2 * Z.of_nat k) = Z.abs (X l) ^ (2 * Z.of_nat k)) by (rewrite <- Z.pow_even_abs by (exists (Z.of_nat k); reflexivity); reflexivity).
  rewrite E. destruct (Z.leb_spec B (Z.abs (X l))) as [H|H].
  - rewrite Z.mul_1_r. apply Z.pow_le_mono_l. lia.
  - rewrite Z.mul_0_r. apply Z.pow_nonneg. apply Z.abs_nonneg.
Qed.

(** ** Signs of the sampler *)
Lemma rad_nil_r w : rad w [] = 0.
Proof. destruct w; reflexivity. Qed.
Lemma rad_app a b : forall l, rad (a ++ b) l = rad a (firstn (length a) l) + rad b (skipn (length a) l).
Proof.
  induction a as [|x a IH]; intros l; [reflexivity|]. destruct l as [|y l]; [cbn [app rad length firstn skipn]; rewrite rad_nil_r; reflexivity|].
  cbn [app rad length firstn skipn]. rewrite IH. ring.
Qed.
Lemma rad_repeat b m : forall l, length l = m -> rad (repeat b m) l = b * (2 * ones l - Z.of_nat m).
Proof.
  induction m as [|m IH]; intros l Hl; destruct l as [|y l]; cbn [length] in Hl; try lia; [cbn; lia|]. cbn [repeat rad]. rewrite IH, ones_cons by lia. rewrite Nat2Z.inj_succ.
  destruct y; cbn [Z.b2z]; ring.
Qed.
Lemma rad_zeros m : forall l, rad (repeat 0 m) l = 0.
Proof. induction m as [|m IH]; intros l; [reflexivity|]. destruct l as [|y l]; [reflexivity|]. cbn [repeat rad]. rewrite IH. destruct y; reflexivity. Qed.
Lemma rad_firstn w : forall n l, (length w <= n)%nat -> rad w (firstn n l) = rad w l.
Proof.
  induction w as [|a w IH]; intros n l H; [reflexivity|]. cbn [length] in H. destruct n as [|n]; [lia|]. destruct l as [|b l]; [reflexivity|]. cbn [firstn rad]. rewrite IH by lia. reflexivity.
Qed.
Lemma sq_app a b : sq (a ++ b) = sq a + sq b.
Proof. induction a as [|x a IH]; cbn [app sq]; [lia|rewrite IH; lia]. Qed.
Lemma sq_repeat b m : sq (repeat b m) = Z.of_nat m * (b * b).
Proof. induction m as [|m IH]; [reflexivity|]. cbn [repeat sq]. rewrite IH, Nat2Z.inj_succ. ring. Qed.

Definition bw (V : nat) (b : Z) : list Z := repeat b (2 * V) ++ repeat (- b) (2 * V).
Lemma bw_length V b : length (bw V b) = (4 * V)%nat.
Proof. unfold bw. rewrite app_length, !repeat_length. lia. Qed.
Lemma bw_sq V b : sq (bw V b) = 4 * Z.of_nat V * (b * b).
Proof. unfold bw. rewrite sq_app, !sq_repeat. rewrite Nat2Z.inj_mul. change (Z.of_nat 2) with 2. ring. Qed.
Lemma bw_rad V b l : length l = (4 * V)%nat -> rad (bw V b) l = 2 * (b * samp1 V l).
Proof.
  intros H. unfold bw. rewrite rad_app, repeat_length. rewrite !rad_repeat by (rewrite ?firstn_length_le, ?skipn_length; lia). unfold samp1.
  rewrite (firstn_all2 (n := (2 * V)%nat) (skipn (2 * V) l)) by (rewrite skipn_length; lia). ring.
Qed.
Fixpoint sw (V : nat) (e : list Z) : list Z := match e with [] => [] | b :: e' => bw V b ++ sw V e' end.
Lemma sw_length V e : length (sw V e) = (4 * V * length e)%nat.
Proof. induction e as [|b e IH]; cbn [sw length]; [lia|]. rewrite app_length, bw_length, IH. lia. Qed.
Lemma sw_sq V e : sq (sw V e) = 4 * Z.of_nat V * sq e.
Proof. induction e as [|b e IH]; cbn [sw sq]; [lia|]. rewrite sq_app, bw_sq, IH. ring. Qed.
Lemma sw_rad V e : forall l, (4 * V * length e <= length l)%nat -> rad (sw V e) l = 2 * esum V e l.
Proof.
  induction e as [|b e IH]; intros l H; [reflexivity|]. cbn [sw esum length] in *. rewrite rad_app, bw_length, bw_rad by (apply firstn_length_le; lia). rewrite IH by (rewrite skipn_length; lia). ring.
Qed.
(** Several streams of M bits. *)
Fixpoint kw (V M : nat) (es : list (list Z)) : list Z :=
  match es with [] => [] | e :: es' => (sw V e ++ repeat 0 (M - 4 * V * length e)) ++ kw V M es' end.
Fixpoint ksum (V M : nat) (es : list (list Z)) (l : list bool) : Z :=
  match es with [] => 0 | e :: es' => esum V e (firstn M l) + ksum V M es' (skipn M l) end.
Definition sqs (es : list (list Z)) : Z := fold_right (fun e a => sq e + a) 0 es.
Lemma kw_facts V M es : (forall e, In e es -> (4 * V * length e <= M)%nat) ->
  length (kw V M es) = (length es * M)%nat /\ sq (kw V M es) = 4 * Z.of_nat V * sqs es
  /\ forall l, length l = (length es * M)%nat -> rad (kw V M es) l = 2 * ksum V M es l.
Proof.
  induction es as [|e es IH]; intros H; [cbn; repeat split; lia|]. destruct (IH (fun x Hx => H x (or_intror Hx))) as [L [S R]]. specialize (H e (or_introl eq_refl)).
  assert (LE : length (sw V e ++ repeat 0 (M - 4 * V * length e)) = M) by (rewrite app_length, sw_length, repeat_length; lia).
  cbn [kw ksum length sqs fold_right]. fold (sqs es). split; [|split].
  - rewrite app_length, LE, L. lia.
  - rewrite sq_app, S, sq_app, sw_sq, sq_repeat. ring.
  - intros l Hl. rewrite rad_app, LE, rad_app, rad_zeros, rad_firstn by (rewrite sw_length; lia). rewrite sw_rad by (rewrite firstn_length_le; nia).
    rewrite R by (rewrite skipn_length; nia). ring.
Qed.

Lemma ksum_moment V M es k : (forall e, In e es -> (4 * V * length e <= M)%nat) ->
  sumb (length es * M) (fun l => ksum V M es l ^ (2 * Z.of_nat k)) <= odd_product k * (Z.of_nat V * sqs es) ^ Z.of_nat k * 2 ^ Z.of_nat (length es * M).
Proof.
  intros H. destruct (kw_facts V M es H) as [L [S R]]. pose proof (rad_moment (kw V M es) k) as RM. rewrite L, S in RM.
  rewrite (sumb_ext _ _ (fun l => 4 ^ Z.of_nat k * ksum V M es l ^ (2 * Z.of_nat k))) in RM.
  2:{ intros l Hl. rewrite R by auto. rewrite Z.pow_mul_l. f_equal. rewrite Z.pow_mul_r by lia. reflexivity. }
  rewrite sumb_mul in RM. replace (4 * Z.of_nat V * sqs es) with (4 * (Z.of_nat V * sqs es)) in RM by ring. rewrite (Z.pow_mul_l 4) in RM.
  assert (P : 0 < 4 ^ Z.of_nat k) by (apply Z.pow_pos_nonneg; lia). apply (Z.mul_le_mono_pos_l _ _ (4 ^ Z.of_nat k)); [exact P|]. eapply Z.le_trans; [exact RM|]. apply Z.eq_le_incl. ring.
Qed.

(** ** The noise of key switching as a weighted sum of samples *)
Lemma sq_sumn e : sq e = sumn (length e) (fun i => nth i e 0 * nth i e 0).
Proof. induction e as [|b e IH]; [reflexivity|]. cbn [sq length]. rewrite sumn_S_l, IH. reflexivity. Qed.
Lemma cbd_f_samps size V l a : (a < size)%nat -> (1 <= V <= 16)%nat -> (4 * V * size <= length l)%nat -> cbd_f (words_of l) (Z.of_nat V) a = nth a (samps size V l) 0.
Proof.
  intros Ha HV HL. pose proof (sampler_samps Release size V l HV HL) as E. rewrite sample_vec_cbd_ok in E by (try lia; apply words_range). apply Ok_inj in E. rewrite <- E.
  rewrite nth_map_seq by auto. reflexivity.
Qed.
Lemma ksum_blocks V M : forall es l, ksum V M es l = sumn (length es) (fun i => esum V (nth i es []) (block M i l)).
Proof.
  induction es as [|e es IH]; intros l; [reflexivity|]. cbn [ksum length]. rewrite sumn_S_l, IH. cbn [nth]. unfold block. change (0 * M)%nat with 0%nat. cbn [skipn]. f_equal.
  apply sumn_ext. intros i _. rewrite skipn_skipn'. reflexivity.
Qed.
Lemma sqs_sumn es : sqs es = sumn (length es) (fun i => sq (nth i es [])).
Proof. induction es as [|e es IH]; [reflexivity|]. cbn [sqs fold_right length]. fold (sqs es). rewrite sumn_S_l, IH. reflexivity. Qed.

Section Noise.
Variables (P : BfvParams) (i0 : nat) (c : RqContext).
Hypothesis LV : wf_level P i0 c.
Let W := wf_ctx_loc _ (lv_wf _ _ _ LV).
Local Notation n := (rq_degree c).
Local Notation K := (cx_k c).

(** The weight of coefficient a of the i-th error in coefficient j of the noise. *)
Definition wt (p : nat -> Z) (j i a : nat) : Z := sumn n (fun l => (p l mod cx_q c i) * mono n j (a + l)).
Definition wts (p : nat -> Z) (j : nat) : list (list Z) := map (fun i => map (wt p j i) (seq 0 n)) (seq 0 K).
Lemma wt_sq p j i a : (j < n)%nat -> (i < K)%nat -> (a < n)%nat -> wt p j i a * wt p j i a <= cx_q c i * cx_q c i.
Proof.
  intros Hj Hi Ha. unfold wt. pose proof (cx_n8 c W) as N8. destruct (mono_sum_r n ltac:(lia) j a (fun l => p l mod cx_q c i) Hj Ha) as [l [s [Hl [Hs E]]]]. rewrite E.
  pose proof (cx_range c W i Hi) as HR. pose proof (Z.mod_pos_bound (p l) (cx_q c i) ltac:(lia)) as X. set (y := p l mod cx_q c i) in *. set (q := cx_q c i) in *. clearbody y q.
  replace (s * y * (s * y)) with ((Z.abs s * Z.abs s) * (y * y)) by (rewrite <- Z.abs_mul, Z.abs_eq by apply Z.square_nonneg; ring). rewrite Hs. clear - X. nia.
Qed.
Lemma wts_sqs p j : (j < n)%nat -> sqs (wts p j) <= Z.of_nat n * sumn K (fun i => cx_q c i * cx_q c i).
Proof.
  intros Hj. rewrite sqs_sumn. unfold wts. rewrite len_seq. rewrite <- sumn_mul_l. apply sumn_le. intros i Hi. rewrite nth_map_seq by auto. rewrite sq_sumn, len_seq.
  rewrite <- sumn_const. apply sumn_le. intros a Ha. rewrite nth_map_seq by auto. apply wt_sq; auto.
Qed.
Lemma noise_ksum V M p j bits : (j < n)%nat -> (1 <= V <= 16)%nat -> (4 * V * n <= M)%nat -> length bits = (K * M)%nat ->
  ks_noise c (fun i => cbd_f (words_of (block M i bits)) (Z.of_nat V)) p j = ksum V M (wts p j) bits.
Proof.
  intros Hj HV HM HL. rewrite ksum_blocks. unfold ks_noise, wts. rewrite len_seq. apply sumn_ext. intros i Hi. rewrite nth_map_seq by auto.
  assert (LB : length (block M i bits) = M) by (unfold block; rewrite firstn_length_le; [reflexivity|rewrite skipn_length, HL; nia]).
  rewrite esum_samps, len_seq. rewrite rmul_comm. unfold rmul. apply sumn_ext. intros a Ha. rewrite nth_map_seq by auto. rewrite (cbd_f_samps n) by (auto; lia).
  unfold wt. rewrite Z.mul_comm, <- sumn_mul_l. apply sumn_ext. intros l Hl. ring.
Qed.
Lemma noise_tail V M p j B k : (j < n)%nat -> (1 <= V <= 16)%nat -> (4 * V * n <= M)%nat -> 0 <= B ->
  countb (K * M) (fun bits => B <=? Z.abs (ks_noise c (fun i => cbd_f (words_of (block M i bits)) (Z.of_nat V)) p j)) * B ^ (2 * Z.of_nat k)
  <= odd_product k * (Z.of_nat V * (Z.of_nat n * sumn K (fun i => cx_q c i * cx_q c i))) ^ Z.of_nat k * 2 ^ Z.of_nat (K * M).
Proof.
  intros Hj HV HM HB. eapply Z.le_trans; [apply markov; exact HB|].
  rewrite (sumb_ext _ _ (fun l => ksum V M (wts p j) l ^ (2 * Z.of_nat k))) by (intros l Hl; rewrite noise_ksum by auto; reflexivity).
  assert (LW : length (wts p j) = K) by apply len_seq.
  pose proof (ksum_moment V M (wts p j) k) as X. rewrite LW in X. eapply Z.le_trans; [apply X|].
  - intros e He. unfold wts in He. apply in_map_iff in He. destruct He as [i [<- _]]. rewrite len_seq. exact HM.
  - apply Z.mul_le_mono_nonneg_r; [apply Z.pow_nonneg; lia|]. apply Z.mul_le_mono_nonneg_l.
    + clear. induction k as [|k IH]; cbn [odd_product]; [lia|]. apply Z.mul_nonneg_nonneg; lia.
    + apply Z.pow_le_mono_l. split; [apply Z.mul_nonneg_nonneg; [lia|]|apply Z.mul_le_mono_nonneg_l; [lia|apply wts_sqs; auto]].
      rewrite sqs_sumn. apply sumn_nonneg. intros i _. apply sq_nonneg.
Qed.
End Noise.

Lemma union_bound m n (F : list bool -> bool) (X : nat -> list bool -> Z) B D U : 0 <= D ->
  (forall l, length l = m -> F l = true -> exists j, (j < n)%nat /\ B <= Z.abs (X j l)) ->
  (forall j, (j < n)%nat -> countb m (fun l => B <=? Z.abs (X j l)) * D <= U) -> countb m F * D <= Z.of_nat n * U.
Proof.
  intros HD HF HU. set (G := fun j l => if B <=? Z.abs (X j l) then 1 else 0).
  assert (G0 : forall k l, 0 <= sumn k (fun j => G j l)) by (intros k l; apply sumn_nonneg; intros j _; unfold G; destruct (B <=? Z.abs (X j l)); lia).
  apply Z.le_trans with (sumb m (fun l => sumn n (fun j => G j l)) * D).
  - apply Z.mul_le_mono_nonneg_r; [exact HD|]. unfold countb. apply sumb_le. intros l Hl. destruct (F l) eqn:E; [|apply G0].
    destruct (HF l Hl E) as [j [Hj HB]]. apply Z.leb_le in HB. clear - Hj HB G0. induction n as [|k IH]; [lia|]. cbn [sumn].
    destruct (Nat.eq_dec j k) as [->|]; [unfold G at 2; rewrite HB; specialize (G0 k l); lia|]. specialize (IH ltac:(lia)). unfold G at 2. destruct (B <=? Z.abs (X k l)); lia.
  - rewrite sumb_sumn. rewrite <- sumn_mul_r. rewrite <- sumn_const. apply sumn_le. intros j Hj. apply (HU j Hj).
Qed.

(** ** Keys with their exact error polynomials *)
Section Exact.
Variables (pr : profile) (P : BfvParams) (i0 : nat) (c : RqContext).
Hypothesis LV : wf_level P i0 c.
Let W := wf_ctx_loc _ (lv_wf _ _ _ LV).
Local Notation n := (rq_degree c).
Local Notation errs rnd := (fun i => cbd_f (rnd_words rnd i) (bp_variance P)).
Lemma ksk_exact sk u rnd : sk_of P sk -> 1 <= bp_variance P <= 16 -> rnd_ok c rnd ->
  exists k, ksk_new pr sk (rep c Ntt u) i0 i0 rnd = Ok k /\ ksk_for P c k (sk_fun sk) u (errs rnd).
Proof.
  intros [SP [S1 S2]] Hv HR. rewrite SP in S2. 
  destruct (ksk_entries pr P i0 c LV (sk_fun sk) u rnd (bp_variance P) Hv HR) as [a [Ea HM]].
  unfold ksk_new. rewrite SP. rewrite (lv_ctx _ _ _ LV). cbn [bind]. rewrite (sk_ntt_ok pr P i0 c LV) by auto. cbn [bind].
  change (fun j => nth j (sk_coeffs sk) 0) with (sk_fun sk).
  assert (Lk : length (rns_moduli (rq_rns c)) = cx_k c).
  { rewrite <- (wl_mod _ W). apply (cx_moduli_len c W). }
  rewrite Lk, Ea, len_seq.
  assert (EG : rns_garner (rq_rns c) = map (fun i => nth i (rns_garner (rq_rns c)) 0) (seq 0 (cx_k c))).
  { apply list_seq. apply (wr_gl _ _ (wl_rns _ W)). }
  rewrite EG. rewrite HM. cbn [bind].
  eexists. split; [reflexivity|]. split; [reflexivity|]. split; [reflexivity|]. split; [reflexivity|].
  eexists. exists a. exists (fun i => nth i (rns_garner (rq_rns c)) 0). split; [apply (gadget_garner P i0 c LV)|]. cbn [k_c0 k_c1].
  split; [reflexivity|]. split; [reflexivity|]. intros i j Hi Hj. rewrite phase2. f_equal.
  rewrite (rmul_comm _ (sk_fun sk)). ring.
Qed.
Lemma rlk_exact sk rnd : sk_of P sk -> 1 <= bp_variance P <= 16 -> rnd_ok c rnd ->
  exists r, rlk_new pr sk i0 rnd = Ok r /\ ksk_for P c (rlk_ksk r) (sk_fun sk) (rmul n (sk_fun sk) (sk_fun sk)) (errs rnd).
Proof.
  intros HS Hv HR. destruct (ksk_exact sk (rmul n (sk_fun sk) (sk_fun sk)) rnd HS Hv HR) as [k [E HK]].
  destruct HS as [SP [S1 S2]]. rewrite SP in S2. unfold rlk_new. rewrite SP, (lv_ctx _ _ _ LV). cbn [bind].
  rewrite (sk_ntt_ok pr P i0 c LV) by auto. cbn [bind]. change (fun j => nth j (sk_coeffs sk) 0) with (sk_fun sk).
  rewrite rep_mul by auto. cbn [bind]. rewrite E. cbn [bind]. eexists. split; [reflexivity|]. exact HK.
Qed.
Lemma galois_exact sk rnd x g : sk_of P sk -> 1 <= bp_variance P <= 16 -> rnd_ok c rnd -> 0 <= x -> subst_new pr c x = Ok g ->
  length (bp_moduli P) <> 1%nat ->
  exists gk, galois_new pr sk g i0 rnd = Ok gk /\ gk_subst gk = g /\ gk_level gk = i0
    /\ ksk_for P c (gk_ksk gk) (sk_fun sk) (rsubst n (gexp c x) (sk_fun sk)) (errs rnd).
Proof.
  intros HS Hv HR Hx Hg HL. destruct (ksk_exact sk (rsubst n (gexp c x) (sk_fun sk)) rnd HS Hv HR) as [k [E HK]].
  destruct HS as [SP [S1 S2]]. rewrite SP in S2. unfold galois_new. rewrite SP. rewrite rassert_true by (apply negb_true_iff, Nat.eqb_neq; auto). cbn [bind].
  rewrite (lv_ctx _ _ _ LV). cbn [bind]. rewrite rep_from_i64 by (auto; rewrite (lv_n _ _ _ LV); auto). cbn [bind].
  change (fun j => nth j (sk_coeffs sk) 0) with (sk_fun sk). rewrite (rep_substitute pr c W _ _ x g Hx Hg). cbn [bind].
  rewrite change_fwd by auto. cbn [bind]. fold (gexp c x). rewrite E. cbn [bind]. eexists. split; [reflexivity|]. auto.
Qed.
End Exact.

(** C81: a weighted sum of samples exceeds B for at most a fraction
    (2k-1)!! (variance * sum of squared weights / B^2)^k of the outcomes, for every k. *)
Lemma C81_sampler_lem :
  forall pr size v (w : nat -> Z) M B k, 1 <= v <= 16 -> (4 * Z.to_nat v * size <= M)%nat -> 0 <= B ->
    countb M (fun bits => match sample_vec_cbd pr size v (words_of bits) with
                          | Ok x => B <=? Z.abs (sumn size (fun i => w i * nth i x 0)) | _ => true end) * B ^ (2 * Z.of_nat k)
    <= odd_product k * (v * sumn size (fun i => w i * w i)) ^ Z.of_nat k * 2 ^ Z.of_nat M.
Proof.
  intros pr size v w M B k Hv HM HB. set (V := Z.to_nat v) in *. assert (EV : v = Z.of_nat V) by (unfold V; rewrite Z2Nat.id; lia). rewrite EV. assert (HV : (1 <= V <= 16)%nat) by lia. clearbody V. subst v. clear Hv.
  set (e := map w (seq 0 size)). assert (Le : length e = size) by apply len_seq.
  assert (EQ : forall l, length l = M -> (match sample_vec_cbd pr size (Z.of_nat V) (words_of l) with Ok x => B <=? Z.abs (sumn size (fun i => w i * nth i x 0)) | _ => true end)
     = (B <=? Z.abs (ksum V M [e] l))).
  { intros l Hl. rewrite sampler_samps by (auto; lia). do 2 f_equal. cbn [ksum]. rewrite Z.add_0_r, esum_samps, Le, firstn_all2 by lia. apply sumn_ext. intros i Hi. unfold e. rewrite nth_map_seq by auto. reflexivity. }
  unfold countb. rewrite (sumb_ext M _ (fun l => if B <=? Z.abs (ksum V M [e] l) then 1 else 0)) by (intros l Hl; rewrite EQ by auto; reflexivity).
  fold (countb M (fun l => B <=? Z.abs (ksum V M [e] l))). eapply Z.le_trans; [apply markov; exact HB|].
  pose proof (ksum_moment V M [e] k) as X. cbn [length] in X. rewrite Nat.mul_1_l in X. eapply Z.le_trans; [apply X; intros e' [<-|[]]; lia|].
  apply Z.eq_le_incl. do 4 f_equal. cbn [sqs fold_right]. rewrite Z.add_0_r, sq_sumn, Le. apply sumn_ext. intros i Hi. unfold e. rewrite nth_map_seq by auto. reflexivity.
Qed.

(** C81: the noise that switching a fixed polynomial with a fresh key adds exceeds B
    in a given coefficient for at most a fraction
    (2k-1)!! (variance n (q_1^2 + ... + q_K^2) / B^2)^k of the outcomes of the
    generator of the key's errors. *)
Lemma C81_key_switch_lem :
  forall pr P i c sk u masks M, built_params P -> level P i c -> sk_params sk = P -> sk_ok sk ->
    1 <= bp_variance P <= 16 -> (forall l, (l < cx_k c)%nat -> wf_poly (mkPoly c Ntt (masks l))) ->
    (4 * Z.to_nat (bp_variance P) * bp_degree P <= M)%nat ->
    exists noise : list bool -> (nat -> Z) -> nat -> Z,
      (forall bits, length bits = (cx_k c * M)%nat ->
         exists k, ksk_new pr sk (rep c Ntt u) i i (mkRnd masks (fun l => words_of (block M l bits))) = Ok k
           /\ forall p, exists c0 c1, key_switch pr k (rep c PowerBasis p) = Ok (rep c Ntt c0, rep c Ntt c1)
                /\ forall j, (j < bp_degree P)%nat ->
                     phase (bp_degree P) (sk_fun sk) [c0; c1] j mod cx_Q c = (rmul (bp_degree P) p u j + noise bits p j) mod cx_Q c)
      /\ forall p j B k, (j < bp_degree P)%nat -> 0 <= B ->
           countb (cx_k c * M) (fun bits => B <=? Z.abs (noise bits p j)) * B ^ (2 * Z.of_nat k)
           <= odd_product k * (bp_variance P * (Z.of_nat (bp_degree P) * sumn (cx_k c) (fun l => cx_q c l * cx_q c l))) ^ Z.of_nat k * 2 ^ Z.of_nat (cx_k c * M).
Proof.
  intros pr P i c sk u masks M B L SP SO Hv HMK HM. pose proof (built_params_wf P B) as WB. destruct (level_wf P i c WB L) as [_ LV].
  set (V := Z.to_nat (bp_variance P)) in *. assert (EV : bp_variance P = Z.of_nat V) by (unfold V; rewrite Z2Nat.id; lia).
  exists (fun bits => ks_noise c (fun l => cbd_f (words_of (block M l bits)) (bp_variance P))). rewrite <- (lv_n _ _ _ LV) in *. split.
  - intros bits _. destruct (ksk_exact pr P i c LV sk u (mkRnd masks (fun l => words_of (block M l bits))) (conj SP SO) Hv ltac:(split; [exact HMK|intros; apply words_range])) as [k [EK HK]].
    exists k. split; [exact EK|]. intros p. destruct (key_switch_ok pr P i c LV k _ _ _ p HK) as [c0 [c1 [E HP]]]. exists c0, c1. split; [exact E|]. intros j Hj. apply HP. exact Hj.
  - intros p j D k Hj HD. rewrite EV. apply (noise_tail P i c LV); auto. lia.
Qed.

(** C81: the same for relinearisation. *)
Lemma C81_relinearize_lem :
  forall pr P i c sk masks M, built_params P -> level P i c -> sk_params sk = P -> sk_ok sk ->
    1 <= bp_variance P <= 16 -> (forall l, (l < cx_k c)%nat -> wf_poly (mkPoly c Ntt (masks l))) ->
    (4 * Z.to_nat (bp_variance P) * bp_degree P <= M)%nat ->
    exists noise : list bool -> (nat -> Z) -> nat -> Z,
      (forall bits, length bits = (cx_k c * M)%nat ->
         exists r, rlk_new pr sk i (mkRnd masks (fun l => words_of (block M l bits))) = Ok r
           /\ forall f x, x = PowerBasis \/ x = Ntt -> exists r0 r1, relinearize_poly pr r (rep c x f) = Ok (rep c Ntt r0, rep c Ntt r1)
                /\ forall j, (j < bp_degree P)%nat ->
                     phase (bp_degree P) (sk_fun sk) [r0; r1] j mod cx_Q c
                     = (rmul (bp_degree P) f (rmul (bp_degree P) (sk_fun sk) (sk_fun sk)) j + noise bits f j) mod cx_Q c)
      /\ forall f j B k, (j < bp_degree P)%nat -> 0 <= B ->
           countb (cx_k c * M) (fun bits => B <=? Z.abs (noise bits f j)) * B ^ (2 * Z.of_nat k)
           <= odd_product k * (bp_variance P * (Z.of_nat (bp_degree P) * sumn (cx_k c) (fun l => cx_q c l * cx_q c l))) ^ Z.of_nat k * 2 ^ Z.of_nat (cx_k c * M).
Proof.
  intros pr P i c sk masks M B L SP SO Hv HMK HM. pose proof (built_params_wf P B) as WB. destruct (level_wf P i c WB L) as [_ LV].
  set (V := Z.to_nat (bp_variance P)) in *. assert (EV : bp_variance P = Z.of_nat V) by (unfold V; rewrite Z2Nat.id; lia).
  exists (fun bits => ks_noise c (fun l => cbd_f (words_of (block M l bits)) (bp_variance P))). rewrite <- (lv_n _ _ _ LV) in *. split.
  - intros bits _. destruct (rlk_exact pr P i c LV sk (mkRnd masks (fun l => words_of (block M l bits))) (conj SP SO) Hv ltac:(split; [exact HMK|intros; apply words_range])) as [r [EK HK]].
    exists r. split; [exact EK|]. intros f x Hx. destruct (relinearize_ok pr P i c LV r _ _ _ f x HK ltac:(destruct Hx; subst; discriminate)) as [c0 [c1 [E HP]]]. exists c0, c1. split; [exact E|]. intros j Hj. apply HP. exact Hj.
  - intros p j D k Hj HD. rewrite EV. apply (noise_tail P i c LV); auto. lia.
Qed.

Lemma gexp_subst c x f k : wf_loc c -> 0 <= x -> rsubst (rq_degree c) (gexp c x) f k = rsubst (rq_degree c) (Z.to_nat x) f k.
Proof.
  intros W Hx. pose proof (cx_n8 c W) as Hn. apply rsubst_mod; [lia|]. unfold gexp.
  rewrite <- (Nat2Z.id (Z.to_nat (x mod (2 * Z.of_nat (rq_degree c))) mod (2 * rq_degree c))).
  rewrite <- (Nat2Z.id (Z.to_nat x mod (2 * rq_degree c))). f_equal. rewrite !Nat2Z.inj_mod.
  pose proof (Z.mod_pos_bound x (2 * Z.of_nat (rq_degree c)) ltac:(lia)). rewrite !Z2Nat.id by lia.
  rewrite Nat2Z.inj_mul. change (Z.of_nat 2) with 2. apply Z.mod_mod. lia.
Qed.

(** C81: a rotated ciphertext with scaled noise at most B0 decrypts to the rotated
    message but for the given fraction of key outcomes, whenever B0 + t B is within
    the decryption limit; B is free, so the limit need not leave room for the worst
    case of C38. *)
Lemma C81_rotate_lem :
  forall pr P i c sk masks M x f0 f1 m E B0 B k, built_params P -> level P i c -> sk_params sk = P -> sk_ok sk ->
    1 <= bp_variance P <= 16 -> (forall l, (l < cx_k c)%nat -> wf_poly (mkPoly c Ntt (masks l))) ->
    (4 * Z.to_nat (bp_variance P) * bp_degree P <= M)%nat ->
    0 <= x -> x mod 2 = 1 -> length (bp_moduli P) <> 1%nat -> small_degree pr (bp_degree P) ->
    small_basis (rq_moduli_64 c) -> 2 * bp_t P <= cx_q c 0 ->
    carries (bp_degree P) (cx_Q c) (bp_t P) (phase (bp_degree P) (sk_fun sk) [f0; f1]) m E ->
    (forall j, (j < bp_degree P)%nat -> Z.abs (E j) <= B0) -> 0 <= B ->
    2 ^ 54 * (2 * (B0 + bp_t P * B)) <= (2 ^ 54 - 1) * cx_Q c ->
    countb (cx_k c * M) (fun bits => negb (decrypts_to
        (g <- subst_new pr c x ;; gk <- galois_new pr sk g i (mkRnd masks (fun l => words_of (block M l bits))) ;;
         ct <- galois_relinearize pr gk (ct_of P i c [f0; f1]) ;; decrypt pr sk ct)
        (map (fun j => rsubst (bp_degree P) (Z.to_nat x) m j mod bp_t P) (seq 0 (bp_degree P))))) * B ^ (2 * Z.of_nat k)
    <= Z.of_nat (bp_degree P) * (odd_product k * (bp_variance P * (Z.of_nat (bp_degree P) * sumn (cx_k c) (fun l => cx_q c l * cx_q c l))) ^ Z.of_nat k * 2 ^ Z.of_nat (cx_k c * M)).
Proof.
  intros pr P i c sk masks M x f0 f1 m E B0 B k BP L SP SO Hv HMK HM Hx Ho HL SD SB Hq HC HE HB HQ. pose proof (built_params_wf P BP) as WB. destruct (level_wf P i c WB L) as [_ LV].
  pose proof (wf_ctx_loc _ (lv_wf _ _ _ LV)) as W. pose proof (cx_n8 c W) as Hn. pose proof (wf_t17 P WB) as T1. pose proof (lv_n _ _ _ LV) as EN.
  set (V := Z.to_nat (bp_variance P)) in *. assert (EV : bp_variance P = Z.of_nat V) by (unfold V; rewrite Z2Nat.id; lia).
  assert (Eg : exists g, subst_new pr c x = Ok g).
  { rewrite <- EN in SD. pose proof (subst_new_ok pr c W x Hx Ho (small_fits pr c W x SD)) as Eg. eexists. exact Eg. }
  destruct Eg as [g Eg].
  set (X := fun j bits => ks_noise c (fun l => cbd_f (words_of (block M l bits)) (bp_variance P)) (rsubst (rq_degree c) (gexp c x) f1) j).
  apply (union_bound _ _ _ X B).
  - apply Z.pow_nonneg. exact HB.
  - intros bits Hb HF. destruct (existsb (fun j => B <=? Z.abs (X j bits)) (seq 0 (bp_degree P))) eqn:EX.
    { apply existsb_exists in EX. destruct EX as [j [Hj HX]]. apply in_seq in Hj. apply Z.leb_le in HX. exists j. split; [lia|exact HX]. }
    exfalso. assert (NX : forall j, (j < bp_degree P)%nat -> Z.abs (X j bits) < B).
    { intros j Hj. apply Z.leb_gt. destruct (B <=? Z.abs (X j bits)) eqn:Q; [|reflexivity]. rewrite <- EX. symmetry. apply existsb_exists. exists j. split; [apply in_seq; lia|exact Q]. }
    clear EX. apply negb_true_iff in HF. rewrite Eg in HF. cbn [bind] in HF.
    destruct (galois_exact pr P i c LV sk (mkRnd masks (fun l => words_of (block M l bits))) x g (conj SP SO) Hv ltac:(split; [exact HMK|intros; apply words_range]) Hx Eg HL) as [gk [EK [GS [GL HK]]]].
    rewrite EK in HF. cbn [bind] in HF.
    destruct (galois_relin_ok pr P i c LV gk g x (sk_fun sk) _ f0 f1 Hx Eg Ho GS GL HK) as [h0 [h1 [ER HP]]]. rewrite ER in HF. cbn [bind] in HF.
    assert (OX : Nat.odd (Z.to_nat x) = true).
    { rewrite <- Nat.negb_even. apply negb_true_iff. destruct (Nat.even (Z.to_nat x)) eqn:EE; auto. apply Nat.even_spec in EE. destruct EE as [z Hz].
      exfalso. assert (Y : x = Z.of_nat z * 2) by lia. rewrite Y, Z.mod_mul in Ho; lia. }
    assert (DS : decrypt pr sk (ct_of P i c [h0; h1]) = Ok (mkPt P i EncNone (map (fun j => rsubst (bp_degree P) (Z.to_nat x) m j mod bp_t P) (seq 0 (bp_degree P))))).
    { apply (decrypt_shift pr P i c sk h0 h1 (rsubst (bp_degree P) (Z.to_nat x) (phase (bp_degree P) (sk_fun sk) [f0; f1])) (fun j => X j bits) _ (rsubst (bp_degree P) (Z.to_nat x) E) (B0 + bp_t P * B)); auto.
      - intros j Hj. rewrite <- EN in *. rewrite <- gexp_subst by auto. apply HP. exact Hj.
      - apply carries_rsubst; exact HC.
      - intros j Hj. cbv beta. specialize (NX j Hj).
        assert (RBB : Z.abs (rsubst (bp_degree P) (Z.to_nat x) E j) <= B0).
        { pose proof (wl_n _ W) as EL. rewrite EN in EL. rewrite EL in *. apply rsubst_bound; auto. specialize (HE j Hj). lia. }
        apply Z.add_le_mono; auto. apply Z.mul_le_mono_nonneg_l; lia. }
    rewrite DS in HF. unfold decrypts_to in HF. cbn [pt_values] in HF. destruct (list_eq_dec _ _ _) as [|Y]; [discriminate|]. apply Y. reflexivity.
  - intros j Hj. unfold X. rewrite <- EN in *. rewrite EV. apply (noise_tail P i c LV); auto. lia.
Qed.

Lemma rep_pb_inj c f g i j : rep c PowerBasis f = rep c PowerBasis g -> (i < cx_k c)%nat -> (j < rq_degree c)%nat -> f j mod cx_q c i = g j mod cx_q c i.
Proof.
  intros H Hi Hj. apply (f_equal p_rows) in H. rewrite !rep_rows in H. apply (f_equal (fun l => nth j (nth i l []) 0)) in H. rewrite !nth_map_seq in H by auto.
  unfold rrow in H. rewrite !nth_map_seq in H by auto. exact H.
Qed.
Lemma ks_noise_ext c e p p' j : (forall i l, (i < cx_k c)%nat -> (l < rq_degree c)%nat -> p l mod cx_q c i = p' l mod cx_q c i) -> ks_noise c e p j = ks_noise c e p' j.
Proof. intros H. apply sumn_ext. intros i Hi. apply rmul_ext; auto. Qed.
Lemma test_numbers : 8 * (odd_product 205 * (10 * (8 * (2 * (4611686018427387904 * 4611686018427387904)))) ^ 205) * 2 ^ 291 <= (2 ^ 70) ^ (2 * Z.of_nat 205).
Proof. vm_compute. discriminate. Qed.

Definition ok_unit (o : outcome unit) : bool := match o with Ok _ => true | _ => false end.

(** C81: the crate's key-switching test, which C72 shows to fail for some outcomes
    of its generator, fails for at most a fraction 2^-291 of the outcomes of the
    generator of the key's errors, whatever the other random choices. *)
Lemma C81_ksk_test_lem :
  forall pr env P c wsk fr ir masks M, env_exact env -> bfv_default pr env 2 8 (mkBD 4 8) = Ok P -> level P 0 c ->
    (forall j, 0 <= wsk j < 2 ^ 64) -> wf_poly (mkPoly c Ntt fr) -> wf_poly (mkPoly c PowerBasis ir) ->
    (forall i, (i < 2)%nat -> wf_poly (mkPoly c Ntt (masks i))) -> (320 <= M)%nat ->
    countb (2 * M) (fun bits => negb (ok_unit (test_ksk pr env 70 wsk fr ir (mkRnd masks (fun i => words_of (block M i bits)))))) * 2 ^ 291 <= 2 ^ Z.of_nat (2 * M).
Proof.
  intros pr env P c wsk fr ir masks M EX EP L HW WF WI HMK HM.
  destruct (def_facts pr env 2 P c EX ltac:(lia) EP L) as [B [D1 [D2 [D3 [D4 [WB [LV [W [DC [SB [Hq [HQ HKB]]]]]]]]]]]].
  assert (HK : cx_k c = 2%nat).
  { unfold cx_k. rewrite (lv_ms _ _ _ LV), Nat.sub_0_r, firstn_all. exact D4. }
  assert (QB : sumn (cx_k c) (fun i => cx_q c i * cx_q c i) <= 2 * (4611686018427387904 * 4611686018427387904)).
  { assert (QR : forall i, (i < 2)%nat -> 0 <= cx_q c i < 4611686018427387904).
    { intros i Hi. pose proof (cx_range c W i ltac:(lia)) as R. change (2 ^ 62) with 4611686018427387904 in R. lia. }
    rewrite HK. cbn [sumn]. pose proof (QR 0%nat ltac:(lia)). pose proof (QR 1%nat ltac:(lia)).
    set (a := cx_q c 0) in *. set (b := cx_q c 1) in *. clearbody a b. clear - H H0.
    assert (a * a <= 4611686018427387904 * 4611686018427387904) by (apply Z.mul_le_mono_nonneg; lia).
    assert (b * b <= 4611686018427387904 * 4611686018427387904) by (apply Z.mul_le_mono_nonneg; lia). lia. }
  destruct (wf_rep pr c W (mkPoly c PowerBasis ir) eq_refl WI) as [p [_ EI]]. cbn [p_repr] in EI.
  set (X := fun j bits => ks_noise c (fun l => cbd_f (words_of (block M l bits)) (Z.of_nat 10)) p j).
  set (F := fun bits => negb _).
  assert (UB : countb (2 * M) F * (2 ^ 70) ^ (2 * Z.of_nat 205) <= Z.of_nat 8 * (odd_product 205 * (Z.of_nat 10 * (Z.of_nat 8 * sumn (cx_k c) (fun i => cx_q c i * cx_q c i))) ^ Z.of_nat 205 * 2 ^ Z.of_nat (2 * M))).
  { apply (union_bound _ _ _ X (2 ^ 70)).
    - apply Z.pow_nonneg. apply Z.pow_nonneg. lia.
    - intros bits Hb HF. destruct (existsb (fun j => 2 ^ 70 <=? Z.abs (X j bits)) (seq 0 8)) eqn:EE.
      { apply existsb_exists in EE. destruct EE as [j [Hj HX]]. apply in_seq in Hj. apply Z.leb_le in HX. exists j. split; [lia|exact HX]. }
      exfalso. assert (NX : forall j, (j < 8)%nat -> Z.abs (X j bits) < 2 ^ 70).
      { intros j Hj. apply Z.leb_gt. destruct (2 ^ 70 <=? Z.abs (X j bits)) eqn:Q; [|reflexivity]. rewrite <- EE. symmetry. apply existsb_exists. exists j. split; [apply in_seq; lia|exact Q]. }
      unfold F in HF. apply negb_true_iff in HF.
      destruct (test_ksk_run pr env P c wsk fr ir (mkRnd masks (fun i => words_of (block M i bits))) 70 EX EP L HW WF WI) as [p' [EI' ET]].
      { split; [rewrite HK; exact HMK|intros; apply words_range]. }
      rewrite ET in HF. clear ET. cbn [rnd_words] in HF.
      assert (EN : forall j, ks_noise c (fun i => cbd_f (words_of (block M i bits)) 10) p' j = X j bits).
      { intros j. unfold X. apply ks_noise_ext. intros i l Hi Hl. apply (rep_pb_inj c p' p i l); auto. congruence. }
      assert (G : forall l, (forall j, In j l -> (j < 8)%nat) ->
        foldM (fun _ b => rassert (Z.min (bitlen b) (bitlen (cx_Q c - b)) <=? 70)) (map (fun j => (- ks_noise c (fun i => cbd_f (words_of (block M i bits)) 10) p' j) mod cx_Q c) l) tt = Ok tt).
      { induction l as [|j l IH]; intros Hl; [reflexivity|]. cbn [map foldM]. rewrite rassert_true; [cbn [bind]; apply IH; intros; apply Hl; right; auto|].
        rewrite EN. specialize (NX j (Hl j (or_introl eq_refl))). set (x := X j bits) in *. clearbody x. apply Z.leb_le.
        change (2 ^ (61 * Z.of_nat 2)) with 5316911983139663491615228241121378304 in HQ. set (Q := cx_Q c) in *. clearbody Q. clear - HQ NX. change (2 ^ 70) with 1180591620717411303424 in NX.
        destruct (Z.le_gt_cases x 0) as [H|H].
        - rewrite Z.mod_small by lia. pose proof (bitlen_le (- x) 70 ltac:(lia) ltac:(change (2 ^ 70) with 1180591620717411303424; lia)). lia.
        - replace ((- x) mod Q) with (Q - x) by (apply Z.mod_unique with (-1); lia).
          replace (Q - (Q - x)) with x by ring. pose proof (bitlen_le x 70 ltac:(lia) ltac:(change (2 ^ 70) with 1180591620717411303424; lia)). lia. }
      rewrite G in HF; [discriminate|]. intros j Hj. apply in_seq in Hj. lia.
    - intros j Hj. unfold X. pose proof (noise_tail P 0 c LV 10 M p j (2 ^ 70) 205) as T. rewrite DC in T. rewrite HK in *. apply T; [exact Hj|lia|lia|apply Z.pow_nonneg; lia]. }
  set (C := countb _ _) in *. clearbody C. set (S := sumn _ _) in *. assert (S0 : 0 <= S).
  { apply sumn_nonneg. intros i _. apply Z.square_nonneg. }
  clearbody S. clear - UB QB S0. pose proof test_numbers as TN.
  change (Z.of_nat 8) with 8 in UB. change (Z.of_nat 10) with 10 in UB. 
  set (A := 2 * (4611686018427387904 * 4611686018427387904)) in *.
  assert (PO : 0 <= odd_product 205) by (vm_compute; discriminate).
  assert (MP : (10 * (8 * S)) ^ Z.of_nat 205 <= (10 * (8 * A)) ^ Z.of_nat 205) by (apply Z.pow_le_mono_l; clear - S0 QB; lia).
  change (Z.of_nat 205) with 205 in *. 
  assert (PD : 0 < (2 ^ 70) ^ (2 * 205)) by (vm_compute; reflexivity). assert (P2 : 0 < 2 ^ 291) by (vm_compute; reflexivity).
  assert (PN : 0 < 2 ^ Z.of_nat (2 * M)) by (clear; apply Z.pow_pos_nonneg; lia).
  revert UB TN MP PO PD P2 PN. generalize (2 ^ Z.of_nat (2 * M)) ((2 ^ 70) ^ (2 * 205)) (2 ^ 291) (odd_product 205) ((10 * (8 * S)) ^ 205) ((10 * (8 * A)) ^ 205). clear.
  intros N D t o s a UB TN MP PO PD P2 PN. apply (Z.mul_le_mono_pos_r _ _ D); [exact PD|].
  apply Z.le_trans with (8 * (o * s * N) * t). { replace (C * t * D) with (C * D * t) by ring. apply Z.mul_le_mono_nonneg_r; lia. }
  apply Z.le_trans with (N * (8 * (o * a) * t)); [|apply Z.mul_le_mono_nonneg_l; lia].
  replace (8 * (o * s * N) * t) with ((8 * N * t * o) * s) by ring. replace (N * (8 * (o * a) * t)) with ((8 * N * t * o) * a) by ring.
  apply Z.mul_le_mono_nonneg_l; [|exact MP]. repeat (apply Z.mul_nonneg_nonneg; [|lia]). lia.
Qed.

(*EXAMPLE
(** One sample of variance 1: of the 16 outcomes two have magnitude 2 or more; the
    bounds for k = 1 and k = 2 are 2 * 2^2 <= 16 and 2 * 2^4 <= 3 * 16. *)
Example C81_example :
  (countb 4 (fun bits => match sample_vec_cbd Debug 1 1 (words_of bits) with
                         | Ok x => 2 <=? Z.abs (sumn 1 (fun i => 1 * nth i x 0)) | _ => true end), odd_product 2, odd_product 3) = (2, 3, 15).
Proof. vm_compute. reflexivity. Qed.
(** A rotation with a key whose errors are read from given bits. *)
Example C81_example_rotate :
  (P <- test_bfv Debug ;; c <- tctx P ;; let sk := mkSk P [1; -1; 0; 1; 1; 0; 2; -1] in
   let M := (4 * Z.to_nat (bp_variance P) * 8)%nat in let bits := map (fun i => Nat.odd (i * i / 3)) (seq 0 (cx_k c * M)) in
   pa <- pt_new Debug P [2; 3; 0; 0; 0; 0; 5] 0 EncPoly ;;
   a <- encrypt Debug sk pa (trows bms 4) (tw 5) ;;
   Ok (decrypts_to (g <- subst_new Debug c 3 ;; gk <- galois_new Debug sk g 0 (mkRnd (rnd_rows (trnd 3)) (fun l => words_of (block M l bits))) ;;
                    b <- galois_relinearize Debug gk a ;; decrypt Debug sk b) [2; 0; 5; 3; 0; 0; 0; 0])) = Ok true.
Proof. vm_compute. reflexivity. Qed.
EXAMPLE*)
