(** Substitution X -> X^e. *)
From Verif Require Import PBase NT Spec PSum MModulus MUtils MNtt MRns MRq PModulus PNttMath PNtt PNttNew PCrt PRns PRnsScale PUtils2 SpecRq PRq PRq2.

Lemma land_pow2_mask a L : Z.land a (Z.of_nat (2 ^ L) - 1) = a mod Z.of_nat (2 ^ L).
Proof.
  rewrite pow2_Z. rewrite <- Z.land_ones by lia. f_equal. rewrite Z.ones_equiv. lia.
Qed.
Lemma land_pow2_bit a L : Z.land a (Z.of_nat (2 ^ L)) =? 0 = Z.even (a / Z.of_nat (2 ^ L)).
Proof.
  rewrite pow2_Z. rewrite <- Z.shiftr_div_pow2 by lia.
  assert (E : Z.land a (2 ^ Z.of_nat L) = if Z.testbit a (Z.of_nat L) then 2 ^ Z.of_nat L else 0).
  { apply Z.bits_inj'. intros i Hi. rewrite Z.land_spec, Z.pow2_bits_eqb by lia.
    destruct (Z.eqb_spec (Z.of_nat L) i) as [<-|Hne].
    - destruct (Z.testbit a (Z.of_nat L)) eqn:T; cbn [andb]; [rewrite Z.pow2_bits_true by lia; auto|rewrite Z.bits_0; auto].
    - rewrite andb_false_r. destruct (Z.testbit a (Z.of_nat L)); [|rewrite Z.bits_0; auto].
      rewrite Z.pow2_bits_false; auto. }
  rewrite E. rewrite <- Z.negb_odd. replace (Z.odd (Z.shiftr a (Z.of_nat L))) with (Z.testbit a (Z.of_nat L)).
  - destruct (Z.testbit a (Z.of_nat L)); cbn [negb]; [|reflexivity].
    apply Z.eqb_neq. apply Z.pow_nonzero; lia.
  - rewrite <- Z.bit0_odd, Z.shiftr_spec, Z.add_0_l by lia. reflexivity.
Qed.

(** A counter that wraps at 2^64 has the low bits of the exact one. *)
Lemma land_wrap a y : 0 <= y < 2 ^ 64 -> Z.land (a mod 2 ^ 64) y = Z.land a y.
Proof.
  intros H. rewrite <- Z.land_ones, <- Z.land_assoc by lia. f_equal. rewrite Z.land_comm, Z.land_ones by lia. apply Z.mod_small. exact H.
Qed.
Lemma add64_wrap pr a b : 0 <= a -> 0 <= b < 2 ^ 64 -> pr = Release \/ a + b < 2 ^ 64 -> add64 pr (a mod 2 ^ 64) b = Ok ((a + b) mod 2 ^ 64).
Proof.
  intros Ha Hb HF. rewrite <- (Zplus_mod_idemp_l a b). pose proof (Z.mod_pos_bound a (2 ^ 64) ltac:(lia)) as R. unfold add64, chk. change W64 with (2 ^ 64).
  destruct (Z.ltb_spec (a mod 2 ^ 64 + b) (2 ^ 64)) as [HL|HL].
  - rewrite (proj2 (Z.leb_le _ _)) by lia. cbn [andb]. rewrite (Z.mod_small (a mod 2 ^ 64 + b)) by lia. reflexivity.
  - rewrite andb_false_r. destruct HF as [->|HF]; [reflexivity|]. rewrite Z.mod_small in HL by lia. lia.
Qed.

(** The PowerBasis loop on one row, with an exact counter. *)
Fixpoint row_loop (pr : profile) (degree : nat) (e : Z) (q : Modulus) (src : list Z) (count : nat)
         (j : nat) (power : Z) (dst : list Z) : outcome (list Z) :=
  match count with
  | O => Ok dst
  | S c => dst' <- subst_pb_step pr degree power j dst q src ;; row_loop pr degree e q src c (S j) (power + e) dst'
  end.

(** Running the columns over all rows is running every row on its own. *)
Lemma subst_pb_loop_rows pr L e (ms : nat -> Modulus) (src : nat -> list Z) k : (L <= 60)%nat -> 0 <= e < 2 ^ 64 ->
  forall count j power (D R : nat -> list Z),
  0 <= power -> pr = Release \/ power + Z.of_nat count * e < 2 ^ 64 ->
  (forall i, (i < k)%nat -> row_loop pr (2 ^ L) e (ms i) (src i) count j power (D i) = Ok (R i)) ->
  subst_pb_loop pr (2 ^ L) e (combine (map ms (seq 0 k)) (map src (seq 0 k))) count j (power mod 2 ^ 64) (map D (seq 0 k)) = Ok (map R (seq 0 k)).
Proof.
  intros HL He. assert (HN : 0 < Z.of_nat (2 ^ L) < 2 ^ 64).
  { rewrite pow2_Z. split; [apply Z.pow_pos_nonneg; lia|apply Z.pow_lt_mono_r; lia]. }
  induction count as [|count IH]; intros j power D R Hp HF H.
  - cbn [subst_pb_loop]. f_equal. apply map_seq_ext. intros i Hi. specialize (H i Hi). cbn [row_loop] in H. apply Ok_inj in H. exact H.
  - cbn [subst_pb_loop]. rewrite combine_map.
    set (D' i := match subst_pb_step pr (2 ^ L) power j (D i) (ms i) (src i) with Ok x => x | _ => [] end).
    rewrite (zipM_upd_seq _ D D').
    2:{ intros i Hi. cbn [fst snd]. specialize (H i Hi). cbn [row_loop] in H. unfold D'.
        replace (subst_pb_step pr (2 ^ L) (power mod 2 ^ 64) j (D i) (ms i) (src i)) with (subst_pb_step pr (2 ^ L) power j (D i) (ms i) (src i)).
        - destruct (subst_pb_step pr (2 ^ L) power j (D i) (ms i) (src i)); cbn [bind] in H; try discriminate; reflexivity.
        - unfold subst_pb_step. rewrite !land_wrap by lia. reflexivity. }
    cbn [bind]. rewrite add64_wrap; [|lia|lia|destruct HF as [HF|HF]; [left; exact HF|right; nia]]. cbn [bind].
    rewrite <- combine_map. apply IH; [lia|destruct HF as [HF|HF]; [left; exact HF|right; lia]|].
    intros i Hi. specialize (H i Hi). cbn [row_loop] in H. unfold D'.
    destruct (subst_pb_step pr (2 ^ L) power j (D i) (ms i) (src i)); cbn [bind] in H; try discriminate. exact H.
Qed.

Section PB.
Variables (pr : profile) (m : Modulus) (L : nat) (e : nat).
Hypothesis V : valid_mod m.
Let q := mp m.
Let n := (2 ^ L)%nat.

Lemma row_loop_ok src : length src = n -> (forall j, (j < n)%nat -> 0 <= nth j src 0 < q) ->
  forall count j dst, (j + count <= n)%nat -> length dst = n -> (forall k, (k < n)%nat -> 0 <= nth k dst 0 < q) ->
  exists r, row_loop pr n (Z.of_nat e) m src count j (Z.of_nat (j * e)) dst = Ok r
    /\ length r = n /\ (forall k, (k < n)%nat -> 0 <= nth k r 0 < q)
    /\ forall k, (k < n)%nat -> eqm q (nth k r 0) (nth k dst 0 + sumn count (fun i => nth (j + i) src 0 * mono n k ((j + i) * e))).
Proof.
  intros Ls Rs. pose proof (pow2_pos L) as Hn0. fold n in Hn0. pose proof (valid_range m V) as Hq. fold q in Hq.
  induction count as [|count IH]; intros j dst Hj Ld Rd.
  - exists dst. split; auto. split; auto. split; auto. intros k Hk. apply eq_eqm. cbn [sumn]. ring.
  - cbn [row_loop]. unfold subst_pb_step. rewrite (get_ok _ j 0) by lia. cbn [bind].
    unfold n at 1 2 3. rewrite land_pow2_mask, land_pow2_bit. fold n.
    set (kk := ((j * e) mod n)%nat).
    assert (Ek : Z.to_nat (Z.of_nat (j * e) mod Z.of_nat n) = kk).
    { rewrite <- Nat2Z.inj_mod. apply Nat2Z.id. }
    assert (Ed : Z.even (Z.of_nat (j * e) / Z.of_nat n) = Nat.even (j * e / n)).
    { rewrite <- Nat2Z.inj_div. destruct (Nat.even (j * e / n)) eqn:E.
      - apply Z.even_spec. apply Nat.even_spec in E. destruct E as [u E]. exists (Z.of_nat u). lia.
      - rewrite <- Z.negb_odd. apply negb_false_iff. apply Z.odd_spec. rewrite <- Nat.negb_odd in E.
        apply negb_false_iff, Nat.odd_spec in E. destruct E as [u E]. exists (Z.of_nat u). lia. }
    assert (Hkk : (kk < n)%nat) by (apply Nat.mod_upper_bound; lia).
    rewrite Ek, Ed. rewrite (get_ok _ kk 0) by lia. cbn [bind].
    assert (SS : exists v, (if negb (Nat.even (j * e / n)) then msub pr m (nth kk dst 0) (nth j src 0)
        else madd pr m (nth kk dst 0) (nth j src 0)) = Ok v /\ 0 <= v < q
        /\ eqm q v (nth kk dst 0 + nth j src 0 * mono n kk (j * e))).
    { unfold mono. fold kk. rewrite Nat.eqb_refl. destruct (Nat.even (j * e / n)); cbn [negb].
      - rewrite madd_ok by (auto; apply Rd || apply Rs; lia). eexists. split; [reflexivity|]. fold q.
        split; [apply Z.mod_pos_bound; lia|]. rewrite eqm_mod. apply eq_eqm. ring.
      - rewrite msub_ok by (auto; apply Rd || apply Rs; lia). eexists. split; [reflexivity|]. fold q.
        split; [apply Z.mod_pos_bound; lia|]. rewrite eqm_mod. apply eq_eqm. ring. }
    destruct SS as [v [Ev [Rv Cv]]]. rewrite Ev. cbn [bind]. rewrite set_ok by lia. cbn [bind].
    replace (Z.of_nat (j * e) + Z.of_nat e) with (Z.of_nat (S j * e)) by lia.
    destruct (IH (S j) (upd dst kk v)) as [r [Er [Lr [Rr Cr]]]]; try lia.
    + rewrite upd_length. auto.
    + intros k Hk. destruct (Nat.eq_dec kk k) as [<-|Hne].
      * rewrite upd_nth_same by lia. auto.
      * rewrite upd_nth_other by auto. auto.
    + exists r. split; auto. split; auto. split; auto. intros k Hk. rewrite (Cr k Hk). rewrite sumn_S_l.
      rewrite Nat.add_0_r.
      assert (EE : sumn count (fun i => nth (S j + i) src 0 * mono n k ((S j + i) * e))
                 = sumn count (fun i => nth (j + S i) src 0 * mono n k ((j + S i) * e))).
      { apply sumn_ext. intros i Hi. replace (S j + i)%nat with (j + S i)%nat by lia. reflexivity. }
      rewrite EE. rewrite Z.add_assoc. apply eqm_add; [|reflexivity].
      destruct (Nat.eq_dec kk k) as [<-|Hne].
      * rewrite upd_nth_same by lia. exact Cv.
      * rewrite upd_nth_other by auto. unfold mono. fold kk. apply Nat.eqb_neq in Hne. rewrite Hne. apply eq_eqm. ring.
Qed.
End PB.

(** The NTT branch: scattering along an injective index map. *)
Lemma scatter_ok (src dst : list Z) (a b : nat -> nat) N :
  (forall i, (i < N)%nat -> (a i < length src)%nat /\ (b i < length dst)%nat) ->
  (forall i j, (i < N)%nat -> (j < N)%nat -> b i = b j -> i = j) ->
  exists r, subst_ntt_row (map a (seq 0 N)) (map b (seq 0 N)) src dst = Ok r /\ length r = length dst
    /\ (forall i, (i < N)%nat -> nth (b i) r 0 = nth (a i) src 0).
Proof.
  intros H. unfold subst_ntt_row. rewrite combine_map. induction N as [|N IH]; intros Hinj.
  - exists dst. split; [reflexivity|]. split; auto. intros; lia.
  - destruct IH as [r [E [Lr Nr]]]; auto. rewrite seq_S, map_app, foldM_app. rewrite E. cbn [bind map foldM fst snd].
    rewrite Nat.add_0_l. destruct (H N ltac:(lia)) as [H1 H2].
    rewrite (get_ok _ _ 0) by auto. cbn [bind]. rewrite set_ok by lia. cbn [bind].
    exists (upd r (b N) (nth (a N) src 0)). split; auto. split; [rewrite upd_length; auto|].
    intros i Hi. destruct (Nat.eq_dec i N) as [->|Hne].
    + rewrite upd_nth_same by lia. reflexivity.
    + rewrite upd_nth_other by (intros C; apply Hne; apply Hinj; auto; lia). apply Nr. lia.
Qed.

Lemma subst_loop_eq pr deg mask e : 0 <= mask < 2 ^ 64 -> 0 <= e < 2 ^ 64 -> forall count power,
  0 <= power -> pr = Release \/ power + Z.of_nat count * e < 2 ^ 64 ->
  subst_loop pr deg mask e (power mod 2 ^ 64) count
  = Ok (map (fun i => Z.to_nat (bitrev_usize deg (Z.land (power + Z.of_nat i * e) mask))) (seq 0 count)).
Proof.
  intros Hm He. induction count as [|count IH]; intros power Hp HF; [reflexivity|].
  cbn [subst_loop seq map]. rewrite land_wrap by lia. rewrite add64_wrap; [|lia|lia|destruct HF as [HF|HF]; [left; exact HF|right; nia]]. cbn [bind].
  rewrite IH; [|lia|destruct HF as [HF|HF]; [left; exact HF|right; lia]]. cbn [bind]. f_equal. f_equal.
  - f_equal. f_equal. f_equal. lia.
  - rewrite <- seq_shift, map_map. apply map_ext. intros i. f_equal. f_equal. f_equal. lia.
Qed.
(** Where the loop returns, a debug build has not overflowed; where it would, it panics. *)
Lemma subst_loop_debug deg mask e : 0 <= e -> forall count power, 0 <= power -> power < 2 ^ 64 ->
  (exists v, subst_loop Debug deg mask e power count = Ok v /\ power + Z.of_nat count * e < 2 ^ 64)
  \/ subst_loop Debug deg mask e power count = Panic /\ 2 ^ 64 <= power + Z.of_nat count * e.
Proof.
  intros He. induction count as [|count IH]; intros power Hp HP.
  - left. exists []. split; [reflexivity|]. lia.
  - cbn [subst_loop]. unfold add64, chk. change W64 with (2 ^ 64). rewrite (proj2 (Z.leb_le 0 _)) by lia. cbn [andb].
    destruct (Z.ltb_spec (power + e) (2 ^ 64)) as [HL|HL]; cbn [bind].
    + destruct (IH (power + e)) as [[v [E H]]|[E H]]; try lia; rewrite E; cbn [bind]; [left; eexists; split; [reflexivity|lia]|right; split; [reflexivity|lia]].
    + right. split; [reflexivity|]. nia.
Qed.

Lemma pw_mod_2n p psi n a b : eqm p (pw psi n) (-1) -> (0 < n)%nat -> (a mod (2 * n) = b mod (2 * n))%nat -> eqm p (pw psi a) (pw psi b).
Proof.
  intros H Hn E.
  assert (G : forall a, eqm p (pw psi a) (pw psi (a mod (2 * n)))).
  { intros x. rewrite (Nat.div_mod x (2 * n)) at 1 by lia. rewrite pw_add. rewrite pw_mul.
    rewrite (pw_eqm p (pw psi (2 * n)) 1); [rewrite pw_one; apply eq_eqm; ring|].
    rewrite Nat.mul_comm, pw_mul. rewrite (pw_eqm p _ (-1)) by auto. apply eq_eqm. reflexivity. }
  rewrite (G a), (G b), E. reflexivity.
Qed.

Section Ctx.
Variables (pr : profile) (c : RqContext).
Hypothesis W : wf_loc c.
Let n := rq_degree c.
Let k := cx_k c.
Let L := cx_L c.

(** The counter of the substitution loops stays below 2^64. *)
Definition sfits (x : Z) : Prop := let e := x mod (2 * Z.of_nat n) in pr = Release \/ (e - 1) / 2 + Z.of_nat n * e < 2 ^ 64.

Lemma n_64 : Z.of_nat n <= 2 ^ 60.
Proof. unfold n. rewrite (wl_n _ W), pow2_Z. apply Z.pow_le_mono_r; pose proof (wl_L _ W); lia. Qed.

Lemma sfits_small x : Z.of_nat n <= 2 ^ 31 -> sfits x.
Proof.
  intros H. right. pose proof (cx_n8 c W) as Hn. fold n in Hn. pose proof (Z.mod_pos_bound x (2 * Z.of_nat n) ltac:(lia)) as B.
  set (e := x mod (2 * Z.of_nat n)) in *. clearbody e. assert ((e - 1) / 2 < Z.of_nat n) by (apply Z.div_lt_upper_bound; lia). nia.
Qed.

Lemma small_fits x : small_degree pr n -> sfits x.
Proof. intros [H|H]; [left; exact H|apply sfits_small; exact H]. Qed.

Lemma subst_new_ok x : 0 <= x -> x mod 2 = 1 -> sfits x ->
  subst_new pr c x = Ok (mkSubst (x mod (2 * Z.of_nat n))
    (map (fun i => bitrev L (((Z.to_nat (x mod (2 * Z.of_nat n)) - 1) / 2 + i * Z.to_nat (x mod (2 * Z.of_nat n))) mod n)) (seq 0 n))).
Proof.
  intros Hx Ho HF. pose proof (cx_n8 c W) as Hn. fold n in Hn. pose proof n_64 as H64. unfold sfits in HF. cbv zeta in HF. unfold subst_new. fold n.
  rewrite umod_ok by lia. cbn [bind]. set (e := x mod (2 * Z.of_nat n)) in *.
  assert (Be : 0 <= e < 2 * Z.of_nat n) by (apply Z.mod_pos_bound; lia).
  assert (Oe : e mod 2 = 1).
  { unfold e. rewrite <- Ho. symmetry. apply Zmod_div_mod; try lia. apply Z.divide_factor_l. }
  change 1 with (Z.ones 1) at 1. rewrite Z.land_ones by lia. change (2 ^ 1) with 2. rewrite Oe. cbn [rassert bind Z.eqb Pos.eqb].
  rewrite shiftr_div by lia. change (2 ^ 1) with 2.
  assert (E1 : 1 <= e) by (destruct (Z.eq_dec e 0) as [E0|]; [rewrite E0 in Oe; discriminate|lia]).
  assert (Hh : 0 <= (e - 1) / 2 < Z.of_nat n) by (split; [apply Z.div_pos; lia|apply Z.div_lt_upper_bound; lia]).
  rewrite <- (Z.mod_small ((e - 1) / 2) (2 ^ 64)) at 1 by lia.
  rewrite subst_loop_eq by (auto; lia). cbn [bind].
  f_equal. f_equal. apply map_seq_ext. intros i Hi.
  unfold n at 1 2. rewrite (wl_n _ W). rewrite land_pow2_mask. rewrite <- (wl_n _ W). fold n.
  assert (Ez : ((e - 1) / 2 + Z.of_nat i * e) mod Z.of_nat n = Z.of_nat (((Z.to_nat e - 1) / 2 + i * Z.to_nat e) mod n)).
  { rewrite Nat2Z.inj_mod, Nat2Z.inj_add, Nat2Z.inj_div, Nat2Z.inj_mul, Nat2Z.inj_sub by dlia.
    rewrite Z2Nat.id by lia. reflexivity. }
  rewrite Ez. set (v := (((Z.to_nat e - 1) / 2 + i * Z.to_nat e) mod n)%nat).
  assert (Bv : (v < n)%nat) by (apply Nat.mod_upper_bound; lia).
  assert (EL : n = (2 ^ L)%nat) by apply (wl_n _ W). pose proof (wl_L _ W) as HL. fold L in HL.
  clearbody v. clear - EL HL Bv. rewrite EL. rewrite bitrev_usize_ok by lia. apply Nat2Z.id.
Qed.
Lemma subst_new_even x : 0 <= x -> x mod 2 = 0 -> subst_new pr c x = Panic.
Proof.
  intros Hx Ho. pose proof (cx_n8 c W) as Hn. fold n in Hn. unfold subst_new. fold n.
  rewrite umod_ok by lia. cbn [bind].
  assert (Oe : (x mod (2 * Z.of_nat n)) mod 2 = 0).
  { rewrite <- Ho. symmetry. apply Zmod_div_mod; try lia. apply Z.divide_factor_l. }
  change 1 with (Z.ones 1) at 1. rewrite Z.land_ones by lia. change (2 ^ 1) with 2. rewrite Oe. reflexivity.
Qed.

(** An odd exponent is accepted exactly when the counter fits. *)
Lemma subst_new_over x : 0 <= x -> x mod 2 = 1 -> ~ sfits x -> subst_new pr c x = Panic.
Proof.
  intros Hx Ho HP. pose proof (cx_n8 c W) as Hn. fold n in Hn. pose proof n_64 as H64. unfold sfits in HP. cbv zeta in HP. unfold subst_new. fold n.
  rewrite umod_ok by lia. cbn [bind]. set (e := x mod (2 * Z.of_nat n)) in *.
  assert (Be : 0 <= e < 2 * Z.of_nat n) by (apply Z.mod_pos_bound; lia).
  assert (Oe : e mod 2 = 1).
  { unfold e. rewrite <- Ho. symmetry. apply Zmod_div_mod; try lia. apply Z.divide_factor_l. }
  change 1 with (Z.ones 1) at 1. rewrite Z.land_ones by lia. change (2 ^ 1) with 2. rewrite Oe. cbn [rassert bind Z.eqb Pos.eqb].
  rewrite shiftr_div by lia. change (2 ^ 1) with 2. destruct pr; [|contradiction HP; left; reflexivity].
  assert (E1 : 1 <= e) by (destruct (Z.eq_dec e 0) as [E0|]; [rewrite E0 in Oe; discriminate|lia]).
  assert (Hh : 0 <= (e - 1) / 2 < Z.of_nat n) by (split; [apply Z.div_pos; lia|apply Z.div_lt_upper_bound; lia]).
  destruct (subst_loop_debug n (Z.of_nat n - 1) e ltac:(lia) n ((e - 1) / 2) ltac:(lia) ltac:(lia)) as [[v [_ H]]|[E _]]; [contradiction HP; right; exact H|].
  rewrite E. reflexivity.
Qed.
Lemma sfits_dec x : sfits x \/ ~ sfits x.
Proof.
  unfold sfits. cbv zeta. set (z := _ + _). destruct pr; [|left; left; reflexivity].
  destruct (Z_lt_dec z (2 ^ 64)); [left; right; assumption|right; intros [H|H]; [discriminate|contradiction]].
Qed.
Lemma subst_new_inv x s : 0 <= x -> subst_new pr c x = Ok s -> x mod 2 = 1 /\ sfits x.
Proof.
  intros Hx H. assert (Ho : x mod 2 = 1).
  { pose proof (Z.mod_pos_bound x 2 ltac:(lia)). destruct (Z.eq_dec (x mod 2) 0) as [Z0|]; [|lia].
    rewrite subst_new_even in H by auto. discriminate. }
  split; [exact Ho|]. destruct (sfits_dec x) as [|HN]; [assumption|]. rewrite subst_new_over in H by auto. discriminate.
Qed.

Lemma subst_row_pb f e i : (i < k)%nat ->
  row_loop pr n (Z.of_nat e) (cx_m c i) (rrow c PowerBasis f i) n 0 0 (map (fun _ => 0) (seq 0 n))
  = Ok (rrow c PowerBasis (rsubst n e f) i).
Proof.
  intros Hi. destruct (cx_mod c W i Hi) as [Vm Em]. pose proof (cx_range c W i Hi) as R.
  destruct (row_loop_ok pr (cx_m c i) (cx_L c) e Vm (rrow c PowerBasis f i)) with (count := n) (j := 0%nat) (dst := map (fun _ : nat => 0) (seq 0 n))
    as [r [E [Lr [Rr Cr]]]]; try rewrite <- (wl_n _ W); fold n; try rewrite len_seq; auto.
  - apply len_seq.
  - intros j Hj. rewrite row_nth by auto. rewrite Em. apply rep_entry_range; auto.
  - intros j Hj. rewrite nth_map_seq by auto. rewrite Em. lia.
  - rewrite <- (wl_n _ W) in E, Lr, Rr, Cr. fold n in E, Lr, Rr, Cr. rewrite Nat.mul_0_l in E. change (Z.of_nat 0) with 0 in E.
    rewrite E. f_equal. rewrite Em in *. apply nth_ext' with 0; [unfold rrow; rewrite len_seq; auto|].
    rewrite Lr. intros j Hj. rewrite row_nth by auto.
    apply eqm_small with (cx_q c i); auto; [apply rep_entry_range; auto|].
    rewrite (Cr j Hj). rewrite nth_map_seq by auto. rewrite Z.add_0_l. cbn [rep_entry]. rewrite eqm_mod.
    apply sumn_eqm. intros u Hu. rewrite Nat.add_0_l. rewrite row_nth by auto. cbn [rep_entry].
    rewrite eqm_mod. reflexivity.
Qed.

Lemma subst_row_ntt r f e i : (i < k)%nat -> r <> PowerBasis -> Nat.odd e = true ->
  subst_ntt_row (map (fun i => bitrev L (((e - 1) / 2 + i * e) mod n)) (seq 0 n)) (rq_bitrev c)
    (rrow c r f i) (map (fun _ => 0) (seq 0 n)) = Ok (rrow c r (rsubst n e f) i).
Proof.
  intros Hi Hr Ho. pose proof (cx_n8 c W) as Hn. fold n in Hn. pose proof (cx_range c W i Hi) as R.
  assert (EL : n = (2 ^ L)%nat) by apply (wl_n _ W).
  rewrite (wl_bitrev _ W). fold L. fold n.
  destruct (scatter_ok (rrow c r f i) (map (fun _ => 0) (seq 0 n)) (fun i => bitrev L (((e - 1) / 2 + i * e) mod n)) (bitrev L) n)
    as [x [E [Lx Nx]]].
  - intros j Hj. unfold rrow. rewrite !len_seq. fold n. rewrite EL. split; apply bitrev_lt.
  - intros a b Ha Hb. apply bitrev_inj; lia.
  - rewrite E. f_equal. rewrite len_seq in Lx. apply nth_ext' with 0; [unfold rrow; rewrite len_seq; auto|].
    rewrite Lx. intros j Hj. rewrite row_nth by auto.
    assert (Bj : (bitrev L j < n)%nat) by (rewrite EL; apply bitrev_lt).
    assert (Ej : j = bitrev L (bitrev L j)) by (rewrite bitrev_invol; lia).
    rewrite Ej at 1. rewrite Nx by auto.
    set (u := bitrev L j) in *. set (v := (((e - 1) / 2 + u * e) mod n)%nat).
    assert (Bv : (v < n)%nat) by (apply Nat.mod_upper_bound; lia).
    rewrite row_nth by (fold n; rewrite EL; apply bitrev_lt).
    rewrite !(entry_nonpb c r) by auto. cbn [rep_entry]. fold n L u.
    apply Nat.odd_spec in Ho. destruct Ho as [h Ho].
    set (y := cx_psi c i ^ Z.of_nat (2 * u + 1)).
    transitivity (peval n f (pw y e) mod cx_q c i).
    + apply peval_point. rewrite bitrev_invol by lia. unfold y. fold (pw (cx_psi c i) (2 * v + 1)). fold (pw (cx_psi c i) (2 * u + 1)).
      rewrite <- pw_mul. destruct (wl_op _ W i Hi) as [Ep Wn]. pose proof (wn_psi _ _ _ Wn) as P.
      rewrite Ep in P. destruct (cx_mod c W i Hi) as [_ Em]. rewrite Em in P. fold L in P. rewrite <- EL in P.
      apply pw_mod_2n with n; [exact P|clear - Hn; lia|].
      unfold v. replace ((e - 1) / 2)%nat with h by (subst e; rewrite Nat.add_sub, Nat.mul_comm, Nat.div_mul; lia).
      assert (N1 : ((2 * u + 1) * e = 2 * ((h + u * e) mod n) + 1 + (h + u * e) / n * (2 * n))%nat).
      { pose proof (Nat.div_mod (h + u * e) n ltac:(lia)) as D. remember ((h + u * e) mod n)%nat as x1.
        remember ((h + u * e) / n)%nat as x2. clear - D Ho. nia. }
      rewrite N1. rewrite Nat.mod_add by lia. reflexivity.
    + symmetry. apply peval_rsubst; [lia|]. unfold y, u. apply (cx_point_n c W i j Hi).
Qed.

Lemma rep_substitute r f x s : 0 <= x -> subst_new pr c x = Ok s ->
  poly_substitute pr (rep c r f) s = Ok (rep c r (rsubst n (Z.to_nat (x mod (2 * Z.of_nat n))) f)).
Proof.
  intros Hx Hs. pose proof (cx_n8 c W) as Hn. fold n in Hn.
  destruct (subst_new_inv x s Hx Hs) as [Ho HF]. pose proof n_64 as H64.
  rewrite subst_new_ok in Hs by auto. apply Ok_inj in Hs. subst s.
  set (e := Z.to_nat (x mod (2 * Z.of_nat n))).
  pose proof (Z.mod_pos_bound x (2 * Z.of_nat n) ltac:(lia)) as Be.
  assert (Ee : x mod (2 * Z.of_nat n) = Z.of_nat e) by (unfold e; lia).
  assert (Oe : Nat.odd e = true).
  { apply Nat.odd_spec. assert ((x mod (2 * Z.of_nat n)) mod 2 = 1).
    { rewrite <- Ho. symmetry. apply Zmod_div_mod; try lia. apply Z.divide_factor_l. }
    rewrite Ee in H. exists (e / 2)%nat. dlia. }
  unfold poly_substitute. rewrite rep_rows. cbn [p_ctx p_repr rep sub_exp sub_powers_bitrev].
  rewrite zero_rows_seq by auto. rewrite Ee. fold n k.
  destruct r.
  - rewrite cx_moduli by auto. fold k. pose proof (wl_L _ W) as HL.
    pose proof (subst_pb_loop_rows pr (cx_L c) (Z.of_nat e) (cx_m c) (rrow c PowerBasis f) k ltac:(lia) ltac:(lia) n 0 0
      (fun _ => map (fun _ => 0) (seq 0 n)) (rrow c PowerBasis (rsubst n e f)) ltac:(lia)) as X.
    rewrite <- (wl_n _ W) in X. fold n in X. change (0 mod 2 ^ 64) with 0 in X. rewrite X; [reflexivity| |].
    + unfold sfits in HF. cbv zeta in HF. rewrite Ee in HF. destruct HF as [HF|HF]; [left; exact HF|right].
      assert (0 <= (Z.of_nat e - 1) / 2). { apply Z.div_pos; [|lia]. apply Nat.odd_spec in Oe. destruct Oe as [h Oe]. lia. } lia.
    + intros i Hi. apply subst_row_pb; auto.
  - rewrite (zipM_upd_seq _ _ (rrow c Ntt (rsubst n e f))); [reflexivity|].
    intros i Hi. apply subst_row_ntt; auto. discriminate.
  - rewrite (zipM_upd_seq _ _ (rrow c NttShoup (rsubst n e f))); [reflexivity|].
    intros i Hi. apply subst_row_ntt; auto. discriminate.
Qed.
End Ctx.
