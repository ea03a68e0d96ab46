(** Claim C35, continued: what the operator [*] of ciphertexts computes. *)
From Verif Require Import PBase NT Spec PSum MModulus MUtils MNtt MRns MRq MBfv MKsk MGalois PModulus PUtils PNttMath PNtt PNttNew PCrt PRns PRnsScale PUtils2 SpecRq SpecBfv SpecKsk PRing PRq PRq2 PRq3 PRq4 PRq5 QRq PBfv PBfv2 PBfv3 QBfv PKsk PGal PRingT PMul PMul2 TestEnv TestBfv.

Lemma upd_map_seq {A} (h : nat -> A) N p v : (p < N)%nat ->
  upd (map h (seq 0 N)) p v = map (fun k => if (k =? p)%nat then v else h k) (seq 0 N).
Proof.
  intros Hp. apply (nth_ext _ _ v v).
  { rewrite upd_length, !map_length. reflexivity. }
  rewrite upd_length, map_length, seq_length. intros k Hk.
  rewrite nth_map_seq by auto. destruct (Nat.eqb_spec k p) as [->|E].
  - rewrite upd_nth_same; auto. rewrite map_length, seq_length. auto.
  - rewrite upd_nth_other by auto. rewrite nth_map_seq by auto. reflexivity.
Qed.

(** Writing a table of entries along its antidiagonals keeps the entry with the
    largest first index. *)
Section Table.
Context {A : Type}.
Variables (step : list A -> nat * nat -> outcome (list A)) (e : nat -> nat -> A) (z : A).
Variables (la lb : nat).
Hypothesis ST : forall cs a b, (a < la)%nat -> (b < lb)%nat -> step cs (a, b) = set cs (a + b) (e a b).
Let N := (la + lb - 1)%nat.

Lemma table_row a h m : (a < la)%nat -> (m <= lb)%nat ->
  foldM step (map (pair a) (seq 0 m)) (map h (seq 0 N))
  = Ok (map (fun k => if ((a <=? k) && (k <? a + m))%nat then e a (k - a) else h k) (seq 0 N)).
Proof.
  intros Ha. induction m as [|m IH]; intros Hm.
  - cbn [seq map foldM]. f_equal. apply map_seq_ext. intros k Hk.
    destruct (Nat.leb_spec a k); destruct (Nat.ltb_spec k (a + 0)); cbn [andb]; auto; lia.
  - rewrite seq_S, map_app, foldM_app, IH by lia. cbn [bind map foldM]. rewrite ST by lia.
    rewrite set_ok by (rewrite map_length, seq_length; unfold N; lia). cbn [bind plus]. rewrite upd_map_seq by (unfold N; lia).
    f_equal. apply map_seq_ext. intros k Hk.
    destruct (Nat.eqb_spec k (a + m)) as [->|E].
    + destruct (Nat.leb_spec a (a + m)); destruct (Nat.ltb_spec (a + m) (a + S m)); cbn [andb]; try lia. f_equal. lia.
    + destruct (Nat.leb_spec a k); destruct (Nat.ltb_spec k (a + m)); destruct (Nat.ltb_spec k (a + S m)); cbn [andb]; auto; lia.
Qed.

Lemma table_rows m : (m <= la)%nat -> (1 <= lb)%nat ->
  foldM step (list_prod (seq 0 m) (seq 0 lb)) (map (fun _ => z) (seq 0 N))
  = Ok (map (fun k => if (k <? m + lb - 1)%nat then if (m =? 0)%nat then z else e (min k (m - 1)) (k - min k (m - 1)) else z) (seq 0 N)).
Proof.
  intros Hm Hlb. induction m as [|m IH].
  - cbn [seq list_prod foldM]. f_equal. apply map_seq_ext. intros k Hk. destruct (k <? 0 + lb - 1)%nat; reflexivity.
  - assert (EL : list_prod (seq 0 (S m)) (seq 0 lb) = list_prod (seq 0 m) (seq 0 lb) ++ map (pair m) (seq 0 lb)).
    { rewrite seq_S. change (0 + m)%nat with m. generalize (seq 0 m). intros l. induction l as [|x l IHl]; cbn [app list_prod plus].
      - rewrite app_nil_r. reflexivity.
      - rewrite IHl, app_assoc. reflexivity. }
    rewrite EL, foldM_app, IH by lia. cbn [bind]. rewrite table_row by lia. f_equal. apply map_seq_ext. intros k Hk.
    change (S m =? 0)%nat with false. cbn iota.
    replace (S m - 1)%nat with m by lia. replace (S m + lb - 1)%nat with (m + lb)%nat by lia.
    destruct (Nat.leb_spec m k); destruct (Nat.ltb_spec k (m + lb)); cbn [andb]; try lia.
    + rewrite (Nat.min_r k m) by lia. reflexivity.
    + destruct (Nat.ltb_spec k (m + lb - 1)); try lia. reflexivity.
    + destruct (Nat.eqb_spec m 0); [lia|]. rewrite (Nat.min_l k m), (Nat.min_l k (m - 1)) by lia.
      destruct (Nat.ltb_spec k (m + lb - 1)); [reflexivity|]. lia.
Qed.
End Table.

Local Notation big := 18014398509481984. (* 2^54 *)

Lemma mapM_scale pr sc x y N M fs : wf_loc x -> wf_loc y -> good_scaler pr 68 sc x y N M ->
  mapM (rq_scale pr sc) (map (rep x Ntt) fs) = Ok (map (fun f => rep y Ntt (scale_fun sc x N M f)) fs).
Proof.
  intros WX WY G. induction fs as [|f l IH]; [reflexivity|]. cbn [map mapM].
  rewrite (rep_scale pr 68 sc x y N M WX WY G) by discriminate. cbn [bind]. rewrite IH. reflexivity.
Qed.

Lemma repeat_seq {A} (z : A) m : repeat z m = map (fun _ => z) (seq 0 m).
Proof.
  induction m as [|m IH]; [reflexivity|]. rewrite seq_S, map_app, <- IH. cbn [map plus].
  clear. induction m as [|m IH]; [reflexivity|]. cbn [repeat app]. cbn [repeat] in IH. rewrite <- IH. reflexivity.
Qed.

(** Component k of the product is the single term a * b with the largest index
    into the first operand; the other terms of the convolution are dropped. *)
Lemma C35_actual_lem :
  forall pr P i c ec fs gs,
    built_params P -> level P i c -> get (bp_e_ctxs P) i = Ok ec ->
    small_basis (rq_moduli_64 c) -> small_basis (rq_moduli_64 ec) ->
    let n := bp_degree P in let Q := cx_Q c in let t := bp_t P in
    2 * Z.of_nat n * (Q * Q) <= cx_Q ec ->
    fs <> [] -> gs <> [] -> Z.of_nat (length fs + length gs) <= 2 ^ 50 ->
    exists lift D,
      ct_mul pr (ct_of P i c fs) (ct_of P i c gs) = Ok (ct_of P i c (map D (seq 0 (length fs + length gs - 1))))
      /\ (forall f j, eqm Q (lift f j) (f j) /\ 2 ^ 56 * Z.abs (lift f j) <= (2 ^ 55 + 1) * Q)
      /\ forall k j, (k < length fs + length gs - 1)%nat -> (j < n)%nat ->
           let a := min k (length fs - 1) in
           2 ^ 55 * Z.abs (Q * D k j - t * rmul n (lift (nth a fs (fun _ => 0))) (lift (nth (k - a) gs (fun _ => 0))) j) <= (2 ^ 54 + 1) * Q.
Proof.
  intros pr P i c ec fs gs BP L GE SB SE n Q t HE Hf Hg HL.
  pose proof (built_params_wf P BP) as WB. destruct (level_wf P i c WB L) as [_ LV].
  destruct (lv_mu _ _ _ LV) as [mu [e [ext [Gm [Ge [_ [Mt [We [_ [De [_ [Up Dn]]]]]]]]]]]].
  rewrite GE in Ge. apply Ok_inj in Ge. subst e. specialize (Up SB pr). specialize (Dn SE pr).
  pose proof (wf_ctx_loc _ We) as WE. pose proof (wf_ctx_loc _ (lv_wf _ _ _ LV)) as W.
  pose proof (cx_n8 c W) as Hn8. pose proof (cx_Q1 c W) as HQ. fold Q in HQ. pose proof (cx_Q1 ec WE) as HQE.
  pose proof (wf_t17 P WB) as Rt. fold t in Rt. rewrite (lv_n _ _ _ LV) in Hn8. fold n in Hn8, De.
  assert (Hn : (0 < n)%nat) by lia.
  set (lift := scale_fun (mu_up mu) c 1 1).
  set (la := length fs). set (lb := length gs).
  assert (Hla : (1 <= la)%nat) by (unfold la; destruct fs; [congruence|cbn [length]; lia]).
  assert (Hlb : (1 <= lb)%nat) by (unfold lb; destruct gs; [congruence|cbn [length]; lia]).
  fold la lb in HL.
  set (pp := fun a b => rmul n (lift (nth a fs (fun _ => 0))) (lift (nth b gs (fun _ => 0)))).
  set (D := fun k => scale_fun (mu_down mu) ec t Q (pp (min k (la - 1)) (k - min k (la - 1))%nat)).
  assert (UP : forall f j, eqm Q (lift f j) (f j) /\ 4 * big * Z.abs (lift f j) <= (2 * big + 1) * Q).
  { intros f j. apply up_coeff. apply (scale_fun_spec pr 68 (mu_up mu) c ec 1 1 W Up). }
  assert (DN : forall f j, 9 * Z.abs (f j) <= 4 * cx_Q ec -> 2 * big * Z.abs (Q * scale_fun (mu_down mu) ec t Q f j - t * f j) <= (big + 1) * Q).
  { intros f j Hff. apply down_coeff with (cx_Q ec); auto; [lia..|]. apply (scale_fun_spec pr 68 (mu_down mu) ec c t Q WE Dn). }
  exists lift, D. split; [|split].
  - unfold ct_mul. cbn [ct_of ct_params ct_level ct_cts]. rewrite Nat.eqb_refl. cbn [rassert bind]. rewrite Gm. cbn [bind].
    rewrite !(mapM_scale pr (mu_up mu) c ec 1 1 _ W WE Up). cbn [bind]. fold lift.
    rewrite !map_length. fold la lb. change (2 ^ 50) with 1125899906842624 in HL.
    unfold sub64, chk. replace ((0 <=? Z.of_nat (la + lb) - 1) && (Z.of_nat (la + lb) - 1 <? W64)) with true.
    2:{ symmetry. apply andb_true_intro. split; [apply Z.leb_le|apply Z.ltb_lt]; change W64 with 18446744073709551616; lia. }
    cbn [bind]. unfold vec_repeat. replace ((Z.of_nat (la + lb) - 1) * 80 <? W63) with true.
    2:{ symmetry. apply Z.ltb_lt. change W63 with 9223372036854775808. lia. }
    cbn [bind]. replace (Z.to_nat (Z.of_nat (la + lb) - 1)) with (la + lb - 1)%nat by lia.
    rewrite repeat_seq. rewrite (table_rows _ (fun a b => rep ec Ntt (pp a b)) _ la lb).
    2:{ intros cs a b Ha Hb. cbn [fst snd].
        rewrite (get_ok _ a (rep ec Ntt (lift (fun _ => 0)))) by (rewrite map_length; auto).
        rewrite (map_nth (fun f => rep ec Ntt (lift f))). cbn [bind].
        rewrite (get_ok _ b (rep ec Ntt (lift (fun _ => 0)))) by (rewrite map_length; auto).
        rewrite (map_nth (fun f => rep ec Ntt (lift f))). cbn [bind].
        rewrite (rep_mul pr ec WE). cbn [bind]. rewrite De. reflexivity. }
    2,3: lia.
    cbn [bind]. destruct (Nat.eqb_spec la 0); [lia|].
    erewrite (map_seq_ext (fun k => if (k <? la + lb - 1)%nat then rep ec Ntt (pp (min k (la - 1)) (k - min k (la - 1))%nat) else poly_zero (mu_to mu) Ntt)
                (fun k => rep ec Ntt (pp (min k (la - 1)) (k - min k (la - 1))%nat))).
    2:{ intros k Hk. destruct (Nat.ltb_spec k (la + lb - 1)); [reflexivity|lia]. }
    rewrite <- (map_map (fun k => pp (min k (la - 1)) (k - min k (la - 1))%nat) (rep ec Ntt)).
    rewrite (mapM_scale pr (mu_down mu) ec c t Q _ WE W Dn). cbn [bind]. unfold ct_of. rewrite !map_map. reflexivity.
  - intros f j. change (2 ^ 56) with (4 * big). change (2 ^ 55) with (2 * big). apply UP.
  - intros k j Hk Hj. cbv zeta. fold la. change (2 ^ 55) with (2 * big). change (2 ^ 54) with big. apply (DN (pp (min k (la - 1)) (k - min k (la - 1))%nat)).
    unfold pp. pose proof (prod_small n (lift (nth (min k (la - 1)) fs (fun _ => 0))) (lift (nth (k - min k (la - 1)) gs (fun _ => 0))) Q j Hn Hj ltac:(lia)
       ltac:(intros; apply UP) ltac:(intros; apply UP)). lia.
Qed.

(** A ciphertext of one component has no cross term to lose: the product carries
    the product of the messages. *)
Lemma C35_one_component_lem :
  forall pr P i c ec s f0 f1 g0 m m' E E' B S,
    built_params P -> level P i c -> get (bp_e_ctxs P) i = Ok ec ->
    small_basis (rq_moduli_64 c) -> small_basis (rq_moduli_64 ec) ->
    let n := bp_degree P in let Q := cx_Q c in let t := bp_t P in
    2 * Z.of_nat n * (Q * Q) <= cx_Q ec ->
    l1norm n s <= S -> S < 2 ^ 54 -> 0 <= B <= Q ->
    carries n Q t (phase n s [f0; f1]) m E -> carries n Q t g0 m' E' ->
    (forall j, (j < n)%nat -> 0 <= m j < t) -> (forall j, (j < n)%nat -> 0 <= m' j < t) ->
    (forall j, (j < n)%nat -> Z.abs (E j) <= B) -> (forall j, (j < n)%nat -> Z.abs (E' j) <= B) ->
    exists d0 d1 E'',
      ct_mul pr (ct_of P i c [f0; f1]) (ct_of P i c [g0]) = Ok (ct_of P i c [d0; d1])
      /\ carries n Q t (phase n s [d0; d1]) (rmul n m m') E''
      /\ forall j, (j < n)%nat -> Z.abs (E'' j) <= mul_noise n t B S.
Proof.
  intros pr P i c ec s f0 f1 g0 m m' E E' B S BP L GE SB SE n Q t HE HS HS2 HB CF CG Hm Hm' BE BE'.
  destruct (C35_actual_lem pr P i c ec [f0; f1] [g0] BP L GE SB SE HE ltac:(discriminate) ltac:(discriminate) ltac:(cbn [length]; vm_compute; discriminate))
    as [lift [D [EM [UP DN]]]].
  pose proof (built_params_wf P BP) as WB. destruct (level_wf P i c WB L) as [_ LV].
  pose proof (wf_ctx_loc _ (lv_wf _ _ _ LV)) as W. pose proof (cx_n8 c W) as Hn8. rewrite (lv_n _ _ _ LV) in Hn8. fold n in Hn8.
  assert (Hn : (0 < n)%nat) by lia. pose proof (cx_Q1 c W) as HQ. fold Q in HQ. pose proof (wf_t17 P WB) as Rt. fold t in Rt.
  change (2 ^ 56) with (4 * big) in UP. change (2 ^ 55) with (2 * big) in UP, DN. change (2 ^ 54) with big in DN.
  set (zf := fun _ : nat => 0).
  assert (Z0 : forall f j, rmul n f zf j = 0).
  { intros f j. replace (rmul n f zf j) with (rmul n f (fun j => 0 * zf j) j) by reflexivity. rewrite rmul_scal_r. ring. }
  assert (PH : forall h0 h1 j, phase n s [h0; h1] j = h0 j + rmul n s h1 j).
  { intros. unfold n. rewrite <- (lv_n _ _ _ LV). apply phase2. }
  assert (CV : forall x y a b, (forall j, (j < n)%nat -> eqm Q (x j) (y j)) -> carries n Q t y a b -> carries n Q t x a b).
  { intros x y a b HXY HC j Hj. rewrite <- (HC j Hj). specialize (HXY j Hj). apply eqm_divide in HXY; [|lia]. destruct HXY as [z Z1].
    replace (t * x j) with (t * y j + z * (t * Q)) by (replace (x j) with (y j + z * Q) by lia; ring). apply eqm_add_mult. }
  destruct (mul_carries n Hn Q t S B s ltac:(lia) ltac:(lia) HS HS2 HB (lift f0) (lift f1) (lift g0) zf (D 0%nat) (D 1%nat) zf m m' E E') as [E2 [C2 B2]]; auto.
  1-3: intros j Hj; apply UP.
  { intros j Hj. unfold zf. change (Z.abs 0) with 0. lia. }
  { eapply CV; [|exact CF]. intros j Hj. rewrite !PH. apply eqm_add; [apply UP|]. apply rmul_eqm; [intros; reflexivity|]. intros; apply UP. }
  { eapply CV; [|exact CG]. intros j Hj. rewrite PH, Z0, Z.add_0_r. apply UP. }
  { intros j Hj. apply (DN 0%nat j); cbn [length]; [lia|auto]. }
  { intros j Hj. rewrite Z0, Z.add_0_l, (rmul_comm n) by auto. apply (DN 1%nat j); cbn [length]; [lia|auto]. }
  { intros j Hj. rewrite Z0. unfold zf. rewrite !Z.mul_0_r. change (Z.abs (0 - 0)) with 0. lia. }
  exists (D 0%nat), (D 1%nat), E2. split; [exact EM|]. split; [|exact B2].
  eapply CV; [|exact C2]. intros j Hj. rewrite PH. cbn [phase]. rewrite !rmul_add_r.
  rewrite (rmul_ext n s s (rmul n s (fun j0 => zf j0 + rmul n s (fun _ => 0) j0)) (fun _ => 0)); [|auto|].
  2:{ intros k Hk. rewrite rmul_add_r, Z0. rewrite (rmul_ext n s s (rmul n s (fun _ => 0)) (fun _ => 0)); [|auto|intros; apply rmul_0_r].
      rewrite rmul_0_r. reflexivity. }
  rewrite rmul_0_r, Z.add_0_r. reflexivity.
Qed.

(** Two operands without components panic; one of them without components gives
    zeros, one fewer than the other operand has. *)
Lemma C35_empty_lem :
  forall pr P i c ec gs,
    built_params P -> level P i c -> get (bp_e_ctxs P) i = Ok ec ->
    small_basis (rq_moduli_64 c) -> small_basis (rq_moduli_64 ec) -> Z.of_nat (length gs) <= 2 ^ 50 ->
    ct_mul pr (ct_of P i c []) (ct_of P i c []) = Panic
    /\ (gs <> [] ->
        let z := Ok (ct_of P i c (map (fun _ _ => 0) (seq 0 (length gs - 1)))) in
        ct_mul pr (ct_of P i c []) (ct_of P i c gs) = z /\ ct_mul pr (ct_of P i c gs) (ct_of P i c []) = z).
Proof.
  intros pr P i c ec gs BP L GE SB SE HL. pose proof (built_params_wf P BP) as WB. destruct (level_wf P i c WB L) as [_ LV].
  destruct (lv_mu _ _ _ LV) as [mu [e [ext [Gm [Ge [_ [Mt [We [_ [De [_ [Up Dn]]]]]]]]]]]].
  rewrite GE in Ge. apply Ok_inj in Ge. subst e. specialize (Up SB pr). specialize (Dn SE pr).
  pose proof (wf_ctx_loc _ We) as WE. pose proof (wf_ctx_loc _ (lv_wf _ _ _ LV)) as W.
  pose proof (cx_Q1 c W) as HQ. pose proof (cx_Q1 ec WE) as HQE. pose proof (wf_t17 P WB) as Rt.
  split.
  { unfold ct_mul. cbn [ct_of ct_params ct_level ct_cts map]. rewrite Nat.eqb_refl. cbn [rassert bind]. rewrite Gm. cbn [bind mapM length plus].
    destruct pr; reflexivity. }
  intros Hg z.
  assert (ZS : forall j, scale_fun (mu_down mu) ec (bp_t P) (cx_Q c) (fun _ => 0) j = 0).
  { intros j. pose proof (down_coeff (cx_Q ec) (bp_t P) (cx_Q c) 0 _ ltac:(lia) ltac:(lia) ltac:(lia)
       (scale_fun_spec pr 68 (mu_down mu) ec c (bp_t P) (cx_Q c) WE Dn (fun _ => 0) j) ltac:(change (Z.abs 0) with 0; lia)) as H.
    revert H. generalize (scale_fun (mu_down mu) ec (bp_t P) (cx_Q c) (fun _ => 0) j). intros y H.
    rewrite Z.mul_0_r, Z.sub_0_r, Z.abs_mul, (Z.abs_eq (cx_Q c)) in H by lia. revert H HQ. generalize (cx_Q c). clear. intros Q H HQ.
    destruct (Z.eq_dec y 0); auto. exfalso. assert (1 <= Z.abs y) by lia. nia. }
  assert (Hlb : (1 <= length gs)%nat) by (destruct gs; [congruence|cbn [length]; lia]).
  assert (RUN : forall m, Z.of_nat m <= 2 ^ 50 -> (1 <= m)%nat ->
    (n <- sub64 pr (Z.of_nat m) 1 ;; cs <- vec_repeat (poly_zero (mu_to mu) Ntt) n 80 ;;
     cs' <- mapM (rq_scale pr (mu_down mu)) cs ;; Ok (mkCt P cs' i)) = Ok (ct_of P i c (map (fun _ _ => 0) (seq 0 (m - 1))))).
  { intros m Hm Hm1. change (2 ^ 50) with 1125899906842624 in Hm.
    unfold sub64, chk. replace ((0 <=? Z.of_nat m - 1) && (Z.of_nat m - 1 <? W64)) with true.
    2:{ symmetry. apply andb_true_intro. split; [apply Z.leb_le|apply Z.ltb_lt]; lia. }
    cbn [bind]. unfold vec_repeat. replace ((Z.of_nat m - 1) * 80 <? W63) with true.
    2:{ symmetry. apply Z.ltb_lt. lia. }
    cbn [bind]. replace (Z.to_nat (Z.of_nat m - 1)) with (m - 1)%nat by lia.
    rewrite repeat_seq, Mt, (rep_zero ec WE). rewrite <- (map_map (fun _ : nat => (fun _ : nat => 0)) (rep ec Ntt)).
    rewrite (mapM_scale pr (mu_down mu) ec c (bp_t P) (cx_Q c) _ WE W Dn). cbn [bind]. unfold ct_of. rewrite !map_map. do 2 f_equal.
    apply map_seq_ext. intros k Hk. apply (rep_ext c W). intros j Hj. apply ZS. }
  unfold z. rewrite <- (RUN (length gs) HL Hlb). clear z. split.
  - unfold ct_mul. cbn [ct_of ct_params ct_level ct_cts map]. rewrite Nat.eqb_refl. cbn [rassert bind]. rewrite Gm. cbn [bind].
    rewrite (mapM_scale pr (mu_up mu) c ec 1 1 _ W WE Up). cbn [bind mapM length plus seq list_prod foldM]. rewrite map_length.
    destruct (sub64 pr (Z.of_nat (length gs)) 1) as [a| | |]; cbn [bind]; auto.
  - unfold ct_mul. cbn [ct_of ct_params ct_level ct_cts map]. rewrite Nat.eqb_refl. cbn [rassert bind]. rewrite Gm. cbn [bind].
    rewrite (mapM_scale pr (mu_up mu) c ec 1 1 _ W WE Up). cbn [bind mapM length seq]. rewrite map_length, Nat.add_0_r.
    replace (list_prod (seq 0 (length gs)) []) with (@nil (nat * nat)) by (generalize (seq 0 (length gs)); intros l; induction l; auto). cbn [foldM].
    destruct (sub64 pr (Z.of_nat (length gs)) 1) as [a| | |]; cbn [bind]; auto.
Qed.

(*EXAMPLE
(** A ciphertext squared by [*] misses one of the two cross terms: 3 components. *)
Example C35_example :
  (P <- test_bfv Release ;; let sk := mkSk P [1; -1; 0; 1; 1; 0; 2; -1] in
   pa <- pt_new Release P [2; 3] 0 EncPoly ;;
   a <- encrypt Release sk pa (trows bms 4) (tw 5) ;;
   m <- ct_mul Release a a ;; Ok (length (ct_cts m), ct_level m)) = Ok (3%nat, 0%nat).
Proof. vm_compute. reflexivity. Qed.
EXAMPLE*)
