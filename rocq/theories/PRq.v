(** Well-formed contexts and the abstraction lemma for polynomials. *)
From Verif Require Import PBase NT Spec PSum MModulus MUtils MNtt MRns MRq PModulus PNttMath PNtt PNttNew PCrt PRns PRnsScale SpecRq.

Lemma Ok_inj {A} (a b : A) : Ok a = Ok b -> a = b.
Proof. congruence. Qed.

(** ** Lists built from [seq] *)
Lemma zipM_upd_map {A B I} (f : A -> B -> outcome A) (a g : I -> A) (b : I -> B) l :
  (forall i, In i l -> f (a i) (b i) = Ok (g i)) ->
  zipM_upd f (map a l) (map b l) = Ok (map g l).
Proof.
  induction l as [|i l IH]; intros H; [reflexivity|]. cbn [map zipM_upd].
  rewrite H by (left; auto). cbn [bind]. rewrite IH by (intros; apply H; right; auto). reflexivity.
Qed.
Lemma zipM_upd_seq {A B} (f : A -> B -> outcome A) (a g : nat -> A) (b : nat -> B) k :
  (forall i, (i < k)%nat -> f (a i) (b i) = Ok (g i)) ->
  zipM_upd f (map a (seq 0 k)) (map b (seq 0 k)) = Ok (map g (seq 0 k)).
Proof. intros H. apply zipM_upd_map. intros i Hi. apply in_seq in Hi. apply H. lia. Qed.
Lemma mapM_map {A B I} (f : A -> outcome B) (a : I -> A) (g : I -> B) l :
  (forall i, In i l -> f (a i) = Ok (g i)) -> mapM f (map a l) = Ok (map g l).
Proof.
  induction l as [|i l IH]; intros H; [reflexivity|]. cbn [map mapM].
  rewrite H by (left; auto). cbn [bind]. rewrite IH by (intros; apply H; right; auto). reflexivity.
Qed.
Lemma mapM_seq {A B} (f : A -> outcome B) (a : nat -> A) (g : nat -> B) k :
  (forall i, (i < k)%nat -> f (a i) = Ok (g i)) -> mapM f (map a (seq 0 k)) = Ok (map g (seq 0 k)).
Proof. intros H. apply mapM_map. intros i Hi. apply in_seq in Hi. apply H. lia. Qed.
Lemma list_seq {A} (l : list A) d k : length l = k -> l = map (fun i => nth i l d) (seq 0 k).
Proof.
  intros <-. apply nth_ext' with d; [rewrite map_length, seq_length; auto|].
  intros i Hi. rewrite nth_map_seq by auto. reflexivity.
Qed.
Lemma combine_map {A B I} (a : I -> A) (b : I -> B) l : combine (map a l) (map b l) = map (fun i => (a i, b i)) l.
Proof. induction l as [|i l IH]; [reflexivity|]. cbn [map combine]. rewrite IH. reflexivity. Qed.
Lemma map_seq_ext {A} (f g : nat -> A) k : (forall i, (i < k)%nat -> f i = g i) -> map f (seq 0 k) = map g (seq 0 k).
Proof. intros H. apply map_ext_in. intros i Hi. apply in_seq in Hi. apply H. lia. Qed.
Lemma len_seq {A} (f : nat -> A) k : length (map f (seq 0 k)) = k.
Proof. rewrite map_length, seq_length. reflexivity. Qed.
Lemma repeat_seq {A} (x : A) k : repeat x k = map (fun _ => x) (seq 0 k).
Proof. generalize 0%nat. induction k as [|k IH]; intros s; [reflexivity|]. cbn [repeat seq map]. rewrite <- (IH (S s)). reflexivity. Qed.

(** ** Vector operations on such lists *)
Section Vec.
Variables (pr : profile) (m : Modulus).
Hypothesis V : valid_mod m.
Let q := mp m.
Lemma allr_seq (a : nat -> Z) n : (forall j, (j < n)%nat -> 0 <= a j < q) -> allr q (map a (seq 0 n)).
Proof. intros H. apply Forall_forall. intros x Hx. apply in_map_iff in Hx. destruct Hx as [j [<- Hj]]. apply in_seq in Hj. apply H. lia. Qed.
Lemma add_vec_seq a b n : (forall j, (j < n)%nat -> 0 <= a j < q) -> (forall j, (j < n)%nat -> 0 <= b j < q) ->
  add_vec pr m (map a (seq 0 n)) (map b (seq 0 n)) = Ok (map (fun j => (a j + b j) mod q) (seq 0 n)).
Proof.
  intros Ha Hb. rewrite add_vec_ok; auto; try (apply allr_seq; auto); [|rewrite !len_seq; auto].
  rewrite combine_map, map_map. reflexivity.
Qed.
Lemma sub_vec_seq a b n : (forall j, (j < n)%nat -> 0 <= a j < q) -> (forall j, (j < n)%nat -> 0 <= b j < q) ->
  sub_vec pr m (map a (seq 0 n)) (map b (seq 0 n)) = Ok (map (fun j => (a j - b j) mod q) (seq 0 n)).
Proof.
  intros Ha Hb. rewrite sub_vec_ok; auto; try (apply allr_seq; auto); [|rewrite !len_seq; auto].
  rewrite combine_map, map_map. reflexivity.
Qed.
Lemma mul_vec_seq a b n : (forall j, (j < n)%nat -> 0 <= a j < q) -> (forall j, (j < n)%nat -> 0 <= b j < q) ->
  mul_vec pr m (map a (seq 0 n)) (map b (seq 0 n)) = Ok (map (fun j => (a j * b j) mod q) (seq 0 n)).
Proof.
  intros Ha Hb. rewrite mul_vec_ok; auto; try (apply allr_seq; auto); [|rewrite !len_seq; auto].
  rewrite combine_map, map_map. reflexivity.
Qed.
Lemma neg_vec_seq a n : (forall j, (j < n)%nat -> 0 <= a j < q) ->
  neg_vec pr m (map a (seq 0 n)) = Ok (map (fun j => (- a j) mod q) (seq 0 n)).
Proof.
  intros Ha. rewrite neg_vec_ok; auto; try (apply allr_seq; auto). rewrite map_map. reflexivity.
Qed.
End Vec.

(** ** Well-formed contexts *)
Definition cx_m (c : RqContext) (i : nat) : Modulus := nth i (rq_moduli c) dmod.
Definition dop : NttOp := mkNttOp dmod 0 [] [] [] [] [] 0 0 0.
Definition cx_op (c : RqContext) (i : nat) : NttOp := nth i (rq_ntt_ops c) dop.

Record wf_loc (c : RqContext) : Prop := {
  wl_rns : wf_rns (rq_rns c) (rq_moduli_64 c);
  wl_mod : rq_moduli c = rns_moduli (rq_rns c);
  wl_ne : (1 <= cx_k c)%nat;
  wl_L : (3 <= cx_L c <= 60)%nat;
  wl_n : rq_degree c = (2 ^ cx_L c)%nat;
  wl_opl : length (rq_ntt_ops c) = cx_k c;
  wl_op : forall i, (i < cx_k c)%nat -> nt_p (cx_op c i) = cx_m c i
            /\ wf_ntt (cx_op c i) (cx_L c) (cx_psi c i);
  wl_invl : length (rq_qlinv c) = (cx_k c - 1)%nat;
  wl_inv : forall i, (i < cx_k c - 1)%nat -> 0 <= nth i (rq_qlinv c) 0 < cx_q c i
            /\ eqm (cx_q c i) (cx_q c (cx_k c - 1) * nth i (rq_qlinv c) 0) 1;
  wl_invs : rq_qlinv_shoup c = map (fun i => shoup_of (cx_q c i) (nth i (rq_qlinv c) 0)) (seq 0 (cx_k c - 1));
  wl_bitrev : rq_bitrev c = map (bitrev (cx_L c)) (seq 0 (rq_degree c));
  wl_none : rq_next c = None -> cx_k c = 1%nat;
  wl_some : forall c', rq_next c = Some c' -> (2 <= cx_k c)%nat
            /\ rq_moduli_64 c' = firstn (cx_k c - 1) (rq_moduli_64 c)
            /\ rq_degree c' = rq_degree c /\ rq_bd c' = rq_bd c }.

Inductive wf_ctx (c : RqContext) : Prop :=
  wf_ctx_intro : wf_loc c -> (forall c', rq_next c = Some c' -> wf_ctx c') -> wf_ctx c.

Lemma wf_ctx_loc c : wf_ctx c -> wf_loc c.
Proof. intros []; auto. Qed.
Lemma wf_ctx_next c c' : wf_ctx c -> rq_next c = Some c' -> wf_ctx c'.
Proof. intros [_ H]; auto. Qed.

(** ** Construction *)
Lemma psi_unique op L psi : wf_ntt op L psi -> nth (2 ^ L / 2) (nt_omegas op) 0 = psi.
Proof.
  intros W. pose proof (wn_L _ _ _ W) as HL. destruct L as [|L']; [lia|].
  replace (2 ^ S L' / 2)%nat with (2 ^ L')%nat by (rewrite pow2_S; rewrite Nat.mul_comm, Nat.div_mul; lia).
  pose proof (pow2_pos L').
  destruct (wn_om _ _ _ W (2 ^ L')%nat) as [R C]; [rewrite pow2_S; lia|].
  apply eqm_small with (mp (nt_p op)); auto; [apply (wn_psir _ _ _ W)|].
  rewrite C. replace (2 ^ L')%nat with (2 ^ L' + 0)%nat by lia.
  rewrite bitrev_snoc1 by lia. rewrite bitrev_0. rewrite pw_1. reflexivity.
Qed.

Lemma last_nth {A} (l : list A) d d' : l <> [] -> last l d = nth (length l - 1) l d'.
Proof.
  induction l as [|x l IH]; intros H; [congruence|]. destruct l as [|y l]; [reflexivity|].
  change (last (x :: y :: l) d) with (last (y :: l) d). rewrite IH by discriminate.
  cbn [length]. replace (S (S (length l)) - 1)%nat with (S (length l)) by lia.
  replace (S (length l) - 1)%nat with (length l) by lia. reflexivity.
Qed.
Lemma firstn_seq_nth {A} (l : list A) d k : (k <= length l)%nat -> firstn k l = map (fun i => nth i l d) (seq 0 k).
Proof.
  intros H. apply nth_ext' with d; [rewrite len_seq, firstn_length; lia|].
  intros i Hi. rewrite firstn_length in Hi. rewrite nth_map_seq by lia.
  rewrite <- (firstn_skipn k l) at 2. rewrite app_nth1; auto. rewrite firstn_length. lia.
Qed.

Lemma pairwise_firstn k ms : pairwise ms -> pairwise (firstn k ms).
Proof.
  intros H i j Hi Hj Hne. rewrite firstn_length in Hi, Hj.
  assert (N : forall i, (i < k)%nat -> (i < length ms)%nat -> nth i (firstn k ms) 1 = nth i ms 1).
  { intros x Hx Hl. rewrite <- (firstn_skipn k ms) at 2. rewrite app_nth1; auto. rewrite firstn_length. lia. }
  rewrite !N by lia. apply H; lia.
Qed.

Lemma wf_rns_nth c ms i : wf_rns c ms -> (i < length ms)%nat ->
  valid_mod (nth i (rns_moduli c) dmod) /\ mp (nth i (rns_moduli c) dmod) = nth i ms 1.
Proof.
  intros W Hi. exact (forall2_nth (fun q m => valid_mod m /\ mp m = q) _ _ 1 dmod i (wr_mod _ _ W) Hi).
Qed.

Section Inv.
Variables (pr : profile) (env : Env).
Hypothesis EH : env_ok env.

(** One level of the constructor, given what its parts returned. *)
Lemma rq_level ms rns ops n bd next invs :
  wf_rns rns ms -> ms <> [] ->
  mapM (fun m => ntt_new pr env m n) (rns_moduli rns) = Ok ops ->
  mapM (fun qi => r <- mreduce pr qi (mp (nth (length ms - 1) (rns_moduli rns) dmod)) ;;
                  inv <- minv pr qi r ;; s <- shoup pr qi inv ;; Ok (inv, s))
       (firstn (length (rns_moduli rns) - 1) (rns_moduli rns)) = Ok invs ->
  (next = None -> length ms = 1%nat) ->
  (forall c', next = Some c' -> (2 <= length ms)%nat /\ rq_moduli_64 c' = firstn (length ms - 1) ms
     /\ rq_degree c' = n /\ rq_bd c' = bd) ->
  wf_loc (mkRq ms (rns_moduli rns) rns ops n bd next (map fst invs) (map snd invs)
     (map (fun i => Z.to_nat (bitrev_usize n (Z.of_nat i))) (seq 0 n))).
Proof.
  intros W Hne HO HI HN HS. destruct EH as [HP Hd].
  assert (Hk : (1 <= length ms)%nat) by (destruct ms; [congruence|simpl; lia]).
  pose proof (forall2_length _ _ _ (wr_mod _ _ W)) as Lm.
  pose proof (mapM_length _ _ _ HO) as Lo.
  assert (OP : forall i, (i < length ms)%nat -> exists L psi, n = (2 ^ L)%nat
     /\ nt_p (nth i ops dop) = nth i (rns_moduli rns) dmod /\ wf_ntt (nth i ops dop) L psi /\ prime (nth i ms 1)).
  { intros i Hi. destruct (wf_rns_nth _ _ i W Hi) as [V Em].
    pose proof (mapM_nth _ _ _ dmod dop i HO ltac:(lia)) as E. cbv beta in E.
    pose proof (valid_range _ V) as Hr.
    destruct (ntt_new_inv pr env _ n _ V HP ltac:(intros; apply Hd; lia) E) as [L [psi [En [Ep [Wn [_ [Pr _]]]]]]].
    exists L, psi. rewrite Em in Pr. auto. }
  assert (HL : exists L, (3 <= L <= 60)%nat /\ n = (2 ^ L)%nat).
  { destruct (OP 0%nat ltac:(lia)) as [L [psi [En [_ [Wn _]]]]]. exists L. split; auto. apply (wn_L _ _ _ Wn). }
  destruct HL as [L [HL En]].
  assert (LL : Nat.log2 n = L) by (rewrite En, Nat.log2_pow2; lia).
  assert (INV : forall i, (i < length ms - 1)%nat -> 0 <= fst (nth i invs (0, 0)) < nth i ms 1
     /\ eqm (nth i ms 1) (nth (length ms - 1) ms 1 * fst (nth i invs (0, 0))) 1
     /\ snd (nth i invs (0, 0)) = shoup_of (nth i ms 1) (fst (nth i invs (0, 0)))).
  { intros i Hi. destruct (wf_rns_nth _ _ i W ltac:(lia)) as [V Em].
    destruct (wf_rns_nth _ _ (length ms - 1)%nat W ltac:(lia)) as [Vl Eml].
    pose proof (valid_range _ V) as Hr. pose proof (valid_range _ Vl) as Hrl.
    destruct (OP i ltac:(lia)) as [_ [_ [_ [_ [_ Pr]]]]].
    pose proof (mapM_nth _ _ _ dmod (0, 0) i HI ltac:(rewrite firstn_length; lia)) as E. cbv beta in E.
    assert (Nf : nth i (firstn (length (rns_moduli rns) - 1) (rns_moduli rns)) dmod = nth i (rns_moduli rns) dmod).
    { rewrite (firstn_seq_nth _ dmod) by lia. rewrite nth_map_seq by lia. reflexivity. }
    rewrite Nf in E. rewrite mreduce_ok in E by (auto; lia). cbn [bind] in E.
    pose proof (wr_pw _ _ W i (length ms - 1)%nat ltac:(lia) ltac:(lia) ltac:(lia)) as RP.
    assert (R0 : 0 < mp (nth (length ms - 1) (rns_moduli rns) dmod) mod mp (nth i (rns_moduli rns) dmod) < mp (nth i (rns_moduli rns) dmod)).
    { pose proof (Z.mod_pos_bound (mp (nth (length ms - 1) (rns_moduli rns) dmod)) (mp (nth i (rns_moduli rns) dmod)) ltac:(lia)) as B.
      split; [|lia].
      destruct (Z.eq_dec (mp (nth (length ms - 1) (rns_moduli rns) dmod) mod mp (nth i (rns_moduli rns) dmod)) 0) as [Z0|]; [|lia].
      exfalso. apply Z.mod_divide in Z0; [|lia]. rewrite Em, Eml in Z0. rewrite Em in Hr.
      apply rel_prime_sym in RP. destruct RP as [_ _ RP]. specialize (RP (nth i ms 1) Z0 (Z.divide_refl _)).
      apply Z.divide_1_r in RP. lia. }
    destruct (minv_correct pr _ _ V ltac:(rewrite Em; auto) R0) as [v [Ev [Rv Cv]]].
    rewrite Ev in E. cbn [bind] in E. rewrite shoup_ok in E by auto. cbn [bind] in E.
    injection E as E. rewrite <- E. cbn [fst snd]. rewrite Em, Eml in *. split; auto. split; auto.
    rewrite eqm_mod in Cv. exact Cv. }
  pose proof (mapM_length _ _ _ HI) as Li. rewrite firstn_length in Li.
  assert (K : cx_k (mkRq ms (rns_moduli rns) rns ops n bd next (map fst invs) (map snd invs)
     (map (fun i => Z.to_nat (bitrev_usize n (Z.of_nat i))) (seq 0 n))) = length ms) by reflexivity.
  constructor; unfold cx_m, cx_op, cx_L, cx_q; try rewrite K;
    cbn [rq_rns rq_moduli_64 rq_moduli rq_degree rq_ntt_ops rq_qlinv rq_qlinv_shoup rq_bitrev rq_next rq_bd]; auto.
  - rewrite LL. auto.
  - rewrite LL. auto.
  - lia.
  - intros i Hi. destruct (OP i Hi) as [L' [psi [En' [Ep [Wn _]]]]].
    split; auto. rewrite LL. assert (L' = L) by (apply Nat.pow_inj_r with 2%nat; lia). subst L'.
    replace (cx_psi _ i) with psi; auto. unfold cx_psi. cbn [rq_ntt_ops rq_degree].
    rewrite (nth_error_nth' ops dop) by lia. rewrite En. symmetry. apply psi_unique; auto.
  - rewrite map_length. lia.
  - intros i Hi. rewrite (nth_map' fst invs (0, 0)) by lia. destruct (INV i Hi) as [A [B _]]. auto.
  - apply nth_ext' with 0; [rewrite map_length, len_seq; lia|]. intros i Hi. rewrite map_length in Hi.
    rewrite nth_map_seq by lia. rewrite (nth_map' snd invs (0, 0)), (nth_map' fst invs (0, 0)) by lia.
    apply INV. lia.
  - apply map_seq_ext. intros i Hi. rewrite LL, En. rewrite bitrev_usize_ok by lia. apply Nat2Z.id.
Qed.

Lemma rq_new_fuel_inv fuel ms n bd c : Forall (fun q => 0 <= q) ms ->
  rq_new_fuel pr env fuel ms n bd = Ok c ->
  wf_ctx c /\ rq_moduli_64 c = ms /\ rq_degree c = n /\ rq_bd c = bd.
Proof.
  revert ms c; induction fuel as [|fuel IH]; intros ms c H0 H; [discriminate|].
  cbn [rq_new_fuel] in H. binv H. rename v into rns, E into ER. binv H. rename v into ops, E into EO.
  binv H. rename v into next, E into EN. binv H. rename v into ql, E into EQ. binv H. rename v into invs, E into EI.
  injection H as <-. pose proof (rns_new_inv _ _ H0 ER) as W.
  pose proof (forall2_length _ _ _ (wr_mod _ _ W)) as Lm.
  assert (Hne : rns_moduli rns <> []) by (intros C; rewrite C in EQ; discriminate).
  assert (Hms : ms <> []) by (intros ->; destruct (rns_moduli rns); [congruence|discriminate]).
  assert (Eql : ql = mp (nth (length ms - 1) (rns_moduli rns) dmod)).
  { rewrite Lm. clear - EQ Hne. destruct (rns_moduli rns) as [|m0 l]; [congruence|]. cbn [unwrap] in EQ.
    rewrite (last_nth (m0 :: l) m0 dmod) in EQ by discriminate. congruence. }
  subst ql.
  assert (NX : (next = None -> length ms = 1%nat) /\ forall c', next = Some c' ->
     wf_ctx c' /\ (2 <= length ms)%nat /\ rq_moduli_64 c' = firstn (length ms - 1) ms /\ rq_degree c' = n /\ rq_bd c' = bd).
  { destruct (2 <=? length ms)%nat eqn:E2.
    - apply Nat.leb_le in E2. binv EN. injection EN as <-. split; [discriminate|]. intros c' Hc. injection Hc as <-.
      apply IH in E; [destruct E as [A [B [C D]]]; auto|]. apply Forall_forall. intros q Hq. rewrite Forall_forall in H0.
      apply H0. rewrite <- (firstn_skipn (length ms - 1) ms). apply in_or_app. auto.
    - apply Nat.leb_gt in E2. injection EN as <-. split; [|discriminate]. intros _.
      destruct ms; [congruence|]. simpl in *. lia. }
  destruct NX as [N1 N2]. split; auto. constructor.
  - eapply rq_level; eauto. intros c' Hc. apply N2 in Hc. tauto.
  - cbn [rq_next]. intros c' Hc. apply N2 in Hc. tauto.
Qed.

Lemma rq_new_inv ms n bd c : Forall (fun q => 0 <= q) ms -> rq_new pr env ms n bd = Ok c ->
  wf_ctx c /\ rq_moduli_64 c = ms /\ rq_degree c = n /\ rq_bd c = bd.
Proof. apply rq_new_fuel_inv. Qed.

(** Construction succeeds when every NTT operator can be built. *)
Lemma rq_new_fuel_ok fuel ms n bd : (length ms < fuel)%nat -> ms <> [] ->
  Forall (fun q => 2 <= q < 2 ^ 62) ms -> pairwise ms ->
  (forall q m, In q ms -> modulus_new q = Ok m -> exists op, ntt_new pr env m n = Ok op) ->
  exists c, rq_new_fuel pr env fuel ms n bd = Ok c.
Proof.
  revert ms; induction fuel as [|fuel IH]; intros ms HF Hne HR PW HO; [lia|].
  cbn [rq_new_fuel]. destruct (rns_new_ok ms HR PW) as [rns [ER W]]. rewrite ER. cbn [bind].
  pose proof (forall2_length _ _ _ (wr_mod _ _ W)) as Lm.
  assert (Hk : (1 <= length ms)%nat) by (destruct ms; [congruence|simpl; lia]).
  destruct EH as [HP Hd].
  assert (OP : forall m, In m (rns_moduli rns) -> exists op, ntt_new pr env m n = Ok op).
  { intros m Hm. unfold rns_new in ER. binv ER. apply mapM_forall2 in E. 
    assert (EV : v = rns_moduli rns).
    { binv ER. binv ER. binv ER. injection ER as <-. reflexivity. }
    rewrite EV in E. clear EV ER. apply In_nth with (d := dmod) in Hm. destruct Hm as [i [Hi <-]].
    apply HO with (nth i ms 1); [apply nth_In; lia|]. apply (forall2_nth _ _ _ 1 dmod i E). lia. }
  destruct (mapM_exists (fun m => ntt_new pr env m n) (fun _ _ => True) (rns_moduli rns)) as [ops [EO _]].
  { intros m Hm. destruct (OP m Hm) as [op E]. eauto. }
  rewrite EO. cbn [bind].
  assert (NX : exists next, (if (2 <=? length ms)%nat
     then c <- rq_new_fuel pr env fuel (firstn (length ms - 1) ms) n bd ;; Ok (Some c) else Ok None) = Ok next).
  { destruct (2 <=? length ms)%nat eqn:E2; [|eauto]. apply Nat.leb_le in E2.
    destruct (IH (firstn (length ms - 1) ms)) as [c E].
    - rewrite firstn_length. lia.
    - destruct ms as [|a [|b ms']]; simpl in *; try lia. discriminate.
    - apply Forall_forall. intros q Hq. rewrite Forall_forall in HR. apply HR.
      rewrite <- (firstn_skipn (length ms - 1) ms). apply in_or_app. auto.
    - apply pairwise_firstn; auto.
    - intros q m Hq. apply HO. rewrite <- (firstn_skipn (length ms - 1) ms). apply in_or_app. auto.
    - rewrite E. cbn [bind]. eauto. }
  destruct NX as [next EN]. rewrite EN. cbn [bind].
  assert (EQ : exists ql, unwrap (match rns_moduli rns with [] => None | m0 :: _ => Some (mp (last (rns_moduli rns) m0)) end) = Ok ql
     /\ ql = nth (length ms - 1) ms 1).
  { destruct (rns_moduli rns) as [|m0 l] eqn:EM; [simpl in *; lia|]. cbn [unwrap]. eexists. split; [reflexivity|].
    rewrite (last_nth (m0 :: l) m0 dmod) by discriminate. rewrite <- Lm.
    destruct (wf_rns_nth _ _ (length ms - 1)%nat W ltac:(lia)) as [_ E]. rewrite EM in E. auto. }
  destruct EQ as [ql [EQ Eql]]. rewrite EQ. cbn [bind].
  destruct (mapM_exists (fun qi => r <- mreduce pr qi ql ;; inv <- minv pr qi r ;; s <- shoup pr qi inv ;; Ok (inv, s))
     (fun _ _ => True) (firstn (length (rns_moduli rns) - 1) (rns_moduli rns))) as [invs [EI _]].
  { intros m Hm. rewrite (firstn_seq_nth _ dmod) in Hm by lia. apply in_map_iff in Hm.
    destruct Hm as [i [<- Hi]]. apply in_seq in Hi.
    destruct (wf_rns_nth _ _ i W ltac:(lia)) as [V Em]. pose proof (valid_range _ V) as Hr.
    destruct (wf_rns_nth _ _ (length ms - 1)%nat W ltac:(lia)) as [Vl Eml]. pose proof (valid_range _ Vl) as Hrl.
    rewrite Eml, <- Eql in Hrl. rewrite mreduce_ok by (auto; lia). cbn [bind].
    assert (R0 : 0 < ql mod mp (nth i (rns_moduli rns) dmod)).
    { pose proof (Z.mod_pos_bound ql (mp (nth i (rns_moduli rns) dmod)) ltac:(lia)) as B.
      destruct (Z.eq_dec (ql mod mp (nth i (rns_moduli rns) dmod)) 0) as [Z0|]; [|lia].
      exfalso. apply Z.mod_divide in Z0; [|lia].
      pose proof (wr_pw _ _ W i (length ms - 1)%nat ltac:(lia) ltac:(lia) ltac:(lia)) as [_ _ RP].
      rewrite Em in *. rewrite Eql in Z0. specialize (RP (nth i ms 1) (Z.divide_refl _) Z0).
      apply Z.divide_1_r in RP. lia. }
    pose proof (Z.mod_pos_bound ql (mp (nth i (rns_moduli rns) dmod)) ltac:(lia)) as B.
    rewrite minv_ok by (auto; lia). cbn [bind]. rewrite shoup_ok by (auto; apply Z.mod_pos_bound; lia).
    cbn [bind]. eauto. }
  rewrite EI. cbn [bind]. eauto.
Qed.
End Inv.
