(** Claim C92: how much is sent between client and server. *)
From Verif Require Import PBase NT Spec PSum MModulus MUtils MNtt MRns MRq MBfv MKsk MGalois MRgsw MEval PModulus PUtils PNttMath PNtt PNttNew PCrt PRns PRnsScale PUtils2 SpecRq SpecBfv SpecKsk SpecEval SpecServer PRing PRq PRq2 PRq3 PRq4 PRq5 PBfv PBfv2 PBfv3 PKsk PGal PKsk2 PRingT PExpand PEval PEval2 PAsm PFold PFold2 PClient PRetr TestEval QBfv QEval SpecRlwe QRq QKsk TestEnv TestBfv MCirc MSwitch SpecCirc SpecDef SpecSwitch PMix QCirc PDefData PDef QDef SpecSizes QServer QRlwe QSwitch.

Lemma hw_app a b l m : holds_words a l -> holds_words b m -> holds_words (a + b) (l ++ m).
Proof. intros [H1 H2] [H3 H4]. split; [rewrite app_length; lia|apply Forall_app; auto]. Qed.
Lemma hw_concat {A} (f : A -> list Z) m l : (forall x, In x l -> holds_words m (f x)) -> holds_words (length l * m) (concat (map f l)).
Proof.
  induction l as [|x l IH]; intros H; [split; [reflexivity|constructor]|]. cbn [map concat length Nat.mul]. apply hw_app; [apply H; left; reflexivity|apply IH; intros; apply H; right; auto].
Qed.
Lemma hw_cast a b l : a = b -> holds_words a l -> holds_words b l.
Proof. intros ->. auto. Qed.

Section Sizes.
Variables (pr : profile) (P : BfvParams) (i0 : nat) (c : RqContext).
Hypothesis LV : wf_level P i0 c.
Let W : wf_loc c := wf_ctx_loc _ (lv_wf _ _ _ LV).
Local Notation n := (rq_degree c).
Local Notation K := (cx_k c).
Lemma poly_hw p : p_ctx p = c -> wf_poly p -> holds_words (K * n) (poly_words p).
Proof.
  intros EC [HL HR]. rewrite EC in HL, HR. unfold poly_words. rewrite <- HL. rewrite <- (map_id (p_rows p)) at 2. apply hw_concat. intros x Hx.
  apply (In_nth _ _ []) in Hx. destruct Hx as [i [Hi <-]]. rewrite HL in Hi. destruct (HR i Hi) as [H1 H2]. split; [exact H1|].
  eapply Forall_impl; [|exact H2]. intros a Ha. cbv beta in Ha |- *. pose proof (cx_range c W i Hi). lia.
Qed.
Lemma rep_hw f r : holds_words (K * n) (poly_words (rep c r f)).
Proof. apply poly_hw; [reflexivity|apply rep_wf; exact W]. Qed.
Lemma ct_hw j f0 f1 : holds_words (2 * (K * n)) (ct_words (ct_of P j c [f0; f1])).
Proof.
  unfold ct_words, ct_of. cbn [ct_cts map concat]. rewrite app_nil_r. apply hw_cast with (K * n + K * n)%nat; [lia|]. apply hw_app; apply rep_hw.
Qed.
Lemma ksk_hw k s u e : ksk_for P c k s u e -> holds_words (2 * K * (K * n)) (ksk_words k).
Proof.
  intros [_ [_ [_ [b [a [G [_ [E0 [E1 _]]]]]]]]]. unfold ksk_words. 
  apply hw_cast with (length (k_c0 k ++ k_c1 k) * (K * n))%nat; [rewrite app_length, E0, E1, !len_seq; lia|].
  apply hw_concat. intros x Hx. apply in_app_or in Hx. rewrite E0, E1 in Hx. destruct Hx as [Hx|Hx]; apply in_map_iff in Hx; destruct Hx as [i [<- _]]; apply rep_hw.
Qed.
End Sizes.

Lemma level_k P i c : built_params P -> level P i c -> cx_k c = (length (bp_moduli P) - i)%nat /\ (i < length (bp_moduli P))%nat.
Proof.
  intros B L. pose proof (built_params_wf P B) as WB. destruct (level_wf P i c WB L) as [Hi LV]. split; [|exact Hi]. unfold cx_k. rewrite (lv_ms _ _ _ LV), firstn_length. lia.
Qed.

(** C92: a query is k + 1 ciphertexts of two polynomials of k*n words (k moduli, degree
    n), whatever the position and the size of the database. *)
Lemma C92_query_lem :
  forall pr P c sk rows0 w0 rnd first enc, built_params P -> level P 0 c -> sk_params sk = P -> sk_ok sk -> 1 <= bp_variance P <= 16 ->
    wf_poly (mkPoly c Ntt rows0) -> (forall k, 0 <= w0 k < 2 ^ 64) -> rnd_ok c rnd ->
    Forall (fun x => 0 <= x < 2 ^ 64) enc -> (length enc <= bp_degree P)%nat -> (first <= length enc)%nat ->
    let k := length (bp_moduli P) in
    exists cts, client_query pr sk P first enc rows0 w0 rnd = Ok cts /\ length cts = (k + 1)%nat
      /\ holds_words (2 * k * (k + 1) * bp_degree P) (query_words cts).
Proof.
  intros pr P c sk rows0 w0 rnd first enc B L SP SO Hv WR Hw HR He Hl Hf k. pose proof (built_params_wf P B) as WB. destruct (level_wf P 0 c WB L) as [_ LV].
  pose proof (wf_ctx_loc _ (lv_wf _ _ _ LV)) as W. destruct (level_k P 0 c B L) as [EK _]. rewrite Nat.sub_0_r in EK. fold k in EK.
  destruct (C70_query_lem pr P c sk rows0 w0 rnd B L SP SO Hv WR Hw HR) as [b0 [b [_ [_ H]]]]. destruct (H first enc He Hl Hf) as [pt [u [_ [_ E]]]].
  eexists. split; [exact E|]. cbn [length]. rewrite len_seq, EK. split; [lia|].
  unfold query_words. apply hw_cast with (S (length (seq 0 k)) * (2 * (k * bp_degree P)))%nat; [rewrite seq_length; lia|].
  rewrite <- (lv_n _ _ _ LV), <- EK.
  match goal with |- holds_words _ (concat (map ct_words ?l)) => apply hw_cast with (length l * (2 * (cx_k c * rq_degree c)))%nat; [cbn [length]; rewrite len_seq, seq_length; reflexivity|] end.
  apply hw_concat. intros x Hx.
  assert (PW : forall p q l, p_ctx p = c -> wf_poly p -> p_ctx q = c -> wf_poly q -> holds_words (2 * (cx_k c * rq_degree c)) (ct_words (mkCt P [p; q] l))).
  { intros p q l P1 P2 Q1 Q2. unfold ct_words. cbn [ct_cts map concat]. rewrite app_nil_r. apply hw_cast with (cx_k c * rq_degree c + cx_k c * rq_degree c)%nat; [lia|].
    apply hw_app; apply (poly_hw P 0 c LV); auto. }
  destruct Hx as [<-|Hx]; [apply PW; auto; apply rep_wf; exact W|]. apply in_map_iff in Hx. destruct Hx as [i [<- Hi]]. apply in_seq in Hi.
  apply PW; auto; [apply rep_wf; exact W|]. destruct HR as [HR _]. apply HR. lia.
Qed.

(** C92: the evaluation keys are log2(n) Galois keys of 2k polynomials and an RGSW
    ciphertext of 4k polynomials. *)
Lemma C92_keys_lem :
  forall pr P c sk rnd rnd0 rnd1, built_params P -> level P 0 c -> sk_params sk = P -> sk_ok sk -> 1 <= bp_variance P <= 16 ->
    length (bp_moduli P) <> 1%nat -> small_degree pr (bp_degree P) ->
    (forall i, rnd_ok c (rnd i)) -> rnd_ok c rnd0 -> rnd_ok c rnd1 ->
    let k := length (bp_moduli P) in
    exists ev, eval_build pr sk P rnd rnd0 rnd1 = Ok ev /\ length (ev_gk ev) = Nat.log2 (bp_degree P)
      /\ holds_words ((Nat.log2 (bp_degree P) + 2) * (2 * k * k * bp_degree P)) (eval_words ev).
Proof.
  intros pr P c sk rnd rnd0 rnd1 B LL SP SO Hv HK SD HR R0 R1 k. pose proof (built_params_wf P B) as WB. destruct (level_wf P 0 c WB LL) as [_ LV].
  pose proof (wf_ctx_loc _ (lv_wf _ _ _ LV)) as W. destruct (level_k P 0 c B LL) as [EK _]. rewrite Nat.sub_0_r in EK. fold k in EK.
  rewrite <- (lv_n _ _ _ LV) in *. set (n := rq_degree c) in *.
  assert (EL : Nat.log2 n = cx_L c) by (unfold n; rewrite (wl_n _ W); apply Nat.log2_pow2; lia). rewrite EL. set (L := cx_L c) in *.
  unfold eval_build. rewrite <- (lv_n _ _ _ LV). rewrite (ilog2_n pr c W). cbn [bind]. rewrite Nat2Z.id. fold n L.
  destruct (foldM_seq_inv (fun m i => ctx <- get (bp_q_ctxs P) 0 ;; sb <- subst_new pr ctx (Z.of_nat (n / 2 ^ i + 1)) ;;
      g <- galois_new pr sk sb 0 (rnd i) ;; Ok ((n / 2 ^ i + 1, g)%nat :: m))
    (fun i m => length m = i /\ forall x, In x m -> holds_words (2 * cx_k c * (cx_k c * n)) (ksk_words (gk_ksk (snd x)))) 0 L [])
    as [m [E [I1 I2]]].
  - split; [reflexivity|]. intros x [].
  - intros i m Hi [I1 I2]. assert (HiL : (i < L)%nat) by lia. rewrite (lv_ctx _ _ _ LV). cbn [bind].
    pose proof (subst_new_ok pr c W (Z.of_nat (n / 2 ^ i + 1)) (Nat2Z.is_nonneg _) (exp_odd_z P 0 c (sk_fun sk) LV i HiL) (small_fits pr c W _ SD)) as EG.
    set (g := mkSubst _ _) in EG. rewrite EG. cbn [bind].
    destruct (galois_new_ok pr P 0 c LV sk (rnd i) (Z.of_nat (n / 2 ^ i + 1)) g (conj SP SO) Hv (HR i) (Nat2Z.is_nonneg _) EG HK) as [gk [e [EKG [G1 [G2 [GK GE]]]]]].
    rewrite EKG. cbn [bind]. eexists. split; [reflexivity|]. split; [cbn [length]; lia|]. intros x [<-|Hx]; [|auto]. cbn [snd]. eapply (ksk_hw P 0 c LV). exact GK.
  - rewrite E. cbn [bind]. rewrite (lv_ctx _ _ _ LV). cbn [bind]. destruct SO as [S1 S2].
    rewrite (sk_ntt_ok pr P 0 c LV) by (auto; rewrite SP in S2; auto). cbn [bind].
    destruct (rgsw_poly_ok pr P 0 c WB LV sk (sk_fun sk) rnd0 rnd1 (conj SP (conj S1 S2)) Hv R0 R1) as [r [e0 [e1 [ER [K0 [K1 _]]]]]].
    change (fun j => nth j (sk_coeffs sk) 0) with (sk_fun sk). rewrite ER. cbn [bind]. eexists. split; [reflexivity|]. cbn [ev_gk]. split; [exact I1|].
    unfold eval_words. cbn [ev_gk ev_sk_rgsw]. rewrite <- EK.
    apply hw_cast with (length m * (2 * cx_k c * (cx_k c * n)) + (2 * cx_k c * (cx_k c * n) + 2 * cx_k c * (cx_k c * n)))%nat.
    { rewrite I1. cbn [Nat.add]. set (a := cx_k c). clearbody a. clearbody n L. clear. nia. }
    apply hw_app; [apply hw_concat; exact I2|]. apply hw_app; eapply (ksk_hw P 0 c LV); eassumption.
Qed.

(** C92: the answer is one ciphertext of two polynomials; switched to level j it has
    k - j moduli left. *)
Lemma C92_answer_lem :
  forall pr P c sk first dim d db rnd rnd0 rnd1 xs cts j c',
    built_params P -> level P 0 c -> sk_params sk = P -> sk_ok sk -> 1 <= bp_variance P <= 16 -> length (bp_moduli P) <> 1%nat -> small_degree pr (bp_degree P) ->
    (forall i, rnd_ok c (rnd i)) -> rnd_ok c rnd0 -> rnd_ok c rnd1 -> x_pows_ok c xs ->
    countable dim d -> (1 <= first)%nat -> (first + dim * d <= bp_degree P)%nat ->
    length db = (first * dim ^ d)%nat -> Z.of_nat (length db) < 2 ^ 64 -> Z.of_nat dim < 2 ^ 64 -> Forall (entry_ok (bp_degree P)) db ->
    Forall (query_ct P c) cts -> length cts = (cx_k c + 1)%nat -> level P j c' ->
    exists ct small, (ev <- eval_build pr sk P rnd rnd0 rnd1 ;;
                srv <- server_new pr first dim db P ;;
                server_decode_with pr (fun ct => unpack_core pr ev ct xs) srv cts ev P) = Ok [ct]
      /\ ct_switch pr ct j = Ok small
      /\ holds_words (2 * length (bp_moduli P) * bp_degree P) (ct_words ct)
      /\ holds_words (2 * (length (bp_moduli P) - j) * bp_degree P) (ct_words small).
Proof.
  intros pr P c sk first dim d db rnd rnd0 rnd1 xs cts j c' B L SP SO Hv HK SD HR R0 R1 XP CD F1 F2 DB1 DB2 DM EN HQ LQ L'.
  destruct (C80_total_lem pr P c sk first dim d db rnd rnd0 rnd1 xs cts) as [ct [E HC]]; auto.
  pose proof (built_params_wf P B) as WB. destruct (level_wf P 0 c WB L) as [_ LV]. destruct (level_wf P j c' WB L') as [_ LV'].
  destruct (level_k P 0 c B L) as [EK _]. destruct (level_k P j c' B L') as [EK' _]. rewrite Nat.sub_0_r in EK.
  destruct (query_ct_rep P c ct LV HC) as [f0 [f1 ->]].
  destruct (carries_any (bp_degree P) (cx_Q c) (bp_t P) (phase (bp_degree P) (sk_fun sk) [f0; f1]) (fun _ => 0)) as [N [BN [HB [CA HN]]]].
  destruct (C69_switch_lem pr P 0 j c c' sk f0 f1 _ N BN (l1norm (bp_degree P) (sk_fun sk)) B L L' ltac:(lia) ltac:(lia) CA HB HN) as [g0 [g1 [E' [ES _]]]].
  eexists. eexists. split; [exact E|]. split; [exact ES|]. rewrite <- EK', <- EK. split.
  - rewrite <- (lv_n _ _ _ LV). eapply hw_cast; [|apply (ct_hw P 0 c LV)]. lia.
  - rewrite <- (lv_n _ _ _ LV'). eapply hw_cast; [|apply (ct_hw P j c' LV')]. lia.
Qed.

(*EXAMPLE
(** Two moduli, degree 8: 2*2*3*8 words of a query, (3+2)*2*2*2*8 words of keys. *)
Example C92_example :
  (P <- test_bfv Debug ;; let sk := mkSk P [1; -1; 0; 1; 1; 0; 2; -1] in
   cts <- client_query Debug sk P 2 [0; 1; 1; 0] (trows bms 4) (tw 5) (trnd 3) ;;
   ev <- eval_build Debug sk P trnd (trnd 6) (trnd 7) ;;
   Ok (length cts, length (query_words cts), length (ev_gk ev), length (eval_words ev)))
  = Ok (3, 2 * 2 * 3 * 8, 3, (3 + 2) * (2 * 2 * 2 * 8))%nat.
Proof. vm_compute. reflexivity. Qed.
EXAMPLE*)
