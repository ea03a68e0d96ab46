(** A parameter set with enough budget for a retrieval, built by C52's
    construction (not by evaluation), for the examples. *)
From Verif Require Import PBase NT Spec PSum MModulus MUtils MNtt MRns MRq MBfv MKsk MGalois MRgsw MEval SpecRq SpecBfv SpecKsk SpecEval PRq PRq2 PBfv PBfv5 QBfv TestEnv TestBfv.

Fixpoint ppow (a : Z) (e : positive) (q : Z) : Z :=
  match e with
  | xH => a mod q
  | xO e' => let y := ppow a e' q in (y * y) mod q
  | xI e' => let y := ppow a e' q in (((y * y) mod q) * a) mod q
  end.
Lemma ppow_ok a e q : ppow a e q = a ^ Z.pos e mod q.
Proof.
  induction e as [e IH|e IH|]; cbn [ppow].
  - rewrite IH. replace (Z.pos e~1) with (Z.pos e + Z.pos e + 1) by lia. rewrite !Z.pow_add_r, Z.pow_1_r by lia.
    rewrite <- Zmult_mod, Zmult_mod_idemp_l. reflexivity.
  - rewrite IH. replace (Z.pos e~0) with (Z.pos e + Z.pos e) by lia. rewrite Z.pow_add_r by lia. rewrite <- Zmult_mod. reflexivity.
  - rewrite Z.pow_1_r. reflexivity.
Qed.

(** k-th draw of [benv_of] is a non-residue. *)
Definition nonres (q : Z) (k : nat) : bool :=
  match (q - 1) / 2 with Zpos e => ppow ((3 + Z.of_nat k) mod q) e q =? q - 1 | _ => false end.
Definition possible8 (q : Z) : bool := (q mod 16 =? 1) && existsb (nonres q) (seq 0 100).
Lemma possible8_ok l q : possible8 q = true -> zmem q l = true -> ntt_possible (benv_of l) q 8.
Proof.
  intros H HM. unfold possible8 in H. apply andb_true_iff in H. destruct H as [H1 H2]. apply Z.eqb_eq in H1.
  apply existsb_exists in H2. destruct H2 as [k [Hk H2]]. apply in_seq in Hk.
  split; [exists 3%nat; split; [lia|reflexivity]|]. split; [exact H1|]. split; [exact HM|]. exists k. split; [lia|].
  unfold nonres in H2. cbn [draw benv_of]. destruct ((q - 1) / 2) as [|e|e]; try discriminate. apply Z.eqb_eq in H2. rewrite ppow_ok in H2. exact H2.
Qed.

Definition bms4 : list Z := [65633; 65713; 65729; 65761].
Definition bext4 : list Z := [524353; 524369; 524497; 524593; 524801].
Lemma big_params (pr : profile) : exists P c, built_params P /\ level P 0 c /\ bp_degree P = 8%nat /\ bp_t P = 17 /\ bp_moduli P = bms4 /\ bp_variance P = 1
  /\ rq_moduli_64 c = bms4.
Proof.
  set (l := 17 :: bms4 ++ bext4). assert (EO : env_ok (benv_of l)) by (apply benv_of_ok; vm_compute; reflexivity).
  assert (PO : forall q, In q l -> 2 <= q < 2 ^ 62 /\ ntt_possible (benv_of l) q 8).
  { assert (A : forallb (fun q => (2 <=? q) && (q <? 2 ^ 62) && possible8 q && zmem q l) l = true) by (vm_compute; reflexivity).
    rewrite forallb_forall in A. intros q Hq. specialize (A q Hq). rewrite !andb_true_iff in A. destruct A as [[[A1 A2] A3] A4].
    apply Z.leb_le in A1. apply Z.ltb_lt in A2. split; [lia|]. apply possible8_ok; auto. }
  destruct (bfv_new_from_some pr (benv_of l) bext4 8 17 bms4 1 (mkBD 4 8) EO) as [P [E H]].
  - discriminate.
  - reflexivity.
  - repeat (constructor; [cbn [In bms4 bext4 app]; lia|]). constructor.
  - intros q Hq. apply PO. right. exact Hq.
  - reflexivity.
  - apply PO. left. reflexivity.
  - intros q Hq. cbn [In bms4] in Hq. lia.
  - destruct (H 0%nat ltac:(cbn; lia)) as [c [e [cnt [L [_ [M _]]]]]]. exists P, c. split.
    + exists pr, (benv_of l), bext4, 8%nat, 17, bms4, 1, (mkBD 4 8). split; [exact EO|]. split; [repeat constructor; lia|]. split; [repeat constructor; lia|].
      split; [lia|]. split; auto. intros q Hq. cbn [In bms4] in Hq. lia.
    + split; auto. destruct (bfv_new_from_fields _ _ _ _ _ _ _ _ _ E) as [F1 [F2 [F3 F4]]]. repeat (split; auto).
Qed.

(** The hypotheses of the retrieval theorem about parameters, key and budget. *)
Lemma retrieval_budget (pr : profile) : exists P c sk, built_params P /\ level P 0 c /\ sk_params sk = P /\ sk_ok sk /\ 1 <= bp_variance P <= 16
  /\ length (bp_moduli P) <> 1%nat /\ small_basis (rq_moduli_64 c) /\ 2 * bp_t P <= cx_q c 0 /\ bp_degree P = 8%nat
  /\ l1norm (bp_degree P) (sk_fun sk) <= 16 /\ (exists rows, wf_poly (mkPoly c Ntt rows))
  /\ 2 ^ 54 * (2 * retrieval_noise P c 4 2 1 16 16) <= (2 ^ 54 - 1) * cx_Q c.
Proof.
  destruct (big_params pr) as [P [c [B [L [D [T [M [V MC]]]]]]]]. exists P, c, (mkSk P [1; 0; -1; 2; -2; 1; 0; 1]).
  pose proof (built_params_wf P B) as WB. destruct (level_wf P 0 c WB L) as [_ LV]. pose proof (lv_n _ _ _ LV) as EN. rewrite D in EN.
  split; auto. split; auto. split; [reflexivity|]. split.
  { split; [cbn [sk_coeffs]; repeat constructor; lia|]. cbn [sk_coeffs sk_params length]. lia. }
  rewrite V, D. split; [lia|]. split; [rewrite M; discriminate|]. split; [rewrite MC; intros q Hq; cbn [In bms4 length] in *; lia|].
  split; [rewrite T; unfold cx_q; rewrite MC; cbn; lia|]. split; auto. split; [vm_compute; discriminate|]. split.
  - exists (p_rows (rep c Ntt (fun _ => 0))). exact (rep_wf c (wf_ctx_loc _ (lv_wf _ _ _ LV)) Ntt (fun _ => 0)). 
  - unfold retrieval_noise, expand_noise, ks_bound, cx_Q, cx_k, cx_q. rewrite T, V, EN, MC. vm_compute. discriminate.
Qed.

(** The monomials X^(-2^i) for degree 8. *)
Definition txs (P : BfvParams) : outcome (list Poly) := c <- tctx P ;; Ok (map (fun i => rep c PowerBasis (xinv 8 (2 ^ i))) (seq 0 3)).
(** Database of 8 plaintexts, and encryptions of the constants 0 and 1. *)
Definition tdb (P : BfvParams) : outcome (list Plaintext) := mapM (fun i => pt_new Debug P [Z.of_nat i; 2; Z.of_nat i + 3] 0 EncPoly) (seq 0 8).
Definition tenc (P : BfvParams) (sk : SecretKey) (a : Z) (s : nat) : outcome Ct := pt <- pt_new Debug P [a] 0 EncPoly ;; encrypt Debug sk pt (trows bms s) (tw s).
Definition trgsw (P : BfvParams) (sk : SecretKey) (a : Z) (s : nat) : outcome RgswCt :=
  c <- tctx P ;; rgsw_encrypt_poly Debug sk (rep c Ntt (cst a)) (trnd s) (trnd (s + 1)).
