(** Claims C42-C45, C55: query expansion, encoding, folding, retrieval. *)
From Verif Require Import PBase NT Spec PSum MModulus MUtils MNtt MRns MRq MBfv MKsk MGalois MRgsw MEval PModulus PUtils PNttMath PNtt PNttNew PCrt PRns PRnsScale PUtils2 SpecRq SpecBfv SpecKsk SpecEval PRing PRq PRq2 PRq3 PRq4 PRq5 TestEnv QRq PBfv PBfv2 PBfv3 QBfv PKsk PGal PKsk2 PRingT PExpand PEval PEval2 PAsm PFold PFold2 PClient PRetr TestBfv TestEval.

(** C42: [unpack] panics on every ciphertext of every level of every parameter
    set: [gen_x_pows] asks for X -> X^(n-2) and only odd exponents are accepted. *)
Lemma C42_unpack_refuted_lem :
  forall pr P i c ev cs, built_params P -> level P i c ->
    gen_x_pows pr (bp_degree P) c = Panic /\ unpack pr ev (mkCt P cs i) = Panic.
Proof.
  intros pr P i c ev cs B L. pose proof (built_params_wf P B) as WB. destruct (level_wf P i c WB L) as [_ LV].
  pose proof (gen_x_pows_panic pr c (wf_ctx_loc _ (lv_wf _ _ _ LV))) as E. rewrite (lv_n _ _ _ LV) in E. split; auto.
  unfold unpack. cbn [ct_params ct_level]. rewrite (lv_ctx _ _ _ LV). cbn [bind]. rewrite E. reflexivity.
Qed.

(*EXAMPLE
Example C42_panic_example :
  (P <- test_bfv Release ;; c <- tctx P ;;
   Ok (match gen_x_pows Release 8 c with Panic => true | _ => false end,
       match unpack Release (mkEval [] (mkRgsw (mkKsk P [] [] c c) (mkKsk P [] [] c c))) (mkCt P [] 0) with Panic => true | _ => false end))
  = Ok (true, true).
Proof. vm_compute. reflexivity. Qed.
EXAMPLE*)

(** C42: with the monomials X^(-2^i) that [gen_x_pows] should have returned, the
    remaining code of [unpack] returns one ciphertext per coefficient. *)
Lemma C42_expand_lem :
  forall pr P c sk rnd rnd0 rnd1 xs, built_params P -> level P 0 c -> sk_params sk = P -> sk_ok sk ->
    1 <= bp_variance P <= 16 -> length (bp_moduli P) <> 1%nat -> small_degree pr (bp_degree P) ->
    (forall i, rnd_ok c (rnd i)) -> rnd_ok c rnd0 -> rnd_ok c rnd1 -> x_pows_ok c xs ->
    exists ev, eval_build pr sk P rnd rnd0 rnd1 = Ok ev
      /\ forall f0 f1, exists bits, unpack_core pr ev (ct_of P 0 c [f0; f1]) xs = Ok bits /\ length bits = bp_degree P
         /\ forall j, (j < bp_degree P)%nat -> exists g0 g1 w, get bits j = Ok (ct_of P 0 c [g0; g1])
              /\ forall l, (l < bp_degree P)%nat ->
                   phase (bp_degree P) (sk_fun sk) [g0; g1] l mod cx_Q c
                   = (cst (phase (bp_degree P) (sk_fun sk) [f0; f1] j) l + w l) mod cx_Q c
                   /\ Z.abs (w l) <= expand_noise P c.
Proof.
  intros pr P c sk rnd rnd0 rnd1 xs B L SP SO Hv HL SD HR R0 R1 HX. pose proof (built_params_wf P B) as WB. destruct (level_wf P 0 c WB L) as [_ LV].
  destruct (eval_build_ok pr P c sk WB LV rnd rnd0 rnd1 (conj SP SO) Hv HL HR R0 R1 ltac:(rewrite (lv_n _ _ _ LV); exact SD)) as [ev [E [GK _]]].
  exists ev. split; auto. intros f0 f1.
  assert (KB0 : 0 <= ks_bound c (2 * bp_variance P)) by (apply (ks_bound_nonneg P c sk LV); lia).
  destruct (unpack_core_ok pr P 0 c (sk_fun sk) LV ev xs f0 f1 _ KB0 GK HX) as [bits [E1 [E2 H]]]. rewrite (lv_n _ _ _ LV) in *.
  exists bits. split; auto. split; auto. intros j Hj. destruct (H j Hj) as [g0 [g1 [w [E3 H3]]]]. exists g0, g1, w. split.
  - rewrite (get_ok _ j (mkCt P [] 0)) by lia. f_equal. exact E3.
  - intros l Hl. unfold expand_noise. rewrite (lv_n _ _ _ LV). exact (H3 l Hl).
Qed.

(*EXAMPLE
Example C42_example :
  (P <- test_bfv Debug ;; sk <- sk_generate Debug P (tw 1) ;; ev <- eval_build Debug sk P trnd (trnd 5) (trnd 6) ;;
   pt <- pt_new Debug P [1; 2; 3; 4; 5; 16] 0 EncPoly ;; ct <- encrypt Debug sk pt (trows bms 4) (tw 5) ;; xs <- txs P ;;
   bits <- unpack_core Debug ev ct xs ;; b <- get bits 5 ;; d <- decrypt Debug sk b ;; Ok (length bits, pt_values d))
  = Ok (8%nat, [16; 0; 0; 0; 0; 0; 0; 0]).
Proof. vm_compute. reflexivity. Qed.
EXAMPLE*)

(** C42: the monomials exist in every context. *)
Lemma C42_x_pows_exist_lem :
  forall c r, r <> NttShoup -> x_pows_ok c (map (fun i => rep c r (xinv (rq_degree c) (2 ^ i))) (seq 0 (cx_L c))).
Proof.
  intros c r Hr i Hi. exists r. split; auto. rewrite (get_ok _ i (rep c r (xinv (rq_degree c) (2 ^ i)))) by (rewrite len_seq; auto).
  rewrite nth_map_seq by auto. reflexivity.
Qed.

(** C43: the encoding is one-hot in each segment. *)
Lemma C43_encode_lem :
  forall pr first dim q0 qs rows, (q0 < first)%nat -> Forall (fun q => (q < dim)%nat) qs ->
    0 < Z.of_nat dim ^ Z.of_nat (length qs) < 2 ^ 64 ->
    Z.of_nat dim ^ Z.of_nat (length qs) <= Z.of_nat rows / Z.of_nat first < 2 * Z.of_nat dim ^ Z.of_nat (length qs) ->
    exists enc, client_encode pr (mkClient first dim) (q0 :: qs) rows = Ok enc
      /\ length enc = (first + dim * length qs)%nat
      /\ (forall j, (j < first)%nat -> nth j enc 0 = if (j =? q0)%nat then 1 else 0)
      /\ forall d j, (d < length qs)%nat -> (j < dim)%nat -> nth (first + (d * dim + j)) enc 0 = if (j =? nth d qs 0)%nat then 1 else 0.
Proof.
  intros pr first dim q0 qs rows H0 HF HP HR. exists (encoding_of first dim q0 qs).
  split; [apply client_encode_ok; auto|]. apply encoding_facts.
Qed.

(*EXAMPLE
Example C43_example : client_encode Debug (mkClient 4 2) [2; 1; 0]%nat 16 = Ok [0; 0; 1; 0; 0; 1; 1; 0].
Proof. reflexivity. Qed.
EXAMPLE*)

(** C43: a successful call had every index in range and a database size in the
    accepted interval (in the release profile, when dim^(d-1) does not wrap). *)
Lemma C43_accepted_lem :
  forall pr first dim qs rows enc, client_encode pr (mkClient first dim) qs rows = Ok enc ->
    pr = Debug \/ Z.of_nat dim ^ Z.of_nat (length qs - 1) < 2 ^ 64 ->
    exists q0 qs', qs = q0 :: qs' /\ (q0 < first)%nat /\ Forall (fun q => (q < dim)%nat) qs'
      /\ Z.of_nat dim ^ Z.of_nat (length qs') <= Z.of_nat rows / Z.of_nat first < 2 * Z.of_nat dim ^ Z.of_nat (length qs').
Proof. intros. eapply client_encode_inv; eauto. Qed.

(** C43: indices out of range panic whatever the profile, sizes and overflow. *)
Lemma C43_panics_lem :
  forall pr first dim rows, client_encode pr (mkClient first dim) [] rows = Panic
    /\ (forall q0 qs, (first <= q0)%nat -> client_encode pr (mkClient first dim) (q0 :: qs) rows = Panic)
    /\ (forall q0 qs, (exists q, In q qs /\ (dim <= q)%nat) -> client_encode pr (mkClient first dim) (q0 :: qs) rows = Panic).
Proof.
  intros pr first dim rows. split; [reflexivity|]. split.
  - intros q0 qs H. unfold client_encode. cbn [get nth_error bind cl_first_dim].
    destruct (Nat.ltb_spec q0 first); [lia|]. reflexivity.
  - intros q0 qs [q [Hq1 Hq2]]. unfold client_encode. cbn [get nth_error bind cl_first_dim cl_dim tl length].
    destruct (Nat.ltb_spec q0 first) as [Hf|]; [|reflexivity]. cbn [rassert bind]. rewrite udiv_ok by lia. cbn [bind].
    assert (C : forall w x, chk pr w x = Panic \/ exists y, chk pr w x = Ok y).
    { intros w x. unfold chk. destruct (_ && _); [right; eexists; reflexivity|]. destruct pr; [left; reflexivity|right; eexists; reflexivity]. }
    destruct (C W64 (Z.of_nat dim ^ Z.of_nat (S (length qs) - 1))) as [->|[y ->]]; [reflexivity|]. cbn [bind].
    unfold udiv. destruct (y =? 0); [reflexivity|]. cbn [bind]. destruct (_ =? 1); [|reflexivity]. cbn [rassert bind].
    assert (M : mapM (fun q1 => rassert (q1 <? dim)%nat ;;; Ok (one_hot dim q1)) qs = Panic).
    { clear - Hq1 Hq2. induction qs as [|a qs IH]; [destruct Hq1|]. cbn [mapM]. destruct (Nat.ltb_spec a dim) as [Ha|]; [|reflexivity].
      cbn [rassert bind]. destruct Hq1 as [->|Hq1]; [lia|]. rewrite IH by auto. reflexivity. }
    rewrite M. reflexivity.
Qed.

(*EXAMPLE
Example C43_size_example :
  map (fun r => match client_encode Release (mkClient 4 2) [2; 1; 0]%nat r with Panic => true | _ => false end) [0; 8; 15; 16; 32]%nat
  = [true; true; true; false; true].
Proof. reflexivity. Qed.
EXAMPLE*)

(** C43: the size check is a truncated division, so databases with rows that no
    query reaches are accepted: 31 entries for the shape 4 x 4 = 16. *)
Lemma C43_size_refuted_lem :
  exists first dim q0 qs rows, (rows <> first * dim ^ length qs)%nat
    /\ forall pr, exists enc, client_encode pr (mkClient first dim) (q0 :: qs) rows = Ok enc.
Proof.
  exists 4%nat, 4%nat, 1%nat, [2%nat], 31%nat. split; [cbn; lia|]. intros []; eexists; reflexivity.
Qed.

(** C43: in the release profile dim^(d-1) can wrap to a nonzero value, and a
    size that is off by an order of magnitude is accepted. *)
Lemma C43_wrap_refuted_lem :
  exists first dim q0 qs rows, Z.of_nat rows < Z.of_nat first * Z.of_nat dim ^ Z.of_nat (length qs)
    /\ (exists enc, client_encode Release (mkClient first dim) (q0 :: qs) rows = Ok enc)
    /\ client_encode Debug (mkClient first dim) (q0 :: qs) rows = Panic.
Proof.
  exists 1%nat, 3%nat, 0%nat, (repeat 0%nat 41), (Z.to_nat (3 ^ 41 - 2 ^ 64)).
  assert (N : 0 <= 3 ^ 41 - 2 ^ 64) by (vm_compute; discriminate). rewrite (repeat_length 0%nat 41).
  split; [rewrite Z2Nat.id by exact N; reflexivity|]. unfold client_encode. cbn [get nth_error bind cl_first_dim cl_dim tl length].
  rewrite (Z2Nat.id _ N). rewrite (repeat_length 0%nat 41). split; [eexists|]; vm_compute; reflexivity.
Qed.

(** C44: the fold over the hypercube selects one database entry. *)
Lemma C44_fold_lem :
  forall pr P c s first dim q0 qs cts by_dim (m : nat -> nat -> Z) B0 B M, built_params P -> level P 0 c ->
    (q0 < first)%nat -> length cts = first -> 0 <= B0 -> 0 <= B ->
    carries_consts P c s cts (fun k => if (k =? q0)%nat then 1 else 0) B0 ->
    Forall2 (fun q rgs => selectors pr P c s dim q rgs B) qs by_dim ->
    (forall x l, Z.abs (m x l) <= M) ->
    exists g0 g1 E, (db <- fold_first pr P first cts (map (fun x => rep c Ntt (m x)) (seq 0 (first * dim ^ length qs))) ;;
                     foldM (fun db rgs => fold_dim pr P dim db rgs) by_dim db) = Ok [ct_of P 0 c [g0; g1]]
      /\ carries (bp_degree P) (cx_Q c) (bp_t P) (phase (bp_degree P) s [g0; g1]) (m (q0 + first * row_index dim qs)%nat) E
      /\ forall l, (l < bp_degree P)%nat ->
           Z.abs (E l) <= Z.of_nat first * (Z.of_nat (bp_degree P) * (B0 * M)) + bp_t P * (Z.of_nat (length qs) * (Z.of_nat dim * B)).
Proof.
  intros pr P c s first dim q0 qs cts by_dim m B0 B M BP L Hq Hl HB0 HB HC HF HM.
  pose proof (built_params_wf P BP) as WB. destruct (level_wf P 0 c WB L) as [_ LV]. rewrite <- (lv_n _ _ _ LV).
  rewrite (Nat.mul_comm first). apply (fold_all_ok pr P c s WB LV); auto.
  - intros k Hk. destruct (HC k ltac:(lia)) as [g0 [g1 [E [E1 [E2 E3]]]]]. exists g0, g1, E. split; [|split; auto].
    rewrite (get_ok _ k (mkCt P [] 0)) in E1 by lia. congruence.
  - induction HF as [|q rgs qs' bd' [S1 [S2 S3]] _ IH]; constructor; auto. split; auto. split; auto. intros k Hk.
    destruct (S3 k Hk) as [r [Er Hr]]. rewrite (get_ok _ k (dr P c)) in Er by lia. apply Ok_inj in Er. rewrite Er. exact Hr.
Qed.

(** C44: and within the budget its decryption is that entry modulo t. *)
Lemma C44_decrypt_lem :
  forall pr P c sk first dim q0 qs cts by_dim (m : nat -> nat -> Z) B0 B M, built_params P -> level P 0 c ->
    sk_params sk = P -> sk_ok sk -> small_basis (rq_moduli_64 c) -> 2 * bp_t P <= cx_q c 0 ->
    (q0 < first)%nat -> length cts = first -> 0 <= B0 -> 0 <= B ->
    carries_consts P c (sk_fun sk) cts (fun k => if (k =? q0)%nat then 1 else 0) B0 ->
    Forall2 (fun q rgs => selectors pr P c (sk_fun sk) dim q rgs B) qs by_dim ->
    (forall x l, Z.abs (m x l) <= M) ->
    2 ^ 54 * (2 * (Z.of_nat first * (Z.of_nat (bp_degree P) * (B0 * M)) + bp_t P * (Z.of_nat (length qs) * (Z.of_nat dim * B)))) <= (2 ^ 54 - 1) * cx_Q c ->
    (db <- fold_first pr P first cts (map (fun x => rep c Ntt (m x)) (seq 0 (first * dim ^ length qs))) ;;
     out <- foldM (fun db rgs => fold_dim pr P dim db rgs) by_dim db ;;
     mapM (decrypt pr sk) out)
    = Ok [mkPt P 0 EncNone (map (fun j => m (q0 + first * row_index dim qs)%nat j mod bp_t P) (seq 0 (bp_degree P)))].
Proof.
  intros pr P c sk first dim q0 qs cts by_dim m B0 B M BP L SP SO SB Hq2 Hq Hl HB0 HB HC HF HM HQ.
  destruct (C44_fold_lem pr P c (sk_fun sk) first dim q0 qs cts by_dim m B0 B M BP L Hq Hl HB0 HB HC HF HM) as [g0 [g1 [E [E1 [E2 E3]]]]].
  pose proof (built_params_wf P BP) as WB. destruct (level_wf P 0 c WB L) as [_ LV].
  apply bind_inv in E1. destruct E1 as [db [Ed E1]]. rewrite Ed. cbn [bind]. rewrite E1. cbn [bind mapM].
  rewrite (decrypt_ok pr P 0 c WB LV sk [g0; g1] _ E (conj SP SO) ltac:(discriminate) SB Hq2 E2).
  - reflexivity.
  - intros j Hj. eapply noise_ok_abs; [apply (cx_Q1 c (wf_ctx_loc _ (lv_wf _ _ _ LV)))|apply E3; auto|exact HQ].
Qed.

(*EXAMPLE
Example C44_example :
  (P <- test_bfv Debug ;; sk <- sk_generate Debug P (tw 1) ;;
   cts <- mapM (fun i => tenc P sk (if (i =? 2)%nat then 1 else 0) i) (seq 0 4) ;;
   r0 <- trgsw P sk 0 5 ;; r1 <- trgsw P sk 1 7 ;; db <- tdb P ;; srv <- server_new Debug 4 2 db P ;;
   d1 <- fold_first Debug P 4 cts (sv_db_scaled srv) ;; out <- fold_dim Debug P 2 d1 [r0; r1] ;;
   mapM (fun ct => d <- decrypt Debug sk ct ;; Ok (pt_values d)) out)
  = Ok [[6; 2; 9; 0; 0; 0; 0; 0]].
Proof. vm_compute. reflexivity. Qed.
EXAMPLE*)

(** C45: the server's [decode] panics on every query of the right length. *)
Lemma C45_decode_refuted_lem :
  forall pr P c srv ev cs cts, built_params P -> level P 0 c -> server_decode pr srv (mkCt P cs 0 :: cts) ev P = Panic.
Proof.
  intros pr P c srv ev cs cts B L. unfold server_decode, server_decode_with.
  destruct (C42_unpack_refuted_lem pr P 0 c ev cs B L) as [_ E]. unfold level in L. rewrite L. cbn [bind].
  destruct (_ =? _)%nat; [|reflexivity]. cbn [rassert bind get nth_error]. rewrite E. reflexivity.
Qed.

(** The answer of the server as a ciphertext. *)
Lemma retrieve_answer :
  forall pr P c sk first dim q0 qs db M S rows0 w0 rndq rnd rnd0 rnd1 xs,
    built_params P -> level P 0 c -> sk_params sk = P -> sk_ok sk -> 1 <= bp_variance P <= 16 -> length (bp_moduli P) <> 1%nat -> small_degree pr (bp_degree P) ->
    l1norm (bp_degree P) (sk_fun sk) <= S ->
    wf_poly (mkPoly c Ntt rows0) -> (forall k, 0 <= w0 k < 2 ^ 64) -> rnd_ok c rndq ->
    (forall i, rnd_ok c (rnd i)) -> rnd_ok c rnd0 -> rnd_ok c rnd1 -> x_pows_ok c xs ->
    countable dim (length qs) -> (q0 < first)%nat -> Forall (fun q => (q < dim)%nat) qs ->
    (first + dim * length qs <= bp_degree P)%nat ->
    length db = (first * dim ^ length qs)%nat -> Z.of_nat (length db) < 2 ^ 64 -> Z.of_nat dim < 2 ^ 64 -> Forall (entry_ok (bp_degree P)) db ->
    (forall p x, In p db -> In x (pt_values p) -> x <= M) -> 0 <= M ->
    exists p g0 g1 E, get db (q0 + first * row_index dim qs) = Ok p
      /\ (enc <- client_encode pr (mkClient first dim) (q0 :: qs) (length db) ;;
          cts <- client_query pr sk P first enc rows0 w0 rndq ;;
          ev <- eval_build pr sk P rnd rnd0 rnd1 ;;
          srv <- server_new pr first dim db P ;;
          server_decode_with pr (fun ct => unpack_core pr ev ct xs) srv cts ev P) = Ok [ct_of P 0 c [g0; g1]]
      /\ carries (bp_degree P) (cx_Q c) (bp_t P) (phase (bp_degree P) (sk_fun sk) [g0; g1]) (pt_fun p) E
      /\ forall j, (j < bp_degree P)%nat -> Z.abs (E j) <= retrieval_noise P c first dim (length qs) S M.
Proof.
  intros pr P c sk first dim q0 qs db M S rows0 w0 rndq rnd rnd0 rnd1 xs BP L SP SO Hv HK SD HS WR Hw RQ HR R0 R1 HX Hd Hq0 HQ HN HL H64 D64 HE HM M0.
  pose proof (built_params_wf P BP) as WB. destruct (level_wf P 0 c WB L) as [_ LV]. pose proof (lv_n _ _ _ LV) as EN. pose proof (wf_ctx_loc _ (lv_wf _ _ _ LV)) as W.
  set (ix := (q0 + first * row_index dim qs)%nat).
  assert (D1 : (1 <= dim ^ length qs)%nat) by (pose proof (Nat.pow_nonzero dim (length qs)); destruct Hd; lia).
  assert (Hix : (ix < length db)%nat).
  { pose proof (row_index_lt c (sk_fun sk) dim qs HQ) as RI. rewrite HL. unfold ix. clear - RI Hq0. set (r := row_index dim qs) in *. set (d := (dim ^ length qs)%nat) in *. nia. }
  set (dp := mkPt P 0 EncNone []). exists (nth ix db dp).
  assert (DZ : Z.of_nat (dim ^ length qs) < 2 ^ 64) by (rewrite HL in H64; clear - H64 Hq0; set (d := (dim ^ length qs)%nat) in *; nia).
  assert (GP : get db ix = Ok (nth ix db dp)) by (apply get_ok; auto).
  rewrite (client_encode_ok pr first dim q0 qs (length db) Hq0 HQ).
  2:{ rewrite <- Nat2Z.inj_pow. lia. }
  2:{ rewrite <- Nat2Z.inj_pow, HL, Nat2Z.inj_mul, (Z.mul_comm (Z.of_nat first)), Z.div_mul by lia. lia. }
  cbn [bind]. destruct (encoding_facts first dim q0 qs) as [L1 [F1 F2]].
  destruct (client_query_ok pr P c sk WB LV (conj SP SO) Hv first (encoding_of first dim q0 qs) rows0 w0 rndq) as [cts [E1 HQ1]]; auto; try lia.
  { apply encoding_range. }
  rewrite E1. cbn [bind].
  destruct (eval_build_ok pr P c sk WB LV rnd rnd0 rnd1 (conj SP SO) Hv HK HR R0 R1 ltac:(rewrite (lv_n _ _ _ LV); exact SD)) as [ev [E2 HEV]]. rewrite E2. cbn [bind].
  rewrite (server_new_ok pr P c LV first dim db) by (rewrite <- EN in HE; exact HE). cbn [bind]. fold dp.
  set (srv := mkServer _ _ _ _).
  assert (T17 := wf_t17 P WB). destruct (decode_gen pr P c sk WB LV Hv (bp_t P * (2 * bp_variance P + 2)) (2 * bp_variance P) ltac:(nia) ltac:(lia) ev xs first dim q0 qs srv cts (fun x => pt_fun (nth x db dp)) M S HEV HX eq_refl eq_refl Hd Hq0 HQ
    ltac:(lia) HL H64 D64 eq_refl) as [g0 [g1 [E [E3 [E4 E5]]]]]; auto.
  { intros x l. unfold pt_fun. destruct (nth_in_or_default x db dp) as [Hp| ->]; [|destruct l; cbn; lia].
    set (p := nth x db dp) in *. destruct (nth_in_or_default l (pt_values p) 0) as [Hx| ->]; [|cbn; lia].
    specialize (HM p _ Hp Hx). rewrite Forall_forall in HE. destruct (HE p Hp) as [HE1 _]. rewrite Forall_forall in HE1. specialize (HE1 _ Hx). lia. }
  { rewrite EN. auto. }
  exists g0, g1, E. split; [exact GP|]. split; [exact E3|]. fold ix in E4. split; [rewrite EN in E4; exact E4|]. intros j Hj. apply E5. rewrite EN. exact Hj.
Qed.

(** C45: with the expansion repaired, the answer decrypts to the entry asked for. *)
Lemma C45_retrieve_lem :
  forall pr P c sk first dim q0 qs db M S rows0 w0 rndq rnd rnd0 rnd1 xs,
    built_params P -> level P 0 c -> sk_params sk = P -> sk_ok sk -> 1 <= bp_variance P <= 16 -> length (bp_moduli P) <> 1%nat -> small_degree pr (bp_degree P) ->
    small_basis (rq_moduli_64 c) -> 2 * bp_t P <= cx_q c 0 -> l1norm (bp_degree P) (sk_fun sk) <= S ->
    wf_poly (mkPoly c Ntt rows0) -> (forall k, 0 <= w0 k < 2 ^ 64) -> rnd_ok c rndq ->
    (forall i, rnd_ok c (rnd i)) -> rnd_ok c rnd0 -> rnd_ok c rnd1 -> x_pows_ok c xs ->
    countable dim (length qs) -> (q0 < first)%nat -> Forall (fun q => (q < dim)%nat) qs ->
    (first + dim * length qs <= bp_degree P)%nat ->
    length db = (first * dim ^ length qs)%nat -> Z.of_nat (length db) < 2 ^ 64 -> Z.of_nat dim < 2 ^ 64 -> Forall (entry_ok (bp_degree P)) db ->
    (forall p x, In p db -> In x (pt_values p) -> x <= M) -> 0 <= M ->
    2 ^ 54 * (2 * retrieval_noise P c first dim (length qs) S M) <= (2 ^ 54 - 1) * cx_Q c ->
    exists p, get db (q0 + first * row_index dim qs) = Ok p
      /\ (enc <- client_encode pr (mkClient first dim) (q0 :: qs) (length db) ;;
          cts <- client_query pr sk P first enc rows0 w0 rndq ;;
          ev <- eval_build pr sk P rnd rnd0 rnd1 ;;
          srv <- server_new pr first dim db P ;;
          out <- server_decode_with pr (fun ct => unpack_core pr ev ct xs) srv cts ev P ;;
          mapM (decrypt pr sk) out)
         = Ok [mkPt P 0 EncNone (map (fun j => nth j (pt_values p) 0 mod bp_t P) (seq 0 (bp_degree P)))].
Proof.
  intros pr P c sk first dim q0 qs db M S rows0 w0 rndq rnd rnd0 rnd1 xs BP L SP SO Hv HK SD SB Hq2 HS WR Hw RQ HR R0 R1 HX Hd Hq0 HQ HN HL H64 D64 HE HM M0 HB.
  destruct (retrieve_answer pr P c sk first dim q0 qs db M S rows0 w0 rndq rnd rnd0 rnd1 xs) as [p [g0 [g1 [E [GP [ER [C N]]]]]]]; auto.
  exists p. split; [exact GP|].
  pose proof (built_params_wf P BP) as WB. destruct (level_wf P 0 c WB L) as [_ LV].
  repeat (match goal with |- (x <- ?m ;; _) = _ => destruct m eqn:?; cbn [bind] in ER |- *; try discriminate ER end).
  apply Ok_inj in ER. rewrite ER. cbn [mapM].
  rewrite (decrypt_ok pr P 0 c WB LV sk [g0; g1] (pt_fun p) E (conj SP SO) ltac:(discriminate) SB Hq2 C); [reflexivity|].
  intros j Hj. eapply noise_ok_abs; [apply (cx_Q1 c (wf_ctx_loc _ (lv_wf _ _ _ LV)))|apply N; auto|exact HB].
Qed.

(*EXAMPLE
(** The hypotheses on parameters, key and budget hold for degree 8, t = 17, four
    17-bit moduli, a secret of norm 16, and the shape 4 x 2. *)
Example C45_example : exists P c sk, built_params P /\ level P 0 c /\ sk_params sk = P /\ sk_ok sk /\ 1 <= bp_variance P <= 16
  /\ length (bp_moduli P) <> 1%nat /\ small_basis (rq_moduli_64 c) /\ 2 * bp_t P <= cx_q c 0 /\ bp_degree P = 8%nat
  /\ l1norm (bp_degree P) (sk_fun sk) <= 16 /\ (exists rows, wf_poly (mkPoly c Ntt rows))
  /\ 2 ^ 54 * (2 * retrieval_noise P c 4 2 1 16 16) <= (2 ^ 54 - 1) * cx_Q c.
Proof. exact (retrieval_budget Debug). Qed.
EXAMPLE*)

(** C55: the number of ciphertexts, the length of the encoded query and the
    number of dimensions agree when dim and the number of dimensions are
    [countable]. *)
Lemma C55_no_of_cts_lem :
  forall pr s k, (1 <= sv_first_dim s)%nat -> (2 <= sv_dim s)%nat ->
    length (sv_db s) = (sv_first_dim s * sv_dim s ^ k)%nat -> Z.of_nat (length (sv_db s)) < 2 ^ 64 ->
    Z.of_nat (sv_first_dim s + sv_dim s * k) < 2 ^ 64 ->
    no_of_cts pr s = Ok (Z.of_nat (sv_first_dim s + sv_dim s * k)).
Proof. intros. apply no_of_cts_ok; auto. Qed.

Lemma C55_agree_lem :
  forall pr s qs enc, countable (sv_dim s) (length qs - 1) -> Z.of_nat (sv_dim s) < 2 ^ 64 -> Z.of_nat (length (sv_db s)) < 2 ^ 64 ->
    length (sv_db s) = (sv_first_dim s * sv_dim s ^ (length qs - 1))%nat ->
    client_encode pr (mkClient (sv_first_dim s) (sv_dim s)) qs (length (sv_db s)) = Ok enc ->
    Z.of_nat (length enc) < 2 ^ 64 ->
    no_of_cts pr s = Ok (Z.of_nat (length enc)) /\ decode_dimensions pr s = Ok (Z.of_nat (length qs)).
Proof.
  intros pr s qs enc Hd H64 HL64 HL E HE64.
  assert (D2 : (2 <= sv_dim s)%nat) by apply Hd.
  destruct qs as [|q0 qs]; [discriminate|]. cbn [length] in *. replace (S (length qs) - 1)%nat with (length qs) in HL, Hd by lia.
  assert (HF : (q0 < sv_first_dim s)%nat).
  { unfold client_encode in E. cbn [get nth_error bind cl_first_dim] in E. destruct (Nat.ltb_spec q0 (sv_first_dim s)); [auto|discriminate]. }
  assert (HP : 0 < Z.of_nat (sv_dim s) ^ Z.of_nat (length qs) < 2 ^ 64).
  { rewrite <- Nat2Z.inj_pow. pose proof (Nat.pow_nonzero (sv_dim s) (length qs) ltac:(lia)). rewrite HL in HL64.
    set (d := (sv_dim s ^ length qs)%nat) in *. clear - H HL64 HF. nia. }
  destruct (client_encode_inv _ _ _ _ _ _ E ltac:(right; cbn [length]; replace (S (length qs) - 1)%nat with (length qs) by lia; lia)) as [q' [qs' [Eq [H1 [H2 H3]]]]].
  injection Eq as <- <-. rewrite (client_encode_ok pr _ _ _ _ _ H1 H2 HP H3) in E. apply Ok_inj in E. subst enc.
  destruct (encoding_facts (sv_first_dim s) (sv_dim s) q0 qs) as [EL _]. rewrite EL in HE64 |- *. split.
  - apply no_of_cts_ok; auto. lia.
  - rewrite (decode_dimensions_ok pr s (length qs)) by (auto; lia). f_equal. lia.
Qed.

(** C55: the number of dimensions [decode] computes, for any side; it is right
    exactly for [countable] shapes, among them the powers of two and all shapes
    with at most one further dimension. *)
Lemma C55_dims_lem :
  forall pr s k, (1 <= sv_first_dim s)%nat -> (2 <= sv_dim s)%nat ->
    length (sv_db s) = (sv_first_dim s * sv_dim s ^ k)%nat -> Z.of_nat (length (sv_db s)) < 2 ^ 64 -> Z.of_nat (sv_dim s) < 2 ^ 64 ->
    decode_dimensions pr s = Ok (Z.log2 (Z.of_nat (sv_dim s) ^ Z.of_nat k) / Z.log2 (Z.of_nat (sv_dim s)) + 1)
    /\ (decode_dimensions pr s = Ok (Z.of_nat k + 1) <-> countable (sv_dim s) k)
    /\ (k <= 1 \/ (exists b, sv_dim s = 2 ^ b) -> countable (sv_dim s) k)%nat.
Proof.
  intros pr s k H1 Hd HL HB HD. pose proof (decode_dimensions_val pr s k H1 Hd HL HB HD) as E. split; [exact E|]. split.
  - rewrite E, countable_iff by auto. split; [intros H; apply Ok_inj in H; lia|intros ->; reflexivity].
  - intros [H|[b H]]; [apply countable_le1; auto|]. rewrite H in *. apply countable_pow2. destruct b; [cbn [Nat.pow] in Hd; lia|lia].
Qed.

(*EXAMPLE
(** Two further dimensions of size 5 or 7 are counted right, two of size 3 and three of size 7 not. *)
Example C55_dims_example : countable 5 2 /\ countable 7 2 /\ ~ countable 3 2 /\ ~ countable 7 3.
Proof. unfold countable. cbn. lia. Qed.
EXAMPLE*)

(*EXAMPLE
Example C55_example : forall p,
  let s := mkServer 4 2 (repeat p 16) [] in
  (no_of_cts Debug s, decode_dimensions Debug s, option_map (@length Z) (match client_encode Debug (mkClient 4 2) [2; 1; 0]%nat 16 with Ok e => Some e | _ => None end))
  = (Ok 8, Ok 3, Some 8%nat).
Proof. reflexivity. Qed.
EXAMPLE*)

(** C55: for dim = 3 and a 3 x 3 hypercube above the first dimension, [decode]
    counts four dimensions instead of three. *)
Lemma C55_dims_refuted_lem :
  exists first dim k, (2 <= dim)%nat /\ forall pr s, sv_first_dim s = first -> sv_dim s = dim -> length (sv_db s) = (first * dim ^ k)%nat ->
    decode_dimensions pr s = Ok (Z.of_nat k + 2) /\ no_of_cts pr s = Ok (Z.of_nat (first + dim * k)).
Proof.
  exists 4%nat, 3%nat, 2%nat. split; [lia|]. intros pr s H1 H2 H3. unfold decode_dimensions, no_of_cts. rewrite H1, H2, H3.
  split; destruct pr; reflexivity.
Qed.

(** C55: dim = 1 with more than one row never returns (a release build loops
    for ever, whatever the bound on the iterations), dim = 0 panics. *)
Lemma C55_degenerate_lem :
  (forall pr fuel len count, (2 <= len)%nat -> forall r, no_of_cts_loop pr fuel 1 len count <> Ok r)
  /\ (forall fuel len count, (2 <= len)%nat -> no_of_cts_loop Release fuel 1 len count = NoFuel)
  /\ forall pr s, (1 <= sv_first_dim s)%nat -> sv_dim s = 0%nat -> (2 * sv_first_dim s <= length (sv_db s))%nat -> no_of_cts pr s = Panic.
Proof.
  split; [intros; apply no_of_cts_dim1; auto|]. split; [intros; apply no_of_cts_dim1_release; auto|]. intros pr s H1 H2 H3. unfold no_of_cts. rewrite H2.
  destruct (Nat.eqb_spec (sv_first_dim s) 0); [reflexivity|]. assert (2 <= length (sv_db s) / sv_first_dim s)%nat by (apply Nat.div_le_lower_bound; lia).
  set (l := (length (sv_db s) / sv_first_dim s)%nat) in *. cbn [no_of_cts_loop]. rewrite (proj2 (Nat.ltb_lt 1 l)) by lia. reflexivity.
Qed.

(** C55: the count overflows when first_dim + dim does: a debug build panics,
    a release build reports a number that is too small. *)
Lemma C55_overflow_lem :
  forall s, (1 <= sv_first_dim s)%nat -> Z.of_nat (sv_first_dim s) < 2 ^ 64 -> Z.of_nat (sv_dim s) < 2 ^ 64 ->
    2 ^ 64 <= Z.of_nat (sv_first_dim s) + Z.of_nat (sv_dim s) ->
    (2 * sv_first_dim s <= length (sv_db s))%nat -> (length (sv_db s) / sv_first_dim s <= sv_dim s)%nat ->
    no_of_cts Debug s = Panic
    /\ no_of_cts Release s = Ok (Z.of_nat (sv_first_dim s) + Z.of_nat (sv_dim s) - 2 ^ 64).
Proof.
  intros s H1 HF HD HO H3 H4. unfold no_of_cts. assert (2 <= length (sv_db s) / sv_first_dim s)%nat by (apply Nat.div_le_lower_bound; lia).
  rewrite (proj2 (Nat.eqb_neq _ _)) by lia.
  set (l := (length (sv_db s) / sv_first_dim s)%nat) in *. set (d := sv_dim s) in *.
  assert (HL : (l / d <= 1)%nat) by (apply Nat.div_le_upper_bound; lia).
  change 64%nat with (S 63). cbn [no_of_cts_loop]. rewrite (proj2 (Nat.ltb_lt 1 l)) by lia. rewrite (proj2 (Nat.eqb_neq d 0)) by lia.
  unfold add64, chk. replace ((0 <=? Z.of_nat (sv_first_dim s) + Z.of_nat d) && (Z.of_nat (sv_first_dim s) + Z.of_nat d <? W64)) with false
    by (symmetry; apply andb_false_iff; right; apply Z.ltb_ge; exact HO).
  split; [reflexivity|]. cbn [bind]. change 63%nat with (S 62). cbn [no_of_cts_loop]. rewrite (proj2 (Nat.ltb_ge 1 (l / d))) by lia. f_equal.
  change W64 with (2 ^ 64). symmetry. apply (Z.mod_unique_pos _ _ 1); lia.
Qed.

