(** Claim C80: the server and queries of any content. *)
From Verif Require Import PBase NT Spec PSum MModulus MUtils MNtt MRns MRq MBfv MKsk MGalois MRgsw MEval PModulus PUtils PNttMath PNtt PNttNew PCrt PRns PRnsScale PUtils2 SpecRq SpecBfv SpecKsk SpecEval SpecServer PRing PRq PRq2 PRq3 PRq4 PRq5 PBfv PBfv2 PBfv3 PKsk PGal PKsk2 PRingT PExpand PEval PEval2 PAsm PFold PFold2 PClient PRetr TestEval QBfv QEval.

(** A bound of finitely many values. *)
Lemma bound_fin (f : nat -> Z) n : exists B, 0 <= B /\ forall j, (j < n)%nat -> Z.abs (f j) <= B.
Proof.
  induction n as [|n [B [HB H]]]; [exists 0; split; [lia|intros; lia]|]. exists (B + Z.abs (f n)). split; [pose proof (Z.abs_nonneg (f n)); lia|].
  intros j Hj. destruct (Nat.eq_dec j n) as [->|]; [lia|]. specialize (H j ltac:(lia)). pose proof (Z.abs_nonneg (f n)). lia.
Qed.
Lemma bound_fin2 (f : nat -> nat -> Z) m n : exists B, 0 <= B /\ forall k j, (k < m)%nat -> (j < n)%nat -> Z.abs (f k j) <= B.
Proof.
  induction m as [|m [B [HB H]]]; [exists 0; split; [lia|intros; lia]|]. destruct (bound_fin (f m) n) as [C [HC H']]. exists (B + C). split; [lia|].
  intros k j Hk Hj. destruct (Nat.eq_dec k m) as [->|]; [specialize (H' j Hj); lia|]. specialize (H k j ltac:(lia) Hj). lia.
Qed.
(** Any polynomial carries any message, with some noise. *)
Lemma carries_any n Q t f m : exists E B, 0 <= B /\ carries n Q t f m E /\ forall j, (j < n)%nat -> Z.abs (E j) <= B.
Proof.
  set (E := fun j => t * f j - Q * m j). destruct (bound_fin E n) as [B [HB H]]. exists E, B. split; [exact HB|]. split; [|exact H].
  intros j Hj. cbv beta. unfold E. f_equal. ring.
Qed.

Lemma query_ct_rep P c ct : wf_level P 0 c -> query_ct P c ct -> exists f0 f1, ct = ct_of P 0 c [f0; f1].
Proof.
  intros LV [r0 [r1 [-> [H0 H1]]]]. pose proof (wf_ctx_loc _ (lv_wf _ _ _ LV)) as W.
  destruct (wf_rep Debug c W (mkPoly c Ntt r0) eq_refl H0) as [f0 [_ E0]]. destruct (wf_rep Debug c W (mkPoly c Ntt r1) eq_refl H1) as [f1 [_ E1]].
  exists f0, f1. unfold ct_of. cbn [map]. cbn [p_repr] in E0, E1. rewrite E0, E1. reflexivity.
Qed.

Lemma query_ct_of P c f0 f1 : wf_level P 0 c -> query_ct P c (ct_of P 0 c [f0; f1]).
Proof.
  intros LV. pose proof (wf_ctx_loc _ (lv_wf _ _ _ LV)) as W. exists (p_rows (rep c Ntt f0)), (p_rows (rep c Ntt f1)). split; [reflexivity|].
  split; [exact (rep_wf c W Ntt f0)|exact (rep_wf c W Ntt f1)].
Qed.

Section Server.
Variables (pr : profile) (P : BfvParams) (c : RqContext) (sk : SecretKey) (rnd : nat -> RndKsk) (rnd0 rnd1 : RndKsk) (xs : list Poly).
Hypothesis (BP : built_params P) (L : level P 0 c) (SP : sk_params sk = P) (SO : sk_ok sk) (Hv : 1 <= bp_variance P <= 16) (HK : length (bp_moduli P) <> 1%nat)
  (SD : small_degree pr (bp_degree P)) (HR : forall i, rnd_ok c (rnd i)) (R0 : rnd_ok c rnd0) (R1 : rnd_ok c rnd1) (HX : x_pows_ok c xs).
Let WB := built_params_wf P BP.
Let LV : wf_level P 0 c := proj2 (level_wf P 0 c WB L).
Let EN := lv_n _ _ _ LV.
Let W := wf_ctx_loc _ (lv_wf _ _ _ LV).
Let dp := mkPt P 0 EncNone [].

Lemma serve_gen first dim q0 qs db M S B0 B1 cts :
  l1norm (bp_degree P) (sk_fun sk) <= S -> 0 <= B0 -> 0 <= B1 ->
  countable dim (length qs) -> (q0 < first)%nat -> Forall (fun q => (q < dim)%nat) qs ->
  (first + dim * length qs <= bp_degree P)%nat ->
  length db = (first * dim ^ length qs)%nat -> Z.of_nat (length db) < 2 ^ 64 -> Z.of_nat dim < 2 ^ 64 -> Forall (entry_ok (bp_degree P)) db ->
  (forall p x, In p db -> In x (pt_values p) -> x <= M) -> 0 <= M ->
  query_noise P c (sk_fun sk) first (encoding_of first dim q0 qs) cts B0 B1 ->
  exists p g0 g1 E, get db (q0 + first * row_index dim qs) = Ok p
    /\ (ev <- eval_build pr sk P rnd rnd0 rnd1 ;;
        srv <- server_new pr first dim db P ;;
        server_decode_with pr (fun ct => unpack_core pr ev ct xs) srv cts ev P) = Ok [ct_of P 0 c [g0; g1]]
    /\ carries (bp_degree P) (cx_Q c) (bp_t P) (phase (bp_degree P) (sk_fun sk) [g0; g1]) (pt_fun p) E
    /\ forall j, (j < bp_degree P)%nat -> Z.abs (E j) <= answer_noise P c first dim (length qs) S M B0 B1.
Proof.
  intros HS HB0 HB1 Hd Hq0 HQ HN HL H64 D64 HE HM M0 HQN. set (ix := (q0 + first * row_index dim qs)%nat).
  assert (Hix : (ix < length db)%nat).
  { pose proof (row_index_lt c (sk_fun sk) dim qs HQ) as RI. rewrite HL. unfold ix. clear - RI Hq0. set (r := row_index dim qs) in *. set (d := (dim ^ length qs)%nat) in *. nia. }
  exists (nth ix db dp).
  assert (GP : get db ix = Ok (nth ix db dp)) by (apply get_ok; auto).
  destruct (eval_build_ok pr P c sk WB LV rnd rnd0 rnd1 (conj SP SO) Hv HK HR R0 R1 ltac:(rewrite (lv_n _ _ _ LV); exact SD)) as [ev [E2 HEV]]. rewrite E2. cbn [bind].
  rewrite (server_new_ok pr P c LV first dim db) by (rewrite <- EN in HE; exact HE). cbn [bind]. fold dp.
  set (srv := mkServer _ _ _ _).
  destruct (decode_gen pr P c sk WB LV Hv B0 B1 HB0 HB1 ev xs first dim q0 qs srv cts (fun x => pt_fun (nth x db dp)) M S HEV HX eq_refl eq_refl Hd Hq0 HQ
    ltac:(lia) HL H64 D64 eq_refl) as [g0 [g1 [E [E3 [E4 E5]]]]]; auto.
  { intros x l. unfold pt_fun. destruct (nth_in_or_default x db dp) as [Hp| ->]; [|destruct l; cbn; lia].
    set (p := nth x db dp) in *. destruct (nth_in_or_default l (pt_values p) 0) as [Hx| ->]; [|cbn; lia].
    specialize (HM p _ Hp Hx). rewrite Forall_forall in HE. destruct (HE p Hp) as [HE1 _]. rewrite Forall_forall in HE1. specialize (HE1 _ Hx). lia. }
  { rewrite EN. auto. }
  exists g0, g1, E. split; [exact GP|]. split; [exact E3|]. fold ix in E4. split; [rewrite EN in E4; exact E4|]. intros j Hj. apply E5. rewrite EN. exact Hj.
Qed.
End Server.

(** C80: the server answers any query of the right number of well-formed
    ciphertexts, whatever they contain, with one well-formed ciphertext (with
    the expansion repaired). *)
Lemma C80_total_lem :
  forall pr P c sk first dim k db rnd rnd0 rnd1 xs cts,
    built_params P -> level P 0 c -> sk_params sk = P -> sk_ok sk -> 1 <= bp_variance P <= 16 -> length (bp_moduli P) <> 1%nat -> small_degree pr (bp_degree P) ->
    (forall i, rnd_ok c (rnd i)) -> rnd_ok c rnd0 -> rnd_ok c rnd1 -> x_pows_ok c xs ->
    countable dim k -> (1 <= first)%nat -> (first + dim * k <= bp_degree P)%nat ->
    length db = (first * dim ^ k)%nat -> Z.of_nat (length db) < 2 ^ 64 -> Z.of_nat dim < 2 ^ 64 -> Forall (entry_ok (bp_degree P)) db ->
    Forall (query_ct P c) cts -> length cts = (cx_k c + 1)%nat ->
    exists ct, (ev <- eval_build pr sk P rnd rnd0 rnd1 ;;
                srv <- server_new pr first dim db P ;;
                server_decode_with pr (fun ct => unpack_core pr ev ct xs) srv cts ev P) = Ok [ct]
      /\ query_ct P c ct.
Proof.
  intros pr P c sk first dim k db rnd rnd0 rnd1 xs cts BP L SP SO Hv HK SD HR R0 R1 HX Hd Hf HN HL H64 D64 HE HC LC.
  pose proof (built_params_wf P BP) as WB. destruct (level_wf P 0 c WB L) as [_ LV]. pose proof (wf_ctx_loc _ (lv_wf _ _ _ LV)) as W. pose proof (lv_n _ _ _ LV) as EN.
  pose proof (cx_Q1 c W) as Q1. pose proof (wf_t17 P WB) as T17.
  destruct cts as [|c0 cs]; [cbn in LC; lia|]. pose proof (Forall_inv HC) as HC0. pose proof (Forall_inv_tail HC) as HCs. cbn [length] in LC. assert (LC' : length cs = cx_k c) by lia.
  destruct (query_ct_rep P c c0 LV HC0) as [h0 [h1 ->]].
  set (dc := ct_of P 0 c [h0; h1]).
  assert (HB : forall i, (i < cx_k c)%nat -> exists x : (nat -> Z) * (nat -> Z), nth i cs dc = ct_of P 0 c [fst x; snd x]).
  { intros i Hi. rewrite Forall_forall in HCs. destruct (query_ct_rep P c (nth i cs dc) LV) as [f0 [f1 E]]; [apply HCs, nth_In; lia|]. exists (f0, f1). exact E. }
  destruct (fin_choice (fun _ => 0, fun _ => 0) _ _ HB) as [x Hx].
  set (enc := encoding_of first dim 0 (repeat 0%nat k)).
  destruct (carries_any (rq_degree c) (cx_Q c) (bp_t P) (phase (rq_degree c) (sk_fun sk) [h0; h1]) (fun j => nth j enc 0)) as [E [B0 [HB0 [C0 N0]]]].
  set (e := fun i j => phase (rq_degree c) (sk_fun sk) [fst (x i); snd (x i)] j - nth i (rns_garner (rq_rns c)) 0 * nth (first + j) enc 0).
  destruct (bound_fin2 e (cx_k c) (rq_degree c)) as [B1 [HB1 N1]].
  assert (DP : (0 < dim)%nat) by (destruct Hd; lia).
  destruct (serve_gen pr P c sk rnd rnd0 rnd1 xs BP L SP SO Hv HK SD HR R0 R1 HX first dim 0%nat (repeat 0%nat k) db (2 ^ 64) (l1norm (bp_degree P) (sk_fun sk)) B0 B1
    (ct_of P 0 c [h0; h1] :: cs)) as [p [g0 [g1 [E' [_ [ER _]]]]]]; rewrite ?repeat_length; auto; try lia.
  - apply Forall_forall. intros q Hq. apply repeat_spec in Hq. subst. exact DP.
  - intros p x' Hp Hx'. rewrite Forall_forall in HE. destruct (HE p Hp) as [HE1 _]. rewrite Forall_forall in HE1. specialize (HE1 _ Hx'). lia.
  - exists h0, h1, E, (fun i => fst (x i)), (fun i => snd (x i)), e. split; [|split; [exact C0|split; [exact N0|]]].
    + f_equal. rewrite (list_seq cs dc (cx_k c)) at 1 by auto. apply map_ext_in. intros i Hi. apply in_seq in Hi. apply Hx. lia.
    + intros i Hi j Hj. split; [|apply N1; auto]. unfold e, enc. cbv beta. match goal with |- ?a = ?b + (?a2 - ?b2) => change a2 with a; change b2 with b end. ring.
  - eexists. split; [exact ER|]. apply query_ct_of. exact LV.
Qed.
Lemma query_example : exists P c sk, built_params P /\ level P 0 c /\ sk_params sk = P /\ sk_ok sk /\ 1 <= bp_variance P <= 16
  /\ length (bp_moduli P) <> 1%nat /\ bp_degree P = 8%nat /\ exists ct, query_ct P c ct.
Proof.
  destruct (retrieval_budget Debug) as [P [c [sk [B [L [SP [SO [Hv [HK [_ [_ [D [_ [[rows WR] _]]]]]]]]]]]]]]. exists P, c, sk. repeat (split; [assumption|]).
  exists (mkCt P [mkPoly c Ntt rows; mkPoly c Ntt rows] 0), rows, rows. auto.
Qed.
(*EXAMPLE
(** There are well-formed query ciphertexts, and a key and parameters as required. *)
Example C80_total_ex : exists P c sk, built_params P /\ level P 0 c /\ sk_params sk = P /\ sk_ok sk /\ 1 <= bp_variance P <= 16
  /\ length (bp_moduli P) <> 1%nat /\ bp_degree P = 8%nat /\ exists ct, query_ct P c ct.
Proof. exact query_example. Qed.
EXAMPLE*)

Lemma mul_le_pow d k : (2 <= d)%nat -> (d * k <= d ^ k)%nat.
Proof.
  intros Hd. destruct k as [|k]; [lia|]. induction k as [|k IH]; [cbn; lia|]. rewrite Nat.pow_succ_r'. set (x := (d ^ S k)%nat) in *. assert (2 * (d * S k) <= d * x)%nat by nia. nia.
Qed.

(** C80: a query with another number of ciphertexts is refused, by
    the code as it is and whatever the expansion. *)
Lemma C80_refuse_lem :
  forall pr P c srv cts ev unpk, built_params P -> level P 0 c -> length cts <> (cx_k c + 1)%nat ->
    server_decode pr srv cts ev P = Panic /\ server_decode_with pr unpk srv cts ev P = Panic.
Proof.
  intros pr P c srv cts ev unpk BP L LC. pose proof (built_params_wf P BP) as WB. destruct (level_wf P 0 c WB L) as [_ LV]. pose proof (wf_ctx_loc _ (lv_wf _ _ _ LV)) as W.
  assert (H : forall u, server_decode_with pr u srv cts ev P = Panic).
  { intros u. unfold server_decode_with. rewrite (lv_ctx _ _ _ LV). cbn [bind]. replace (length (rq_moduli c)) with (cx_k c) by (symmetry; apply (cx_moduli_len c W)).
    replace (cx_k c + 1 =? length cts)%nat with false by (symmetry; apply Nat.eqb_neq; lia). reflexivity. }
  split; [apply H|apply H].
Qed.
(*EXAMPLE
Example C80_refuse_ex : exists P c, built_params P /\ level P 0 c /\ length (@nil Ct) <> (cx_k c + 1)%nat.
Proof. destruct query_example as [P [c [sk [B [L _]]]]]. exists P, c. repeat split; auto. cbn [length]. rewrite Nat.add_1_r. discriminate. Qed.
EXAMPLE*)
(** C80: with the expansion repaired, every query is refused when the first
    dimension or the further ones need more slots than the ring degree. *)
Lemma C80_shape_lem :
  forall pr P c sk first dim k db rnd rnd0 rnd1 xs cts,
    built_params P -> level P 0 c -> sk_params sk = P -> sk_ok sk -> 1 <= bp_variance P <= 16 -> length (bp_moduli P) <> 1%nat -> small_degree pr (bp_degree P) ->
    (forall i, rnd_ok c (rnd i)) -> rnd_ok c rnd0 -> rnd_ok c rnd1 -> x_pows_ok c xs ->
    countable dim k -> (1 <= first)%nat -> (bp_degree P < first \/ bp_degree P < dim * k)%nat ->
    length db = (first * dim ^ k)%nat -> Z.of_nat (length db) < 2 ^ 64 -> Z.of_nat dim < 2 ^ 64 -> Forall (entry_ok (bp_degree P)) db ->
    Forall (query_ct P c) cts ->
    (ev <- eval_build pr sk P rnd rnd0 rnd1 ;;
     srv <- server_new pr first dim db P ;;
     server_decode_with pr (fun ct => unpack_core pr ev ct xs) srv cts ev P) = Panic.
Proof.
  intros pr P c sk first dim k db rnd rnd0 rnd1 xs cts BP L SP SO Hv HK SD HR R0 R1 HX Hd Hf HN HL H64 D64 HE HC.
  pose proof (built_params_wf P BP) as WB. destruct (level_wf P 0 c WB L) as [_ LV]. pose proof (wf_ctx_loc _ (lv_wf _ _ _ LV)) as W. pose proof (lv_n _ _ _ LV) as EN.
  destruct (eval_build_ok pr P c sk WB LV rnd rnd0 rnd1 (conj SP SO) Hv HK HR R0 R1 ltac:(rewrite (lv_n _ _ _ LV); exact SD)) as [ev [E2 [GK HEV]]]. rewrite E2. cbn [bind].
  rewrite (server_new_ok pr P c LV first dim db) by (rewrite <- EN in HE; exact HE). cbn [bind]. set (srv := mkServer _ _ _ _).
  assert (KB0 : 0 <= ks_bound c (2 * bp_variance P)) by (apply (ks_bound_nonneg P c sk LV); lia).
  pose proof (fun f0 f1 => unpack_core_ok pr P 0 c (sk_fun sk) LV ev xs f0 f1 _ KB0 GK HX) as UN.
  unfold server_decode_with. rewrite (lv_ctx _ _ _ LV). cbn [bind].
  destruct (Nat.eqb_spec (length (rq_moduli c) + 1) (length cts)) as [EL|]; cbn [rassert bind]; [|reflexivity]. destruct cts as [|c0 cs]; [reflexivity|]. cbn [get nth_error bind tl].
  destruct (query_ct_rep P c c0 LV (Forall_inv HC)) as [h0 [h1 ->]]. destruct (UN h0 h1) as [bits [EU [LU _]]]. rewrite EU. cbn [bind].
  change (sv_first_dim srv) with first. change (sv_dim srv) with dim. unfold slice_to. rewrite LU.
  destruct (Nat.leb_spec first (rq_degree c)) as [Hle|Hgt]; cbn [bind]; [|reflexivity].
  destruct HN as [HN|HN]; [rewrite EN in Hle; lia|].
  assert (D2 : (2 <= dim)%nat) by apply Hd.
  rewrite (decode_dimensions_ok pr srv k) by (cbn [srv sv_first_dim sv_dim sv_db]; auto; lia). cbn [bind].
  pose proof (mul_le_pow dim k D2) as MP. assert (PB : Z.of_nat (dim ^ k) < 2 ^ 64) by (clear - H64 HL Hf; rewrite HL in H64; set (d := (dim ^ k)%nat) in *; nia).
  assert (K1 : (k <= dim * k)%nat) by nia.
  rewrite sub64_ok by (change W64 with (2 ^ 64); lia). cbn [bind]. 
  replace (Z.of_nat k + 1 - 1) with (Z.of_nat k) by lia. rewrite mul64_ok by (change W64 with (2 ^ 64); clear - PB MP; nia). cbn [bind].
  destruct cs as [|c1 cs]; [exfalso; cbn [length] in EL; rewrite (cx_moduli_len c W) in EL; pose proof (wl_ne _ W); lia|].
  cbn [mapM]. destruct (query_ct_rep P c c1 LV (Forall_inv (Forall_inv_tail HC))) as [f0 [f1 ->]]. destruct (UN f0 f1) as [u [Eu [Lu _]]]. rewrite Eu. cbn [bind].
  unfold slice_toz. rewrite Lu. replace (Z.of_nat k * Z.of_nat dim <=? Z.of_nat (rq_degree c)) with false; [reflexivity|].
  symmetry. apply Z.leb_gt. rewrite EN. clear - HN. nia.
Qed.
(*EXAMPLE
Example C80_shape_ex : exists P c sk, built_params P /\ level P 0 c /\ sk_params sk = P /\ sk_ok sk /\ (bp_degree P < 16)%nat
  /\ exists db, length db = (16 * 2 ^ 1)%nat /\ Forall (entry_ok (bp_degree P)) db.
Proof.
  destruct query_example as [P [c [sk [B [L [SP [SO [_ [_ [D _]]]]]]]]]]. exists P, c, sk. repeat (split; [assumption|]). rewrite D. split; [repeat constructor|].
  exists (repeat (mkPt P 0 EncNone [5]) 32). split; [apply repeat_length|]. apply Forall_forall. intros p Hp. apply repeat_spec in Hp. subst. split; [repeat constructor; discriminate|repeat constructor].
Qed.
EXAMPLE*)

(** C80: if the query ciphertexts carry the encoding with noise B0 and B1, however
    they were made, then the answer decrypts to the entry asked for as long as
    the noise it accumulates is within the budget. *)
Lemma C80_noise_lem :
  forall pr P c sk first dim q0 qs db M S B0 B1 enc cts rnd rnd0 rnd1 xs,
    built_params P -> level P 0 c -> sk_params sk = P -> sk_ok sk -> 1 <= bp_variance P <= 16 -> length (bp_moduli P) <> 1%nat -> small_degree pr (bp_degree P) ->
    small_basis (rq_moduli_64 c) -> 2 * bp_t P <= cx_q c 0 -> l1norm (bp_degree P) (sk_fun sk) <= S ->
    (forall i, rnd_ok c (rnd i)) -> rnd_ok c rnd0 -> rnd_ok c rnd1 -> x_pows_ok c xs ->
    countable dim (length qs) -> (q0 < first)%nat -> Forall (fun q => (q < dim)%nat) qs ->
    (first + dim * length qs <= bp_degree P)%nat ->
    length db = (first * dim ^ length qs)%nat -> Z.of_nat (length db) < 2 ^ 64 -> Z.of_nat dim < 2 ^ 64 -> Forall (entry_ok (bp_degree P)) db ->
    (forall p x, In p db -> In x (pt_values p) -> x <= M) -> 0 <= M -> 0 <= B0 -> 0 <= B1 ->
    client_encode pr (mkClient first dim) (q0 :: qs) (length db) = Ok enc ->
    query_noise P c (sk_fun sk) first enc cts B0 B1 ->
    2 ^ 54 * (2 * answer_noise P c first dim (length qs) S M B0 B1) <= (2 ^ 54 - 1) * cx_Q c ->
    exists p, get db (q0 + first * row_index dim qs) = Ok p
      /\ (ev <- eval_build pr sk P rnd rnd0 rnd1 ;;
          srv <- server_new pr first dim db P ;;
          out <- server_decode_with pr (fun ct => unpack_core pr ev ct xs) srv cts ev P ;;
          mapM (decrypt pr sk) out)
         = Ok [mkPt P 0 EncNone (map (fun j => nth j (pt_values p) 0 mod bp_t P) (seq 0 (bp_degree P)))].
Proof.
  intros pr P c sk first dim q0 qs db M S B0 B1 enc cts rnd rnd0 rnd1 xs BP L SP SO Hv HK SD SB Hq2 HS HR R0 R1 HX Hd Hq0 HQ HN HL H64 D64 HE HM M0 HB0 HB1 EE HQN HB.
  pose proof (built_params_wf P BP) as WB. destruct (level_wf P 0 c WB L) as [_ LV].
  assert (D1 : (1 <= dim ^ length qs)%nat) by (pose proof (Nat.pow_nonzero dim (length qs)); destruct Hd; lia).
  assert (DZ : Z.of_nat (dim ^ length qs) < 2 ^ 64) by (rewrite HL in H64; clear - H64 Hq0; set (d := (dim ^ length qs)%nat) in *; nia).
  assert (E' : enc = encoding_of first dim q0 qs).
  { rewrite (client_encode_ok pr first dim q0 qs (length db) Hq0 HQ) in EE; [injection EE as <-; reflexivity| |].
    - rewrite <- Nat2Z.inj_pow. lia.
    - rewrite <- Nat2Z.inj_pow, HL, Nat2Z.inj_mul, (Z.mul_comm (Z.of_nat first)), Z.div_mul by lia. lia. }
  subst enc.
  destruct (serve_gen pr P c sk rnd rnd0 rnd1 xs BP L SP SO Hv HK SD HR R0 R1 HX first dim q0 qs db M S B0 B1 cts) as [p [g0 [g1 [E [GP [ER [C N]]]]]]]; auto.
  exists p. split; [exact GP|].
  repeat (match goal with |- (x <- ?m ;; _) = _ => destruct m eqn:?; cbn [bind] in ER |- *; try discriminate ER end).
  apply Ok_inj in ER. rewrite ER. cbn [mapM].
  rewrite (decrypt_ok pr P 0 c WB LV sk [g0; g1] (pt_fun p) E (conj SP SO) ltac:(discriminate) SB Hq2 C); [reflexivity|].
  intros j Hj. eapply noise_ok_abs; [apply (cx_Q1 c (wf_ctx_loc _ (lv_wf _ _ _ LV)))|apply N; auto|exact HB].
Qed.
(*EXAMPLE
(** A query that the client makes itself is of this form, with the noise of fresh
    encryption; then the bound is that of C45. *)
Example C80_noise_ex : forall P c first dim k S M,
  answer_noise P c first dim k S M (bp_t P * (2 * bp_variance P + 2)) (2 * bp_variance P) = retrieval_noise P c first dim k S M.
Proof. reflexivity. Qed.
EXAMPLE*)

(** C80: the queries of the client have this form. *)
Lemma C80_client_lem :
  forall pr P c sk first enc rows0 w0 rndq, built_params P -> level P 0 c -> sk_params sk = P -> sk_ok sk -> 1 <= bp_variance P <= 16 ->
    Forall (fun x => 0 <= x < 2 ^ 64) enc -> (length enc <= bp_degree P)%nat -> (first <= length enc)%nat ->
    wf_poly (mkPoly c Ntt rows0) -> (forall k, 0 <= w0 k < 2 ^ 64) -> rnd_ok c rndq ->
    exists cts, client_query pr sk P first enc rows0 w0 rndq = Ok cts
      /\ query_noise P c (sk_fun sk) first enc cts (bp_t P * (2 * bp_variance P + 2)) (2 * bp_variance P)
      /\ Forall (query_ct P c) cts /\ length cts = (cx_k c + 1)%nat.
Proof.
  intros pr P c sk first enc rows0 w0 rndq BP L SP SO Hv H64 HL HF WR Hw RQ.
  pose proof (built_params_wf P BP) as WB. destruct (level_wf P 0 c WB L) as [_ LV].
  destruct (client_query_ok pr P c sk WB LV (conj SP SO) Hv first enc rows0 w0 rndq) as [cts [E1 HQ1]]; auto; [rewrite (lv_n _ _ _ LV); exact HL|].
  exists cts. split; [exact E1|]. split; [exact HQ1|]. destruct HQ1 as [h0 [h1 [E [b [a [e [-> _]]]]]]]. split.
  - constructor; [apply query_ct_of; exact LV|]. apply Forall_map, Forall_forall. intros i _. apply query_ct_of. exact LV.
  - cbn [length]. rewrite map_length, seq_length. lia.
Qed.
(*EXAMPLE
Example C80_client_ex : Forall (fun x => 0 <= x < 2 ^ 64) [0; 0; 0; 1; 0; 1; 0; 1] /\ (length [0; 0; 0; 1; 0; 1; 0; 1] <= 8)%nat.
Proof. split; [repeat constructor; lia|cbn; lia]. Qed.
EXAMPLE*)
