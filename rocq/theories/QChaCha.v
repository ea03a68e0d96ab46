(** Claim C75: the generators the crate seeds itself (src/ntt.rs:214-217,
    src/rq.rs:478-499). *)
From Verif Require Import PBase NT Spec SpecProb SpecRand PSum MModulus MUtils MNtt MRns MRq MBfv MPvw MOmr MTests MTests2 MRand MChaCha SpecChaCha SpecRq SpecBfv SpecKsk SpecDef PModulus PUtils PUtils2 PRns PRq PRq2 PBfv3 PBfv PPrime PDefData PDef TestEnv QRq QDef QClue QTests QTests2 QRand.

(** More words do not change a sample. *)
Lemma sample_more zone p more : forall ws x w, uniform_sample zone p ws = Ok (x, w) -> uniform_sample zone p (ws ++ more) = Ok (x, w ++ more).
Proof.
  induction ws as [|v ws IH]; intros x w H; [discriminate|]. cbn [app uniform_sample] in *. destruct (as64 (v * p) <=? zone); auto. injection H as <- <-. reflexivity.
Qed.
Lemma gen_range_more p more ws x w : gen_range p ws = Ok (x, w) -> gen_range p (ws ++ more) = Ok (x, w ++ more).
Proof. unfold gen_range. destruct (gen_range_zone p); cbn [bind]; try discriminate. apply sample_more. Qed.
Lemma kth_more p more : forall k ws x, kth_draw p k ws = Ok x -> kth_draw p k (ws ++ more) = Ok x.
Proof.
  induction k as [|k IH]; intros ws x H; cbn [kth_draw] in *; destruct (gen_range p ws) as [[y w]| | |] eqn:E; cbn [bind] in H; try discriminate H;
    rewrite (gen_range_more _ more _ _ _ E); cbn [bind]; auto.
Qed.
Lemma words_more key a b : chacha8_words key (a + b) = chacha8_words key a ++ concat (map (fun i => pair_words (chacha_block 4 key (Z.of_nat i))) (seq a b)).
Proof. unfold chacha8_words. rewrite seq_app, map_app, concat_app. reflexivity. Qed.

(** Draws that are found are in range. *)
Lemma as32_range x : 0 <= as32 x < 2 ^ 32.
Proof. apply Z.mod_pos_bound. reflexivity. Qed.
Lemma block_range d key ctr : Forall (fun x => 0 <= x < 2 ^ 32) (chacha_block d key ctr).
Proof. unfold chacha_block. apply Forall_map, Forall_forall. intros ab _. apply as32_range. Qed.
Lemma pair_range : forall n l, (length l <= n)%nat -> Forall (fun x => 0 <= x < 2 ^ 32) l -> Forall (fun x => 0 <= x < 2 ^ 64) (pair_words l).
Proof.
  induction n as [|n IH]; intros l HL F; [destruct l; [constructor|cbn [length] in HL; lia]|].
  destruct l as [|a [|b l]]; try constructor; cbn [length] in HL.
  - inversion F as [|? ? Ha F1]; subst. inversion F1 as [|? ? Hb F2]; subst. rewrite Z.shiftl_mul_pow2 by lia. change (2 ^ 32) with 4294967296 in *. change (2 ^ 64) with 18446744073709551616. lia.
  - inversion F as [|? ? Ha F1]; subst. inversion F1; subst. apply IH; auto. lia.
Qed.
Lemma chacha_range key n : Forall (fun x => 0 <= x < 2 ^ 64) (chacha8_words key n).
Proof.
  unfold chacha8_words. apply Forall_concat, Forall_map, Forall_forall. intros i _. eapply pair_range; [reflexivity|apply block_range].
Qed.
Lemma gen_range_ok p ws : 0 < p -> Forall (fun w => 0 <= w < 2 ^ 64) ws ->
  (exists x used w, gen_range p ws = Ok (x, w) /\ 0 <= x < p /\ ws = used ++ w) \/ gen_range p ws = NoFuel.
Proof.
  intros Hp F. unfold gen_range, gen_range_zone. rewrite rassert_true by lia. cbn [bind].
  destruct (sample_total (((Z.shiftl p (leading_zeros 64 p) - 1) mod W64)) p Hp ws F) as [[x [u [w [E [R [U _]]]]]]|E]; eauto 10.
Qed.
Lemma kth_range p : 0 < p -> forall k ws, Forall (fun w => 0 <= w < 2 ^ 64) ws ->
  (exists x, kth_draw p k ws = Ok x /\ 0 <= x < p) \/ kth_draw p k ws = NoFuel.
Proof.
  intros Hp. induction k as [|k IH]; intros ws F; cbn [kth_draw]; destruct (gen_range_ok p ws Hp F) as [[x [u [w [E [R ->]]]]]|E]; rewrite E; cbn [bind]; eauto.
  apply Forall_app in F. apply IH, F.
Qed.

(** For each prime the number of the draw that is a non-residue. *)
Definition cc_wit : list (Z * nat) :=
  [(65537, 1%nat); (1153, 0%nat); (4611686018427387761, 2%nat); (4611686018427387409, 1%nat);
   (4611686018427386897, 0%nat); (4611686018427385553, 0%nat); (4611686018427385393, 1%nat);
   (4611686018427384977, 1%nat); (4611686018427384881, 0%nat); (4611686018427387617, 0%nat);
   (4611686018427386081, 2%nat); (4611686018427384353, 0%nat); (4611686018427380897, 0%nat);
   (4611686018427380833, 0%nat); (4611686018427379553, 1%nat); (4611686018427387329, 1%nat);
   (4611686018427387073, 0%nat); (4611686018427385537, 0%nat); (4611686018427384641, 0%nat);
   (4611686018427382849, 0%nat); (4611686018427379009, 0%nat); (4611686018427378113, 1%nat);
   (4611686018427377473, 7%nat); (4611686018427374273, 0%nat); (4611686018427382913, 0%nat);
   (4611686018427379201, 2%nat); (4611686018427378049, 2%nat); (4611686018427375361, 0%nat);
   (4611686018427373313, 0%nat); (4611686018427372289, 0%nat); (4611686018427372161, 0%nat);
   (4611686018427370369, 4%nat); (4611686018427366401, 0%nat); (4611686018427365377, 5%nat);
   (4611686018427363457, 0%nat); (4611686018427362689, 0%nat); (4611686018427361793, 3%nat);
   (4611686018326724609, 0%nat); (4611686018309947393, 2%nat); (4611686018232352769, 1%nat);
   (4611686018171535361, 0%nat)].
Definition cc_ok (ws : list Z) (qk : Z * nat) : bool :=
  match kth_draw (fst qk) (snd qk) ws with
  | Ok x => (2 <? fst qk) && (fst qk <? W64) && (snd qk <? 100)%nat && (powm x ((fst qk - 1) / 2) (fst qk) =? fst qk - 1)
  | _ => false
  end.
Lemma cc_check : (let ws := ntt_words 1 in forallb (cc_ok ws) cc_wit) = true.
Proof. vm_compute. reflexivity. Qed.
Lemma cc_roots env : follows env (ntt_words 1) -> forall q, In q (map fst cc_wit) -> draws_root env q.
Proof.
  intros HF q Hq. apply in_map_iff in Hq. destruct Hq as [[q' k] [E I]]. cbn [fst] in E. subst q'.
  pose proof cc_check as C. cbv zeta in C. rewrite forallb_forall in C. specialize (C _ I). unfold cc_ok in C. cbn [fst snd] in C.
  destruct (kth_draw q k (ntt_words 1)) as [x| | |] eqn:E; try discriminate C. rewrite !andb_true_iff, !Z.ltb_lt, Nat.ltb_lt, Z.eqb_eq in C.
  destruct C as [[[C1 C2] C3] C4]. exists k. split; [exact C3|]. rewrite (HF q k x ltac:(change (2 ^ 64) with W64; lia) E).
  assert (X : eqm q (powm x ((q - 1) / 2) q) (x ^ ((q - 1) / 2))) by (apply powm_ok, Z.div_pos; lia).
  unfold eqm in X. rewrite <- X, C4. apply Z.mod_small. lia.
Qed.
Lemma cc_cover : forallb (fun q => zmem q (map fst cc_wit)) (test_moduli ++ dprimes 8 ++ dprimes 16 ++ dprimes 32 ++ dprimes 64) = true.
Proof. vm_compute. reflexivity. Qed.
Lemma cc_in q : In q (test_moduli ++ dprimes 8 ++ dprimes 16 ++ dprimes 32 ++ dprimes 64) -> In q (map fst cc_wit).
Proof. intros H. pose proof cc_cover as C. rewrite forallb_forall in C. apply zmem_in. apply C. exact H. Qed.

(** ** C75 *)
(** C75: a number drawn from the first blocks is below its bound and does not
    change when more blocks are generated. *)
Lemma C75_draws_lem :
  forall p k a b x, 0 < p -> kth_draw p k (ntt_words a) = Ok x ->
    0 <= x < p /\ kth_draw p k (ntt_words (a + b)) = Ok x.
Proof.
  intros p k a b x Hp E. unfold ntt_words in *. split.
  - destruct (kth_range p Hp k _ (chacha_range (seed_from_u64 0) a)) as [[y [E2 R]]|E2]; congruence.
  - rewrite words_more. apply kth_more. exact E.
Qed.

(** C75: with the numbers ChaCha8 gives for seed 0, [default] succeeds for the
    four degrees and up to six moduli. *)
Lemma C75_default_lem :
  forall pr env k n bd, env_exact env -> follows env (ntt_words 1) ->
    (n = 8 \/ n = 16 \/ n = 32 \/ n = 64)%nat -> (1 <= k <= 6)%nat ->
    exists P l, bfv_default pr env k n bd = Ok P /\ largest_primes n l /\ length l = (2 * k + 1)%nat
      /\ bp_degree P = n /\ bp_t P = 1153 /\ bp_variance P = 10 /\ bp_moduli P = firstn k l.
Proof.
  intros pr env k n bd EE HF Hn Hk. destruct (dprimes_ok n Hn) as [LL [FL [SL HL]]].
  assert (LP : largest_primes n (dprimes n)) by (split; [auto|split; [auto|]]; intros x Hx H; rewrite last_nth, LL in H; apply HL; auto).
  destruct (C68_default_lem pr env k n bd (firstn (2 * k + 1) (dprimes n)) EE Hn ltac:(lia) ltac:(lia)) as [P [E [D1 [D2 [D3 [D4 _]]]]]].
  - apply firstn_largest; auto. lia.
  - apply firstn_length_le. lia.
  - apply (cc_roots env HF). right. left. reflexivity.
  - apply Forall_forall. intros q Hq. apply (cc_roots env HF). apply cc_in. rewrite !in_app_iff. apply firstn_in in Hq.
    destruct Hn as [-> |[-> |[-> | ->]]]; auto.
  - exists P, (firstn (2 * k + 1) (dprimes n)). split; auto. split; [apply firstn_largest; auto; lia|]. split; [apply firstn_length_le; lia|]. auto.
Qed.

(** C75: so do the contexts and the transform the tests build. *)
Lemma C75_contexts_lem :
  forall pr env bd, env_exact env -> follows env (ntt_words 1) ->
    (exists c, rq_new pr env test_moduli 8 bd = Ok c) /\ (exists c, rq_new pr env [1153] 8 bd = Ok c)
    /\ (exists m op, modulus_new 1153 = Ok m /\ ntt_new pr env m 8 = Ok op).
Proof.
  intros pr env bd EE HF. pose proof EE as [PE DR]. assert (EO : env_ok env) by (split; [intros; apply PE; auto|exact DR]).
  assert (TP : forall q, In q test_moduli -> 2 <= q < 2 ^ 62 /\ ntt_possible env q 8).
  { intros q Hq. destruct (test_moduli_possible q Hq) as [R [H1 [H2 [H3 _]]]]. split; auto. split; auto. split; auto. split.
    - apply PE; [change (2 ^ 64) with 18446744073709551616; change (2 ^ 62) with 4611686018427387904 in R; lia|]. cbn [is_prime denv] in H3. destruct (prime_dec q); [auto|discriminate].
    - apply (cc_roots env HF). apply cc_in. apply in_app_iff. auto. }
  assert (RC : forall l, l = test_moduli \/ l = [1153] -> exists c, rq_new pr env l 8 bd = Ok c).
  { intros l Hl. assert (HI : forall q, In q l -> In q test_moduli).
    { intros q Hq. destruct Hl as [->| ->]; auto. destruct Hq as [<-|[]]. left. reflexivity. }
    apply (proj1 (C57_construct_lem pr env l 8 bd EO ltac:(destruct Hl as [->| ->]; repeat constructor; lia))).
    split; [destruct Hl as [->| ->]; discriminate|]. split; [intros q Hq; apply TP; auto|].
    assert (C : forallb (fun i => forallb (fun j => (i =? j)%nat || (Z.gcd (nth i test_moduli 1) (nth j test_moduli 1) =? 1)) (seq 0 5)) (seq 0 5) = true) by (vm_compute; reflexivity).
    rewrite forallb_forall in C. intros i j Hi Hj Hne. assert (LL : (length l <= 5)%nat) by (destruct Hl as [->| ->]; cbn; lia).
    specialize (C i ltac:(apply in_seq; lia)). rewrite forallb_forall in C. specialize (C j ltac:(apply in_seq; lia)).
    apply orb_true_iff in C. destruct C as [C|C]; [apply Nat.eqb_eq in C; contradiction|]. apply Z.eqb_eq in C.
    destruct Hl as [->| ->]; [exact C|]. cbn [length] in *. lia. }
  split; [apply RC; auto|]. split; [apply RC; auto|].
  destruct (TP 1153 ltac:(left; reflexivity)) as [R NP]. destruct (modulus_new_ok 1153 ltac:(change P62 with (2 ^ 62); lia)) as [m [EM [Em V]]].
  exists m. destruct (ntt_new_cases pr env 1153 m 8 EO ltac:(lia) EM) as [[_ N]|[[op E] _]]; [contradiction|eauto].
Qed.

(** C75: [process] completes. *)
Lemma C75_process_lem :
  forall pr env, env_exact env -> follows env (ntt_words 1) -> process pr env = Ok tt.
Proof.
  intros pr env EE HF. pose proof EE as [PE DR]. apply C63_process_lem; [split; [intros; apply PE; auto|exact DR]|].
  change (pv_q pvw_default) with 65537. split; [exists 6%nat; split; [lia|reflexivity]|]. split; [reflexivity|]. split.
  - apply PE; [change (2 ^ 64) with 18446744073709551616; lia|]. apply isp_sound. vm_compute. reflexivity.
  - apply (cc_roots env HF). left. reflexivity.
Qed.

(** C75: the test construct_ntt_operator passes. *)
Lemma C75_construct_ntt_operator_lem :
  forall pr env, env_exact env -> follows env (ntt_words 1) -> test_construct_ntt_operator pr env = Ok tt.
Proof.
  intros pr env EE HF. apply C72_construct_ntt_operator_lem; [intros k; apply EE; lia|]. apply (cc_roots env HF). right. right. left. reflexivity.
Qed.

(** Polynomials from a seed. *)
Lemma draws_more more : forall cps ws xs w, draws cps ws = Ok (xs, w) -> draws cps (ws ++ more) = Ok (xs, w ++ more).
Proof.
  induction cps as [|cp cps IH]; intros ws xs w H; cbn [draws] in *; [injection H as <- <-; reflexivity|].
  destruct (uniform_sample _ _ ws) as [[x w1]| | |] eqn:E; cbn [bind] in H; try discriminate H. rewrite (sample_more _ _ more _ _ _ E). cbn [bind].
  destruct (draws cps w1) as [[ys w2]| | |] eqn:E2; cbn [bind] in H; try discriminate H. rewrite (IH _ _ _ E2). cbn [bind]. injection H as <- <-. reflexivity.
Qed.
Lemma seed_draws ctx r seed n : built ctx -> length seed = 32%nat ->
  poly_random_from_seed ctx r seed n = ('(xs, _) <- draws (row_cps (rq_degree ctx) (rq_moduli ctx)) (chacha8_words (seed_key seed) n) ;; Ok (mkPoly ctx r (chunk (rq_degree ctx) (length (rq_moduli ctx)) xs))).
Proof.
  intros B L. destruct (ctx_mods ctx B) as [FM _]. unfold poly_random_from_seed, zero_rows. rewrite L, Nat.eqb_refl. cbn [rassert bind]. rewrite rows_draws by auto.
  destruct (draws _ _) as [[xs w]| | |]; reflexivity.
Qed.

(** C75: [random_from_seed] gives a well-shaped polynomial that does not depend
    on the number of blocks generated. *)
Lemma C75_seed_lem :
  forall ctx r seed n, built ctx -> length seed = 32%nat ->
    (exists p, poly_random_from_seed ctx r seed n = Ok p /\ wf_poly p /\ p_ctx p = ctx /\ p_repr p = r
       /\ p = poly_random ctx r (p_rows p) /\ forall more, poly_random_from_seed ctx r seed (n + more) = Ok p)
    \/ poly_random_from_seed ctx r seed n = NoFuel.
Proof.
  intros ctx r seed n B L. destruct (ctx_mods ctx B) as [FM EM]. rewrite seed_draws by auto.
  destruct (draws_total (row_cps (rq_degree ctx) (rq_moduli ctx))) with (ws := chacha8_words (seed_key seed) n) as [[xs [u [w [D [F2 [_ _]]]]]]|D].
  - unfold row_cps. apply Forall_forall. intros cp I. apply in_concat in I. destruct I as [l [I1 I2]]. apply in_map_iff in I1. destruct I1 as [q [<- I1]].
    apply repeat_spec in I2. subst. cbn [std_cp snd]. apply (proj1 (Forall_forall _ _) FM). auto.
  - apply chacha_range.
  - left. rewrite D. cbn [bind]. eexists. split; [reflexivity|]. split; [apply wf_rows; auto; apply chunk_spec; auto|]. repeat split; auto.
    intros more. rewrite seed_draws, words_more by auto. rewrite (draws_more _ _ _ _ _ D). reflexivity.
  - right. rewrite D. reflexivity.
Qed.

Lemma chunk_firstn d : forall j k xs, (j <= k)%nat -> firstn j (chunk d k xs) = chunk d j xs.
Proof. induction j as [|j IH]; intros [|k] xs H; cbn [chunk firstn]; try reflexivity; try lia. f_equal. apply IH. lia. Qed.
Lemma chunk_prefix d : forall j a b, length a = (j * d)%nat -> chunk d j (a ++ b) = chunk d j a.
Proof.
  induction j as [|j IH]; intros a b H; cbn [chunk]; [reflexivity|]. cbn [Nat.mul] in H. rewrite firstn_app, skipn_app.
  replace (d - length a)%nat with 0%nat by lia. cbn [firstn skipn]. rewrite app_nil_r. f_equal. apply IH. rewrite skipn_length. lia.
Qed.
Lemma row_cps_mp d : forall a b, map mp a = map mp b -> row_cps d a = row_cps d b.
Proof.
  unfold row_cps. induction a as [|x a IH]; intros [|y b] H; try discriminate H; [reflexivity|]. cbn [map concat] in *. injection H as H1 H2. rewrite H1. f_equal. auto.
Qed.
(** C75: the residues depend only on degree, moduli and seed, not on the
    representation; fewer moduli give a prefix of the rows. *)
Lemma C75_seed_prefix_lem :
  forall c1 c2 r1 r2 seed n j p1, built c1 -> built c2 -> length seed = 32%nat -> rq_degree c2 = rq_degree c1 ->
    (j <= cx_k c1)%nat -> rq_moduli_64 c2 = firstn j (rq_moduli_64 c1) ->
    poly_random_from_seed c1 r1 seed n = Ok p1 ->
    poly_random_from_seed c2 r2 seed n = Ok (mkPoly c2 r2 (firstn j (p_rows p1))).
Proof.
  intros c1 c2 r1 r2 seed n j p1 B1 B2 L ED Hj EM E. rewrite seed_draws in * by auto.
  destruct (ctx_mods c1 B1) as [_ M1]. destruct (ctx_mods c2 B2) as [_ M2]. unfold cx_k in Hj. rewrite <- M1, map_length in Hj. rewrite <- M1, <- M2, firstn_map in EM.
  rewrite ED. rewrite (row_cps_mp _ _ _ EM).
  assert (L2 : length (rq_moduli c2) = j) by (rewrite <- (map_length mp), EM, map_length; apply firstn_length_le; auto). rewrite L2.
  assert (SP : row_cps (rq_degree c1) (rq_moduli c1) = row_cps (rq_degree c1) (firstn j (rq_moduli c1)) ++ row_cps (rq_degree c1) (skipn j (rq_moduli c1))).
  { unfold row_cps. rewrite <- concat_app, <- map_app, firstn_skipn. reflexivity. }
  rewrite SP, draws_app in E. destruct (draws (row_cps _ (firstn j _)) _) as [[xs w]| | |] eqn:D; cbn [bind] in E |- *; try discriminate E.
  destruct (draws (row_cps _ (skipn j _)) w) as [[ys w2]| | |] eqn:D2; cbn [bind] in E; try discriminate E. injection E as <-. cbn [p_rows].
  rewrite chunk_firstn by auto. rewrite chunk_prefix; [reflexivity|]. rewrite (draws_len _ _ _ _ D), row_cps_len, firstn_length_le by auto. reflexivity.
Qed.

(*EXAMPLE
(** Published test vectors: the first words of ChaCha20 and ChaCha8 under the
    zero key, SHA-256 of "abc" and of 32 zero bytes. *)
Example C75_vectors :
  firstn 4 (map swap32 (chacha_block 10 (repeat 0 8) 0)) = [0x76b8e0ad; 0xa0f13d90; 0x405d6ae5; 0x5386bd28]
  /\ firstn 4 (map swap32 (chacha_block 4 (repeat 0 8) 0)) = [0x3e00ef2f; 0x895f40d6; 0x7f5bb8e8; 0x1f09a5a1]
  /\ sha_block [0x61626380; 0; 0; 0; 0; 0; 0; 0; 0; 0; 0; 0; 0; 0; 0; 24]
     = [0xba7816bf; 0x8f01cfea; 0x414140de; 0x5dae2223; 0xb00361a3; 0x96177a9c; 0xb410ff61; 0xf20015ad]
  /\ map swap32 (seed_key (repeat 0 32))
     = [0x66687aad; 0xf862bd77; 0x6c8fc18b; 0x8e9f8e20; 0x08971485; 0x6ee233b3; 0x902a591d; 0x0d5f2925].
Proof. vm_compute. repeat split; reflexivity. Qed.
(** The first word of the generator of primitive_root, and its first draws
    below 1153. *)
Example C75_example :
  nth 0 (ntt_words 1) 0 = 0xb585f767a79a3b6c /\ kth_draw 1153 0 (ntt_words 1) = Ok 537.
Proof. vm_compute. split; reflexivity. Qed.
(** An environment that satisfies the hypotheses. *)
Definition cenv : Env :=
  mkEnv (fun x => if prime_dec x then true else false) (fun p k => match kth_draw p k (ntt_words 1) with Ok x => x | _ => 0 end).
Example C75_env_example : env_exact cenv /\ follows cenv (ntt_words 1).
Proof.
  split; [split|].
  - intros x _. cbn [is_prime cenv]. destruct (prime_dec x); split; intros; try discriminate; auto.
  - intros p k Hp. cbn [draw cenv]. destruct (kth_range p Hp k (ntt_words 1) (chacha_range _ 1)) as [[y [-> R]]| ->]; lia.
  - intros p k x _ E. cbn [draw cenv]. rewrite E. reflexivity.
Qed.
(** A seeded polynomial of degree 8. *)
Example C75_seed_example :
  (c <- test_ctx Release test_ms ;; p <- poly_random_from_seed c Ntt (map Z.of_nat (seq 0 32)) 4 ;;
   c' <- test_ctx Release (firstn 1 test_ms) ;; p' <- poly_random_from_seed c' PowerBasis (map Z.of_nat (seq 0 32)) 2 ;;
   Ok (map (firstn 2) (p_rows p), map (firstn 2) (p_rows p')))
  = Ok ([[353002; 98292]; [203722; 1023349]; [747331; 996544]], [[353002; 98292]]).
Proof. vm_compute. reflexivity. Qed.
EXAMPLE*)
