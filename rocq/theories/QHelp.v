(** Claim C84: helpers and constructors without a claim of their own. *)
From Verif Require Import PBase NT Spec PSum MModulus MUtils MNtt MRns MRq MBfv MKsk MRgsw PModulus PUtils PNttMath PNtt PNttNew PCrt PRns PRnsScale PUtils2 SpecRq SpecBfv SpecKsk PRing PRq PRq2 PRq3 PRq4 PRq5 TestEnv QRq PBfv PBfv2 PBfv3 QBfv PKsk TestBfv.

(** The vector forms of the word operations work entry by entry. *)
Lemma C84_vectors_lem :
  forall pr p m, 0 <= p -> modulus_new p = Ok m ->
    (forall l, (forall x, In x l -> 0 <= x < 2 ^ 64) -> reduce_vec_u64 pr m l = Ok (map (fun x => x mod p) l))
    /\ (forall l, reduce_vec_biguint m l = Ok (map (fun x => x mod p) l))
    /\ (forall a, - 2 ^ 63 <= a < 2 ^ 63 -> reduce_i64 pr m a = Ok (a mod p))
    /\ (forall l, (forall x, In x l -> 0 <= x < p) -> shoup_vec pr m l = Ok (map (fun x => 2 ^ 64 * x / p) l))
    /\ (prime p -> forall l, (forall x, In x l -> 0 < x < p) ->
          exists v, inv_vec pr m l = Ok v /\ length v = length l
            /\ forall i, (i < length l)%nat -> 0 <= nth i v 0 < p /\ (nth i l 0 * nth i v 0) mod p = 1).
Proof.
  intros pr p m Hp E. destruct (modulus_new_valid p m Hp E) as [V Em]. subst p.
  split; [|split; [|split; [|split]]].
  - intros l H. apply reduce_vec_u64_ok; auto. apply Forall_forall. auto.
  - intros l. apply reduce_vec_biguint_ok; auto.
  - intros a Ha. apply reduce_i64_ok; auto.
  - intros l H. unfold shoup_vec. rewrite (mapM_ok _ (shoup_of (mp m))) by (intros; apply shoup_ok; auto).
    f_equal. apply map_ext. intros x. unfold shoup_of. f_equal. change W64 with (2 ^ 64). ring.
  - intros PP l H. unfold inv_vec. exists (map (fun a => a ^ (mp m - 2) mod mp m) l). split; [|split; [apply map_length|]].
    + apply mapM_ok. intros x Hx. apply minv_ok; auto.
    + intros i Hi. assert (EN : nth i (map (fun a => a ^ (mp m - 2) mod mp m) l) 0 = nth i l 0 ^ (mp m - 2) mod mp m).
      { rewrite (nth_indep _ 0 (0 ^ (mp m - 2) mod mp m)) by (rewrite map_length; auto). exact (map_nth (fun a => a ^ (mp m - 2) mod mp m) l 0 i). }
      rewrite EN.
      pose proof (H (nth i l 0) (nth_In l 0 Hi)) as R. destruct (minv_correct pr m (nth i l 0) V PP R) as [v [Ev [Rv Iv]]].
      rewrite minv_ok in Ev by auto. apply Ok_inj in Ev. rewrite Ev. split; [exact Rv|]. unfold eqm in Iv. rewrite Iv. apply Z.mod_small. lia.
Qed.

(** Zero and small random polynomials. *)
Lemma C84_polys_lem :
  forall pr c r, built c ->
    poly_zero c r = rep c r (fun _ => 0)
    /\ forall v w, r <> NttShoup -> 1 <= v <= 16 -> (forall i, 0 <= w i < 2 ^ 64) ->
         exists l, sample_vec_cbd pr (rq_degree c) v w = Ok l /\ length l = rq_degree c
           /\ (forall x, In x l -> Z.abs x <= 2 * v)
           /\ poly_random_small pr c r v w = Ok (rep c r (fun j => nth j l 0)).
Proof.
  intros pr c r B. pose proof (built_loc _ B) as W. split; [apply (rep_zero c W)|].
  intros v w Hr Hv Hw. eexists. split; [apply sample_vec_cbd_ok; auto|]. split; [rewrite map_length, seq_length; reflexivity|]. split.
  - intros x Hx. apply in_map_iff in Hx. destruct Hx as [i [<- _]]. apply (cbd_f_bound c w v i). lia.
  - rewrite (rep_random_small pr c W) by auto. f_equal. apply (rep_ext c W). intros j Hj. rewrite nth_map_seq by auto. reflexivity.
Qed.

(** Trial decryption returns the phase, at any level. *)
Lemma C84_trial_lem :
  forall pr P i c sk f0 f1, built_params P -> level P i c -> sk_params sk = P -> sk_ok sk ->
    exists g, decrypt_trial pr sk (rep c Ntt f0) (rep c Ntt f1) = Ok (rep c Ntt g)
      /\ forall j, (j < bp_degree P)%nat -> g j = phase (bp_degree P) (sk_fun sk) [f0; f1] j.
Proof.
  intros pr P i c sk f0 f1 B L SP [S1 S2]. pose proof (built_params_wf P B) as WB. destruct (level_wf P i c WB L) as [_ LV].
  pose proof (wf_ctx_loc _ (lv_wf _ _ _ LV)) as W. rewrite SP in S2.
  exists (fun j => rmul (rq_degree c) (sk_fun sk) f1 j + f0 j). split.
  - unfold decrypt_trial. cbn [p_ctx rep]. fold (rep c Ntt f0). fold (rep c Ntt f1). rewrite ctx_eqb_refl. cbn [rassert bind].
    rewrite (sk_ntt_ok pr P i c LV) by auto. cbn [bind]. rewrite (rep_mul pr c W). cbn [bind]. rewrite (rep_add pr c W). reflexivity.
  - intros j Hj. rewrite <- (lv_n _ _ _ LV). rewrite phase2. ring.
Qed.

Lemma asm_op P cts j : (exists l, mapM (fun ct => rassert (params_eqb (ct_params ct) P) ;;; get (ct_cts ct) j) cts = Ok l)
  \/ mapM (fun ct => rassert (params_eqb (ct_params ct) P) ;;; get (ct_cts ct) j) cts = Panic.
Proof.
  induction cts as [|ct cts IH]; [left; exists []; reflexivity|]. cbn [mapM]. destruct (params_eqb (ct_params ct) P); [|right; reflexivity].
  cbn [rassert bind]. unfold get at 1 3. destruct (nth_error (ct_cts ct) j); [|right; reflexivity]. cbn [bind].
  destruct IH as [[l E]|E]; rewrite E; [left; eexists; reflexivity|right; reflexivity].
Qed.

Lemma asm_bad P cts : Exists (fun ct => params_eqb (ct_params ct) P = false \/ (length (ct_cts ct) < 2)%nat) cts ->
  mapM (fun ct => rassert (params_eqb (ct_params ct) P) ;;; get (ct_cts ct) 1) cts = Panic.
Proof.
  induction 1 as [ct cts H|ct cts H IH]; cbn [mapM].
  - destruct H as [H|H]; [rewrite H; reflexivity|]. destruct (params_eqb (ct_params ct) P); [|reflexivity]. cbn [rassert bind].
    unfold get at 1. replace (nth_error (ct_cts ct) 1) with (@None Poly) by (symmetry; apply nth_error_None; lia). reflexivity.
  - destruct (params_eqb (ct_params ct) P); [|reflexivity]. cbn [rassert bind]. unfold get at 1. destruct (nth_error (ct_cts ct) 1); [|reflexivity].
    cbn [bind]. rewrite IH. reflexivity.
Qed.

Lemma combine_map_seq {A B} (f : nat -> A) (g : nat -> B) : forall s m, combine (map f (seq s m)) (map g (seq s m)) = map (fun i => (f i, g i)) (seq s m).
Proof. intros s m. revert s. induction m as [|m IH]; intros s; [reflexivity|]. cbn [seq map combine]. rewrite IH. reflexivity. Qed.

Lemma combine_map_seq'' {A B} (f : nat -> A) (g : nat -> B) : forall m1 m2 s, combine (map f (seq s m1)) (map g (seq s m2)) = map (fun i => (f i, g i)) (seq s (Nat.min m2 m1)).
Proof.
  induction m1 as [|m1 IH]; intros [|m2] s; try reflexivity. cbn [seq map combine Nat.min]. rewrite IH. reflexivity.
Qed.
Lemma combine_map_seq' {A B} (f : nat -> A) (g : nat -> B) m1 m2 : combine (map f (seq 0 m1)) (map g (seq 0 m2)) = map (fun i => (f i, g i)) (seq 0 (Nat.min m2 m1)).
Proof. apply combine_map_seq''. Qed.

Lemma asm_ct P c b a j (f : nat -> nat -> Z) : (forall i, get (ct_cts (ct_of P 0 c [b i; a i])) j = Ok (rep c Ntt (f i))) -> forall m s0,
  mapM (fun ct => rassert (params_eqb (ct_params ct) P) ;;; get (ct_cts ct) j) (map (fun i => ct_of P 0 c [b i; a i]) (seq s0 m)) = Ok (map (fun i => rep c Ntt (f i)) (seq s0 m)).
Proof.
  intros H m. induction m as [|m IH]; intros s0; [reflexivity|]. cbn [seq map mapM].
  change (ct_params (ct_of P 0 c [b s0; a s0])) with P. rewrite params_eqb_refl. cbn [rassert bind]. rewrite H. cbn [bind]. rewrite IH. reflexivity.
Qed.

(** Assembling a key: the components are taken over as they are, whatever their
    number and whatever levels the ciphertexts have; the key is for level 0. *)
Lemma C84_assemble_lem :
  forall P c cts, level P 0 c ->
    (Forall (fun ct => params_eqb (ct_params ct) P = true /\ (2 <= length (ct_cts ct))%nat) cts ->
       exists k, ksk_from_rlwes P cts = Ok k /\ k_params k = P /\ k_ksk_ctx k = c /\ k_ct_ctx k = c
         /\ length (k_c0 k) = length cts /\ length (k_c1 k) = length cts
         /\ forall i ct, get cts i = Ok ct -> get (k_c0 k) i = get (ct_cts ct) 0 /\ get (k_c1 k) i = get (ct_cts ct) 1)
    /\ (Exists (fun ct => params_eqb (ct_params ct) P = false \/ (length (ct_cts ct) < 2)%nat) cts -> ksk_from_rlwes P cts = Panic).
Proof.
  intros P c cts L. split.
  - intros F.
    assert (A : forall j, (j < 2)%nat -> exists l, mapM (fun ct => rassert (params_eqb (ct_params ct) P) ;;; get (ct_cts ct) j) cts = Ok l
       /\ length l = length cts /\ forall i ct, get cts i = Ok ct -> get l i = get (ct_cts ct) j).
    { intros j Hj. clear L. induction F as [|ct cts [E1 E2] F IH].
      - exists []. split; [reflexivity|]. split; [reflexivity|]. intros [|i] ct H; discriminate H.
      - destruct IH as [l [E3 [E4 E5]]]. cbn [mapM]. rewrite E1. cbn [rassert bind].
        destruct (get (ct_cts ct) j) as [x| | |] eqn:EG.
        2-4: unfold get in EG; destruct (nth_error (ct_cts ct) j) eqn:EN; try discriminate EG; apply nth_error_None in EN; lia.
        cbn [bind]. rewrite E3. cbn [bind]. exists (x :: l). split; [reflexivity|]. split; [cbn [length]; lia|].
        intros [|i] ct' H; [apply Ok_inj in H; subst ct'; exact (eq_sym EG)|apply E5; exact H]. }
    destruct (A 0%nat ltac:(lia)) as [l0 [E0 [L0 G0]]]. destruct (A 1%nat ltac:(lia)) as [l1 [E1 [L1 G1]]].
    exists (mkKsk P l0 l1 c c). unfold ksk_from_rlwes. rewrite E0. cbn [bind]. rewrite E1. cbn [bind]. unfold level in L. rewrite L. cbn [bind].
    cbn [k_params k_ksk_ctx k_ct_ctx k_c0 k_c1]. do 6 (split; [solve [auto]|]). intros i ct H. split; auto.
  - intros EX. unfold ksk_from_rlwes. rewrite (asm_bad P cts EX).
    destruct (asm_op P cts 0) as [[l E]|E]; rewrite E; reflexivity.
Qed.

(** Switching with a key assembled from m level-0 pairs, m not related to the
    number of moduli: pairs past the number of moduli are ignored, digits past m
    are dropped, so the polynomial switched is the one whose residues past the
    m-th are replaced by zero.  [m = cx_k c] gives the whole polynomial. *)
Lemma C84_switch_lem :
  forall pr P c k s from G b a e p m, built_params P -> level P 0 c -> gadget c G ->
    ksk_from_rlwes P (map (fun i => ct_of P 0 c [b i; a i]) (seq 0 m)) = Ok k ->
    (forall i j, (i < cx_k c)%nat -> (i < m)%nat -> (j < bp_degree P)%nat ->
       phase (bp_degree P) s [b i; a i] j mod cx_Q c = (G i * from j + e i j) mod cx_Q c) ->
    exists c0 c1 p', key_switch pr k (rep c PowerBasis p) = Ok (rep c Ntt c0, rep c Ntt c1)
      /\ (forall i j, (i < cx_k c)%nat -> p' j mod cx_q c i = if (i <? m)%nat then p j mod cx_q c i else 0)
      /\ forall j, (j < bp_degree P)%nat ->
           phase (bp_degree P) s [c0; c1] j mod cx_Q c
           = (rmul (bp_degree P) p' from j
              + sumn (Nat.min m (cx_k c)) (fun i => rmul (bp_degree P) (fun l => p l mod cx_q c i) (e i) j)) mod cx_Q c.
Proof.
  intros pr P c k s from G b a e p m B L HG EK HE. pose proof (built_params_wf P B) as WB. destruct (level_wf P 0 c WB L) as [_ LV].
  pose proof (wf_ctx_loc _ (lv_wf _ _ _ LV)) as W. rewrite <- (lv_n _ _ _ LV) in *. set (n := rq_degree c) in *. set (M := Nat.min m (cx_k c)).
  assert (E : k = mkKsk P (map (fun i => rep c Ntt (b i)) (seq 0 m)) (map (fun i => rep c Ntt (a i)) (seq 0 m)) c c).
  { unfold ksk_from_rlwes in EK. rewrite (asm_ct P c b a 0 (fun i => b i)) in EK by auto. rewrite (asm_ct P c b a 1 (fun i => a i)) in EK by auto.
    cbn [bind] in EK. unfold level in L. rewrite L in EK. cbn [bind] in EK. apply Ok_inj in EK. symmetry. exact EK. }
  subst k. clear EK.
  set (p' := fun l => sumn M (fun i => G i * (p l mod cx_q c i))).
  exists (fun j => sumn M (fun i => rmul n (fun l => p l mod cx_q c i) (b i) j)), (fun j => sumn M (fun i => rmul n (fun l => p l mod cx_q c i) (a i) j)), p'.
  split; [|split].
  - unfold key_switch. cbn [k_ksk_ctx k_ct_ctx k_c0 k_c1]. rewrite rep_rows. cbn [p_ctx p_repr rep]. rewrite ctx_eqb_refl.
    cbn [rassert bind repr_eqb]. rewrite rep_zero by auto. rewrite combine_map_seq. rewrite combine_map_seq'.
    fold M. rewrite <- (combine_map_seq (rrow c PowerBasis p) (fun i => (rep c Ntt (b i), rep c Ntt (a i))) 0 M).
    rewrite <- (combine_map_seq (fun i => rep c Ntt (b i)) (fun i => rep c Ntt (a i)) 0 M).
    rewrite (switch_loop pr P 0 c LV b a p M 0) by (unfold M; lia). cbn [Nat.add]. reflexivity.
  - intros i j Hi. pose proof (cx_range c W i Hi) as R. unfold p'.
    transitivity (sumn M (fun i0 => if (i0 =? i)%nat then p j mod cx_q c i else 0) mod cx_q c i).
    + apply (sumn_eqm (cx_q c i)). intros i0 Hi0. assert (H0 : (i0 < cx_k c)%nat) by (unfold M in Hi0; lia).
      pose proof (HG i0 i H0 Hi) as EG. destruct (Nat.eqb_spec i0 i) as [->|N].
      * unfold eqm. rewrite Z.mul_mod, EG by lia. rewrite Z.mul_1_l, !Z.mod_mod by lia. reflexivity.
      * unfold eqm. rewrite Z.mul_mod, EG by lia. rewrite Z.mul_0_l. reflexivity.
    + destruct (Nat.ltb_spec i m) as [Hm|Hm].
      * rewrite (sumn_single M i); [|unfold M; lia|intros i0 _ N; destruct (Nat.eqb_spec i0 i); [contradiction|auto]].
        rewrite Nat.eqb_refl. apply Z.mod_mod. lia.
      * rewrite (sumn_ext M _ (fun _ => 0)); [rewrite sumn_0 by auto; apply Z.mod_0_l; lia|]. intros i0 Hi0. unfold M in Hi0. destruct (Nat.eqb_spec i0 i); [lia|auto].
  - intros j Hj. set (Q := cx_Q c). set (d := fun i l => p l mod cx_q c i).
    change (eqm Q (phase n s [fun j => sumn M (fun i => rmul n (d i) (b i) j); fun j => sumn M (fun i => rmul n (d i) (a i) j)] j)
              (rmul n p' from j + sumn M (fun i => rmul n (d i) (e i) j))).
    assert (N0 : (0 < n)%nat) by lia.
    pose proof (phase2 c) as PH. fold n in PH. rewrite PH, rmul_sum_r, <- sumn_add.
    transitivity (sumn M (fun i => rmul n (d i) (fun l => G i * from l + e i l) j)).
    + apply sumn_eqm. intros i Hi.
      change (rmul n s (fun j0 => rmul n (d i) (a i) j0) j) with (rmul n s (rmul n (d i) (a i)) j).
      replace (rmul n (d i) (b i) j + rmul n s (rmul n (d i) (a i)) j) with (rmul n (d i) (fun l => phase n s [b i; a i] l) j).
      * apply rmul_eqm; [reflexivity|]. intros l Hl. unfold eqm. unfold M in Hi. apply HE; auto; lia.
      * rewrite (rmul_ext n (d i) (d i) (fun l => phase n s [b i; a i] l) (fun l => b i l + rmul n s (a i) l)); auto.
        rewrite rmul_add_r. f_equal. rewrite <- !rmul_assoc by auto. apply rmul_ext; auto. intros l Hl. apply rmul_comm.
    + rewrite (sumn_ext M _ (fun i => rmul n (d i) (fun l => G i * from l) j + rmul n (d i) (e i) j)) by (intros; apply rmul_add_r).
      rewrite sumn_add. apply eqm_add; [|reflexivity].
      rewrite (sumn_ext M _ (fun i => rmul n (fun l => G i * d i l) from j)) by (intros; rewrite rmul_scal_r, rmul_scal_l; reflexivity).
      rewrite <- rmul_sum_l. reflexivity.
Qed.
(*EXAMPLE
(** The vector helpers modulo 17; a key assembled from two, one and no ciphertexts
    of zero switches without panicking, and one made from a ciphertext with one component panics. *)
Example C84_example :
  (m <- modulus_new 17 ;; a <- reduce_vec_u64 Debug m [16; 17; 40] ;; i <- inv_vec Debug m [1; 2; 16] ;; s <- shoup_vec Debug m [0; 1] ;;
   Ok (a, i, s)) = Ok ([16; 0; 6], [1; 9; 16], [0; 2 ^ 64 / 17])
  /\ (P <- test_bfv Debug ;; c <- tctx P ;; let sk := mkSk P [1; -1; 0; 1; 1; 0; 2; -1] in
      a <- encrypt Debug sk (mkPt P 0 EncPoly [0; 0; 0; 0; 0; 0; 0; 0]) (trows bms 4) (tw 5) ;; p <- poly_from_i64 Debug c [1; 2] ;;
      k2 <- ksk_from_rlwes P [a; a] ;; x2 <- key_switch Debug k2 p ;;
      k1 <- ksk_from_rlwes P [a] ;; x1 <- key_switch Debug k1 p ;;
      k0 <- ksk_from_rlwes P [] ;; x0 <- key_switch Debug k0 p ;;
      t <- decrypt_trial Debug sk (fst x0) (snd x0) ;;
      Ok (length (k_c0 k2), length (k_c0 k1), map (fun r => forallb (Z.eqb 0) r) (p_rows t),
          match ksk_from_rlwes P [mkCt P [fst x1] 0] with Panic => true | _ => false end))
     = Ok (2%nat, 1%nat, [true; true], true).
Proof. split; vm_compute; reflexivity. Qed.
EXAMPLE*)
