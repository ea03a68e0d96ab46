(** Claims C61 and C62: key switching between levels, operands of different
    levels. *)
From Verif Require Import PBase NT Spec PSum MModulus MUtils MNtt MRns MRq MBfv MKsk PModulus PUtils PNttMath PNtt PNttNew PCrt PRns PRnsScale PUtils2 SpecRq SpecBfv SpecKsk PRing PRq PRq2 PRq3 PRq4 PRq5 TestEnv QRq PBfv PBfv2 PKsk PKsk2 PMix TestBfv.

(** C61: a key generated at level k switches polynomials of every level i >= k
    (fewer moduli than the key): the result is in the context of level i and its
    phase is p*from plus the stated noise modulo that context's modulus. *)
Lemma C61_cross_level_lem :
  forall pr P i k c C sk u rnd, built_params P -> level P i c -> level P k C -> (k <= i)%nat -> sk_params sk = P -> sk_ok sk ->
    1 <= bp_variance P <= 16 -> rnd_ok C rnd ->
    exists key e, ksk_new pr sk (rep C Ntt u) i k rnd = Ok key
      /\ (forall l j, Z.abs (e l j) <= 2 * bp_variance P)
      /\ forall p, exists c0 c1, key_switch pr key (rep c PowerBasis p) = Ok (rep c Ntt c0, rep c Ntt c1)
           /\ forall j, (j < bp_degree P)%nat ->
                phase (bp_degree P) (sk_fun sk) [c0; c1] j mod cx_Q c = (rmul (bp_degree P) p u j + ks_noise c e p j) mod cx_Q c
                /\ Z.abs (ks_noise c e p j) <= ks_bound c (2 * bp_variance P).
Proof.
  intros pr P i k c C sk u rnd B L LC Hk SP SO Hv [R1 R2]. pose proof (built_params_wf P B) as WB.
  destruct (level_wf P i c WB L) as [_ LV]. destruct (level_wf P k C WB LC) as [_ LVC].
  pose proof (sub_levels P i k c C B L LC Hk) as SX.
  destruct (cross_new pr P i k c C LV LVC sk u rnd (conj SP SO) Hv) as [key [b [a [e [E [E1 [E2 [E3 [E4 [HP HE]]]]]]]]]]; auto.
  { intros l Hl. apply R1. pose proof (sx_k _ _ SX). lia. }
  exists key, e. split; auto. split; auto. intros p.
  destruct (cross_ok pr P i k c C LV LVC SX key (sk_fun sk) u e p b a (fun l => nth l (rns_garner (rq_rns c)) 0)) as [c0 [c1 [EK H]]]; auto.
  { apply (gadget_garner P i c LV). }
  { intros l j Hl Hj. rewrite HP. reflexivity. }
  exists c0, c1. split; auto. intros j Hj. rewrite <- (lv_n _ _ _ LV) in *. split; [apply H; auto|].
  apply (ks_noise_bound P i c LV); auto. lia.
Qed.

(** C61: with a key of a higher level than the polynomial (fewer moduli) the
    code does not stop; both components come out as 0 modulo every modulus the
    key does not have. *)
Lemma C61_higher_level_actual_lem :
  forall pr P i k c C sk u rnd, built_params P -> level P i c -> level P k C -> (i < k)%nat -> sk_params sk = P -> sk_ok sk ->
    1 <= bp_variance P <= 16 ->
    (forall l, wf_poly (mkPoly C Ntt (rnd_rows rnd l))) -> (forall l j, 0 <= rnd_words rnd l j < 2 ^ 64) ->
    exists key, ksk_new pr sk (rep C Ntt u) i k rnd = Ok key
      /\ forall p, exists c0 c1, key_switch pr key (rep c PowerBasis p) = Ok (rep c Ntt c0, rep c Ntt c1)
           /\ forall l j, (cx_k C <= l < cx_k c)%nat -> (j < bp_degree P)%nat -> c0 j mod cx_q c l = 0 /\ c1 j mod cx_q c l = 0.
Proof.
  intros pr P i k c C sk u rnd B L LC Hk SP SO Hv R1 R2. pose proof (built_params_wf P B) as WB.
  destruct (level_wf P i c WB L) as [_ LV]. destruct (level_wf P k C WB LC) as [_ LVC].
  pose proof (sub_levels P k i C c B LC L ltac:(lia)) as SX.
  destruct (cross_new pr P i k c C LV LVC sk u rnd (conj SP SO) Hv) as [key [b [a [e [E [E1 [E2 [E3 [E4 [HP HE]]]]]]]]]]; auto.
  exists key. split; auto. intros p.
  pose proof (wf_ctx_loc _ (lv_wf _ _ _ LV)) as W. pose proof (wf_ctx_loc _ (lv_wf _ _ _ LVC)) as WC.
  destruct (up_run pr c C W WC SX key p b a E1 E2 E3 E4) as [c0 [c1 [EK [Z0 Z1]]]].
  exists c0, c1. split; auto. intros l j Hl Hj. rewrite <- (lv_n _ _ _ LV) in Hj. pose proof (cx_range c W l ltac:(lia)) as R.
  pose proof (Z0 l j Hl Hj) as A. pose proof (Z1 l j Hl Hj) as A'. unfold eqm in A, A'. rewrite Z.mod_0_l in A, A' by lia. auto.
Qed.

(** C61 refuted for such keys: for every parameter set with large enough moduli
    there is a polynomial [from] such that no choice of small key errors makes
    the key switching identity true. *)
Lemma C61_higher_level_refuted_lem :
  forall pr P i k c C sk rnd, built_params P -> level P i c -> level P k C -> (i < k)%nat -> sk_params sk = P -> sk_ok sk ->
    1 <= bp_variance P <= 16 -> 8 * bp_variance P * Z.of_nat (cx_k c) < cx_q c (cx_k c - 1) ->
    (forall l, wf_poly (mkPoly C Ntt (rnd_rows rnd l))) -> (forall l j, 0 <= rnd_words rnd l j < 2 ^ 64) ->
    exists u key, ksk_new pr sk (rep C Ntt u) i k rnd = Ok key
      /\ forall e, (forall l j, Z.abs (e l j) <= 2 * bp_variance P) ->
         ~ forall p, exists c0 c1, key_switch pr key (rep c PowerBasis p) = Ok (rep c Ntt c0, rep c Ntt c1)
             /\ forall j, (j < bp_degree P)%nat ->
                  phase (bp_degree P) (sk_fun sk) [c0; c1] j mod cx_Q c = (rmul (bp_degree P) p u j + ks_noise c e p j) mod cx_Q c.
Proof.
  intros pr P i k c C sk rnd B L LC Hk SP SO Hv Hq R1 R2. set (l := (cx_k c - 1)%nat) in *.
  set (u := fun j => nth j [cx_q c l / 2] 0). exists u.
  destruct (C61_higher_level_actual_lem pr P i k c C sk u rnd B L LC Hk SP SO Hv R1 R2) as [key [E H]].
  exists key. split; auto. intros e HE A. set (p := fun j => nth j [1] 0).
  destruct (H p) as [c0 [c1 [EK Z0]]]. destruct (A p) as [d0 [d1 [ED HD]]]. rewrite EK in ED. apply Ok_inj in ED.
  assert (ED0 : rep c Ntt c0 = rep c Ntt d0) by congruence. assert (ED1 : rep c Ntt c1 = rep c Ntt d1) by congruence. clear ED.
  pose proof (built_params_wf P B) as WB.
  destruct (level_wf P i c WB L) as [Hi LV]. destruct (level_wf P k C WB LC) as [Hk' LVC].
  pose proof (wf_ctx_loc _ (lv_wf _ _ _ LV)) as W. pose proof (wf_ctx_loc _ (lv_wf _ _ _ LVC)) as WC.
  pose proof (wl_ne _ W) as K1.
  assert (KC : (cx_k C < cx_k c)%nat).
  { unfold cx_k. rewrite (lv_ms _ _ _ LV), (lv_ms _ _ _ LVC), !firstn_length. lia. }
  assert (Hl : (l < cx_k c)%nat) by (unfold l; lia).
  pose proof (cx_range c W l Hl) as R. pose proof (cx_n8 c W) as N8. rewrite (lv_n _ _ _ LV) in N8.
  set (n := bp_degree P) in *.
  (* modulo the top modulus the phase is 0 *)
  assert (P0 : eqm (cx_q c l) (phase n (sk_fun sk) [d0; d1] 0) 0).
  { replace n with (rq_degree c) by apply (lv_n _ _ _ LV). rewrite (phase2 c). rewrite (lv_n _ _ _ LV). fold n.
    assert (Q0 : forall d d' : nat -> Z, rep c Ntt d = rep c Ntt d' -> (forall j, (j < n)%nat -> d j mod cx_q c l = 0) ->
              forall j, (j < n)%nat -> eqm (cx_q c l) (d' j) 0).
    { intros d d' Er Hd j Hj. transitivity (d j).
      - symmetry. apply (eqm_Q_q c W l); auto. apply (rep_inj pr c W Ntt d d'); auto; [discriminate|]. rewrite (lv_n _ _ _ LV). auto.
      - unfold eqm. rewrite Hd by auto. rewrite Z.mod_0_l; lia. }
    transitivity (0 + rmul n (sk_fun sk) (fun _ => 0) 0); [|rewrite rmul_0_r; reflexivity].
    apply eqm_add; [apply (Q0 c0 d0 ED0); [|lia]; intros j Hj; apply (Z0 l j); auto; unfold l; lia|].
    apply rmul_eqm; [reflexivity|]. intros j Hj. apply (Q0 c1 d1 ED1); auto. intros j' Hj'. apply (Z0 l j'); auto. unfold l; lia. }
  pose proof (HD 0%nat ltac:(lia)) as HD0. change (eqm (cx_Q c) (phase n (sk_fun sk) [d0; d1] 0) (rmul n p u 0 + ks_noise c e p 0)) in HD0.
  apply (eqm_Q_q c W l) in HD0; auto. rewrite P0 in HD0.
  assert (PU : rmul n p u 0 = cx_q c l / 2).
  { unfold u. rewrite rmul_const by lia. unfold p. cbn [nth]. ring. }
  assert (NB : Z.abs (ks_noise c e p 0) <= 2 * bp_variance P * Z.of_nat (cx_k c)).
  { unfold ks_noise. eapply Z.le_trans; [apply sumn_abs|].
    eapply Z.le_trans; [apply (sumn_le (cx_k c) _ (fun _ => 2 * bp_variance P))|rewrite sumn_const; lia].
    intros x Hx. pose proof (cx_range c W x Hx) as Rx. rewrite (lv_n _ _ _ LV). fold n.
    rewrite (rmul_ext n _ (fun j => nth j [1] 0) (e x) (e x)); auto.
    - rewrite rmul_comm, rmul_const by lia. rewrite Z.mul_1_l. apply HE.
    - intros j Hj. unfold p. destruct j as [|[|j]]; cbn [nth]; [rewrite Z.mod_small by lia; reflexivity|apply Z.mod_0_l; lia..]. }
  assert (VK : 0 < bp_variance P * Z.of_nat (cx_k c)) by (clear - Hv K1; nia).
  replace (2 * bp_variance P * Z.of_nat (cx_k c)) with (2 * (bp_variance P * Z.of_nat (cx_k c))) in NB by ring.
  replace (8 * bp_variance P * Z.of_nat (cx_k c)) with (8 * (bp_variance P * Z.of_nat (cx_k c))) in Hq by ring.
  set (X := bp_variance P * Z.of_nat (cx_k c)) in *.
  rewrite PU in HD0. unfold eqm in HD0. rewrite Z.mod_0_l in HD0 by lia.
  assert (Q3 : 2 * (cx_q c l / 2) <= cx_q c l < 2 * (cx_q c l / 2) + 2) by (clear - R; pose proof (Z.div_mod (cx_q c l) 2 ltac:(lia)); pose proof (Z.mod_pos_bound (cx_q c l) 2 ltac:(lia)); lia).
  rewrite Z.mod_small in HD0; [|clear - NB Q3 Hq VK; lia]. clear - HD0 NB Q3 Hq VK. lia.
Qed.

Lemma sub_nth C c i : built C -> nth_ctx C i = Some c -> sub_ctx c C.
Proof.
  intros [pr [env [ms [n [bd [EH [H0 E]]]]]]] H.
  assert (G : forall i ms C, Forall (fun q => 0 <= q) ms -> rq_new pr env ms n bd = Ok C -> nth_ctx C i = Some c ->
            exists k, (k <= length ms)%nat /\ rq_new pr env (firstn k ms) n bd = Ok c).
  { clear - EH. induction i as [|i IH]; intros ms C H0 E H; cbn [nth_ctx] in H.
    - injection H as <-. exists (length ms). rewrite firstn_all. auto.
    - destruct (C57_structure_lem pr env ms n bd C EH H0 E) as [_ [_ [_ [_ [_ [_ [_ [_ HN]]]]]]]].
      destruct (rq_next C) as [C'|]; [|discriminate]. destruct HN as [H2 E'].
      destruct (IH (firstn (length ms - 1) ms) C') as [k [Hk Ek]]; auto.
      { apply Forall_forall. intros q Hq. rewrite Forall_forall in H0. apply H0.
        rewrite <- (firstn_skipn (length ms - 1) ms). apply in_or_app. auto. }
      rewrite firstn_length in Hk. rewrite firstn_firstn, Nat.min_l in Ek by lia. exists k. split; auto. lia. }
  destruct (G i ms C H0 E H) as [k [Hk Ek]]. eapply sub_of_new; eauto.
Qed.

(** C62: with the smaller context on the left, +, - and * compute in it. *)
Lemma C62_smaller_left_lem :
  forall pr C c i f g, built C -> nth_ctx C i = Some c ->
    poly_add pr (rep c Ntt f) (rep C Ntt g) = Ok (rep c Ntt (fun j => f j + g j)) /\
    poly_sub pr (rep c Ntt f) (rep C Ntt g) = Ok (rep c Ntt (fun j => f j - g j)) /\
    poly_mul pr (rep c Ntt f) (rep C Ntt g) = Ok (rep c Ntt (rmul (rq_degree c) f g)).
Proof.
  intros pr C c i f g B H. pose proof (sub_nth C c i B H) as SX. pose proof (built_wf C B) as WC.
  destruct (nth_ctx_wf C i c WC H) as [Wc _]. pose proof (wf_ctx_loc _ Wc) as W.
  split; [|split]; [apply (mix_add pr c C W SX)|apply (mix_sub pr c C W SX)|apply (mix_mul pr c C W SX)].
Qed.

(** C62: with the larger context on the left the result is in the larger
    context; it is right modulo the common moduli and still the left operand
    modulo the others. *)
Lemma C62_larger_left_actual_lem :
  forall pr C c i f g, built C -> nth_ctx C i = Some c ->
    let half h u := forall l j, (l < cx_k C)%nat -> (j < rq_degree C)%nat ->
        h j mod cx_q C l = (if (l <? cx_k c)%nat then u j else f j) mod cx_q C l in
    (exists h, poly_add pr (rep C Ntt f) (rep c Ntt g) = Ok (rep C Ntt h) /\ half h (fun j => f j + g j)) /\
    (exists h, poly_sub pr (rep C Ntt f) (rep c Ntt g) = Ok (rep C Ntt h) /\ half h (fun j => f j - g j)) /\
    (exists h, poly_mul pr (rep C Ntt f) (rep c Ntt g) = Ok (rep C Ntt h) /\ half h (rmul (rq_degree C) f g)).
Proof.
  intros pr C c i f g B H half. pose proof (sub_nth C c i B H) as SX. pose proof (wf_ctx_loc _ (built_wf C B)) as WC.
  split; [|split].
  - apply (big_add pr c C WC SX).
  - apply (big_sub pr c C WC SX).
  - rewrite <- (sx_n _ _ SX). destruct (big_mul pr c C WC SX f g) as [h [E M]]. exists h. split; auto.
Qed.

(** C62 refuted: for every context with at least two moduli, 0 + 1 is neither
    rejected nor 1 when the 0 is of the larger context. *)
Lemma C62_larger_left_refuted_lem :
  forall pr C c, built C -> rq_next C = Some c ->
    exists h, poly_add pr (rep C Ntt (fun _ => 0)) (rep c Ntt (fun j => nth j [1] 0)) = Ok (rep C Ntt h) /\ h 0%nat mod cx_Q C <> 1 mod cx_Q C.
Proof.
  intros pr C c B H. pose proof (built_wf C B) as WC'. pose proof (wf_ctx_loc _ WC') as WC.
  destruct (C62_larger_left_actual_lem pr C c 1 (fun _ => 0) (fun j => nth j [1] 0) B) as [[h [E M]] _].
  { cbn [nth_ctx]. rewrite H. reflexivity. }
  exists h. split; auto. intros A. destruct (wl_some _ WC c H) as [K2 [Ms _]]. pose proof (cx_n8 C WC) as N8.
  specialize (M (cx_k C - 1)%nat 0%nat ltac:(lia) ltac:(lia)).
  assert (Kc : cx_k c = (cx_k C - 1)%nat) by (unfold cx_k at 1; rewrite Ms, firstn_length; fold (cx_k C); clear; lia).
  rewrite Kc, Nat.ltb_irrefl in M. pose proof (cx_range C WC (cx_k C - 1)%nat ltac:(lia)) as R.
  apply (eqm_Q_q C WC (cx_k C - 1)%nat) in A; [|lia]. unfold eqm in A. rewrite A, Z.mod_0_l, Z.mod_small in M by lia. lia.
Qed.

(*EXAMPLE
(** A key of level 0 switches a polynomial of level 1. *)
Example C61_example :
  (P <- test_bfv Debug ;; C <- get (bp_q_ctxs P) 0 ;; c <- get (bp_q_ctxs P) 1 ;; sk <- sk_generate Debug P (tw 1) ;;
   fp <- poly_from_i64 Debug C [3] ;; f <- change_repr Debug fp Ntt ;;
   k <- ksk_new Debug sk f 1 0 (trnd 5) ;;
   p <- poly_from_i64 Debug c [1; 2] ;;
   '(c0, c1) <- key_switch Debug k p ;;
   s <- sk_ntt Debug c (sk_coeffs sk) ;; x <- poly_mul Debug c1 s ;; y <- poly_add Debug c0 x ;; z <- change_repr Debug y PowerBasis ;;
   v <- poly_to_big z ;;
   Ok (rq_moduli_64 (p_ctx c0), map (fun a => if Z.div (cx_Q c) 2 <? a then a - cx_Q c else a) v))
  = Ok ([65633], [5; 10; 0; 1; 3; 1; 0; 4]).
Proof. vm_compute. reflexivity. Qed.
Example C62_example :
  (C <- test_ctx Debug test_ms ;; c <- unwrap (rq_next C) ;;
   a <- poly_from_u64 Debug C [5; 6] ;; a' <- change_repr Debug a Ntt ;;
   b <- poly_from_u64 Debug c [1; 2] ;; b' <- change_repr Debug b Ntt ;;
   s <- poly_add Debug b' a' ;; s' <- change_repr Debug s PowerBasis ;; v <- poly_to_big s' ;;
   r <- poly_add Debug a' b' ;; r' <- change_repr Debug r PowerBasis ;;
   Ok (v, map (firstn 2) (p_rows r')))
  = Ok ([6; 8; 0; 0; 0; 0; 0; 0], [[6; 8]; [6; 8]; [5; 6]]).
Proof. vm_compute. reflexivity. Qed.
EXAMPLE*)
