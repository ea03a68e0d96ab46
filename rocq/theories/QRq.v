(** Claims C16-C21, C23, C51 (chain part), C54: polynomials of src/rq.rs. *)
From Verif Require Import PBase NT Spec PSum MModulus MUtils MNtt MRns MRq PModulus PUtils PNttMath PNtt PNttNew PCrt PRns PRnsScale PUtils2 SpecRq PRing PRq PRq2 PRq3 PRq4 PRq5 TestEnv QNtt.

Lemma built_wf c : built c -> wf_ctx c.
Proof. intros [pr [env [ms [n [bd [EH [H0 E]]]]]]]. apply (rq_new_inv pr env EH ms n bd c H0 E). Qed.
Lemma built_loc c : built c -> wf_loc c.
Proof. intros H. apply wf_ctx_loc, built_wf, H. Qed.

(** C16: a counter-example.  The second moduli agree, the first do not; the
    row of the first source modulus is copied into the first target row, so
    -1 modulo the first source modulus is returned as the residue of a scaled
    coefficient that has to be -1 modulo the first target modulus. *)
Lemma C16_position_count_refuted_lem :
  forall pr, exists from to s p out,
    built from /\ built to /\ rq_degree from = rq_degree to
    /\ (sf <- sf_new 1 1 ;; rq_scaler_new pr from to sf) = Ok s
    /\ p = rep from PowerBasis (fun _ => -1) /\ rq_scale pr s p = Ok out
    /\ forall y, scaled_coeff 65 (cx_Q from) 1 1 (-1) y -> nth 0 (nth 0 (p_rows out) []) 0 <> y mod cx_q to 0.
Proof.
  intros pr.
  assert (E : (from <- test_ctx pr [1048609; 1048721] ;; to <- test_ctx pr [1048897; 1048721] ;;
     s <- (sf <- sf_new 1 1 ;; rq_scaler_new pr from to sf) ;;
     out <- rq_scale pr s (rep from PowerBasis (fun _ => -1)) ;; Ok (nth 0 (nth 0 (p_rows out) []) 0)) = Ok 1048608)
    by (destruct pr; vm_compute; reflexivity).
  apply bind_inv in E. destruct E as [from [E1 E]]. apply bind_inv in E. destruct E as [to [E2 E]].
  apply bind_inv in E. destruct E as [s [E3 E]]. apply bind_inv in E. destruct E as [out [E4 E]].
  apply Ok_inj in E. rename E into E5.
  unfold test_ctx in E1, E2.
  assert (P1 : Forall (fun q => 0 <= q) [1048609; 1048721]) by (repeat constructor; lia).
  assert (P2 : Forall (fun q => 0 <= q) [1048897; 1048721]) by (repeat constructor; lia).
  exists from, to, s, (rep from PowerBasis (fun _ => -1)), out.
  destruct (rq_new_inv pr tenv tenv_ok [1048609; 1048721] 8%nat (mkBD 4 5) from P1 E1) as [_ [M1 [D1 _]]].
  destruct (rq_new_inv pr tenv tenv_ok [1048897; 1048721] 8%nat (mkBD 4 5) to P2 E2) as [_ [M2 [D2 _]]].
  split; [exists pr, tenv, [1048609; 1048721], 8%nat, (mkBD 4 5); split; [exact tenv_ok|]; split; assumption|].
  split; [exists pr, tenv, [1048897; 1048721], 8%nat, (mkBD 4 5); split; [exact tenv_ok|]; split; assumption|].
  split; [congruence|]. split; [exact E3|]. split; [reflexivity|]. split; [exact E4|].
  intros y [x' [X1 [X2 [_ [_ Y]]]]]. rewrite E5. rewrite Y by reflexivity. clear Y.
  unfold cx_Q in X1, X2. unfold cx_q. rewrite M1 in X1, X2. rewrite M2. cbn [nth].
  change (zprod [1048609; 1048721]) with 1099698279089 in *.
  assert (x' = -1) as ->; [|intros C; discriminate C].
  clear - X1 X2. pose proof (Z.div_mod x' 1099698279089 ltac:(lia)) as DM. rewrite X1 in DM. change ((-1) mod 1099698279089) with 1099698279088 in DM.
  lia.
Qed.

(** C16: when the positions at which the moduli agree form a prefix (always so
    when the target extends the source) or the factor is not one, every
    coefficient is scaled, in every representation. *)
Lemma C16_scale_lem :
  forall pr L from to N D,
    built from -> built to -> rq_degree from = rq_degree to -> 0 <= N -> 1 <= D -> scale_room L N D (rq_moduli_64 from) ->
    (N = D -> forall i j, (i <= j)%nat -> (j < cx_k from)%nat -> (j < cx_k to)%nat -> cx_q from j = cx_q to j -> cx_q from i = cx_q to i) ->
    exists s, (sf <- sf_new N D ;; rq_scaler_new pr from to sf) = Ok s /\
    forall r f, r <> NttShoup -> exists g, rq_scale pr s (rep from r f) = Ok (rep to r g)
      /\ forall j, (j < rq_degree from)%nat -> scaled_coeff L (cx_Q from) N D (f j) (g j).
Proof.
  intros pr L from to N D Bf Bt Ed HN HD H65 Hp. apply built_loc in Bf. apply built_loc in Bt.
  assert (Es : sf_new N D = Ok (mkSF N D (N =? D))).
  { unfold sf_new. rewrite rassert_true by (apply negb_true_iff, Z.eqb_neq; lia). reflexivity. }
  destruct (rq_scaler_new_ok pr L from to N D _ Bf Bt Ed HN HD Es H65) as [s [E G]].
  { intros EN i Hi. apply (count_common_prefix (rq_moduli_64 from) (rq_moduli_64 to) i); auto. exact (Hp EN). }
  exists s. rewrite Es. cbn [bind]. split; auto. intros r f Hr.
  exists (scale_fun s from N D f). split; [eapply rep_scale; eauto|]. intros j Hj. eapply scale_fun_spec; eauto.
Qed.

(** C16: in general, with the factor one, as many rows are copied as there are
    positions at which the moduli agree; the others are computed. *)
Lemma C16_actual_lem :
  forall pr L from to N D f,
    built from -> built to -> rq_degree from = rq_degree to -> 0 <= N -> 1 <= D -> scale_room L N D (rq_moduli_64 from) ->
    exists s g, (sf <- sf_new N D ;; rq_scaler_new pr from to sf) = Ok s
      /\ (forall j, (j < rq_degree from)%nat -> scaled_coeff L (cx_Q from) N D (f j) (g j))
      /\ let c := if N =? D then length (filter (fun i => cx_q from i =? cx_q to i) (seq 0 (Nat.min (cx_k from) (cx_k to)))) else 0%nat in
         rq_scale pr s (rep from PowerBasis f)
         = Ok (mkPoly to PowerBasis (map (fun i => map (fun j => if (i <? c)%nat then f j mod cx_q from i else g j mod cx_q to i) (seq 0 (rq_degree from)))
                                         (seq 0 (cx_k to)))).
Proof.
  intros pr L from to N D f Bf Bt Ed HN HD H65. apply built_loc in Bf. apply built_loc in Bt.
  assert (Es : sf_new N D = Ok (mkSF N D (N =? D))).
  { unfold sf_new. rewrite rassert_true by (apply negb_true_iff, Z.eqb_neq; lia). reflexivity. }
  destruct (rq_scale_any pr L from to N D Bf Bt Ed HN HD H65 f) as [s [g [E1 [E2 E3]]]]. exists s, g. rewrite Es. cbn [bind]. auto.
Qed.

(** C16: the scaled coefficient is the rounded value exactly when the source
    value is not extremely close to Q/2 and the quotient not extremely close
    below a half integer. *)
Lemma C16_exact_lem :
  forall L Q N D x y, 65 <= L <= 94 -> 1 <= Q -> 1 <= D -> scaled_coeff L Q N D x y ->
    let xc := centred Q x in
    2 ^ (191 - 2 * L) * (2 * Z.abs xc) < (2 ^ (191 - 2 * L) - 1) * Q ->
    D <= 2 ^ (125 - L) * (2 * D - (2 * N * xc + D) mod (2 * D)) ->
    y = (2 * N * xc + D) / (2 * D).
Proof.
  intros L Q N D x y HL HQ HD [x' [X1 [X2 [Y1 [Y2 _]]]]] xc HC1 HC2.
  assert (PA : 0 < 2 ^ (191 - 2 * L)) by (clear - HL; apply Z.pow_pos_nonneg; lia). assert (PB : 0 < 2 ^ (125 - L)) by (clear - HL; apply Z.pow_pos_nonneg; lia).
  set (wa := 2 ^ (191 - 2 * L)) in *. set (wb := 2 ^ (125 - L)) in *. clearbody wa wb.
  assert (EX : x' = xc).
  { unfold xc, centred in *. rewrite <- X1 in HC1 |- *.
    pose proof (Z.div_mod x' Q ltac:(lia)) as DM. pose proof (Z.mod_pos_bound x' Q ltac:(lia)) as MB.
    revert HC1 X2 DM MB. generalize (x' mod Q) (x' / Q). clear - HQ PA. intros m d HC X DM MB.
    assert (W2 : 2 <= wa) by nia.
    assert (NN : forall a b, a <= b -> wa * a <= wa * b) by (intros; apply Z.mul_le_mono_nonneg_l; lia).
    destruct (2 * m <? Q) eqn:E.
    - apply Z.ltb_lt in E. assert (d = 0); [|subst; lia].
      destruct (Z.lt_trichotomy d 0) as [Hd|[Hd|Hd]]; [exfalso|exact Hd|exfalso].
      + assert (Q * d <= - Q) by nia. pose proof (NN (Q - 2 * m) (2 * Z.abs x' - Q) ltac:(lia)). rewrite Z.abs_eq in HC by lia. lia.
      + assert (Q <= Q * d) by nia. pose proof (NN Q (2 * Z.abs x' - Q) ltac:(lia)). nia.
    - apply Z.ltb_ge in E. assert (d = -1); [|subst; lia].
      destruct (Z.lt_trichotomy d (-1)) as [Hd|[Hd|Hd]]; [exfalso|exact Hd|exfalso].
      + assert (Q * d <= - 2 * Q) by nia. pose proof (NN Q (2 * Z.abs x' - Q) ltac:(lia)). nia.
      + assert (0 <= Q * d) by nia. pose proof (NN (2 * m - Q) (2 * Z.abs x' - Q) ltac:(lia)). rewrite Z.abs_neq in HC by lia. lia. }
  rewrite EX in *. clear X1 X2 HC1.
  pose proof (Z.div_mod (2 * N * xc + D) (2 * D) ltac:(lia)) as DM.
  pose proof (Z.mod_pos_bound (2 * N * xc + D) (2 * D) ltac:(lia)) as MB.
  revert Y1 Y2 HC2 DM MB. generalize ((2 * N * xc + D) mod (2 * D)) ((2 * N * xc + D) / (2 * D)) (2 * N * xc).
  clear - HD PB. intros m d a Y1 Y2 HC DM MB. nia.
Qed.

(** C16: guards. *)
Lemma C16_guard_lem :
  forall pr from to sf, rq_degree from <> rq_degree to -> rq_scaler_new pr from to sf = Panic.
Proof.
  intros pr from to sf H. unfold rq_scaler_new. apply Nat.eqb_neq in H. rewrite H. reflexivity.
Qed.
Lemma C16_context_guard_lem :
  forall pr s p, ctx_eqb (p_ctx p) (sc_from s) = false -> rq_scale pr s p = Panic.
Proof. intros pr s p H. unfold rq_scale. rewrite H. reflexivity. Qed.

(*EXAMPLE
Example C16_example :
  (a <- test_ctx Debug test_ms ;; b <- test_ctx Debug test_ext ;; f <- sf_new 2 7 ;; s <- rq_scaler_new Debug a b f ;;
   p <- poly_from_i64 Debug a [-1000; 70; 5] ;; rows_of (rq_scale Debug s p))
  = Ok (map (fun q => [(-286) mod q; 20; 1; 0; 0; 0; 0; 0]) test_ext).
Proof. vm_compute. reflexivity. Qed.
EXAMPLE*)

(** C17: every well-shaped polynomial is the representation of a unique
    polynomial with coefficients in [0, Q). *)
Lemma C17_denotes_lem :
  forall c p, built c -> p_ctx p = c -> wf_poly p ->
    exists f, (forall j, 0 <= f j < cx_Q c) /\ p = rep c (p_repr p) f.
Proof. intros c p B E W. apply (wf_rep Debug c (built_loc _ B) p E W). Qed.
Lemma C17_denotes_unique_lem :
  forall c r f g, built c -> r <> NttShoup -> rep c r f = rep c r g -> peq (rq_degree c) (cx_Q c) f g.
Proof. intros c r f g B Hr E j Hj. apply (rep_inj Debug c (built_loc _ B) r f g Hr E j Hj). Qed.
Lemma C17_denotes_complete_lem :
  forall c r f g, built c -> peq (rq_degree c) (cx_Q c) f g -> rep c r f = rep c r g.
Proof. intros c r f g B E. apply (rep_eqm c (built_loc _ B)). exact E. Qed.

(** C17: the operators. *)
Lemma C17_ring_ops_lem :
  forall pr c f g a, built c ->
    let n := rq_degree c in
    poly_add pr (rep c Ntt f) (rep c Ntt g) = Ok (rep c Ntt (fun j => f j + g j))
    /\ poly_sub pr (rep c Ntt f) (rep c Ntt g) = Ok (rep c Ntt (fun j => f j - g j))
    /\ poly_mul pr (rep c Ntt f) (rep c Ntt g) = Ok (rep c Ntt (rmul n f g))
    /\ poly_mul_big pr (rep c Ntt f) a = Ok (rep c Ntt (fun j => a * f j))
    /\ (forall r, poly_neg pr (rep c r f) = Ok (rep c r (fun j => - f j))).
Proof.
  intros pr c f g a B n. pose proof (built_loc _ B) as W.
  split; [apply rep_add; auto|]. split; [apply rep_sub; auto|]. split; [apply rep_mul; auto|].
  split; [apply rep_mul_big; auto|]. intros r. apply rep_neg; auto.
Qed.
Lemma C17_guard_lem :
  forall pr a b, p_repr a <> Ntt \/ p_repr b <> Ntt ->
    poly_add pr a b = Panic /\ poly_sub pr a b = Panic /\ poly_mul pr a b = Panic.
Proof.
  intros pr a b H. unfold poly_add, poly_sub, poly_mul.
  destruct (p_repr a), (p_repr b); destruct H as [H|H]; try congruence; cbn [repr_eqb rassert bind]; auto.
Qed.

(*EXAMPLE
Example C17_example :
  (c <- test_ctx Release test_ms ;; a <- poly_from_u64 Release c [3; 0; 0; 0; 0; 0; 0; 2] ;; b <- poly_from_u64 Release c [0; 5] ;;
   a' <- change_repr Release a Ntt ;; b' <- change_repr Release b Ntt ;; m <- poly_mul Release a' b' ;; m' <- change_repr Release m PowerBasis ;;
   l <- poly_to_big m' ;; Ok (l, p_repr m))
  = Ok ([zprod test_ms - 10; 15; 0; 0; 0; 0; 0; 0], Ntt).
Proof. vm_compute. reflexivity. Qed.
EXAMPLE*)

(** C18 *)
Lemma C18_change_lem :
  forall pr c r r' f, built c -> r <> NttShoup -> r' <> NttShoup ->
    change_repr pr (rep c r f) r' = Ok (rep c r' f).
Proof. intros pr c r r' f B. apply change_any, built_loc, B. Qed.
Lemma C18_round_trip_lem :
  forall pr c p r, built c -> p_ctx p = c -> wf_poly p -> p_repr p <> NttShoup -> r <> NttShoup ->
    exists p', change_repr pr p r = Ok p' /\ p_repr p' = r /\ change_repr pr p' (p_repr p) = Ok p.
Proof.
  intros pr c p r B E Wp Hp Hr. pose proof (built_loc _ B) as W.
  destruct (wf_rep pr c W p E Wp) as [f [_ Ef]]. exists (rep c r f). rewrite Ef at 1.
  split; [apply change_any; auto|]. split; [reflexivity|]. rewrite change_any by auto. f_equal. auto.
Qed.
Lemma C18_guard_lem :
  forall pr p r, p_repr p = NttShoup \/ r = NttShoup -> change_repr pr p r = Panic.
Proof. intros pr p r [H| ->]; unfold change_repr; [rewrite H|]; [reflexivity|destruct (p_repr p); reflexivity]. Qed.

(*EXAMPLE
Example C18_example :
  (c <- test_ctx Debug test_ms ;; p <- poly_from_i64 Debug c [5; -7; 0; 1] ;; q <- change_repr Debug p Ntt ;;
   p' <- change_repr Debug q PowerBasis ;; Ok (p_rows p', forallb (fun row => negb (zlist_eqb row (hd [] (p_rows p)))) (p_rows q)))
  = Ok (map (fun q => [5; q - 7; 0; 1; 0; 0; 0; 0]) test_ms, true).
Proof. vm_compute. reflexivity. Qed.
EXAMPLE*)

(** C19 *)
Lemma C19_substitute_lem :
  forall pr c x, built c -> 0 <= x -> x mod 2 = 1 ->
    (let e := x mod (2 * Z.of_nat (rq_degree c)) in pr = Release \/ (e - 1) / 2 + Z.of_nat (rq_degree c) * e < 2 ^ 64) ->
    exists s, subst_new pr c x = Ok s /\
    forall r f, poly_substitute pr (rep c r f) s = Ok (rep c r (rsubst (rq_degree c) (Z.to_nat x) f)).
Proof.
  intros pr c x B Hx Ho HF. pose proof (built_loc _ B) as W. pose proof (cx_n8 c W) as Hn.
  eexists. split; [apply subst_new_ok; auto|]. intros r f.
  rewrite (rep_substitute pr c W r f x) by (auto; apply subst_new_ok; auto). f_equal.
  apply (rep_ext c W). intros j Hj. apply rsubst_mod; [lia|].
  rewrite <- (Nat2Z.id (Z.to_nat (x mod (2 * Z.of_nat (rq_degree c))) mod (2 * rq_degree c))).
  rewrite <- (Nat2Z.id (Z.to_nat x mod (2 * rq_degree c))). f_equal. rewrite !Nat2Z.inj_mod.
  pose proof (Z.mod_pos_bound x (2 * Z.of_nat (rq_degree c)) ltac:(lia)). rewrite !Z2Nat.id by lia.
  rewrite Nat2Z.inj_mul. change (Z.of_nat 2) with 2. apply Z.mod_mod. lia.
Qed.
(** C19: up to degree 2^31 the loop counter fits; where it does not (possible
    from degree 2^32 on) a debug build panics. *)
Lemma C19_counter_lem :
  forall c x, built c -> 0 <= x -> x mod 2 = 1 ->
    let n := Z.of_nat (rq_degree c) in let e := x mod (2 * n) in
    (n <= 2 ^ 31 -> (e - 1) / 2 + n * e < 2 ^ 64)
    /\ (2 ^ 64 <= (e - 1) / 2 + n * e -> subst_new Debug c x = Panic).
Proof.
  intros c x B Hx Ho n e. pose proof (built_loc _ B) as W. split.
  - intros H. destruct (sfits_small Release c W x H) as [_|H']; [|exact H'].
    assert (X : sfits Debug c x) by (apply sfits_small; auto). destruct X as [X|X]; [discriminate|exact X].
  - intros H. apply subst_new_over; auto. intros [X|X]; [discriminate|]. fold n e in X. lia.
Qed.
Lemma C19_even_panics_lem :
  forall pr c x, built c -> 0 <= x -> x mod 2 = 0 -> subst_new pr c x = Panic.
Proof. intros pr c x B. apply subst_new_even, built_loc, B. Qed.
Lemma C19_automorphism_lem :
  forall n e e' f g k, (0 < n)%nat -> Nat.odd e = true ->
    rsubst n e (fun j => f j + g j) k = rsubst n e f k + rsubst n e g k
    /\ rsubst n e (rmul n f g) k = rmul n (rsubst n e f) (rsubst n e g) k
    /\ rsubst n e (rsubst n e' f) k = rsubst n (e' * e) f k
    /\ ((k < n)%nat -> rsubst n 1 f k = f k).
Proof.
  intros n e e' f g k Hn He. split; [apply rsubst_add|]. split; [apply rsubst_rmul; auto|].
  split; [apply rsubst_comp; auto|]. intros Hk. apply rsubst_1; auto.
Qed.

(*EXAMPLE
Example C19_example :
  (c <- test_ctx Debug test_ms ;; p <- poly_from_u64 Debug c [1; 2; 3; 4] ;; s <- subst_new Debug c 3 ;;
   a <- poly_substitute Debug p s ;; q <- change_repr Debug p Ntt ;; b <- poly_substitute Debug q s ;;
   b' <- change_repr Debug b PowerBasis ;; Ok (hd [] (p_rows a), hd [] (p_rows b')))
  = Ok ([1; 1048609 - 4; 0; 2; 0; 0; 3; 0], [1; 1048609 - 4; 0; 2; 0; 0; 3; 0]).
Proof. vm_compute. reflexivity. Qed.
EXAMPLE*)

(** C20 *)
Lemma C20_switch_down_lem :
  forall pr c c' f, built c -> rq_next c = Some c' ->
    let ql := cx_q c (cx_k c - 1) in
    mod_switch_down_next pr (rep c PowerBasis f) = Ok (rep c' PowerBasis (fun j => (f j + ql / 2) / ql))
    /\ rq_moduli_64 c = rq_moduli_64 c' ++ [ql] /\ rq_degree c' = rq_degree c.
Proof.
  intros pr c c' f B E ql. pose proof (built_wf _ B) as W. pose proof (wf_ctx_loc _ W) as Wl.
  split; [apply rep_msd; auto; apply wf_ctx_loc; eapply wf_ctx_next; eauto|].
  destruct (wl_some _ Wl c' E) as [H2 [Em [Ed _]]]. split; auto. rewrite Em. unfold ql, cx_q, cx_k in *.
  rewrite (split_nth (length (rq_moduli_64 c) - 1) (rq_moduli_64 c) 1) at 1 by lia. f_equal. f_equal. apply skipn_all2. lia.
Qed.
Lemma C20_switch_to_lem :
  forall pr c c' i f, built c -> nth_ctx c i = Some c' ->
    mod_switch_to pr (rep c PowerBasis f) c'
    = Ok (rep c' PowerBasis (fun j => drop_round (rev (skipn (cx_k c - i) (rq_moduli_64 c))) (f j))).
Proof.
  intros pr c c' i f B H. pose proof (built_wf _ B) as W. rewrite (rep_switch_to pr c c' i f W H). f_equal.
  apply rep_ext; [apply wf_ctx_loc; eapply nth_ctx_wf; eauto|]. intros j Hj. eapply msd_fun_round; eauto.
Qed.
Lemma C20_chain_lem :
  forall c i, built c -> (exists c', nth_ctx c i = Some c') <-> (i < cx_k c)%nat.
Proof.
  intros c i B. pose proof (built_wf _ B) as W. split.
  - intros [c' H]. apply (nth_ctx_wf c i c' W H).
  - apply nth_ctx_some; auto.
Qed.
Lemma C20_guard_lem :
  forall pr p to, built (p_ctx p) -> (forall i, ~ below (p_ctx p) to i) -> mod_switch_to pr p to = Panic.
Proof.
  intros pr p to B H. unfold mod_switch_to, switch_iterations.
  destruct (switch_loop_spec (p_ctx p) to 0 (built_wf _ B)) as [[i [_ Bi]]|[E _]]; [exfalso; eapply H; eauto|].
  rewrite E. reflexivity.
Qed.
Lemma C20_repr_guard_lem :
  forall pr p, p_repr p <> PowerBasis -> mod_switch_down_next pr p = Panic.
Proof.
  intros pr p H. unfold mod_switch_down_next. destruct (rq_next (p_ctx p)); [|reflexivity]. cbn [unwrap bind].
  destruct (p_repr p); try congruence; reflexivity.
Qed.

(*EXAMPLE
Example C20_example :
  (c <- test_ctx Debug test_ms ;; p <- poly_from_u64 Debug c [1048896 * 7 + 3; 524448; 524449; 1048897 * 4] ;;
   p' <- mod_switch_down_next Debug p ;; Ok (p_rows p', rq_moduli_64 (p_ctx p')))
  = Ok ([[7; 0; 1; 4; 0; 0; 0; 0]; [7; 0; 1; 4; 0; 0; 0; 0]], [1048609; 1048721]).
Proof. vm_compute. reflexivity. Qed.
EXAMPLE*)

(** C21 *)
Lemma C21_from_integers_lem :
  forall pr c a, built c -> (length a <= rq_degree c)%nat ->
    (Forall (fun x => 0 <= x < 2 ^ 64) a -> poly_from_u64 pr c a = Ok (rep c PowerBasis (fun j => nth j a 0)))
    /\ (Forall (fun x => - 2 ^ 63 <= x < 2 ^ 63) a -> poly_from_i64 pr c a = Ok (rep c PowerBasis (fun j => nth j a 0)))
    /\ poly_from_bigint c a = Ok (rep c PowerBasis (fun j => nth j a 0)).
Proof.
  intros pr c a B HL. pose proof (built_loc _ B) as W.
  split; [intros; apply rep_from_u64; auto|]. split; [intros; apply rep_from_i64; auto|apply rep_from_big; auto].
Qed.
Lemma C21_too_long_lem :
  forall pr c a, built c -> (rq_degree c < length a)%nat ->
    (Forall (fun x => 0 <= x < 2 ^ 64) a -> poly_from_u64 pr c a = Panic)
    /\ (Forall (fun x => - 2 ^ 63 <= x < 2 ^ 63) a -> poly_from_i64 pr c a = Panic)
    /\ poly_from_bigint c a = Panic.
Proof.
  intros pr c a B HL. pose proof (built_loc _ B) as W.
  split; [intros; apply from_u64_panic; auto|]. split; [intros; apply from_i64_panic; auto|apply from_big_panic; auto].
Qed.
Lemma C21_to_integers_lem :
  forall c f, built c ->
    poly_to_big (rep c PowerBasis f) = Ok (map (fun j => f j mod cx_Q c) (seq 0 (rq_degree c)))
    /\ (length (rq_moduli_64 c) = 1%nat ->
        poly_to_u64 (rep c PowerBasis f) = Ok (map (fun j => f j mod cx_Q c) (seq 0 (rq_degree c)))).
Proof.
  intros c f B. pose proof (built_loc _ B) as W. split; [apply rep_to_big; auto|]. intros. apply rep_to_u64; auto.
Qed.
Lemma C21_to_u64_guard_lem :
  forall p, length (rq_moduli_64 (p_ctx p)) <> 1%nat -> poly_to_u64 p = Panic.
Proof. intros p H. unfold poly_to_u64. apply Nat.eqb_neq in H. rewrite H. reflexivity. Qed.

(*EXAMPLE
Example C21_example :
  (c <- test_ctx Debug test_ms ;; p <- poly_from_i64 Debug c [-3; 12] ;; poly_to_big p)
  = Ok [zprod test_ms - 3; 12; 0; 0; 0; 0; 0; 0]
  /\ (c <- test_ctx Debug [1048609] ;; p <- poly_from_bigint c [2 ^ 70] ;; poly_to_u64 p) = Ok [2 ^ 70 mod 1048609; 0; 0; 0; 0; 0; 0; 0]
  /\ (c <- test_ctx Debug [1048609] ;; poly_from_u64 Debug c [1; 2; 3; 4; 5; 6; 7; 8; 9]) = Panic.
Proof. vm_compute. auto. Qed.
EXAMPLE*)

(** C23: bits() is never the bit length. *)
Lemma C23_bits_refuted_lem :
  forall p m, modulus_new p = Ok m -> 0 <= p -> modulus_bits m <> Z.log2 p + 1.
Proof.
  intros p m E H0. destruct (modulus_new_valid p m H0 E) as [V <-]. pose proof (valid_range m V) as R.
  rewrite modulus_bits_eq by auto. assert (Z.log2 (mp m) < 62) by (apply Z.log2_lt_pow2; lia). change (2 ^ 64) with 18446744073709551616.
  assert (0 <= bitlen (mp m)); [|lia]. unfold bitlen. destruct (mp m =? 0); pose proof (Z.log2_nonneg (mp m)); lia.
Qed.
(** C23: bit decomposition panics on every polynomial. *)
Lemma C23_apply_bit_decomposition_refuted_lem :
  forall pr c p, built c -> p_ctx p = c -> wf_poly p -> apply_bit_decomposition pr p = Panic.
Proof.
  intros pr c p B E [HL HR]. rewrite E in *. pose proof (built_loc _ B) as W. pose proof (wl_ne _ W) as Hk.
  pose proof (cx_n8 c W) as Hn. destruct (HR 0%nat ltac:(lia)) as [Lr _].
  unfold apply_bit_decomposition. rewrite E. destruct (p_rows p) as [|row rows]; [simpl in HL; lia|].
  pose proof (cx_moduli_len c W) as Lm. destruct (cx_mod c W 0 ltac:(lia)) as [V _]. unfold cx_m in V.
  destruct (rq_moduli c) as [|m ms]; [simpl in *; lia|]. cbn [nth] in *.
  cbn [combine foldM fst snd]. destruct row as [|x row]; [simpl in *; lia|]. cbn [length seq combine foldM fst snd].
  unfold decompose_bits, bit_vector, vec_repeat. rewrite modulus_bits_eq by auto.
  assert (0 <= bitlen (mp m)).
  { unfold bitlen. destruct (mp m =? 0); pose proof (Z.log2_nonneg (mp m)); lia. }
  change (2 ^ 64) with 18446744073709551616.
  destruct (Z.ltb_spec ((18446744073709551616 - 65 + bitlen (mp m)) * 1) W63); [lia|]. reflexivity.
Qed.

(*EXAMPLE
Example C23_example :
  (m <- modulus_new 1048609 ;; Ok (modulus_bits m)) = Ok (2 ^ 64 - 1 - 43)
  /\ (c <- test_ctx Release [1048609] ;; p <- poly_from_u64 Release c [1; 2] ;; apply_bit_decomposition Release p) = Panic.
Proof. vm_compute. auto. Qed.
EXAMPLE*)

(** C51: chain distance. *)
Lemma C51_switch_iterations_lem :
  forall c to, built c ->
    (forall i, switch_iterations c to = Some i <-> below c to i)
    /\ (switch_iterations c to = None <-> forall i, ~ below c to i).
Proof.
  intros c to B. unfold switch_iterations.
  destruct (switch_loop_spec c to 0 (built_wf _ B)) as [[i [E Bi]]|[E NB]]; rewrite E; split.
  - intros j. rewrite Nat.add_0_l. split; [intros H; injection H as <-; auto|]. intros Bj. f_equal. eapply below_unique; eauto.
  - split; [discriminate|]. intros H. exfalso. eapply H; eauto.
  - intros j. split; [discriminate|]. intros Bj. exfalso. eapply NB; eauto.
  - split; auto.
Qed.

(*EXAMPLE
Example C51_switch_example :
  (a <- test_ctx Debug test_ms ;; b <- test_ctx Debug [1048609] ;; c <- test_ctx Debug [1048721] ;;
   Ok (switch_iterations a b, switch_iterations a a, switch_iterations a c, switch_iterations b a))
  = Ok (Some 2%nat, Some 0%nat, None, None).
Proof. vm_compute. reflexivity. Qed.
EXAMPLE*)

(** C54 *)
Lemma C54_inverse_lem :
  forall pr c f, built c ->
    (forall i j, (i < cx_k c)%nat -> (j < rq_degree c)%nat -> nth j (nth i (p_rows (rep c Ntt f)) []) 0 <> 0) ->
    exists g, poly_inverse pr (rep c Ntt f) = Ok (rep c Ntt g)
      /\ peq (rq_degree c) (cx_Q c) (rmul (rq_degree c) f g) (fun j => if (j =? 0)%nat then 1 else 0).
Proof.
  intros pr c f B H. pose proof (built_loc _ B) as W.
  destruct (rep_inverse pr c W f) as [g [E C]].
  - intros i j Hi Hj. specialize (H i j Hi Hj). rewrite rep_rows in H. rewrite nth_map_seq in H by auto.
    rewrite row_nth in H by auto. exact H.
  - exists g. split; auto.
Qed.

(*EXAMPLE
Example C54_example :
  (c <- test_ctx Debug test_ms ;; p <- poly_from_u64 Debug c [3; 1] ;; q <- change_repr Debug p Ntt ;;
   i <- poly_inverse Debug q ;; m <- poly_mul Debug q i ;; m' <- change_repr Debug m PowerBasis ;; poly_to_big m')
  = Ok [1; 0; 0; 0; 0; 0; 0; 0].
Proof. vm_compute. reflexivity. Qed.
EXAMPLE*)

(** C57: what a context made by [RqContext::new] contains. *)
Lemma C57_structure_lem :
  forall pr env ms n bd c, env_ok env -> Forall (fun q => 0 <= q) ms -> rq_new pr env ms n bd = Ok c ->
    ms <> [] /\ rq_moduli_64 c = ms /\ map mp (rq_moduli c) = ms /\ rq_degree c = n /\ rq_bd c = bd
    /\ (exists L, (3 <= L)%nat /\ n = (2 ^ L)%nat)
    /\ (forall i j, (i < length ms)%nat -> (j < length ms)%nat -> i <> j -> nth i ms 1 <> nth j ms 1)
    /\ (forall q, In q ms -> prime q /\ q < 2 ^ 62 /\ (2 * Z.of_nat n | q - 1))
    /\ match rq_next c with
       | None => length ms = 1%nat
       | Some c' => (2 <= length ms)%nat /\ rq_new pr env (firstn (length ms - 1) ms) n bd = Ok c'
       end.
Proof.
  intros pr env ms n bd c EH H0 E. pose proof (rq_new_inv pr env EH ms n bd c H0 E) as [Wc [Em [En Eb]]].
  pose proof (wf_ctx_loc _ Wc) as W. pose proof (wl_ne _ W) as Hk. unfold cx_k in Hk. rewrite Em in Hk.
  pose proof (wl_L _ W) as HL. pose proof (wl_n _ W) as Hn. rewrite En in Hn.
  split; [intros C; subst; rewrite C in Hk; simpl in Hk; lia|]. split; auto. split.
  { apply nth_ext' with 1; [rewrite map_length, (cx_moduli_len c W); unfold cx_k; rewrite Em; auto|].
    intros i Hi. rewrite map_length, (cx_moduli_len c W) in Hi. rewrite (nth_indep _ 1 (mp dmod)) by (rewrite map_length, (cx_moduli_len c W); auto).
    rewrite map_nth. destruct (cx_mod c W i Hi) as [_ X]. unfold cx_m in X. unfold cx_q in X. rewrite Em in X. exact X. }
  split; auto. split; auto. split; [exists (cx_L c); split; [lia|auto]|]. split.
  { intros i j Hi Hj Hne EQ. pose proof (wr_pw _ _ (wl_rns _ W)) as PW. rewrite Em in PW. specialize (PW i j Hi Hj Hne).
    rewrite EQ in PW. assert (P : prime (nth j ms 1)).
    { rewrite <- Em. apply (cx_prime c W). unfold cx_k. rewrite Em. auto. }
    destruct P as [P1 _]. apply Zgcd_1_rel_prime in PW. rewrite Z.gcd_diag in PW. lia. }
  split.
  { intros q Hq. apply In_nth with (d := 1) in Hq. destruct Hq as [i [Hi <-]].
    assert (Hi' : (i < cx_k c)%nat) by (unfold cx_k; rewrite Em; auto).
    split; [rewrite <- Em; apply (cx_prime c W); auto|].
    pose proof (cx_range c W i Hi') as R. unfold cx_q in R. rewrite Em in R. split; [lia|].
    unfold rq_new in E. cbn [rq_new_fuel] in E. binv E. rename v into rns, E0 into ER. binv E. rename E0 into EO.
    pose proof (rns_new_inv ms rns H0 ER) as Wr. apply mapM_forall2 in EO.
    pose proof (forall2_length _ _ _ (wr_mod _ _ Wr)) as Lm.
    destruct (wf_rns_nth _ _ i Wr Hi) as [V Eq]. pose proof (forall2_nth _ _ _ dmod dop i EO ltac:(lia)) as EN.
    assert (Hd : forall k, 0 <= draw env (mp (nth i (rns_moduli rns) dmod)) k < mp (nth i (rns_moduli rns) dmod)).
    { intros k. destruct EH as [_ Hd]. apply Hd. pose proof (valid_range _ V). lia. }
    destruct (ntt_new_inv pr env _ n _ V (proj1 EH) Hd EN) as [L' [psi [_ [_ [_ [HD _]]]]]]. rewrite Eq in HD. exact HD. }
  clear W Wc Hn HL En Em. unfold rq_new in E. cbn [rq_new_fuel] in E. binv E. binv E. binv E. match goal with H : (if _ then _ else _) = Ok ?x |- _ => rename H into EN; rename x into next end.
  binv E. binv E. apply Ok_inj in E. subst c. cbn [rq_next].
  destruct (2 <=? length ms)%nat eqn:EL.
  - apply Nat.leb_le in EL. binv EN. rename E into EC. apply Ok_inj in EN. subst next. split; auto. unfold rq_new.
    rewrite firstn_length. replace (S (Nat.min (length ms - 1) (length ms))) with (length ms) by lia. exact EC.
  - apply Nat.leb_gt in EL. apply Ok_inj in EN. subst next. lia.
Qed.

Lemma ntt_new_cases pr env q m n : env_ok env -> 0 <= q -> modulus_new q = Ok m ->
  (ntt_new pr env m n = Panic /\ ~ ntt_possible env q n) \/ ((exists op, ntt_new pr env m n = Ok op) /\ ntt_possible env q n).
Proof.
  intros EH H0 Hm. destruct (modulus_new_valid q m H0 Hm) as [V Em]. pose proof (valid_range m V) as Hq.
  destruct (supports_ntt env q n) eqn:HS.
  - subst q. destruct (supports_inv env m V n HS) as [L [HL [-> [HD [Hlt Hip]]]]].
    assert (P : prime (mp m)) by (apply (proj1 EH); auto; lia).
    assert (H1 : mp m mod (2 * Z.of_nat (2 ^ L)) = 1) by (destruct HD as [c HD]; symmetry; apply Z.mod_unique with c; lia).
    assert (Hd : forall k, 0 <= draw env (mp m) k < mp m) by (intros k; apply (proj2 EH); lia).
    destruct (C11_construct_lem pr env (mp m) m L Hm P Hip ltac:(change (2 ^ 62) with P62; lia) ltac:(lia)
       ltac:(rewrite <- pow2_Z; exact H1) Hd) as [A B].
    destruct (existsb (fun k => draw env (mp m) k ^ ((mp m - 1) / 2) mod mp m =? mp m - 1) (seq 0 100)) eqn:EE.
    + apply existsb_exists in EE. destruct EE as [k [Hk Ek]]. apply in_seq in Hk. apply Z.eqb_eq in Ek. right.
      destruct A as [op [E _]]; [exists k; split; [lia|auto]|]. split; [eauto|].
      split; [exists L; split; [lia|auto]|]. split; auto. split; auto. exists k. split; [lia|auto].
    + assert (NE : forall k, (k < 100)%nat -> draw env (mp m) k ^ ((mp m - 1) / 2) mod mp m <> mp m - 1).
      { intros k Hk C. rewrite <- not_true_iff_false in EE. apply EE. apply existsb_exists. exists k.
        split; [apply in_seq; lia|apply Z.eqb_eq; auto]. }
      left. split; [apply B; auto|]. intros [_ [_ [_ [k [Hk Ek]]]]]. apply (NE k); auto.
  - left. split; [unfold ntt_new; rewrite Em, HS; reflexivity|].
    intros [[L [HL ->]] [H1 [Hip _]]]. subst q.
    assert (HS' : supports_ntt env (mp m) (2 ^ L) = true); [|congruence]. pose proof H1 as H1'. rewrite pow2_Z in H1.
    assert (Hlt : 2 * 2 ^ Z.of_nat L < mp m).
    { pose proof (Z.pow_pos_nonneg 2 (Z.of_nat L) ltac:(lia) ltac:(lia)).
      pose proof (Z.div_mod (mp m) (2 * 2 ^ Z.of_nat L) ltac:(lia)) as DM. rewrite H1 in DM.
      revert DM H Hq. generalize (2 ^ Z.of_nat L) (mp m / (2 * 2 ^ Z.of_nat L)). clear. intros z d DM H Hq.
      assert (1 <= d) by nia. nia. }
    assert (HL60 : (L <= 60)%nat).
    { destruct (le_lt_dec L 60) as [|C]; auto. exfalso.
      assert (2 ^ 61 <= 2 ^ Z.of_nat L) by (apply Z.pow_le_mono_r; lia). change (2 ^ 61) with 2305843009213693952 in H. lia. }
    apply supports_true; auto.
Qed.

(** C57: construction succeeds exactly for a non-empty list of pairwise coprime
    moduli in [2, 2^62) that all support the transform, and panics otherwise. *)
Lemma C57_construct_lem :
  forall pr env ms n bd, env_ok env -> Forall (fun q => 0 <= q) ms ->
    let good := ms <> [] /\ (forall q, In q ms -> 2 <= q < 2 ^ 62 /\ ntt_possible env q n)
      /\ (forall i j, (i < length ms)%nat -> (j < length ms)%nat -> i <> j -> Z.gcd (nth i ms 1) (nth j ms 1) = 1) in
    (good -> exists c, rq_new pr env ms n bd = Ok c) /\ (~ good -> rq_new pr env ms n bd = Panic).
Proof.
  intros pr env ms n bd EH H0 good.
  assert (PWE : pairwise ms <-> forall i j, (i < length ms)%nat -> (j < length ms)%nat -> i <> j -> Z.gcd (nth i ms 1) (nth j ms 1) = 1).
  { split; intros H i j Hi Hj Hne; specialize (H i j Hi Hj Hne); apply Zgcd_1_rel_prime; auto. }
  split.
  - intros [Hne [HR PW]]. apply PWE in PW. apply (rq_new_fuel_ok pr env EH); auto.
    + apply Forall_forall. intros q Hq. apply HR; auto.
    + intros q m Hq Hm. destruct (HR q Hq) as [R NP].
      destruct (ntt_new_cases pr env q m n EH ltac:(lia) Hm) as [[_ C]|[E _]]; [contradiction|auto].
  - intros HN. unfold rq_new. cbn [rq_new_fuel].
    destruct (rns_new ms) as [rns| | |] eqn:ER.
    + pose proof (rns_new_inv ms rns H0 ER) as Wr. pose proof (wr_pw _ _ Wr) as PW. cbn [bind].
      pose proof (forall2_length _ _ _ (wr_mod _ _ Wr)) as Lm.
      assert (ML : forall i, (i < length ms)%nat -> modulus_new (nth i ms 1) = Ok (nth i (rns_moduli rns) dmod)).
      { intros i Hi. unfold rns_new in ER. binv ER. apply mapM_forall2 in E.
        assert (EV : v = rns_moduli rns).
        { binv ER. binv ER. binv ER. apply Ok_inj in ER. subst rns. reflexivity. }
        rewrite EV in E. apply (forall2_nth _ _ _ 1 dmod i E). auto. }
      assert (CS : forall i, (i < length ms)%nat ->
        (ntt_new pr env (nth i (rns_moduli rns) dmod) n = Panic /\ ~ ntt_possible env (nth i ms 1) n)
        \/ ((exists op, ntt_new pr env (nth i (rns_moduli rns) dmod) n = Ok op) /\ ntt_possible env (nth i ms 1) n)).
      { intros i Hi. apply ntt_new_cases; auto. rewrite Forall_forall in H0. apply H0, nth_In; auto. }
      destruct (Nat.eq_dec (length ms) 0) as [Z0|Z0].
      { destruct ms; [|discriminate]. destruct (rns_moduli rns); [|discriminate]. reflexivity. }
      destruct (existsb (fun i => match ntt_new pr env (nth i (rns_moduli rns) dmod) n with Panic => true | _ => false end) (seq 0 (length ms))) eqn:EE.
      * apply existsb_exists in EE. destruct EE as [i [Hi Ei]]. apply in_seq in Hi.
        rewrite mapM_panic; [reflexivity| |].
        -- intros m Hm. apply In_nth with (d := dmod) in Hm. destruct Hm as [j [Hj <-]].
           destruct (CS j ltac:(lia)) as [[E _]|[E _]]; auto.
        -- exists (nth i (rns_moduli rns) dmod). split; [apply nth_In; lia|].
           destruct (CS i ltac:(lia)) as [[E _]|[[op E] _]]; auto. rewrite E in Ei. discriminate.
      * exfalso. apply HN. split; [intros ->; simpl in Z0; lia|]. split; [|apply PWE; auto].
        intros q Hq. apply In_nth with (d := 1) in Hq. destruct Hq as [i [Hi <-]].
        destruct (wf_rns_nth _ _ i Wr Hi) as [V Eq]. pose proof (valid_range _ V) as VR. rewrite Eq in VR.
        split; [change (2 ^ 62) with P62; lia|].
        destruct (CS i Hi) as [[E _]|[_ E]]; auto. exfalso. rewrite <- not_true_iff_false in EE. apply EE.
        apply existsb_exists. exists i. split; [apply in_seq; lia|]. rewrite E. reflexivity.
    + reflexivity.
    + exfalso. destruct (rns_new_total ms H0) as [[c E]|E]; congruence.
    + exfalso. destruct (rns_new_total ms H0) as [[c E]|E]; congruence.
Qed.

(*EXAMPLE
Example C57_example :
  (c <- test_ctx Debug test_ms ;; Ok (rq_moduli_64 c, rq_degree c, option_map rq_moduli_64 (rq_next c)))
  = Ok (test_ms, 8%nat, Some [1048609; 1048721])
  /\ test_ctx Release [] = Panic /\ test_ctx Debug [1048609; 1048609] = Panic /\ test_ctx Debug [1048583] = Panic.
Proof. vm_compute. auto. Qed.
EXAMPLE*)
