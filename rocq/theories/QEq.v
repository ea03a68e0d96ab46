(** Equality of contexts, polynomials and parameters. *)
From Verif Require Import PBase MModulus MUtils MNtt MRns MRq MBfv MTests PRns PRq PBfv PAgree QRq QBfv SpecRq SpecEq.

Lemma rq_new_fields pr env ms n bd c : rq_new pr env ms n bd = Ok c ->
  rq_moduli_64 c = ms /\ rq_degree c = n /\ rq_bd c = bd.
Proof.
  unfold rq_new. cbn [rq_new_fuel]. intros E. repeat (apply bind_inv in E; let x := fresh "x" in destruct E as [x [? E]]).
  apply Ok_inj in E. rewrite <- E. auto.
Qed.

(** Two runs of a computation in the two profiles that both return, return
    the same value. *)
Lemma agree_det {A} (f : profile -> outcome A) : agree (f Debug) (f Release) ->
  forall pr pr' a b, f pr = Ok a -> f pr' = Ok b -> a = b.
Proof.
  intros H [|] [|] a b Ea Eb.
  - apply Ok_inj. rewrite <- Ea, <- Eb. reflexivity.
  - apply H in Ea. apply Ok_inj. rewrite <- Ea, <- Eb. reflexivity.
  - apply H in Eb. apply Ok_inj. rewrite <- Ea, <- Eb. reflexivity.
  - apply Ok_inj. rewrite <- Ea, <- Eb. reflexivity.
Qed.

Lemma ctx_eqb_fields a b : ctx_eqb a b = true <->
  rq_moduli_64 a = rq_moduli_64 b /\ rq_degree a = rq_degree b /\ rq_bd a = rq_bd b.
Proof.
  unfold ctx_eqb. rewrite !andb_true_iff, zlist_eqb_eq, !Nat.eqb_eq. split.
  - intros [[[H1 H2] H3] H4]. split; auto. split; auto. destruct (rq_bd a), (rq_bd b). cbn in *. congruence.
  - intros [H1 [H2 H3]]. rewrite H1, H2, H3. auto.
Qed.

(** C76: for contexts made in the same environment, the comparison of the
    moduli, the degree and the bit decomposition decides whether all fields
    (the meaning of the derived PartialEq) agree. *)
Lemma C76_context_lem :
  forall env a b, made env a -> made env b -> (ctx_eqb a b = true <-> a = b).
Proof.
  intros env a b [pr [ms [n [bd Ea]]]] [pr' [ms' [n' [bd' Eb]]]].
  rewrite ctx_eqb_fields.
  destruct (rq_new_fields _ _ _ _ _ _ Ea) as [A1 [A2 A3]]. destruct (rq_new_fields _ _ _ _ _ _ Eb) as [B1 [B2 B3]].
  split; [|intros <-; auto].
  intros [H1 [H2 H3]]. rewrite A1, B1 in H1. rewrite A2, B2 in H2. rewrite A3, B3 in H3. rewrite <- H1, <- H2, <- H3 in Eb.
  exact (agree_det (fun p => rq_new p env ms n bd) (ag_rq_new env ms n bd) pr pr' a b Ea Eb).
Qed.

(** C76: the context one level down is itself the result of a construction, so
    the previous theorem covers chains. *)
Lemma C76_next_lem :
  forall env c d, made env c -> rq_next c = Some d ->
    made env d /\ rq_moduli_64 d = firstn (length (rq_moduli_64 c) - 1) (rq_moduli_64 c)
    /\ rq_degree d = rq_degree c /\ rq_bd d = rq_bd c.
Proof.
  intros env c d [pr [ms [n [bd E]]]] Hd. pose proof (rq_new_fields _ _ _ _ _ _ E) as [F1 [F2 F3]]. rewrite F1, F2, F3.
  assert (Em : rq_new pr env (firstn (length ms - 1) ms) n bd = Ok d).
  { unfold rq_new in E. cbn [rq_new_fuel] in E. binv E. binv E. binv E.
    match goal with H : (if _ then _ else _) = Ok ?x |- _ => rename H into EN; rename x into next end.
    binv E. binv E. apply Ok_inj in E. subst c. cbn [rq_next] in Hd. subst next.
    destruct (2 <=? length ms)%nat eqn:EL; [|discriminate].
    apply Nat.leb_le in EL. binv EN. rename E into EC. apply Ok_inj in EN. injection EN as ->. unfold rq_new.
    rewrite firstn_length. replace (S (Nat.min (length ms - 1) (length ms))) with (length ms) by lia. exact EC. }
  split; [exists pr, (firstn (length ms - 1) ms), n, bd; exact Em|]. exact (rq_new_fields _ _ _ _ _ _ Em).
Qed.

Lemma rows_eqb_eq : forall a b : list (list Z), length a = length b ->
  (forallb (fun x => zlist_eqb (fst x) (snd x)) (combine a b) = true <-> a = b).
Proof.
  induction a as [|x a IH]; intros [|y b] HL; try discriminate HL; [cbn; tauto|].
  cbn [combine forallb fst snd]. rewrite andb_true_iff, zlist_eqb_eq. injection HL as HL. rewrite IH by auto. split.
  - intros [-> ->]. reflexivity.
  - intros H. injection H as -> ->. auto.
Qed.

(** C76: the same for polynomials whose contexts were made in one environment. *)
Lemma C76_poly_lem :
  forall env p q, made env (p_ctx p) -> made env (p_ctx q) -> (poly_eqb p q = true <-> p = q).
Proof.
  intros env p q Hp Hq. unfold poly_eqb. rewrite !andb_true_iff. rewrite (C76_context_lem env) by auto. split.
  - intros [[[H1 H2] H3] H4]. apply Nat.eqb_eq in H3. apply rows_eqb_eq in H4; auto.
    destruct p as [c r x], q as [c' r' x']. cbn [p_ctx p_repr p_rows] in *. subst.
    destruct r, r'; try discriminate H2; reflexivity.
  - intros <-. split; [split; [split; auto|apply Nat.eqb_refl]|apply rows_eqb_eq; auto]. destruct (p_repr p); reflexivity.
Qed.

(** Every context inside made parameters is made. *)
Lemma bfv_new_made pr env n t ms v bd P : bfv_new pr env n t ms v bd = Ok P ->
  (exists q0, rq_new pr env [q0] n bd = Ok (bp_pt_ctx P))
  /\ Forall (made env) (bp_q_ctxs P) /\ Forall (made env) (bp_e_ctxs P).
Proof.
  unfold bfv_new. intros E. apply bind_inv in E. destruct E as [ext [_ E]].
  unfold bfv_new_from in E. apply bind_inv in E. destruct E as [ti [_ E]]. apply bind_inv in E. destruct E as [q0 [_ E]].
  apply bind_inv in E. destruct E as [pc [Epc E]]. apply bind_inv in E. destruct E as [lv [El E]].
  repeat (apply bind_inv in E; let x := fresh "x" in destruct E as [x [? E]]).
  apply Ok_inj in E. rewrite <- E. cbn [bp_pt_ctx bp_q_ctxs bp_e_ctxs].
  split; [exists q0; exact Epc|].
  apply mapM_forall2 in El.
  assert (HF : Forall (fun l => made env (let '(q, _, _, _, _, _) := l in q) /\ made env (let '(_, _, _, _, e, _) := l in e)) lv).
  { clear - El. induction El as [|i l is ls HL _ IH]; constructor; auto.
    unfold level_params in HL.
    apply bind_inv in HL. destruct HL as [q [Eq HL]].
    do 8 (apply bind_inv in HL; let x := fresh "x" in destruct HL as [x [_ HL]]).
    apply bind_inv in HL. destruct HL as [e0 [_ HL]].
    apply bind_inv in HL. destruct HL as [ec [Ee HL]].
    repeat (apply bind_inv in HL; let x := fresh "x" in destruct HL as [x [_ HL]]).
    apply Ok_inj in HL. rewrite <- HL. split; cbv beta iota; [exists pr; do 3 eexists; exact Eq|exists pr; do 3 eexists; exact Ee]. }
  clear - HF. split; apply Forall_map; eapply Forall_impl; try exact HF; intros [[[[[? ?] ?] ?] ?] ?] H; apply H.
Qed.

(** C76: every ciphertext context and every extended context of parameters is
    the result of a construction in the environment of the parameters. *)
Lemma C76_contexts_lem :
  forall env P, made_params env P ->
    made env (bp_pt_ctx P) /\ Forall (made env) (bp_q_ctxs P) /\ Forall (made env) (bp_e_ctxs P).
Proof.
  intros env P [pr [n [t [ms [v [bd E]]]]]]. destruct (bfv_new_made _ _ _ _ _ _ _ _ E) as [[q0 H1] H2]. split; auto.
  do 4 eexists. exact H1.
Qed.

(** C76: parameters made in the same environment agree in all fields as soon
    as degree, plaintext modulus, moduli, variance and bit decomposition do. *)
Lemma C76_params_lem :
  forall env a b, made_params env a -> made_params env b -> (params_eqb a b = true <-> a = b).
Proof.
  intros env a b [pr [n [t [ms [v [bd Ea]]]]]] [pr' [n' [t' [ms' [v' [bd' Eb]]]]]].
  destruct (bfv_new_made _ _ _ _ _ _ _ _ Ea) as [[qa Pa] _]. destruct (bfv_new_made _ _ _ _ _ _ _ _ Eb) as [[qb Pb] _].
  destruct (rq_new_fields _ _ _ _ _ _ Pa) as [_ [_ A3]]. destruct (rq_new_fields _ _ _ _ _ _ Pb) as [_ [_ B3]].
  pose proof Ea as Fa. unfold bfv_new in Fa. apply bind_inv in Fa. destruct Fa as [xa [_ Fa]]. apply bfv_new_from_fields in Fa.
  pose proof Eb as Fb. unfold bfv_new in Fb. apply bind_inv in Fb. destruct Fb as [xb [_ Fb]]. apply bfv_new_from_fields in Fb.
  destruct Fa as [A4 [A5 [A6 A7]]], Fb as [B4 [B5 [B6 B7]]].
  unfold params_eqb. rewrite !andb_true_iff, Nat.eqb_eq, !Z.eqb_eq, zlist_eqb_eq, ctx_eqb_fields. split.
  - intros [[[[H1 H2] H3] H4] [_ [_ H5]]]. rewrite A3, B3 in H5. rewrite A4, B4 in H1. rewrite A5, B5 in H2. rewrite A6, B6 in H3. rewrite A7, B7 in H4.
    rewrite <- H1, <- H2, <- H3, <- H4, <- H5 in Eb.
    exact (agree_det (fun p => bfv_new p env n t ms v bd) (ag_bfv_new env n t ms v bd) pr pr' a b Ea Eb).
  - intros <-. auto 10.
Qed.

(*EXAMPLE
(** Contexts of both builds and a third one with another bit decomposition. *)
Example C76_example :
  let env := mkEnv (fun x => zmem x [17; 97]) (fun p k => (3 + Z.of_nat k) mod p) in
  (a <- rq_new Debug env [17; 97] 8 (mkBD 4 8) ;; b <- rq_new Release env [17; 97] 8 (mkBD 4 8) ;;
   c <- rq_new Debug env [17; 97] 8 (mkBD 4 7) ;; d <- rq_new Release env [17] 8 (mkBD 4 8) ;;
   Ok (ctx_eqb a b, ctx_eqb a c, match rq_next a with Some x => ctx_eqb x d | None => false end))
  = Ok (true, false, true).
Proof. vm_compute. reflexivity. Qed.

(** Parameters can be made in the environment of the example of C52. *)
Example C76_example_params :
  let env := mkEnv (fun x => zmem x [17; 65633; 4611686018427387761; 4611686018427387617]) (fun p k => (3 + Z.of_nat k) mod p) in
  (a <- bfv_new Debug env 8 17 [65633] 1 (mkBD 4 8) ;; Ok (params_eqb a a, bp_variance a)) = Ok (true, 1).
Proof. vm_compute. reflexivity. Qed.
EXAMPLE*)
