(** Claim C94: which operands the homomorphic operations accept. *)
From Verif Require Import PBase MModulus MUtils MNtt MRns MRq MBfv MKsk MGalois MRgsw MOmr SpecGuard TestEnv TestBfv.

Lemma rassert_inv b v : rassert b = Ok v -> b = true.
Proof. destruct b; [auto|discriminate]. Qed.
Lemma same_ctx_b a b : ctx_eqb a b = true <-> same_ctx a b.
Proof. unfold ctx_eqb, same_ctx. rewrite !andb_true_iff, zlist_eqb_eq, !Nat.eqb_eq. tauto. Qed.
Lemma same_params_b a b : params_eqb a b = true <-> same_params a b.
Proof. unfold params_eqb, same_params. rewrite !andb_true_iff, zlist_eqb_eq, !Nat.eqb_eq, !Z.eqb_eq, same_ctx_b. tauto. Qed.
Lemma repr_eqb_eq a b : repr_eqb a b = true <-> a = b.
Proof. destruct a, b; cbn; split; congruence. Qed.
Lemma get_inv {A} (l : list A) i v : get l i = Ok v -> nth_error l i = Some v.
Proof. unfold get. destruct (nth_error l i); congruence. Qed.
Lemma bop_inv pr f a b r (H : f = poly_add pr \/ f = poly_sub pr \/ f = poly_mul pr) : f a b = Ok r -> in_ntt a /\ in_ntt b /\ p_ctx r = p_ctx a /\ p_repr r = Ntt.
Proof.
  intros E. destruct H as [->|[->| ->]]; unfold poly_add, poly_sub, poly_mul in E; binv E; binv E; binv E; apply rassert_inv in E0, E1; apply repr_eqb_eq in E0, E1; injection E as <-; cbn; auto.
Qed.
Lemma add_inv pr a b r : poly_add pr a b = Ok r -> in_ntt a /\ in_ntt b /\ p_ctx r = p_ctx a /\ p_repr r = Ntt.
Proof. apply (bop_inv pr (poly_add pr)); auto. Qed.
Lemma sub_inv pr a b r : poly_sub pr a b = Ok r -> in_ntt a /\ in_ntt b /\ p_ctx r = p_ctx a /\ p_repr r = Ntt.
Proof. apply (bop_inv pr (poly_sub pr)); auto. Qed.
Lemma mul_inv pr a b r : poly_mul pr a b = Ok r -> in_ntt a /\ in_ntt b /\ p_ctx r = p_ctx a /\ p_repr r = Ntt.
Proof. apply (bop_inv pr (poly_mul pr)); auto. Qed.
Lemma repr_inv pr p t r : change_repr pr p t = Ok r -> p_ctx r = p_ctx p /\ p_repr r = t.
Proof.
  unfold change_repr. intros H. destruct (p_repr p) eqn:E, t; try discriminate H; try (injection H as <-; auto); binv H; injection H as <-; auto.
Qed.
Lemma sub_ctx pr p s r : poly_substitute pr p s = Ok r -> p_ctx r = p_ctx p /\ p_repr r = p_repr p.
Proof. unfold poly_substitute. intros H. destruct (p_repr p) eqn:E; binv H; injection H as <-; cbn; auto. Qed.
Lemma switch_inv pr k p r : key_switch pr k p = Ok r -> same_ctx (p_ctx p) (k_ct_ctx k) /\ p_repr p = PowerBasis.
Proof. unfold key_switch. intros H. binv H. binv H. apply rassert_inv in E, E0. apply same_ctx_b in E. apply repr_eqb_eq in E0. auto. Qed.
Lemma scale_inv pr s p r : rq_scale pr s p = Ok r -> same_ctx (p_ctx p) (sc_from s).
Proof. unfold rq_scale. intros H. binv H. apply rassert_inv in E. apply same_ctx_b in E. exact E. Qed.
Ltac gi := repeat match goal with
  | H : rassert _ = Ok _ |- _ => apply rassert_inv in H
  | H : get _ _ = Ok _ |- _ => apply get_inv in H
  | H : params_eqb _ _ = true |- _ => apply same_params_b in H
  | H : ctx_eqb _ _ = true |- _ => apply same_ctx_b in H
  | H : repr_eqb _ _ = true |- _ => apply repr_eqb_eq in H
  | H : (_ =? _)%nat = true |- _ => apply Nat.eqb_eq in H
  | H : poly_add _ _ _ = Ok _ |- _ => apply add_inv in H; destruct H as (? & ? & ? & ?)
  | H : poly_sub _ _ _ = Ok _ |- _ => apply sub_inv in H; destruct H as (? & ? & ? & ?)
  | H : poly_mul _ _ _ = Ok _ |- _ => apply mul_inv in H; destruct H as (? & ? & ? & ?)
  | H : change_repr _ _ _ = Ok _ |- _ => apply repr_inv in H; destruct H as [? ?]
  | H : poly_substitute _ _ _ = Ok _ |- _ => apply sub_ctx in H; destruct H as [? ?]
  | H : key_switch _ _ _ = Ok _ |- _ => apply switch_inv in H; destruct H as [? ?]
  | H : rq_scale _ _ _ = Ok _ |- _ => apply scale_inv in H
  end.
Ltac pt := match goal with
  | H : nth_error ?l ?i = Some ?p |- part ?a ?i _ => exists p; split; [exact H|]
  end.

Lemma add_acc pr a b r : ct_add pr a b = Ok r ->
  same_params (ct_params a) (ct_params b) /\ ct_level a = ct_level b /\
  part a 0 in_ntt /\ part a 1 in_ntt /\ part b 0 in_ntt /\ part b 1 in_ntt /\ labelled_as a r.
Proof.
  unfold ct_add. intros H. repeat binv H. injection H as <-. gi. repeat split; try assumption; try (pt; assumption); try (apply E); reflexivity.
Qed.
Lemma sub_acc pr a b r : ct_sub pr a b = Ok r ->
  same_params (ct_params a) (ct_params b) /\ ct_level a = ct_level b /\
  part a 0 in_ntt /\ part a 1 in_ntt /\ part b 0 in_ntt /\ part b 1 in_ntt /\ labelled_as a r.
Proof.
  unfold ct_sub. intros H. repeat binv H. injection H as <-. gi. repeat split; try assumption; try (pt; assumption); try (apply E); reflexivity.
Qed.
Lemma mulpt_acc pr a p r : ct_mul_pt pr a p = Ok r -> ct_level a = pt_level p /\ part a 0 in_ntt /\ part a 1 in_ntt /\ labelled_as a r.
Proof.
  unfold ct_mul_pt. intros H. repeat binv H. injection H as <-. gi. repeat split; try assumption; pt; assumption.
Qed.
Lemma addpoly_acc pr a p r : ct_add_poly pr a p = Ok r ->
  in_ntt p /\ part a 0 (fun c => in_ntt c /\ same_ctx (p_ctx c) (p_ctx p)) /\ part a 1 in_ntt /\ labelled_as a r.
Proof.
  unfold ct_add_poly. intros H. repeat binv H. injection H as <-. gi. split; [assumption|]. split; [pt; auto|]. split; [pt; auto|]. repeat split.
Qed.
Lemma mulpoly_acc pr a p r : ct_mul_poly pr a p = Ok r ->
  in_ntt p /\ part a 0 (fun c => in_ntt c /\ same_ctx (p_ctx p) (p_ctx c)) /\ part a 1 in_ntt /\ labelled_as a r.
Proof.
  unfold ct_mul_poly. intros H. repeat binv H. injection H as <-. gi. split; [assumption|]. split; [pt; auto|]. split; [pt; auto|]. repeat split.
Qed.
Lemma relin_acc pr g a r : galois_relinearize pr g a = Ok r ->
  ct_level a = gk_level g /\ part a 0 in_ntt /\ part a 1 (fun c => same_ctx (p_ctx c) (k_ct_ctx (gk_ksk g))) /\ labelled_as a r.
Proof.
  unfold galois_relinearize. intros H. binv H. binv H. binv H. binv H. binv H. binv H. destruct v4 as [d0 d1]. repeat binv H. injection H as <-. clear E0. gi. split; [assumption|].
  split; [pt; unfold in_ntt in *; congruence|]. split; [pt; congruence|]. split; [reflexivity|]. split; [cbn; congruence|reflexivity].
Qed.
Lemma ext_acc pr g a r : external_product pr g a = Ok r ->
  part a 0 (fun c => same_ctx (p_ctx c) (k_ct_ctx (rg_ksk1 g))) /\ part a 1 (fun c => same_ctx (p_ctx c) (k_ct_ctx (rg_ksk0 g))).
Proof.
  unfold external_product. intros H. binv H. binv H. binv H. binv H. binv H. destruct v3. binv H. destruct v3. gi. split; pt; congruence.
Qed.
Lemma mws_acc pr a b k r : multiply_with_strategy pr a b k = Ok r ->
  ct_level a = ct_level b /\ same_params (ct_params a) (ct_params b) /\ same_params (ct_params a) (rlk_params k) /\
  length (ct_cts a) = 2%nat /\ length (ct_cts b) = 2%nat /\ labelled_as a r.
Proof.
  unfold multiply_with_strategy. intros H. repeat binv H. match type of H with (let '(_, _) := ?v in _) = _ => destruct v end. repeat binv H. injection H as <-. gi. repeat (split; try assumption).
Qed.
Lemma mapM_inv {A B} (f : A -> outcome B) l r : mapM f l = Ok r -> Forall (fun x => exists y, f x = Ok y) l.
Proof. revert r; induction l as [|x l IH]; intros r H; [constructor|]. cbn in H. binv H. binv H. constructor; eauto. Qed.
Lemma mul_acc pr a b r : ct_mul pr a b = Ok r ->
  ct_level b = ct_level a /\
  exists mu, nth_error (bp_mul_params (ct_params a)) (ct_level a) = Some mu /\
    Forall (fun p => same_ctx (p_ctx p) (sc_from (mu_up mu))) (ct_cts a ++ ct_cts b).
Proof.
  unfold ct_mul. intros H. binv H. binv H. binv H. binv H. gi. split; [assumption|]. exists v0. split; [assumption|].
  apply Forall_app. split; eapply Forall_impl; try (eapply mapM_inv; eassumption); intros p [y Hy]; eapply scale_inv; exact Hy.
Qed.

Lemma first_two_nth a i : (i < 2)%nat -> nth_error (ct_cts (first_two a)) i = nth_error (ct_cts a) i.
Proof. intros H. unfold first_two; cbn [ct_cts]. destruct (ct_cts a) as [|x [|y l]], i as [|[|i]]; cbn; auto; lia. Qed.
Lemma first_two_get a i : (i < 2)%nat -> get (ct_cts (first_two a)) i = get (ct_cts a) i.
Proof. intros H. unfold get. rewrite first_two_nth by exact H. reflexivity. Qed.

(** An operation that returns was given operands that belong together.
    Addition and subtraction: parameters and levels agree, two components
    each, in NTT form.  Products with a ciphertext, a plaintext, a polynomial,
    a relinearisation key; rotations; external products; key switching; RGSW
    encryption: as listed.  Results carry the labels of the first operand. *)
Lemma C94_accepted_lem : forall pr (a b r : Ct) (p : Poly) (m : Plaintext) (k : RelinKey) (g : GaliosKey) (h : RgswCt) (s : Ksk) (x : Poly * Poly),
  (ct_add pr a b = Ok r \/ ct_sub pr a b = Ok r ->
     same_params (ct_params a) (ct_params b) /\ ct_level a = ct_level b /\
     part a 0 in_ntt /\ part a 1 in_ntt /\ part b 0 in_ntt /\ part b 1 in_ntt /\ labelled_as a r) /\
  (ct_mul pr a b = Ok r ->
     ct_level b = ct_level a /\
     exists mu, nth_error (bp_mul_params (ct_params a)) (ct_level a) = Some mu /\
       Forall (fun q => same_ctx (p_ctx q) (sc_from (mu_up mu))) (ct_cts a ++ ct_cts b)) /\
  (multiply_with_strategy pr a b k = Ok r ->
     ct_level a = ct_level b /\ same_params (ct_params a) (ct_params b) /\ same_params (ct_params a) (rlk_params k) /\
     length (ct_cts a) = 2%nat /\ length (ct_cts b) = 2%nat /\ labelled_as a r) /\
  (ct_mul_pt pr a m = Ok r -> ct_level a = pt_level m /\ part a 0 in_ntt /\ part a 1 in_ntt /\ labelled_as a r) /\
  (ct_add_poly pr a p = Ok r ->
     in_ntt p /\ part a 0 (fun c => in_ntt c /\ same_ctx (p_ctx c) (p_ctx p)) /\ part a 1 in_ntt /\ labelled_as a r) /\
  (ct_mul_poly pr a p = Ok r ->
     in_ntt p /\ part a 0 (fun c => in_ntt c /\ same_ctx (p_ctx p) (p_ctx c)) /\ part a 1 in_ntt /\ labelled_as a r) /\
  (galois_relinearize pr g a = Ok r ->
     ct_level a = gk_level g /\ part a 0 in_ntt /\ part a 1 (fun c => same_ctx (p_ctx c) (k_ct_ctx (gk_ksk g))) /\ labelled_as a r) /\
  (external_product pr h a = Ok x ->
     part a 0 (fun c => same_ctx (p_ctx c) (k_ct_ctx (rg_ksk1 h))) /\
     part a 1 (fun c => same_ctx (p_ctx c) (k_ct_ctx (rg_ksk0 h)))) /\
  (key_switch pr s p = Ok x -> same_ctx (p_ctx p) (k_ct_ctx s) /\ p_repr p = PowerBasis).
Proof.
  intros. split; [intros [H|H]; [eapply add_acc|eapply sub_acc]; exact H|]. split; [apply mul_acc|]. split; [apply mws_acc|]. split; [apply mulpt_acc|]. split; [apply addpoly_acc|].
  split; [apply mulpoly_acc|]. split; [apply relin_acc|]. split; [apply ext_acc|apply switch_inv].
Qed.

(** Operands that visibly do not belong together make the operation panic at
    once, whatever else they contain. *)
Lemma C94_rejected_lem : forall pr (a b : Ct) (m : Plaintext) (p : Poly) (k : RelinKey) (g : GaliosKey) (s : Ksk) (sk : SecretKey) (r0 r1 : RndKsk),
  (~ same_params (ct_params a) (ct_params b) \/ ct_level a <> ct_level b -> ct_add pr a b = Panic /\ ct_sub pr a b = Panic) /\
  (ct_level a <> ct_level b -> ct_mul pr a b = Panic) /\
  (ct_level a <> ct_level b \/ ~ same_params (ct_params a) (ct_params b) \/ ~ same_params (ct_params a) (rlk_params k) \/
   length (ct_cts a) <> 2%nat \/ length (ct_cts b) <> 2%nat -> multiply_with_strategy pr a b k = Panic) /\
  (ct_level a <> pt_level m -> ct_mul_pt pr a m = Panic) /\
  (~ part a 0 (fun c => same_ctx (p_ctx c) (p_ctx p)) -> ct_add_poly pr a p = Panic) /\
  (~ part a 0 (fun c => same_ctx (p_ctx p) (p_ctx c)) \/ p_repr p <> Ntt -> ct_mul_poly pr a p = Panic) /\
  (ct_level a <> gk_level g -> galois_relinearize pr g a = Panic) /\
  (~ same_ctx (p_ctx p) (k_ct_ctx s) \/ p_repr p <> PowerBasis -> key_switch pr s p = Panic) /\
  (~ same_params (sk_params sk) (pt_params m) -> rgsw_encrypt pr sk m r0 r1 = Panic) /\
  (p_repr p <> Ntt \/ ctx_level (sk_params sk) (p_ctx p) = None -> rgsw_encrypt_poly pr sk p r0 r1 = Panic).
Proof.
  intros. split.
  { intros H. unfold ct_add, ct_sub. destruct (params_eqb (ct_params a) (ct_params b)) eqn:E1; [|split; reflexivity]. apply same_params_b in E1. destruct H as [H|H]; [contradiction|].
    apply Nat.eqb_neq in H. rewrite H. split; reflexivity. }
  split; [intros H; apply not_eq_sym, Nat.eqb_neq in H; unfold ct_mul; rewrite H; reflexivity|].
  split.
  { intros H. unfold multiply_with_strategy. destruct (ct_level a =? ct_level b)%nat eqn:E1; [|reflexivity]. destruct (params_eqb (ct_params a) (ct_params b)) eqn:E2; [|reflexivity].
    destruct (params_eqb (ct_params a) (rlk_params k)) eqn:E3; [|reflexivity]. destruct (length (ct_cts a) =? 2)%nat eqn:E4; [|reflexivity]. destruct (length (ct_cts b) =? 2)%nat eqn:E5; [|reflexivity].
    apply Nat.eqb_eq in E1, E4, E5. apply same_params_b in E2, E3. tauto. }
  split; [intros H; apply Nat.eqb_neq in H; unfold ct_mul_pt; rewrite H; reflexivity|].
  split.
  { intros H. unfold ct_add_poly, get. destruct (nth_error (ct_cts a) 0) as [c|] eqn:E; [|reflexivity]. cbn [bind]. destruct (ctx_eqb (p_ctx c) (p_ctx p)) eqn:E1; [|reflexivity].
    exfalso. apply H. exists c. split; [exact E|apply same_ctx_b, E1]. }
  split.
  { intros H. unfold ct_mul_poly, get. destruct (nth_error (ct_cts a) 0) as [c|] eqn:E; [|reflexivity]. cbn [bind]. destruct (ctx_eqb (p_ctx p) (p_ctx c)) eqn:E1; [|reflexivity]. cbn [rassert bind].
    destruct (repr_eqb (p_repr p) Ntt) eqn:E2; [|reflexivity]. exfalso. destruct H as [H|H]; apply H; [exists c; split; [exact E|apply same_ctx_b, E1]|apply repr_eqb_eq, E2]. }
  split; [intros H; apply Nat.eqb_neq in H; unfold galois_relinearize; rewrite H; reflexivity|].
  split.
  { intros H. unfold key_switch. destruct (ctx_eqb (p_ctx p) (k_ct_ctx s)) eqn:E1; [|reflexivity]. destruct (repr_eqb (p_repr p) PowerBasis) eqn:E2; [|reflexivity]. apply same_ctx_b in E1. apply repr_eqb_eq in E2. tauto. }
  split.
  { intros H. unfold rgsw_encrypt. destruct (params_eqb (sk_params sk) (pt_params m)) eqn:E1; [|reflexivity]. apply same_params_b in E1. contradiction. }
  intros H. unfold rgsw_encrypt_poly. destruct (repr_eqb (p_repr p) Ntt) eqn:E2; [|reflexivity]. apply repr_eqb_eq in E2. destruct H as [H|H]; [contradiction|]. rewrite H. reflexivity.
Qed.

(** What is not looked at.  Every operation except the two multiplications
    ignores components beyond the second: a three-component product, added to
    another one, loses its third component without notice.  And encryption
    labels its result with the parameters of the key and level 0, whatever
    parameters and level the plaintext has. *)
Lemma C94_ignored_lem : forall pr (a b : Ct) (m : Plaintext) (p : Poly) (z : Z) (g : GaliosKey) (h : RgswCt) (sk : SecretKey) rows w ct,
  ct_add pr a b = ct_add pr (first_two a) (first_two b) /\
  ct_sub pr a b = ct_sub pr (first_two a) (first_two b) /\
  ct_mul_pt pr a m = ct_mul_pt pr (first_two a) m /\
  ct_add_poly pr a p = ct_add_poly pr (first_two a) p /\
  ct_mul_poly pr a p = ct_mul_poly pr (first_two a) p /\
  ct_mul_big pr a z = ct_mul_big pr (first_two a) z /\
  galois_relinearize pr g a = galois_relinearize pr g (first_two a) /\
  external_product pr h a = external_product pr h (first_two a) /\
  (encrypt pr sk m rows w = Ok ct -> ct_params ct = sk_params sk /\ ct_level ct = 0%nat /\ length (ct_cts ct) = 2%nat).
Proof.
  intros. unfold ct_add, ct_sub, ct_mul_pt, ct_add_poly, ct_mul_poly, ct_mul_big, galois_relinearize, external_product. rewrite !first_two_get by lia.
  repeat (split; [reflexivity|]). unfold encrypt, encrypt_poly. intros H. binv H. cbv zeta in H. repeat binv H. injection H as <-. repeat split.
Qed.

(*EXAMPLE
(** Two ciphertexts that belong together are added and multiplied; with
    another level on the second one every operation panics; the sum of two
    three-component products has two components only. *)
Example C94_example :
  (P <- test_bfv Release ;; let sk := mkSk P [1; -1; 0; 1; 1; 0; 2; -1] in
   pa <- pt_new Release P [2; 3] 0 EncPoly ;;
   a <- encrypt Release sk pa (trows bms 4) (tw 5) ;; b <- encrypt Release sk pa (trows bms 6) (tw 7) ;;
   r <- rlk_new Release sk 0 (trnd 3) ;;
   let b1 := mkCt P (ct_cts b) 1 in
   s <- ct_add Release a b ;; x <- multiply_with_strategy Release a b r ;;
   y <- ct_mul Release a b ;; yy <- ct_add Release y y ;;
   Ok (length (ct_cts s), length (ct_cts x), length (ct_cts y), length (ct_cts yy),
       match ct_add Release a b1, multiply_with_strategy Release a b1 r, ct_mul Release a b1 with Panic, Panic, Panic => true | _, _, _ => false end))
  = Ok (2, 2, 3, 2, true)%nat.
Proof. vm_compute. reflexivity. Qed.
EXAMPLE*)
