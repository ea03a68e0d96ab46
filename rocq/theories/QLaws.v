(** Claim C90: the laws of a commutative ring, as equalities of the values returned. *)
From Verif Require Import PBase NT Spec PSum MModulus MUtils MNtt MRns MRq MBfv PModulus PNttMath PNtt PCrt PRns SpecRq SpecBfv SpecLaws PRing PRq PRq2 PRq3 PRq4 PRq5 PBfv PBfv2 MKsk MGalois PKsk PGal PMul2 PSimd2 QRq TestEnv QNtt.

Lemma in_rep c r p : wf_loc c -> in_ctx c r p -> exists f, p = rep c r f.
Proof. intros B [E1 [E2 W]]. destruct (wf_rep Debug c B p E1 W) as [f [_ E]]. exists f. rewrite E2 in E. exact E. Qed.
Lemma rep_in c r f : wf_loc c -> in_ctx c r (rep c r f).
Proof. intros B. split; [reflexivity|]. split; [reflexivity|]. apply rep_wf, B. Qed.
Ltac reps B := repeat match goal with H : in_ctx _ _ ?p |- _ => let f := fresh "f" in destruct (in_rep _ _ _ B H) as [f ->]; clear H end.
Ltac law W := cbn [bind]; repeat (first [rewrite (rep_add _ _ W)|rewrite (rep_sub _ _ W)|rewrite (rep_mul _ _ W)|rewrite (rep_neg _ _ W)|rewrite (rep_mul_big _ _ W)]; cbn [bind]).
Ltac fin W := f_equal; apply (rep_ext _ W); intros ? ?.

(** C90: addition, subtraction and negation make the polynomials of a context an
    abelian group. *)
Lemma C90_group_lem :
  forall pr c p q r, built c -> in_ctx c Ntt p -> in_ctx c Ntt q -> in_ctx c Ntt r ->
    poly_add pr p q = poly_add pr q p
    /\ (x <- poly_add pr p q ;; poly_add pr x r) = (x <- poly_add pr q r ;; poly_add pr p x)
    /\ poly_add pr p (poly_zero c Ntt) = Ok p
    /\ poly_sub pr p p = Ok (poly_zero c Ntt)
    /\ (x <- poly_add pr p q ;; poly_sub pr x q) = Ok p
    /\ (x <- poly_neg pr q ;; poly_add pr p x) = poly_sub pr p q
    /\ (x <- poly_neg pr p ;; poly_neg pr x) = Ok p
    /\ (exists x y, poly_add pr p q = Ok x /\ poly_sub pr p q = Ok y /\ in_ctx c Ntt x /\ in_ctx c Ntt y).
Proof.
  intros pr c p q r B Hp Hq Hr. pose proof (built_loc _ B) as W. reps W. rewrite (rep_zero c W).
  split; [law W; fin W; lia|]. split; [law W; fin W; lia|]. split; [law W; fin W; lia|]. split; [law W; fin W; lia|]. split; [law W; fin W; lia|]. split; [law W; fin W; lia|]. split; [law W; fin W; lia|].
  law W. eexists. eexists. split; [reflexivity|]. split; [reflexivity|]. split; apply rep_in; auto.
Qed.
(** C90: multiplication is commutative, associative, distributive, and the
    polynomial made from [1] is its unit. *)
Lemma C90_ring_lem :
  forall pr c p q r, built c -> in_ctx c Ntt p -> in_ctx c Ntt q -> in_ctx c Ntt r ->
    poly_mul pr p q = poly_mul pr q p
    /\ (x <- poly_mul pr p q ;; poly_mul pr x r) = (x <- poly_mul pr q r ;; poly_mul pr p x)
    /\ (x <- poly_add pr q r ;; poly_mul pr p x) = (x <- poly_mul pr p q ;; y <- poly_mul pr p r ;; poly_add pr x y)
    /\ (x <- poly_sub pr q r ;; poly_mul pr p x) = (x <- poly_mul pr p q ;; y <- poly_mul pr p r ;; poly_sub pr x y)
    /\ (x <- poly_neg pr p ;; poly_mul pr x q) = (x <- poly_mul pr p q ;; poly_neg pr x)
    /\ poly_mul pr p (poly_zero c Ntt) = Ok (poly_zero c Ntt)
    /\ (x <- poly_from_u64 pr c [1] ;; y <- change_repr pr x Ntt ;; poly_mul pr p y) = Ok p
    /\ (exists x, poly_mul pr p q = Ok x /\ in_ctx c Ntt x).
Proof.
  intros pr c p q r B Hp Hq Hr. pose proof (built_loc _ B) as W. pose proof (cx_n8 c W) as N0. reps W. rewrite (rep_zero c W).
  split; [law W; fin W; apply rmul_comm|]. split; [law W; fin W; apply rmul_assoc; lia|]. split; [law W; fin W; apply rmul_add_r|]. split; [law W; fin W; apply rmul_sub_r|].
  split; [law W; fin W; apply rmul_opp_l|]. split; [law W; fin W; apply rmul_0_r|]. split.
  - destruct (C21_from_integers_lem pr c [1] B ltac:(cbn [length]; lia)) as [E _]. rewrite E by (repeat constructor; lia). cbn [bind]. rewrite (C18_change_lem pr c PowerBasis Ntt _ B) by discriminate.
    law W. fin W. etransitivity; [eapply rmul_ext with (g' := one); [reflexivity|intros i _; destruct i as [|[|i]]; reflexivity]|]. apply rmul_one_r; lia.
  - law W. eexists. split; [reflexivity|]. apply rep_in; auto.
Qed.
(** C90: multiplication by integers is a module structure over the integers mod Q. *)
Lemma C90_scalar_lem :
  forall pr c p q a b, built c -> in_ctx c Ntt p -> in_ctx c Ntt q ->
    poly_mul_big pr p 1 = Ok p
    /\ poly_mul_big pr p (a mod cx_Q c) = poly_mul_big pr p a
    /\ (x <- poly_mul_big pr p a ;; poly_mul_big pr x b) = poly_mul_big pr p (a * b)
    /\ poly_mul_big pr p (a + b) = (x <- poly_mul_big pr p a ;; y <- poly_mul_big pr p b ;; poly_add pr x y)
    /\ (x <- poly_add pr p q ;; poly_mul_big pr x a) = (x <- poly_mul_big pr p a ;; y <- poly_mul_big pr q a ;; poly_add pr x y)
    /\ (x <- poly_mul_big pr p a ;; poly_mul pr x q) = (x <- poly_mul pr p q ;; poly_mul_big pr x a)
    /\ poly_mul_big pr p 0 = Ok (poly_zero c Ntt).
Proof.
  intros pr c p q a b B Hp Hq. pose proof (built_loc _ B) as W. reps W. rewrite (rep_zero c W).
  split; [law W; fin W; lia|]. split.
  { law W. f_equal. apply (rep_eqm c W). intros j _. unfold eqm. apply Zmult_mod_idemp_l. }
  split; [law W; fin W; lia|]. split; [law W; fin W; lia|]. split; [law W; fin W; lia|]. split; [law W; fin W; apply rmul_scal_l|]. law W; fin W; lia.
Qed.
(** C90: a substitution is a ring automorphism, substitutions compose by multiplying
    exponents, and a pair of inverse exponents gives inverse substitutions. *)
Lemma C90_substitute_lem :
  forall pr c x y, built c -> small_degree pr (rq_degree c) -> 0 <= x -> 0 <= y -> x mod 2 = 1 -> y mod 2 = 1 ->
    exists sx sy sxy, subst_new pr c x = Ok sx /\ subst_new pr c y = Ok sy /\ subst_new pr c (x * y) = Ok sxy
    /\ (forall p q, in_ctx c Ntt p -> in_ctx c Ntt q ->
          (z <- poly_add pr p q ;; poly_substitute pr z sx) = (a <- poly_substitute pr p sx ;; b <- poly_substitute pr q sx ;; poly_add pr a b)
          /\ (z <- poly_mul pr p q ;; poly_substitute pr z sx) = (a <- poly_substitute pr p sx ;; b <- poly_substitute pr q sx ;; poly_mul pr a b)
          /\ (z <- poly_neg pr p ;; poly_substitute pr z sx) = (a <- poly_substitute pr p sx ;; poly_neg pr a))
    /\ (forall r p, in_ctx c r p ->
          (a <- poly_substitute pr p sx ;; poly_substitute pr a sy) = poly_substitute pr p sxy
          /\ (a <- poly_substitute pr p sx ;; poly_substitute pr a sy) = (a <- poly_substitute pr p sy ;; poly_substitute pr a sx)
          /\ ((x * y) mod (2 * Z.of_nat (rq_degree c)) = 1 -> (a <- poly_substitute pr p sx ;; poly_substitute pr a sy) = Ok p)
          /\ (forall r', r <> NttShoup -> r' <> NttShoup ->
                (a <- change_repr pr p r' ;; poly_substitute pr a sx) = (a <- poly_substitute pr p sx ;; change_repr pr a r'))).
Proof.
  intros pr c x y B SD Hx Hy Ox Oy. pose proof (built_loc _ B) as W. pose proof (cx_n8 c W) as N0.
  assert (CT : forall z, 0 <= z -> z mod 2 = 1 -> exists s, subst_new pr c z = Ok s /\ forall r f, poly_substitute pr (rep c r f) s = Ok (rep c r (rsubst (rq_degree c) (Z.to_nat z) f))).
  { intros z Hz Oz. apply C19_substitute_lem; auto. cbv zeta. destruct SD as [SD|SD]; [left; auto|right]. apply (C19_counter_lem c z B Hz Oz). exact SD. }
  assert (Oxy : (x * y) mod 2 = 1) by (rewrite Z.mul_mod, Ox, Oy by lia; reflexivity).
  destruct (CT x Hx Ox) as [sx [Ex Sx]]. destruct (CT y Hy Oy) as [sy [Ey Sy]]. destruct (CT (x * y) ltac:(nia) Oxy) as [sz [Ez Sz]]. clear CT.
  assert (OD : forall z, 0 <= z -> z mod 2 = 1 -> Nat.odd (Z.to_nat z) = true).
  { intros z Hz Oz. apply Nat.odd_spec. exists (Z.to_nat (z / 2)). pose proof (Z.div_mod z 2 ltac:(lia)) as H. rewrite Oz in H. pose proof (Z.div_pos z 2 Hz ltac:(lia)) as H0. lia. }
  pose proof (OD x Hx Ox) as Dx. pose proof (OD y Hy Oy) as Dy. clear OD.
  exists sx, sy, sz. split; auto. split; auto. split; auto. split.
  - intros p q Hp Hq. reps W. split; [|split]; law W; rewrite ?Sx; law W; rewrite ?Sx; law W; fin W.
    + apply rsubst_add; lia.
    + apply rsubst_rmul; auto; lia.
    + apply rsubst_opp; lia.
  - intros r p Hp. reps W. rewrite !Sx, !Sy, Sz. cbn [bind]. rewrite Sx, Sy.
    split; [fin W; rewrite rsubst_comp, Z2Nat.inj_mul by (auto; lia); reflexivity|].
    split; [fin W; rewrite !rsubst_comp by (auto; lia); rewrite Nat.mul_comm; reflexivity|]. split.
    + intros H1. fin W. rewrite rsubst_comp by (auto; lia). rewrite <- Z2Nat.inj_mul by (auto; lia). etransitivity; [eapply rsubst_mod with (e' := 1%nat)|apply rsubst_1; lia]; [lia|].
      rewrite <- (Z2Nat.id (x * y)) in H1 by nia. apply Nat2Z.inj. rewrite !Nat2Z.inj_mod, Nat2Z.inj_mul. change (Z.of_nat 2) with 2. rewrite H1. symmetry. apply Z.mod_small. lia.
    + intros r' R1 R2. rewrite (C18_change_lem pr c r r' _ B R1 R2). cbn [bind]. rewrite Sx. cbn [bind]. rewrite (C18_change_lem pr c r r' _ B R1 R2). reflexivity.
Qed.

Ltac cts B := repeat match goal with H : ct_in _ _ _ ?a |- _ => let x := fresh "x" in let y := fresh "y" in destruct H as [x [y [-> [? ?]]]] end; reps B.
Ltac clw W := cbn [ct_cts ct_params ct_level get nth_error bind]; law W.
(** C90: the same laws for ciphertexts of two components: addition and subtraction
    are a group, polynomials and integers act on it. *)
Lemma C90_ciphertext_lem :
  forall pr P i c a b d p q k l, built_params P -> level P i c -> ct_in P i c a -> ct_in P i c b -> ct_in P i c d -> in_ctx c Ntt p -> in_ctx c Ntt q ->
    ct_add pr a b = ct_add pr b a
    /\ (x <- ct_add pr a b ;; ct_add pr x d) = (x <- ct_add pr b d ;; ct_add pr a x)
    /\ (x <- ct_add pr a b ;; ct_sub pr x b) = Ok a
    /\ (x <- ct_add pr a b ;; ct_mul_poly pr x p) = (x <- ct_mul_poly pr a p ;; y <- ct_mul_poly pr b p ;; ct_add pr x y)
    /\ (x <- ct_mul_poly pr a p ;; ct_mul_poly pr x q) = (pq <- poly_mul pr p q ;; ct_mul_poly pr a pq)
    /\ (pq <- poly_add pr p q ;; ct_mul_poly pr a pq) = (x <- ct_mul_poly pr a p ;; y <- ct_mul_poly pr a q ;; ct_add pr x y)
    /\ (x <- ct_mul_big pr a k ;; ct_mul_big pr x l) = ct_mul_big pr a (k * l)
    /\ ct_mul_big pr a (k + l) = (x <- ct_mul_big pr a k ;; y <- ct_mul_big pr a l ;; ct_add pr x y)
    /\ (x <- ct_add pr a b ;; ct_mul_big pr x k) = (x <- ct_mul_big pr a k ;; y <- ct_mul_big pr b k ;; ct_add pr x y)
    /\ (x <- ct_mul_big pr a k ;; ct_mul_poly pr x p) = (x <- ct_mul_poly pr a p ;; ct_mul_big pr x k)
    /\ ct_mul_big pr a 1 = Ok a /\ ct_mul_big pr a (k mod cx_Q c) = ct_mul_big pr a k
    /\ (exists x, ct_add pr a b = Ok x /\ ct_in P i c x).
Proof.
  intros pr P i c a b d p q k l BP L Ha Hb Hd Hp Hq. pose proof (built_params_wf P BP) as WB. destruct (level_wf P i c WB L) as [_ LV].
  pose proof (wf_ctx_loc _ (lv_wf _ _ _ LV)) as W. pose proof (cx_n8 c W) as N0. cts W.
  assert (PE : params_eqb P P = true) by (apply params_eqb_refl; auto).
  assert (CE : ctx_eqb c c = true) by (apply ctx_eqb_refl).
  assert (AD : forall f g f' g', ct_add pr (mkCt P [rep c Ntt f; rep c Ntt g] i) (mkCt P [rep c Ntt f'; rep c Ntt g'] i) = Ok (mkCt P [rep c Ntt (fun j => f j + f' j); rep c Ntt (fun j => g j + g' j)] i)).
  { intros. unfold ct_add. cbn [ct_params ct_level ct_cts]. rewrite PE, Nat.eqb_refl. cbn [rassert bind]. clw W. reflexivity. }
  assert (SB : forall f g f' g', ct_sub pr (mkCt P [rep c Ntt f; rep c Ntt g] i) (mkCt P [rep c Ntt f'; rep c Ntt g'] i) = Ok (mkCt P [rep c Ntt (fun j => f j - f' j); rep c Ntt (fun j => g j - g' j)] i)).
  { intros. unfold ct_sub. cbn [ct_params ct_level ct_cts]. rewrite PE, Nat.eqb_refl. cbn [rassert bind]. clw W. reflexivity. }
  assert (MP : forall f g h, ct_mul_poly pr (mkCt P [rep c Ntt f; rep c Ntt g] i) (rep c Ntt h) = Ok (mkCt P [rep c Ntt (rmul (rq_degree c) f h); rep c Ntt (rmul (rq_degree c) g h)] i)).
  { intros u v w. unfold ct_mul_poly. cbn [ct_params ct_level ct_cts get nth_error bind]. change (p_ctx (rep c Ntt w)) with c. change (p_ctx (rep c Ntt u)) with c. rewrite CE. cbn [rassert bind]. change (repr_eqb (p_repr (rep c Ntt w)) Ntt) with true. cbn [rassert bind]. clw W. reflexivity. }
  assert (MB : forall f g h, ct_mul_big pr (mkCt P [rep c Ntt f; rep c Ntt g] i) h = Ok (mkCt P [rep c Ntt (fun j => h * f j); rep c Ntt (fun j => h * g j)] i)).
  { intros. unfold ct_mul_big. clw W. reflexivity. }
  assert (EQ : forall f g f' g', (forall j, (j < rq_degree c)%nat -> eqm (cx_Q c) (f j) (f' j)) -> (forall j, (j < rq_degree c)%nat -> eqm (cx_Q c) (g j) (g' j)) ->
    Ok (mkCt P [rep c Ntt f; rep c Ntt g] i) = Ok (mkCt P [rep c Ntt f'; rep c Ntt g'] i)).
  { intros u v u' v' H1 H2. rewrite (rep_eqm c W Ntt u u' H1), (rep_eqm c W Ntt v v' H2). reflexivity. }
  rewrite !AD, !MP, !MB. cbn [bind]. rewrite (rep_mul pr c W), (rep_add pr c W). cbn [bind]. rewrite ?AD, ?MP, ?MB, ?SB.
  repeat split; try (apply EQ; intros j Hj; match goal with |- eqm _ ?u ?v => assert (E : u = v); [|rewrite E; reflexivity] end; first [lia|rewrite ?rmul_add_l, ?rmul_add_r, ?rmul_scal_l, ?rmul_assoc by lia; reflexivity]).
  - apply EQ; intros j Hj; unfold eqm; apply Zmult_mod_idemp_l.
  - eexists. split; [reflexivity|]. eexists. eexists. split; [reflexivity|]. split; apply rep_in; auto.
Qed.

(** C90: the product of two ciphertexts of two components does not depend on their
    order: the same ciphertext, or the same failure, for every relinearisation key. *)
Lemma C90_multiply_lem :
  forall pr P i c a b rlk, built_params P -> level P i c -> small_basis (rq_moduli_64 c) -> ct_in P i c a -> ct_in P i c b ->
    multiply_with_strategy pr a b rlk = multiply_with_strategy pr b a rlk.
Proof.
  intros pr P i c a b rlk BP L SB Ha Hb. pose proof (built_params_wf P BP) as WB. destruct (level_wf P i c WB L) as [_ LV].
  pose proof (wf_ctx_loc _ (lv_wf _ _ _ LV)) as W. destruct (lv_mu _ _ _ LV) as [mu [ec [ext [Gm [Ge [_ [_ [We [_ [De [_ [Up _]]]]]]]]]]]]. specialize (Up SB pr). pose proof (wf_ctx_loc _ We) as WE. cts W.
  unfold multiply_with_strategy. cbn [ct_params ct_level ct_cts length Nat.eqb]. rewrite !Nat.eqb_refl, !params_eqb_refl. cbn [rassert bind]. destruct (rassert (params_eqb P (rlk_params rlk))) as [[]| | |]; cbn [bind]; auto.
  rewrite Gm. cbn [bind get nth_error]. rewrite !(rep_scale pr 68 (mu_up mu) c ec 1 1 W WE Up) by discriminate. cbn [bind].
  repeat (rewrite !(rep_mul pr ec WE); cbn [bind]). rewrite !(rep_add pr ec WE). cbn [bind].
  repeat match goal with |- context [scale_fun (mu_up mu) c 1 1 ?f] => let F := fresh "F" in set (F := scale_fun (mu_up mu) c 1 1 f); clearbody F end.
  match goal with |- bind (rq_scale pr (mu_down mu) (rep ec Ntt ?u)) _ = bind (rq_scale pr (mu_down mu) (rep ec Ntt ?v)) _ => rewrite (rep_ext ec WE Ntt u v) by (intros; apply rmul_comm) end.
  apply bind_ext. intros d0.
  match goal with |- bind (rq_scale pr (mu_down mu) (rep ec Ntt ?u)) _ = bind (rq_scale pr (mu_down mu) (rep ec Ntt ?v)) _ => rewrite (rep_ext ec WE Ntt u v) by (intros; apply Z.add_comm) end.
  apply bind_ext. intros d1.
  match goal with |- bind (rq_scale pr (mu_down mu) (rep ec Ntt ?u)) _ = bind (rq_scale pr (mu_down mu) (rep ec Ntt ?v)) _ => rewrite (rep_ext ec WE Ntt u v) by (intros; apply rmul_comm) end.
  reflexivity.
Qed.

Lemma laws_ctx pr : exists c p, built c /\ in_ctx c Ntt p /\ small_degree pr (rq_degree c) /\ rq_degree c = 8%nat /\ p <> poly_zero c Ntt.
Proof.
  assert (E : exists c, test_ctx pr test_ms = Ok c /\ rq_degree c = 8%nat) by (destruct pr; (destruct (test_ctx _ test_ms) as [c| | |] eqn:E; [exists c; split; [reflexivity|]|vm_compute in E; discriminate E..];
    vm_compute in E; injection E as <-; reflexivity)).
  destruct E as [c [E D]]. assert (B : built c).
  { exists pr, tenv, test_ms, 8%nat, (mkBD 4 5). split; [exact tenv_ok|]. split; [|exact E]. repeat (constructor; [lia|]). constructor. }
  pose proof (built_loc _ B) as W. exists c, (rep c Ntt (fun _ => 1)). split; [exact B|]. split; [apply rep_in; exact W|]. split; [right; rewrite D; lia|]. split; [exact D|].
  rewrite (rep_zero c W). intros C. pose proof (rep_inj pr c W Ntt _ _ ltac:(discriminate) C 0%nat ltac:(lia)) as H. unfold eqm in H. pose proof (cx_Q2 c W) as Q2.
  rewrite Z.mod_0_l, Z.mod_small in H by lia. discriminate.
Qed.
(*EXAMPLE
(** A context and a polynomial that satisfy the hypotheses. *)
Example C90_example pr : exists c p, built c /\ in_ctx c Ntt p /\ small_degree pr (rq_degree c) /\ rq_degree c = 8%nat /\ p <> poly_zero c Ntt.
Proof. exact (laws_ctx pr). Qed.
(** Exponents 3 and 11 are inverse modulo 16. *)
Example C90_substitute_example pr : exists c p sx sy, built c /\ in_ctx c Ntt p /\ subst_new pr c 3 = Ok sx /\ subst_new pr c 11 = Ok sy
  /\ (a <- poly_substitute pr p sx ;; poly_substitute pr a sy) = Ok p.
Proof.
  destruct (laws_ctx pr) as [c [p [B [I [S [D _]]]]]]. destruct (C90_substitute pr c 3 11 B S ltac:(lia) ltac:(lia) eq_refl eq_refl) as [sx [sy [sz [E1 [E2 [_ [_ H]]]]]]].
  exists c, p, sx, sy. split; auto. split; auto. split; auto. split; auto. apply (H Ntt p I). rewrite D. reflexivity.
Qed.
EXAMPLE*)
