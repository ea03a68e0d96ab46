(** Claims C36-C41: key switching, Galois keys, relinearisation, RGSW. *)
From Verif Require Import PBase NT Spec PSum MModulus MUtils MNtt MRns MRq MBfv MKsk MGalois MRgsw PModulus PUtils PNttMath PNtt PNttNew PCrt PRns PRnsScale PUtils2 SpecRq SpecBfv SpecKsk PRing PRq PRq2 PRq3 PRq4 PRq5 TestEnv QRq PBfv PBfv2 PBfv3 QBfv PKsk PGal PRingT PMul PMul2 PKsk2 MEval PAsm TestBfv.

(** C37: key_switch returns a pair whose phase is p*from plus the stated noise. *)
Lemma C37_key_switch_lem :
  forall pr P i c sk u rnd, built_params P -> level P i c -> sk_params sk = P -> sk_ok sk ->
    1 <= bp_variance P <= 16 -> rnd_ok c rnd ->
    exists k e, ksk_new pr sk (rep c Ntt u) i i rnd = Ok k
      /\ (forall l j, Z.abs (e l j) <= 2 * bp_variance P)
      /\ forall p, exists c0 c1, key_switch pr k (rep c PowerBasis p) = Ok (rep c Ntt c0, rep c Ntt c1)
           /\ forall j, (j < bp_degree P)%nat ->
                phase (bp_degree P) (sk_fun sk) [c0; c1] j mod cx_Q c = (rmul (bp_degree P) p u j + ks_noise c e p j) mod cx_Q c
                /\ Z.abs (ks_noise c e p j) <= ks_bound c (2 * bp_variance P).
Proof.
  intros pr P i c sk u rnd B L SP SO Hv HR. pose proof (built_params_wf P B) as WB. destruct (level_wf P i c WB L) as [_ LV].
  destruct (ksk_new_ok pr P i c LV sk u rnd (conj SP SO) Hv HR) as [k [e [E [HK HE]]]]. exists k, e. split; auto. split; auto.
  intros p. destruct (key_switch_ok pr P i c LV k (sk_fun sk) u e p HK) as [c0 [c1 [EK HP]]]. exists c0, c1. split; auto.
  intros j Hj. rewrite <- (lv_n _ _ _ LV) in *. split; [apply HP; auto|]. apply (ks_noise_bound P i c LV); auto. lia.
Qed.

(** The same for a key made from a plaintext: [from] is its scaled encoding. *)
Lemma C37_from_plaintext_lem :
  forall pr P i c sk pt rnd, built_params P -> level P i c -> sk_params sk = P -> sk_ok sk ->
    pt_params pt = P -> pt_level pt = i -> Forall (fun x => 0 <= x < 2 ^ 64) (pt_values pt) -> (length (pt_values pt) <= bp_degree P)%nat ->
    1 <= bp_variance P <= 16 -> rnd_ok c rnd ->
    exists k e u, ksk_new_with_pt pr sk pt i i rnd = Ok k
      /\ (forall j, (j < bp_degree P)%nat -> let x := cx_Q c * nth j (pt_values pt) 0 / bp_t P in u j = x \/ u j = x - 1)
      /\ forall p, exists c0 c1, key_switch pr k (rep c PowerBasis p) = Ok (rep c Ntt c0, rep c Ntt c1)
           /\ forall j, (j < bp_degree P)%nat ->
                phase (bp_degree P) (sk_fun sk) [c0; c1] j mod cx_Q c = (rmul (bp_degree P) p u j + ks_noise c e p j) mod cx_Q c
                /\ Z.abs (ks_noise c e p j) <= ks_bound c (2 * bp_variance P).
Proof.
  intros pr P i c sk pt rnd B L SP SO PP PL PV Pl Hv HR.
  destruct (C29_scaled_plaintext_lem pr P i c pt B L PP PL PV Pl) as [u [EU HU]].
  destruct (C37_key_switch_lem pr P i c sk u rnd B L SP SO Hv HR) as [k [e [E [_ H]]]].
  exists k, e, u. split; [unfold ksk_new_with_pt; rewrite EU; exact E|]. auto.
Qed.

(** The input of key_switch must be in the key's context and in power basis. *)
Lemma C37_guard_lem :
  forall pr k p, rq_moduli_64 (p_ctx p) <> rq_moduli_64 (k_ct_ctx k) \/ rq_degree (p_ctx p) <> rq_degree (k_ct_ctx k) \/ p_repr p <> PowerBasis ->
    key_switch pr k p = Panic.
Proof.
  intros pr k p H. unfold key_switch. destruct (ctx_eqb (p_ctx p) (k_ct_ctx k)) eqn:E; [|reflexivity]. cbn [rassert bind].
  destruct (repr_eqb (p_repr p) PowerBasis) eqn:ER; [|reflexivity]. exfalso.
  unfold ctx_eqb in E. rewrite !andb_true_iff in E. destruct E as [[[E1 E2] _] _]. apply zlist_eqb_eq in E1. apply Nat.eqb_eq in E2.
  destruct H as [H|[H|H]]; try contradiction. destruct (p_repr p); try discriminate ER. apply H. reflexivity.
Qed.

(*EXAMPLE
(** Switching p = 1 + 2X with a key for u = 3 gives a phase close to 3 + 6X; a
    polynomial in Ntt form is rejected. *)
Example C37_example :
  (P <- test_bfv Debug ;; c <- tctx P ;; sk <- sk_generate Debug P (tw 1) ;;
   fp <- poly_from_i64 Debug c [3] ;; f <- change_repr Debug fp Ntt ;;
   k <- ksk_new Debug sk f 0 0 (trnd 5) ;;
   p <- poly_from_i64 Debug c [1; 2] ;;
   '(c0, c1) <- key_switch Debug k p ;;
   s <- sk_ntt Debug c (sk_coeffs sk) ;; x <- poly_mul Debug c1 s ;; y <- poly_add Debug c0 x ;; z <- change_repr Debug y PowerBasis ;;
   v <- poly_to_big z ;;
   Ok (map (fun a => if Z.div (cx_Q c) 2 <? a then a - cx_Q c else a) v,
       match key_switch Debug k f with Panic => true | _ => false end))
  = Ok ([2; 9; 1; 0; 5; 0; -2; 5], true).
Proof. vm_compute. reflexivity. Qed.
EXAMPLE*)

(** C39: relinearisation, for a polynomial in either representation. *)
Lemma C39_relinearize_lem :
  forall pr P i c sk rnd, built_params P -> level P i c -> sk_params sk = P -> sk_ok sk ->
    1 <= bp_variance P <= 16 -> rnd_ok c rnd ->
    exists r e, rlk_new pr sk i rnd = Ok r
      /\ forall f x, x = PowerBasis \/ x = Ntt -> exists r0 r1, relinearize_poly pr r (rep c x f) = Ok (rep c Ntt r0, rep c Ntt r1)
           /\ forall j, (j < bp_degree P)%nat ->
                phase (bp_degree P) (sk_fun sk) [r0; r1] j mod cx_Q c
                = (rmul (bp_degree P) f (rmul (bp_degree P) (sk_fun sk) (sk_fun sk)) j + ks_noise c e f j) mod cx_Q c
                /\ Z.abs (ks_noise c e f j) <= ks_bound c (2 * bp_variance P).
Proof.
  intros pr P i c sk rnd B L SP SO Hv HR. pose proof (built_params_wf P B) as WB. destruct (level_wf P i c WB L) as [_ LV].
  destruct (rlk_new_ok pr P i c LV sk rnd (conj SP SO) Hv HR) as [r [e [E [RP [HK HE]]]]]. exists r, e. split; auto.
  intros f x Hx. destruct (relinearize_ok pr P i c LV r (sk_fun sk) _ e f x HK ltac:(destruct Hx; subst; discriminate)) as [r0 [r1 [ER HP]]].
  exists r0, r1. split; auto. intros j Hj. rewrite <- (lv_n _ _ _ LV) in *. split; [apply HP; auto|]. apply (ks_noise_bound P i c LV); auto. lia.
Qed.


(** Decryption of a pair whose phase is known up to bounded noise. *)
Lemma decrypt_shift pr P i c sk h0 h1 f v m E B : built_params P -> level P i c -> sk_params sk = P -> sk_ok sk ->
  small_basis (rq_moduli_64 c) -> 2 * bp_t P <= cx_q c 0 ->
  (forall j, (j < bp_degree P)%nat -> phase (bp_degree P) (sk_fun sk) [h0; h1] j mod cx_Q c = (f j + v j) mod cx_Q c) ->
  carries (bp_degree P) (cx_Q c) (bp_t P) f m E ->
  (forall j, (j < bp_degree P)%nat -> Z.abs (E j) + bp_t P * Z.abs (v j) <= B) -> 2 ^ 54 * (2 * B) <= (2 ^ 54 - 1) * cx_Q c ->
  decrypt pr sk (ct_of P i c [h0; h1]) = Ok (mkPt P i EncNone (map (fun j => m j mod bp_t P) (seq 0 (bp_degree P)))).
Proof.
  intros BP L SP SO SB Hq HP HC HB HQ. pose proof (built_params_wf P BP) as WB. destruct (level_wf P i c WB L) as [_ LV].
  pose proof (cx_Q1 c (wf_ctx_loc _ (lv_wf _ _ _ LV))) as Q1. pose proof (wf_t17 P WB) as T1.
  apply (decrypt_ok pr P i c WB LV sk _ m (fun j => E j + bp_t P * v j)); auto.
  - split; auto. - discriminate.
  - apply (carries_shift _ _ _ f); auto; try lia.
  - intros j Hj. apply (noise_ok_abs _ _ B); auto. specialize (HB j Hj).
    pose proof (Z.abs_triangle (E j) (bp_t P * v j)) as T. rewrite Z.abs_mul, (Z.abs_eq (bp_t P)) in T by lia. lia.
Qed.

Lemma galois_from :
  forall pr P i c sk rnd x g, built_params P -> level P i c -> sk_params sk = P -> sk_ok sk ->
    1 <= bp_variance P <= 16 -> rnd_ok c rnd -> 0 <= x -> x mod 2 = 1 -> length (bp_moduli P) <> 1%nat -> subst_new pr c x = Ok g ->
    exists gk e, galois_new pr sk g i rnd = Ok gk
      /\ forall f0 f1, exists h0 h1, galois_relinearize pr gk (ct_of P i c [f0; f1]) = Ok (ct_of P i c [h0; h1])
           /\ let w := ks_noise c e (rsubst (bp_degree P) (Z.to_nat x) f1) in
              forall j, (j < bp_degree P)%nat ->
                phase (bp_degree P) (sk_fun sk) [h0; h1] j mod cx_Q c
                = (rsubst (bp_degree P) (Z.to_nat x) (phase (bp_degree P) (sk_fun sk) [f0; f1]) j + w j) mod cx_Q c
                /\ Z.abs (w j) <= ks_bound c (2 * bp_variance P).
Proof.
  intros pr P i c sk rnd x g B L SP SO Hv HR Hx Ho HL Eg. pose proof (built_params_wf P B) as WB. destruct (level_wf P i c WB L) as [_ LV].
  pose proof (wf_ctx_loc _ (lv_wf _ _ _ LV)) as W. pose proof (cx_n8 c W) as Hn.
  destruct (galois_new_ok pr P i c LV sk rnd x g (conj SP SO) Hv HR Hx Eg HL) as [gk [e [E [GS [GL [HK HE]]]]]].
  exists gk, e. split; auto. intros f0 f1.
  destruct (galois_relin_ok pr P i c LV gk g x (sk_fun sk) e f0 f1 Hx Eg Ho GS GL HK) as [h0 [h1 [ER HP]]].
  exists h0, h1. split; auto. cbv zeta. rewrite <- (lv_n _ _ _ LV) in *.
  assert (EX : forall f k, rsubst (rq_degree c) (gexp c x) f k = rsubst (rq_degree c) (Z.to_nat x) f k).
  { intros f k. apply rsubst_mod; [lia|]. unfold gexp.
    rewrite <- (Nat2Z.id (Z.to_nat (x mod (2 * Z.of_nat (rq_degree c))) mod (2 * rq_degree c))).
    rewrite <- (Nat2Z.id (Z.to_nat x mod (2 * rq_degree c))). f_equal. rewrite !Nat2Z.inj_mod.
    pose proof (Z.mod_pos_bound x (2 * Z.of_nat (rq_degree c)) ltac:(lia)). rewrite !Z2Nat.id by lia.
    rewrite Nat2Z.inj_mul. change (Z.of_nat 2) with 2. apply Z.mod_mod. lia. }
  intros j Hj. split; [|apply (ks_noise_bound P i c LV); auto; lia].
  rewrite (HP j Hj), EX. f_equal. f_equal. apply sumn_ext. intros l Hl. apply rmul_ext; auto. intros k Hk. rewrite EX. reflexivity.
Qed.

(** C38: the Galois key switch applies X -> X^x to the phase. *)
Lemma C38_galois_lem :
  forall pr P i c sk rnd x, built_params P -> level P i c -> sk_params sk = P -> sk_ok sk ->
    1 <= bp_variance P <= 16 -> rnd_ok c rnd -> 0 <= x -> x mod 2 = 1 -> length (bp_moduli P) <> 1%nat -> small_degree pr (bp_degree P) ->
    exists g gk e, subst_new pr c x = Ok g /\ galois_new pr sk g i rnd = Ok gk
      /\ forall f0 f1, exists h0 h1, galois_relinearize pr gk (ct_of P i c [f0; f1]) = Ok (ct_of P i c [h0; h1])
           /\ let w := ks_noise c e (rsubst (bp_degree P) (Z.to_nat x) f1) in
              forall j, (j < bp_degree P)%nat ->
                phase (bp_degree P) (sk_fun sk) [h0; h1] j mod cx_Q c
                = (rsubst (bp_degree P) (Z.to_nat x) (phase (bp_degree P) (sk_fun sk) [f0; f1]) j + w j) mod cx_Q c
                /\ Z.abs (w j) <= ks_bound c (2 * bp_variance P).
Proof.
  intros pr P i c sk rnd x B L SP SO Hv HR Hx Ho HL SD. pose proof (built_params_wf P B) as WB. destruct (level_wf P i c WB L) as [_ LV].
  pose proof (wf_ctx_loc _ (lv_wf _ _ _ LV)) as W. rewrite <- (lv_n _ _ _ LV) in SD.
  pose proof (subst_new_ok pr c W x Hx Ho (small_fits pr c W x SD)) as Eg. set (g := mkSubst _ _) in Eg. clearbody g.
  destruct (galois_from pr P i c sk rnd x g B L SP SO Hv HR Hx Ho HL Eg) as [gk [e H]]. exists g, gk, e. split; auto.
Qed.

(** C38: within the noise budget the result decrypts to m(X^x). *)
Lemma C38_decrypt_lem :
  forall pr P i c sk rnd x f0 f1 m E B, built_params P -> level P i c -> sk_params sk = P -> sk_ok sk ->
    1 <= bp_variance P <= 16 -> rnd_ok c rnd -> 0 <= x -> x mod 2 = 1 -> length (bp_moduli P) <> 1%nat -> small_degree pr (bp_degree P) ->
    small_basis (rq_moduli_64 c) -> 2 * bp_t P <= cx_q c 0 ->
    carries (bp_degree P) (cx_Q c) (bp_t P) (phase (bp_degree P) (sk_fun sk) [f0; f1]) m E ->
    (forall j, (j < bp_degree P)%nat -> Z.abs (E j) <= B) ->
    2 ^ 54 * (2 * (B + bp_t P * ks_bound c (2 * bp_variance P))) <= (2 ^ 54 - 1) * cx_Q c ->
    (g <- subst_new pr c x ;; gk <- galois_new pr sk g i rnd ;; ct <- galois_relinearize pr gk (ct_of P i c [f0; f1]) ;; decrypt pr sk ct)
    = Ok (mkPt P i EncNone (map (fun j => rsubst (bp_degree P) (Z.to_nat x) m j mod bp_t P) (seq 0 (bp_degree P)))).
Proof.
  intros pr P i c sk rnd x f0 f1 m E B BP L SP SO Hv HR Hx Ho HL SD SB Hq HC HB HQ.
  destruct (C38_galois_lem pr P i c sk rnd x BP L SP SO Hv HR Hx Ho HL SD) as [g [gk [e [E1 [E2 H]]]]].
  destruct (H f0 f1) as [h0 [h1 [E3 HP]]]. cbv zeta in HP. rewrite E1. cbn [bind]. rewrite E2. cbn [bind]. rewrite E3. cbn [bind].
  pose proof (built_params_wf P BP) as WB. destruct (level_wf P i c WB L) as [_ LV]. pose proof (wf_t17 P WB) as T1.
  pose proof (cx_n8 c (wf_ctx_loc _ (lv_wf _ _ _ LV))) as Hn. rewrite (lv_n _ _ _ LV) in Hn.
  eapply decrypt_shift; eauto; [intros j Hj; apply (HP j Hj)|apply carries_rsubst; exact HC|].
  intros j Hj. cbv beta. destruct (HP j Hj) as [_ HW]. 
  assert (OX : Nat.odd (Z.to_nat x) = true).
  { rewrite <- Nat.negb_even. apply negb_true_iff. destruct (Nat.even (Z.to_nat x)) eqn:EE; auto. apply Nat.even_spec in EE. destruct EE as [z Hz].
    exfalso. assert (X : x = Z.of_nat z * 2) by lia. rewrite X, Z.mod_mul in Ho; lia. }
  assert (RBB : Z.abs (rsubst (bp_degree P) (Z.to_nat x) E j) <= B).
  { pose proof (wl_n _ (wf_ctx_loc _ (lv_wf _ _ _ LV))) as EN. rewrite (lv_n _ _ _ LV) in EN. rewrite EN in *.
    apply rsubst_bound; auto. specialize (HB j Hj). lia. }
  apply Z.add_le_mono; auto. apply Z.mul_le_mono_nonneg_l; lia.
Qed.

(*EXAMPLE
(** X -> X^3 on the message 2 + 3X + 5X^6. *)
Example C38_example :
  (P <- test_bfv Debug ;; c <- tctx P ;; let sk := mkSk P [1; -1; 0; 1; 1; 0; 2; -1] in
   pa <- pt_new Debug P [2; 3; 0; 0; 0; 0; 5] 0 EncPoly ;;
   a <- encrypt Debug sk pa (trows bms 4) (tw 5) ;;
   g <- subst_new Debug c 3 ;; gk <- galois_new Debug sk g 0 (trnd 3) ;;
   b <- galois_relinearize Debug gk a ;; d <- decrypt Debug sk b ;; Ok (pt_values d)) = Ok [2; 0; 5; 3; 0; 0; 0; 0].
Proof. vm_compute. reflexivity. Qed.
EXAMPLE*)

(** One ciphertext modulus is not enough: the generation of Galois keys panics. *)
Lemma C38_one_modulus_lem :
  forall pr sk g i rnd, length (bp_moduli (sk_params sk)) = 1%nat -> galois_new pr sk g i rnd = Panic.
Proof. intros pr sk g i rnd H. unfold galois_new. rewrite H. reflexivity. Qed.

(** C36: the product of two ciphertexts with a key made by [RelinearizationKey::new]. *)
Lemma C36_multiply_lem :
  forall pr P i c ec sk rnd, built_params P -> level P i c -> get (bp_e_ctxs P) i = Ok ec -> sk_params sk = P -> sk_ok sk ->
    1 <= bp_variance P <= 16 -> rnd_ok c rnd -> small_basis (rq_moduli_64 c) -> small_basis (rq_moduli_64 ec) ->
    let n := bp_degree P in let Q := cx_Q c in let t := bp_t P in
    2 * Z.of_nat n * (Q * Q) <= cx_Q ec ->
    exists r, rlk_new pr sk i rnd = Ok r /\
    forall f0 f1 g0 g1 m m' E E' B S,
      l1norm n (sk_fun sk) <= S -> S < 2 ^ 54 -> 0 <= B <= Q ->
      carries n Q t (phase n (sk_fun sk) [f0; f1]) m E -> carries n Q t (phase n (sk_fun sk) [g0; g1]) m' E' ->
      (forall j, (j < n)%nat -> 0 <= m j < t) -> (forall j, (j < n)%nat -> 0 <= m' j < t) ->
      (forall j, (j < n)%nat -> Z.abs (E j) <= B) -> (forall j, (j < n)%nat -> Z.abs (E' j) <= B) ->
      exists h0 h1 E'', multiply_with_strategy pr (ct_of P i c [f0; f1]) (ct_of P i c [g0; g1]) r = Ok (ct_of P i c [h0; h1])
        /\ carries n Q t (phase n (sk_fun sk) [h0; h1]) (rmul n m m') E''
        /\ forall j, (j < n)%nat -> Z.abs (E'' j) <= mul_noise n t B S + t * ks_bound c (2 * bp_variance P).
Proof.
  intros pr P i c ec sk rnd B L GE SP SO Hv HR SB SBe n Q t HQE. pose proof (built_params_wf P B) as WB. destruct (level_wf P i c WB L) as [_ LV].
  destruct (rlk_new_ok pr P i c LV sk rnd (conj SP SO) Hv HR) as [r [e [E [RP [HK HE]]]]]. exists r. split; auto.
  intros f0 f1 g0 g1 m m' E0 E1 Bd S HS S60 HB C0 C1 M0 M1 N0 N1. subst n Q t. rewrite <- (lv_n _ _ _ LV) in *.
  eapply (multiply_ok pr P i c WB LV ec r (sk_fun sk) e); eauto.
Qed.

(** C36: and it decrypts to the product of the messages while within budget. *)
Lemma C36_decrypt_lem :
  forall pr P i c ec sk rnd f0 f1 g0 g1 m m' E E' B S,
    built_params P -> level P i c -> get (bp_e_ctxs P) i = Ok ec -> sk_params sk = P -> sk_ok sk ->
    1 <= bp_variance P <= 16 -> rnd_ok c rnd -> small_basis (rq_moduli_64 c) -> small_basis (rq_moduli_64 ec) -> 2 * bp_t P <= cx_q c 0 ->
    let n := bp_degree P in let Q := cx_Q c in let t := bp_t P in
    2 * Z.of_nat n * (Q * Q) <= cx_Q ec ->
    l1norm n (sk_fun sk) <= S -> S < 2 ^ 54 -> 0 <= B <= Q ->
    carries n Q t (phase n (sk_fun sk) [f0; f1]) m E -> carries n Q t (phase n (sk_fun sk) [g0; g1]) m' E' ->
    (forall j, (j < n)%nat -> 0 <= m j < t) -> (forall j, (j < n)%nat -> 0 <= m' j < t) ->
    (forall j, (j < n)%nat -> Z.abs (E j) <= B) -> (forall j, (j < n)%nat -> Z.abs (E' j) <= B) ->
    2 ^ 54 * (2 * (mul_noise n t B S + t * ks_bound c (2 * bp_variance P))) <= (2 ^ 54 - 1) * Q ->
    (r <- rlk_new pr sk i rnd ;; x <- multiply_with_strategy pr (ct_of P i c [f0; f1]) (ct_of P i c [g0; g1]) r ;; decrypt pr sk x)
    = Ok (mkPt P i EncNone (map (fun j => rmul n m m' j mod t) (seq 0 n))).
Proof.
  intros pr P i c ec sk rnd f0 f1 g0 g1 m m' E E' B S BP L GE SP SO Hv HR SB SBe Hq n Q t HQE HS S60 HB C0 C1 M0 M1 N0 N1 HBud.
  destruct (C36_multiply_lem pr P i c ec sk rnd BP L GE SP SO Hv HR SB SBe HQE) as [r [ER H]]. rewrite ER. cbn [bind].
  destruct (H f0 f1 g0 g1 m m' E E' B S HS S60 HB C0 C1 M0 M1 N0 N1) as [h0 [h1 [E2 [EM [HC HN]]]]]. rewrite EM. cbn [bind].
  pose proof (built_params_wf P BP) as WB. destruct (level_wf P i c WB L) as [_ LV]. pose proof (cx_Q1 c (wf_ctx_loc _ (lv_wf _ _ _ LV))) as Q1.
  apply (decrypt_ok pr P i c WB LV sk _ (rmul n m m') E2); auto.
  - split; auto. - discriminate.
  - intros j Hj. eapply noise_ok_abs; [exact Q1|apply HN; exact Hj|exact HBud].
Qed.

(*EXAMPLE
(** (2 + 3X) * (1 + X^7) and its square, with the bounds of the theorem. *)
Example C36_example :
  (P <- test_bfv Debug ;; c <- tctx P ;; ec <- get (bp_e_ctxs P) 0 ;; let sk := mkSk P [1; -1; 0; 1; 1; 0; 2; -1] in
   pa <- pt_new Debug P [2; 3] 0 EncPoly ;; pb <- pt_new Debug P [1; 0; 0; 0; 0; 0; 0; 1] 0 EncPoly ;;
   a <- encrypt Debug sk pa (trows bms 4) (tw 5) ;; b <- encrypt Debug sk pb (trows bms 6) (tw 7) ;;
   r <- rlk_new Debug sk 0 (trnd 3) ;;
   x <- multiply_with_strategy Debug a b r ;; d <- decrypt Debug sk x ;;
   Ok (pt_values d, (2 * 8 * (cx_Q c * cx_Q c) <=? cx_Q ec)
       && (2 ^ 54 * (2 * (mul_noise 8 17 (17 * 4) 7 + 17 * ks_bound c 2)) <=? (2 ^ 54 - 1) * cx_Q c)))
  = Ok ([16; 3; 0; 0; 0; 0; 0; 2], true).
Proof. vm_compute. reflexivity. Qed.
EXAMPLE*)

(** C36: the extended basis made by [BfvParameters::new] (see C52) is large enough. *)
Lemma C36_basis_lem :
  forall c e n l cnt, rq_moduli_64 e = rq_moduli_64 c ++ firstn cnt l -> 0 <= cx_Q c ->
    cx_Q c * 2 ^ 60 <= zprod (firstn cnt l) * 2 ^ Z.of_nat cnt -> 2 * Z.of_nat n * 2 ^ Z.of_nat cnt <= 2 ^ 60 ->
    2 * Z.of_nat n * (cx_Q c * cx_Q c) <= cx_Q e.
Proof.
  intros c e n l cnt He HQ H1 H2. unfold cx_Q at 3. rewrite He, zprod_app. fold (cx_Q c).
  set (Q := cx_Q c) in *. set (R := zprod (firstn cnt l)) in *. set (p := 2 ^ Z.of_nat cnt) in *.
  assert (Hp : 0 < p) by (apply Z.pow_pos_nonneg; lia). set (h := 2 ^ 60) in *. set (k := 2 * Z.of_nat n) in *. clearbody Q R p h k. clear - HQ H1 H2 Hp.
  rewrite (Z.mul_assoc k), (Z.mul_comm k Q), <- Z.mul_assoc. apply Z.mul_le_mono_nonneg_l; auto.
  apply (Z.mul_le_mono_pos_r _ _ p Hp). replace (k * Q * p) with (Q * (k * p)) by ring.
  apply Z.le_trans with (Q * h); [apply Z.mul_le_mono_nonneg_l; auto|auto].
Qed.

(** C40: the external product multiplies the phase by the encrypted polynomial. *)
Lemma C40_external_lem :
  forall pr P i c sk pt rnd0 rnd1, built_params P -> level P i c -> sk_params sk = P -> sk_ok sk ->
    1 <= bp_variance P <= 16 -> rnd_ok c rnd0 -> rnd_ok c rnd1 ->
    pt_params pt = P -> pt_level pt = i -> Forall (fun x => 0 <= x < 2 ^ 64) (pt_values pt) -> (length (pt_values pt) <= bp_degree P)%nat ->
    exists r, rgsw_encrypt pr sk pt rnd0 rnd1 = Ok r /\
      forall f0 f1, exists h0 h1 w, external_product pr r (ct_of P i c [f0; f1]) = Ok (rep c Ntt h0, rep c Ntt h1)
        /\ forall j, (j < bp_degree P)%nat ->
             phase (bp_degree P) (sk_fun sk) [h0; h1] j mod cx_Q c
             = (rmul (bp_degree P) (fun l => nth l (pt_values pt) 0) (phase (bp_degree P) (sk_fun sk) [f0; f1]) j + w j) mod cx_Q c
             /\ Z.abs (w j) <= 2 * ks_bound c (2 * bp_variance P).
Proof.
  intros pr P i c sk pt rnd0 rnd1 B L SP SO Hv R0 R1 PP PL PV Pl. pose proof (built_params_wf P B) as WB. destruct (level_wf P i c WB L) as [_ LV].
  destruct (rgsw_ok pr P i c LV sk pt rnd0 rnd1 (conj SP SO) Hv R0 R1 PP PL PV Pl) as [r [e0 [e1 [E [H0 [H1 [N0 N1]]]]]]].
  exists r. split; auto. intros f0 f1. destruct (external_ok pr P i c LV r (sk_fun sk) _ e0 e1 f0 f1 H0 H1) as [h0 [h1 [EE HP]]].
  exists h0, h1, (fun j => ks_noise c e0 f1 j + ks_noise c e1 f0 j). split; auto. intros j Hj. rewrite <- (lv_n _ _ _ LV) in *.
  split; [apply (HP j Hj)|].
  pose proof (ks_noise_bound P i c LV e0 (2 * bp_variance P) f1 j Hj ltac:(lia) ltac:(auto)).
  pose proof (ks_noise_bound P i c LV e1 (2 * bp_variance P) f0 j Hj ltac:(lia) ltac:(auto)). lia.
Qed.

(** The same for [encrypt_poly]. *)
Lemma C40_external_poly_lem :
  forall pr P i c sk m rnd0 rnd1, built_params P -> level P i c -> sk_params sk = P -> sk_ok sk ->
    1 <= bp_variance P <= 16 -> rnd_ok c rnd0 -> rnd_ok c rnd1 ->
    exists r, rgsw_encrypt_poly pr sk (rep c Ntt m) rnd0 rnd1 = Ok r /\
      forall f0 f1, exists h0 h1 w, external_product pr r (ct_of P i c [f0; f1]) = Ok (rep c Ntt h0, rep c Ntt h1)
        /\ forall j, (j < bp_degree P)%nat ->
             phase (bp_degree P) (sk_fun sk) [h0; h1] j mod cx_Q c
             = (rmul (bp_degree P) m (phase (bp_degree P) (sk_fun sk) [f0; f1]) j + w j) mod cx_Q c
             /\ Z.abs (w j) <= 2 * ks_bound c (2 * bp_variance P).
Proof.
  intros pr P i c sk m rnd0 rnd1 B L SP SO Hv R0 R1. pose proof (built_params_wf P B) as WB. destruct (level_wf P i c WB L) as [_ LV].
  destruct (rgsw_poly_ok pr P i c WB LV sk m rnd0 rnd1 (conj SP SO) Hv R0 R1) as [r [e0 [e1 [E [H0 [H1 [N0 N1]]]]]]].
  exists r. split; auto. intros f0 f1. destruct (external_ok pr P i c LV r (sk_fun sk) _ e0 e1 f0 f1 H0 H1) as [h0 [h1 [EE HP]]].
  exists h0, h1, (fun j => ks_noise c e0 f1 j + ks_noise c e1 f0 j). split; auto. intros j Hj. rewrite <- (lv_n _ _ _ LV) in *.
  split; [apply (HP j Hj)|].
  pose proof (ks_noise_bound P i c LV e0 (2 * bp_variance P) f1 j Hj ltac:(lia) ltac:(auto)).
  pose proof (ks_noise_bound P i c LV e1 (2 * bp_variance P) f0 j Hj ltac:(lia) ltac:(auto)). lia.
Qed.

(** C40: within budget the product decrypts to the product of the messages. *)
Lemma C40_decrypt_lem :
  forall pr P i c sk pt rnd0 rnd1 f0 f1 m E B, built_params P -> level P i c -> sk_params sk = P -> sk_ok sk ->
    1 <= bp_variance P <= 16 -> rnd_ok c rnd0 -> rnd_ok c rnd1 ->
    pt_params pt = P -> pt_level pt = i -> Forall (fun x => 0 <= x < 2 ^ 64) (pt_values pt) -> (length (pt_values pt) <= bp_degree P)%nat ->
    small_basis (rq_moduli_64 c) -> 2 * bp_t P <= cx_q c 0 ->
    carries (bp_degree P) (cx_Q c) (bp_t P) (phase (bp_degree P) (sk_fun sk) [f0; f1]) m E ->
    let a l := nth l (pt_values pt) 0 in
    (forall j, (j < bp_degree P)%nat -> Z.abs (rmul (bp_degree P) E a j) <= B) ->
    2 ^ 54 * (2 * (B + bp_t P * (2 * ks_bound c (2 * bp_variance P)))) <= (2 ^ 54 - 1) * cx_Q c ->
    (r <- rgsw_encrypt pr sk pt rnd0 rnd1 ;; '(c0, c1) <- external_product pr r (ct_of P i c [f0; f1]) ;; decrypt pr sk (mkCt P [c0; c1] i))
    = Ok (mkPt P i EncNone (map (fun j => rmul (bp_degree P) m a j mod bp_t P) (seq 0 (bp_degree P)))).
Proof.
  intros pr P i c sk pt rnd0 rnd1 f0 f1 m E B BP L SP SO Hv R0 R1 PP PL PV Pl SB Hq HC a HB HQ.
  destruct (C40_external_lem pr P i c sk pt rnd0 rnd1 BP L SP SO Hv R0 R1 PP PL PV Pl) as [r [ER H]]. rewrite ER. cbn [bind].
  destruct (H f0 f1) as [h0 [h1 [w [EE HP]]]]. rewrite EE. cbn [bind]. change (mkCt P [rep c Ntt h0; rep c Ntt h1] i) with (ct_of P i c [h0; h1]).
  pose proof (built_params_wf P BP) as WB. destruct (level_wf P i c WB L) as [_ LV]. pose proof (wf_t17 P WB) as T1.
  eapply decrypt_shift with (m := rmul (bp_degree P) m a); [eauto..| | |exact HQ].
  - intros j Hj. destruct (HP j Hj) as [H1 _]. rewrite rmul_comm in H1. exact H1.
  - apply (carries_rmul P c). exact HC.
  - intros j Hj. destruct (HP j Hj) as [_ H2]. apply Z.add_le_mono; [apply HB; auto|]. apply Z.mul_le_mono_nonneg_l; lia.
Qed.

(*EXAMPLE
(** RGSW(1 + X) times an encryption of 2 + 3X^7. *)
Example C40_example :
  (P <- test_bfv Release ;; let sk := mkSk P [1; -1; 0; 1; 1; 0; 2; -1] in
   pa <- pt_new Release P [2; 0; 0; 0; 0; 0; 0; 3] 0 EncPoly ;; pm <- pt_new Release P [1; 1] 0 EncPoly ;;
   a <- encrypt Release sk pa (trows bms 4) (tw 5) ;;
   r <- rgsw_encrypt Release sk pm (trnd 3) (trnd 4) ;;
   '(c0, c1) <- external_product Release r a ;; d <- decrypt Release sk (mkCt P [c0; c1] 0) ;; Ok (pt_values d))
  = Ok ([16; 2; 0; 0; 0; 0; 0; 3]).
Proof. vm_compute. reflexivity. Qed.
EXAMPLE*)


(** C41: the RGSW ciphertext assembled by the server from encryptions of the
    gadget digits of u and from RGSW(s) acts as an RGSW encryption of u. *)
Lemma C41_assembled_lem :
  forall pr P c sk rnd0 rnd1 b a G u e Be Bs S vals i,
    built_params P -> level P 0 c -> sk_params sk = P -> sk_ok sk ->
    1 <= bp_variance P <= 16 -> rnd_ok c rnd0 -> rnd_ok c rnd1 -> gadget c G ->
    let n := bp_degree P in
    (forall k j, (k < cx_k c)%nat -> (j < n)%nat -> phase n (sk_fun sk) [b k; a k] j mod cx_Q c = (G k * u j + e k j) mod cx_Q c) ->
    (forall k j, Z.abs (e k j) <= Be) -> l1norm n (sk_fun sk) <= S ->
    Bs = S * Be + 2 * ks_bound c (2 * bp_variance P) ->
    mapM (fun v => get v i) vals = Ok (map (fun k => ct_of P 0 c [b k; a k]) (seq 0 (cx_k c))) ->
    exists rs r, (s <- sk_ntt pr c (sk_coeffs sk) ;; rgsw_encrypt_poly pr sk s rnd0 rnd1) = Ok rs
      /\ build_rgsw pr P rs vals i = Ok r
      /\ forall f0 f1, exists h0 h1 w, external_product pr r (ct_of P 0 c [f0; f1]) = Ok (rep c Ntt h0, rep c Ntt h1)
           /\ forall j, (j < n)%nat ->
                phase n (sk_fun sk) [h0; h1] j mod cx_Q c = (rmul n u (phase n (sk_fun sk) [f0; f1]) j + w j) mod cx_Q c
                /\ Z.abs (w j) <= ks_bound c Be + ks_bound c Bs.
Proof.
  intros pr P c sk rnd0 rnd1 b a G u e Be Bs S vals i B L SP SO Hv R0 R1 HG n HP HE HS HBs HV.
  pose proof (built_params_wf P B) as WB. destruct (level_wf P 0 c WB L) as [_ LV]. pose proof SO as [S1 S2]. rewrite SP in S2.
  destruct (rgsw_poly_ok pr P 0 c WB LV sk (sk_fun sk) rnd0 rnd1 (conj SP SO) Hv R0 R1) as [rs [e0 [e1 [E [H0 [H1 [N0 N1]]]]]]].
  exists rs. subst n. rewrite <- (lv_n _ _ _ LV) in *.
  destruct (build_rgsw_ok pr P c LV rs (sk_fun sk) e0 e1 b a G u e Be Bs S (2 * bp_variance P) vals i) as [r [EB H]]; auto; [lia|].
  exists r. split; [|split; auto].
  rewrite (sk_ntt_ok pr P 0 c LV) by (auto; rewrite <- (lv_n _ _ _ LV); auto). cbn [bind]. exact E.
Qed.

(*EXAMPLE
(** The digits of u = 1 + X, assembled and applied to an encryption of 2 + 3X^7. *)
Example C41_example :
  (P <- test_bfv3 Release ;; c <- tctx P ;; let sk := mkSk P [1; -1; 0; 1; 1; 0; 2; -1] in
   pa <- pt_new Release P [2; 0; 0; 0; 0; 0; 0; 3] 0 EncPoly ;;
   a <- encrypt Release sk pa (trows bms3 4) (tw 5) ;;
   fp <- poly_from_i64 Release c [1; 1] ;; f <- change_repr Release fp Ntt ;;
   k <- ksk_new Release sk f 0 0 (trnd3 5) ;;
   let vals := map (fun x : Poly * Poly => [mkCt P [fst x; snd x] 0]) (combine (k_c0 k) (k_c1 k)) in
   s <- sk_ntt Release c (sk_coeffs sk) ;; rs <- rgsw_encrypt_poly Release sk s (trnd3 3) (trnd3 4) ;;
   r <- build_rgsw Release P rs vals 0 ;;
   '(c0, c1) <- external_product Release r a ;; d <- decrypt Release sk (mkCt P [c0; c1] 0) ;; Ok (pt_values d))
  = Ok ([16; 2; 0; 0; 0; 0; 0; 3]).
Proof. vm_compute. reflexivity. Qed.
EXAMPLE*)
