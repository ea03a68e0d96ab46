(** Property theorems; the proofs are in QGuard.v. *)
From Verif Require Import PBase MModulus MUtils MNtt MRns MRq MBfv MKsk MGalois MRgsw MOmr SpecGuard TestEnv TestBfv QGuard.

(** An operation that returns was given operands that belong together.
    Addition and subtraction: parameters and levels agree, two components
    each, in NTT form.  Products with a ciphertext, a plaintext, a polynomial,
    a relinearisation key; rotations; external products; key switching; RGSW
    encryption: as listed.  Results carry the labels of the first operand. *)
Theorem C94_accepted : forall pr (a b r : Ct) (p : Poly) (m : Plaintext) (k : RelinKey) (g : GaliosKey) (h : RgswCt) (s : Ksk) (x : Poly * Poly),
  (ct_add pr a b = Ok r \/ ct_sub pr a b = Ok r ->
     same_params (ct_params a) (ct_params b) /\ ct_level a = ct_level b /\
     part a 0 in_ntt /\ part a 1 in_ntt /\ part b 0 in_ntt /\ part b 1 in_ntt /\ labelled_as a r) /\
  (ct_mul pr a b = Ok r ->
     ct_level b = ct_level a /\
     exists mu, nth_error (bp_mul_params (ct_params a)) (ct_level a) = Some mu /\
       Forall (fun q => same_ctx (p_ctx q) (sc_from (mu_up mu))) (ct_cts a ++ ct_cts b)) /\
  (multiply_with_strategy pr a b k = Ok r ->
     ct_level a = ct_level b /\ same_params (ct_params a) (ct_params b) /\ same_params (ct_params a) (rlk_params k) /\
     length (ct_cts a) = 2%nat /\ length (ct_cts b) = 2%nat /\ labelled_as a r) /\
  (ct_mul_pt pr a m = Ok r -> ct_level a = pt_level m /\ part a 0 in_ntt /\ part a 1 in_ntt /\ labelled_as a r) /\
  (ct_add_poly pr a p = Ok r ->
     in_ntt p /\ part a 0 (fun c => in_ntt c /\ same_ctx (p_ctx c) (p_ctx p)) /\ part a 1 in_ntt /\ labelled_as a r) /\
  (ct_mul_poly pr a p = Ok r ->
     in_ntt p /\ part a 0 (fun c => in_ntt c /\ same_ctx (p_ctx p) (p_ctx c)) /\ part a 1 in_ntt /\ labelled_as a r) /\
  (galois_relinearize pr g a = Ok r ->
     ct_level a = gk_level g /\ part a 0 in_ntt /\ part a 1 (fun c => same_ctx (p_ctx c) (k_ct_ctx (gk_ksk g))) /\ labelled_as a r) /\
  (external_product pr h a = Ok x ->
     part a 0 (fun c => same_ctx (p_ctx c) (k_ct_ctx (rg_ksk1 h))) /\
     part a 1 (fun c => same_ctx (p_ctx c) (k_ct_ctx (rg_ksk0 h)))) /\
  (key_switch pr s p = Ok x -> same_ctx (p_ctx p) (k_ct_ctx s) /\ p_repr p = PowerBasis).
Proof. exact C94_accepted_lem. Qed.
Print Assumptions C94_accepted.

(** Operands that visibly do not belong together make the operation panic at
    once, whatever else they contain. *)
Theorem C94_rejected : forall pr (a b : Ct) (m : Plaintext) (p : Poly) (k : RelinKey) (g : GaliosKey) (s : Ksk) (sk : SecretKey) (r0 r1 : RndKsk),
  (~ same_params (ct_params a) (ct_params b) \/ ct_level a <> ct_level b -> ct_add pr a b = Panic /\ ct_sub pr a b = Panic) /\
  (ct_level a <> ct_level b -> ct_mul pr a b = Panic) /\
  (ct_level a <> ct_level b \/ ~ same_params (ct_params a) (ct_params b) \/ ~ same_params (ct_params a) (rlk_params k) \/
   length (ct_cts a) <> 2%nat \/ length (ct_cts b) <> 2%nat -> multiply_with_strategy pr a b k = Panic) /\
  (ct_level a <> pt_level m -> ct_mul_pt pr a m = Panic) /\
  (~ part a 0 (fun c => same_ctx (p_ctx c) (p_ctx p)) -> ct_add_poly pr a p = Panic) /\
  (~ part a 0 (fun c => same_ctx (p_ctx p) (p_ctx c)) \/ p_repr p <> Ntt -> ct_mul_poly pr a p = Panic) /\
  (ct_level a <> gk_level g -> galois_relinearize pr g a = Panic) /\
  (~ same_ctx (p_ctx p) (k_ct_ctx s) \/ p_repr p <> PowerBasis -> key_switch pr s p = Panic) /\
  (~ same_params (sk_params sk) (pt_params m) -> rgsw_encrypt pr sk m r0 r1 = Panic) /\
  (p_repr p <> Ntt \/ ctx_level (sk_params sk) (p_ctx p) = None -> rgsw_encrypt_poly pr sk p r0 r1 = Panic).
Proof. exact C94_rejected_lem. Qed.
Print Assumptions C94_rejected.

(** What is not looked at.  Every operation except the two multiplications
    ignores components beyond the second: a three-component product, added to
    another one, loses its third component without notice.  And encryption
    labels its result with the parameters of the key and level 0, whatever
    parameters and level the plaintext has. *)
Theorem C94_ignored : forall pr (a b : Ct) (m : Plaintext) (p : Poly) (z : Z) (g : GaliosKey) (h : RgswCt) (sk : SecretKey) rows w ct,
  ct_add pr a b = ct_add pr (first_two a) (first_two b) /\
  ct_sub pr a b = ct_sub pr (first_two a) (first_two b) /\
  ct_mul_pt pr a m = ct_mul_pt pr (first_two a) m /\
  ct_add_poly pr a p = ct_add_poly pr (first_two a) p /\
  ct_mul_poly pr a p = ct_mul_poly pr (first_two a) p /\
  ct_mul_big pr a z = ct_mul_big pr (first_two a) z /\
  galois_relinearize pr g a = galois_relinearize pr g (first_two a) /\
  external_product pr h a = external_product pr h (first_two a) /\
  (encrypt pr sk m rows w = Ok ct -> ct_params ct = sk_params sk /\ ct_level ct = 0%nat /\ length (ct_cts ct) = 2%nat).
Proof. exact C94_ignored_lem. Qed.
Print Assumptions C94_ignored.

(** Two ciphertexts that belong together are added and multiplied; with
    another level on the second one every operation panics; the sum of two
    three-component products has two components only. *)
Example C94_example :
  (P <- test_bfv Release ;; let sk := mkSk P [1; -1; 0; 1; 1; 0; 2; -1] in
   pa <- pt_new Release P [2; 3] 0 EncPoly ;;
   a <- encrypt Release sk pa (trows bms 4) (tw 5) ;; b <- encrypt Release sk pa (trows bms 6) (tw 7) ;;
   r <- rlk_new Release sk 0 (trnd 3) ;;
   let b1 := mkCt P (ct_cts b) 1 in
   s <- ct_add Release a b ;; x <- multiply_with_strategy Release a b r ;;
   y <- ct_mul Release a b ;; yy <- ct_add Release y y ;;
   Ok (length (ct_cts s), length (ct_cts x), length (ct_cts y), length (ct_cts yy),
       match ct_add Release a b1, multiply_with_strategy Release a b1 r, ct_mul Release a b1 with Panic, Panic, Panic => true | _, _, _ => false end))
  = Ok (2, 2, 3, 2, true)%nat.
Proof. vm_compute. reflexivity. Qed.
