(** Property theorems; the proofs are in QKsk.v. *)
From Verif Require Import PBase NT Spec PSum MModulus MUtils MNtt MRns MRq MBfv MKsk MGalois MRgsw PModulus PUtils PNttMath PNtt PNttNew PCrt PRns PRnsScale PUtils2 SpecRq SpecBfv SpecKsk PRing PRq PRq2 PRq3 PRq4 PRq5 TestEnv QRq PBfv PBfv2 PBfv3 QBfv PKsk PGal PRingT PMul PMul2 PKsk2 MEval PAsm TestBfv QKsk.

(** C37: key_switch returns a pair whose phase is p*from plus the stated noise. *)
Theorem C37_key_switch :
  forall pr P i c sk u rnd, built_params P -> level P i c -> sk_params sk = P -> sk_ok sk ->
    1 <= bp_variance P <= 16 -> rnd_ok c rnd ->
    exists k e, ksk_new pr sk (rep c Ntt u) i i rnd = Ok k
      /\ (forall l j, Z.abs (e l j) <= 2 * bp_variance P)
      /\ forall p, exists c0 c1, key_switch pr k (rep c PowerBasis p) = Ok (rep c Ntt c0, rep c Ntt c1)
           /\ forall j, (j < bp_degree P)%nat ->
                phase (bp_degree P) (sk_fun sk) [c0; c1] j mod cx_Q c = (rmul (bp_degree P) p u j + ks_noise c e p j) mod cx_Q c
                /\ Z.abs (ks_noise c e p j) <= ks_bound c (2 * bp_variance P).
Proof. exact C37_key_switch_lem. Qed.
Print Assumptions C37_key_switch.

(** The same for a key made from a plaintext: [from] is its scaled encoding. *)
Theorem C37_from_plaintext :
  forall pr P i c sk pt rnd, built_params P -> level P i c -> sk_params sk = P -> sk_ok sk ->
    pt_params pt = P -> pt_level pt = i -> Forall (fun x => 0 <= x < 2 ^ 64) (pt_values pt) -> (length (pt_values pt) <= bp_degree P)%nat ->
    1 <= bp_variance P <= 16 -> rnd_ok c rnd ->
    exists k e u, ksk_new_with_pt pr sk pt i i rnd = Ok k
      /\ (forall j, (j < bp_degree P)%nat -> let x := cx_Q c * nth j (pt_values pt) 0 / bp_t P in u j = x \/ u j = x - 1)
      /\ forall p, exists c0 c1, key_switch pr k (rep c PowerBasis p) = Ok (rep c Ntt c0, rep c Ntt c1)
           /\ forall j, (j < bp_degree P)%nat ->
                phase (bp_degree P) (sk_fun sk) [c0; c1] j mod cx_Q c = (rmul (bp_degree P) p u j + ks_noise c e p j) mod cx_Q c
                /\ Z.abs (ks_noise c e p j) <= ks_bound c (2 * bp_variance P).
Proof. exact C37_from_plaintext_lem. Qed.
Print Assumptions C37_from_plaintext.

(** The input of key_switch must be in the key's context and in power basis. *)
Theorem C37_guard :
  forall pr k p, rq_moduli_64 (p_ctx p) <> rq_moduli_64 (k_ct_ctx k) \/ rq_degree (p_ctx p) <> rq_degree (k_ct_ctx k) \/ p_repr p <> PowerBasis ->
    key_switch pr k p = Panic.
Proof. exact C37_guard_lem. Qed.
Print Assumptions C37_guard.

(** Switching p = 1 + 2X with a key for u = 3 gives a phase close to 3 + 6X; a
    polynomial in Ntt form is rejected. *)
Example C37_example :
  (P <- test_bfv Debug ;; c <- tctx P ;; sk <- sk_generate Debug P (tw 1) ;;
   fp <- poly_from_i64 Debug c [3] ;; f <- change_repr Debug fp Ntt ;;
   k <- ksk_new Debug sk f 0 0 (trnd 5) ;;
   p <- poly_from_i64 Debug c [1; 2] ;;
   '(c0, c1) <- key_switch Debug k p ;;
   s <- sk_ntt Debug c (sk_coeffs sk) ;; x <- poly_mul Debug c1 s ;; y <- poly_add Debug c0 x ;; z <- change_repr Debug y PowerBasis ;;
   v <- poly_to_big z ;;
   Ok (map (fun a => if Z.div (cx_Q c) 2 <? a then a - cx_Q c else a) v,
       match key_switch Debug k f with Panic => true | _ => false end))
  = Ok ([2; 9; 1; 0; 5; 0; -2; 5], true).
Proof. vm_compute. reflexivity. Qed.

(** C39: relinearisation, for a polynomial in either representation. *)
Theorem C39_relinearize :
  forall pr P i c sk rnd, built_params P -> level P i c -> sk_params sk = P -> sk_ok sk ->
    1 <= bp_variance P <= 16 -> rnd_ok c rnd ->
    exists r e, rlk_new pr sk i rnd = Ok r
      /\ forall f x, x = PowerBasis \/ x = Ntt -> exists r0 r1, relinearize_poly pr r (rep c x f) = Ok (rep c Ntt r0, rep c Ntt r1)
           /\ forall j, (j < bp_degree P)%nat ->
                phase (bp_degree P) (sk_fun sk) [r0; r1] j mod cx_Q c
                = (rmul (bp_degree P) f (rmul (bp_degree P) (sk_fun sk) (sk_fun sk)) j + ks_noise c e f j) mod cx_Q c
                /\ Z.abs (ks_noise c e f j) <= ks_bound c (2 * bp_variance P).
Proof. exact C39_relinearize_lem. Qed.
Print Assumptions C39_relinearize.

(** C38: the Galois key switch applies X -> X^x to the phase. *)
Theorem C38_galois :
  forall pr P i c sk rnd x, built_params P -> level P i c -> sk_params sk = P -> sk_ok sk ->
    1 <= bp_variance P <= 16 -> rnd_ok c rnd -> 0 <= x -> x mod 2 = 1 -> length (bp_moduli P) <> 1%nat -> small_degree pr (bp_degree P) ->
    exists g gk e, subst_new pr c x = Ok g /\ galois_new pr sk g i rnd = Ok gk
      /\ forall f0 f1, exists h0 h1, galois_relinearize pr gk (ct_of P i c [f0; f1]) = Ok (ct_of P i c [h0; h1])
           /\ let w := ks_noise c e (rsubst (bp_degree P) (Z.to_nat x) f1) in
              forall j, (j < bp_degree P)%nat ->
                phase (bp_degree P) (sk_fun sk) [h0; h1] j mod cx_Q c
                = (rsubst (bp_degree P) (Z.to_nat x) (phase (bp_degree P) (sk_fun sk) [f0; f1]) j + w j) mod cx_Q c
                /\ Z.abs (w j) <= ks_bound c (2 * bp_variance P).
Proof. exact C38_galois_lem. Qed.
Print Assumptions C38_galois.

(** C38: within the noise budget the result decrypts to m(X^x). *)
Theorem C38_decrypt :
  forall pr P i c sk rnd x f0 f1 m E B, built_params P -> level P i c -> sk_params sk = P -> sk_ok sk ->
    1 <= bp_variance P <= 16 -> rnd_ok c rnd -> 0 <= x -> x mod 2 = 1 -> length (bp_moduli P) <> 1%nat -> small_degree pr (bp_degree P) ->
    small_basis (rq_moduli_64 c) -> 2 * bp_t P <= cx_q c 0 ->
    carries (bp_degree P) (cx_Q c) (bp_t P) (phase (bp_degree P) (sk_fun sk) [f0; f1]) m E ->
    (forall j, (j < bp_degree P)%nat -> Z.abs (E j) <= B) ->
    2 ^ 54 * (2 * (B + bp_t P * ks_bound c (2 * bp_variance P))) <= (2 ^ 54 - 1) * cx_Q c ->
    (g <- subst_new pr c x ;; gk <- galois_new pr sk g i rnd ;; ct <- galois_relinearize pr gk (ct_of P i c [f0; f1]) ;; decrypt pr sk ct)
    = Ok (mkPt P i EncNone (map (fun j => rsubst (bp_degree P) (Z.to_nat x) m j mod bp_t P) (seq 0 (bp_degree P)))).
Proof. exact C38_decrypt_lem. Qed.
Print Assumptions C38_decrypt.

(** X -> X^3 on the message 2 + 3X + 5X^6. *)
Example C38_example :
  (P <- test_bfv Debug ;; c <- tctx P ;; let sk := mkSk P [1; -1; 0; 1; 1; 0; 2; -1] in
   pa <- pt_new Debug P [2; 3; 0; 0; 0; 0; 5] 0 EncPoly ;;
   a <- encrypt Debug sk pa (trows bms 4) (tw 5) ;;
   g <- subst_new Debug c 3 ;; gk <- galois_new Debug sk g 0 (trnd 3) ;;
   b <- galois_relinearize Debug gk a ;; d <- decrypt Debug sk b ;; Ok (pt_values d)) = Ok [2; 0; 5; 3; 0; 0; 0; 0].
Proof. vm_compute. reflexivity. Qed.

(** One ciphertext modulus is not enough: the generation of Galois keys panics. *)
Theorem C38_one_modulus :
  forall pr sk g i rnd, length (bp_moduli (sk_params sk)) = 1%nat -> galois_new pr sk g i rnd = Panic.
Proof. exact C38_one_modulus_lem. Qed.
Print Assumptions C38_one_modulus.

(** C36: the product of two ciphertexts with a key made by [RelinearizationKey::new]. *)
Theorem C36_multiply :
  forall pr P i c ec sk rnd, built_params P -> level P i c -> get (bp_e_ctxs P) i = Ok ec -> sk_params sk = P -> sk_ok sk ->
    1 <= bp_variance P <= 16 -> rnd_ok c rnd -> small_basis (rq_moduli_64 c) -> small_basis (rq_moduli_64 ec) ->
    let n := bp_degree P in let Q := cx_Q c in let t := bp_t P in
    2 * Z.of_nat n * (Q * Q) <= cx_Q ec ->
    exists r, rlk_new pr sk i rnd = Ok r /\
    forall f0 f1 g0 g1 m m' E E' B S,
      l1norm n (sk_fun sk) <= S -> S < 2 ^ 54 -> 0 <= B <= Q ->
      carries n Q t (phase n (sk_fun sk) [f0; f1]) m E -> carries n Q t (phase n (sk_fun sk) [g0; g1]) m' E' ->
      (forall j, (j < n)%nat -> 0 <= m j < t) -> (forall j, (j < n)%nat -> 0 <= m' j < t) ->
      (forall j, (j < n)%nat -> Z.abs (E j) <= B) -> (forall j, (j < n)%nat -> Z.abs (E' j) <= B) ->
      exists h0 h1 E'', multiply_with_strategy pr (ct_of P i c [f0; f1]) (ct_of P i c [g0; g1]) r = Ok (ct_of P i c [h0; h1])
        /\ carries n Q t (phase n (sk_fun sk) [h0; h1]) (rmul n m m') E''
        /\ forall j, (j < n)%nat -> Z.abs (E'' j) <= mul_noise n t B S + t * ks_bound c (2 * bp_variance P).
Proof. exact C36_multiply_lem. Qed.
Print Assumptions C36_multiply.

(** C36: and it decrypts to the product of the messages while within budget. *)
Theorem C36_decrypt :
  forall pr P i c ec sk rnd f0 f1 g0 g1 m m' E E' B S,
    built_params P -> level P i c -> get (bp_e_ctxs P) i = Ok ec -> sk_params sk = P -> sk_ok sk ->
    1 <= bp_variance P <= 16 -> rnd_ok c rnd -> small_basis (rq_moduli_64 c) -> small_basis (rq_moduli_64 ec) -> 2 * bp_t P <= cx_q c 0 ->
    let n := bp_degree P in let Q := cx_Q c in let t := bp_t P in
    2 * Z.of_nat n * (Q * Q) <= cx_Q ec ->
    l1norm n (sk_fun sk) <= S -> S < 2 ^ 54 -> 0 <= B <= Q ->
    carries n Q t (phase n (sk_fun sk) [f0; f1]) m E -> carries n Q t (phase n (sk_fun sk) [g0; g1]) m' E' ->
    (forall j, (j < n)%nat -> 0 <= m j < t) -> (forall j, (j < n)%nat -> 0 <= m' j < t) ->
    (forall j, (j < n)%nat -> Z.abs (E j) <= B) -> (forall j, (j < n)%nat -> Z.abs (E' j) <= B) ->
    2 ^ 54 * (2 * (mul_noise n t B S + t * ks_bound c (2 * bp_variance P))) <= (2 ^ 54 - 1) * Q ->
    (r <- rlk_new pr sk i rnd ;; x <- multiply_with_strategy pr (ct_of P i c [f0; f1]) (ct_of P i c [g0; g1]) r ;; decrypt pr sk x)
    = Ok (mkPt P i EncNone (map (fun j => rmul n m m' j mod t) (seq 0 n))).
Proof. exact C36_decrypt_lem. Qed.
Print Assumptions C36_decrypt.

(** (2 + 3X) * (1 + X^7) and its square, with the bounds of the theorem. *)
Example C36_example :
  (P <- test_bfv Debug ;; c <- tctx P ;; ec <- get (bp_e_ctxs P) 0 ;; let sk := mkSk P [1; -1; 0; 1; 1; 0; 2; -1] in
   pa <- pt_new Debug P [2; 3] 0 EncPoly ;; pb <- pt_new Debug P [1; 0; 0; 0; 0; 0; 0; 1] 0 EncPoly ;;
   a <- encrypt Debug sk pa (trows bms 4) (tw 5) ;; b <- encrypt Debug sk pb (trows bms 6) (tw 7) ;;
   r <- rlk_new Debug sk 0 (trnd 3) ;;
   x <- multiply_with_strategy Debug a b r ;; d <- decrypt Debug sk x ;;
   Ok (pt_values d, (2 * 8 * (cx_Q c * cx_Q c) <=? cx_Q ec)
       && (2 ^ 54 * (2 * (mul_noise 8 17 (17 * 4) 7 + 17 * ks_bound c 2)) <=? (2 ^ 54 - 1) * cx_Q c)))
  = Ok ([16; 3; 0; 0; 0; 0; 0; 2], true).
Proof. vm_compute. reflexivity. Qed.

(** C36: the extended basis made by [BfvParameters::new] (see C52) is large enough. *)
Theorem C36_basis :
  forall c e n l cnt, rq_moduli_64 e = rq_moduli_64 c ++ firstn cnt l -> 0 <= cx_Q c ->
    cx_Q c * 2 ^ 60 <= zprod (firstn cnt l) * 2 ^ Z.of_nat cnt -> 2 * Z.of_nat n * 2 ^ Z.of_nat cnt <= 2 ^ 60 ->
    2 * Z.of_nat n * (cx_Q c * cx_Q c) <= cx_Q e.
Proof. exact C36_basis_lem. Qed.
Print Assumptions C36_basis.

(** C40: the external product multiplies the phase by the encrypted polynomial. *)
Theorem C40_external :
  forall pr P i c sk pt rnd0 rnd1, built_params P -> level P i c -> sk_params sk = P -> sk_ok sk ->
    1 <= bp_variance P <= 16 -> rnd_ok c rnd0 -> rnd_ok c rnd1 ->
    pt_params pt = P -> pt_level pt = i -> Forall (fun x => 0 <= x < 2 ^ 64) (pt_values pt) -> (length (pt_values pt) <= bp_degree P)%nat ->
    exists r, rgsw_encrypt pr sk pt rnd0 rnd1 = Ok r /\
      forall f0 f1, exists h0 h1 w, external_product pr r (ct_of P i c [f0; f1]) = Ok (rep c Ntt h0, rep c Ntt h1)
        /\ forall j, (j < bp_degree P)%nat ->
             phase (bp_degree P) (sk_fun sk) [h0; h1] j mod cx_Q c
             = (rmul (bp_degree P) (fun l => nth l (pt_values pt) 0) (phase (bp_degree P) (sk_fun sk) [f0; f1]) j + w j) mod cx_Q c
             /\ Z.abs (w j) <= 2 * ks_bound c (2 * bp_variance P).
Proof. exact C40_external_lem. Qed.
Print Assumptions C40_external.

(** The same for [encrypt_poly]. *)
Theorem C40_external_poly :
  forall pr P i c sk m rnd0 rnd1, built_params P -> level P i c -> sk_params sk = P -> sk_ok sk ->
    1 <= bp_variance P <= 16 -> rnd_ok c rnd0 -> rnd_ok c rnd1 ->
    exists r, rgsw_encrypt_poly pr sk (rep c Ntt m) rnd0 rnd1 = Ok r /\
      forall f0 f1, exists h0 h1 w, external_product pr r (ct_of P i c [f0; f1]) = Ok (rep c Ntt h0, rep c Ntt h1)
        /\ forall j, (j < bp_degree P)%nat ->
             phase (bp_degree P) (sk_fun sk) [h0; h1] j mod cx_Q c
             = (rmul (bp_degree P) m (phase (bp_degree P) (sk_fun sk) [f0; f1]) j + w j) mod cx_Q c
             /\ Z.abs (w j) <= 2 * ks_bound c (2 * bp_variance P).
Proof. exact C40_external_poly_lem. Qed.
Print Assumptions C40_external_poly.

(** C40: within budget the product decrypts to the product of the messages. *)
Theorem C40_decrypt :
  forall pr P i c sk pt rnd0 rnd1 f0 f1 m E B, built_params P -> level P i c -> sk_params sk = P -> sk_ok sk ->
    1 <= bp_variance P <= 16 -> rnd_ok c rnd0 -> rnd_ok c rnd1 ->
    pt_params pt = P -> pt_level pt = i -> Forall (fun x => 0 <= x < 2 ^ 64) (pt_values pt) -> (length (pt_values pt) <= bp_degree P)%nat ->
    small_basis (rq_moduli_64 c) -> 2 * bp_t P <= cx_q c 0 ->
    carries (bp_degree P) (cx_Q c) (bp_t P) (phase (bp_degree P) (sk_fun sk) [f0; f1]) m E ->
    let a l := nth l (pt_values pt) 0 in
    (forall j, (j < bp_degree P)%nat -> Z.abs (rmul (bp_degree P) E a j) <= B) ->
    2 ^ 54 * (2 * (B + bp_t P * (2 * ks_bound c (2 * bp_variance P)))) <= (2 ^ 54 - 1) * cx_Q c ->
    (r <- rgsw_encrypt pr sk pt rnd0 rnd1 ;; '(c0, c1) <- external_product pr r (ct_of P i c [f0; f1]) ;; decrypt pr sk (mkCt P [c0; c1] i))
    = Ok (mkPt P i EncNone (map (fun j => rmul (bp_degree P) m a j mod bp_t P) (seq 0 (bp_degree P)))).
Proof. exact C40_decrypt_lem. Qed.
Print Assumptions C40_decrypt.

(** RGSW(1 + X) times an encryption of 2 + 3X^7. *)
Example C40_example :
  (P <- test_bfv Release ;; let sk := mkSk P [1; -1; 0; 1; 1; 0; 2; -1] in
   pa <- pt_new Release P [2; 0; 0; 0; 0; 0; 0; 3] 0 EncPoly ;; pm <- pt_new Release P [1; 1] 0 EncPoly ;;
   a <- encrypt Release sk pa (trows bms 4) (tw 5) ;;
   r <- rgsw_encrypt Release sk pm (trnd 3) (trnd 4) ;;
   '(c0, c1) <- external_product Release r a ;; d <- decrypt Release sk (mkCt P [c0; c1] 0) ;; Ok (pt_values d))
  = Ok ([16; 2; 0; 0; 0; 0; 0; 3]).
Proof. vm_compute. reflexivity. Qed.

(** C41: the RGSW ciphertext assembled by the server from encryptions of the
    gadget digits of u and from RGSW(s) acts as an RGSW encryption of u. *)
Theorem C41_assembled :
  forall pr P c sk rnd0 rnd1 b a G u e Be Bs S vals i,
    built_params P -> level P 0 c -> sk_params sk = P -> sk_ok sk ->
    1 <= bp_variance P <= 16 -> rnd_ok c rnd0 -> rnd_ok c rnd1 -> gadget c G ->
    let n := bp_degree P in
    (forall k j, (k < cx_k c)%nat -> (j < n)%nat -> phase n (sk_fun sk) [b k; a k] j mod cx_Q c = (G k * u j + e k j) mod cx_Q c) ->
    (forall k j, Z.abs (e k j) <= Be) -> l1norm n (sk_fun sk) <= S ->
    Bs = S * Be + 2 * ks_bound c (2 * bp_variance P) ->
    mapM (fun v => get v i) vals = Ok (map (fun k => ct_of P 0 c [b k; a k]) (seq 0 (cx_k c))) ->
    exists rs r, (s <- sk_ntt pr c (sk_coeffs sk) ;; rgsw_encrypt_poly pr sk s rnd0 rnd1) = Ok rs
      /\ build_rgsw pr P rs vals i = Ok r
      /\ forall f0 f1, exists h0 h1 w, external_product pr r (ct_of P 0 c [f0; f1]) = Ok (rep c Ntt h0, rep c Ntt h1)
           /\ forall j, (j < n)%nat ->
                phase n (sk_fun sk) [h0; h1] j mod cx_Q c = (rmul n u (phase n (sk_fun sk) [f0; f1]) j + w j) mod cx_Q c
                /\ Z.abs (w j) <= ks_bound c Be + ks_bound c Bs.
Proof. exact C41_assembled_lem. Qed.
Print Assumptions C41_assembled.

(** The digits of u = 1 + X, assembled and applied to an encryption of 2 + 3X^7. *)
Example C41_example :
  (P <- test_bfv3 Release ;; c <- tctx P ;; let sk := mkSk P [1; -1; 0; 1; 1; 0; 2; -1] in
   pa <- pt_new Release P [2; 0; 0; 0; 0; 0; 0; 3] 0 EncPoly ;;
   a <- encrypt Release sk pa (trows bms3 4) (tw 5) ;;
   fp <- poly_from_i64 Release c [1; 1] ;; f <- change_repr Release fp Ntt ;;
   k <- ksk_new Release sk f 0 0 (trnd3 5) ;;
   let vals := map (fun x : Poly * Poly => [mkCt P [fst x; snd x] 0]) (combine (k_c0 k) (k_c1 k)) in
   s <- sk_ntt Release c (sk_coeffs sk) ;; rs <- rgsw_encrypt_poly Release sk s (trnd3 3) (trnd3 4) ;;
   r <- build_rgsw Release P rs vals 0 ;;
   '(c0, c1) <- external_product Release r a ;; d <- decrypt Release sk (mkCt P [c0; c1] 0) ;; Ok (pt_values d))
  = Ok ([16; 2; 0; 0; 0; 0; 0; 3]).
Proof. vm_compute. reflexivity. Qed.
