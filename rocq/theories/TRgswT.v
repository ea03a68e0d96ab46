(** Property theorems; the proofs are in QRgswT.v. *)
From Verif Require Import PBase NT Spec PSum MModulus MUtils MNtt MRns MRq MBfv MKsk MGalois MRgsw MRgswT PModulus PUtils PNttMath PNtt PNttNew PCrt PRns PRnsScale PUtils2 SpecRq SpecBfv SpecKsk PRing PRq PRq2 PRq3 PRq4 PRq5 PBfv PBfv2 PBfv3 QBfv PKsk PGal PRingT PKsk2 MEval PAsm QKsk TestBfv QRgswT.

(** C67: a key-switching key for u, multiplied by an RGSW encryption of m, is a
    key-switching key for m*u. *)
Theorem C67_transform :
  forall pr P i c sk m u rnd rnd0 rnd1, built_params P -> level P i c -> sk_params sk = P -> sk_ok sk ->
    1 <= bp_variance P <= 16 -> rnd_ok c rnd -> rnd_ok c rnd0 -> rnd_ok c rnd1 ->
    let n := bp_degree P in let V := 2 * bp_variance P in
    exists r k k', rgsw_encrypt_poly pr sk (rep c Ntt m) rnd0 rnd1 = Ok r /\ ksk_new pr sk (rep c Ntt u) i i rnd = Ok k
      /\ ksk_transform pr r k = Ok k'
      /\ forall p, exists h0 h1 w, key_switch pr k' (rep c PowerBasis p) = Ok (rep c Ntt h0, rep c Ntt h1)
           /\ forall j, (j < n)%nat -> phase n (sk_fun sk) [h0; h1] j mod cx_Q c = (rmul n p (rmul n m u) j + w j) mod cx_Q c
                /\ Z.abs (w j) <= ks_bound c (l1norm n m * V + 2 * ks_bound c V).
Proof. exact C67_transform_lem. Qed.
Print Assumptions C67_transform.

(** C67: the product of RGSW encryptions of m1 and m2 acts as m1*m2. *)
Theorem C67_product :
  forall pr P i c sk m1 m2 rnd0 rnd1 rnd2 rnd3, built_params P -> level P i c -> sk_params sk = P -> sk_ok sk ->
    1 <= bp_variance P <= 16 -> rnd_ok c rnd0 -> rnd_ok c rnd1 -> rnd_ok c rnd2 -> rnd_ok c rnd3 ->
    let n := bp_degree P in let V := 2 * bp_variance P in
    exists r1 r2 r, rgsw_encrypt_poly pr sk (rep c Ntt m1) rnd0 rnd1 = Ok r1 /\ rgsw_encrypt_poly pr sk (rep c Ntt m2) rnd2 rnd3 = Ok r2
      /\ rgsw_product pr r1 r2 = Ok r
      /\ forall f0 f1, exists h0 h1 w, external_product pr r (ct_of P i c [f0; f1]) = Ok (rep c Ntt h0, rep c Ntt h1)
           /\ forall j, (j < n)%nat ->
                phase n (sk_fun sk) [h0; h1] j mod cx_Q c = (rmul n (rmul n m1 m2) (phase n (sk_fun sk) [f0; f1]) j + w j) mod cx_Q c
                /\ Z.abs (w j) <= 2 * ks_bound c (l1norm n m1 * V + 2 * ks_bound c V).
Proof. exact C67_product_lem. Qed.
Print Assumptions C67_product.

(** C67: a full RGSW ciphertext assembled from its lower half and the encrypted
    secret key. *)
Theorem C67_full_from_half :
  forall pr P c sk u rnd rnd0 rnd1, built_params P -> level P 0 c -> sk_params sk = P -> sk_ok sk ->
    1 <= bp_variance P <= 16 -> rnd_ok c rnd -> rnd_ok c rnd0 -> rnd_ok c rnd1 ->
    let n := bp_degree P in let V := 2 * bp_variance P in
    exists rs k r, (s <- sk_ntt pr c (sk_coeffs sk) ;; rgsw_encrypt_poly pr sk s rnd0 rnd1) = Ok rs
      /\ ksk_new pr sk (rep c Ntt u) 0 0 rnd = Ok k /\ full_from_half pr P rs k = Ok r
      /\ forall f0 f1, exists h0 h1 w, external_product pr r (ct_of P 0 c [f0; f1]) = Ok (rep c Ntt h0, rep c Ntt h1)
           /\ forall j, (j < n)%nat -> phase n (sk_fun sk) [h0; h1] j mod cx_Q c = (rmul n u (phase n (sk_fun sk) [f0; f1]) j + w j) mod cx_Q c
                /\ Z.abs (w j) <= ks_bound c (l1norm n (sk_fun sk) * V + 2 * ks_bound c V) + ks_bound c V.
Proof. exact C67_full_from_half_lem. Qed.
Print Assumptions C67_full_from_half.

(** RGSW(1 + X) * RGSW(X^7 + 2) on an encryption of 2 + 3X; RGSW(1 + X)
    completed from its lower half on the same encryption; and the sequence of
    the test [construct_full_from_half] with b = 1, m = 2 + 3X: the lower half
    made from a plaintext carries the scaled b and the unscaled m is encrypted,
    so what decrypts is b * (m + e), e the encryption error of m. *)
Example C67_example :
  (P <- test_bfv3 Release ;; c <- tctx P ;; let sk := mkSk P [1; -1; 0; 1; 1; 0; 2; -1] in
   pa <- pt_new Release P [2; 3] 0 EncPoly ;; p1 <- pt_new Release P [1; 1] 0 EncPoly ;; p2 <- pt_new Release P [2; 0; 0; 0; 0; 0; 0; 1] 0 EncPoly ;;
   a <- encrypt Release sk pa (trows bms3 4) (tw 5) ;;
   r1 <- rgsw_encrypt Release sk p1 (trnd3 3) (trnd3 4) ;; r2 <- rgsw_encrypt Release sk p2 (trnd3 5) (trnd3 6) ;;
   r <- rgsw_product Release r1 r2 ;;
   '(c0, c1) <- external_product Release r a ;; d <- decrypt Release sk (mkCt P [c0; c1] 0) ;;
   s <- sk_ntt Release c (sk_coeffs sk) ;; rs <- rgsw_encrypt_poly Release sk s (trnd3 7) (trnd3 8) ;;
   let after k a := (r' <- full_from_half Release P rs k ;; '(d0, d1) <- external_product Release r' a ;;
                     d' <- decrypt Release sk (mkCt P [d0; d1] 0) ;; Ok (pt_values d')) in
   u <- poly_from_i64 Release c [1; 1] ;; u <- change_repr Release u Ntt ;; k <- ksk_new Release sk u 0 0 (trnd3 9) ;; v1 <- after k a ;;
   pb <- pt_new Release P [1] 0 EncPoly ;; k <- ksk_new_with_pt Release sk pb 0 0 (trnd3 9) ;;
   m <- poly_from_i64 Release c [2; 3] ;; m <- change_repr Release m Ntt ;; mc <- encrypt_poly Release sk m (trows bms3 4) (tw 5) ;; v2 <- after k mc ;;
   Ok (pt_values d, v1, v2))
  = Ok ([16; 7; 6; 0; 0; 0; 0; 2], [2; 5; 3; 0; 0; 0; 0; 0], [1; 2; 0; 0; 0; 0; 16; 16]).
Proof. vm_compute. reflexivity. Qed.
