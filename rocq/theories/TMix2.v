(** Property theorems; the proofs are in QMix2.v. *)
From Verif Require Import PBase NT Spec PSum MModulus MUtils MNtt MRns MRq MBfv MKsk PModulus PUtils PNttMath PNtt PNttNew PCrt PRns PRnsScale PUtils2 SpecRq SpecBfv SpecKsk PRing PRq PRq2 PRq3 PRq4 PRq5 TestEnv QRq PBfv PBfv2 PBfv3 QBfv PKsk PKsk2 PMix TestBfv QMix QMix2.

(** C27: set_encoding changes how a plaintext is decoded and nothing else: its
    values, scaled polynomial and encryptions stay the same, the last call
    counts, and setting the encoding it has changes nothing. *)
Theorem C27_set_encoding :
  forall pr p e,
    pt_values (pt_set_encoding p e) = pt_values p
    /\ pt_enc (pt_set_encoding p e) = e
    /\ pt_to_poly pr (pt_set_encoding p e) = pt_to_poly pr p
    /\ (forall sk rows w, encrypt pr sk (pt_set_encoding p e) rows w = encrypt pr sk p rows w)
    /\ (forall e', pt_set_encoding (pt_set_encoding p e) e' = pt_set_encoding p e')
    /\ pt_set_encoding p (pt_enc p) = p.
Proof. exact C27_set_encoding_lem. Qed.
Print Assumptions C27_set_encoding.

(** C61: the same for a key made from a plaintext of the level of the key:
    [from] is its scaled encoding. *)
Theorem C61_from_plaintext :
  forall pr P i k c C sk pt rnd, built_params P -> level P i c -> level P k C -> (k <= i)%nat -> sk_params sk = P -> sk_ok sk ->
    pt_params pt = P -> pt_level pt = k -> Forall (fun x => 0 <= x < 2 ^ 64) (pt_values pt) -> (length (pt_values pt) <= bp_degree P)%nat ->
    1 <= bp_variance P <= 16 -> rnd_ok C rnd ->
    exists key e u, ksk_new_with_pt pr sk pt i k rnd = Ok key
      /\ (forall j, (j < bp_degree P)%nat -> let x := cx_Q C * nth j (pt_values pt) 0 / bp_t P in u j = x \/ u j = x - 1)
      /\ (forall l j, Z.abs (e l j) <= 2 * bp_variance P)
      /\ forall p, exists c0 c1, key_switch pr key (rep c PowerBasis p) = Ok (rep c Ntt c0, rep c Ntt c1)
           /\ forall j, (j < bp_degree P)%nat ->
                phase (bp_degree P) (sk_fun sk) [c0; c1] j mod cx_Q c = (rmul (bp_degree P) p u j + ks_noise c e p j) mod cx_Q c
                /\ Z.abs (ks_noise c e p j) <= ks_bound c (2 * bp_variance P).
Proof. exact C61_from_plaintext_lem. Qed.
Print Assumptions C61_from_plaintext.

(** C61: the contexts of a key are those asked for, whatever [from] is: one pair
    per modulus of the level of the polynomials, in the context of the level of
    the key, and only polynomials in power basis of the former are accepted. *)
Theorem C61_contexts :
  forall pr sk from cl kl rnd key, ksk_new pr sk from cl kl rnd = Ok key ->
    level (sk_params sk) cl (k_ct_ctx key) /\ level (sk_params sk) kl (k_ksk_ctx key)
    /\ k_params key = sk_params sk
    /\ length (k_c1 key) = length (rns_moduli (rq_rns (k_ct_ctx key)))
    /\ Forall (fun p => p_ctx p = k_ksk_ctx key /\ p_repr p = Ntt) (k_c1 key)
    /\ (forall p x, key_switch pr key p = Ok x -> p_repr p = PowerBasis /\ rq_moduli_64 (p_ctx p) = rq_moduli_64 (k_ct_ctx key)).
Proof. exact C61_contexts_lem. Qed.
Print Assumptions C61_contexts.

(** A key of level 0 made from a plaintext switches a polynomial of level 1;
    what is left after removing the multiple of the scaled plaintext is small. *)
Example C61_plaintext_example :
  (P <- test_bfv Debug ;; C <- get (bp_q_ctxs P) 0 ;; c <- get (bp_q_ctxs P) 1 ;; sk <- sk_generate Debug P (tw 1) ;;
   pt <- pt_new Debug P [3] 0 EncPoly ;; k <- ksk_new_with_pt Debug sk pt 1 0 (trnd 5) ;;
   p <- poly_from_i64 Debug c [1; 2] ;; '(c0, c1) <- key_switch Debug k p ;;
   s <- sk_ntt Debug c (sk_coeffs sk) ;; x <- poly_mul Debug c1 s ;; y <- poly_add Debug c0 x ;; z <- change_repr Debug y PowerBasis ;;
   v <- poly_to_big z ;;
   let u := cx_Q C * 3 / bp_t P in
   Ok (rq_moduli_64 (k_ct_ctx k), rq_moduli_64 (k_ksk_ctx k), map (fun l => (nth l v 0 - nth l [u; 2 * u] 0) mod cx_Q c) (seq 0 2))
     ) = Ok ([65633], [65633; 65729], [2; 4]).
Proof. vm_compute. reflexivity. Qed.
