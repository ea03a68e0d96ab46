(** Property theorems; the proofs are in QTrace8.v. *)
From Verif Require Import PBase MModulus MUtils MNtt MRns MRq MBfv MKsk MGalois MRgsw MEval MOmr MTrace MTrace2 MTrace3 MTrace4 MTrace6 MTrace8 SpecTrace SpecTrace2 SpecTrace3 SpecTrace6 SpecTrace8 SpecBfv QTrace QTrace2 QTrace3 QTrace4 QTrace6 TestEnv TestBfv QTrace8.

(** The recorded runs compute what the model computes in a Release build. *)
Theorem C96_more_values :
  (forall a, snd (t_poly_neg a) = poly_neg Release a)
  /\ (forall p, snd (t_mod_switch_down_next p) = mod_switch_down_next Release p)
  /\ (forall p c, snd (t_mod_switch_to p c) = mod_switch_to Release p c)
  /\ (forall a p, snd (t_ct_add_poly a p) = ct_add_poly Release a p)
  /\ (forall a p, snd (t_ct_mul_pt a p) = ct_mul_pt Release a p)
  /\ (forall a b, snd (t_ct_mul a b) = ct_mul Release a b).
Proof. exact C96_more_values_lem. Qed.
Print Assumptions C96_more_values.

(** Modulus switching, negation and the operations of ciphertexts with
    polynomials and plaintexts give away sizes only. *)
Theorem C96_mod_switch :
  (forall p p', alike p p' -> looks_same (t_mod_switch_down_next p) (t_mod_switch_down_next p'))
  /\ (forall p p' c, alike p p' -> looks_same (t_mod_switch_to p c) (t_mod_switch_to p' c))
  /\ (forall p p', alike p p' -> looks_same (t_poly_neg p) (t_poly_neg p'))
  /\ (forall a a' p p', ct_like a a' -> alike p p' -> looks_same (t_ct_add_poly a p) (t_ct_add_poly a' p'))
  /\ (forall a a' p p', ct_like a a' -> pts_alike p p' -> looks_same (t_ct_mul_pt a p) (t_ct_mul_pt a' p')).
Proof. exact C96_mod_switch_lem. Qed.
Print Assumptions C96_mod_switch.

(** Multiplying two ciphertexts: extending the basis and the products give away
    sizes only, and the whole operation no more than the signs of the
    corrections when scaling down. *)
Theorem C96_multiply :
  forall a a' b b', built_params (ct_params a) -> ct_like a a' -> ct_like b b' ->
    looks_same (t_ct_tensor a b) (t_ct_tensor a' b')
    /\ ((forall mu cs cs', get (bp_mul_params (ct_params a)) (ct_level a) = Ok mu -> snd (t_ct_tensor a b) = Ok cs -> snd (t_ct_tensor a' b') = Ok cs' -> down_signs (mu_down mu) cs cs')
        -> looks_same (t_ct_mul a b) (t_ct_mul a' b')).
Proof. exact C96_multiply_lem. Qed.
Print Assumptions C96_multiply.

(** Multiplication with relinearization, and inner products with polynomials:
    the values, and the steps.  The product gives away no more than the signs
    of the corrections when scaling down, the inner product sizes only. *)
Theorem C96_strategy :
  (forall a b k, snd (t_multiply a b k) = multiply_with_strategy Release a b k)
  /\ (forall c p, snd (t_inner_product c p) = inner_product Release c p)
  /\ (forall a a' b b' k k', built_params (ct_params a) -> ct_like a a' -> ct_like b b' -> rlk_params k = rlk_params k' -> ksk_like (rlk_ksk k) (rlk_ksk k') ->
        looks_same (t_products a b k) (t_products a' b' k')
        /\ ((forall mu c0 c1 c2 c0' c1' c2', get (bp_mul_params (ct_params a)) (ct_level a) = Ok mu -> snd (t_products a b k) = Ok (c0, c1, c2) ->
               snd (t_products a' b' k') = Ok (c0', c1', c2') -> down_signs (mu_down mu) [c0; c1; c2] [c0'; c1'; c2'])
            -> looks_same (t_multiply a b k) (t_multiply a' b' k')))
  /\ (forall c c' p p', Forall2 ct_like c c' -> Forall2 alike p p' -> looks_same (t_inner_product c p) (t_inner_product c' p')).
Proof. exact C96_strategy_lem. Qed.
Print Assumptions C96_strategy.

(** Dropping a modulus from two polynomials: different results, the same
    number of steps. *)
Example C96_mod_switch_example :
  (P <- test_bfv Release ;; c <- get (bp_q_ctxs P) 0 ;;
   a <- poly_from_u64 Release c [1; 2; 3; 4; 5; 6; 7; 8] ;; b <- poly_from_u64 Release c [0; 0; 90; 0; 11; 0; 40000; 3] ;;
   x <- poly_mul_big Release (mkPoly c Ntt (p_rows a)) 1000003 ;; let a := mkPoly c PowerBasis (p_rows x) in
   let t := t_mod_switch_down_next a in let t' := t_mod_switch_down_next b in
   y <- snd t ;; y' <- snd t' ;;
   Ok (length (p_rows y), zlist_eqb (concat (p_rows y)) (concat (p_rows y')), length (fst t) =? length (fst t'), 100 <? length (fst t))%nat)
  = Ok (1%nat, false, true, true).
Proof. vm_compute. reflexivity. Qed.
