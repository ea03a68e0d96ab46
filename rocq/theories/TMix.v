(** Property theorems; the proofs are in QMix.v. *)
From Verif Require Import PBase NT Spec PSum MModulus MUtils MNtt MRns MRq MBfv MKsk PModulus PUtils PNttMath PNtt PNttNew PCrt PRns PRnsScale PUtils2 SpecRq SpecBfv SpecKsk PRing PRq PRq2 PRq3 PRq4 PRq5 TestEnv QRq PBfv PBfv2 PKsk PKsk2 PMix TestBfv QMix.

(** C61: a key generated at level k switches polynomials of every level i >= k
    (fewer moduli than the key): the result is in the context of level i and its
    phase is p*from plus the stated noise modulo that context's modulus. *)
Theorem C61_cross_level :
  forall pr P i k c C sk u rnd, built_params P -> level P i c -> level P k C -> (k <= i)%nat -> sk_params sk = P -> sk_ok sk ->
    1 <= bp_variance P <= 16 -> rnd_ok C rnd ->
    exists key e, ksk_new pr sk (rep C Ntt u) i k rnd = Ok key
      /\ (forall l j, Z.abs (e l j) <= 2 * bp_variance P)
      /\ forall p, exists c0 c1, key_switch pr key (rep c PowerBasis p) = Ok (rep c Ntt c0, rep c Ntt c1)
           /\ forall j, (j < bp_degree P)%nat ->
                phase (bp_degree P) (sk_fun sk) [c0; c1] j mod cx_Q c = (rmul (bp_degree P) p u j + ks_noise c e p j) mod cx_Q c
                /\ Z.abs (ks_noise c e p j) <= ks_bound c (2 * bp_variance P).
Proof. exact C61_cross_level_lem. Qed.
Print Assumptions C61_cross_level.

(** C61: with a key of a higher level than the polynomial (fewer moduli) the
    code does not stop; both components come out as 0 modulo every modulus the
    key does not have. *)
Theorem C61_higher_level_actual :
  forall pr P i k c C sk u rnd, built_params P -> level P i c -> level P k C -> (i < k)%nat -> sk_params sk = P -> sk_ok sk ->
    1 <= bp_variance P <= 16 ->
    (forall l, wf_poly (mkPoly C Ntt (rnd_rows rnd l))) -> (forall l j, 0 <= rnd_words rnd l j < 2 ^ 64) ->
    exists key, ksk_new pr sk (rep C Ntt u) i k rnd = Ok key
      /\ forall p, exists c0 c1, key_switch pr key (rep c PowerBasis p) = Ok (rep c Ntt c0, rep c Ntt c1)
           /\ forall l j, (cx_k C <= l < cx_k c)%nat -> (j < bp_degree P)%nat -> c0 j mod cx_q c l = 0 /\ c1 j mod cx_q c l = 0.
Proof. exact C61_higher_level_actual_lem. Qed.
Print Assumptions C61_higher_level_actual.

(** C61 refuted for such keys: for every parameter set with large enough moduli
    there is a polynomial [from] such that no choice of small key errors makes
    the key switching identity true. *)
Theorem C61_higher_level_refuted :
  forall pr P i k c C sk rnd, built_params P -> level P i c -> level P k C -> (i < k)%nat -> sk_params sk = P -> sk_ok sk ->
    1 <= bp_variance P <= 16 -> 8 * bp_variance P * Z.of_nat (cx_k c) < cx_q c (cx_k c - 1) ->
    (forall l, wf_poly (mkPoly C Ntt (rnd_rows rnd l))) -> (forall l j, 0 <= rnd_words rnd l j < 2 ^ 64) ->
    exists u key, ksk_new pr sk (rep C Ntt u) i k rnd = Ok key
      /\ forall e, (forall l j, Z.abs (e l j) <= 2 * bp_variance P) ->
         ~ forall p, exists c0 c1, key_switch pr key (rep c PowerBasis p) = Ok (rep c Ntt c0, rep c Ntt c1)
             /\ forall j, (j < bp_degree P)%nat ->
                  phase (bp_degree P) (sk_fun sk) [c0; c1] j mod cx_Q c = (rmul (bp_degree P) p u j + ks_noise c e p j) mod cx_Q c.
Proof. exact C61_higher_level_refuted_lem. Qed.
Print Assumptions C61_higher_level_refuted.

(** C62: with the smaller context on the left, +, - and * compute in it. *)
Theorem C62_smaller_left :
  forall pr C c i f g, built C -> nth_ctx C i = Some c ->
    poly_add pr (rep c Ntt f) (rep C Ntt g) = Ok (rep c Ntt (fun j => f j + g j)) /\
    poly_sub pr (rep c Ntt f) (rep C Ntt g) = Ok (rep c Ntt (fun j => f j - g j)) /\
    poly_mul pr (rep c Ntt f) (rep C Ntt g) = Ok (rep c Ntt (rmul (rq_degree c) f g)).
Proof. exact C62_smaller_left_lem. Qed.
Print Assumptions C62_smaller_left.

(** C62: with the larger context on the left the result is in the larger
    context; it is right modulo the common moduli and still the left operand
    modulo the others. *)
Theorem C62_larger_left_actual :
  forall pr C c i f g, built C -> nth_ctx C i = Some c ->
    let half h u := forall l j, (l < cx_k C)%nat -> (j < rq_degree C)%nat ->
        h j mod cx_q C l = (if (l <? cx_k c)%nat then u j else f j) mod cx_q C l in
    (exists h, poly_add pr (rep C Ntt f) (rep c Ntt g) = Ok (rep C Ntt h) /\ half h (fun j => f j + g j)) /\
    (exists h, poly_sub pr (rep C Ntt f) (rep c Ntt g) = Ok (rep C Ntt h) /\ half h (fun j => f j - g j)) /\
    (exists h, poly_mul pr (rep C Ntt f) (rep c Ntt g) = Ok (rep C Ntt h) /\ half h (rmul (rq_degree C) f g)).
Proof. exact C62_larger_left_actual_lem. Qed.
Print Assumptions C62_larger_left_actual.

(** C62 refuted: for every context with at least two moduli, 0 + 1 is neither
    rejected nor 1 when the 0 is of the larger context. *)
Theorem C62_larger_left_refuted :
  forall pr C c, built C -> rq_next C = Some c ->
    exists h, poly_add pr (rep C Ntt (fun _ => 0)) (rep c Ntt (fun j => nth j [1] 0)) = Ok (rep C Ntt h) /\ h 0%nat mod cx_Q C <> 1 mod cx_Q C.
Proof. exact C62_larger_left_refuted_lem. Qed.
Print Assumptions C62_larger_left_refuted.

(** A key of level 0 switches a polynomial of level 1. *)
Example C61_example :
  (P <- test_bfv Debug ;; C <- get (bp_q_ctxs P) 0 ;; c <- get (bp_q_ctxs P) 1 ;; sk <- sk_generate Debug P (tw 1) ;;
   fp <- poly_from_i64 Debug C [3] ;; f <- change_repr Debug fp Ntt ;;
   k <- ksk_new Debug sk f 1 0 (trnd 5) ;;
   p <- poly_from_i64 Debug c [1; 2] ;;
   '(c0, c1) <- key_switch Debug k p ;;
   s <- sk_ntt Debug c (sk_coeffs sk) ;; x <- poly_mul Debug c1 s ;; y <- poly_add Debug c0 x ;; z <- change_repr Debug y PowerBasis ;;
   v <- poly_to_big z ;;
   Ok (rq_moduli_64 (p_ctx c0), map (fun a => if Z.div (cx_Q c) 2 <? a then a - cx_Q c else a) v))
  = Ok ([65633], [5; 10; 0; 1; 3; 1; 0; 4]).
Proof. vm_compute. reflexivity. Qed.
Example C62_example :
  (C <- test_ctx Debug test_ms ;; c <- unwrap (rq_next C) ;;
   a <- poly_from_u64 Debug C [5; 6] ;; a' <- change_repr Debug a Ntt ;;
   b <- poly_from_u64 Debug c [1; 2] ;; b' <- change_repr Debug b Ntt ;;
   s <- poly_add Debug b' a' ;; s' <- change_repr Debug s PowerBasis ;; v <- poly_to_big s' ;;
   r <- poly_add Debug a' b' ;; r' <- change_repr Debug r PowerBasis ;;
   Ok (v, map (firstn 2) (p_rows r')))
  = Ok ([6; 8; 0; 0; 0; 0; 0; 0], [[6; 8]; [6; 8]; [5; 6]]).
Proof. vm_compute. reflexivity. Qed.
