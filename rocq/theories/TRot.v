(** Property theorems; the proofs are in QRot.v. *)
From Verif Require Import PBase NT Spec PSum MModulus MUtils MNtt MRns MRq MBfv MKsk MGalois PModulus PNttMath PNtt PCrt PRns PUtils SpecRq SpecBfv SpecKsk PRing PRq PRq2 PRq3 PBfv PBfv2 PBfv4 PKsk PKsk2 QKsk QBfv PNttNew TestBfv QRot.

(** C66: SIMD decoding evaluates the plaintext polynomial at psi^(3^k) in the
    first row and at psi^(-(2*3^k+1)) in the second one. *)
Theorem C66_decode :
  forall P, built_params P -> exists psi, 0 <= psi < bp_t P /\ psi ^ Z.of_nat (bp_degree P) mod bp_t P = bp_t P - 1
    /\ forall pr i v, length v = bp_degree P -> Forall (fun x => 0 <= x < bp_t P) v ->
       exists r, pt_decode pr (mkPt P i EncSIMD v) = Ok r /\ length r = bp_degree P
         /\ forall k, (k < bp_degree P / 2)%nat ->
            let e := 3 ^ Z.of_nat k mod (2 * Z.of_nat (bp_degree P)) in
            nth k r 0 = peval (bp_degree P) (vfun v) (psi ^ e) mod bp_t P
            /\ nth (bp_degree P / 2 + k) r 0 = peval (bp_degree P) (vfun v) (psi ^ (4 * Z.of_nat (bp_degree P) - 2 * e - 1)) mod bp_t P.
Proof. exact C66_decode_lem. Qed.
Print Assumptions C66_decode.

(** C66: the automorphism X -> X^x with x = 3^k modulo 2n rotates the first row
    of slots by k to the left. *)
Theorem C66_first_row :
  forall pr P i c sk rnd x k f0 f1 m E B, built_params P -> level P i c -> sk_params sk = P -> sk_ok sk ->
    1 <= bp_variance P <= 16 -> rnd_ok c rnd -> 0 <= x -> length (bp_moduli P) <> 1%nat -> small_degree pr (bp_degree P) ->
    small_basis (rq_moduli_64 c) -> 2 * bp_t P <= cx_q c 0 ->
    carries (bp_degree P) (cx_Q c) (bp_t P) (phase (bp_degree P) (sk_fun sk) [f0; f1]) m E ->
    (forall j, (j < bp_degree P)%nat -> Z.abs (E j) <= B) ->
    2 ^ 54 * (2 * (B + bp_t P * ks_bound c (2 * bp_variance P))) <= (2 ^ 54 - 1) * cx_Q c ->
    x mod (2 * Z.of_nat (bp_degree P)) = 3 ^ Z.of_nat k mod (2 * Z.of_nat (bp_degree P)) ->
    exists r r', plain_decode pr sk (ct_of P i c [f0; f1]) = Ok r /\ rotate_decode pr sk c i rnd x (ct_of P i c [f0; f1]) = Ok r'
      /\ forall j, (j < bp_degree P / 2)%nat -> nth j r' 0 = nth ((j + k) mod (bp_degree P / 2)) r 0.
Proof. exact C66_first_row_lem. Qed.
Print Assumptions C66_first_row.

(** Degree 8, plaintext X: X -> X^3 rotates the first row 3 10 14 7 by one; the
    second row 12 14 12 14 becomes 11 7 11 7 instead of 14 12 14 12, and
    X -> X^15 does not swap the rows. *)
Example C66_example :
  (P <- test_bfv Debug ;; c <- tctx P ;; let sk := mkSk P [1; -1; 0; 1; 1; 0; 2; -1] in
   pa <- pt_new Debug P [0; 1] 0 EncPoly ;;
   a <- encrypt Debug sk pa (trows bms 4) (tw 5) ;;
   r <- plain_decode Debug sk a ;; r1 <- rotate_decode Debug sk c 0 (trnd 3) 3 a ;; r2 <- rotate_decode Debug sk c 0 (trnd 3) 15 a ;; Ok (r, r1, r2))
  = Ok ([3; 10; 14; 7; 12; 14; 12; 14], [10; 14; 7; 3; 11; 7; 11; 7], [6; 12; 11; 5; 10; 11; 10; 11]).
Proof. vm_compute. reflexivity. Qed.

(** C66: the second row is not rotated: for the plaintext X and every rotation
    other than the trivial one every slot of the second row differs from the
    slot k places on. *)
Theorem C66_second_row_refuted :
  forall pr P i c sk rnd x k f0 f1 E B, built_params P -> level P i c -> sk_params sk = P -> sk_ok sk ->
    1 <= bp_variance P <= 16 -> rnd_ok c rnd -> 0 <= x -> length (bp_moduli P) <> 1%nat -> small_degree pr (bp_degree P) ->
    small_basis (rq_moduli_64 c) -> 2 * bp_t P <= cx_q c 0 ->
    carries (bp_degree P) (cx_Q c) (bp_t P) (phase (bp_degree P) (sk_fun sk) [f0; f1]) mono_x E ->
    (forall j, (j < bp_degree P)%nat -> Z.abs (E j) <= B) ->
    2 ^ 54 * (2 * (B + bp_t P * ks_bound c (2 * bp_variance P))) <= (2 ^ 54 - 1) * cx_Q c ->
    x mod (2 * Z.of_nat (bp_degree P)) = 3 ^ Z.of_nat k mod (2 * Z.of_nat (bp_degree P)) ->
    x mod (2 * Z.of_nat (bp_degree P)) <> 1 ->
    exists r r', plain_decode pr sk (ct_of P i c [f0; f1]) = Ok r /\ rotate_decode pr sk c i rnd x (ct_of P i c [f0; f1]) = Ok r'
      /\ forall j, (j < bp_degree P / 2)%nat ->
           nth (bp_degree P / 2 + j) r' 0 <> nth (bp_degree P / 2 + (j + k) mod (bp_degree P / 2)) r 0.
Proof. exact C66_second_row_refuted_lem. Qed.
Print Assumptions C66_second_row_refuted.

(** C66: X -> X^(2n-1) does not swap the rows: for the plaintext X every slot is
    wrong. *)
Theorem C66_swap_refuted :
  forall pr P i c sk rnd x f0 f1 E B, built_params P -> level P i c -> sk_params sk = P -> sk_ok sk ->
    1 <= bp_variance P <= 16 -> rnd_ok c rnd -> 0 <= x -> length (bp_moduli P) <> 1%nat -> small_degree pr (bp_degree P) ->
    small_basis (rq_moduli_64 c) -> 2 * bp_t P <= cx_q c 0 ->
    carries (bp_degree P) (cx_Q c) (bp_t P) (phase (bp_degree P) (sk_fun sk) [f0; f1]) mono_x E ->
    (forall j, (j < bp_degree P)%nat -> Z.abs (E j) <= B) ->
    2 ^ 54 * (2 * (B + bp_t P * ks_bound c (2 * bp_variance P))) <= (2 ^ 54 - 1) * cx_Q c ->
    x mod (2 * Z.of_nat (bp_degree P)) = 2 * Z.of_nat (bp_degree P) - 1 ->
    exists r r', plain_decode pr sk (ct_of P i c [f0; f1]) = Ok r /\ rotate_decode pr sk c i rnd x (ct_of P i c [f0; f1]) = Ok r'
      /\ forall j, (j < bp_degree P / 2)%nat ->
           nth j r' 0 <> nth (bp_degree P / 2 + j) r 0 /\ nth (bp_degree P / 2 + j) r' 0 <> nth j r 0.
Proof. exact C66_swap_refuted_lem. Qed.
Print Assumptions C66_swap_refuted.
