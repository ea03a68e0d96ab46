(** Property theorems; the proofs are in QPvwProb.v. *)
From Verif Require Import PBase Spec SpecProb PSum MModulus PModulus MUtils PUtils PUtils2 MPvw SpecPvw QProb QPvw QPvwProb.

(** C77: for every key, matrix, message and selection of rows, the fraction of
    outcomes of the error generator for which decryption does not return the
    message is at most 2 ell (y/x)^T ((x+y)^2/(4xy))^K, for all 0 < y <= x, where
    T = floor(q/4) and K is 2*variance times the number of selected rows. *)
Theorem C77_failure :
  forall pr P v sk a m e M x y, 2 <= pv_q P < 2 ^ 62 -> pv_variance P = Z.of_nat v -> (1 <= v <= 16)%nat ->
    matrix (pv_q P) (pv_ell P) (pv_n P) sk -> matrix (pv_q P) (pv_m P) (pv_n P) a -> bits (pv_ell P) m -> bits (pv_m P) e ->
    (4 * v * pv_m P <= M)%nat -> 0 < y <= x ->
    let T := pv_q P / 4 in let K := 2 * Z.of_nat v * sumn (pv_m P) (fun i => nth i e 0) in
    countb (pv_ell P * M) (fun r => negb (returns (pk <- pvw_gen_pk pr sk P a (fun l => words_of (block M l r)) ;;
                                                   ct <- pvw_encrypt pr pk P m e ;; pvw_decrypt pr sk P ct) m))
      * (x ^ T * (4 * (x * y)) ^ K)
    <= 2 * Z.of_nat (pv_ell P) * (y ^ T * (x + y) ^ (2 * K)) * 2 ^ Z.of_nat (pv_ell P * M).
Proof. exact C77_failure_lem. Qed.
Print Assumptions C77_failure.

(** One slot, one row, variance 1, q = 4: of the 16 outcomes of 4 bits six have an
    error of 1, 2 or -2, and decryption is wrong for these. *)
Example C77_example :
  countb 4 (fun r => negb (returns (pk <- pvw_gen_pk Debug [[1]] (mkPvw 1 1 1 4 1) [[3]] (fun l => words_of (block 4 l r)) ;;
                                    ct <- pvw_encrypt Debug pk (mkPvw 1 1 1 4 1) [0] [1] ;; pvw_decrypt Debug [[1]] (mkPvw 1 1 1 4 1) ct) [0])) = 6.
Proof. vm_compute. reflexivity. Qed.

(** C77: with the default parameters the fraction of outcomes of the error
    generator for which decryption is wrong is at most 2^-5900, whatever the key,
    the matrix, the message and the selected rows (so C49's failing outcomes exist
    but are out of reach). *)
Theorem C77_default :
  forall pr sk a m e M, matrix (pv_q pvw_default) (pv_ell pvw_default) (pv_n pvw_default) sk ->
    matrix (pv_q pvw_default) (pv_m pvw_default) (pv_n pvw_default) a -> bits (pv_ell pvw_default) m -> bits (pv_m pvw_default) e ->
    (8 * pv_m pvw_default <= M)%nat ->
    countb (4 * M) (fun r => negb (returns (pk <- pvw_gen_pk pr sk pvw_default a (fun l => words_of (block M l r)) ;;
                                            ct <- pvw_encrypt pr pk pvw_default m e ;; pvw_decrypt pr sk pvw_default ct) m)) * 2 ^ 5900
    <= 2 ^ Z.of_nat (4 * M).
Proof. exact C77_default_lem. Qed.
Print Assumptions C77_default.

(** C77: the crate's own test passes for all but a fraction 2^-5900 of the outcomes. *)
Theorem C77_test :
  forall pr sk a m e M, matrix 65537 4 450 sk -> matrix 65537 (pv_m pvw_default) 450 a -> bits 4 m -> bits (pv_m pvw_default) e ->
    (8 * pv_m pvw_default <= M)%nat ->
    countb (4 * M) (fun r => negb (passes (test_pvw_encrypt_decrypt pr sk a (fun l => words_of (block M l r)) m e))) * 2 ^ 5900 <= 2 ^ Z.of_nat (4 * M).
Proof. exact C77_test_lem. Qed.
Print Assumptions C77_test.
