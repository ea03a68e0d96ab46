(** Property theorems; the proofs are in QPvw.v. *)
From Verif Require Import PBase NT Spec PSum MModulus MUtils MPvw PModulus PUtils PUtils2 PRq SpecPvw PPvw QPvw.

(** C48: for every key, public matrix, error words, bit vector and random bits,
    the ciphertext's slot l is message*floor(q/2) plus the accumulated error, and
    decryption is its rounding. *)
Theorem C48_exact :
  forall pr P sk a w errs m e, 2 <= pv_q P < 2 ^ 62 -> matrix (pv_q P) (pv_ell P) (pv_n P) sk -> matrix (pv_q P) (pv_m P) (pv_n P) a ->
    (forall l, (l < pv_ell P)%nat -> sample_vec_cbd pr (pv_m P) (pv_variance P) (w l) = Ok (errs l)) ->
    (forall l k, (l < pv_ell P)%nat -> 0 <= w l k < 2 ^ 64) -> bits (pv_ell P) m -> bits (pv_m P) e ->
    exists pk ct, pvw_gen_pk pr sk P a w = Ok pk /\ pvw_encrypt pr pk P m e = Ok ct
      /\ length (pc_b ct) = pv_ell P /\ length (pc_a ct) = pv_n P
      /\ (forall l, (l < pv_ell P)%nat ->
            (nth l (pc_b ct) 0 - dot (pv_n P) (nth l sk []) (pc_a ct)) mod pv_q P = (pv_q P / 2 * nth l m 0 + pvw_error P errs e l) mod pv_q P)
      /\ pvw_decrypt pr sk P ct
         = Ok (map (fun l => pvw_round (pv_q P) ((pv_q P / 2 * nth l m 0 + pvw_error P errs e l) mod pv_q P)) (seq 0 (pv_ell P))).
Proof. exact C48_exact_lem. Qed.
Print Assumptions C48_exact.

(** A small parameter set: errors in [-2, 2], three rows, q = 97. *)
Example C48_example :
  let P := mkPvw 2 2 3 97 1 in
  let w := fun l k => Z.of_nat (l * 7 + k + 1) * 7640891576956012809 mod 2 ^ 64 in
  (pk <- pvw_gen_pk Debug [[3; 96]; [40; 7]] P [[5; 6]; [96; 0]; [33; 12]] w ;; ct <- pvw_encrypt Debug pk P [1; 0] [1; 0; 1] ;;
   d <- pvw_decrypt Debug [[3; 96]; [40; 7]] P ct ;; Ok (pc_a ct, d)) = Ok ([38; 18], [1; 0]).
Proof. vm_compute. reflexivity. Qed.

(** C48: errors in [-floor(q/4), floor(q/2) - floor(q/4)), in particular in
    [-floor(q/4), floor(q/4)), give the message back. *)
Theorem C48_decrypt :
  forall pr P sk a w errs m e, 2 <= pv_q P < 2 ^ 62 -> matrix (pv_q P) (pv_ell P) (pv_n P) sk -> matrix (pv_q P) (pv_m P) (pv_n P) a ->
    (forall l, (l < pv_ell P)%nat -> sample_vec_cbd pr (pv_m P) (pv_variance P) (w l) = Ok (errs l)) ->
    (forall l k, (l < pv_ell P)%nat -> 0 <= w l k < 2 ^ 64) -> bits (pv_ell P) m -> bits (pv_m P) e ->
    (forall l, (l < pv_ell P)%nat -> - (pv_q P / 4) <= pvw_error P errs e l < pv_q P / 2 - pv_q P / 4) ->
    (pk <- pvw_gen_pk pr sk P a w ;; ct <- pvw_encrypt pr pk P m e ;; pvw_decrypt pr sk P ct) = Ok m.
Proof. exact C48_decrypt_lem. Qed.
Print Assumptions C48_decrypt.

(** C48: the range always holds when 2*variance*m fits into q/4. *)
Theorem C48_safe :
  forall pr P sk a w m e, 2 <= pv_q P < 2 ^ 62 -> 1 <= pv_variance P <= 16 ->
    matrix (pv_q P) (pv_ell P) (pv_n P) sk -> matrix (pv_q P) (pv_m P) (pv_n P) a ->
    (forall l k, (l < pv_ell P)%nat -> 0 <= w l k < 2 ^ 64) -> bits (pv_ell P) m -> bits (pv_m P) e ->
    2 * pv_variance P * Z.of_nat (pv_m P) < pv_q P / 4 ->
    (pk <- pvw_gen_pk pr sk P a w ;; ct <- pvw_encrypt pr pk P m e ;; pvw_decrypt pr sk P ct) = Ok m.
Proof. exact C48_safe_lem. Qed.
Print Assumptions C48_safe.

(** The hypotheses of [C48_safe] and [C48_decrypt] are met by a 2-row instance. *)
Example C48_safe_example :
  let P := mkPvw 1 1 2 97 1 in
  (pk <- pvw_gen_pk Debug [[50]] P [[5]; [60]] (fun _ _ => 12345678901234567) ;; ct <- pvw_encrypt Debug pk P [1] [1; 1] ;;
   pvw_decrypt Debug [[50]] P ct) = Ok [1] /\ 2 * 1 * Z.of_nat 2 < 97 / 4.
Proof. split; vm_compute; reflexivity. Qed.

(** C48: gen_pk panics for a variance outside 1..16, and every operation for a modulus outside
    2 <= q < 2^62. *)
Theorem C48_panics :
  forall pr P, (forall sk a w, 2 <= pv_q P < 2 ^ 62 -> ~ (1 <= pv_variance P <= 16) -> (1 <= pv_ell P)%nat -> pvw_gen_pk pr sk P a w = Panic)
    /\ (0 <= pv_q P -> ~ (2 <= pv_q P < 2 ^ 62) -> (forall rows, pvw_gen_sk P rows = Panic) /\ (forall sk a w, pvw_gen_pk pr sk P a w = Panic)
         /\ (forall pk m e, pvw_encrypt pr pk P m e = Panic) /\ forall sk ct, pvw_decrypt pr sk P ct = Panic).
Proof. exact C48_panics_lem. Qed.
Print Assumptions C48_panics.

Example C48_panics_example :
  (pvw_gen_pk Debug [[0]] (mkPvw 1 1 1 97 17) [[0]] (fun _ _ => 0), pvw_decrypt Debug [[0]] (mkPvw 1 1 1 1 1) (mkPvwCt [0] [0])) = (Panic, Panic).
Proof. vm_compute. reflexivity. Qed.

(** C49: with the default parameters there are words for which every error is 4,
    and 4096 selected rows then turn every 0 into a 1. *)
Theorem C49_default_refuted :
  exists sk a w e, matrix (pv_q pvw_default) (pv_ell pvw_default) (pv_n pvw_default) sk
    /\ matrix (pv_q pvw_default) (pv_m pvw_default) (pv_n pvw_default) a
    /\ (forall l k, 0 <= w l k < 2 ^ 64) /\ bits (pv_m pvw_default) e
    /\ forall pr, (pk <- pvw_gen_pk pr sk pvw_default a w ;; ct <- pvw_encrypt pr pk pvw_default [0; 0; 0; 0] e ;; pvw_decrypt pr sk pvw_default ct)
                  = Ok [1; 1; 1; 1].
Proof. exact C49_default_refuted_lem. Qed.
Print Assumptions C49_default_refuted.

(** An error of q/4 is enough to change a bit: all errors are 4 here, q = 32. *)
Example C49_small_example :
  let P := mkPvw 1 1 2 32 2 in
  (pk <- pvw_gen_pk Release [[0]] P [[0]; [0]] (fun _ _ => 1085102592571150095) ;; ct <- pvw_encrypt Release pk P [0] [1; 1] ;;
   d <- pvw_decrypt Release [[0]] P ct ;; Ok (pc_b ct, d)) = Ok ([8], [1]).
Proof. vm_compute. reflexivity. Qed.

(** C49, the part that holds: with the default parameters decryption is correct
    whenever fewer than 4096 rows are selected (4096 is where it starts to fail). *)
Theorem C49_default_partial :
  forall pr sk a w m e, matrix (pv_q pvw_default) (pv_ell pvw_default) (pv_n pvw_default) sk ->
    matrix (pv_q pvw_default) (pv_m pvw_default) (pv_n pvw_default) a -> (forall l k, 0 <= w l k < 2 ^ 64) ->
    bits (pv_ell pvw_default) m -> bits (pv_m pvw_default) e -> sumn (pv_m pvw_default) (fun i => nth i e 0) < 4096 ->
    (pk <- pvw_gen_pk pr sk pvw_default a w ;; ct <- pvw_encrypt pr pk pvw_default m e ;; pvw_decrypt pr sk pvw_default ct) = Ok m.
Proof. exact C49_default_partial_lem. Qed.
Print Assumptions C49_default_partial.

(** C49: the verdict of the crate's own test, for every draw: it passes exactly
    when the error of each slot, modulo 65537, is below 16384 or at least
    49152 + the bit. *)
Theorem C49_test :
  forall pr sk a w errs m e, matrix 65537 4 450 sk -> matrix 65537 (160 * 100) 450 a -> (forall l k, 0 <= w l k < 2 ^ 64) ->
    (forall l, (l < 4)%nat -> sample_vec_cbd pr (160 * 100) 2 (w l) = Ok (errs l)) -> bits 4 m -> bits (160 * 100) e ->
    let good := forall l, (l < 4)%nat -> let E := pvw_error pvw_default errs e l in E mod 65537 < 16384 \/ 49152 + nth l m 0 <= E mod 65537 in
    (good -> test_pvw_encrypt_decrypt pr sk a w m e = Ok tt) /\ (~ good -> test_pvw_encrypt_decrypt pr sk a w m e = Panic).
Proof. exact C49_test_lem. Qed.
Print Assumptions C49_test.
