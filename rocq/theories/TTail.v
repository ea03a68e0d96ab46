(** Property theorems; the proofs are in QTail.v. *)
From Verif Require Import PBase NT Spec SpecProb SpecTail PSum MModulus MUtils MNtt MRns MRq MBfv MKsk MGalois MRgsw MEval MCirc MRgswT MTests SpecCirc SpecDef PModulus PUtils PNttMath PNtt PNttNew PCrt PRns PRnsScale PUtils2 SpecRq SpecBfv SpecKsk PRing PRingT PRq PRq2 PRq3 PRq4 PRq5 TestEnv QRq PBfv PBfv2 PBfv3 PBfv4 PBfv5 QBfv PMul PKsk PKsk2 PGal QKsk PDefData PDef QDef QTests QProb QPvwProb TestBfv QTail.

(** C81: a weighted sum of samples exceeds B for at most a fraction
    (2k-1)!! (variance * sum of squared weights / B^2)^k of the outcomes, for every k. *)
Theorem C81_sampler :
  forall pr size v (w : nat -> Z) M B k, 1 <= v <= 16 -> (4 * Z.to_nat v * size <= M)%nat -> 0 <= B ->
    countb M (fun bits => match sample_vec_cbd pr size v (words_of bits) with
                          | Ok x => B <=? Z.abs (sumn size (fun i => w i * nth i x 0)) | _ => true end) * B ^ (2 * Z.of_nat k)
    <= odd_product k * (v * sumn size (fun i => w i * w i)) ^ Z.of_nat k * 2 ^ Z.of_nat M.
Proof. exact C81_sampler_lem. Qed.
Print Assumptions C81_sampler.

(** C81: the noise that switching a fixed polynomial with a fresh key adds exceeds B
    in a given coefficient for at most a fraction
    (2k-1)!! (variance n (q_1^2 + ... + q_K^2) / B^2)^k of the outcomes of the
    generator of the key's errors. *)
Theorem C81_key_switch :
  forall pr P i c sk u masks M, built_params P -> level P i c -> sk_params sk = P -> sk_ok sk ->
    1 <= bp_variance P <= 16 -> (forall l, (l < cx_k c)%nat -> wf_poly (mkPoly c Ntt (masks l))) ->
    (4 * Z.to_nat (bp_variance P) * bp_degree P <= M)%nat ->
    exists noise : list bool -> (nat -> Z) -> nat -> Z,
      (forall bits, length bits = (cx_k c * M)%nat ->
         exists k, ksk_new pr sk (rep c Ntt u) i i (mkRnd masks (fun l => words_of (block M l bits))) = Ok k
           /\ forall p, exists c0 c1, key_switch pr k (rep c PowerBasis p) = Ok (rep c Ntt c0, rep c Ntt c1)
                /\ forall j, (j < bp_degree P)%nat ->
                     phase (bp_degree P) (sk_fun sk) [c0; c1] j mod cx_Q c = (rmul (bp_degree P) p u j + noise bits p j) mod cx_Q c)
      /\ forall p j B k, (j < bp_degree P)%nat -> 0 <= B ->
           countb (cx_k c * M) (fun bits => B <=? Z.abs (noise bits p j)) * B ^ (2 * Z.of_nat k)
           <= odd_product k * (bp_variance P * (Z.of_nat (bp_degree P) * sumn (cx_k c) (fun l => cx_q c l * cx_q c l))) ^ Z.of_nat k * 2 ^ Z.of_nat (cx_k c * M).
Proof. exact C81_key_switch_lem. Qed.
Print Assumptions C81_key_switch.

(** C81: the same for relinearisation. *)
Theorem C81_relinearize :
  forall pr P i c sk masks M, built_params P -> level P i c -> sk_params sk = P -> sk_ok sk ->
    1 <= bp_variance P <= 16 -> (forall l, (l < cx_k c)%nat -> wf_poly (mkPoly c Ntt (masks l))) ->
    (4 * Z.to_nat (bp_variance P) * bp_degree P <= M)%nat ->
    exists noise : list bool -> (nat -> Z) -> nat -> Z,
      (forall bits, length bits = (cx_k c * M)%nat ->
         exists r, rlk_new pr sk i (mkRnd masks (fun l => words_of (block M l bits))) = Ok r
           /\ forall f x, x = PowerBasis \/ x = Ntt -> exists r0 r1, relinearize_poly pr r (rep c x f) = Ok (rep c Ntt r0, rep c Ntt r1)
                /\ forall j, (j < bp_degree P)%nat ->
                     phase (bp_degree P) (sk_fun sk) [r0; r1] j mod cx_Q c
                     = (rmul (bp_degree P) f (rmul (bp_degree P) (sk_fun sk) (sk_fun sk)) j + noise bits f j) mod cx_Q c)
      /\ forall f j B k, (j < bp_degree P)%nat -> 0 <= B ->
           countb (cx_k c * M) (fun bits => B <=? Z.abs (noise bits f j)) * B ^ (2 * Z.of_nat k)
           <= odd_product k * (bp_variance P * (Z.of_nat (bp_degree P) * sumn (cx_k c) (fun l => cx_q c l * cx_q c l))) ^ Z.of_nat k * 2 ^ Z.of_nat (cx_k c * M).
Proof. exact C81_relinearize_lem. Qed.
Print Assumptions C81_relinearize.

(** C81: a rotated ciphertext with scaled noise at most B0 decrypts to the rotated
    message but for the given fraction of key outcomes, whenever B0 + t B is within
    the decryption limit; B is free, so the limit need not leave room for the worst
    case of C38. *)
Theorem C81_rotate :
  forall pr P i c sk masks M x f0 f1 m E B0 B k, built_params P -> level P i c -> sk_params sk = P -> sk_ok sk ->
    1 <= bp_variance P <= 16 -> (forall l, (l < cx_k c)%nat -> wf_poly (mkPoly c Ntt (masks l))) ->
    (4 * Z.to_nat (bp_variance P) * bp_degree P <= M)%nat ->
    0 <= x -> x mod 2 = 1 -> length (bp_moduli P) <> 1%nat -> small_degree pr (bp_degree P) ->
    small_basis (rq_moduli_64 c) -> 2 * bp_t P <= cx_q c 0 ->
    carries (bp_degree P) (cx_Q c) (bp_t P) (phase (bp_degree P) (sk_fun sk) [f0; f1]) m E ->
    (forall j, (j < bp_degree P)%nat -> Z.abs (E j) <= B0) -> 0 <= B ->
    2 ^ 54 * (2 * (B0 + bp_t P * B)) <= (2 ^ 54 - 1) * cx_Q c ->
    countb (cx_k c * M) (fun bits => negb (decrypts_to
        (g <- subst_new pr c x ;; gk <- galois_new pr sk g i (mkRnd masks (fun l => words_of (block M l bits))) ;;
         ct <- galois_relinearize pr gk (ct_of P i c [f0; f1]) ;; decrypt pr sk ct)
        (map (fun j => rsubst (bp_degree P) (Z.to_nat x) m j mod bp_t P) (seq 0 (bp_degree P))))) * B ^ (2 * Z.of_nat k)
    <= Z.of_nat (bp_degree P) * (odd_product k * (bp_variance P * (Z.of_nat (bp_degree P) * sumn (cx_k c) (fun l => cx_q c l * cx_q c l))) ^ Z.of_nat k * 2 ^ Z.of_nat (cx_k c * M)).
Proof. exact C81_rotate_lem. Qed.
Print Assumptions C81_rotate.

(** C81: the crate's key-switching test, which C72 shows to fail for some outcomes
    of its generator, fails for at most a fraction 2^-291 of the outcomes of the
    generator of the key's errors, whatever the other random choices. *)
Theorem C81_ksk_test :
  forall pr env P c wsk fr ir masks M, env_exact env -> bfv_default pr env 2 8 (mkBD 4 8) = Ok P -> level P 0 c ->
    (forall j, 0 <= wsk j < 2 ^ 64) -> wf_poly (mkPoly c Ntt fr) -> wf_poly (mkPoly c PowerBasis ir) ->
    (forall i, (i < 2)%nat -> wf_poly (mkPoly c Ntt (masks i))) -> (320 <= M)%nat ->
    countb (2 * M) (fun bits => negb (ok_unit (test_ksk pr env 70 wsk fr ir (mkRnd masks (fun i => words_of (block M i bits)))))) * 2 ^ 291 <= 2 ^ Z.of_nat (2 * M).
Proof. exact C81_ksk_test_lem. Qed.
Print Assumptions C81_ksk_test.

(** One sample of variance 1: of the 16 outcomes two have magnitude 2 or more; the
    bounds for k = 1 and k = 2 are 2 * 2^2 <= 16 and 2 * 2^4 <= 3 * 16. *)
Example C81_example :
  (countb 4 (fun bits => match sample_vec_cbd Debug 1 1 (words_of bits) with
                         | Ok x => 2 <=? Z.abs (sumn 1 (fun i => 1 * nth i x 0)) | _ => true end), odd_product 2, odd_product 3) = (2, 3, 15).
Proof. vm_compute. reflexivity. Qed.
(** A rotation with a key whose errors are read from given bits. *)
Example C81_example_rotate :
  (P <- test_bfv Debug ;; c <- tctx P ;; let sk := mkSk P [1; -1; 0; 1; 1; 0; 2; -1] in
   let M := (4 * Z.to_nat (bp_variance P) * 8)%nat in let bits := map (fun i => Nat.odd (i * i / 3)) (seq 0 (cx_k c * M)) in
   pa <- pt_new Debug P [2; 3; 0; 0; 0; 0; 5] 0 EncPoly ;;
   a <- encrypt Debug sk pa (trows bms 4) (tw 5) ;;
   Ok (decrypts_to (g <- subst_new Debug c 3 ;; gk <- galois_new Debug sk g 0 (mkRnd (rnd_rows (trnd 3)) (fun l => words_of (block M l bits))) ;;
                    b <- galois_relinearize Debug gk a ;; decrypt Debug sk b) [2; 0; 5; 3; 0; 0; 0; 0])) = Ok true.
Proof. vm_compute. reflexivity. Qed.
