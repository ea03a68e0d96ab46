(** Property theorems; the proofs are in QChain.v. *)
From Verif Require Import PBase NT Spec SpecProb SpecTail PSum MModulus MUtils MNtt MRns MRq MBfv MKsk MGalois MRgsw MEval MCirc MRgswT MTests SpecCirc SpecDef PModulus PUtils PNttMath PNtt PNttNew PCrt PRns PRnsScale PUtils2 SpecRq SpecBfv SpecKsk PRing PRingT PRq PRq2 PRq3 PRq4 PRq5 TestEnv QRq PBfv PBfv2 PBfv3 PBfv4 PBfv5 QBfv PMul PKsk PKsk2 PGal QKsk PDefData PDef QDef QTests QProb QPvwProb TestBfv QTail SpecChain QChain.

(** C91: the noise that an external product with a fresh RGSW encryption adds. *)
Theorem C91_external :
  forall pr P i c sk s M, built_params P -> level P i c -> sk_params sk = P -> sk_ok sk ->
    1 <= bp_variance P <= 16 -> step_ok P i c s -> (4 * Z.to_nat (bp_variance P) * bp_degree P <= M)%nat ->
    exists noise : list bool -> (nat -> Z) -> (nat -> Z) -> nat -> Z,
      (forall bits, exists r, step_rgsw pr sk (cx_k c) M s bits = Ok r
           /\ forall f0 f1, exists h0 h1, external_product pr r (ct_of P i c [f0; f1]) = Ok (rep c Ntt h0, rep c Ntt h1)
                /\ forall j, (j < bp_degree P)%nat ->
                     phase (bp_degree P) (sk_fun sk) [h0; h1] j mod cx_Q c
                     = (rmul (bp_degree P) (phase (bp_degree P) (sk_fun sk) [f0; f1]) (st_fun s) j + noise bits f0 f1 j) mod cx_Q c)
      /\ forall f0 f1 j B k, (j < bp_degree P)%nat -> 0 <= B ->
           countb ((cx_k c + cx_k c) * M) (fun bits => B <=? Z.abs (noise bits f0 f1 j)) * B ^ (2 * Z.of_nat k)
           <= odd_product k * (bp_variance P * (2 * Z.of_nat (bp_degree P) * sumn (cx_k c) (fun l => cx_q c l * cx_q c l))) ^ Z.of_nat k
              * 2 ^ Z.of_nat ((cx_k c + cx_k c) * M).
Proof. exact C91_external_lem. Qed.
Print Assumptions C91_external.

(** C91: external products with a list of fresh RGSW encryptions: the result decrypts
    to the product except for a fraction that is the number of steps times that of one. *)
Theorem C91_chain :
  forall pr P i c sk ss M f0 f1 m E N B k, built_params P -> level P i c -> sk_params sk = P -> sk_ok sk ->
    1 <= bp_variance P <= 16 -> Forall (step_ok P i c) ss -> (4 * Z.to_nat (bp_variance P) * bp_degree P <= M)%nat ->
    small_basis (rq_moduli_64 c) -> 2 * bp_t P <= cx_q c 0 ->
    carries (bp_degree P) (cx_Q c) (bp_t P) (phase (bp_degree P) (sk_fun sk) [f0; f1]) m E ->
    (forall j, (j < bp_degree P)%nat -> Z.abs (E j) <= N) -> 0 <= B ->
    2 ^ 54 * (2 * chain_noise (bp_degree P) (bp_t P) B ss N) <= (2 ^ 54 - 1) * cx_Q c ->
    let T := (length ss * ((cx_k c + cx_k c) * M))%nat in
    countb T (fun bits => negb (decrypts_to
        (ct <- chain pr sk (cx_k c) M ss bits (ct_of P i c [f0; f1]) ;; decrypt pr sk ct)
        (map (fun j => chain_val (bp_degree P) ss m j mod bp_t P) (seq 0 (bp_degree P))))) * B ^ (2 * Z.of_nat k)
    <= Z.of_nat (length ss) * (Z.of_nat (bp_degree P) * (odd_product k
         * (bp_variance P * (2 * Z.of_nat (bp_degree P) * sumn (cx_k c) (fun l => cx_q c l * cx_q c l))) ^ Z.of_nat k * 2 ^ Z.of_nat T)).
Proof. exact C91_chain_lem. Qed.
Print Assumptions C91_chain.

(** C91: if every plaintext has absolute coefficient sum 1 (0 or 1 times a monomial with
    sign), the noise grows only linearly with the number of steps. *)
Theorem C91_noise :
  forall n t B ss N, Forall (fun s => l1norm n (st_fun s) = 1) ss ->
    chain_noise n t B ss N = N + Z.of_nat (length ss) * (t * B).
Proof. exact C91_noise_lem. Qed.
Print Assumptions C91_noise.

(** 2 + 3X^7 times X, times 1 + X; the noise bound of the last two lemmas. *)
Example C91_example :
  (P <- test_bfv Debug ;; c <- tctx P ;; let sk := mkSk P [1; -1; 0; 1; 1; 0; 2; -1] in
   let M := (4 * Z.to_nat (bp_variance P) * 8)%nat in
   px <- pt_new Debug P [0; 1] 0 EncPoly ;; py <- pt_new Debug P [1; 1] 0 EncPoly ;;
   let ss := [mkStep px (rnd_rows (trnd 3)) (rnd_rows (trnd 4)); mkStep py (rnd_rows (trnd 7)) (rnd_rows (trnd 8))] in
   let bits := map (fun i => Nat.odd (i * 5 / 3)) (seq 0 (2 * ((cx_k c + cx_k c) * M))) in
   pa <- pt_new Debug P [2; 0; 0; 0; 0; 0; 0; 3] 0 EncPoly ;; a <- encrypt Debug sk pa (trows bms 4) (tw 5) ;;
   ct <- chain Debug sk (cx_k c) M ss bits a ;; d <- decrypt Debug sk ct ;;
   Ok (pt_values d, map (fun j => chain_val 8 ss (fun j => nth j [2; 0; 0; 0; 0; 0; 0; 3] 0) j mod 17) (seq 0 8),
       chain_noise 8 17 5 ss 100, (2 ^ 54 * (2 * chain_noise 8 17 (2 ^ 22) ss 1000) <=? (2 ^ 54 - 1) * cx_Q c)))
  = Ok ([14; 16; 2; 0; 0; 0; 0; 0], [14; 16; 2; 0; 0; 0; 0; 0], 455, true).
Proof. vm_compute. reflexivity. Qed.
