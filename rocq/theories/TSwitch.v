(** Property theorems; the proofs are in QSwitch.v. *)
From Verif Require Import PBase NT Spec PSum MModulus MUtils MNtt MRns MRq MBfv MKsk MGalois MRgsw MCirc MSwitch SpecCirc SpecDef SpecSwitch PModulus PUtils SpecRq SpecBfv SpecKsk PRing PRingT PRq PRq2 PRq3 PRq4 PRq5 QRq PBfv PBfv2 PBfv3 QBfv PMix PKsk PKsk2 QKsk QCirc TestEnv TestBfv PDefData PDef QDef QSwitch.

(** C69: switching moves a ciphertext to any deeper level; it carries the same
    message, the noise shrinks with the modulus up to the rounding term. *)
Theorem C69_switch :
  forall pr P i j c c' sk f0 f1 m E B S,
    built_params P -> level P i c -> level P j c' -> (i <= j)%nat ->
    l1norm (bp_degree P) (sk_fun sk) <= S ->
    carries (bp_degree P) (cx_Q c) (bp_t P) (phase (bp_degree P) (sk_fun sk) [f0; f1]) m E ->
    0 <= B -> (forall k, (k < bp_degree P)%nat -> Z.abs (E k) <= B) ->
    exists g0 g1 E', ct_switch pr (ct_of P i c [f0; f1]) j = Ok (ct_of P j c' [g0; g1])
      /\ (cx_Q c' | cx_Q c)
      /\ carries (bp_degree P) (cx_Q c') (bp_t P) (phase (bp_degree P) (sk_fun sk) [g0; g1]) m E'
      /\ forall k, (k < bp_degree P)%nat -> Z.abs (E' k) <= switch_noise (cx_Q c / cx_Q c') (bp_t P) S B.
Proof. exact C69_switch_lem. Qed.
Print Assumptions C69_switch.

(** C69: in particular it decrypts to the same message. *)
Theorem C69_decrypt :
  forall pr P i j c c' sk f0 f1 m E B S,
    built_params P -> level P i c -> level P j c' -> (i <= j)%nat -> sk_params sk = P -> sk_ok sk ->
    l1norm (bp_degree P) (sk_fun sk) <= S ->
    carries (bp_degree P) (cx_Q c) (bp_t P) (phase (bp_degree P) (sk_fun sk) [f0; f1]) m E ->
    0 <= B -> (forall k, (k < bp_degree P)%nat -> Z.abs (E k) <= B) ->
    small_basis (rq_moduli_64 c') -> 2 * bp_t P <= cx_q c' 0 ->
    2 ^ 54 * (2 * switch_noise (cx_Q c / cx_Q c') (bp_t P) S B) <= (2 ^ 54 - 1) * cx_Q c' ->
    (ct <- ct_switch pr (ct_of P i c [f0; f1]) j ;; decrypt pr sk ct)
    = Ok (mkPt P j EncNone (map (fun k => m k mod bp_t P) (seq 0 (bp_degree P)))).
Proof. exact C69_decrypt_lem. Qed.
Print Assumptions C69_decrypt.

Theorem C69_stages :
  forall pr P sk S l i c B v i2 c2 B2 cts,
    built_params P -> level P i c -> sk_params sk = P -> sk_ok sk -> 1 <= bp_variance P <= 16 ->
    l1norm (bp_degree P) (sk_fun sk) <= S -> S < 2 ^ 54 -> 0 <= B ->
    stages_ok pr P sk S i c B v l i2 c2 B2 ->
    Forall2 (holds P i c sk B) v cts ->
    level P i2 c2 /\ exists outs, run_stages pr cts (map fst l) = Ok outs
      /\ Forall2 (holds P i2 c2 sk B2) (stages_val (bp_degree P) (bp_t P) v l) outs.
Proof. exact C69_stages_lem. Qed.
Print Assumptions C69_stages.

(** C69: the outputs of a program in stages decrypt to the plain computation. *)
Theorem C69_stages_decrypt :
  forall pr P sk S l i c B v i2 c2 B2 cts,
    built_params P -> level P i c -> sk_params sk = P -> sk_ok sk -> 1 <= bp_variance P <= 16 ->
    l1norm (bp_degree P) (sk_fun sk) <= S -> S < 2 ^ 54 -> 0 <= B ->
    stages_ok pr P sk S i c B v l i2 c2 B2 ->
    Forall2 (holds P i c sk B) v cts ->
    small_basis (rq_moduli_64 c2) -> 2 * bp_t P <= cx_q c2 0 ->
    2 ^ 54 * (2 * B2) <= (2 ^ 54 - 1) * cx_Q c2 ->
    (outs <- run_stages pr cts (map fst l) ;; mapM (decrypt pr sk) outs)
    = Ok (map (fun x => mkPt P i2 EncNone (map (fun j => nth j x 0 mod bp_t P) (seq 0 (bp_degree P)))) (stages_val (bp_degree P) (bp_t P) v l)).
Proof. exact C69_stages_decrypt_lem. Qed.
Print Assumptions C69_stages_decrypt.

(** C69: there is no way back up. *)
Theorem C69_guard :
  forall pr P i j c c' f fs, built_params P -> level P i c -> level P j c' -> (j < i)%nat ->
    ct_switch pr (ct_of P i c (f :: fs)) j = Panic.
Proof. exact C69_guard_lem. Qed.
Print Assumptions C69_guard.

(** C69: with the default parameters, the result of every circuit of height at
    most 2k-2 can be switched to any of the k levels, down to a single modulus,
    and still decrypts to the value of the circuit. *)
Theorem C69_default :
  forall pr env k n bd P c j w0 sk d K pts cts e,
    env_exact env -> (2 <= k <= 31)%nat -> bfv_default pr env k n bd = Ok P -> level P 0 c -> (j < k)%nat ->
    (forall x, 0 <= w0 x < 2 ^ 64) -> sk_generate pr P w0 = Ok sk ->
    good_keys pr P 0 c sk d K -> Forall2 (good_pt P 0) (cd_in d) pts ->
    Forall2 (fun pt ct => exists rows w, wf_poly (mkPoly c Ntt rows) /\ (forall j, 0 <= w j < 2 ^ 64) /\ encrypt pr sk pt rows w = Ok ct) pts cts ->
    cplain 1153 d e -> (height e <= 2 * k - 2)%nat ->
    (ct <- run_circ pr K cts e ;; s <- ct_switch pr ct j ;; decrypt pr sk s)
    = Ok (mkPt P j EncNone (map (fun x => cval n d e x mod 1153) (seq 0 n))).
Proof. exact C69_default_lem. Qed.
Print Assumptions C69_default.

(** Two moduli to one: the coefficients carry over and decryption agrees; the
    bounds of the theorem hold for the concrete noise. *)
Example C69_example :
  (P <- test_bfv Debug ;; c <- tctx P ;; c1 <- get (bp_q_ctxs P) 1 ;; let sk := mkSk P [1; -1; 0; 1; 1; 0; 2; -1] in
   pa <- pt_new Debug P [2; 3; 16] 0 EncPoly ;; a <- encrypt Debug sk pa (trows bms 4) (tw 5) ;;
   s <- ct_switch Debug a 1 ;; d <- decrypt Debug sk s ;;
   Ok (map (fun p => map (@length Z) (p_rows p)) (ct_cts s), ct_level s, pt_level d, pt_values d,
       (2 ^ 54 * (2 * switch_noise (cx_Q c / cx_Q c1) 17 7 (fresh_noise P)) <=? (2 ^ 54 - 1) * cx_Q c1)))
  = Ok ([[8%nat]; [8%nat]], 1%nat, 1%nat, [2; 3; 16; 0; 0; 0; 0; 0], true).
Proof. vm_compute. reflexivity. Qed.
(** A program in two stages: a sum on two moduli, the difference on one. *)
Example C69_stages_example :
  (P <- test_bfv Debug ;; let sk := mkSk P [1; -1; 0; 1; 1; 0; 2; -1] in
   pa <- pt_new Debug P [2; 3; 16] 0 EncPoly ;; pb <- pt_new Debug P [1; 0; 0; 5] 0 EncPoly ;;
   a <- encrypt Debug sk pa (trows bms 4) (tw 5) ;; b <- encrypt Debug sk pb (trows bms 6) (tw 7) ;;
   r <- rlk_new Debug sk 0 (trnd 3) ;; let K := mkKeys r [] [] [] in
   let l := [(mkStage 0 K [Plus (Input 0) (Input 1); Input 1], mkSData [] [] []); (mkStage 1 K [Minus (Input 0) (Input 1)], mkSData [] [] [])] in
   outs <- run_stages Debug [a; b] (map fst l) ;; ds <- mapM (decrypt Debug sk) outs ;;
   Ok (map pt_values ds, stages_val 8 17 [[2; 3; 16]; [1; 0; 0; 5]] l))
  = Ok ([[2; 3; 16; 0; 0; 0; 0; 0]], [[2; 3; 16; 0; 0; 0; 0; 0]]).
Proof. vm_compute. reflexivity. Qed.
(** The hypotheses of the theorems on stages can be met, for keys and inputs of a
    program with a product on two moduli and a subtraction on one. *)
Example C69_stages_ok_example pr : exists P c sk l c2 B2, built_params P /\ level P 0 c /\ sk_params sk = P /\ sk_ok sk /\ bp_variance P = 10
  /\ l1norm (bp_degree P) (sk_fun sk) <= 160 /\ map (fun x => st_level (fst x)) l = [0; 1]%nat
  /\ stages_ok pr P sk 160 0 c (fresh_noise P) [[2; 3]; [1; 0; 0; 1]] l 1 c2 B2
  /\ small_basis (rq_moduli_64 c2) /\ 2 * bp_t P <= cx_q c2 0 /\ 2 ^ 54 * (2 * B2) <= (2 ^ 54 - 1) * cx_Q c2
  /\ stages_val (bp_degree P) (bp_t P) [[2; 3]; [1; 0; 0; 1]] l = [[0; 3; 0; 0; 3; 0; 0; 0]].
Proof. exact (stages_hyps pr). Qed.
(** ... and so can those of the theorem on the default parameters. *)
Example C69_default_example pr : exists P sk K cts,
  (ct <- run_circ pr K cts (Times (Input 0) (Input 1)) ;; s <- ct_switch pr ct 1 ;; decrypt pr sk s) = Ok (mkPt P 1 EncNone [2; 3; 0; 2; 3; 0; 0; 0]).
Proof.
  destruct (circuit_hyps pr) as [P [c [w0 [sk [d [K [pts [cts [H1 [H2 [H3 [H4 [H5 [H6 [H7 [H8 H9]]]]]]]]]]]]]]]]. exists P, sk, K, cts.
  rewrite (C69_default pr denv 2 8 (mkBD 4 5) P c 1 w0 sk d K pts cts _ denv_exact ltac:(lia) H1 H2 ltac:(lia) H3 H4 H5 H6 H7 H9 ltac:(cbn [height]; lia)).
  cbn [cval]. rewrite H8. vm_compute. reflexivity.
Qed.
