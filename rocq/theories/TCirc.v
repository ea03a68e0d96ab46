(** Property theorems; the proofs are in QCirc.v. *)
From Verif Require Import PBase NT Spec PSum MModulus MUtils MNtt MRns MRq MBfv MKsk MGalois MRgsw MCirc SpecCirc PModulus PUtils SpecRq SpecBfv SpecKsk PRing PRq PRq2 PRq3 PRq4 PRq5 QRq PBfv PBfv2 PBfv3 QBfv PKsk PGal PRingT PMul PMul2 PKsk2 QKsk TestEnv TestBfv QCirc.

(** C64: a circuit of any shape over ciphertexts of any level that carry
    messages with bounded noise decrypts to the circuit over the messages, as
    long as the computed noise bound stays below (almost) Q/2. *)
Theorem C64_circuit :
  forall pr P i c ec sk d K cts B S e,
    built_params P -> level P i c -> sk_params sk = P -> sk_ok sk -> 1 <= bp_variance P <= 16 ->
    small_basis (rq_moduli_64 c) -> 2 * bp_t P <= cx_q c 0 ->
    get (bp_e_ctxs P) i = Ok ec /\ small_basis (rq_moduli_64 ec) /\ 2 * Z.of_nat (bp_degree P) * (cx_Q c * cx_Q c) <= cx_Q ec ->
    l1norm (bp_degree P) (sk_fun sk) <= S -> S < 2 ^ 54 -> 0 <= B ->
    good_keys pr P i c sk d K ->
    Forall2 (fun l ct => exists f0 f1 E, ct = ct_of P i c [f0; f1]
               /\ carries (bp_degree P) (cx_Q c) (bp_t P) (phase (bp_degree P) (sk_fun sk) [f0; f1]) (fun j => nth j l 0) E
               /\ forall j, (j < bp_degree P)%nat -> Z.abs (E j) <= B) (cd_in d) cts ->
    let KB := ks_bound c (2 * bp_variance P) in
    cfits (bp_degree P) (cx_Q c) (bp_t P) B S KB d e ->
    2 ^ 54 * (2 * cnoise (bp_degree P) (bp_t P) B S KB d e) <= (2 ^ 54 - 1) * cx_Q c ->
    (ct <- run_circ pr K cts e ;; decrypt pr sk ct)
    = Ok (mkPt P i EncNone (map (fun j => cval (bp_degree P) d e j mod bp_t P) (seq 0 (bp_degree P)))).
Proof. exact C64_circuit_lem. Qed.
Print Assumptions C64_circuit.

(** C64, end to end: fresh encryptions of the inputs at level 0. *)
Theorem C64_program :
  forall pr P c ec sk d K pts cts S e,
    built_params P -> level P 0 c -> sk_params sk = P -> sk_ok sk -> 1 <= bp_variance P <= 16 ->
    small_basis (rq_moduli_64 c) -> 2 * bp_t P <= cx_q c 0 ->
    get (bp_e_ctxs P) 0 = Ok ec /\ small_basis (rq_moduli_64 ec) /\ 2 * Z.of_nat (bp_degree P) * (cx_Q c * cx_Q c) <= cx_Q ec ->
    l1norm (bp_degree P) (sk_fun sk) <= S -> S < 2 ^ 54 ->
    good_keys pr P 0 c sk d K ->
    Forall2 (good_pt P 0) (cd_in d) pts ->
    Forall2 (fun pt ct => exists rows w, wf_poly (mkPoly c Ntt rows) /\ (forall k, 0 <= w k < 2 ^ 64) /\ encrypt pr sk pt rows w = Ok ct) pts cts ->
    let KB := ks_bound c (2 * bp_variance P) in let B := bp_t P * (2 * bp_variance P + 2) in
    cfits (bp_degree P) (cx_Q c) (bp_t P) B S KB d e ->
    2 ^ 54 * (2 * cnoise (bp_degree P) (bp_t P) B S KB d e) <= (2 ^ 54 - 1) * cx_Q c ->
    (ct <- run_circ pr K cts e ;; decrypt pr sk ct)
    = Ok (mkPt P 0 EncNone (map (fun j => cval (bp_degree P) d e j mod bp_t P) (seq 0 (bp_degree P)))).
Proof. exact C64_program_lem. Qed.
Print Assumptions C64_program.

(** C64: the keys and encryptions the theorem speaks about can always be made. *)
Theorem C64_keys_exist :
  forall pr P i c sk d pts rpts rlkr gkr rr0 rr1, built_params P -> level P i c -> sk_params sk = P -> sk_ok sk -> 1 <= bp_variance P <= 16 ->
    length (bp_moduli P) <> 1%nat -> small_degree pr (bp_degree P) -> rnd_ok c rlkr -> (forall k, rnd_ok c (gkr k)) -> (forall k, rnd_ok c (rr0 k)) -> (forall k, rnd_ok c (rr1 k)) ->
    Forall (fun x => 0 <= x /\ x mod 2 = 1) (cd_rot d) -> Forall2 (good_pt P i) (cd_pt d) pts -> Forall2 (good_pt P i) (cd_sel d) rpts ->
    exists r gks rs,
      rlk_new pr sk i rlkr = Ok r
      /\ mapM (fun k => g <- subst_new pr c (nth k (cd_rot d) 1) ;; galois_new pr sk g i (gkr k)) (seq 0 (length (cd_rot d))) = Ok gks
      /\ mapM (fun k => p <- get rpts k ;; rgsw_encrypt pr sk p (rr0 k) (rr1 k)) (seq 0 (length (cd_sel d))) = Ok rs
      /\ good_keys pr P i c sk d (mkKeys r gks rs pts).
Proof. exact C64_keys_exist_lem. Qed.
Print Assumptions C64_keys_exist.

(** (a * b - a * (1 + X)) at X -> X^3, and the noise bounds of the theorem hold. *)
Definition ex_circ : circ := Rotate (Minus (Times (Input 0) (Input 1)) (TimesPt (Input 0) 0)) 0.
Definition ex_data : CData := mkCData [[2; 3]; [1; 0; 0; 0; 0; 0; 0; 1]] [[1; 1]] [3] [].
Example C64_example :
  (P <- test_bfv Debug ;; c <- tctx P ;; let sk := mkSk P [1; -1; 0; 1; 1; 0; 2; -1] in
   pa <- pt_new Debug P [2; 3] 0 EncPoly ;; pb <- pt_new Debug P [1; 0; 0; 0; 0; 0; 0; 1] 0 EncPoly ;; pc <- pt_new Debug P [1; 1] 0 EncPoly ;;
   a <- encrypt Debug sk pa (trows bms 4) (tw 5) ;; b <- encrypt Debug sk pb (trows bms 6) (tw 7) ;;
   r <- rlk_new Debug sk 0 (trnd 3) ;; g <- subst_new Debug c 3 ;; gk <- galois_new Debug sk g 0 (trnd 5) ;;
   x <- run_circ Debug (mkKeys r [gk] [] [pc]) [a; b] ex_circ ;; d <- decrypt Debug sk x ;;
   Ok (pt_values d, map (fun j => cval 8 ex_data ex_circ j mod 17) (seq 0 8),
       (2 ^ 54 * (2 * cnoise 8 17 (17 * 4) 7 (ks_bound c 2) ex_data ex_circ) <=? (2 ^ 54 - 1) * cx_Q c)))
  = Ok ([14; 0; 0; 15; 0; 2; 14; 0], [14; 0; 0; 15; 0; 2; 14; 0], true).
Proof. vm_compute. reflexivity. Qed.
