(** Property theorems; the proofs are in QDef.v. *)
From Verif Require Import PBase NT Spec PSum MModulus MUtils MNtt MRns MRq MBfv MKsk MGalois MRgsw MCirc SpecCirc SpecDef PModulus PUtils PNttMath PNtt PNttNew PCrt PRns PRnsScale PUtils2 SpecRq SpecBfv SpecKsk PRing PRingT PRq PRq2 PRq4 PRq5 TestEnv QRq PBfv PBfv2 PBfv3 PBfv4 PBfv5 QBfv PMul PKsk PKsk2 QKsk QCirc TestBfv PPrime PDefData PDef PSafe PSafe3 QNtt QDef.

(** C68: for degrees from 128 on, no parameters are ever returned. *)
Theorem C68_large_degree_refuted :
  forall pr env k n bd, (128 <= n)%nat -> Z.of_nat n < 2 ^ 64 -> bfv_default pr env k n bd = Panic.
Proof. exact C68_large_degree_refuted_lem. Qed.
Print Assumptions C68_large_degree_refuted.

(** C68: whenever default returns parameters, every fresh encryption decrypts
    to the message, for every key and all randomness. *)
Theorem C68_encrypt :
  forall pr env k n bd P c w0 sk pt rows w,
    env_exact env -> (k <= 31)%nat -> bfv_default pr env k n bd = Ok P -> level P 0 c ->
    (forall j, 0 <= w0 j < 2 ^ 64) -> sk_generate pr P w0 = Ok sk ->
    pt_params pt = P -> pt_level pt = 0%nat -> Forall (fun x => 0 <= x < 2 ^ 64) (pt_values pt) -> (length (pt_values pt) <= n)%nat ->
    wf_poly (mkPoly c Ntt rows) -> (forall j, 0 <= w j < 2 ^ 64) ->
    (ct <- encrypt pr sk pt rows w ;; decrypt pr sk ct)
    = Ok (mkPt P 0 EncNone (map (fun j => nth j (pt_values pt) 0 mod 1153) (seq 0 n))).
Proof. exact C68_encrypt_lem. Qed.
Print Assumptions C68_encrypt.

(** C68: with at least two moduli, every circuit of height at most 2k-2 over the
    homomorphic operations decrypts to its value, for every key and all
    randomness: no condition on the noise is left. *)
Theorem C68_circuit :
  forall pr env k n bd P c w0 sk d K pts cts e,
    env_exact env -> (2 <= k <= 31)%nat -> bfv_default pr env k n bd = Ok P -> level P 0 c ->
    (forall j, 0 <= w0 j < 2 ^ 64) -> sk_generate pr P w0 = Ok sk ->
    good_keys pr P 0 c sk d K -> Forall2 (good_pt P 0) (cd_in d) pts ->
    Forall2 (fun pt ct => exists rows w, wf_poly (mkPoly c Ntt rows) /\ (forall j, 0 <= w j < 2 ^ 64) /\ encrypt pr sk pt rows w = Ok ct) pts cts ->
    cplain 1153 d e -> (height e <= 2 * k - 2)%nat ->
    (ct <- run_circ pr K cts e ;; decrypt pr sk ct)
    = Ok (mkPt P 0 EncNone (map (fun j => cval n d e j mod 1153) (seq 0 n))).
Proof. exact C68_circuit_lem. Qed.
Print Assumptions C68_circuit.

(** C68: with an exact primality test, one non-residue among the numbers drawn
    per modulus, and at least 2k+1 suitable primes, default succeeds for the four
    degrees t = 1153 admits; its ciphertext moduli are the k largest 62-bit primes
    that are 1 modulo 2n and the extensions the next ones. *)
Theorem C68_default :
  forall pr env k n bd l,
    env_exact env -> (n = 8 \/ n = 16 \/ n = 32 \/ n = 64)%nat -> (1 <= k)%nat -> Z.of_nat k < 2 ^ 57 ->
    largest_primes n l -> length l = (2 * k + 1)%nat ->
    draws_root env 1153 -> Forall (draws_root env) l ->
    exists P, bfv_default pr env k n bd = Ok P
      /\ bp_degree P = n /\ bp_t P = 1153 /\ bp_variance P = 10 /\ bp_moduli P = firstn k l
      /\ forall i, (i < k)%nat -> exists c e, level P i c /\ get (bp_e_ctxs P) i = Ok e
           /\ rq_moduli_64 c = firstn (k - i) l
           /\ rq_moduli_64 e = firstn (k - i) l ++ firstn (k - i + 1) (skipn k l).
Proof. exact C68_default_lem. Qed.
Print Assumptions C68_default.

(** C68: whenever default returns parameters, the degree is one of the four and
    the moduli are those primes. *)
Theorem C68_moduli :
  forall pr env k n bd P l,
    env_exact env -> (k <= 31)%nat -> bfv_default pr env k n bd = Ok P -> largest_primes n l -> (k <= length l)%nat ->
    (n = 8 \/ n = 16 \/ n = 32 \/ n = 64)%nat /\ bp_degree P = n /\ bp_t P = 1153 /\ bp_moduli P = firstn k l.
Proof. exact C68_moduli_lem. Qed.
Print Assumptions C68_moduli.

(** C68: there are enough such primes for six moduli. *)
Theorem C68_primes :
  forall n, (n = 8 \/ n = 16 \/ n = 32 \/ n = 64)%nat -> exists l, largest_primes n l /\ length l = 13%nat.
Proof. exact C68_primes_lem. Qed.
Print Assumptions C68_primes.

(** The hypotheses can be met for every listed degree, ... *)
Example C68_example n k bd pr : (n = 8 \/ n = 16 \/ n = 32 \/ n = 64)%nat -> (1 <= k <= 2)%nat ->
  env_exact denv /\ exists P, bfv_default pr denv k n bd = Ok P.
Proof. intros H1 H2. split; [exact denv_exact|exact (default_exists pr k n bd H1 H2)]. Qed.
(** ... and the theorem on circuits applies to a product of two encryptions. *)
Example C68_circuit_example pr : exists P sk K cts,
  (ct <- run_circ pr K cts (Times (Input 0) (Input 1)) ;; decrypt pr sk ct) = Ok (mkPt P 0 EncNone [2; 3; 0; 2; 3; 0; 0; 0]).
Proof.
  destruct (circuit_hyps pr) as [P [c [w0 [sk [d [K [pts [cts [H1 [H2 [H3 [H4 [H5 [H6 [H7 [H8 H9]]]]]]]]]]]]]]]]. exists P, sk, K, cts.
  rewrite (C68_circuit pr denv 2 8 (mkBD 4 5) P c w0 sk d K pts cts _ denv_exact ltac:(lia) H1 H2 H3 H4 H5 H6 H7 H9 ltac:(cbn [height]; lia)).
  cbn [cval]. rewrite H8. vm_compute. reflexivity.
Qed.
