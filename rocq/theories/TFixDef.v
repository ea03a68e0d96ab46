(** Property theorems; the proofs are in QFixDef.v. *)
From Verif Require Import PBase NT Spec PSum MModulus MUtils MNtt MRns MRq MBfv MKsk MGalois MRgsw MCirc SpecCirc SpecDef PModulus PUtils PNttMath PNtt PNttNew PCrt PRns PRnsScale PUtils2 SpecRq SpecBfv SpecKsk PRing PRingT PRq PRq2 PRq4 PRq5 TestEnv QRq PBfv PBfv2 PBfv3 PBfv4 PBfv5 QBfv PMul PKsk PKsk2 QKsk QCirc TestBfv PPrime PDefData PDef PDefData2 PDef2 PSafe PSafe3 QNtt MFix5 QDef MEval MFix3 SpecEval PEval PEval2 PAsm PFold PFold2 PClient PRetr TestEval QEval SpecAddr QAddr MSwitch SpecSwitch QSwitch QBudget QFixPir MPvw SpecPvw QPvw QFixDef.

(** C88: for degrees above 2^15 the repaired default panics. *)
Theorem C88_degree :
  forall pr env k n bd, 2 ^ 16 <= Z.of_nat n -> Z.of_nat n < 2 ^ 64 -> bfv_default_fixed pr env k n bd = Panic.
Proof. exact C88_degree_lem. Qed.
Print Assumptions C88_degree.

(** C88: under the repaired default every fresh encryption decrypts to its
    message, for every degree it accepts, every key and all randomness. *)
Theorem C88_encrypt :
  forall pr env k n bd P c w0 sk pt rows w,
    env_exact env -> (k <= 31)%nat -> bfv_default_fixed pr env k n bd = Ok P -> level P 0 c ->
    (forall j, 0 <= w0 j < 2 ^ 64) -> sk_generate pr P w0 = Ok sk ->
    pt_params pt = P -> pt_level pt = 0%nat -> Forall (fun x => 0 <= x < 2 ^ 64) (pt_values pt) -> (length (pt_values pt) <= n)%nat ->
    wf_poly (mkPoly c Ntt rows) -> (forall j, 0 <= w j < 2 ^ 64) ->
    (ct <- encrypt pr sk pt rows w ;; decrypt pr sk ct)
    = Ok (mkPt P 0 EncNone (map (fun j => nth j (pt_values pt) 0 mod 65537) (seq 0 n))).
Proof. exact C88_encrypt_lem. Qed.
Print Assumptions C88_encrypt.

(** C88: under the repaired default with k >= 2 moduli and degree up to 4096,
    every circuit of height h with 3h + 4 <= 4k decrypts to its value. *)
Theorem C88_circuit :
  forall pr env k n bd P c w0 sk d K pts cts e,
    env_exact env -> (2 <= k <= 31)%nat -> bfv_default_fixed pr env k n bd = Ok P -> level P 0 c ->
    (forall j, 0 <= w0 j < 2 ^ 64) -> sk_generate pr P w0 = Ok sk ->
    good_keys pr P 0 c sk d K -> Forall2 (good_pt P 0) (cd_in d) pts ->
    Forall2 (fun pt ct => exists rows w, wf_poly (mkPoly c Ntt rows) /\ (forall j, 0 <= w j < 2 ^ 64) /\ encrypt pr sk pt rows w = Ok ct) pts cts ->
    cplain 65537 d e -> (3 * height e + 4 <= 4 * k)%nat -> Z.of_nat n <= 4096 ->
    (ct <- run_circ pr K cts e ;; decrypt pr sk ct)
    = Ok (mkPt P 0 EncNone (map (fun j => cval n d e j mod 65537) (seq 0 n))).
Proof. exact C88_circuit_lem. Qed.
Print Assumptions C88_circuit.

(** C88: [default] with any prime plaintext modulus t that is 1 modulo 2n succeeds
    under the conditions of C68, for every power of two n >= 8. *)
Theorem C88_default :
  forall pr env t k n bd l,
    env_exact env -> prime t -> t < 2 ^ 61 -> t mod (2 * Z.of_nat n) = 1 -> (exists g, (3 <= g)%nat /\ n = (2 ^ g)%nat) -> (1 <= k)%nat -> Z.of_nat k < 2 ^ 57 ->
    largest_primes n l -> length l = (2 * k + 1)%nat ->
    draws_root env t -> Forall (draws_root env) l ->
    exists P, bfv_default_with pr env t k n bd = Ok P
      /\ bp_degree P = n /\ bp_t P = t /\ bp_variance P = 10 /\ bp_moduli P = firstn k l
      /\ forall i, (i < k)%nat -> exists c e, level P i c /\ get (bp_e_ctxs P) i = Ok e
           /\ rq_moduli_64 c = firstn (k - i) l
           /\ rq_moduli_64 e = firstn (k - i) l ++ firstn (k - i + 1) (skipn k l).
Proof. exact C88_default_lem. Qed.
Print Assumptions C88_default.

(** C88: under the repaired default with four or more moduli and degree up to
    4096, the repaired retrieval returns the entry asked for, for every shape,
    every position, every key and all randomness. *)
Theorem C88_retrieve :
  forall pr env k n bd P c w sk first dim d ix db rows0 w0 rndq rnd rnd0 rnd1,
    env_exact env -> (4 <= k <= 31)%nat -> bfv_default_fixed pr env k n bd = Ok P -> level P 0 c ->
    (forall j, 0 <= w j < 2 ^ 64) -> sk_generate pr P w = Ok sk ->
    wf_poly (mkPoly c Ntt rows0) -> (forall k, 0 <= w0 k < 2 ^ 64) -> rnd_ok c rndq ->
    (forall i, rnd_ok c (rnd i)) -> rnd_ok c rnd0 -> rnd_ok c rnd1 ->
    Z.of_nat n <= 4096 -> (2 <= dim)%nat -> (first + dim * d <= n)%nat ->
    length db = (first * dim ^ d)%nat -> Z.of_nat (length db) < 2 ^ 64 -> Forall (entry_ok n) db ->
    (ix < length db)%nat ->
    exists p, nth_error db ix = Some p
      /\ (enc <- client_encode_fixed (mkClient first dim) (address first dim d ix) (length db) ;;
          cts <- client_query pr sk P first enc rows0 w0 rndq ;;
          ev <- eval_build pr sk P rnd rnd0 rnd1 ;;
          srv <- server_new pr first dim db P ;;
          out <- server_decode_fixed pr srv cts ev P ;;
          mapM (decrypt pr sk) out)
         = Ok [mkPt P 0 EncNone (map (fun j => nth j (pt_values p) 0 mod 65537) (seq 0 n))].
Proof. exact C88_retrieve_lem. Qed.
Print Assumptions C88_retrieve.

(** C88: there are enough such primes for four moduli, for every degree from
    2^3 to 2^12. *)
Theorem C88_primes :
  forall g, (3 <= g <= 12)%nat -> exists l, largest_primes (2 ^ g) l /\ length l = 9%nat.
Proof. exact C88_primes_lem. Qed.
Print Assumptions C88_primes.

(** C88: the repaired default succeeds for every power of two from 2^3 to 2^12 and
    up to four moduli, if the primality test is exact and the numbers drawn for
    65537 and for each of the 2k+1 largest primes contain a non-residue. *)
Theorem C88_fixed :
  forall g, (3 <= g <= 12)%nat -> exists l, largest_primes (2 ^ g) l /\ length l = 9%nat
    /\ forall pr env k bd, (1 <= k <= 4)%nat -> env_exact env -> draws_root env 65537 -> Forall (draws_root env) (firstn (2 * k + 1) l) ->
         exists P, bfv_default_fixed pr env k (2 ^ g) bd = Ok P
           /\ bp_degree P = (2 ^ g)%nat /\ bp_t P = 65537 /\ bp_variance P = 10 /\ bp_moduli P = firstn k l.
Proof. exact C88_fixed_lem. Qed.
Print Assumptions C88_fixed.

(** C88: the 1153 of the code is the instance t = 1153; a 65537 in its place is the
    only change. *)
Theorem C88_agree :
  forall pr env k n bd, bfv_default_with pr env 1153 k n bd = bfv_default pr env k n bd
    /\ bfv_default_with pr env 65537 k n bd = bfv_default_fixed pr env k n bd.
Proof. exact C88_agree_lem. Qed.
Print Assumptions C88_agree.

(** C88: the repaired PVW default always decrypts correctly. *)
Theorem C88_pvw :
  forall pr sk a w m e, let P := pvw_default_fixed in
    matrix (pv_q P) (pv_ell P) (pv_n P) sk -> matrix (pv_q P) (pv_m P) (pv_n P) a ->
    (forall l k, 0 <= w l k < 2 ^ 64) -> bits (pv_ell P) m -> bits (pv_m P) e ->
    (pk <- pvw_gen_pk pr sk P a w ;; ct <- pvw_encrypt pr pk P m e ;; pvw_decrypt pr sk P ct) = Ok m.
Proof. exact C88_pvw_lem. Qed.
Print Assumptions C88_pvw.

(** The repaired default returns parameters for degree 4096; the default of the
    code panics there. *)
Example C88_example pr bd :
  env_exact denv /\ (exists P, bfv_default_fixed pr denv 4 (2 ^ 12) bd = Ok P) /\ bfv_default pr denv 4 (2 ^ 12) bd = Panic.
Proof.
  split; [exact denv_exact|]. split; [exact (fixed_exists pr bd)|].
  assert (G : (2 ^ 7 <= 2 ^ 12)%nat) by (apply Nat.pow_le_mono_r; lia).
  apply C68_large_degree_refuted_lem; [exact G|]. rewrite Nat2Z.inj_pow. apply Z.pow_lt_mono_r; lia.
Qed.
(** The theorem on retrieval applies to degree 4096 and a database of 8 x 3 x 3
    entries: asking for position 41 returns 41 + 7X. *)
Example C88_retrieve_example pr : exists P c sk rows0 w0 rnd, level P 0 c /\ bfv_default_fixed pr denv 4 (2 ^ 12) (mkBD 4 5) = Ok P
  /\ (enc <- client_encode_fixed (mkClient 8 3) (address 8 3 2 41) 72 ;;
      cts <- client_query pr sk P 8 enc rows0 w0 rnd ;;
      ev <- eval_build pr sk P (fun _ => rnd) rnd rnd ;;
      srv <- server_new pr 8 3 (fixed_db P) P ;;
      out <- server_decode_fixed pr srv cts ev P ;;
      mapM (decrypt pr sk) out)
     = Ok [mkPt P 0 EncNone (map (fun j => nth j [41; 7] 0 mod 65537) (seq 0 (2 ^ 12)))].
Proof.
  destruct (fixed_hyps pr) as [P [c [w [sk [rows0 [rnd [H1 [H2 [H3 [H4 [H5 [H6 [H7 [H8 H9]]]]]]]]]]]]]].
  exists P, c, sk, rows0, w, rnd. split; [exact H2|]. split; [exact H1|].
  destruct (C88_retrieve pr denv 4 (2 ^ 12)%nat (mkBD 4 5) P c w sk 8 3 2 41 (fixed_db P) rows0 w rnd (fun _ => rnd) rnd rnd) as [p [E1 E2]]; auto; try (clear; lia).
  - exact denv_exact.
  - rewrite H7. reflexivity.
  - rewrite H7. apply Nat.ltb_lt. reflexivity.
  - rewrite H7 in E2. injection E1 as <-. exact E2.
Qed.
(** 4096 rows with error 4 no longer change a bit: an error below q/4 = 196608 is harmless. *)
Example C88_pvw_example : 4 * Z.of_nat (pv_m pvw_default_fixed) < 196608 /\ 196608 = pv_q pvw_default_fixed / 4 /\ pv_q pvw_default / 4 = 4 * 4096.
Proof. repeat split; vm_compute; reflexivity. Qed.
