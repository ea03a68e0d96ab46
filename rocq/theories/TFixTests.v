(** Property theorems; the proofs are in QFixTests.v. *)
From Verif Require Import PBase NT Spec PSum MModulus MUtils MNtt MRns MRq MBfv MKsk MGalois MRgsw MCirc MFix PModulus PNttMath PNtt PCrt PRns PUtils SpecRq SpecBfv SpecKsk SpecCirc SpecSimd PRing PRingT PRq PRq2 PRq3 PBfv PBfv2 PBfv3 PBfv4 PKsk PKsk2 QKsk QBfv PNttNew QRot QCirc PSimd PSimd2 TestBfv MEval MRgswT MTests2 SpecDef PRnsScale PUtils2 PRq4 PRq5 TestEnv QRq PBfv5 PMul PGal QNtt PDefData PDef QDef QBudget QRgswT PEval PEval2 PClient QEval PPrime PDefData2 PDef2 PSafe PSafe3 MFix5 MFix3 SpecEval PFold PFold2 TestEval SpecAddr QAddr MSwitch SpecSwitch QSwitch MPvw SpecPvw QPvw QSimd QTests QTests2 QHelp QFixDef MTests MFixTests QFixPir PRetr PAsm QFixTests.

(** C89: the test [unpack] prints the values, the same values (padded with zeros up
    to the degree) and no mismatch, whatever the values below the plaintext modulus
    and the randomness (code: degree 64, 64 values below 100). *)
Theorem C89_unpack :
  forall pr env n P c wsk vals r rnd rk0 rk1, env_exact env -> (1 <= n)%nat -> Z.of_nat n <= 4096 ->
    eval_test_params pr env [50; 55; 55] n = Ok P -> level P 0 c ->
    (forall j, 0 <= wsk j < 2 ^ 64) -> enc_ok c r -> (forall i, rnd_ok c (rnd i)) -> rnd_ok c rk0 -> rnd_ok c rk1 ->
    (length vals <= n)%nat -> Forall (fun x => 0 <= x < 1785857) vals ->
    ftest_unpack pr env n wsk vals r rnd rk0 rk1 = Ok (vals, vals ++ repeat 0 (n - length vals), 0%nat).
Proof. exact C89_unpack_lem. Qed.
Print Assumptions C89_unpack.

(** C89: the test [client_encode] recovers the encoded query (code: degree 2048). *)
Theorem C89_client_encode :
  forall pr env n P c wsk0 wsk r rnd rk0 rk1, env_exact env -> (12 <= n)%nat -> Z.of_nat n <= 4096 ->
    eval_test_params pr env [50; 55; 55] n = Ok P -> level P 0 c ->
    (forall j, 0 <= wsk0 j < 2 ^ 64) -> (forall j, 0 <= wsk j < 2 ^ 64) -> enc_ok c r -> (forall i, rnd_ok c (rnd i)) -> rnd_ok c rk0 -> rnd_ok c rk1 ->
    ftest_client_encode pr env n wsk0 wsk r rnd rk0 rk1
    = Ok ([0; 0; 0; 1; 1; 0; 0; 0; 1; 0; 0; 0], [0; 0; 0; 1; 1; 0; 0; 0; 1; 0; 0; 0] ++ repeat 0 (n - 12)).
Proof. exact C89_client_encode_lem. Qed.
Print Assumptions C89_client_encode.

(** C89: the test [query] prints one result and the values of the requested entry,
    for every database of 16 entries and every position, at every degree up to 4096
    (code: entries [i; i; i; i], position 3, 1, 1, degree 64). *)
Theorem C89_query :
  forall pr env n P c db q0 q1 q2 wsk r rq rnd rk0 rk1, env_exact env -> (1 <= n)%nat -> Z.of_nat n <= 4096 ->
    eval_test_params pr env [62; 62; 62; 62] n = Ok P -> level P 0 c ->
    (forall j, 0 <= wsk j < 2 ^ 64) -> enc_ok c r -> rnd_ok c rq -> (forall i, rnd_ok c (rnd i)) -> rnd_ok c rk0 -> rnd_ok c rk1 ->
    (forall i, (i < 16)%nat -> (length (db i) <= n)%nat /\ Forall (fun x => 0 <= x < 1785857) (db i)) ->
    (q0 < 4)%nat -> (q1 < 2)%nat -> (q2 < 2)%nat ->
    let v := db (q0 + 4 * (q1 + 2 * q2))%nat in
    ftest_query pr env n db q0 q1 q2 wsk r rq rnd rk0 rk1 = Ok (1%nat, v ++ repeat 0 (n - length v)).
Proof. exact C89_query_lem. Qed.
Print Assumptions C89_query.

(** C89: the test [pack_and_construct_rgsw] passes: the product with the RGSW
    ciphertext built from the query and with the ideal one decrypt to the same
    values, b times the message (code: b = 1, degree 64). *)
Theorem C89_pack_and_construct :
  forall pr env n P c b wsk rnd rk0 rk1 rs ri0 ri1 m r1, env_exact env -> (1 <= n)%nat -> Z.of_nat n <= 4096 ->
    eval_test_params pr env [62; 62; 62; 62] n = Ok P -> level P 0 c -> 0 <= b < 1785857 ->
    (forall j, 0 <= wsk j < 2 ^ 64) -> (forall i, rnd_ok c (rnd i)) -> rnd_ok c rk0 -> rnd_ok c rk1 -> (forall i, enc_ok c (rs i)) ->
    rnd_ok c ri0 -> rnd_ok c ri1 -> (length m <= n)%nat -> Forall (fun x => 0 <= x < 1785857) m -> enc_ok c r1 ->
    ftest_pack_and_construct pr env n b wsk rnd rk0 rk1 rs ri0 ri1 m r1
    = Ok (map (fun x => (b * x) mod 1785857) (m ++ repeat 0 (n - length m))).
Proof. exact C89_pack_and_construct_lem. Qed.
Print Assumptions C89_pack_and_construct.

(** C89: the test [unpack_decomp] runs; it prints a number of bits for each of the n
    coefficients of each of the n differences, none above 124 (code: degree 8; the
    difference stays in the transformed representation). *)
Theorem C89_unpack_decomp :
  forall pr env n P c wsk rnd rk0 rk1 vals vals0 r rp, env_exact env -> (1 <= n)%nat -> Z.of_nat n <= 4096 ->
    eval_test_params pr env [62; 62; 62; 62] n = Ok P -> level P 0 c ->
    (forall j, 0 <= wsk j < 2 ^ 64) -> (forall i, rnd_ok c (rnd i)) -> rnd_ok c rk0 -> rnd_ok c rk1 -> enc_ok c r ->
    (length vals <= n)%nat -> Forall (fun x => 0 <= x < 2 ^ 64) vals -> length vals0 = n -> Forall (fun x => 0 <= x < 2 ^ 64) vals0 -> rp <> NttShoup ->
    exists ls, ftest_unpack_decomp pr env rp n wsk rnd rk0 rk1 vals vals0 r = Ok ls /\ length ls = n
      /\ Forall (fun l => length l = n /\ Forall (fun x => 0 <= x <= 124) l) ls.
Proof. exact C89_unpack_decomp_lem. Qed.
Print Assumptions C89_unpack_decomp.

(** C89: measured as intended, in the power basis and against the values that were
    encrypted, every printed number is at most the number of bits of
    20 n^2 2^64, which is 75 for the degree 8 of the test. *)
Theorem C89_unpack_decomp_noise :
  forall pr env n P c wsk rnd rk0 rk1 vals r, env_exact env -> (1 <= n)%nat -> Z.of_nat n <= 4096 ->
    eval_test_params pr env [62; 62; 62; 62] n = Ok P -> level P 0 c ->
    (forall j, 0 <= wsk j < 2 ^ 64) -> (forall i, rnd_ok c (rnd i)) -> rnd_ok c rk0 -> rnd_ok c rk1 -> enc_ok c r ->
    length vals = n -> Forall (fun x => 0 <= x < 2 ^ 64) vals ->
    exists ls, ftest_unpack_decomp pr env PowerBasis n wsk rnd rk0 rk1 vals vals r = Ok ls /\ length ls = n
      /\ Forall (fun l => length l = n /\ Forall (fun x => 0 <= x <= Z.log2 (20 * Z.of_nat n * Z.of_nat n * 2 ^ 64) + 1) l) ls.
Proof. exact C89_unpack_decomp_noise_lem. Qed.
Print Assumptions C89_unpack_decomp_noise.

(** C89: with the repaired slot map the test [encrypt_decrypt] passes for all values
    and all randomness. *)
Theorem C89_encrypt_decrypt :
  forall pr env P c wsk vals r1 r2, env_exact env -> bfv_default pr env 6 8 (mkBD 4 8) = Ok P -> level P 0 c ->
    (forall j, 0 <= wsk j < 2 ^ 64) -> enc_ok c r1 -> enc_ok c r2 ->
    length vals = 8%nat -> Forall (fun x => 0 <= x < 1153) vals ->
    ftest_encrypt_decrypt pr env wsk vals r1 r2 = Ok tt.
Proof. exact C89_encrypt_decrypt_lem. Qed.
Print Assumptions C89_encrypt_decrypt.

(** C89: with the repaired slot map the test [simd_slot_rotations] prints the values
    and the values with the two rows swapped, which is what exponent 15 stands for. *)
Theorem C89_simd_slot_rotations :
  forall pr env P c wsk v0 v1 v2 v3 v4 v5 v6 v7 r rk, env_exact env -> bfv_default pr env 6 8 (mkBD 4 8) = Ok P -> level P 0 c ->
    (forall j, 0 <= wsk j < 2 ^ 64) -> enc_ok c r -> rnd_ok c rk ->
    Forall (fun x => 0 <= x < 1153) [v0; v1; v2; v3; v4; v5; v6; v7] ->
    ftest_simd_slot_rotations pr env wsk [v0; v1; v2; v3; v4; v5; v6; v7] r rk
    = Ok ([v0; v1; v2; v3; v4; v5; v6; v7], [v4; v5; v6; v7; v0; v1; v2; v3]).
Proof. exact C89_simd_slot_rotations_lem. Qed.
Print Assumptions C89_simd_slot_rotations.

(** The hypotheses of the theorems on the evaluation tests hold together at degree
    64, and the theorems say there what the tests print. *)
Example C89_params_example pr : env_exact denv
  /\ (exists P c r rk, eval_test_params pr denv [50; 55; 55] 64 = Ok P /\ level P 0 c /\ enc_ok c r /\ rnd_ok c rk)
  /\ (exists P c r rk, eval_test_params pr denv [62; 62; 62; 62] 64 = Ok P /\ level P 0 c /\ enc_ok c r /\ rnd_ok c rk).
Proof. split; [exact denv_exact|exact (ev_hyps pr)]. Qed.
Example C89_unpack_example pr : exists r rk, ftest_unpack pr denv 64 (fun _ => 7) [3; 5] r (fun _ => rk) rk rk = Ok ([3; 5], [3; 5] ++ repeat 0 62, 0%nat).
Proof.
  destruct (ev_hyps pr) as [[P [c [r [rk [E [L [R1 R2]]]]]]] _]. exists r, rk.
  apply (C89_unpack pr denv 64 P c (fun _ => 7) [3; 5] r (fun _ => rk) rk rk denv_exact); auto; try lia; [cbn [length]; lia|repeat constructor; lia].
Qed.
(** The database of the test [query]: the entry at (3, 1, 0) is the seventh. *)
Example C89_query_example pr : exists r rk, ftest_query pr denv 64 (fun i => repeat (Z.of_nat i) 4) 3 1 0 (fun _ => 7) r rk (fun _ => rk) rk rk = Ok (1%nat, [7; 7; 7; 7] ++ repeat 0 60).
Proof.
  destruct (ev_hyps pr) as [_ [P [c [r [rk [E [L [R1 R2]]]]]]]]. exists r, rk.
  apply (C89_query pr denv 64 P c (fun i => repeat (Z.of_nat i) 4) 3 1 0 (fun _ => 7) r rk (fun _ => rk) rk rk denv_exact); auto; try lia.
  intros i Hi. cbn [repeat length]. split; [lia|repeat constructor; lia].
Qed.
Example C89_encrypt_decrypt_example pr : exists r rk,
  ftest_encrypt_decrypt pr denv (fun _ => 7) [0; 1; 2; 3; 4; 5; 6; 7] r r = Ok tt
  /\ ftest_simd_slot_rotations pr denv (fun _ => 7) [0; 1; 2; 3; 4; 5; 6; 7] r rk = Ok ([0; 1; 2; 3; 4; 5; 6; 7], [4; 5; 6; 7; 0; 1; 2; 3]).
Proof.
  destruct (test_params pr 6 ltac:(lia)) as [P [c [r [rk [_ [EX [EP [L [R1 [R2 _]]]]]]]]]]. exists r, rk. split.
  - apply (C89_encrypt_decrypt pr denv P c); auto; [lia|repeat constructor; lia].
  - apply (C89_simd_slot_rotations pr denv P c); auto; [lia|repeat constructor; lia].
Qed.
