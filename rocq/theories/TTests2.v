(** Property theorems; the proofs are in QTests2.v. *)
From Verif Require Import PBase NT Spec PSum MModulus MUtils MNtt MRns MRq MBfv MKsk MGalois MRgsw MEval MCirc MRgswT MTests MTests2 SpecCirc SpecDef PModulus PUtils PNttMath PNtt PNttNew PCrt PRns PRnsScale PUtils2 SpecRq SpecBfv SpecKsk PRing PRingT PRq PRq2 PRq3 PRq4 PRq5 TestEnv QRq PBfv PBfv2 PBfv3 PBfv4 PBfv5 QBfv PMul PKsk PKsk2 PGal QKsk QCirc QNtt PDefData PDef QDef QBudget QRgswT PEval PEval2 PClient PRetr QEval QRot QTests QTests2.

(** C72: construct_ntt_operator passes unless the first hundred draws are all
    quadratic residues (or zero). *)
Theorem C72_construct_ntt_operator :
  forall pr env, (forall k, 0 <= draw env 4611686018427387761 k < 4611686018427387761) ->
    (draws_root env 4611686018427387761 -> test_construct_ntt_operator pr env = Ok tt)
    /\ (~ draws_root env 4611686018427387761 -> test_construct_ntt_operator pr env = Panic).
Proof. exact C72_construct_ntt_operator_lem. Qed.
Print Assumptions C72_construct_ntt_operator.

(** C72: trial prints 10000 as the constant coefficient, whatever is drawn. *)
Theorem C72_trial :
  forall pr env P c wsk r, env_exact env -> bfv_new pr env 8 1785857 trial_moduli 10 (mkBD 4 8) = Ok P -> level P 0 c ->
    (forall j, 0 <= wsk j < 2 ^ 64) -> enc_ok c r ->
    test_trial pr env wsk r = Ok (mkPt P 0 EncNone [10000; 0; 0; 0; 0; 0; 0; 0]).
Proof. exact C72_trial_lem. Qed.
Print Assumptions C72_trial.

(** C72: simd_slot_rotations prints the drawn values and, instead of their
    rotation, two of them among zeros. *)
Theorem C72_simd_slot_rotations :
  forall pr env P c wsk v0 v1 v2 v3 v4 v5 v6 v7 r rk, env_exact env -> bfv_default pr env 6 8 (mkBD 4 8) = Ok P -> level P 0 c ->
    (forall j, 0 <= wsk j < 2 ^ 64) -> enc_ok c r -> rnd_ok c rk ->
    Forall (fun x => 0 <= x < 1153) [v0; v1; v2; v3; v4; v5; v6; v7] ->
    test_simd_slot_rotations pr env wsk [v0; v1; v2; v3; v4; v5; v6; v7] r rk
    = Ok ([v0; v1; v2; v3; v4; v5; v6; v7], [0; v6; 0; 0; v1; 0; v1; 0]).
Proof. exact C72_simd_slot_rotations_lem. Qed.
Print Assumptions C72_simd_slot_rotations.

Theorem C72_rgsw_encrypt_poly :
  forall pr env t ms P c wsk sk rk0 rk1 rx0 rx1, env_exact env ->
    generate_prime pr (is_prime env) 60 2097152 (2 ^ 60 - 1) = Ok (Some t) -> generate_moduli pr env [61; 61; 61] 64 = Ok (Some ms) ->
    bfv_new pr env 64 t ms 10 (mkBD 4 8) = Ok P -> level P 0 c ->
    (forall j, 0 <= wsk j < 2 ^ 64) -> sk_generate pr P wsk = Ok sk ->
    rnd_ok c rk0 -> rnd_ok c rk1 -> rnd_ok c rx0 -> rnd_ok c rx1 ->
    exists out, test_rgsw_encrypt_poly pr env wsk rk0 rk1 rx0 rx1 = Ok out /\ length out = 3%nat
      /\ forall i, (i < 3)%nat -> length (nth i out []) = 64%nat
      /\ forall j G, (j < 64)%nat -> gadget c G -> exists e e', Z.abs e <= 20 /\ Z.abs e' < 2 ^ 74
         /\ nth j (nth i out []) (0, 0, 0)
            = let Q := zprod ms in let x := G i * nth j (sk_coeffs sk) 0 in
              (bitlen (Q - (x + e) mod Q), bitlen (Q - (x + e') mod Q), bitlen (Q - (e - e') mod Q)).
Proof. exact C72_rgsw_encrypt_poly_lem. Qed.
Print Assumptions C72_rgsw_encrypt_poly.

(** The hypotheses of the theorems on trial and on encrypt_poly hold together,
    and both verdicts of construct_ntt_operator occur. *)
Example C72_trial_example pr : exists P c r, env_exact denv /\ bfv_new pr denv 8 1785857 trial_moduli 10 (mkBD 4 8) = Ok P /\ level P 0 c /\ enc_ok c r.
Proof. exact (trial_params pr). Qed.
Example C72_rgsw_example pr : exists t ms P c rk, env_exact denv /\ generate_prime pr (is_prime denv) 60 2097152 (2 ^ 60 - 1) = Ok (Some t)
  /\ generate_moduli pr denv [61; 61; 61] 64 = Ok (Some ms) /\ bfv_new pr denv 64 t ms 10 (mkBD 4 8) = Ok P /\ level P 0 c /\ rnd_ok c rk.
Proof. exact (rgsw_test_params pr). Qed.
Example C72_root_example : test_construct_ntt_operator Debug (mkEnv (fun _ => true) (fun _ _ => 3)) = Ok tt
  /\ test_construct_ntt_operator Debug (mkEnv (fun _ => true) (fun _ _ => 1)) = Panic.
Proof. exact root_verdicts. Qed.
