(** Property theorems; the proofs are in QTests.v. *)
From Verif Require Import PBase NT Spec PSum MModulus MUtils MNtt MRns MRq MBfv MKsk MGalois MRgsw MEval MCirc MRgswT MTests SpecCirc SpecDef PModulus PUtils PNttMath PNtt PNttNew PCrt PRns PRnsScale PUtils2 SpecRq SpecBfv SpecKsk PRing PRingT PRq PRq2 PRq3 PRq4 PRq5 TestEnv QRq PBfv PBfv2 PBfv3 PBfv4 PBfv5 QBfv PMul PKsk PKsk2 PGal QKsk QCirc QNtt PDefData PDef QDef QBudget QRgswT PEval PEval2 PClient PRetr QEval QTests.

(** C72: the transform test passes. *)
Theorem C72_bijection :
  forall pr env m op vals, env_ok env -> modulus_new 1153 = Ok m -> ntt_new pr env m 8 = Ok op ->
    length vals = 8%nat -> Forall (fun x => 0 <= x < 1153) vals ->
    test_bijection pr env vals = Ok tt.
Proof. exact C72_bijection_lem. Qed.
Print Assumptions C72_bijection.

(** C72: the change of representation test passes. *)
Theorem C72_change_representation :
  forall pr env P c rows, env_exact env -> bfv_default pr env 1 8 (mkBD 4 8) = Ok P -> level P 0 c ->
    wf_poly (mkPoly c PowerBasis rows) -> test_change_representation pr env rows = Ok tt.
Proof. exact C72_change_representation_lem. Qed.
Print Assumptions C72_change_representation.

Theorem C72_substitute :
  forall pr env c rows, env_ok env -> rq_new pr env test_moduli 8 (mkBD 4 8) = Ok c ->
    wf_poly (mkPoly c PowerBasis rows) ->
    test_substitute pr env rows = Ok (mkPoly c PowerBasis rows, mkPoly c PowerBasis rows).
Proof. exact C72_substitute_lem. Qed.
Print Assumptions C72_substitute.

Theorem C72_mod_switch :
  forall pr env c rows, env_ok env -> rq_new pr env test_moduli 8 (mkBD 4 3) = Ok c ->
    wf_poly (mkPoly c PowerBasis rows) -> test_mod_switch pr env rows = Ok tt.
Proof. exact C72_mod_switch_lem. Qed.
Print Assumptions C72_mod_switch.

Theorem C72_encrypt_decrypt_poly :
  forall pr env k P c wsk sk vals r, env_exact env -> (1 <= k <= 31)%nat -> bfv_default pr env k 8 (mkBD 4 8) = Ok P -> level P 0 c ->
    (forall j, 0 <= wsk j < 2 ^ 64) -> sk_generate pr P wsk = Ok sk -> enc_ok c r ->
    length vals = 8%nat -> Forall (fun x => 0 <= x < 1153) vals ->
    test_encrypt_decrypt_poly pr P sk vals r = Ok tt.
Proof. exact C72_encrypt_decrypt_poly_lem. Qed.
Print Assumptions C72_encrypt_decrypt_poly.

Theorem C72_encrypt_decrypt_simd :
  forall pr env k P c wsk sk vals r, env_exact env -> (1 <= k <= 31)%nat -> bfv_default pr env k 8 (mkBD 4 8) = Ok P -> level P 0 c ->
    (forall j, 0 <= wsk j < 2 ^ 64) -> sk_generate pr P wsk = Ok sk -> enc_ok c r ->
    length vals = 8%nat -> Forall (fun x => 0 <= x < 1153) vals ->
    test_encrypt_decrypt_simd pr P sk vals r = if simd_same vals then Ok tt else Panic.
Proof. exact C72_encrypt_decrypt_simd_lem. Qed.
Print Assumptions C72_encrypt_decrypt_simd.

Theorem C72_encrypt_decrypt :
  forall pr env P c wsk vals r1 r2, env_exact env -> bfv_default pr env 6 8 (mkBD 4 8) = Ok P -> level P 0 c ->
    (forall j, 0 <= wsk j < 2 ^ 64) -> enc_ok c r1 -> enc_ok c r2 ->
    length vals = 8%nat -> Forall (fun x => 0 <= x < 1153) vals ->
    test_encrypt_decrypt pr env wsk vals r1 r2 = if simd_same vals then Ok tt else Panic.
Proof. exact C72_encrypt_decrypt_lem. Qed.
Print Assumptions C72_encrypt_decrypt.

(** C72: the Galois key test passes. *)
Theorem C72_galois_key :
  forall pr env P c pc wsk v r rk, env_exact env -> bfv_default pr env 2 8 (mkBD 4 8) = Ok P -> level P 0 c ->
    rq_new pr env [1153] 8 (mkBD 4 8) = Ok pc -> (forall j, 0 <= wsk j < 2 ^ 64) -> enc_ok c r -> rnd_ok c rk ->
    length v = 8%nat -> Forall (fun x => 0 <= x < 1153) v ->
    test_galois_key pr env wsk v r rk = Ok tt.
Proof. exact C72_galois_key_lem. Qed.
Print Assumptions C72_galois_key.

Theorem C72_external_product :
  forall pr env P c pc wsk v1 v2 r rk0 rk1, env_exact env -> bfv_default pr env 6 8 (mkBD 4 8) = Ok P -> level P 0 c ->
    rq_new pr env [1153] 8 (mkBD 4 8) = Ok pc -> (forall j, 0 <= wsk j < 2 ^ 64) -> enc_ok c r -> rnd_ok c rk0 -> rnd_ok c rk1 ->
    length v1 = 8%nat -> Forall (fun x => 0 <= x < 1153) v1 -> length v2 = 8%nat -> Forall (fun x => 0 <= x < 1153) v2 ->
    test_external_product pr env wsk v1 v2 r rk0 rk1 = Ok tt.
Proof. exact C72_external_product_lem. Qed.
Print Assumptions C72_external_product.

(** C72: the multiplication test prints 20000 mod 1153 = 399. *)
Theorem C72_mul_op :
  forall pr env P c wsk r1 r2 rk, env_exact env -> bfv_default pr env 6 8 (mkBD 4 8) = Ok P -> level P 0 c ->
    (forall j, 0 <= wsk j < 2 ^ 64) -> enc_ok c r1 -> enc_ok c r2 -> rnd_ok c rk ->
    test_mul_op pr env wsk r1 r2 rk = Ok [399; 0; 0; 0; 0; 0; 0; 0].
Proof. exact C72_mul_op_lem. Qed.
Print Assumptions C72_mul_op.

(** C72: the key-switching test would always pass with the limit 71 ... *)
Theorem C72_ksk_71 :
  forall pr env P c wsk fr ir rk, env_exact env -> bfv_default pr env 2 8 (mkBD 4 8) = Ok P -> level P 0 c ->
    (forall j, 0 <= wsk j < 2 ^ 64) -> wf_poly (mkPoly c Ntt fr) -> wf_poly (mkPoly c PowerBasis ir) -> rnd_ok c rk ->
    test_ksk pr env 71 wsk fr ir rk = Ok tt.
Proof. exact C72_ksk_71_lem. Qed.
Print Assumptions C72_ksk_71.

Theorem C72_ksk_refuted :
  forall pr env P c wsk fr masks, env_exact env -> bfv_default pr env 2 8 (mkBD 4 8) = Ok P -> level P 0 c ->
    (forall j, 0 <= wsk j < 2 ^ 64) -> wf_poly (mkPoly c Ntt fr) -> (forall i, (i < 2)%nat -> wf_poly (mkPoly c Ntt (masks i))) ->
    exists ir words, wf_poly (mkPoly c PowerBasis ir) /\ rnd_ok c (mkRnd masks words)
      /\ test_ksk pr env 70 wsk fr ir (mkRnd masks words) = Panic.
Proof. exact C72_ksk_refuted_lem. Qed.
Print Assumptions C72_ksk_refuted.

(** C72: the test of key-switching keys for plaintexts prints 5 * 34 = 170. *)
Theorem C72_ksk_with_pt :
  forall pr env P c wsk rk, env_exact env -> bfv_default pr env 2 8 (mkBD 4 8) = Ok P -> level P 0 c ->
    (forall j, 0 <= wsk j < 2 ^ 64) -> rnd_ok c rk ->
    test_ksk_with_pt pr env wsk rk = Ok [170; 0; 0; 0; 0; 0; 0; 0].
Proof. exact C72_ksk_with_pt_lem. Qed.
Print Assumptions C72_ksk_with_pt.

(** C72: the test of keys derived from RGSW ciphertexts prints 2 * 2 * 3 = 12. *)
Theorem C72_ksk_from_rgsw :
  forall pr env P c wsk rk rk0 rk1, env_exact env -> bfv_default pr env 6 8 (mkBD 4 8) = Ok P -> level P 0 c ->
    (forall j, 0 <= wsk j < 2 ^ 64) -> rnd_ok c rk -> rnd_ok c rk0 -> rnd_ok c rk1 ->
    test_ksk_from_rgsw pr env wsk rk rk0 rk1 = Ok [12; 0; 0; 0; 0; 0; 0; 0].
Proof. exact C72_ksk_from_rgsw_lem. Qed.
Print Assumptions C72_ksk_from_rgsw.

(** C72: the test of RGSW ciphertexts completed from half prints the random
    values plus the errors of their unscaled encryption. *)
Theorem C72_full_from_half :
  forall pr env P c wsk rk rk0 rk1 m_values r, env_exact env -> bfv_default pr env 3 8 (mkBD 4 8) = Ok P -> level P 0 c ->
    (forall j, 0 <= wsk j < 2 ^ 64) -> rnd_ok c rk -> rnd_ok c rk0 -> rnd_ok c rk1 -> enc_ok c r ->
    length m_values = 8%nat -> Forall (fun x => 0 <= x < 1153) m_values ->
    test_full_from_half pr env wsk rk rk0 rk1 m_values r
    = Ok (map (fun j => (nth j m_values 0 + cbd_f (re_words r) 10 j) mod 1153) (seq 0 8)).
Proof. exact C72_full_from_half_lem. Qed.
Print Assumptions C72_full_from_half.

Theorem C72_evaluation_refuted :
  forall pr P c wsk wsk' vals r rq rnd rk0 rk1 rs A (rest : list Ct -> outcome A) (rest' : list (list Ct) -> outcome A),
    built_params P -> level P 0 c -> 1 <= bp_variance P <= 16 -> length (bp_moduli P) <> 1%nat -> small_degree pr (bp_degree P) ->
    (forall j, 0 <= wsk j < 2 ^ 64) -> (forall j, 0 <= wsk' j < 2 ^ 64) -> enc_ok c r -> rnd_ok c rq ->
    (forall i, rnd_ok c (rnd i)) -> rnd_ok c rk0 -> rnd_ok c rk1 -> (forall i, enc_ok c (rs i)) ->
    Forall (fun x => 0 <= x < 2 ^ 64) vals -> (length vals <= bp_degree P)%nat ->
    test_pack_and_construct pr A P wsk rnd rk0 rk1 rs rest' = Panic
    /\ test_query pr A P wsk r rq rnd rk0 rk1 rest = Panic
    /\ ((12 <= bp_degree P)%nat -> test_client_encode pr A P wsk wsk' r rnd rk0 rk1 rest = Panic)
    /\ test_unpack_decomp pr A P wsk vals r rnd rk0 rk1 rest = Panic
    /\ test_unpack pr A P wsk vals r rnd rk0 rk1 rest = Panic.
Proof. exact C72_evaluation_refuted_lem. Qed.
Print Assumptions C72_evaluation_refuted.

(** C72: the two tests of bit decompositions pass. *)
Theorem C72_utils : forall pr, test_decompose_bits pr = Ok tt /\ test_bit_vector pr = Ok tt.
Proof. exact C72_utils_lem. Qed.
Print Assumptions C72_utils.

(** The hypotheses of the theorems on default parameters hold together, for the
    numbers of moduli the tests use (1, 2, 3 and 6). *)
Example C72_params_example pr k : (1 <= k <= 6)%nat -> exists P c r rk prows,
  env_exact denv /\ bfv_default pr denv k 8 (mkBD 4 8) = Ok P /\ level P 0 c /\ enc_ok c r /\ rnd_ok c rk /\ wf_poly (mkPoly c PowerBasis prows)
  /\ built_params P /\ bp_variance P = 10 /\ length (bp_moduli P) = k /\ bp_degree P = 8%nat.
Proof. exact (test_params pr k). Qed.
(** The contexts of the other tests can be constructed. *)
Example C72_contexts_example pr bd : (exists c, rq_new pr denv test_moduli 8 bd = Ok c) /\ (exists c, rq_new pr denv [1153] 8 bd = Ok c).
Proof. split; apply test_context; auto. Qed.
Example C72_ntt_example : exists m op, modulus_new 1153 = Ok m /\ ntt_new Debug tenv m 8 = Ok op.
Proof. eexists. eexists. split; [vm_compute; reflexivity|]. vm_compute. reflexivity. Qed.
