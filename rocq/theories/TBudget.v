(** Property theorems; the proofs are in QBudget.v. *)
From Verif Require Import PBase NT Spec PSum MModulus MUtils MNtt MRns MRq MBfv MKsk MGalois MRgsw MCirc MEval MSwitch SpecDef SpecSwitch PModulus PUtils SpecRq SpecBfv SpecKsk SpecEval PRing PRingT PCrt PRq PRq2 PRq3 PRq4 PRq5 QRq PBfv PBfv2 PBfv3 QBfv PKsk PKsk2 QKsk PRetr QEval PDefData PDef QDef QSwitch TestEnv TestBfv QBudget.

(** C71: retrieval without any condition on the noise; the answer may be switched
    down to any level first. *)
Theorem C71_compressed :
  forall pr P c w sk first dim q0 qs db rows0 w0 rndq rnd rnd0 rnd1 xs j,
    built_params P -> level P 0 c ->
    Forall (fun q => 2 ^ 61 <= q < 2 ^ 62) (bp_moduli P) -> (4 <= length (bp_moduli P) <= 64)%nat ->
    (bp_degree P <= 4096)%nat -> bp_t P <= 2 ^ 40 -> 1 <= bp_variance P <= 16 ->
    (forall j, 0 <= w j < 2 ^ 64) -> sk_generate pr P w = Ok sk ->
    wf_poly (mkPoly c Ntt rows0) -> (forall k, 0 <= w0 k < 2 ^ 64) -> rnd_ok c rndq ->
    (forall i, rnd_ok c (rnd i)) -> rnd_ok c rnd0 -> rnd_ok c rnd1 -> x_pows_ok c xs ->
    countable dim (length qs) -> (q0 < first)%nat -> Forall (fun q => (q < dim)%nat) qs ->
    (first + dim * length qs <= bp_degree P)%nat ->
    length db = (first * dim ^ length qs)%nat -> Z.of_nat (length db) < 2 ^ 64 -> Z.of_nat dim < 2 ^ 64 -> Forall (entry_ok (bp_degree P)) db ->
    (j < length (bp_moduli P))%nat ->
    exists p, get db (q0 + first * row_index dim qs) = Ok p
      /\ (enc <- client_encode pr (mkClient first dim) (q0 :: qs) (length db) ;;
          cts <- client_query pr sk P first enc rows0 w0 rndq ;;
          ev <- eval_build pr sk P rnd rnd0 rnd1 ;;
          srv <- server_new pr first dim db P ;;
          out <- server_decode_with pr (fun ct => unpack_core pr ev ct xs) srv cts ev P ;;
          small <- mapM (fun ct => ct_switch pr ct j) out ;;
          mapM (decrypt pr sk) small)
         = Ok [mkPt P j EncNone (map (fun j => nth j (pt_values p) 0 mod bp_t P) (seq 0 (bp_degree P)))].
Proof. exact C71_compressed_lem. Qed.
Print Assumptions C71_compressed.

Theorem C71_retrieve :
  forall pr P c w sk first dim q0 qs db rows0 w0 rndq rnd rnd0 rnd1 xs,
    built_params P -> level P 0 c ->
    Forall (fun q => 2 ^ 61 <= q < 2 ^ 62) (bp_moduli P) -> (4 <= length (bp_moduli P) <= 64)%nat ->
    (bp_degree P <= 4096)%nat -> bp_t P <= 2 ^ 40 -> 1 <= bp_variance P <= 16 ->
    (forall j, 0 <= w j < 2 ^ 64) -> sk_generate pr P w = Ok sk ->
    wf_poly (mkPoly c Ntt rows0) -> (forall k, 0 <= w0 k < 2 ^ 64) -> rnd_ok c rndq ->
    (forall i, rnd_ok c (rnd i)) -> rnd_ok c rnd0 -> rnd_ok c rnd1 -> x_pows_ok c xs ->
    countable dim (length qs) -> (q0 < first)%nat -> Forall (fun q => (q < dim)%nat) qs ->
    (first + dim * length qs <= bp_degree P)%nat ->
    length db = (first * dim ^ length qs)%nat -> Z.of_nat (length db) < 2 ^ 64 -> Z.of_nat dim < 2 ^ 64 -> Forall (entry_ok (bp_degree P)) db ->
    exists p, get db (q0 + first * row_index dim qs) = Ok p
      /\ (enc <- client_encode pr (mkClient first dim) (q0 :: qs) (length db) ;;
          cts <- client_query pr sk P first enc rows0 w0 rndq ;;
          ev <- eval_build pr sk P rnd rnd0 rnd1 ;;
          srv <- server_new pr first dim db P ;;
          out <- server_decode_with pr (fun ct => unpack_core pr ev ct xs) srv cts ev P ;;
          mapM (decrypt pr sk) out)
         = Ok [mkPt P 0 EncNone (map (fun j => nth j (pt_values p) 0 mod bp_t P) (seq 0 (bp_degree P)))].
Proof. exact C71_retrieve_lem. Qed.
Print Assumptions C71_retrieve.

(** The default parameters with four or more moduli are such parameters. *)
Theorem C71_default :
  forall pr env k n bd P c w sk first dim q0 qs db rows0 w0 rndq rnd rnd0 rnd1 xs,
    env_exact env -> (4 <= k <= 31)%nat -> bfv_default pr env k n bd = Ok P -> level P 0 c ->
    (forall j, 0 <= w j < 2 ^ 64) -> sk_generate pr P w = Ok sk ->
    wf_poly (mkPoly c Ntt rows0) -> (forall k, 0 <= w0 k < 2 ^ 64) -> rnd_ok c rndq ->
    (forall i, rnd_ok c (rnd i)) -> rnd_ok c rnd0 -> rnd_ok c rnd1 -> x_pows_ok c xs ->
    countable dim (length qs) -> (q0 < first)%nat -> Forall (fun q => (q < dim)%nat) qs ->
    (first + dim * length qs <= n)%nat ->
    length db = (first * dim ^ length qs)%nat -> Z.of_nat (length db) < 2 ^ 64 -> Z.of_nat dim < 2 ^ 64 -> Forall (entry_ok n) db ->
    exists p, get db (q0 + first * row_index dim qs) = Ok p
      /\ (enc <- client_encode pr (mkClient first dim) (q0 :: qs) (length db) ;;
          cts <- client_query pr sk P first enc rows0 w0 rndq ;;
          ev <- eval_build pr sk P rnd rnd0 rnd1 ;;
          srv <- server_new pr first dim db P ;;
          out <- server_decode_with pr (fun ct => unpack_core pr ev ct xs) srv cts ev P ;;
          mapM (decrypt pr sk) out)
         = Ok [mkPt P 0 EncNone (map (fun j => nth j (pt_values p) 0 mod 1153) (seq 0 n))].
Proof. exact C71_default_lem. Qed.
Print Assumptions C71_default.

(** The hypotheses hold together: default parameters of degree 8 with four moduli and a database of 4 x 2 entries. *)
Example C71_example pr : exists P c w sk rows0 rnd xs,
  env_exact denv /\ bfv_default pr denv 4 8 (mkBD 4 5) = Ok P /\ level P 0 c /\ (forall j : nat, 0 <= w j < 2 ^ 64) /\ sk_generate pr P w = Ok sk
  /\ wf_poly (mkPoly c Ntt rows0) /\ rnd_ok c rnd /\ x_pows_ok c xs
  /\ length (budget_db P) = (4 * 2 ^ length [1%nat])%nat /\ Forall (entry_ok 8) (budget_db P) /\ (4 + 2 * length [1%nat] <= 8)%nat
  /\ Forall (fun q => 2 ^ 61 <= q < 2 ^ 62) (bp_moduli P) /\ length (bp_moduli P) = 4%nat /\ built_params P.
Proof. exact (budget_hyps pr). Qed.
