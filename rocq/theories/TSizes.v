(** Property theorems; the proofs are in QSizes.v. *)
From Verif Require Import PBase NT Spec PSum MModulus MUtils MNtt MRns MRq MBfv MKsk MGalois MRgsw MEval PModulus PUtils PNttMath PNtt PNttNew PCrt PRns PRnsScale PUtils2 SpecRq SpecBfv SpecKsk SpecEval SpecServer PRing PRq PRq2 PRq3 PRq4 PRq5 PBfv PBfv2 PBfv3 PKsk PGal PKsk2 PRingT PExpand PEval PEval2 PAsm PFold PFold2 PClient PRetr TestEval QBfv QEval SpecRlwe QRq QKsk TestEnv TestBfv MCirc MSwitch SpecCirc SpecDef SpecSwitch PMix QCirc PDefData PDef QDef SpecSizes QServer QRlwe QSwitch QSizes.

(** C92: a query is k + 1 ciphertexts of two polynomials of k*n words (k moduli, degree
    n), whatever the position and the size of the database. *)
Theorem C92_query :
  forall pr P c sk rows0 w0 rnd first enc, built_params P -> level P 0 c -> sk_params sk = P -> sk_ok sk -> 1 <= bp_variance P <= 16 ->
    wf_poly (mkPoly c Ntt rows0) -> (forall k, 0 <= w0 k < 2 ^ 64) -> rnd_ok c rnd ->
    Forall (fun x => 0 <= x < 2 ^ 64) enc -> (length enc <= bp_degree P)%nat -> (first <= length enc)%nat ->
    let k := length (bp_moduli P) in
    exists cts, client_query pr sk P first enc rows0 w0 rnd = Ok cts /\ length cts = (k + 1)%nat
      /\ holds_words (2 * k * (k + 1) * bp_degree P) (query_words cts).
Proof. exact C92_query_lem. Qed.
Print Assumptions C92_query.

(** C92: the evaluation keys are log2(n) Galois keys of 2k polynomials and an RGSW
    ciphertext of 4k polynomials. *)
Theorem C92_keys :
  forall pr P c sk rnd rnd0 rnd1, built_params P -> level P 0 c -> sk_params sk = P -> sk_ok sk -> 1 <= bp_variance P <= 16 ->
    length (bp_moduli P) <> 1%nat -> small_degree pr (bp_degree P) ->
    (forall i, rnd_ok c (rnd i)) -> rnd_ok c rnd0 -> rnd_ok c rnd1 ->
    let k := length (bp_moduli P) in
    exists ev, eval_build pr sk P rnd rnd0 rnd1 = Ok ev /\ length (ev_gk ev) = Nat.log2 (bp_degree P)
      /\ holds_words ((Nat.log2 (bp_degree P) + 2) * (2 * k * k * bp_degree P)) (eval_words ev).
Proof. exact C92_keys_lem. Qed.
Print Assumptions C92_keys.

(** C92: the answer is one ciphertext of two polynomials; switched to level j it has
    k - j moduli left. *)
Theorem C92_answer :
  forall pr P c sk first dim d db rnd rnd0 rnd1 xs cts j c',
    built_params P -> level P 0 c -> sk_params sk = P -> sk_ok sk -> 1 <= bp_variance P <= 16 -> length (bp_moduli P) <> 1%nat -> small_degree pr (bp_degree P) ->
    (forall i, rnd_ok c (rnd i)) -> rnd_ok c rnd0 -> rnd_ok c rnd1 -> x_pows_ok c xs ->
    countable dim d -> (1 <= first)%nat -> (first + dim * d <= bp_degree P)%nat ->
    length db = (first * dim ^ d)%nat -> Z.of_nat (length db) < 2 ^ 64 -> Z.of_nat dim < 2 ^ 64 -> Forall (entry_ok (bp_degree P)) db ->
    Forall (query_ct P c) cts -> length cts = (cx_k c + 1)%nat -> level P j c' ->
    exists ct small, (ev <- eval_build pr sk P rnd rnd0 rnd1 ;;
                srv <- server_new pr first dim db P ;;
                server_decode_with pr (fun ct => unpack_core pr ev ct xs) srv cts ev P) = Ok [ct]
      /\ ct_switch pr ct j = Ok small
      /\ holds_words (2 * length (bp_moduli P) * bp_degree P) (ct_words ct)
      /\ holds_words (2 * (length (bp_moduli P) - j) * bp_degree P) (ct_words small).
Proof. exact C92_answer_lem. Qed.
Print Assumptions C92_answer.

(** Two moduli, degree 8: 2*2*3*8 words of a query, (3+2)*2*2*2*8 words of keys. *)
Example C92_example :
  (P <- test_bfv Debug ;; let sk := mkSk P [1; -1; 0; 1; 1; 0; 2; -1] in
   cts <- client_query Debug sk P 2 [0; 1; 1; 0] (trows bms 4) (tw 5) (trnd 3) ;;
   ev <- eval_build Debug sk P trnd (trnd 6) (trnd 7) ;;
   Ok (length cts, length (query_words cts), length (ev_gk ev), length (eval_words ev)))
  = Ok (3, 2 * 2 * 3 * 8, 3, (3 + 2) * (2 * 2 * 2 * 8))%nat.
Proof. vm_compute. reflexivity. Qed.
