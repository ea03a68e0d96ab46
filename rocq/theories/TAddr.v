(** Property theorems; the proofs are in QAddr.v. *)
From Verif Require Import PBase NT Spec PSum MModulus MUtils MNtt MRns MRq MBfv MKsk MGalois MRgsw MEval PModulus PUtils PNttMath PNtt PNttNew PCrt PRns PRnsScale PUtils2 SpecRq SpecBfv SpecKsk SpecEval PRing PRq PRq2 PRq3 PRq4 PRq5 TestEnv QRq PBfv PBfv2 PBfv3 QBfv PKsk PGal PKsk2 PRingT PExpand PEval PEval2 PAsm PFold PFold2 PClient PRetr TestBfv TestEval QEval SpecAddr QAddr.

(** C78: the documented division addresses position ix: its components are in
    range and select ix; and it is the only query vector in range that does. *)
Theorem C78_address :
  forall first dim k ix, (ix < first * dim ^ k)%nat ->
    exists q0 qs, address first dim k ix = q0 :: qs /\ (q0 < first)%nat /\ Forall (fun q => (q < dim)%nat) qs /\ length qs = k
      /\ (q0 + first * row_index dim qs)%nat = ix
      /\ forall q0' qs', (q0' < first)%nat -> Forall (fun q => (q < dim)%nat) qs' -> length qs' = k ->
           (q0' + first * row_index dim qs')%nat = ix -> q0' = q0 /\ qs' = qs.
Proof. exact C78_address_lem. Qed.
Print Assumptions C78_address.

(** The shape 4 x 2 x 2: position 13 is query [1; 1; 1]; all 16 addresses differ. *)
Example C78_example : address 4 2 2 13 = [1; 1; 1]%nat
  /\ map (address 4 2 2) (seq 0 16) = flat_map (fun c => flat_map (fun b => map (fun a => [a; b; c]) [0; 1; 2; 3]%nat) [0; 1]%nat) [0; 1]%nat.
Proof. split; reflexivity. Qed.

(** C78: two queries with the same encoding are the same query (for one shape;
    the database sizes and profiles may differ). *)
Theorem C78_injective :
  forall pr pr' first dim qs qs' rows rows' enc, client_encode pr (mkClient first dim) qs rows = Ok enc ->
    client_encode pr' (mkClient first dim) qs' rows' = Ok enc -> qs = qs'.
Proof. exact C78_injective_lem. Qed.
Print Assumptions C78_injective.

(** C78: with the expansion repaired, the query made for position ix by the
    documented division is answered with entry ix, for every position. *)
Theorem C78_every_entry :
  forall pr P c sk first dim k ix db M S rows0 w0 rndq rnd rnd0 rnd1 xs,
    built_params P -> level P 0 c -> sk_params sk = P -> sk_ok sk -> 1 <= bp_variance P <= 16 -> length (bp_moduli P) <> 1%nat -> small_degree pr (bp_degree P) ->
    small_basis (rq_moduli_64 c) -> 2 * bp_t P <= cx_q c 0 -> l1norm (bp_degree P) (sk_fun sk) <= S ->
    wf_poly (mkPoly c Ntt rows0) -> (forall k, 0 <= w0 k < 2 ^ 64) -> rnd_ok c rndq ->
    (forall i, rnd_ok c (rnd i)) -> rnd_ok c rnd0 -> rnd_ok c rnd1 -> x_pows_ok c xs ->
    countable dim k -> (first + dim * k <= bp_degree P)%nat ->
    length db = (first * dim ^ k)%nat -> Z.of_nat (length db) < 2 ^ 64 -> Z.of_nat dim < 2 ^ 64 -> Forall (entry_ok (bp_degree P)) db ->
    (forall p x, In p db -> In x (pt_values p) -> x <= M) -> 0 <= M ->
    2 ^ 54 * (2 * retrieval_noise P c first dim k S M) <= (2 ^ 54 - 1) * cx_Q c ->
    (ix < length db)%nat ->
    exists p, nth_error db ix = Some p
      /\ (enc <- client_encode pr (mkClient first dim) (address first dim k ix) (length db) ;;
          cts <- client_query pr sk P first enc rows0 w0 rndq ;;
          ev <- eval_build pr sk P rnd rnd0 rnd1 ;;
          srv <- server_new pr first dim db P ;;
          out <- server_decode_with pr (fun ct => unpack_core pr ev ct xs) srv cts ev P ;;
          mapM (decrypt pr sk) out)
         = Ok [mkPt P 0 EncNone (map (fun j => nth j (pt_values p) 0 mod bp_t P) (seq 0 (bp_degree P)))].
Proof. exact C78_every_entry_lem. Qed.
Print Assumptions C78_every_entry.
