(** Property theorems; the proofs are in QServer.v. *)
From Verif Require Import PBase NT Spec PSum MModulus MUtils MNtt MRns MRq MBfv MKsk MGalois MRgsw MEval PModulus PUtils PNttMath PNtt PNttNew PCrt PRns PRnsScale PUtils2 SpecRq SpecBfv SpecKsk SpecEval SpecServer PRing PRq PRq2 PRq3 PRq4 PRq5 PBfv PBfv2 PBfv3 PKsk PGal PKsk2 PRingT PExpand PEval PEval2 PAsm PFold PFold2 PClient PRetr TestEval QBfv QEval QServer.

(** C80: the server answers any query of the right number of well-formed
    ciphertexts, whatever they contain, with one well-formed ciphertext (with
    the expansion repaired). *)
Theorem C80_total :
  forall pr P c sk first dim k db rnd rnd0 rnd1 xs cts,
    built_params P -> level P 0 c -> sk_params sk = P -> sk_ok sk -> 1 <= bp_variance P <= 16 -> length (bp_moduli P) <> 1%nat -> small_degree pr (bp_degree P) ->
    (forall i, rnd_ok c (rnd i)) -> rnd_ok c rnd0 -> rnd_ok c rnd1 -> x_pows_ok c xs ->
    countable dim k -> (1 <= first)%nat -> (first + dim * k <= bp_degree P)%nat ->
    length db = (first * dim ^ k)%nat -> Z.of_nat (length db) < 2 ^ 64 -> Z.of_nat dim < 2 ^ 64 -> Forall (entry_ok (bp_degree P)) db ->
    Forall (query_ct P c) cts -> length cts = (cx_k c + 1)%nat ->
    exists ct, (ev <- eval_build pr sk P rnd rnd0 rnd1 ;;
                srv <- server_new pr first dim db P ;;
                server_decode_with pr (fun ct => unpack_core pr ev ct xs) srv cts ev P) = Ok [ct]
      /\ query_ct P c ct.
Proof. exact C80_total_lem. Qed.
Print Assumptions C80_total.

(** There are well-formed query ciphertexts, and a key and parameters as required. *)
Example C80_total_ex : exists P c sk, built_params P /\ level P 0 c /\ sk_params sk = P /\ sk_ok sk /\ 1 <= bp_variance P <= 16
  /\ length (bp_moduli P) <> 1%nat /\ bp_degree P = 8%nat /\ exists ct, query_ct P c ct.
Proof. exact query_example. Qed.

(** C80: a query with another number of ciphertexts is refused, by
    the code as it is and whatever the expansion. *)
Theorem C80_refuse :
  forall pr P c srv cts ev unpk, built_params P -> level P 0 c -> length cts <> (cx_k c + 1)%nat ->
    server_decode pr srv cts ev P = Panic /\ server_decode_with pr unpk srv cts ev P = Panic.
Proof. exact C80_refuse_lem. Qed.
Print Assumptions C80_refuse.

Example C80_refuse_ex : exists P c, built_params P /\ level P 0 c /\ length (@nil Ct) <> (cx_k c + 1)%nat.
Proof. destruct query_example as [P [c [sk [B [L _]]]]]. exists P, c. repeat split; auto. cbn [length]. rewrite Nat.add_1_r. discriminate. Qed.

(** C80: with the expansion repaired, every query is refused when the first
    dimension or the further ones need more slots than the ring degree. *)
Theorem C80_shape :
  forall pr P c sk first dim k db rnd rnd0 rnd1 xs cts,
    built_params P -> level P 0 c -> sk_params sk = P -> sk_ok sk -> 1 <= bp_variance P <= 16 -> length (bp_moduli P) <> 1%nat -> small_degree pr (bp_degree P) ->
    (forall i, rnd_ok c (rnd i)) -> rnd_ok c rnd0 -> rnd_ok c rnd1 -> x_pows_ok c xs ->
    countable dim k -> (1 <= first)%nat -> (bp_degree P < first \/ bp_degree P < dim * k)%nat ->
    length db = (first * dim ^ k)%nat -> Z.of_nat (length db) < 2 ^ 64 -> Z.of_nat dim < 2 ^ 64 -> Forall (entry_ok (bp_degree P)) db ->
    Forall (query_ct P c) cts ->
    (ev <- eval_build pr sk P rnd rnd0 rnd1 ;;
     srv <- server_new pr first dim db P ;;
     server_decode_with pr (fun ct => unpack_core pr ev ct xs) srv cts ev P) = Panic.
Proof. exact C80_shape_lem. Qed.
Print Assumptions C80_shape.

Example C80_shape_ex : exists P c sk, built_params P /\ level P 0 c /\ sk_params sk = P /\ sk_ok sk /\ (bp_degree P < 16)%nat
  /\ exists db, length db = (16 * 2 ^ 1)%nat /\ Forall (entry_ok (bp_degree P)) db.
Proof.
  destruct query_example as [P [c [sk [B [L [SP [SO [_ [_ [D _]]]]]]]]]]. exists P, c, sk. repeat (split; [assumption|]). rewrite D. split; [repeat constructor|].
  exists (repeat (mkPt P 0 EncNone [5]) 32). split; [apply repeat_length|]. apply Forall_forall. intros p Hp. apply repeat_spec in Hp. subst. split; [repeat constructor; discriminate|repeat constructor].
Qed.

(** C80: if the query ciphertexts carry the encoding with noise B0 and B1, however
    they were made, then the answer decrypts to the entry asked for as long as
    the noise it accumulates is within the budget. *)
Theorem C80_noise :
  forall pr P c sk first dim q0 qs db M S B0 B1 enc cts rnd rnd0 rnd1 xs,
    built_params P -> level P 0 c -> sk_params sk = P -> sk_ok sk -> 1 <= bp_variance P <= 16 -> length (bp_moduli P) <> 1%nat -> small_degree pr (bp_degree P) ->
    small_basis (rq_moduli_64 c) -> 2 * bp_t P <= cx_q c 0 -> l1norm (bp_degree P) (sk_fun sk) <= S ->
    (forall i, rnd_ok c (rnd i)) -> rnd_ok c rnd0 -> rnd_ok c rnd1 -> x_pows_ok c xs ->
    countable dim (length qs) -> (q0 < first)%nat -> Forall (fun q => (q < dim)%nat) qs ->
    (first + dim * length qs <= bp_degree P)%nat ->
    length db = (first * dim ^ length qs)%nat -> Z.of_nat (length db) < 2 ^ 64 -> Z.of_nat dim < 2 ^ 64 -> Forall (entry_ok (bp_degree P)) db ->
    (forall p x, In p db -> In x (pt_values p) -> x <= M) -> 0 <= M -> 0 <= B0 -> 0 <= B1 ->
    client_encode pr (mkClient first dim) (q0 :: qs) (length db) = Ok enc ->
    query_noise P c (sk_fun sk) first enc cts B0 B1 ->
    2 ^ 54 * (2 * answer_noise P c first dim (length qs) S M B0 B1) <= (2 ^ 54 - 1) * cx_Q c ->
    exists p, get db (q0 + first * row_index dim qs) = Ok p
      /\ (ev <- eval_build pr sk P rnd rnd0 rnd1 ;;
          srv <- server_new pr first dim db P ;;
          out <- server_decode_with pr (fun ct => unpack_core pr ev ct xs) srv cts ev P ;;
          mapM (decrypt pr sk) out)
         = Ok [mkPt P 0 EncNone (map (fun j => nth j (pt_values p) 0 mod bp_t P) (seq 0 (bp_degree P)))].
Proof. exact C80_noise_lem. Qed.
Print Assumptions C80_noise.

(** A query that the client makes itself is of this form, with the noise of fresh
    encryption; then the bound is that of C45. *)
Example C80_noise_ex : forall P c first dim k S M,
  answer_noise P c first dim k S M (bp_t P * (2 * bp_variance P + 2)) (2 * bp_variance P) = retrieval_noise P c first dim k S M.
Proof. reflexivity. Qed.

(** C80: the queries of the client have this form. *)
Theorem C80_client :
  forall pr P c sk first enc rows0 w0 rndq, built_params P -> level P 0 c -> sk_params sk = P -> sk_ok sk -> 1 <= bp_variance P <= 16 ->
    Forall (fun x => 0 <= x < 2 ^ 64) enc -> (length enc <= bp_degree P)%nat -> (first <= length enc)%nat ->
    wf_poly (mkPoly c Ntt rows0) -> (forall k, 0 <= w0 k < 2 ^ 64) -> rnd_ok c rndq ->
    exists cts, client_query pr sk P first enc rows0 w0 rndq = Ok cts
      /\ query_noise P c (sk_fun sk) first enc cts (bp_t P * (2 * bp_variance P + 2)) (2 * bp_variance P)
      /\ Forall (query_ct P c) cts /\ length cts = (cx_k c + 1)%nat.
Proof. exact C80_client_lem. Qed.
Print Assumptions C80_client.

Example C80_client_ex : Forall (fun x => 0 <= x < 2 ^ 64) [0; 0; 0; 1; 0; 1; 0; 1] /\ (length [0; 0; 0; 1; 0; 1; 0; 1] <= 8)%nat.
Proof. split; [repeat constructor; lia|cbn; lia]. Qed.
