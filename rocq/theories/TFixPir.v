(** Property theorems; the proofs are in QFixPir.v. *)
From Verif Require Import PBase NT Spec PSum MModulus MUtils MNtt MRns MRq MBfv MKsk MGalois MRgsw MEval MFix3 PModulus PUtils PNttMath PNtt PNttNew PCrt PRns PRnsScale PUtils2 SpecRq SpecBfv SpecKsk SpecEval PRing PRq PRq2 PRq3 PRq4 PRq5 TestEnv QRq PBfv PBfv2 PBfv3 QBfv PKsk PGal PKsk2 PRingT PExpand PEval PEval2 PAsm PFold PFold2 PClient PRetr TestBfv TestEval QEval SpecAddr QAddr MSwitch SpecDef SpecSwitch PDefData PDef QDef QSwitch QKsk QBudget QFixPir.

Theorem C85_x_pows :
  forall pr P i c ev cs, built_params P -> level P i c ->
    exists xs, gen_x_pows_fixed pr (bp_degree P) c = Ok xs /\ length xs = cx_L c /\ x_pows_ok c xs
      /\ unpack_fixed pr ev (mkCt P cs i) = unpack_core pr ev (mkCt P cs i) xs.
Proof. exact C85_x_pows_lem. Qed.
Print Assumptions C85_x_pows.

Theorem C85_encode :
  forall first dim qs rows v,
    client_encode_fixed (mkClient first dim) qs rows = Ok v <->
    exists q0 qs', qs = q0 :: qs' /\ (q0 < first)%nat /\ Forall (fun q => (q < dim)%nat) qs' /\ rows = (first * dim ^ length qs')%nat
      /\ length v = (first + dim * length qs')%nat
      /\ (forall j, (j < first)%nat -> nth j v 0 = if (j =? q0)%nat then 1 else 0)
      /\ (forall d j, (d < length qs')%nat -> (j < dim)%nat -> nth (first + (d * dim + j)) v 0 = if (j =? nth d qs' 0)%nat then 1 else 0).
Proof. exact C85_encode_lem. Qed.
Print Assumptions C85_encode.

Theorem C85_encode_agree :
  forall pr first dim qs rows v, client_encode_fixed (mkClient first dim) qs rows = Ok v -> (0 < rows)%nat -> Z.of_nat rows < 2 ^ 64 ->
    client_encode pr (mkClient first dim) qs rows = Ok v.
Proof. exact C85_encode_agree_lem. Qed.
Print Assumptions C85_encode_agree.

(** C85: the repaired count is right for every side. *)
Theorem C85_dims :
  forall pr s k, (1 <= sv_first_dim s)%nat -> (2 <= sv_dim s)%nat ->
    length (sv_db s) = (sv_first_dim s * sv_dim s ^ k)%nat -> Z.of_nat (length (sv_db s)) < 2 ^ 64 ->
    decode_dimensions_fixed pr s = Ok (Z.of_nat k + 1).
Proof. exact C85_dims_lem. Qed.
Print Assumptions C85_dims.

(** C85: the repaired system returns the entry asked for, for every side, every
    shape and every query in range, within the noise budget. *)
Theorem C85_retrieve :
  forall pr P c sk first dim q0 qs db M S rows0 w0 rndq rnd rnd0 rnd1,
    built_params P -> level P 0 c -> sk_params sk = P -> sk_ok sk -> 1 <= bp_variance P <= 16 -> length (bp_moduli P) <> 1%nat -> small_degree pr (bp_degree P) ->
    small_basis (rq_moduli_64 c) -> 2 * bp_t P <= cx_q c 0 -> l1norm (bp_degree P) (sk_fun sk) <= S ->
    wf_poly (mkPoly c Ntt rows0) -> (forall k, 0 <= w0 k < 2 ^ 64) -> rnd_ok c rndq ->
    (forall i, rnd_ok c (rnd i)) -> rnd_ok c rnd0 -> rnd_ok c rnd1 ->
    (2 <= dim)%nat -> (q0 < first)%nat -> Forall (fun q => (q < dim)%nat) qs ->
    (first + dim * length qs <= bp_degree P)%nat ->
    length db = (first * dim ^ length qs)%nat -> Z.of_nat (length db) < 2 ^ 64 -> Forall (entry_ok (bp_degree P)) db ->
    (forall p x, In p db -> In x (pt_values p) -> x <= M) -> 0 <= M ->
    2 ^ 54 * (2 * retrieval_noise P c first dim (length qs) S M) <= (2 ^ 54 - 1) * cx_Q c ->
    exists p, get db (q0 + first * row_index dim qs) = Ok p
      /\ (enc <- client_encode_fixed (mkClient first dim) (q0 :: qs) (length db) ;;
          cts <- client_query pr sk P first enc rows0 w0 rndq ;;
          ev <- eval_build pr sk P rnd rnd0 rnd1 ;;
          srv <- server_new pr first dim db P ;;
          out <- server_decode_fixed pr srv cts ev P ;;
          mapM (decrypt pr sk) out)
         = Ok [mkPt P 0 EncNone (map (fun j => nth j (pt_values p) 0 mod bp_t P) (seq 0 (bp_degree P)))].
Proof. exact C85_retrieve_lem. Qed.
Print Assumptions C85_retrieve.

(** C85: with the default parameters and four or more moduli there is no noise
    condition: asking for position ix returns entry ix modulo t. *)
Theorem C85_default :
  forall pr env k n bd P c w sk first dim d ix db rows0 w0 rndq rnd rnd0 rnd1,
    env_exact env -> (4 <= k <= 31)%nat -> bfv_default pr env k n bd = Ok P -> level P 0 c ->
    (forall j, 0 <= w j < 2 ^ 64) -> sk_generate pr P w = Ok sk ->
    wf_poly (mkPoly c Ntt rows0) -> (forall k, 0 <= w0 k < 2 ^ 64) -> rnd_ok c rndq ->
    (forall i, rnd_ok c (rnd i)) -> rnd_ok c rnd0 -> rnd_ok c rnd1 ->
    (2 <= dim)%nat -> (first + dim * d <= n)%nat ->
    length db = (first * dim ^ d)%nat -> Z.of_nat (length db) < 2 ^ 64 -> Forall (entry_ok n) db ->
    (ix < length db)%nat ->
    exists p, nth_error db ix = Some p
      /\ (enc <- client_encode_fixed (mkClient first dim) (address first dim d ix) (length db) ;;
          cts <- client_query pr sk P first enc rows0 w0 rndq ;;
          ev <- eval_build pr sk P rnd rnd0 rnd1 ;;
          srv <- server_new pr first dim db P ;;
          out <- server_decode_fixed pr srv cts ev P ;;
          mapM (decrypt pr sk) out)
         = Ok [mkPt P 0 EncNone (map (fun j => nth j (pt_values p) 0 mod 1153) (seq 0 n))].
Proof. exact C85_default_lem. Qed.
Print Assumptions C85_default.

(** A 2 x 3 x 3 database: the repaired count is right, the code's is not; a database
    with one row too many is rejected, the code accepts it. *)
Example C85_shape_example : forall p,
  let s := mkServer 2 3 (repeat p 18) [] in
  decode_dimensions_fixed Debug s = Ok 3 /\ decode_dimensions Debug s = Ok 4
  /\ client_encode_fixed (mkClient 2 3) [1; 2; 0]%nat 18 = Ok [0; 1; 0; 0; 1; 1; 0; 0]
  /\ client_encode_fixed (mkClient 2 3) [1; 2; 0]%nat 19 = Panic
  /\ client_encode Debug (mkClient 2 3) [1; 2; 0]%nat 19 = Ok [0; 1; 0; 0; 1; 1; 0; 0].
Proof. intros p s. repeat split; reflexivity. Qed.

(** The hypotheses of C85_default hold together for the default parameters of
    degree 8 with four moduli and a database of 2 x 3 x 3 entries. *)
Example C85_example pr : exists P c w sk rows0 rnd db,
  env_exact denv /\ bfv_default pr denv 4 8 (mkBD 4 5) = Ok P /\ level P 0 c /\ (forall j : nat, 0 <= w j < 2 ^ 64) /\ sk_generate pr P w = Ok sk
  /\ wf_poly (mkPoly c Ntt rows0) /\ rnd_ok c rnd
  /\ length db = (2 * 3 ^ 2)%nat /\ Forall (entry_ok 8) db /\ (2 + 3 * 2 <= 8)%nat.
Proof.
  destruct (budget_hyps pr) as [P [c [w [sk [rows0 [rnd [xs [H1 [H2 [H3 [H4 [H5 [H6 [H7 _]]]]]]]]]]]]]].
  exists P, c, w, sk, rows0, rnd, (map (fun i => mkPt P 0 EncPoly [Z.of_nat i; 7]) (seq 0 18)).
  split; auto. split; auto. split; auto. split; auto. split; auto. split; auto. split; auto. split; [reflexivity|]. split; [|lia].
  apply Forall_forall. intros p Hp. apply in_map_iff in Hp. destruct Hp as [i [<- Hi]]. apply in_seq in Hi.
  split; cbn [pt_values]; [|cbn; lia]. repeat constructor; lia.
Qed.
