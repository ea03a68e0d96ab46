(** Property theorems; the proofs are in QEval.v. *)
From Verif Require Import PBase NT Spec PSum MModulus MUtils MNtt MRns MRq MBfv MKsk MGalois MRgsw MEval PModulus PUtils PNttMath PNtt PNttNew PCrt PRns PRnsScale PUtils2 SpecRq SpecBfv SpecKsk SpecEval PRing PRq PRq2 PRq3 PRq4 PRq5 TestEnv QRq PBfv PBfv2 PBfv3 QBfv PKsk PGal PKsk2 PRingT PExpand PEval PEval2 PAsm PFold PFold2 PClient PRetr TestBfv TestEval QEval.

(** C42: [unpack] panics on every ciphertext of every level of every parameter
    set: [gen_x_pows] asks for X -> X^(n-2) and only odd exponents are accepted. *)
Theorem C42_unpack_refuted :
  forall pr P i c ev cs, built_params P -> level P i c ->
    gen_x_pows pr (bp_degree P) c = Panic /\ unpack pr ev (mkCt P cs i) = Panic.
Proof. exact C42_unpack_refuted_lem. Qed.
Print Assumptions C42_unpack_refuted.

Example C42_panic_example :
  (P <- test_bfv Release ;; c <- tctx P ;;
   Ok (match gen_x_pows Release 8 c with Panic => true | _ => false end,
       match unpack Release (mkEval [] (mkRgsw (mkKsk P [] [] c c) (mkKsk P [] [] c c))) (mkCt P [] 0) with Panic => true | _ => false end))
  = Ok (true, true).
Proof. vm_compute. reflexivity. Qed.

(** C42: with the monomials X^(-2^i) that [gen_x_pows] should have returned, the
    remaining code of [unpack] returns one ciphertext per coefficient. *)
Theorem C42_expand :
  forall pr P c sk rnd rnd0 rnd1 xs, built_params P -> level P 0 c -> sk_params sk = P -> sk_ok sk ->
    1 <= bp_variance P <= 16 -> length (bp_moduli P) <> 1%nat -> small_degree pr (bp_degree P) ->
    (forall i, rnd_ok c (rnd i)) -> rnd_ok c rnd0 -> rnd_ok c rnd1 -> x_pows_ok c xs ->
    exists ev, eval_build pr sk P rnd rnd0 rnd1 = Ok ev
      /\ forall f0 f1, exists bits, unpack_core pr ev (ct_of P 0 c [f0; f1]) xs = Ok bits /\ length bits = bp_degree P
         /\ forall j, (j < bp_degree P)%nat -> exists g0 g1 w, get bits j = Ok (ct_of P 0 c [g0; g1])
              /\ forall l, (l < bp_degree P)%nat ->
                   phase (bp_degree P) (sk_fun sk) [g0; g1] l mod cx_Q c
                   = (cst (phase (bp_degree P) (sk_fun sk) [f0; f1] j) l + w l) mod cx_Q c
                   /\ Z.abs (w l) <= expand_noise P c.
Proof. exact C42_expand_lem. Qed.
Print Assumptions C42_expand.

Example C42_example :
  (P <- test_bfv Debug ;; sk <- sk_generate Debug P (tw 1) ;; ev <- eval_build Debug sk P trnd (trnd 5) (trnd 6) ;;
   pt <- pt_new Debug P [1; 2; 3; 4; 5; 16] 0 EncPoly ;; ct <- encrypt Debug sk pt (trows bms 4) (tw 5) ;; xs <- txs P ;;
   bits <- unpack_core Debug ev ct xs ;; b <- get bits 5 ;; d <- decrypt Debug sk b ;; Ok (length bits, pt_values d))
  = Ok (8%nat, [16; 0; 0; 0; 0; 0; 0; 0]).
Proof. vm_compute. reflexivity. Qed.

(** C42: the monomials exist in every context. *)
Theorem C42_x_pows_exist :
  forall c r, r <> NttShoup -> x_pows_ok c (map (fun i => rep c r (xinv (rq_degree c) (2 ^ i))) (seq 0 (cx_L c))).
Proof. exact C42_x_pows_exist_lem. Qed.
Print Assumptions C42_x_pows_exist.

(** C43: the encoding is one-hot in each segment. *)
Theorem C43_encode :
  forall pr first dim q0 qs rows, (q0 < first)%nat -> Forall (fun q => (q < dim)%nat) qs ->
    0 < Z.of_nat dim ^ Z.of_nat (length qs) < 2 ^ 64 ->
    Z.of_nat dim ^ Z.of_nat (length qs) <= Z.of_nat rows / Z.of_nat first < 2 * Z.of_nat dim ^ Z.of_nat (length qs) ->
    exists enc, client_encode pr (mkClient first dim) (q0 :: qs) rows = Ok enc
      /\ length enc = (first + dim * length qs)%nat
      /\ (forall j, (j < first)%nat -> nth j enc 0 = if (j =? q0)%nat then 1 else 0)
      /\ forall d j, (d < length qs)%nat -> (j < dim)%nat -> nth (first + (d * dim + j)) enc 0 = if (j =? nth d qs 0)%nat then 1 else 0.
Proof. exact C43_encode_lem. Qed.
Print Assumptions C43_encode.

Example C43_example : client_encode Debug (mkClient 4 2) [2; 1; 0]%nat 16 = Ok [0; 0; 1; 0; 0; 1; 1; 0].
Proof. reflexivity. Qed.

(** C43: a successful call had every index in range and a database size in the
    accepted interval (in the release profile, when dim^(d-1) does not wrap). *)
Theorem C43_accepted :
  forall pr first dim qs rows enc, client_encode pr (mkClient first dim) qs rows = Ok enc ->
    pr = Debug \/ Z.of_nat dim ^ Z.of_nat (length qs - 1) < 2 ^ 64 ->
    exists q0 qs', qs = q0 :: qs' /\ (q0 < first)%nat /\ Forall (fun q => (q < dim)%nat) qs'
      /\ Z.of_nat dim ^ Z.of_nat (length qs') <= Z.of_nat rows / Z.of_nat first < 2 * Z.of_nat dim ^ Z.of_nat (length qs').
Proof. exact C43_accepted_lem. Qed.
Print Assumptions C43_accepted.

(** C43: indices out of range panic whatever the profile, sizes and overflow. *)
Theorem C43_panics :
  forall pr first dim rows, client_encode pr (mkClient first dim) [] rows = Panic
    /\ (forall q0 qs, (first <= q0)%nat -> client_encode pr (mkClient first dim) (q0 :: qs) rows = Panic)
    /\ (forall q0 qs, (exists q, In q qs /\ (dim <= q)%nat) -> client_encode pr (mkClient first dim) (q0 :: qs) rows = Panic).
Proof. exact C43_panics_lem. Qed.
Print Assumptions C43_panics.

Example C43_size_example :
  map (fun r => match client_encode Release (mkClient 4 2) [2; 1; 0]%nat r with Panic => true | _ => false end) [0; 8; 15; 16; 32]%nat
  = [true; true; true; false; true].
Proof. reflexivity. Qed.

(** C43: the size check is a truncated division, so databases with rows that no
    query reaches are accepted: 31 entries for the shape 4 x 4 = 16. *)
Theorem C43_size_refuted :
  exists first dim q0 qs rows, (rows <> first * dim ^ length qs)%nat
    /\ forall pr, exists enc, client_encode pr (mkClient first dim) (q0 :: qs) rows = Ok enc.
Proof. exact C43_size_refuted_lem. Qed.
Print Assumptions C43_size_refuted.

(** C43: in the release profile dim^(d-1) can wrap to a nonzero value, and a
    size that is off by an order of magnitude is accepted. *)
Theorem C43_wrap_refuted :
  exists first dim q0 qs rows, Z.of_nat rows < Z.of_nat first * Z.of_nat dim ^ Z.of_nat (length qs)
    /\ (exists enc, client_encode Release (mkClient first dim) (q0 :: qs) rows = Ok enc)
    /\ client_encode Debug (mkClient first dim) (q0 :: qs) rows = Panic.
Proof. exact C43_wrap_refuted_lem. Qed.
Print Assumptions C43_wrap_refuted.

(** C44: the fold over the hypercube selects one database entry. *)
Theorem C44_fold :
  forall pr P c s first dim q0 qs cts by_dim (m : nat -> nat -> Z) B0 B M, built_params P -> level P 0 c ->
    (q0 < first)%nat -> length cts = first -> 0 <= B0 -> 0 <= B ->
    carries_consts P c s cts (fun k => if (k =? q0)%nat then 1 else 0) B0 ->
    Forall2 (fun q rgs => selectors pr P c s dim q rgs B) qs by_dim ->
    (forall x l, Z.abs (m x l) <= M) ->
    exists g0 g1 E, (db <- fold_first pr P first cts (map (fun x => rep c Ntt (m x)) (seq 0 (first * dim ^ length qs))) ;;
                     foldM (fun db rgs => fold_dim pr P dim db rgs) by_dim db) = Ok [ct_of P 0 c [g0; g1]]
      /\ carries (bp_degree P) (cx_Q c) (bp_t P) (phase (bp_degree P) s [g0; g1]) (m (q0 + first * row_index dim qs)%nat) E
      /\ forall l, (l < bp_degree P)%nat ->
           Z.abs (E l) <= Z.of_nat first * (Z.of_nat (bp_degree P) * (B0 * M)) + bp_t P * (Z.of_nat (length qs) * (Z.of_nat dim * B)).
Proof. exact C44_fold_lem. Qed.
Print Assumptions C44_fold.

(** C44: and within the budget its decryption is that entry modulo t. *)
Theorem C44_decrypt :
  forall pr P c sk first dim q0 qs cts by_dim (m : nat -> nat -> Z) B0 B M, built_params P -> level P 0 c ->
    sk_params sk = P -> sk_ok sk -> small_basis (rq_moduli_64 c) -> 2 * bp_t P <= cx_q c 0 ->
    (q0 < first)%nat -> length cts = first -> 0 <= B0 -> 0 <= B ->
    carries_consts P c (sk_fun sk) cts (fun k => if (k =? q0)%nat then 1 else 0) B0 ->
    Forall2 (fun q rgs => selectors pr P c (sk_fun sk) dim q rgs B) qs by_dim ->
    (forall x l, Z.abs (m x l) <= M) ->
    2 ^ 54 * (2 * (Z.of_nat first * (Z.of_nat (bp_degree P) * (B0 * M)) + bp_t P * (Z.of_nat (length qs) * (Z.of_nat dim * B)))) <= (2 ^ 54 - 1) * cx_Q c ->
    (db <- fold_first pr P first cts (map (fun x => rep c Ntt (m x)) (seq 0 (first * dim ^ length qs))) ;;
     out <- foldM (fun db rgs => fold_dim pr P dim db rgs) by_dim db ;;
     mapM (decrypt pr sk) out)
    = Ok [mkPt P 0 EncNone (map (fun j => m (q0 + first * row_index dim qs)%nat j mod bp_t P) (seq 0 (bp_degree P)))].
Proof. exact C44_decrypt_lem. Qed.
Print Assumptions C44_decrypt.

Example C44_example :
  (P <- test_bfv Debug ;; sk <- sk_generate Debug P (tw 1) ;;
   cts <- mapM (fun i => tenc P sk (if (i =? 2)%nat then 1 else 0) i) (seq 0 4) ;;
   r0 <- trgsw P sk 0 5 ;; r1 <- trgsw P sk 1 7 ;; db <- tdb P ;; srv <- server_new Debug 4 2 db P ;;
   d1 <- fold_first Debug P 4 cts (sv_db_scaled srv) ;; out <- fold_dim Debug P 2 d1 [r0; r1] ;;
   mapM (fun ct => d <- decrypt Debug sk ct ;; Ok (pt_values d)) out)
  = Ok [[6; 2; 9; 0; 0; 0; 0; 0]].
Proof. vm_compute. reflexivity. Qed.

(** C45: the server's [decode] panics on every query of the right length. *)
Theorem C45_decode_refuted :
  forall pr P c srv ev cs cts, built_params P -> level P 0 c -> server_decode pr srv (mkCt P cs 0 :: cts) ev P = Panic.
Proof. exact C45_decode_refuted_lem. Qed.
Print Assumptions C45_decode_refuted.

(** C45: with the expansion repaired, the answer decrypts to the entry asked for. *)
Theorem C45_retrieve :
  forall pr P c sk first dim q0 qs db M S rows0 w0 rndq rnd rnd0 rnd1 xs,
    built_params P -> level P 0 c -> sk_params sk = P -> sk_ok sk -> 1 <= bp_variance P <= 16 -> length (bp_moduli P) <> 1%nat -> small_degree pr (bp_degree P) ->
    small_basis (rq_moduli_64 c) -> 2 * bp_t P <= cx_q c 0 -> l1norm (bp_degree P) (sk_fun sk) <= S ->
    wf_poly (mkPoly c Ntt rows0) -> (forall k, 0 <= w0 k < 2 ^ 64) -> rnd_ok c rndq ->
    (forall i, rnd_ok c (rnd i)) -> rnd_ok c rnd0 -> rnd_ok c rnd1 -> x_pows_ok c xs ->
    countable dim (length qs) -> (q0 < first)%nat -> Forall (fun q => (q < dim)%nat) qs ->
    (first + dim * length qs <= bp_degree P)%nat ->
    length db = (first * dim ^ length qs)%nat -> Z.of_nat (length db) < 2 ^ 64 -> Z.of_nat dim < 2 ^ 64 -> Forall (entry_ok (bp_degree P)) db ->
    (forall p x, In p db -> In x (pt_values p) -> x <= M) -> 0 <= M ->
    2 ^ 54 * (2 * retrieval_noise P c first dim (length qs) S M) <= (2 ^ 54 - 1) * cx_Q c ->
    exists p, get db (q0 + first * row_index dim qs) = Ok p
      /\ (enc <- client_encode pr (mkClient first dim) (q0 :: qs) (length db) ;;
          cts <- client_query pr sk P first enc rows0 w0 rndq ;;
          ev <- eval_build pr sk P rnd rnd0 rnd1 ;;
          srv <- server_new pr first dim db P ;;
          out <- server_decode_with pr (fun ct => unpack_core pr ev ct xs) srv cts ev P ;;
          mapM (decrypt pr sk) out)
         = Ok [mkPt P 0 EncNone (map (fun j => nth j (pt_values p) 0 mod bp_t P) (seq 0 (bp_degree P)))].
Proof. exact C45_retrieve_lem. Qed.
Print Assumptions C45_retrieve.

(** The hypotheses on parameters, key and budget hold for degree 8, t = 17, four
    17-bit moduli, a secret of norm 16, and the shape 4 x 2. *)
Example C45_example : exists P c sk, built_params P /\ level P 0 c /\ sk_params sk = P /\ sk_ok sk /\ 1 <= bp_variance P <= 16
  /\ length (bp_moduli P) <> 1%nat /\ small_basis (rq_moduli_64 c) /\ 2 * bp_t P <= cx_q c 0 /\ bp_degree P = 8%nat
  /\ l1norm (bp_degree P) (sk_fun sk) <= 16 /\ (exists rows, wf_poly (mkPoly c Ntt rows))
  /\ 2 ^ 54 * (2 * retrieval_noise P c 4 2 1 16 16) <= (2 ^ 54 - 1) * cx_Q c.
Proof. exact (retrieval_budget Debug). Qed.

(** C55: the number of ciphertexts, the length of the encoded query and the
    number of dimensions agree when dim and the number of dimensions are
    [countable]. *)
Theorem C55_no_of_cts :
  forall pr s k, (1 <= sv_first_dim s)%nat -> (2 <= sv_dim s)%nat ->
    length (sv_db s) = (sv_first_dim s * sv_dim s ^ k)%nat -> Z.of_nat (length (sv_db s)) < 2 ^ 64 ->
    Z.of_nat (sv_first_dim s + sv_dim s * k) < 2 ^ 64 ->
    no_of_cts pr s = Ok (Z.of_nat (sv_first_dim s + sv_dim s * k)).
Proof. exact C55_no_of_cts_lem. Qed.
Print Assumptions C55_no_of_cts.

Theorem C55_agree :
  forall pr s qs enc, countable (sv_dim s) (length qs - 1) -> Z.of_nat (sv_dim s) < 2 ^ 64 -> Z.of_nat (length (sv_db s)) < 2 ^ 64 ->
    length (sv_db s) = (sv_first_dim s * sv_dim s ^ (length qs - 1))%nat ->
    client_encode pr (mkClient (sv_first_dim s) (sv_dim s)) qs (length (sv_db s)) = Ok enc ->
    Z.of_nat (length enc) < 2 ^ 64 ->
    no_of_cts pr s = Ok (Z.of_nat (length enc)) /\ decode_dimensions pr s = Ok (Z.of_nat (length qs)).
Proof. exact C55_agree_lem. Qed.
Print Assumptions C55_agree.

(** C55: the number of dimensions [decode] computes, for any side; it is right
    exactly for [countable] shapes, among them the powers of two and all shapes
    with at most one further dimension. *)
Theorem C55_dims :
  forall pr s k, (1 <= sv_first_dim s)%nat -> (2 <= sv_dim s)%nat ->
    length (sv_db s) = (sv_first_dim s * sv_dim s ^ k)%nat -> Z.of_nat (length (sv_db s)) < 2 ^ 64 -> Z.of_nat (sv_dim s) < 2 ^ 64 ->
    decode_dimensions pr s = Ok (Z.log2 (Z.of_nat (sv_dim s) ^ Z.of_nat k) / Z.log2 (Z.of_nat (sv_dim s)) + 1)
    /\ (decode_dimensions pr s = Ok (Z.of_nat k + 1) <-> countable (sv_dim s) k)
    /\ (k <= 1 \/ (exists b, sv_dim s = 2 ^ b) -> countable (sv_dim s) k)%nat.
Proof. exact C55_dims_lem. Qed.
Print Assumptions C55_dims.

(** Two further dimensions of size 5 or 7 are counted right, two of size 3 and three of size 7 not. *)
Example C55_dims_example : countable 5 2 /\ countable 7 2 /\ ~ countable 3 2 /\ ~ countable 7 3.
Proof. unfold countable. cbn. lia. Qed.

Example C55_example : forall p,
  let s := mkServer 4 2 (repeat p 16) [] in
  (no_of_cts Debug s, decode_dimensions Debug s, option_map (@length Z) (match client_encode Debug (mkClient 4 2) [2; 1; 0]%nat 16 with Ok e => Some e | _ => None end))
  = (Ok 8, Ok 3, Some 8%nat).
Proof. reflexivity. Qed.

(** C55: for dim = 3 and a 3 x 3 hypercube above the first dimension, [decode]
    counts four dimensions instead of three. *)
Theorem C55_dims_refuted :
  exists first dim k, (2 <= dim)%nat /\ forall pr s, sv_first_dim s = first -> sv_dim s = dim -> length (sv_db s) = (first * dim ^ k)%nat ->
    decode_dimensions pr s = Ok (Z.of_nat k + 2) /\ no_of_cts pr s = Ok (Z.of_nat (first + dim * k)).
Proof. exact C55_dims_refuted_lem. Qed.
Print Assumptions C55_dims_refuted.

(** C55: dim = 1 with more than one row never returns (a release build loops
    for ever, whatever the bound on the iterations), dim = 0 panics. *)
Theorem C55_degenerate :
  (forall pr fuel len count, (2 <= len)%nat -> forall r, no_of_cts_loop pr fuel 1 len count <> Ok r)
  /\ (forall fuel len count, (2 <= len)%nat -> no_of_cts_loop Release fuel 1 len count = NoFuel)
  /\ forall pr s, (1 <= sv_first_dim s)%nat -> sv_dim s = 0%nat -> (2 * sv_first_dim s <= length (sv_db s))%nat -> no_of_cts pr s = Panic.
Proof. exact C55_degenerate_lem. Qed.
Print Assumptions C55_degenerate.

(** C55: the count overflows when first_dim + dim does: a debug build panics,
    a release build reports a number that is too small. *)
Theorem C55_overflow :
  forall s, (1 <= sv_first_dim s)%nat -> Z.of_nat (sv_first_dim s) < 2 ^ 64 -> Z.of_nat (sv_dim s) < 2 ^ 64 ->
    2 ^ 64 <= Z.of_nat (sv_first_dim s) + Z.of_nat (sv_dim s) ->
    (2 * sv_first_dim s <= length (sv_db s))%nat -> (length (sv_db s) / sv_first_dim s <= sv_dim s)%nat ->
    no_of_cts Debug s = Panic
    /\ no_of_cts Release s = Ok (Z.of_nat (sv_first_dim s) + Z.of_nat (sv_dim s) - 2 ^ 64).
Proof. exact C55_overflow_lem. Qed.
Print Assumptions C55_overflow.
