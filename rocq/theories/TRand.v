(** Property theorems; the proofs are in QRand.v. *)
From Verif Require Import PBase NT Spec SpecProb SpecRand PSum MModulus MUtils MNtt MRns MRq MRand PModulus PUtils PUtils2 PRns SpecRq PRq PRq2 TestEnv QProb QRq QRand.

(** C74: [random] gives each x below p equally often: over all outcomes of N
    generator words, p times the number that return x is the number that return
    anything, and only (2^64 mod p)^N outcomes need more words. *)
Theorem C74_random :
  forall p m N x, 0 <= p -> modulus_new p = Ok m -> 0 <= x < p ->
    countb (64 * N) (fun bits => gives (modulus_random m (words N bits)) (Z.eqb x)) * p
    = 2 ^ (64 * Z.of_nat N) - (2 ^ 64 mod p) ^ Z.of_nat N.
Proof. exact C74_random_lem. Qed.
Print Assumptions C74_random.

(** C74: the same for [gen_range], with another number of rejected words. *)
Theorem C74_gen_range :
  forall p k N x, 0 <= k -> 2 ^ 63 <= 2 ^ k * p < 2 ^ 64 -> 0 <= x < p ->
    countb (64 * N) (fun bits => gives (gen_range p (words N bits)) (Z.eqb x)) * p
    = 2 ^ (64 * Z.of_nat N) - (2 ^ 64 - 2 ^ k * p) ^ Z.of_nat N.
Proof. exact C74_gen_range_lem. Qed.
Print Assumptions C74_gen_range.

(** C74: [random_vec] gives each vector below p equally often, and size words
    can be enough but fewer never are. *)
Theorem C74_vec :
  forall p m size N xs, 0 <= p -> modulus_new p = Ok m -> length xs = size -> Forall (fun x => 0 <= x < p) xs ->
    let total := countb (64 * N) (fun bits => gives (modulus_random_vec m size (words N bits)) (fun _ => true)) in
    countb (64 * N) (fun bits => gives (modulus_random_vec m size (words N bits)) (vec_is xs)) * p ^ Z.of_nat size = total
    /\ (0 < total <-> (size <= N)%nat).
Proof. exact C74_vec_lem. Qed.
Print Assumptions C74_vec.

(** C74: it never panics and its values are below p. *)
Theorem C74_vec_range :
  forall p m size ws, 0 <= p -> modulus_new p = Ok m -> Forall (fun w => 0 <= w < 2 ^ 64) ws ->
    (exists xs used rest, modulus_random_vec m size ws = Ok (xs, rest) /\ length xs = size
       /\ Forall (fun x => 0 <= x < p) xs /\ ws = used ++ rest /\ (size <= length used)%nat)
    \/ modulus_random_vec m size ws = NoFuel.
Proof. exact C74_vec_range_lem. Qed.
Print Assumptions C74_vec_range.

(** C74: [Poly::random] gives each polynomial of the context equally often. *)
Theorem C74_poly :
  forall ctx r rows N, built ctx -> wf_poly (mkPoly ctx r rows) ->
    let total := countb (64 * N) (fun bits => gives (poly_random_gen ctx r (words N bits)) (fun _ => true)) in
    countb (64 * N) (fun bits => gives (poly_random_gen ctx r (words N bits)) (rows_are rows)) * cx_Q ctx ^ Z.of_nat (rq_degree ctx) = total
    /\ (0 < total <-> (cx_k ctx * rq_degree ctx <= N)%nat).
Proof. exact C74_poly_lem. Qed.
Print Assumptions C74_poly.

(** C74: its result is a well-shaped polynomial of the context. *)
Theorem C74_poly_wf :
  forall ctx r ws, built ctx -> Forall (fun w => 0 <= w < 2 ^ 64) ws ->
    (exists p used rest, poly_random_gen ctx r ws = Ok (p, rest) /\ wf_poly p /\ p_ctx p = ctx /\ p_repr p = r
       /\ p = poly_random ctx r (p_rows p) /\ ws = used ++ rest /\ (cx_k ctx * rq_degree ctx <= length used)%nat)
    \/ poly_random_gen ctx r ws = NoFuel.
Proof. exact C74_poly_wf_lem. Qed.
Print Assumptions C74_poly_wf.

(** One word in 2^64 is rejected for p = 3. *)
Example C74_example :
  (m <- modulus_new 3 ;; modulus_random_vec m 3 [18446744073709551615; 6148914691236517205; 6148914691236517206; 3; 7])
  = Ok ([2; 1; 0], [7]).
Proof. vm_compute. reflexivity. Qed.
Example C74_context_example pr c : test_ctx pr test_ms = Ok c -> built c.
Proof.
  unfold test_ctx. intros E. exists pr, tenv, test_ms, 8%nat, (mkBD 4 5). split; [exact tenv_ok|]. split; [|exact E].
  repeat (constructor; [lia|]). constructor.
Qed.
Example C74_context_example2 : (c <- test_ctx Debug test_ms ;; Ok (rq_degree c)) = Ok 8%nat.
Proof. vm_compute. reflexivity. Qed.
