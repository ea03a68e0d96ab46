(** Property theorems; the proofs are in QEq.v. *)
From Verif Require Import PBase MModulus MUtils MNtt MRns MRq MBfv MTests PRns PRq PBfv PAgree QRq QBfv SpecRq SpecEq QEq.

(** C76: for contexts made in the same environment, the comparison of the
    moduli, the degree and the bit decomposition decides whether all fields
    (the meaning of the derived PartialEq) agree. *)
Theorem C76_context :
  forall env a b, made env a -> made env b -> (ctx_eqb a b = true <-> a = b).
Proof. exact C76_context_lem. Qed.
Print Assumptions C76_context.

(** C76: the context one level down is itself the result of a construction, so
    the previous theorem covers chains. *)
Theorem C76_next :
  forall env c d, made env c -> rq_next c = Some d ->
    made env d /\ rq_moduli_64 d = firstn (length (rq_moduli_64 c) - 1) (rq_moduli_64 c)
    /\ rq_degree d = rq_degree c /\ rq_bd d = rq_bd c.
Proof. exact C76_next_lem. Qed.
Print Assumptions C76_next.

(** C76: the same for polynomials whose contexts were made in one environment. *)
Theorem C76_poly :
  forall env p q, made env (p_ctx p) -> made env (p_ctx q) -> (poly_eqb p q = true <-> p = q).
Proof. exact C76_poly_lem. Qed.
Print Assumptions C76_poly.

(** C76: every ciphertext context and every extended context of parameters is
    the result of a construction in the environment of the parameters. *)
Theorem C76_contexts :
  forall env P, made_params env P ->
    made env (bp_pt_ctx P) /\ Forall (made env) (bp_q_ctxs P) /\ Forall (made env) (bp_e_ctxs P).
Proof. exact C76_contexts_lem. Qed.
Print Assumptions C76_contexts.

(** C76: parameters made in the same environment agree in all fields as soon
    as degree, plaintext modulus, moduli, variance and bit decomposition do. *)
Theorem C76_params :
  forall env a b, made_params env a -> made_params env b -> (params_eqb a b = true <-> a = b).
Proof. exact C76_params_lem. Qed.
Print Assumptions C76_params.

(** Contexts of both builds and a third one with another bit decomposition. *)
Example C76_example :
  let env := mkEnv (fun x => zmem x [17; 97]) (fun p k => (3 + Z.of_nat k) mod p) in
  (a <- rq_new Debug env [17; 97] 8 (mkBD 4 8) ;; b <- rq_new Release env [17; 97] 8 (mkBD 4 8) ;;
   c <- rq_new Debug env [17; 97] 8 (mkBD 4 7) ;; d <- rq_new Release env [17] 8 (mkBD 4 8) ;;
   Ok (ctx_eqb a b, ctx_eqb a c, match rq_next a with Some x => ctx_eqb x d | None => false end))
  = Ok (true, false, true).
Proof. vm_compute. reflexivity. Qed.

(** Parameters can be made in the environment of the example of C52. *)
Example C76_example_params :
  let env := mkEnv (fun x => zmem x [17; 65633; 4611686018427387761; 4611686018427387617]) (fun p k => (3 + Z.of_nat k) mod p) in
  (a <- bfv_new Debug env 8 17 [65633] 1 (mkBD 4 8) ;; Ok (params_eqb a a, bp_variance a)) = Ok (true, 1).
Proof. vm_compute. reflexivity. Qed.
