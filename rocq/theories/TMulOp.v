(** Property theorems; the proofs are in QMulOp.v. *)
From Verif Require Import PBase NT Spec PSum MModulus MUtils MNtt MRns MRq MBfv MKsk MGalois PModulus PUtils PNttMath PNtt PNttNew PCrt PRns PRnsScale PUtils2 SpecRq SpecBfv SpecKsk PRing PRq PRq2 PRq3 PRq4 PRq5 QRq PBfv PBfv2 PBfv3 QBfv PKsk PGal PRingT PMul PMul2 TestEnv TestBfv QMulOp.

(** Component k of the product is the single term a * b with the largest index
    into the first operand; the other terms of the convolution are dropped. *)
Theorem C35_actual :
  forall pr P i c ec fs gs,
    built_params P -> level P i c -> get (bp_e_ctxs P) i = Ok ec ->
    small_basis (rq_moduli_64 c) -> small_basis (rq_moduli_64 ec) ->
    let n := bp_degree P in let Q := cx_Q c in let t := bp_t P in
    2 * Z.of_nat n * (Q * Q) <= cx_Q ec ->
    fs <> [] -> gs <> [] -> Z.of_nat (length fs + length gs) <= 2 ^ 50 ->
    exists lift D,
      ct_mul pr (ct_of P i c fs) (ct_of P i c gs) = Ok (ct_of P i c (map D (seq 0 (length fs + length gs - 1))))
      /\ (forall f j, eqm Q (lift f j) (f j) /\ 2 ^ 56 * Z.abs (lift f j) <= (2 ^ 55 + 1) * Q)
      /\ forall k j, (k < length fs + length gs - 1)%nat -> (j < n)%nat ->
           let a := min k (length fs - 1) in
           2 ^ 55 * Z.abs (Q * D k j - t * rmul n (lift (nth a fs (fun _ => 0))) (lift (nth (k - a) gs (fun _ => 0))) j) <= (2 ^ 54 + 1) * Q.
Proof. exact C35_actual_lem. Qed.
Print Assumptions C35_actual.

(** A ciphertext of one component has no cross term to lose: the product carries
    the product of the messages. *)
Theorem C35_one_component :
  forall pr P i c ec s f0 f1 g0 m m' E E' B S,
    built_params P -> level P i c -> get (bp_e_ctxs P) i = Ok ec ->
    small_basis (rq_moduli_64 c) -> small_basis (rq_moduli_64 ec) ->
    let n := bp_degree P in let Q := cx_Q c in let t := bp_t P in
    2 * Z.of_nat n * (Q * Q) <= cx_Q ec ->
    l1norm n s <= S -> S < 2 ^ 54 -> 0 <= B <= Q ->
    carries n Q t (phase n s [f0; f1]) m E -> carries n Q t g0 m' E' ->
    (forall j, (j < n)%nat -> 0 <= m j < t) -> (forall j, (j < n)%nat -> 0 <= m' j < t) ->
    (forall j, (j < n)%nat -> Z.abs (E j) <= B) -> (forall j, (j < n)%nat -> Z.abs (E' j) <= B) ->
    exists d0 d1 E'',
      ct_mul pr (ct_of P i c [f0; f1]) (ct_of P i c [g0]) = Ok (ct_of P i c [d0; d1])
      /\ carries n Q t (phase n s [d0; d1]) (rmul n m m') E''
      /\ forall j, (j < n)%nat -> Z.abs (E'' j) <= mul_noise n t B S.
Proof. exact C35_one_component_lem. Qed.
Print Assumptions C35_one_component.

(** Two operands without components panic; one of them without components gives
    zeros, one fewer than the other operand has. *)
Theorem C35_empty :
  forall pr P i c ec gs,
    built_params P -> level P i c -> get (bp_e_ctxs P) i = Ok ec ->
    small_basis (rq_moduli_64 c) -> small_basis (rq_moduli_64 ec) -> Z.of_nat (length gs) <= 2 ^ 50 ->
    ct_mul pr (ct_of P i c []) (ct_of P i c []) = Panic
    /\ (gs <> [] ->
        let z := Ok (ct_of P i c (map (fun _ _ => 0) (seq 0 (length gs - 1)))) in
        ct_mul pr (ct_of P i c []) (ct_of P i c gs) = z /\ ct_mul pr (ct_of P i c gs) (ct_of P i c []) = z).
Proof. exact C35_empty_lem. Qed.
Print Assumptions C35_empty.

(** A ciphertext squared by [*] misses one of the two cross terms: 3 components. *)
Example C35_example :
  (P <- test_bfv Release ;; let sk := mkSk P [1; -1; 0; 1; 1; 0; 2; -1] in
   pa <- pt_new Release P [2; 3] 0 EncPoly ;;
   a <- encrypt Release sk pa (trows bms 4) (tw 5) ;;
   m <- ct_mul Release a a ;; Ok (length (ct_cts m), ct_level m)) = Ok (3%nat, 0%nat).
Proof. vm_compute. reflexivity. Qed.
