(** Property theorems; the proofs are in QOmr.v. *)
From Verif Require Import PBase NT Spec PSum MModulus MUtils MNtt MRns MRq MBfv MOmr PModulus PUtils SpecRq SpecBfv PRing PRq PRq2 PRq3 PRq4 PRq5 PBfv PBfv2 PBfv3 PFold TestBfv QBfv QOmr.

(** C53: for equally long non-empty lists, at every level, the phase of the
    result is the sum of the products of the phases with the polynomials. *)
Theorem C53_inner_product :
  forall pr P i c f h d, built_params P -> level P i c -> (0 < d)%nat ->
    exists g0 g1,
      inner_product pr (map (fun k => ct_of P i c [f k 0%nat; f k 1%nat]) (seq 0 d)) (map (fun k => rep c Ntt (h k)) (seq 0 d))
      = Ok (ct_of P i c [g0; g1])
      /\ forall s j, phase (bp_degree P) s [g0; g1] j
                     = sumn d (fun k => rmul (bp_degree P) (phase (bp_degree P) s [f k 0%nat; f k 1%nat]) (h k) j).
Proof. exact C53_inner_product_lem. Qed.
Print Assumptions C53_inner_product.

(** C53: under the summed noise the result decrypts to the inner product. *)
Theorem C53_decrypt :
  forall pr P i c sk f h d m E, built_params P -> level P i c -> (0 < d)%nat -> sk_params sk = P -> sk_ok sk ->
    small_basis (rq_moduli_64 c) -> 2 * bp_t P <= cx_q c 0 ->
    (forall k, (k < d)%nat -> carries (bp_degree P) (cx_Q c) (bp_t P) (phase (bp_degree P) (sk_fun sk) [f k 0%nat; f k 1%nat]) (m k) (E k)) ->
    (forall j, (j < bp_degree P)%nat -> noise_ok (cx_Q c) (sumn d (fun k => rmul (bp_degree P) (E k) (h k) j))) ->
    (x <- inner_product pr (map (fun k => ct_of P i c [f k 0%nat; f k 1%nat]) (seq 0 d)) (map (fun k => rep c Ntt (h k)) (seq 0 d)) ;; decrypt pr sk x)
    = Ok (mkPt P i EncNone (map (fun j => sumn d (fun k => rmul (bp_degree P) (m k) (h k) j) mod bp_t P) (seq 0 (bp_degree P)))).
Proof. exact C53_decrypt_lem. Qed.
Print Assumptions C53_decrypt.

(** C53: lists of different lengths and empty lists panic. *)
Theorem C53_panics :
  forall pr cts polys, length cts <> length polys \/ cts = [] -> inner_product pr cts polys = Panic.
Proof. exact C53_panics_lem. Qed.
Print Assumptions C53_panics.

(** [1 + 2X, 3] . [5, X] = 5 + 13X; empty lists panic. *)
Example C53_example :
  (P <- test_bfv Release ;; let sk := mkSk P [1; -1; 0; 1; 1; 0; 2; -1] in
   pa <- pt_new Release P [1; 2] 0 EncPoly ;; pb <- pt_new Release P [3] 0 EncPoly ;;
   a <- encrypt Release sk pa (trows bms 4) (tw 5) ;; b <- encrypt Release sk pb (trows bms 6) (tw 7) ;;
   c <- get (bp_q_ctxs P) 0 ;; p <- poly_from_u64 Release c [5] ;; p' <- change_repr Release p Ntt ;;
   r <- poly_from_u64 Release c [0; 1] ;; r' <- change_repr Release r Ntt ;;
   x <- inner_product Release [a; b] [p'; r'] ;; d <- decrypt Release sk x ;; Ok (pt_values d, inner_product Release [] []))
  = Ok ([5; 13; 0; 0; 0; 0; 0; 0], Panic).
Proof. vm_compute. reflexivity. Qed.
