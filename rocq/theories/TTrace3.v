(** Property theorems; the proofs are in QTrace3.v. *)
From Verif Require Import PBase MModulus MUtils MNtt MRns MRq MBfv MKsk MGalois MTrace MTrace2 MTrace3 SpecTrace SpecTrace2 SpecTrace3 QTrace QTrace2 TestEnv TestBfv QTrace3.

(** Recording the steps of a Release build changes no result. *)
Theorem C96_values : forall (s : RnsScaler) (q : RqScaler) (p : Poly) (rests : list Z) (n k : nat) (sk : SecretKey) (ct : Ct),
  snd (t_rns_scale s rests n k) = rns_scale Release s rests n k /\
  snd (t_rq_scale q p) = rq_scale Release q p /\
  snd (t_decrypt sk ct) = decrypt Release sk ct.
Proof. exact C96_values_lem. Qed.
Print Assumptions C96_values.

(** Scaling the residues of a coefficient gives away the sign of the correction, and nothing else. *)
Theorem C96_scale : forall (s : RnsScaler) (rests rests' : list Z) (n k : nat),
  length rests = length rests' ->
  (looks_same (t_rns_scale s rests n k) (t_rns_scale s rests' n k) <-> sign_of s rests = sign_of s rests').
Proof. exact C96_scale_lem. Qed.
Print Assumptions C96_scale.

(** With factor one there is no correction: nothing is given away. *)
Theorem C96_switch : forall (s : RnsScaler) (rests rests' : list Z) (n k : nat),
  sf_is_one (rs_factor s) = true -> length rests = length rests' ->
  looks_same (t_rns_scale s rests n k) (t_rns_scale s rests' n k).
Proof. exact C96_switch_lem. Qed.
Print Assumptions C96_switch.

(** Polynomials of one shape are scaled by the same steps if the signs agree coefficient by coefficient. *)
Theorem C96_poly : forall (s : RqScaler) (p q : Poly),
  alike p q -> p_repr p = PowerBasis -> same_signs s p q -> looks_same (t_rq_scale s p) (t_rq_scale s q).
Proof. exact C96_poly_lem. Qed.
Print Assumptions C96_poly.

(** Decryption gives away no more than the signs of the corrections of the phase. *)
Theorem C96_decrypt : forall (sk sk' : SecretKey) (ct ct' : Ct),
  keys_alike sk sk' -> ct_level ct = ct_level ct' -> Forall2 alike (ct_cts ct) (ct_cts ct') ->
  (forall sc p p', get (bp_scalars (sk_params sk)) (ct_level ct) = Ok sc ->
     snd (t_decrypt_phase sk ct) = Ok p -> snd (t_decrypt_phase sk' ct') = Ok p' -> same_signs sc p p') ->
  looks_same (t_decrypt sk ct) (t_decrypt sk' ct').
Proof. exact C96_decrypt_lem. Qed.
Print Assumptions C96_decrypt.

(** Decrypting two ciphertexts with one key: the right messages come out, the
    signs of the corrections are those of the rounding errors (they vary among
    the coefficients that are 0), and the decisions taken differ. *)
Example C96_example :
  (P <- test_bfv Release ;;
   let sk := mkSk P [1; -1; 0; 1; 1; 0; 2; -1] in
   pa <- pt_new Release P [2; 3; 0; 0; 0; 0; 0; 0] 0 EncPoly ;; pb <- pt_new Release P [9; 16; 1; 4; 0; 5; 0; 12] 0 EncPoly ;;
   a <- encrypt Release sk pa (trows bms 4) (tw 5) ;; b <- encrypt Release sk pb (trows bms 6) (tw 7) ;;
   sc <- get (bp_scalars P) 0 ;;
   p <- snd (t_decrypt_phase sk a) ;; q <- snd (t_decrypt_phase sk b) ;;
   let x := t_decrypt sk a in let y := t_decrypt sk b in
   u <- snd x ;; v <- snd y ;;
   let taken t := Z.of_nat (length (filter (fun e => match e with EBranch true => true | _ => false end) t)) in
   Ok (map (fun j => sign_of (sc_rns sc) (residues p j)) (seq 0 8), map (fun j => sign_of (sc_rns sc) (residues q j)) (seq 0 8),
       pt_values u, pt_values v, taken (fst x), taken (fst y)))
  = Ok ([false; true; false; false; false; false; true; true], [true; false; true; false; false; true; true; false],
        [2; 3; 0; 0; 0; 0; 0; 0], [9; 16; 1; 4; 0; 5; 0; 12], 301, 303).
Proof. vm_compute. reflexivity. Qed.
