(** Property theorems; the proofs are in QFix.v. *)
From Verif Require Import PBase NT Spec PSum MModulus MUtils MNtt MRns MRq MBfv MKsk MGalois MFix2 PModulus PUtils PNttMath PNtt PNttNew PCrt PRns PRnsScale PUtils2 SpecRq SpecBfv SpecKsk SpecFix PRing PRq PRq2 PRq3 PRq4 PRq5 QRq PBfv PBfv2 PBfv3 QBfv PKsk PGal PRingT PMul PMul2 QMulOp PFix TestEnv TestBfv QFix.

(** Sums and differences of ciphertexts of any numbers of components. *)
Theorem C83_sum :
  forall pr P i c fs gs, built_params P -> level P i c ->
    (exists h, ct_add_fixed pr (ct_of P i c fs) (ct_of P i c gs) = Ok (ct_of P i c h) /\ length h = max (length fs) (length gs)
       /\ forall s j, phase (bp_degree P) s h j = phase (bp_degree P) s fs j + phase (bp_degree P) s gs j)
    /\ (exists h, ct_sub_fixed pr (ct_of P i c fs) (ct_of P i c gs) = Ok (ct_of P i c h) /\ length h = max (length fs) (length gs)
       /\ forall s j, phase (bp_degree P) s h j = phase (bp_degree P) s fs j - phase (bp_degree P) s gs j).
Proof. exact C83_sum_lem. Qed.
Print Assumptions C83_sum.

(** Adding a polynomial adds it to the phase and keeps the other components. *)
Theorem C83_add_poly :
  forall pr P i c f0 fs h, built_params P -> level P i c ->
    exists g0, ct_add_poly_fixed pr (ct_of P i c (f0 :: fs)) (rep c Ntt h) = Ok (ct_of P i c (g0 :: fs))
      /\ forall s j, phase (bp_degree P) s (g0 :: fs) j = phase (bp_degree P) s (f0 :: fs) j + h j.
Proof. exact C83_add_poly_lem. Qed.
Print Assumptions C83_add_poly.

(** Encryption at any level round-trips. *)
Theorem C83_encrypt :
  forall pr P i c sk pt rows w,
    built_params P -> level P i c -> sk_params sk = P -> sk_ok sk ->
    pt_params pt = P -> pt_level pt = i -> Forall (fun x => 0 <= x < 2 ^ 64) (pt_values pt) ->
    (length (pt_values pt) <= bp_degree P)%nat ->
    wf_poly (mkPoly c Ntt rows) -> (forall k, 0 <= w k < 2 ^ 64) ->
    1 <= bp_variance P <= 16 -> small_basis (rq_moduli_64 c) -> 2 * bp_t P <= cx_q c 0 ->
    2 ^ 54 * (2 * bp_t P * (2 * bp_variance P + 2)) <= (2 ^ 54 - 1) * cx_Q c ->
    exists ct, encrypt_fixed pr sk pt rows w = Ok ct /\ ct_params ct = P /\ ct_level ct = i
      /\ decrypt pr sk ct = Ok (mkPt P i EncNone (map (fun j => nth j (pt_values pt) 0 mod bp_t P) (seq 0 (bp_degree P)))).
Proof. exact C83_encrypt_lem. Qed.
Print Assumptions C83_encrypt.

(** The product of ciphertexts of any numbers of components carries the product of
    the messages. *)
Theorem C83_product :
  forall pr P i c ec s fs gs m m' E E' B S,
    built_params P -> level P i c -> get (bp_e_ctxs P) i = Ok ec ->
    small_basis (rq_moduli_64 c) -> small_basis (rq_moduli_64 ec) ->
    let n := bp_degree P in let Q := cx_Q c in let t := bp_t P in
    fs <> [] -> gs <> [] -> Z.of_nat (length fs + length gs) <= 2 ^ 50 ->
    Z.of_nat (length fs) * Z.of_nat n * (Q * Q) <= cx_Q ec ->
    l1norm n s <= S -> powsum S (length fs) < 2 ^ 55 -> powsum S (length gs) < 2 ^ 55 -> 0 <= B <= Q ->
    carries n Q t (phase n s fs) m E -> carries n Q t (phase n s gs) m' E' ->
    (forall j, (j < n)%nat -> 0 <= m j < t) -> (forall j, (j < n)%nat -> 0 <= m' j < t) ->
    (forall j, (j < n)%nat -> Z.abs (E j) <= B) -> (forall j, (j < n)%nat -> Z.abs (E' j) <= B) ->
    exists ds E'',
      ct_mul_fixed pr (ct_of P i c fs) (ct_of P i c gs) = Ok (ct_of P i c ds)
      /\ length ds = (length fs + length gs - 1)%nat
      /\ carries n Q t (phase n s ds) (rmul n m m') E''
      /\ forall j, (j < n)%nat -> Z.abs (E'' j) <= mul_noise_gen n t B S (length fs) (length gs).
Proof. exact C83_product_lem. Qed.
Print Assumptions C83_product.

(** It decrypts to that product when the noise fits. *)
Theorem C83_decrypts :
  forall pr P i c ec sk fs gs m m' E E' B S,
    built_params P -> level P i c -> get (bp_e_ctxs P) i = Ok ec ->
    small_basis (rq_moduli_64 c) -> small_basis (rq_moduli_64 ec) -> sk_params sk = P -> sk_ok sk ->
    let n := bp_degree P in let Q := cx_Q c in let t := bp_t P in
    2 * t <= cx_q c 0 ->
    fs <> [] -> gs <> [] -> Z.of_nat (length fs + length gs) <= 2 ^ 50 ->
    Z.of_nat (length fs) * Z.of_nat n * (Q * Q) <= cx_Q ec ->
    l1norm n (sk_fun sk) <= S -> powsum S (length fs) < 2 ^ 55 -> powsum S (length gs) < 2 ^ 55 -> 0 <= B <= Q ->
    carries n Q t (phase n (sk_fun sk) fs) m E -> carries n Q t (phase n (sk_fun sk) gs) m' E' ->
    (forall j, (j < n)%nat -> 0 <= m j < t) -> (forall j, (j < n)%nat -> 0 <= m' j < t) ->
    (forall j, (j < n)%nat -> Z.abs (E j) <= B) -> (forall j, (j < n)%nat -> Z.abs (E' j) <= B) ->
    2 ^ 54 * (2 * mul_noise_gen n t B S (length fs) (length gs)) <= (2 ^ 54 - 1) * Q ->
    exists d, ct_mul_fixed pr (ct_of P i c fs) (ct_of P i c gs) = Ok d
      /\ decrypt pr sk d = Ok (mkPt P i EncNone (map (fun j => rmul n m m' j mod t) (seq 0 n))).
Proof. exact C83_decrypts_lem. Qed.
Print Assumptions C83_decrypts.

(** For two operands of two components the bound is that of [multiply1] before
    relinearization. *)
Theorem C83_noise : forall n t B S, mul_noise_gen n t B S 2 2 = mul_noise n t B S.
Proof. exact C83_noise_lem. Qed.
Print Assumptions C83_noise.

(** Where the code is right the repaired operators agree with it. *)
Theorem C83_agree :
  forall pr P i c, built_params P -> level P i c ->
    (forall f0 f1 g0 g1,
       ct_add_fixed pr (ct_of P i c [f0; f1]) (ct_of P i c [g0; g1]) = ct_add pr (ct_of P i c [f0; f1]) (ct_of P i c [g0; g1])
       /\ ct_sub_fixed pr (ct_of P i c [f0; f1]) (ct_of P i c [g0; g1]) = ct_sub pr (ct_of P i c [f0; f1]) (ct_of P i c [g0; g1]))
    /\ forall sk pt rows w, pt_level pt = 0%nat -> encrypt_fixed pr sk pt rows w = encrypt pr sk pt rows w.
Proof. exact C83_agree_lem. Qed.
Print Assumptions C83_agree.

(** The square of 2 + 3X, which the code gets wrong (C35), and a sum of 3 and 2 components. *)
Example C83_example :
  (P <- test_bfv Release ;; let sk := mkSk P [1; -1; 0; 1; 1; 0; 2; -1] in
   pa <- pt_new Release P [2; 3] 0 EncPoly ;;
   a <- encrypt_fixed Release sk pa (trows bms 4) (tw 5) ;;
   m <- ct_mul_fixed Release a a ;; d <- decrypt Release sk m ;;
   s <- ct_add_fixed Release m a ;; d2 <- decrypt Release sk s ;;
   Ok (length (ct_cts m), pt_values d, pt_values d2)) = Ok (3%nat, [4; 12; 9; 0; 0; 0; 0; 0], [6; 15; 9; 0; 0; 0; 0; 0]).
Proof. vm_compute. reflexivity. Qed.
