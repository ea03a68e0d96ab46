(** Property theorems; the proofs are in QBfv.v. *)
From Verif Require Import PBase NT Spec PSum MModulus MUtils MNtt MRns MRq MBfv PModulus PUtils PNttMath PNtt PNttNew PCrt PRns PRnsScale PUtils2 SpecRq SpecBfv PRing PRq PRq2 PRq4 PRq5 TestEnv QRq PBfv PBfv2 PBfv3 PBfv4 PBfv5 TestBfv QBfv.

(** C26: one prime per requested size, each the largest not used before. *)
Theorem C26_generate_moduli :
  forall pr env sizes n,
    (forall x, 0 <= x < 2 ^ 64 -> (is_prime env x = true <-> prime x)) ->
    (1 <= n)%nat -> Forall (fun s => 10 <= s <= 62) sizes ->
    (exists ms, generate_moduli pr env sizes n = Ok (Some ms) /\ NoDup ms
       /\ Forall2 (fun s p => ntt_prime s n p) sizes ms
       /\ forall i x, (i < length sizes)%nat -> ntt_prime (nth i sizes 0) n x -> ~ In x (firstn i ms) -> x <= nth i ms 0)
    \/ (generate_moduli pr env sizes n = Ok None
        /\ exists s1 size s2 ms, sizes = s1 ++ size :: s2 /\ NoDup ms /\ Forall2 (fun s p => ntt_prime s n p) s1 ms
           /\ forall x, ntt_prime size n x -> In x ms).
Proof. exact C26_generate_moduli_lem. Qed.
Print Assumptions C26_generate_moduli.

(** C26: a size outside [10, 62] panics when it is reached. *)
Theorem C26_size_guard :
  forall pr env size sizes n, ~ (10 <= size <= 62) -> generate_moduli pr env (size :: sizes) n = Panic.
Proof. exact C26_size_guard_lem. Qed.
Print Assumptions C26_size_guard.

Example C26_example :
  generate_moduli Debug tenv [20; 20; 21; 20] 8 = Ok (Some [1048433; 1048273; 2097041; 1048193])
  /\ generate_moduli Release tenv [10; 63] 8 = Panic
  /\ generate_moduli Release tenv [10] 256 = Ok None.
Proof. vm_compute. auto. Qed.

(** C27: polynomial encoding. *)
Theorem C27_poly_round_trip :
  forall pr P values lv, (length values <= bp_degree P)%nat ->
    exists pt, pt_new pr P values lv EncPoly = Ok pt
      /\ pt_decode pr pt = Ok (values ++ repeat 0 (bp_degree P - length values)).
Proof. exact C27_poly_round_trip_lem. Qed.
Print Assumptions C27_poly_round_trip.

Theorem C27_guards :
  forall pr P values lv e,
    ((bp_degree P < length values)%nat -> pt_new pr P values lv EncPoly = Panic)
    /\ pt_new pr P values lv EncNone = Panic
    /\ pt_decode pr (mkPt P lv EncNone values) = Panic
    /\ (length values <> bp_degree P -> pt_decode pr (pt_set_encoding (mkPt P lv e values) EncPoly) = Panic).
Proof. exact C27_guards_lem. Qed.
Print Assumptions C27_guards.

Example C27_example :
  (P <- test_bfv Debug ;; pt <- pt_new Debug P [1; 2; 3] 0 EncPoly ;; pt_decode Debug pt) = Ok [1; 2; 3; 0; 0; 0; 0; 0].
Proof. vm_compute. reflexivity. Qed.

(** C28: for every parameter set there are vectors that do not round-trip. *)
Theorem C28_simd_refuted :
  forall pr P lv, built_params P ->
    exists values pt r, length values = bp_degree P /\ Forall (fun x => 0 <= x < bp_t P) values
      /\ pt_new pr P values lv EncSIMD = Ok pt /\ pt_decode pr pt = Ok r /\ r <> values.
Proof. exact C28_simd_refuted_lem. Qed.
Print Assumptions C28_simd_refuted.

(** C28: what SIMD encoding does.  The decoded slot is the value of the last
    slot that the index map sends to the same position. *)
Theorem C28_simd_actual :
  forall pr P values lv, built_params P -> (bp_degree P <= length values)%nat -> Forall (fun x => 0 <= x < bp_t P) values ->
    let M := bp_index_map P in
    exists pt r, pt_new pr P values lv EncSIMD = Ok pt /\ pt_decode pr pt = Ok r /\ length r = bp_degree P
      /\ forall i j, (i < bp_degree P)%nat -> (j < bp_degree P)%nat -> nth j M 0%nat = nth i M 0%nat ->
           (forall j', (j < j' < bp_degree P)%nat -> nth j' M 0%nat <> nth i M 0%nat) -> nth i r 0 = nth j values 0.
Proof. exact C28_simd_actual_lem. Qed.
Print Assumptions C28_simd_actual.

(** C28: the encoder panics on fewer values than the degree. *)
Theorem C28_short_panics :
  forall pr P values lv, built_params P -> (length values < bp_degree P)%nat -> pt_new pr P values lv EncSIMD = Panic.
Proof. exact C28_short_panics_lem. Qed.
Print Assumptions C28_short_panics.

Example C28_example :
  (P <- test_bfv Debug ;; pt <- pt_new Debug P [1; 2; 3; 4; 5; 6; 7; 8] 0 EncSIMD ;; pt_decode Debug pt) = Ok [1; 2; 8; 4; 7; 8; 7; 8].
Proof. vm_compute. reflexivity. Qed.

(** C29: the scaled plaintext. *)
Theorem C29_scaled_plaintext :
  forall pr P i c pt, built_params P -> level P i c -> pt_params pt = P -> pt_level pt = i ->
    Forall (fun x => 0 <= x < 2 ^ 64) (pt_values pt) -> (length (pt_values pt) <= bp_degree P)%nat ->
    exists u, pt_to_poly pr pt = Ok (rep c Ntt u)
      /\ forall j, (j < bp_degree P)%nat ->
           let x := cx_Q c * nth j (pt_values pt) 0 / bp_t P in u j = x \/ u j = x - 1.
Proof. exact C29_scaled_plaintext_lem. Qed.
Print Assumptions C29_scaled_plaintext.

(** At level 1 (Q = 65633): values 1 and 20 (>= t); the second
    coefficient is 20Q/17 reduced modulo Q. *)
Example C29_example :
  (P <- test_bfv Debug ;; p <- pt_to_poly Debug (mkPt P 1 EncPoly [1; 20]) ;; p' <- change_repr Debug p PowerBasis ;; poly_to_big p')
  = (let Q := 65633 in Ok [Q / 17; (20 * Q / 17) mod Q; 0; 0; 0; 0; 0; 0]).
Proof. vm_compute. reflexivity. Qed.

(** C30: the secret key: centred binomial coefficients. *)
Theorem C30_keygen :
  forall pr P w, built_params P -> 1 <= bp_variance P <= 16 -> (forall k, 0 <= w k < 2 ^ 64) ->
    exists sk, sk_generate pr P w = Ok sk /\ sk_params sk = P /\ sk_ok sk
      /\ length (sk_coeffs sk) = bp_degree P /\ Forall (fun x => Z.abs x <= 2 * bp_variance P) (sk_coeffs sk).
Proof. exact C30_keygen_lem. Qed.
Print Assumptions C30_keygen.

(** C30: a fresh encryption decrypts to the message. *)
Theorem C30_encrypt_decrypt :
  forall pr P c sk pt rows w,
    built_params P -> level P 0 c -> sk_params sk = P -> sk_ok sk ->
    pt_params pt = P -> pt_level pt = 0%nat -> Forall (fun x => 0 <= x < 2 ^ 64) (pt_values pt) ->
    (length (pt_values pt) <= bp_degree P)%nat ->
    wf_poly (mkPoly c Ntt rows) -> (forall k, 0 <= w k < 2 ^ 64) ->
    1 <= bp_variance P <= 16 -> small_basis (rq_moduli_64 c) -> 2 * bp_t P <= cx_q c 0 ->
    2 ^ 54 * (2 * bp_t P * (2 * bp_variance P + 2)) <= (2 ^ 54 - 1) * cx_Q c ->
    exists ct, encrypt pr sk pt rows w = Ok ct
      /\ decrypt pr sk ct = Ok (mkPt P 0 EncNone (map (fun j => nth j (pt_values pt) 0 mod bp_t P) (seq 0 (bp_degree P)))).
Proof. exact C30_encrypt_decrypt_lem. Qed.
Print Assumptions C30_encrypt_decrypt.

Example C30_example :
  (P <- test_bfv Debug ;; sk <- sk_generate Debug P (tw 1) ;; pt <- pt_new Debug P [1; 2; 3; 4; 5; 16] 0 EncPoly ;;
   ct <- encrypt Debug sk pt (trows bms 4) (tw 5) ;; d <- decrypt Debug sk ct ;; Ok (sk_coeffs sk, pt_values d))
  = Ok ([-1; 0; -2; 0; 2; -1; 0; 0], [1; 2; 3; 4; 5; 16; 0; 0]).
Proof. vm_compute. reflexivity. Qed.

(** C31: decryption removes every scaled noise of magnitude below (almost) Q/2,
    for any number of components. *)
Theorem C31_decrypt :
  forall pr P i c sk fs m E,
    built_params P -> level P i c -> sk_params sk = P -> sk_ok sk -> fs <> [] ->
    small_basis (rq_moduli_64 c) -> 2 * bp_t P <= cx_q c 0 ->
    carries (bp_degree P) (cx_Q c) (bp_t P) (phase (bp_degree P) (sk_fun sk) fs) m E ->
    (forall j, (j < bp_degree P)%nat -> noise_ok (cx_Q c) (E j)) ->
    decrypt pr sk (ct_of P i c fs) = Ok (mkPt P i EncNone (map (fun j => m j mod bp_t P) (seq 0 (bp_degree P)))).
Proof. exact C31_decrypt_lem. Qed.
Print Assumptions C31_decrypt.

(** C31: the same in terms of floor(Qm/t) + e. *)
Theorem C31_budget :
  forall pr P i c sk fs m e B,
    built_params P -> level P i c -> sk_params sk = P -> sk_ok sk -> fs <> [] ->
    small_basis (rq_moduli_64 c) -> 2 * bp_t P <= cx_q c 0 ->
    (forall j, (j < bp_degree P)%nat ->
       phase (bp_degree P) (sk_fun sk) fs j mod cx_Q c = (cx_Q c * m j / bp_t P + e j) mod cx_Q c /\ Z.abs (e j) <= B) ->
    2 ^ 54 * (2 * bp_t P * (B + 1)) <= (2 ^ 54 - 1) * cx_Q c ->
    decrypt pr sk (ct_of P i c fs) = Ok (mkPt P i EncNone (map (fun j => m j mod bp_t P) (seq 0 (bp_degree P)))).
Proof. exact C31_budget_lem. Qed.
Print Assumptions C31_budget.

(** A three-component ciphertext (f0, 1, 1) with phase floor(Q*5/17) + 1000
    under s = 1 + X. *)
Example C31_example :
  (P <- test_bfv Debug ;; c <- get (bp_q_ctxs P) 0 ;;
   d <- decrypt Debug (mkSk P [1; 1]) (ct_of P 0 c [fun j => if (j =? 0)%nat then cx_Q c * 5 / 17 + 1000 - 2 else if (j =? 1)%nat then - 3 else if (j =? 2)%nat then -1 else 0;
                                                    one; one]) ;;
   Ok (pt_values d)) = Ok [5; 0; 0; 0; 0; 0; 0; 0].
Proof. vm_compute. reflexivity. Qed.

(** C32: the phase of a sum (difference) is the sum (difference) of the phases. *)
Theorem C32_add_sub :
  forall pr P i c f0 f1 g0 g1, built_params P -> level P i c ->
    exists h k, ct_add pr (ct_of P i c [f0; f1]) (ct_of P i c [g0; g1]) = Ok (ct_of P i c h)
      /\ ct_sub pr (ct_of P i c [f0; f1]) (ct_of P i c [g0; g1]) = Ok (ct_of P i c k)
      /\ length h = 2%nat /\ length k = 2%nat
      /\ forall s j, (j < bp_degree P)%nat ->
           phase (bp_degree P) s h j = phase (bp_degree P) s [f0; f1] j + phase (bp_degree P) s [g0; g1] j
           /\ phase (bp_degree P) s k j = phase (bp_degree P) s [f0; f1] j - phase (bp_degree P) s [g0; g1] j.
Proof. exact C32_add_sub_lem. Qed.
Print Assumptions C32_add_sub.

(** C32: and it decrypts to the sum (difference) while the noise is in budget. *)
Theorem C32_decrypt :
  forall pr P i c sk f0 f1 g0 g1 m m' E E', built_params P -> level P i c -> sk_params sk = P -> sk_ok sk ->
    small_basis (rq_moduli_64 c) -> 2 * bp_t P <= cx_q c 0 ->
    carries (bp_degree P) (cx_Q c) (bp_t P) (phase (bp_degree P) (sk_fun sk) [f0; f1]) m E ->
    carries (bp_degree P) (cx_Q c) (bp_t P) (phase (bp_degree P) (sk_fun sk) [g0; g1]) m' E' ->
    ((forall j, (j < bp_degree P)%nat -> noise_ok (cx_Q c) (E j + E' j)) ->
       (x <- ct_add pr (ct_of P i c [f0; f1]) (ct_of P i c [g0; g1]) ;; decrypt pr sk x)
       = Ok (mkPt P i EncNone (map (fun j => (m j + m' j) mod bp_t P) (seq 0 (bp_degree P)))))
    /\ ((forall j, (j < bp_degree P)%nat -> noise_ok (cx_Q c) (E j - E' j)) ->
       (x <- ct_sub pr (ct_of P i c [f0; f1]) (ct_of P i c [g0; g1]) ;; decrypt pr sk x)
       = Ok (mkPt P i EncNone (map (fun j => (m j - m' j) mod bp_t P) (seq 0 (bp_degree P))))).
Proof. exact C32_decrypt_lem. Qed.
Print Assumptions C32_decrypt.

(** C32: ciphertexts of different levels or parameters are refused. *)
Theorem C32_mismatch :
  forall pr a b,
    ct_level a <> ct_level b \/ bp_degree (ct_params a) <> bp_degree (ct_params b) \/ bp_t (ct_params a) <> bp_t (ct_params b)
    \/ bp_moduli (ct_params a) <> bp_moduli (ct_params b) \/ bp_variance (ct_params a) <> bp_variance (ct_params b) ->
    ct_add pr a b = Panic /\ ct_sub pr a b = Panic.
Proof. exact C32_mismatch_lem. Qed.
Print Assumptions C32_mismatch.

Example C32_example :
  (P <- test_bfv Release ;; let sk := mkSk P [1; -1; 0; 1; 1; 0; 2; -1] in
   pa <- pt_new Release P [1; 2; 16] 0 EncPoly ;; pb <- pt_new Release P [3; 4; 5; 6] 0 EncPoly ;;
   a <- encrypt Release sk pa (trows bms 4) (tw 5) ;; b <- encrypt Release sk pb (trows bms 6) (tw 7) ;;
   s <- ct_add Release a b ;; d <- ct_sub Release a b ;; s' <- decrypt Release sk s ;; d' <- decrypt Release sk d ;;
   Ok (pt_values s', pt_values d'))
  = Ok ([4; 6; 4; 6; 0; 0; 0; 0], [15; 15; 11; 11; 0; 0; 0; 0]).
Proof. vm_compute. reflexivity. Qed.

(** C58: a third component is dropped by the addition. *)
Theorem C58_add_three_refuted :
  forall pr P i c, built_params P -> level P i c ->
    exists sk f g h, sk_params sk = P /\ sk_ok sk /\ length f = 3%nat /\ length g = 3%nat
      /\ ct_add pr (ct_of P i c f) (ct_of P i c g) = Ok (ct_of P i c h)
      /\ (phase (bp_degree P) (sk_fun sk) h 0%nat) mod cx_Q c
         <> (phase (bp_degree P) (sk_fun sk) f 0%nat + phase (bp_degree P) (sk_fun sk) g 0%nat) mod cx_Q c.
Proof. exact C58_add_three_refuted_lem. Qed.
Print Assumptions C58_add_three_refuted.

(** C58, what happens: only the components 0 and 1 are read, the others are
    dropped; with fewer than two components the operations panic. *)
Theorem C58_actual :
  forall pr P i c, built_params P -> level P i c ->
    (forall f0 f1 fs g0 g1 gs,
       ct_add pr (ct_of P i c (f0 :: f1 :: fs)) (ct_of P i c (g0 :: g1 :: gs)) = Ok (ct_of P i c [fun j => f0 j + g0 j; fun j => f1 j + g1 j])
       /\ ct_sub pr (ct_of P i c (f0 :: f1 :: fs)) (ct_of P i c (g0 :: g1 :: gs)) = Ok (ct_of P i c [fun j => f0 j - g0 j; fun j => f1 j - g1 j]))
    /\ forall f g, (length f < 2 \/ length g < 2)%nat ->
         ct_add pr (ct_of P i c f) (ct_of P i c g) = Panic /\ ct_sub pr (ct_of P i c f) (ct_of P i c g) = Panic.
Proof. exact C58_actual_lem. Qed.
Print Assumptions C58_actual.

(** C33: products with a plaintext, a polynomial and an integer multiply the
    phase. *)
Theorem C33_multiply :
  forall pr P i c f0 f1 h k pt, built_params P -> level P i c ->
    pt_level pt = i -> Forall (fun x => 0 <= x < 2 ^ 64) (pt_values pt) -> (length (pt_values pt) <= bp_degree P)%nat ->
    let ph s fs := phase (bp_degree P) s fs in
    exists a b d, ct_mul_pt pr (ct_of P i c [f0; f1]) pt = Ok (ct_of P i c a)
      /\ ct_mul_poly pr (ct_of P i c [f0; f1]) (rep c Ntt h) = Ok (ct_of P i c b)
      /\ ct_mul_big pr (ct_of P i c [f0; f1]) k = Ok (ct_of P i c d)
      /\ length a = 2%nat /\ length b = 2%nat /\ length d = 2%nat
      /\ forall s j, ph s a j = rmul (bp_degree P) (ph s [f0; f1]) (fun l => nth l (pt_values pt) 0) j
          /\ ph s b j = rmul (bp_degree P) (ph s [f0; f1]) h j
          /\ ph s d j = k * ph s [f0; f1] j.
Proof. exact C33_multiply_lem. Qed.
Print Assumptions C33_multiply.

Theorem C33_decrypt :
  forall pr P i c sk f0 f1 h k pt m E, built_params P -> level P i c -> sk_params sk = P -> sk_ok sk ->
    pt_level pt = i -> Forall (fun x => 0 <= x < 2 ^ 64) (pt_values pt) -> (length (pt_values pt) <= bp_degree P)%nat ->
    small_basis (rq_moduli_64 c) -> 2 * bp_t P <= cx_q c 0 ->
    carries (bp_degree P) (cx_Q c) (bp_t P) (phase (bp_degree P) (sk_fun sk) [f0; f1]) m E ->
    let n := bp_degree P in let p l := nth l (pt_values pt) 0 in
    ((forall j, (j < n)%nat -> noise_ok (cx_Q c) (rmul n E p j)) ->
       (x <- ct_mul_pt pr (ct_of P i c [f0; f1]) pt ;; decrypt pr sk x)
       = Ok (mkPt P i EncNone (map (fun j => rmul n m p j mod bp_t P) (seq 0 n))))
    /\ ((forall j, (j < n)%nat -> noise_ok (cx_Q c) (rmul n E h j)) ->
       (x <- ct_mul_poly pr (ct_of P i c [f0; f1]) (rep c Ntt h) ;; decrypt pr sk x)
       = Ok (mkPt P i EncNone (map (fun j => rmul n m h j mod bp_t P) (seq 0 n))))
    /\ ((forall j, (j < n)%nat -> noise_ok (cx_Q c) (k * E j)) ->
       (x <- ct_mul_big pr (ct_of P i c [f0; f1]) k ;; decrypt pr sk x)
       = Ok (mkPt P i EncNone (map (fun j => (k * m j) mod bp_t P) (seq 0 n)))).
Proof. exact C33_decrypt_lem. Qed.
Print Assumptions C33_decrypt.

(** (1 + 2X + 16X^2) * (3 + X^7), and 5 times the message. *)
Example C33_example :
  (P <- test_bfv Release ;; let sk := mkSk P [1; -1; 0; 1; 1; 0; 2; -1] in
   pa <- pt_new Release P [1; 2; 16] 0 EncPoly ;; pb <- pt_new Release P [3; 0; 0; 0; 0; 0; 0; 1] 0 EncPoly ;;
   a <- encrypt Release sk pa (trows bms 4) (tw 5) ;;
   s <- ct_mul_pt Release a pb ;; d <- ct_mul_big Release a 5 ;; s' <- decrypt Release sk s ;; d' <- decrypt Release sk d ;;
   Ok (pt_values s', pt_values d'))
  = Ok ([1; 7; 14; 0; 0; 0; 0; 1], [5; 10; 12; 0; 0; 0; 0; 0]).
Proof. vm_compute. reflexivity. Qed.

(** C34: adding a polynomial h changes the phase by h + h*s: it is added to
    both components. *)
Theorem C34_add_poly_actual :
  forall pr P i c f0 f1 h, built_params P -> level P i c ->
    exists g, ct_add_poly pr (ct_of P i c [f0; f1]) (rep c Ntt h) = Ok (ct_of P i c g)
      /\ forall s j, phase (bp_degree P) s g j = phase (bp_degree P) s [f0; f1] j + h j + rmul (bp_degree P) s h j.
Proof. exact C34_add_poly_actual_lem. Qed.
Print Assumptions C34_add_poly_actual.

Theorem C34_add_poly_refuted :
  forall pr P i c, built_params P -> level P i c ->
    exists sk f h g, sk_params sk = P /\ sk_ok sk /\ length f = 2%nat
      /\ ct_add_poly pr (ct_of P i c f) (rep c Ntt h) = Ok (ct_of P i c g)
      /\ (phase (bp_degree P) (sk_fun sk) g 0%nat) mod cx_Q c
         <> (phase (bp_degree P) (sk_fun sk) f 0%nat + h 0%nat) mod cx_Q c.
Proof. exact C34_add_poly_refuted_lem. Qed.
Print Assumptions C34_add_poly_refuted.

(** Adding the encoding of 3 to an encryption of 1 does not give 4. *)
Example C34_example :
  (P <- test_bfv Release ;; let sk := mkSk P [1; -1; 0; 1; 1; 0; 2; -1] in
   pa <- pt_new Release P [1] 0 EncPoly ;; pb <- pt_new Release P [3] 0 EncPoly ;;
   a <- encrypt Release sk pa (trows bms 4) (tw 5) ;; h <- pt_to_poly Release pb ;;
   s <- ct_add_poly Release a h ;; d <- decrypt Release sk s ;; Ok (pt_values d)) = Ok [7; 14; 0; 3; 3; 0; 6; 14].
Proof. vm_compute. reflexivity. Qed.

Theorem C35_product_refuted :
  forall pr, exists P sk pa a prod d0 d,
    built_params P /\ sk_params sk = P /\ sk_ok sk
    /\ pt_new pr P [2; 3] 0 EncPoly = Ok pa /\ encrypt pr sk pa (trows bms 4) (tw 5) = Ok a
    /\ decrypt pr sk a = Ok d0 /\ pt_values d0 = [2; 3; 0; 0; 0; 0; 0; 0]
    /\ ct_mul pr a a = Ok prod /\ decrypt pr sk prod = Ok d
    /\ pt_values d <> [4; 12; 9; 0; 0; 0; 0; 0].
Proof. exact C35_product_refuted_lem. Qed.
Print Assumptions C35_product_refuted.

(** C46: above level 0 a fresh ciphertext carries the wrong level, so that its
    decryption panics. *)
Theorem C46_level_refuted :
  forall pr P i c sk pt rows w,
    built_params P -> level P i c -> (1 <= i)%nat -> sk_params sk = P -> sk_ok sk ->
    pt_params pt = P -> pt_level pt = i -> Forall (fun x => 0 <= x < 2 ^ 64) (pt_values pt) ->
    (length (pt_values pt) <= bp_degree P)%nat ->
    wf_poly (mkPoly c Ntt rows) -> (forall k, 0 <= w k < 2 ^ 64) -> 1 <= bp_variance P <= 16 ->
    exists ct, encrypt pr sk pt rows w = Ok ct /\ ct_level ct = 0%nat /\ decrypt pr sk ct = Panic.
Proof. exact C46_level_refuted_lem. Qed.
Print Assumptions C46_level_refuted.

(** C46, the ciphertext that comes out: its components are a correct encryption
    at level i, only its level field is wrong; with that field set to i it
    decrypts to the message. *)
Theorem C46_actual :
  forall pr P i c sk pt rows w,
    built_params P -> level P i c -> sk_params sk = P -> sk_ok sk ->
    pt_params pt = P -> pt_level pt = i -> Forall (fun x => 0 <= x < 2 ^ 64) (pt_values pt) ->
    (length (pt_values pt) <= bp_degree P)%nat ->
    wf_poly (mkPoly c Ntt rows) -> (forall k, 0 <= w k < 2 ^ 64) ->
    1 <= bp_variance P <= 16 -> small_basis (rq_moduli_64 c) -> 2 * bp_t P <= cx_q c 0 ->
    2 ^ 54 * (2 * bp_t P * (2 * bp_variance P + 2)) <= (2 ^ 54 - 1) * cx_Q c ->
    exists ct, encrypt pr sk pt rows w = Ok ct /\ ct_params ct = P /\ ct_level ct = 0%nat
      /\ decrypt pr sk (mkCt P (ct_cts ct) i) = Ok (mkPt P i EncNone (map (fun j => nth j (pt_values pt) 0 mod bp_t P) (seq 0 (bp_degree P)))).
Proof. exact C46_actual_lem. Qed.
Print Assumptions C46_actual.

Example C46_example :
  (P <- test_bfv Debug ;; let sk := mkSk P [1; -1; 0; 1; 1; 0; 2; -1] in
   pt <- pt_new Debug P [2; 3] 1 EncPoly ;; ct <- encrypt Debug sk pt (trows [65633] 4) (tw 5) ;; decrypt Debug sk ct) = Panic
  /\ (P <- test_bfv Debug ;; let sk := mkSk P [1; -1; 0; 1; 1; 0; 2; -1] in
   pt <- pt_new Debug P [2; 3] 1 EncPoly ;; ct <- encrypt Debug sk pt (trows [65633] 4) (tw 5) ;; Ok tt) = Ok tt.
Proof. split; vm_compute; reflexivity. Qed.

(** C47: the measured noise is the least N with all centred coefficients of
    phase - encode(decrypt) below 2^N. *)
Theorem C47_measure_noise :
  forall pr P i c sk f0 f1, built_params P -> level P i c -> sk_params sk = P -> sk_ok sk -> small_basis (rq_moduli_64 c) ->
    let Q := cx_Q c in
    exists pt u N, decrypt pr sk (ct_of P i c [f0; f1]) = Ok pt /\ pt_to_poly pr pt = Ok (rep c Ntt u)
      /\ measure_noise pr sk (ct_of P i c [f0; f1]) = Ok N /\ 0 <= N
      /\ let d j := (phase (bp_degree P) (sk_fun sk) [f0; f1] j - u j) mod Q in
         (forall j, (j < bp_degree P)%nat -> Z.min (d j) (Q - d j) < 2 ^ N)
         /\ (N = 0 \/ exists j, (j < bp_degree P)%nat /\ 2 ^ (N - 1) <= Z.min (d j) (Q - d j)).
Proof. exact C47_measure_noise_lem. Qed.
Print Assumptions C47_measure_noise.

Example C47_example :
  (P <- test_bfv Debug ;; c <- get (bp_q_ctxs P) 0 ;;
   measure_noise Debug (mkSk P [0; 1]) (ct_of P 0 c [fun j => if (j =? 3)%nat then -1000 else 1; fun j => 0])) = Ok 10.
Proof. vm_compute. reflexivity. Qed.

(** C51: level lookup. *)
Theorem C51_ctx_level :
  forall P c, built_params P ->
    (forall i, ctx_level P c = Some i <->
       (i < length (bp_moduli P))%nat /\ rq_moduli_64 c = firstn (length (bp_moduli P) - i) (bp_moduli P)
       /\ rq_degree c = bp_degree P /\ rq_bd c = rq_bd (bp_pt_ctx P))
    /\ (ctx_level P c = None <->
       ~ exists i, (i < length (bp_moduli P))%nat /\ rq_moduli_64 c = firstn (length (bp_moduli P) - i) (bp_moduli P)
                  /\ rq_degree c = bp_degree P /\ rq_bd c = rq_bd (bp_pt_ctx P)).
Proof. exact C51_ctx_level_lem. Qed.
Print Assumptions C51_ctx_level.

Example C51_ctx_level_example :
  (P <- test_bfv Debug ;; c <- get (bp_q_ctxs P) 1 ;; Ok (ctx_level P c, ctx_level P (bp_pt_ctx P))) = Ok (Some 1%nat, Some 1%nat)
  /\ (P <- test_bfv Debug ;; c <- get (bp_e_ctxs P) 0 ;; Ok (ctx_level P c)) = Ok None.
Proof. split; vm_compute; reflexivity. Qed.

(** C52: construction succeeds whenever enough 62-bit primes exist; the
    extension of level i is large enough for products: E * 2^cnt >= Q * 2^60. *)
Theorem C52_construct :
  forall pr env n t ms variance bd spare,
    env_ok env -> (forall x, 0 <= x < 2 ^ 64 -> prime x -> is_prime env x = true) ->
    ms <> [] -> Z.of_nat (length ms) < 2 ^ 57 -> NoDup ms ->
    (forall q, In q ms -> 2 <= q < 2 ^ 62 /\ ntt_possible env q n) ->
    2 <= t < 2 ^ 62 -> ntt_possible env t n -> (forall q, In q ms -> t < q) ->
    (forall x, ntt_prime 62 n x -> ntt_possible env x n) ->
    NoDup spare -> length spare = (length ms + 1)%nat -> Forall (fun x => ntt_prime 62 n x /\ ~ In x ms) spare ->
    exists P ext, bfv_new pr env n t ms variance bd = Ok P /\ built_params P
      /\ NoDup (ms ++ ext) /\ Forall (ntt_prime 62 n) ext
      /\ bp_degree P = n /\ bp_t P = t /\ bp_moduli P = ms /\ bp_variance P = variance
      /\ forall i, (i < length ms)%nat -> exists c e cnt, level P i c /\ get (bp_e_ctxs P) i = Ok e
           /\ rq_moduli_64 c = firstn (length ms - i) ms /\ rq_moduli_64 e = firstn (length ms - i) ms ++ firstn cnt ext
           /\ (cnt <= length ext)%nat /\ cx_Q c * 2 ^ 60 <= zprod (firstn cnt ext) * 2 ^ Z.of_nat cnt.
Proof. exact C52_construct_lem. Qed.
Print Assumptions C52_construct.

(** Construction for one modulus; the primality oracle knows the two largest
    62-bit primes that are 1 modulo 16. *)
Example C52_example :
  (P <- bfv_new Debug (mkEnv (fun x => zmem x [17; 65633; 4611686018427387761; 4611686018427387617]) (fun p k => (3 + Z.of_nat k) mod p))
        8 17 [65633] 1 (mkBD 4 8) ;;
   c <- get (bp_q_ctxs P) 0 ;; e <- get (bp_e_ctxs P) 0 ;; Ok (rq_moduli_64 c, rq_moduli_64 e))
  = Ok ([65633], [65633; 4611686018427387761; 4611686018427387617]).
Proof. vm_compute. reflexivity. Qed.
