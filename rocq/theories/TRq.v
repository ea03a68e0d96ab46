(** Property theorems; the proofs are in QRq.v. *)
From Verif Require Import PBase NT Spec PSum MModulus MUtils MNtt MRns MRq PModulus PUtils PNttMath PNtt PNttNew PCrt PRns PRnsScale PUtils2 SpecRq PRing PRq PRq2 PRq3 PRq4 PRq5 TestEnv QNtt QRq.

(** C16: a counter-example.  The second moduli agree, the first do not; the
    row of the first source modulus is copied into the first target row, so
    -1 modulo the first source modulus is returned as the residue of a scaled
    coefficient that has to be -1 modulo the first target modulus. *)
Theorem C16_position_count_refuted :
  forall pr, exists from to s p out,
    built from /\ built to /\ rq_degree from = rq_degree to
    /\ (sf <- sf_new 1 1 ;; rq_scaler_new pr from to sf) = Ok s
    /\ p = rep from PowerBasis (fun _ => -1) /\ rq_scale pr s p = Ok out
    /\ forall y, scaled_coeff 65 (cx_Q from) 1 1 (-1) y -> nth 0 (nth 0 (p_rows out) []) 0 <> y mod cx_q to 0.
Proof. exact C16_position_count_refuted_lem. Qed.
Print Assumptions C16_position_count_refuted.

(** C16: when the positions at which the moduli agree form a prefix (always so
    when the target extends the source) or the factor is not one, every
    coefficient is scaled, in every representation. *)
Theorem C16_scale :
  forall pr L from to N D,
    built from -> built to -> rq_degree from = rq_degree to -> 0 <= N -> 1 <= D -> scale_room L N D (rq_moduli_64 from) ->
    (N = D -> forall i j, (i <= j)%nat -> (j < cx_k from)%nat -> (j < cx_k to)%nat -> cx_q from j = cx_q to j -> cx_q from i = cx_q to i) ->
    exists s, (sf <- sf_new N D ;; rq_scaler_new pr from to sf) = Ok s /\
    forall r f, r <> NttShoup -> exists g, rq_scale pr s (rep from r f) = Ok (rep to r g)
      /\ forall j, (j < rq_degree from)%nat -> scaled_coeff L (cx_Q from) N D (f j) (g j).
Proof. exact C16_scale_lem. Qed.
Print Assumptions C16_scale.

(** C16: in general, with the factor one, as many rows are copied as there are
    positions at which the moduli agree; the others are computed. *)
Theorem C16_actual :
  forall pr L from to N D f,
    built from -> built to -> rq_degree from = rq_degree to -> 0 <= N -> 1 <= D -> scale_room L N D (rq_moduli_64 from) ->
    exists s g, (sf <- sf_new N D ;; rq_scaler_new pr from to sf) = Ok s
      /\ (forall j, (j < rq_degree from)%nat -> scaled_coeff L (cx_Q from) N D (f j) (g j))
      /\ let c := if N =? D then length (filter (fun i => cx_q from i =? cx_q to i) (seq 0 (Nat.min (cx_k from) (cx_k to)))) else 0%nat in
         rq_scale pr s (rep from PowerBasis f)
         = Ok (mkPoly to PowerBasis (map (fun i => map (fun j => if (i <? c)%nat then f j mod cx_q from i else g j mod cx_q to i) (seq 0 (rq_degree from)))
                                         (seq 0 (cx_k to)))).
Proof. exact C16_actual_lem. Qed.
Print Assumptions C16_actual.

(** C16: the scaled coefficient is the rounded value exactly when the source
    value is not extremely close to Q/2 and the quotient not extremely close
    below a half integer. *)
Theorem C16_exact :
  forall L Q N D x y, 65 <= L <= 94 -> 1 <= Q -> 1 <= D -> scaled_coeff L Q N D x y ->
    let xc := centred Q x in
    2 ^ (191 - 2 * L) * (2 * Z.abs xc) < (2 ^ (191 - 2 * L) - 1) * Q ->
    D <= 2 ^ (125 - L) * (2 * D - (2 * N * xc + D) mod (2 * D)) ->
    y = (2 * N * xc + D) / (2 * D).
Proof. exact C16_exact_lem. Qed.
Print Assumptions C16_exact.

(** C16: guards. *)
Theorem C16_guard :
  forall pr from to sf, rq_degree from <> rq_degree to -> rq_scaler_new pr from to sf = Panic.
Proof. exact C16_guard_lem. Qed.
Print Assumptions C16_guard.

Theorem C16_context_guard :
  forall pr s p, ctx_eqb (p_ctx p) (sc_from s) = false -> rq_scale pr s p = Panic.
Proof. exact C16_context_guard_lem. Qed.
Print Assumptions C16_context_guard.

Example C16_example :
  (a <- test_ctx Debug test_ms ;; b <- test_ctx Debug test_ext ;; f <- sf_new 2 7 ;; s <- rq_scaler_new Debug a b f ;;
   p <- poly_from_i64 Debug a [-1000; 70; 5] ;; rows_of (rq_scale Debug s p))
  = Ok (map (fun q => [(-286) mod q; 20; 1; 0; 0; 0; 0; 0]) test_ext).
Proof. vm_compute. reflexivity. Qed.

(** C17: every well-shaped polynomial is the representation of a unique
    polynomial with coefficients in [0, Q). *)
Theorem C17_denotes :
  forall c p, built c -> p_ctx p = c -> wf_poly p ->
    exists f, (forall j, 0 <= f j < cx_Q c) /\ p = rep c (p_repr p) f.
Proof. exact C17_denotes_lem. Qed.
Print Assumptions C17_denotes.

Theorem C17_denotes_unique :
  forall c r f g, built c -> r <> NttShoup -> rep c r f = rep c r g -> peq (rq_degree c) (cx_Q c) f g.
Proof. exact C17_denotes_unique_lem. Qed.
Print Assumptions C17_denotes_unique.

Theorem C17_denotes_complete :
  forall c r f g, built c -> peq (rq_degree c) (cx_Q c) f g -> rep c r f = rep c r g.
Proof. exact C17_denotes_complete_lem. Qed.
Print Assumptions C17_denotes_complete.

(** C17: the operators. *)
Theorem C17_ring_ops :
  forall pr c f g a, built c ->
    let n := rq_degree c in
    poly_add pr (rep c Ntt f) (rep c Ntt g) = Ok (rep c Ntt (fun j => f j + g j))
    /\ poly_sub pr (rep c Ntt f) (rep c Ntt g) = Ok (rep c Ntt (fun j => f j - g j))
    /\ poly_mul pr (rep c Ntt f) (rep c Ntt g) = Ok (rep c Ntt (rmul n f g))
    /\ poly_mul_big pr (rep c Ntt f) a = Ok (rep c Ntt (fun j => a * f j))
    /\ (forall r, poly_neg pr (rep c r f) = Ok (rep c r (fun j => - f j))).
Proof. exact C17_ring_ops_lem. Qed.
Print Assumptions C17_ring_ops.

Theorem C17_guard :
  forall pr a b, p_repr a <> Ntt \/ p_repr b <> Ntt ->
    poly_add pr a b = Panic /\ poly_sub pr a b = Panic /\ poly_mul pr a b = Panic.
Proof. exact C17_guard_lem. Qed.
Print Assumptions C17_guard.

Example C17_example :
  (c <- test_ctx Release test_ms ;; a <- poly_from_u64 Release c [3; 0; 0; 0; 0; 0; 0; 2] ;; b <- poly_from_u64 Release c [0; 5] ;;
   a' <- change_repr Release a Ntt ;; b' <- change_repr Release b Ntt ;; m <- poly_mul Release a' b' ;; m' <- change_repr Release m PowerBasis ;;
   l <- poly_to_big m' ;; Ok (l, p_repr m))
  = Ok ([zprod test_ms - 10; 15; 0; 0; 0; 0; 0; 0], Ntt).
Proof. vm_compute. reflexivity. Qed.

(** C18 *)
Theorem C18_change :
  forall pr c r r' f, built c -> r <> NttShoup -> r' <> NttShoup ->
    change_repr pr (rep c r f) r' = Ok (rep c r' f).
Proof. exact C18_change_lem. Qed.
Print Assumptions C18_change.

Theorem C18_round_trip :
  forall pr c p r, built c -> p_ctx p = c -> wf_poly p -> p_repr p <> NttShoup -> r <> NttShoup ->
    exists p', change_repr pr p r = Ok p' /\ p_repr p' = r /\ change_repr pr p' (p_repr p) = Ok p.
Proof. exact C18_round_trip_lem. Qed.
Print Assumptions C18_round_trip.

Theorem C18_guard :
  forall pr p r, p_repr p = NttShoup \/ r = NttShoup -> change_repr pr p r = Panic.
Proof. exact C18_guard_lem. Qed.
Print Assumptions C18_guard.

Example C18_example :
  (c <- test_ctx Debug test_ms ;; p <- poly_from_i64 Debug c [5; -7; 0; 1] ;; q <- change_repr Debug p Ntt ;;
   p' <- change_repr Debug q PowerBasis ;; Ok (p_rows p', forallb (fun row => negb (zlist_eqb row (hd [] (p_rows p)))) (p_rows q)))
  = Ok (map (fun q => [5; q - 7; 0; 1; 0; 0; 0; 0]) test_ms, true).
Proof. vm_compute. reflexivity. Qed.

(** C19 *)
Theorem C19_substitute :
  forall pr c x, built c -> 0 <= x -> x mod 2 = 1 ->
    (let e := x mod (2 * Z.of_nat (rq_degree c)) in pr = Release \/ (e - 1) / 2 + Z.of_nat (rq_degree c) * e < 2 ^ 64) ->
    exists s, subst_new pr c x = Ok s /\
    forall r f, poly_substitute pr (rep c r f) s = Ok (rep c r (rsubst (rq_degree c) (Z.to_nat x) f)).
Proof. exact C19_substitute_lem. Qed.
Print Assumptions C19_substitute.

(** C19: up to degree 2^31 the loop counter fits; where it does not (possible
    from degree 2^32 on) a debug build panics. *)
Theorem C19_counter :
  forall c x, built c -> 0 <= x -> x mod 2 = 1 ->
    let n := Z.of_nat (rq_degree c) in let e := x mod (2 * n) in
    (n <= 2 ^ 31 -> (e - 1) / 2 + n * e < 2 ^ 64)
    /\ (2 ^ 64 <= (e - 1) / 2 + n * e -> subst_new Debug c x = Panic).
Proof. exact C19_counter_lem. Qed.
Print Assumptions C19_counter.

Theorem C19_even_panics :
  forall pr c x, built c -> 0 <= x -> x mod 2 = 0 -> subst_new pr c x = Panic.
Proof. exact C19_even_panics_lem. Qed.
Print Assumptions C19_even_panics.

Theorem C19_automorphism :
  forall n e e' f g k, (0 < n)%nat -> Nat.odd e = true ->
    rsubst n e (fun j => f j + g j) k = rsubst n e f k + rsubst n e g k
    /\ rsubst n e (rmul n f g) k = rmul n (rsubst n e f) (rsubst n e g) k
    /\ rsubst n e (rsubst n e' f) k = rsubst n (e' * e) f k
    /\ ((k < n)%nat -> rsubst n 1 f k = f k).
Proof. exact C19_automorphism_lem. Qed.
Print Assumptions C19_automorphism.

Example C19_example :
  (c <- test_ctx Debug test_ms ;; p <- poly_from_u64 Debug c [1; 2; 3; 4] ;; s <- subst_new Debug c 3 ;;
   a <- poly_substitute Debug p s ;; q <- change_repr Debug p Ntt ;; b <- poly_substitute Debug q s ;;
   b' <- change_repr Debug b PowerBasis ;; Ok (hd [] (p_rows a), hd [] (p_rows b')))
  = Ok ([1; 1048609 - 4; 0; 2; 0; 0; 3; 0], [1; 1048609 - 4; 0; 2; 0; 0; 3; 0]).
Proof. vm_compute. reflexivity. Qed.

(** C20 *)
Theorem C20_switch_down :
  forall pr c c' f, built c -> rq_next c = Some c' ->
    let ql := cx_q c (cx_k c - 1) in
    mod_switch_down_next pr (rep c PowerBasis f) = Ok (rep c' PowerBasis (fun j => (f j + ql / 2) / ql))
    /\ rq_moduli_64 c = rq_moduli_64 c' ++ [ql] /\ rq_degree c' = rq_degree c.
Proof. exact C20_switch_down_lem. Qed.
Print Assumptions C20_switch_down.

Theorem C20_switch_to :
  forall pr c c' i f, built c -> nth_ctx c i = Some c' ->
    mod_switch_to pr (rep c PowerBasis f) c'
    = Ok (rep c' PowerBasis (fun j => drop_round (rev (skipn (cx_k c - i) (rq_moduli_64 c))) (f j))).
Proof. exact C20_switch_to_lem. Qed.
Print Assumptions C20_switch_to.

Theorem C20_chain :
  forall c i, built c -> (exists c', nth_ctx c i = Some c') <-> (i < cx_k c)%nat.
Proof. exact C20_chain_lem. Qed.
Print Assumptions C20_chain.

Theorem C20_guard :
  forall pr p to, built (p_ctx p) -> (forall i, ~ below (p_ctx p) to i) -> mod_switch_to pr p to = Panic.
Proof. exact C20_guard_lem. Qed.
Print Assumptions C20_guard.

Theorem C20_repr_guard :
  forall pr p, p_repr p <> PowerBasis -> mod_switch_down_next pr p = Panic.
Proof. exact C20_repr_guard_lem. Qed.
Print Assumptions C20_repr_guard.

Example C20_example :
  (c <- test_ctx Debug test_ms ;; p <- poly_from_u64 Debug c [1048896 * 7 + 3; 524448; 524449; 1048897 * 4] ;;
   p' <- mod_switch_down_next Debug p ;; Ok (p_rows p', rq_moduli_64 (p_ctx p')))
  = Ok ([[7; 0; 1; 4; 0; 0; 0; 0]; [7; 0; 1; 4; 0; 0; 0; 0]], [1048609; 1048721]).
Proof. vm_compute. reflexivity. Qed.

(** C21 *)
Theorem C21_from_integers :
  forall pr c a, built c -> (length a <= rq_degree c)%nat ->
    (Forall (fun x => 0 <= x < 2 ^ 64) a -> poly_from_u64 pr c a = Ok (rep c PowerBasis (fun j => nth j a 0)))
    /\ (Forall (fun x => - 2 ^ 63 <= x < 2 ^ 63) a -> poly_from_i64 pr c a = Ok (rep c PowerBasis (fun j => nth j a 0)))
    /\ poly_from_bigint c a = Ok (rep c PowerBasis (fun j => nth j a 0)).
Proof. exact C21_from_integers_lem. Qed.
Print Assumptions C21_from_integers.

Theorem C21_too_long :
  forall pr c a, built c -> (rq_degree c < length a)%nat ->
    (Forall (fun x => 0 <= x < 2 ^ 64) a -> poly_from_u64 pr c a = Panic)
    /\ (Forall (fun x => - 2 ^ 63 <= x < 2 ^ 63) a -> poly_from_i64 pr c a = Panic)
    /\ poly_from_bigint c a = Panic.
Proof. exact C21_too_long_lem. Qed.
Print Assumptions C21_too_long.

Theorem C21_to_integers :
  forall c f, built c ->
    poly_to_big (rep c PowerBasis f) = Ok (map (fun j => f j mod cx_Q c) (seq 0 (rq_degree c)))
    /\ (length (rq_moduli_64 c) = 1%nat ->
        poly_to_u64 (rep c PowerBasis f) = Ok (map (fun j => f j mod cx_Q c) (seq 0 (rq_degree c)))).
Proof. exact C21_to_integers_lem. Qed.
Print Assumptions C21_to_integers.

Theorem C21_to_u64_guard :
  forall p, length (rq_moduli_64 (p_ctx p)) <> 1%nat -> poly_to_u64 p = Panic.
Proof. exact C21_to_u64_guard_lem. Qed.
Print Assumptions C21_to_u64_guard.

Example C21_example :
  (c <- test_ctx Debug test_ms ;; p <- poly_from_i64 Debug c [-3; 12] ;; poly_to_big p)
  = Ok [zprod test_ms - 3; 12; 0; 0; 0; 0; 0; 0]
  /\ (c <- test_ctx Debug [1048609] ;; p <- poly_from_bigint c [2 ^ 70] ;; poly_to_u64 p) = Ok [2 ^ 70 mod 1048609; 0; 0; 0; 0; 0; 0; 0]
  /\ (c <- test_ctx Debug [1048609] ;; poly_from_u64 Debug c [1; 2; 3; 4; 5; 6; 7; 8; 9]) = Panic.
Proof. vm_compute. auto. Qed.

(** C23: bits() is never the bit length. *)
Theorem C23_bits_refuted :
  forall p m, modulus_new p = Ok m -> 0 <= p -> modulus_bits m <> Z.log2 p + 1.
Proof. exact C23_bits_refuted_lem. Qed.
Print Assumptions C23_bits_refuted.

(** C23: bit decomposition panics on every polynomial. *)
Theorem C23_apply_bit_decomposition_refuted :
  forall pr c p, built c -> p_ctx p = c -> wf_poly p -> apply_bit_decomposition pr p = Panic.
Proof. exact C23_apply_bit_decomposition_refuted_lem. Qed.
Print Assumptions C23_apply_bit_decomposition_refuted.

Example C23_example :
  (m <- modulus_new 1048609 ;; Ok (modulus_bits m)) = Ok (2 ^ 64 - 1 - 43)
  /\ (c <- test_ctx Release [1048609] ;; p <- poly_from_u64 Release c [1; 2] ;; apply_bit_decomposition Release p) = Panic.
Proof. vm_compute. auto. Qed.

(** C51: chain distance. *)
Theorem C51_switch_iterations :
  forall c to, built c ->
    (forall i, switch_iterations c to = Some i <-> below c to i)
    /\ (switch_iterations c to = None <-> forall i, ~ below c to i).
Proof. exact C51_switch_iterations_lem. Qed.
Print Assumptions C51_switch_iterations.

Example C51_switch_example :
  (a <- test_ctx Debug test_ms ;; b <- test_ctx Debug [1048609] ;; c <- test_ctx Debug [1048721] ;;
   Ok (switch_iterations a b, switch_iterations a a, switch_iterations a c, switch_iterations b a))
  = Ok (Some 2%nat, Some 0%nat, None, None).
Proof. vm_compute. reflexivity. Qed.

(** C54 *)
Theorem C54_inverse :
  forall pr c f, built c ->
    (forall i j, (i < cx_k c)%nat -> (j < rq_degree c)%nat -> nth j (nth i (p_rows (rep c Ntt f)) []) 0 <> 0) ->
    exists g, poly_inverse pr (rep c Ntt f) = Ok (rep c Ntt g)
      /\ peq (rq_degree c) (cx_Q c) (rmul (rq_degree c) f g) (fun j => if (j =? 0)%nat then 1 else 0).
Proof. exact C54_inverse_lem. Qed.
Print Assumptions C54_inverse.

Example C54_example :
  (c <- test_ctx Debug test_ms ;; p <- poly_from_u64 Debug c [3; 1] ;; q <- change_repr Debug p Ntt ;;
   i <- poly_inverse Debug q ;; m <- poly_mul Debug q i ;; m' <- change_repr Debug m PowerBasis ;; poly_to_big m')
  = Ok [1; 0; 0; 0; 0; 0; 0; 0].
Proof. vm_compute. reflexivity. Qed.

(** C57: what a context made by [RqContext::new] contains. *)
Theorem C57_structure :
  forall pr env ms n bd c, env_ok env -> Forall (fun q => 0 <= q) ms -> rq_new pr env ms n bd = Ok c ->
    ms <> [] /\ rq_moduli_64 c = ms /\ map mp (rq_moduli c) = ms /\ rq_degree c = n /\ rq_bd c = bd
    /\ (exists L, (3 <= L)%nat /\ n = (2 ^ L)%nat)
    /\ (forall i j, (i < length ms)%nat -> (j < length ms)%nat -> i <> j -> nth i ms 1 <> nth j ms 1)
    /\ (forall q, In q ms -> prime q /\ q < 2 ^ 62 /\ (2 * Z.of_nat n | q - 1))
    /\ match rq_next c with
       | None => length ms = 1%nat
       | Some c' => (2 <= length ms)%nat /\ rq_new pr env (firstn (length ms - 1) ms) n bd = Ok c'
       end.
Proof. exact C57_structure_lem. Qed.
Print Assumptions C57_structure.

(** C57: construction succeeds exactly for a non-empty list of pairwise coprime
    moduli in [2, 2^62) that all support the transform, and panics otherwise. *)
Theorem C57_construct :
  forall pr env ms n bd, env_ok env -> Forall (fun q => 0 <= q) ms ->
    let good := ms <> [] /\ (forall q, In q ms -> 2 <= q < 2 ^ 62 /\ ntt_possible env q n)
      /\ (forall i j, (i < length ms)%nat -> (j < length ms)%nat -> i <> j -> Z.gcd (nth i ms 1) (nth j ms 1) = 1) in
    (good -> exists c, rq_new pr env ms n bd = Ok c) /\ (~ good -> rq_new pr env ms n bd = Panic).
Proof. exact C57_construct_lem. Qed.
Print Assumptions C57_construct.

Example C57_example :
  (c <- test_ctx Debug test_ms ;; Ok (rq_moduli_64 c, rq_degree c, option_map rq_moduli_64 (rq_next c)))
  = Ok (test_ms, 8%nat, Some [1048609; 1048721])
  /\ test_ctx Release [] = Panic /\ test_ctx Debug [1048609; 1048609] = Panic /\ test_ctx Debug [1048583] = Panic.
Proof. vm_compute. auto. Qed.
