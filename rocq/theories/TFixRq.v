(** Property theorems; the proofs are in QFixRq.v. *)
From Verif Require Import PBase NT Spec PSum MModulus MUtils MNtt MRns MRq MBfv MKsk MFix4 PModulus PUtils PNttMath PNtt PNttNew PCrt PRns PRnsScale PRnsScale2 PFix4 PUtils2 SpecRq SpecBfv SpecKsk PRing PRq PRq2 PRq3 PRq4 PRq5 TestEnv QUtils QRns QRq PBfv PBfv2 PBfv3 PKsk PKsk2 PMix QMix PFold TestBfv QFixRq.

(** C87: the repaired scalar product returns reduced residues. *)
Theorem C87_scalar_mul_vec :
  forall pr p m a b, 0 <= p -> modulus_new p = Ok m -> Forall (fun x => 0 <= x < 2 ^ 64) a -> 0 <= b < p ->
    scalar_mul_vec_fixed pr m a b = Ok (map (fun x => (x * b) mod p) a).
Proof. exact C87_scalar_mul_vec_lem. Qed.
Print Assumptions C87_scalar_mul_vec.

(** C87: the repaired bits() is the bit length. *)
Theorem C87_bits : forall p m, 0 <= p -> modulus_new p = Ok m -> modulus_bits_fixed m = Z.log2 p + 1.
Proof. exact C87_bits_lem. Qed.
Print Assumptions C87_bits.

(** C87: the repaired bit decomposition returns the digits of every coefficient. *)
Theorem C87_decompose :
  forall pr c p, built c -> p_ctx p = c -> wf_poly p -> (0 < bd_base (rq_bd c))%nat ->
    let B := Z.of_nat (bd_base (rq_bd c)) in
    exists ds, apply_bit_decomposition_fixed pr p = Ok ds /\ length ds = cx_k c
      /\ forall i j, (i < cx_k c)%nat -> (j < rq_degree c)%nat ->
           let v := nth j (nth i (p_rows p) []) 0 in let d := nth j (nth i ds []) [] in
           length (nth i ds []) = rq_degree c
           /\ Z.of_nat (length d) = (Z.log2 (cx_q c i) + 1 + B - 1) / B
           /\ (forall l, (l < length d)%nat -> nth l d 0 = (v / 2 ^ (Z.of_nat l * B)) mod 2 ^ B)
           /\ sumn (length d) (fun l => nth l d 0 * 2 ^ (Z.of_nat l * B)) = v.
Proof. exact C87_decompose_lem. Qed.
Print Assumptions C87_decompose.

(** C87: the repaired scaling is right for every basis of at most 2^32 moduli and
    every factor. *)
Theorem C87_scale : forall pr L (ms mt : list Z) from to N D,
  Forall (fun q => 0 <= q) ms -> Forall (fun q => 0 <= q) mt -> ms <> [] ->
  rns_new ms = Ok from -> rns_new mt = Ok to -> 0 <= N -> 1 <= D ->
  65 <= L <= 94 -> (forall q, In q ms -> q * Z.of_nat (length ms) <= 2 ^ L) ->
  exists s, (sf <- sf_new N D ;; rns_scaler_new pr from to sf) = Ok s /\
  forall rests x, length rests = length ms ->
    (forall i, (i < length ms)%nat -> 0 <= nth i rests 0 < nth i ms 1) ->
    (forall i, (i < length ms)%nat -> x mod nth i ms 1 = nth i rests 0) ->
    exists y, scaled_coeff L (zprod ms) N D x y
      /\ forall out_len start, (out_len <> 0)%nat -> (start + out_len <= length mt)%nat ->
           rns_scale_fixed pr s rests out_len start = Ok (map (fun i => y mod nth (start + i) mt 1) (seq 0 out_len)).
Proof. exact C87_scale_lem. Qed.
Print Assumptions C87_scale.

(** C87: where the code was right, the repaired scaling agrees with it. *)
Theorem C87_scale_agree : forall pr L (ms mt : list Z) from to N D s rests out_len start,
  Forall (fun q => 0 <= q) ms -> Forall (fun q => 0 <= q) mt -> ms <> [] ->
  rns_new ms = Ok from -> rns_new mt = Ok to -> 0 <= N -> 1 <= D -> scale_room L N D ms ->
  (sf <- sf_new N D ;; rns_scaler_new pr from to sf) = Ok s -> length rests = length ms ->
  (forall i, (i < length ms)%nat -> 0 <= nth i rests 0 < nth i ms 1) ->
  (out_len <> 0)%nat -> (start + out_len <= length mt)%nat ->
  rns_scale_fixed pr s rests out_len start = rns_scale pr s rests out_len start.
Proof. exact C87_scale_agree_lem. Qed.
Print Assumptions C87_scale_agree.

(** C87: the repaired scaling rejects arguments of wrong length in every build. *)
Theorem C87_scale_guard : forall pr s rests out_len start,
  length rests <> length (rns_moduli_u64 (rs_from s)) \/ out_len = 0%nat \/ (length (rns_moduli_u64 (rs_to s)) < start + out_len)%nat ->
  rns_scale_fixed pr s rests out_len start = Panic.
Proof. exact C87_scale_guard_lem. Qed.
Print Assumptions C87_scale_guard.

(** C87: the repaired polynomial scaling scales every coefficient, for every pair of
    contexts of one degree. *)
Theorem C87_poly :
  forall pr L from to N D,
    built from -> built to -> rq_degree from = rq_degree to -> 0 <= N -> 1 <= D ->
    65 <= L <= 94 -> (forall q, In q (rq_moduli_64 from) -> q * Z.of_nat (cx_k from) <= 2 ^ L) ->
    exists s, (sf <- sf_new N D ;; rq_scaler_new_fixed pr from to sf) = Ok s /\
    forall r f, r <> NttShoup -> exists g, rq_scale_fixed pr s (rep from r f) = Ok (rep to r g)
      /\ forall j, (j < rq_degree from)%nat -> scaled_coeff L (cx_Q from) N D (f j) (g j).
Proof. exact C87_poly_lem. Qed.
Print Assumptions C87_poly.

(** C87: with the moduli compared, +, - and * of polynomials of two levels of one
    chain are right or rejected. *)
Theorem C87_operators :
  forall pr C c i f g, built C -> nth_ctx C i = Some c ->
    poly_op_fixed (poly_add pr) (rep c Ntt f) (rep C Ntt g) = Ok (rep c Ntt (fun j => f j + g j)) /\
    poly_op_fixed (poly_sub pr) (rep c Ntt f) (rep C Ntt g) = Ok (rep c Ntt (fun j => f j - g j)) /\
    poly_op_fixed (poly_mul pr) (rep c Ntt f) (rep C Ntt g) = Ok (rep c Ntt (rmul (rq_degree c) f g)) /\
    (i <> 0%nat -> forall op, poly_op_fixed op (rep C Ntt f) (rep c Ntt g) = Panic).
Proof. exact C87_operators_lem. Qed.
Print Assumptions C87_operators.

(** C87: with the key's moduli compared, a key of any level switches polynomials of
    any level correctly or rejects them. *)
Theorem C87_key_switch :
  forall pr P i k c C sk u rnd, built_params P -> level P i c -> level P k C -> sk_params sk = P -> sk_ok sk ->
    1 <= bp_variance P <= 16 ->
    (forall l, wf_poly (mkPoly C Ntt (rnd_rows rnd l))) -> (forall l j, 0 <= rnd_words rnd l j < 2 ^ 64) ->
    exists key e, ksk_new pr sk (rep C Ntt u) i k rnd = Ok key
      /\ (forall l j, Z.abs (e l j) <= 2 * bp_variance P)
      /\ forall p, ((i < k)%nat -> key_switch_fixed pr key (rep c PowerBasis p) = Panic) /\
           ((k <= i)%nat -> exists c0 c1, key_switch_fixed pr key (rep c PowerBasis p) = Ok (rep c Ntt c0, rep c Ntt c1)
             /\ forall j, (j < bp_degree P)%nat ->
                  phase (bp_degree P) (sk_fun sk) [c0; c1] j mod cx_Q c = (rmul (bp_degree P) p u j + ks_noise c e p j) mod cx_Q c
                  /\ Z.abs (ks_noise c e p j) <= ks_bound c (2 * bp_variance P)).
Proof. exact C87_key_switch_lem. Qed.
Print Assumptions C87_key_switch.

(** The repaired functions on the inputs that refute C07, C23, C56 and C16. *)
Example C87_scalar_example : (m <- modulus_new 13 ;; scalar_mul_vec_fixed Debug m [2 ^ 64 - 1; 5] 12) = Ok [(2 ^ 64 - 1) * 12 mod 13; 8].
Proof. vm_compute. reflexivity. Qed.
Example C87_bits_example :
  (m <- modulus_new 1048609 ;; Ok (modulus_bits_fixed m)) = Ok 21
  /\ (c <- test_ctx Release [1048609] ;; p <- poly_from_u64 Release c [100; 2] ;; ds <- apply_bit_decomposition_fixed Release p ;; Ok (firstn 2 (nth 0 ds [])))
     = Ok [[4; 6; 0; 0; 0; 0]; [2; 0; 0; 0; 0; 0]].
Proof. vm_compute. auto. Qed.
Example C87_scale_example :
  (a <- rns_new ms12 ;; b <- rns_new [97] ;; f <- sf_new 1 3 ;; s <- rns_scaler_new Debug a b f ;;
   r <- rns_project a (zprod ms12 - 1) ;; x <- rns_scale_fixed Debug s r 1 0 ;; y <- rns_scale Debug s r 1 0 ;; Ok (x, y)) = Ok ([0], [2])
  /\ (a <- rns_new [97; 193] ;; b <- rns_new [113; 241] ;; f <- sf_new 2 7 ;; s <- rns_scaler_new Release a b f ;; rns_scale_fixed Release s [1; 2; 3] 2 0) = Panic.
Proof. vm_compute. auto. Qed.
Example C87_poly_example :
  (from <- test_ctx Release [1048609; 1048721] ;; to <- test_ctx Release [1048897; 1048721] ;; sf <- sf_new 1 1 ;;
   s <- rq_scaler_new_fixed Release from to sf ;; out <- rq_scale_fixed Release s (rep from PowerBasis (fun _ => -1)) ;; Ok (map (fun r => nth 0 r 0) (p_rows out)))
  = Ok [1048896; 1048720].
Proof. vm_compute. reflexivity. Qed.
Example C87_operators_example :
  (C <- test_ctx Release test_ms ;; c <- unwrap (rq_next C) ;;
   poly_op_fixed (poly_add Release) (rep C Ntt (fun _ => 0)) (rep c Ntt (fun _ => 0))) = Panic.
Proof. vm_compute. reflexivity. Qed.
