(** Property theorems; the proofs are in QHelp.v. *)
From Verif Require Import PBase NT Spec PSum MModulus MUtils MNtt MRns MRq MBfv MKsk MRgsw PModulus PUtils PNttMath PNtt PNttNew PCrt PRns PRnsScale PUtils2 SpecRq SpecBfv SpecKsk PRing PRq PRq2 PRq3 PRq4 PRq5 TestEnv QRq PBfv PBfv2 PBfv3 QBfv PKsk TestBfv QHelp.

(** The vector forms of the word operations work entry by entry. *)
Theorem C84_vectors :
  forall pr p m, 0 <= p -> modulus_new p = Ok m ->
    (forall l, (forall x, In x l -> 0 <= x < 2 ^ 64) -> reduce_vec_u64 pr m l = Ok (map (fun x => x mod p) l))
    /\ (forall l, reduce_vec_biguint m l = Ok (map (fun x => x mod p) l))
    /\ (forall a, - 2 ^ 63 <= a < 2 ^ 63 -> reduce_i64 pr m a = Ok (a mod p))
    /\ (forall l, (forall x, In x l -> 0 <= x < p) -> shoup_vec pr m l = Ok (map (fun x => 2 ^ 64 * x / p) l))
    /\ (prime p -> forall l, (forall x, In x l -> 0 < x < p) ->
          exists v, inv_vec pr m l = Ok v /\ length v = length l
            /\ forall i, (i < length l)%nat -> 0 <= nth i v 0 < p /\ (nth i l 0 * nth i v 0) mod p = 1).
Proof. exact C84_vectors_lem. Qed.
Print Assumptions C84_vectors.

(** Zero and small random polynomials. *)
Theorem C84_polys :
  forall pr c r, built c ->
    poly_zero c r = rep c r (fun _ => 0)
    /\ forall v w, r <> NttShoup -> 1 <= v <= 16 -> (forall i, 0 <= w i < 2 ^ 64) ->
         exists l, sample_vec_cbd pr (rq_degree c) v w = Ok l /\ length l = rq_degree c
           /\ (forall x, In x l -> Z.abs x <= 2 * v)
           /\ poly_random_small pr c r v w = Ok (rep c r (fun j => nth j l 0)).
Proof. exact C84_polys_lem. Qed.
Print Assumptions C84_polys.

(** Trial decryption returns the phase, at any level. *)
Theorem C84_trial :
  forall pr P i c sk f0 f1, built_params P -> level P i c -> sk_params sk = P -> sk_ok sk ->
    exists g, decrypt_trial pr sk (rep c Ntt f0) (rep c Ntt f1) = Ok (rep c Ntt g)
      /\ forall j, (j < bp_degree P)%nat -> g j = phase (bp_degree P) (sk_fun sk) [f0; f1] j.
Proof. exact C84_trial_lem. Qed.
Print Assumptions C84_trial.

(** Assembling a key: the components are taken over as they are, whatever their
    number and whatever levels the ciphertexts have; the key is for level 0. *)
Theorem C84_assemble :
  forall P c cts, level P 0 c ->
    (Forall (fun ct => params_eqb (ct_params ct) P = true /\ (2 <= length (ct_cts ct))%nat) cts ->
       exists k, ksk_from_rlwes P cts = Ok k /\ k_params k = P /\ k_ksk_ctx k = c /\ k_ct_ctx k = c
         /\ length (k_c0 k) = length cts /\ length (k_c1 k) = length cts
         /\ forall i ct, get cts i = Ok ct -> get (k_c0 k) i = get (ct_cts ct) 0 /\ get (k_c1 k) i = get (ct_cts ct) 1)
    /\ (Exists (fun ct => params_eqb (ct_params ct) P = false \/ (length (ct_cts ct) < 2)%nat) cts -> ksk_from_rlwes P cts = Panic).
Proof. exact C84_assemble_lem. Qed.
Print Assumptions C84_assemble.

(** Switching with a key assembled from m level-0 pairs, m not related to the
    number of moduli: pairs past the number of moduli are ignored, digits past m
    are dropped, so the polynomial switched is the one whose residues past the
    m-th are replaced by zero.  [m = cx_k c] gives the whole polynomial. *)
Theorem C84_switch :
  forall pr P c k s from G b a e p m, built_params P -> level P 0 c -> gadget c G ->
    ksk_from_rlwes P (map (fun i => ct_of P 0 c [b i; a i]) (seq 0 m)) = Ok k ->
    (forall i j, (i < cx_k c)%nat -> (i < m)%nat -> (j < bp_degree P)%nat ->
       phase (bp_degree P) s [b i; a i] j mod cx_Q c = (G i * from j + e i j) mod cx_Q c) ->
    exists c0 c1 p', key_switch pr k (rep c PowerBasis p) = Ok (rep c Ntt c0, rep c Ntt c1)
      /\ (forall i j, (i < cx_k c)%nat -> p' j mod cx_q c i = if (i <? m)%nat then p j mod cx_q c i else 0)
      /\ forall j, (j < bp_degree P)%nat ->
           phase (bp_degree P) s [c0; c1] j mod cx_Q c
           = (rmul (bp_degree P) p' from j
              + sumn (Nat.min m (cx_k c)) (fun i => rmul (bp_degree P) (fun l => p l mod cx_q c i) (e i) j)) mod cx_Q c.
Proof. exact C84_switch_lem. Qed.
Print Assumptions C84_switch.

(** The vector helpers modulo 17; a key assembled from two, one and no ciphertexts
    of zero switches without panicking, and one made from a ciphertext with one component panics. *)
Example C84_example :
  (m <- modulus_new 17 ;; a <- reduce_vec_u64 Debug m [16; 17; 40] ;; i <- inv_vec Debug m [1; 2; 16] ;; s <- shoup_vec Debug m [0; 1] ;;
   Ok (a, i, s)) = Ok ([16; 0; 6], [1; 9; 16], [0; 2 ^ 64 / 17])
  /\ (P <- test_bfv Debug ;; c <- tctx P ;; let sk := mkSk P [1; -1; 0; 1; 1; 0; 2; -1] in
      a <- encrypt Debug sk (mkPt P 0 EncPoly [0; 0; 0; 0; 0; 0; 0; 0]) (trows bms 4) (tw 5) ;; p <- poly_from_i64 Debug c [1; 2] ;;
      k2 <- ksk_from_rlwes P [a; a] ;; x2 <- key_switch Debug k2 p ;;
      k1 <- ksk_from_rlwes P [a] ;; x1 <- key_switch Debug k1 p ;;
      k0 <- ksk_from_rlwes P [] ;; x0 <- key_switch Debug k0 p ;;
      t <- decrypt_trial Debug sk (fst x0) (snd x0) ;;
      Ok (length (k_c0 k2), length (k_c0 k1), map (fun r => forallb (Z.eqb 0) r) (p_rows t),
          match ksk_from_rlwes P [mkCt P [fst x1] 0] with Panic => true | _ => false end))
     = Ok (2%nat, 1%nat, [true; true], true).
Proof. split; vm_compute; reflexivity. Qed.
