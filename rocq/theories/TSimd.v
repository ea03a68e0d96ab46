(** Property theorems; the proofs are in QSimd.v. *)
From Verif Require Import PBase NT Spec PSum MModulus MUtils MNtt MRns MRq MBfv MKsk MGalois MRgsw MCirc MFix PModulus PNttMath PNtt PCrt PRns PUtils SpecRq SpecBfv SpecKsk SpecCirc SpecSimd PRing PRingT PRq PRq2 PRq3 PBfv PBfv2 PBfv3 PBfv4 PKsk PKsk2 QKsk QBfv PNttNew QRot QCirc PSimd PSimd2 TestBfv QSimd.

(** C82: the repaired map is a permutation of the coefficients. *)
Theorem C82_permutation :
  forall P mq, built_params P -> index_map_fixed (bp_degree P) = Ok mq -> Permutation mq (seq 0 (bp_degree P)).
Proof. exact C82_permutation_lem. Qed.
Print Assumptions C82_permutation.

(** C82: the map exists. *)
Theorem C82_map :
  forall P, built_params P -> exists mq, index_map_fixed (bp_degree P) = Ok mq.
Proof. exact C82_map_lem. Qed.
Print Assumptions C82_map.

(** C82: decoding inverts encoding. *)
Theorem C82_round_trip :
  forall pr P mq i u, built_params P -> index_map_fixed (bp_degree P) = Ok mq -> slot_vec P u ->
    (pt <- pt_new pr (with_index_map P mq) u i EncSIMD ;; pt_decode pr pt) = Ok u.
Proof. exact C82_round_trip_lem. Qed.
Print Assumptions C82_round_trip.

(** C82: two rows of slots, at the powers of 3 and at their inverses. *)
Theorem C82_decode :
  forall P mq, built_params P -> index_map_fixed (bp_degree P) = Ok mq ->
    exists psi, 0 <= psi < bp_t P /\ psi ^ Z.of_nat (bp_degree P) mod bp_t P = bp_t P - 1
    /\ forall pr i v, length v = bp_degree P -> Forall (fun x => 0 <= x < bp_t P) v ->
       exists r, pt_decode pr (mkPt (with_index_map P mq) i EncSIMD v) = Ok r /\ length r = bp_degree P
         /\ forall k, (k < bp_degree P / 2)%nat ->
            let e := 3 ^ Z.of_nat k mod (2 * Z.of_nat (bp_degree P)) in
            nth k r 0 = peval (bp_degree P) (vfun v) (psi ^ e) mod bp_t P
            /\ nth (bp_degree P / 2 + k) r 0 = peval (bp_degree P) (vfun v) (psi ^ (2 * Z.of_nat (bp_degree P) - e)) mod bp_t P.
Proof. exact C82_decode_lem. Qed.
Print Assumptions C82_decode.

(** C82: with the repaired map every circuit computes slot by slot: encode,
    encrypt, evaluate, decrypt, decode. *)
Theorem C82_circuit :
  forall pr P mq c ec sk d K pts cts S e,
    built_params P -> index_map_fixed (bp_degree P) = Ok mq ->
    let P' := with_index_map P mq in let n := bp_degree P in let t := bp_t P in
    level P' 0 c -> sk_params sk = P' -> sk_ok sk -> 1 <= bp_variance P <= 16 ->
    small_basis (rq_moduli_64 c) -> 2 * t <= cx_q c 0 ->
    get (bp_e_ctxs P') 0 = Ok ec /\ small_basis (rq_moduli_64 ec) /\ 2 * Z.of_nat n * (cx_Q c * cx_Q c) <= cx_Q ec ->
    l1norm n (sk_fun sk) <= S -> S < 2 ^ 54 ->
    simd_keys pr P' c sk d K ->
    Forall2 (simd_pt pr P') (sl_in d) pts ->
    Forall2 (fun pt ct => exists rows w, wf_poly (mkPoly c Ntt rows) /\ (forall k, 0 <= w k < 2 ^ 64) /\ encrypt pr sk pt rows w = Ok ct) pts cts ->
    let KB := ks_bound c (2 * bp_variance P) in let B := t * (2 * bp_variance P + 2) in
    slot_fits n (cx_Q c) t B S KB d e ->
    2 ^ 54 * (2 * slot_noise n t B S KB e) <= (2 ^ 54 - 1) * cx_Q c ->
    (ct <- run_circ pr K cts e ;; pt <- decrypt pr sk ct ;; pt_decode pr (pt_set_encoding pt EncSIMD))
    = Ok (map (fun j => slot_val n d e j mod t) (seq 0 n)).
Proof. exact C82_circuit_lem. Qed.
Print Assumptions C82_circuit.

(** C82: the encodings, keys and encryptions the theorem speaks about can always
    be made. *)
Theorem C82_exist :
  forall pr P mq c sk d rlkr gkr rr0 rr1 rows w,
    built_params P -> index_map_fixed (bp_degree P) = Ok mq ->
    let P' := with_index_map P mq in
    level P' 0 c -> sk_params sk = P' -> sk_ok sk -> 1 <= bp_variance P <= 16 ->
    length (bp_moduli P) <> 1%nat -> small_degree pr (bp_degree P) ->
    Forall (slot_vec P') (sl_in d) -> Forall (slot_vec P') (sl_pt d) -> Forall (slot_vec P') (sl_sel d) ->
    rnd_ok c rlkr -> rnd_ok c gkr -> rnd_ok c rr0 -> rnd_ok c rr1 ->
    wf_poly (mkPoly c Ntt rows) -> (forall k, 0 <= w k < 2 ^ 64) ->
    exists K pts cts, simd_keys pr P' c sk d K /\ Forall2 (simd_pt pr P') (sl_in d) pts
      /\ Forall2 (fun pt ct => encrypt pr sk pt rows w = Ok ct) pts cts.
Proof. exact C82_exist_lem. Qed.
Print Assumptions C82_exist.

(** Degree 8: the vectors a and b are multiplied slot by slot, a is added, the
    rows are rotated by one and swapped.  The noise bound of the theorem holds. *)
Definition ex_slots : circ := Rotate (Plus (Times (Input 0) (Input 1)) (Input 0)) 0.
Definition ex_slot_data : SlotData := mkSlotData [[1; 2; 3; 4; 5; 6; 7; 8]; [10; 11; 12; 13; 14; 15; 16; 1]] [] [(true, 1%nat)] [].
Definition ex_simd : outcome (list Z * bool) :=
  P0 <- test_bfv Debug ;; mq <- index_map_fixed 8 ;; let P := with_index_map P0 mq in
  c <- tctx P ;; let sk := mkSk P [1; -1; 0; 1; 1; 0; 2; -1] in
  pa <- pt_new Debug P [1; 2; 3; 4; 5; 6; 7; 8] 0 EncSIMD ;; pb <- pt_new Debug P [10; 11; 12; 13; 14; 15; 16; 1] 0 EncSIMD ;;
  a <- encrypt Debug sk pa (trows bms 4) (tw 5) ;; b <- encrypt Debug sk pb (trows bms 6) (tw 7) ;;
  r <- rlk_new Debug sk 0 (trnd 3) ;; g <- subst_new Debug c 13 ;; gk <- galois_new Debug sk g 0 (trnd 5) ;;
  x <- run_circ Debug (mkKeys r [gk] [] []) [a; b] ex_slots ;; d <- decrypt Debug sk x ;; v <- pt_decode Debug (pt_set_encoding d EncSIMD) ;;
  Ok (v, 2 ^ 54 * (2 * slot_noise 8 17 (17 * 4) 7 (ks_bound c 2) ex_slots) <=? (2 ^ 54 - 1) * cx_Q c).
Example C82_example :
  index_map_fixed 8 = Ok [0; 4; 1; 5; 7; 3; 6; 2]%nat /\ slot_galois 8 true 1 13
  /\ map (fun j => slot_val 8 ex_slot_data ex_slots j mod 17) (seq 0 8) = [11; 0; 16; 7; 7; 5; 5; 11]
  /\ ex_simd = Ok ([11; 0; 16; 7; 7; 5; 5; 11], true).
Proof. vm_compute. repeat split; discriminate. Qed.
