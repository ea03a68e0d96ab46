(** Property theorems; the proofs are in QClue.v. *)
From Verif Require Import PBase NT Spec PSum MModulus MUtils MNtt MRns MRq MBfv MPvw MOmr PModulus PUtils PNttMath PNtt PNttNew PRq SpecRq QNtt PSafe PSafe2 PSafe3 PKsk2 TestEnv QClue.

(** C63: for at most 64 clues with entries below q, every polynomial returned
    takes at the 64 slot points the entries of its column of the clues, then
    zeros. *)
Theorem C63_encode :
  forall pr env P clues, env_ok env -> 2 <= pv_q P < 2 ^ 62 -> ntt_possible env (pv_q P) 64 -> (length clues <= 64)%nat ->
    (forall c, In c clues -> length (pc_a c) = pv_n P /\ length (pc_b c) = pv_ell P
       /\ Forall (fun x => 0 <= x < pv_q P) (pc_a c) /\ Forall (fun x => 0 <= x < pv_q P) (pc_b c)) ->
    exists bs as_ psi, process_clues pr env P clues = Ok (bs, as_)
      /\ 0 <= psi < pv_q P /\ psi ^ 64 mod pv_q P = pv_q P - 1
      /\ length bs = pv_ell P /\ length as_ = pv_n P
      /\ (forall l, (l < pv_ell P)%nat -> encodes (pv_q P) psi (nth l bs []) (slots clues pc_b l))
      /\ (forall l, (l < pv_n P)%nat -> encodes (pv_q P) psi (nth l as_ []) (slots clues pc_a l)).
Proof. exact C63_encode_lem. Qed.
Print Assumptions C63_encode.

(** C63: more than 64 clues are never encoded: the call panics. *)
Theorem C63_too_many :
  forall pr env P clues, (64 < length clues)%nat -> (0 < pv_ell P + pv_n P)%nat ->
    (forall c, In c clues -> length (pc_a c) = pv_n P /\ length (pc_b c) = pv_ell P) ->
    process_clues pr env P clues = Panic.
Proof. exact C63_too_many_lem. Qed.
Print Assumptions C63_too_many.

(** C63: [process] completes whenever its transform can be built. *)
Theorem C63_process :
  forall pr env, env_ok env -> ntt_possible env (pv_q pvw_default) 64 -> process pr env = Ok tt.
Proof. exact C63_process_lem. Qed.
Print Assumptions C63_process.

(** Two clues with one entry each, q = 257: the polynomials take the clue
    entries at the first two slot points and zero at the others; 65 clues panic. *)
Definition ex_pvw : PvwParams := mkPvw 1 1 1 257 2.
Example C63_example :
  ntt_possible tenv 257 64
  /\ (m <- modulus_new 257 ;; op <- ntt_new Release tenv m 64 ;;
      r <- process_clues Release tenv ex_pvw [mkPvwCt [3] [100]; mkPvwCt [250] [7]] ;;
      b <- ntt_forward Release op (nth 0 (fst r) []) ;; a <- ntt_forward Release op (nth 0 (snd r) []) ;; Ok (b, a))
     = Ok (100 :: 7 :: repeat 0 62, 3 :: 250 :: repeat 0 62)
  /\ process_clues Release tenv ex_pvw (repeat (mkPvwCt [3] [100]) 65) = Panic.
Proof.
  split; [|vm_compute; split; reflexivity].
  split; [exists 6%nat; split; [lia|reflexivity]|]. split; [reflexivity|]. split; [vm_compute; reflexivity|].
  exists 1%nat. split; [lia|vm_compute; reflexivity].
Qed.
