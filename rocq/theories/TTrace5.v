(** Property theorems; the proofs are in QTrace5.v. *)
From Verif Require Import PBase NT Spec PSum MModulus MUtils MBfv MEval MPvw PModulus PUtils PRq SpecPvw PPvw MTrace MTrace2 MTrace4 MTrace5 SpecTrace SpecTrace2 SpecTrace5 QTrace QTrace2 QTrace4 QTrace5.

(** The recorded runs compute what the model computes in a Release build. *)
Theorem C98_values :
  (forall c qd r, snd (t_client_encode c qd r) = client_encode Release c qd r)
  /\ (forall sk P a w, snd (t_pvw_gen_pk sk P a w) = pvw_gen_pk Release sk P a w)
  /\ (forall pk P m e, snd (t_pvw_encrypt pk P m e) = pvw_encrypt Release pk P m e)
  /\ (forall sk P ct, snd (t_pvw_decrypt sk P ct) = pvw_decrypt Release sk P ct).
Proof. exact C98_values_lem. Qed.
Print Assumptions C98_values.

(** The steps of making a query for an accepted position do not tell the
    position: two lists of indices of the same length, each within its
    dimension, look the same, and so they do when both first indices, or the
    same later ones, are out of range. *)
Theorem C98_query :
  forall c qd qd' r,
    Forall2 (fun x y => (x <? cl_dim c)%nat = (y <? cl_dim c)%nat) (tl qd) (tl qd') ->
    length qd = length qd' ->
    (nth 0 qd 0 <? cl_first_dim c)%nat = (nth 0 qd' 0 <? cl_first_dim c)%nat ->
    looks_same (t_client_encode c qd r) (t_client_encode c qd' r).
Proof. exact C98_query_lem. Qed.
Print Assumptions C98_query.

(** Making a PVW public key and PVW encryption give away sizes only: neither
    the secret key, nor the message, nor what the generator returned. *)
Theorem C98_pvw :
  (forall sk sk' P a a' w w', like_mat sk sk' -> like_mat a a' -> looks_same (t_pvw_gen_pk sk P a w) (t_pvw_gen_pk sk' P a' w'))
  /\ (forall pk pk' P m m' e e', Forall2 like_ct pk pk' -> length m = length m' -> length e = length e' ->
        looks_same (t_pvw_encrypt pk P m e) (t_pvw_encrypt pk' P m' e')).
Proof. exact C98_pvw_lem. Qed.
Print Assumptions C98_pvw.

(** PVW decryption divides by a number fixed at run time, and so gives away
    exactly the slots before rounding: two decryptions look the same if and
    only if these agree. *)
Theorem C98_pvw_decrypt :
  forall P sk sk' c c', 2 <= pv_q P < 2 ^ 62 ->
    matrix (pv_q P) (pv_ell P) (pv_n P) sk -> matrix (pv_q P) (pv_ell P) (pv_n P) sk' -> well_ct P c -> well_ct P c' ->
    (looks_same (t_pvw_decrypt sk P c) (t_pvw_decrypt sk' P c')
     <-> forall l, (l < pv_ell P)%nat -> noisy_slot P sk c l = noisy_slot P sk' c' l).
Proof. exact C98_pvw_decrypt_lem. Qed.
Print Assumptions C98_pvw_decrypt.

(** Two queries look the same; two decryptions of the same bit with different
    errors do not, and the divisions show the slot before rounding. *)
Example C98_example :
  let c := mkClient 4 2 in let P := mkPvw 2 1 3 257 1 in
  let divs t := flat_map (fun e => match e with EDiv x y => [(x, y)] | _ => [] end) t in
  fst (t_client_encode c [1; 0; 1]%nat 16) = fst (t_client_encode c [3; 1; 0]%nat 16)
  /\ snd (t_client_encode c [1; 0; 1]%nat 16) <> snd (t_client_encode c [3; 1; 0]%nat 16)
  /\ (tl (divs (fst (t_pvw_decrypt [[5; 7]] P (mkPvwCt [1; 2] [150])))), snd (t_pvw_decrypt [[5; 7]] P (mkPvwCt [1; 2] [150]))) = ([(195, 128)], Ok [1])
  /\ (tl (divs (fst (t_pvw_decrypt [[5; 7]] P (mkPvwCt [1; 2] [152])))), snd (t_pvw_decrypt [[5; 7]] P (mkPvwCt [1; 2] [152]))) = ([(197, 128)], Ok [1]).
Proof. vm_compute. repeat split; discriminate. Qed.
