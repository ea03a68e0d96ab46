(** Claims C48, C49: PVW encryption. *)
From Verif Require Import PBase NT Spec PSum MModulus MUtils MPvw PModulus PUtils PUtils2 PRq SpecPvw PPvw.

(** C48: for every key, public matrix, error words, bit vector and random bits,
    the ciphertext's slot l is message*floor(q/2) plus the accumulated error, and
    decryption is its rounding. *)
Lemma C48_exact_lem :
  forall pr P sk a w errs m e, 2 <= pv_q P < 2 ^ 62 -> matrix (pv_q P) (pv_ell P) (pv_n P) sk -> matrix (pv_q P) (pv_m P) (pv_n P) a ->
    (forall l, (l < pv_ell P)%nat -> sample_vec_cbd pr (pv_m P) (pv_variance P) (w l) = Ok (errs l)) ->
    (forall l k, (l < pv_ell P)%nat -> 0 <= w l k < 2 ^ 64) -> bits (pv_ell P) m -> bits (pv_m P) e ->
    exists pk ct, pvw_gen_pk pr sk P a w = Ok pk /\ pvw_encrypt pr pk P m e = Ok ct
      /\ length (pc_b ct) = pv_ell P /\ length (pc_a ct) = pv_n P
      /\ (forall l, (l < pv_ell P)%nat ->
            (nth l (pc_b ct) 0 - dot (pv_n P) (nth l sk []) (pc_a ct)) mod pv_q P = (pv_q P / 2 * nth l m 0 + pvw_error P errs e l) mod pv_q P)
      /\ pvw_decrypt pr sk P ct
         = Ok (map (fun l => pvw_round (pv_q P) ((pv_q P / 2 * nth l m 0 + pvw_error P errs e l) mod pv_q P)) (seq 0 (pv_ell P))).
Proof.
  intros pr P sk a w errs m e HQ HS HA HE HW HM Hb. destruct (modulus_new_ok (pv_q P) HQ) as [qm [EM [Eq V]]].
  exists (map (pk_row P sk a errs) (seq 0 (pv_m P))), (the_ct P sk a errs m e).
  split; [apply (gen_pk_ok pr P qm); auto|]. split; [eapply (encrypt_ok pr P qm); eauto|].
  split; [apply len_seq|]. split; [apply len_seq|]. split; [|eapply (decrypt_the_ct pr P qm); eauto].
  intros l Hl. cbn [the_ct pc_b]. rewrite nth_map_seq by auto. rewrite Zminus_mod_idemp_l. eapply (ct_phase pr P qm V Eq); eauto.
Qed.

(*EXAMPLE
(** A small parameter set: errors in [-2, 2], three rows, q = 97. *)
Example C48_example :
  let P := mkPvw 2 2 3 97 1 in
  let w := fun l k => Z.of_nat (l * 7 + k + 1) * 7640891576956012809 mod 2 ^ 64 in
  (pk <- pvw_gen_pk Debug [[3; 96]; [40; 7]] P [[5; 6]; [96; 0]; [33; 12]] w ;; ct <- pvw_encrypt Debug pk P [1; 0] [1; 0; 1] ;;
   d <- pvw_decrypt Debug [[3; 96]; [40; 7]] P ct ;; Ok (pc_a ct, d)) = Ok ([38; 18], [1; 0]).
Proof. vm_compute. reflexivity. Qed.
EXAMPLE*)

(** C48: errors in [-floor(q/4), floor(q/2) - floor(q/4)), in particular in
    [-floor(q/4), floor(q/4)), give the message back. *)
Lemma C48_decrypt_lem :
  forall pr P sk a w errs m e, 2 <= pv_q P < 2 ^ 62 -> matrix (pv_q P) (pv_ell P) (pv_n P) sk -> matrix (pv_q P) (pv_m P) (pv_n P) a ->
    (forall l, (l < pv_ell P)%nat -> sample_vec_cbd pr (pv_m P) (pv_variance P) (w l) = Ok (errs l)) ->
    (forall l k, (l < pv_ell P)%nat -> 0 <= w l k < 2 ^ 64) -> bits (pv_ell P) m -> bits (pv_m P) e ->
    (forall l, (l < pv_ell P)%nat -> - (pv_q P / 4) <= pvw_error P errs e l < pv_q P / 2 - pv_q P / 4) ->
    (pk <- pvw_gen_pk pr sk P a w ;; ct <- pvw_encrypt pr pk P m e ;; pvw_decrypt pr sk P ct) = Ok m.
Proof.
  intros pr P sk a w errs m e HQ HS HA HE HW HM Hb HR.
  destruct (C48_exact_lem pr P sk a w errs m e HQ HS HA HE HW HM Hb) as [pk [ct [E1 [E2 [_ [_ [_ E3]]]]]]].
  rewrite E1. cbn [bind]. rewrite E2. cbn [bind]. rewrite E3. f_equal. destruct HM as [Lm Rm]. transitivity (map (fun l => nth l m 0) (seq 0 (pv_ell P))); [|symmetry; apply list_seq; auto].
  apply map_seq_ext. intros l Hl. apply round_ok; auto. lia.
Qed.

(** C48: the range always holds when 2*variance*m fits into q/4. *)
Lemma C48_safe_lem :
  forall pr P sk a w m e, 2 <= pv_q P < 2 ^ 62 -> 1 <= pv_variance P <= 16 ->
    matrix (pv_q P) (pv_ell P) (pv_n P) sk -> matrix (pv_q P) (pv_m P) (pv_n P) a ->
    (forall l k, (l < pv_ell P)%nat -> 0 <= w l k < 2 ^ 64) -> bits (pv_ell P) m -> bits (pv_m P) e ->
    2 * pv_variance P * Z.of_nat (pv_m P) < pv_q P / 4 ->
    (pk <- pvw_gen_pk pr sk P a w ;; ct <- pvw_encrypt pr pk P m e ;; pvw_decrypt pr sk P ct) = Ok m.
Proof.
  intros pr P sk a w m e HQ Hv HS HA HW HM Hb HB.
  set (errs := fun l => map (fun i => cbd_sample (w l) (Z.to_nat (pv_variance P)) (4 * Z.to_nat (pv_variance P) * i)) (seq 0 (pv_m P))).
  apply (C48_decrypt_lem pr P sk a w errs); auto.
  - intros l Hl. apply sample_vec_cbd_ok; auto.
  - intros l Hl. assert (A : Z.abs (pvw_error P errs e l) <= Z.of_nat (pv_m P) * (2 * pv_variance P)).
    { unfold pvw_error. apply sumn_abs_le. intros i Hi. unfold errs. rewrite nth_map_seq by auto.
      pose proof (cbd_sample_bound (w l) (Z.to_nat (pv_variance P)) (4 * Z.to_nat (pv_variance P) * i)).
      destruct Hb as [_ Rb]. destruct (Rb i Hi) as [->| ->]; lia. }
    assert (2 * (pv_q P / 4) <= pv_q P / 2).
    { apply Z.div_le_lower_bound; [lia|]. pose proof (Z.mul_div_le (pv_q P) 4 ltac:(lia)). lia. }
    lia.
Qed.

(*EXAMPLE
(** The hypotheses of [C48_safe] and [C48_decrypt] are met by a 2-row instance. *)
Example C48_safe_example :
  let P := mkPvw 1 1 2 97 1 in
  (pk <- pvw_gen_pk Debug [[50]] P [[5]; [60]] (fun _ _ => 12345678901234567) ;; ct <- pvw_encrypt Debug pk P [1] [1; 1] ;;
   pvw_decrypt Debug [[50]] P ct) = Ok [1] /\ 2 * 1 * Z.of_nat 2 < 97 / 4.
Proof. split; vm_compute; reflexivity. Qed.
EXAMPLE*)

(** C48: gen_pk panics for a variance outside 1..16, and every operation for a modulus outside
    2 <= q < 2^62. *)
Lemma C48_panics_lem :
  forall pr P, (forall sk a w, 2 <= pv_q P < 2 ^ 62 -> ~ (1 <= pv_variance P <= 16) -> (1 <= pv_ell P)%nat -> pvw_gen_pk pr sk P a w = Panic)
    /\ (0 <= pv_q P -> ~ (2 <= pv_q P < 2 ^ 62) -> (forall rows, pvw_gen_sk P rows = Panic) /\ (forall sk a w, pvw_gen_pk pr sk P a w = Panic)
         /\ (forall pk m e, pvw_encrypt pr pk P m e = Panic) /\ forall sk ct, pvw_decrypt pr sk P ct = Panic).
Proof.
  intros pr P. split.
  - intros sk a w HQ HV HL. unfold pvw_gen_pk. destruct (modulus_new_ok (pv_q P) HQ) as [qm [EM _]]. rewrite EM. cbn [bind].
    destruct (pv_ell P) as [|l]; [lia|]. cbn [seq foldM]. rewrite sample_vec_cbd_panic by auto. reflexivity.
  - intros H0 HQ. pose proof (modulus_new_panic (pv_q P) H0 HQ) as E.
    unfold pvw_gen_sk, pvw_gen_pk, pvw_encrypt, pvw_decrypt. rewrite E. repeat split; reflexivity.
Qed.

(*EXAMPLE
Example C48_panics_example :
  (pvw_gen_pk Debug [[0]] (mkPvw 1 1 1 97 17) [[0]] (fun _ _ => 0), pvw_decrypt Debug [[0]] (mkPvw 1 1 1 1 1) (mkPvwCt [0] [0])) = (Panic, Panic).
Proof. vm_compute. reflexivity. Qed.
EXAMPLE*)

Lemma error_four P A e errs l :
  (A <= pv_m P)%nat -> e = repeat 1 A ++ repeat 0 (pv_m P - A) ->
  (forall i, (i < pv_m P)%nat -> nth i (errs l) 0 = 4) -> pvw_error P errs e l = Z.of_nat A * 4.
Proof.
  intros HA -> HE. unfold pvw_error. remember (pv_m P) as B. clear HeqB P. replace B with (A + (B - A))%nat at 1 by lia. rewrite sumn_split.
  rewrite (sumn_ext A _ (fun _ => 4)).
  2:{ intros i Hi. rewrite app_nth1 by (rewrite repeat_length; auto). rewrite (nth_indep _ 0 1) by (rewrite repeat_length; auto). rewrite nth_repeat.
      rewrite HE by lia. reflexivity. }
  rewrite sumn_const. rewrite sumn_0; [lia|]. intros i Hi. rewrite app_nth2, nth_repeat by (rewrite repeat_length; lia). reflexivity.
Qed.

Lemma bits_ones A B : (A <= B)%nat -> bits B (repeat 1 A ++ repeat 0 (B - A)).
Proof.
  intros AB. split; [rewrite app_length, !repeat_length; lia|]. intros i Hi. destruct (Nat.lt_ge_cases i A).
  - rewrite app_nth1 by (rewrite repeat_length; auto). rewrite (nth_indep _ 0 1) by (rewrite repeat_length; auto). rewrite nth_repeat. auto.
  - rewrite app_nth2, nth_repeat by (rewrite repeat_length; auto). auto.
Qed.

(** C49: with the default parameters there are words for which every error is 4,
    and 4096 selected rows then turn every 0 into a 1. *)
Lemma C49_default_refuted_lem :
  exists sk a w e, matrix (pv_q pvw_default) (pv_ell pvw_default) (pv_n pvw_default) sk
    /\ matrix (pv_q pvw_default) (pv_m pvw_default) (pv_n pvw_default) a
    /\ (forall l k, 0 <= w l k < 2 ^ 64) /\ bits (pv_m pvw_default) e
    /\ forall pr, (pk <- pvw_gen_pk pr sk pvw_default a w ;; ct <- pvw_encrypt pr pk pvw_default [0; 0; 0; 0] e ;; pvw_decrypt pr sk pvw_default ct)
                  = Ok [1; 1; 1; 1].
Proof.
  exists (repeat (repeat 0 450) 4), (repeat (repeat 0 450) (160 * 100)), (fun _ _ => 1085102592571150095), (repeat 1 (64 * 64) ++ repeat 0 (160 * 100 - 64 * 64)).
  assert (MZ : forall r, matrix 65537 r 450 (repeat (repeat 0 450) r)).
  { intros r. split; [apply repeat_length|]. intros i Hi.
    assert (E : nth i (repeat (repeat 0 450) r) [] = repeat 0 450) by (rewrite (nth_indep _ [] (repeat 0 450)) by (rewrite repeat_length; auto); apply nth_repeat).
    rewrite E. split; [apply repeat_length|]. intros j _. rewrite nth_repeat. lia. }
  change (pv_q pvw_default) with 65537. change (pv_ell pvw_default) with 4%nat. change (pv_n pvw_default) with 450%nat. change (pv_m pvw_default) with (160 * 100)%nat.
  set (A := (64 * 64)%nat). set (B := (160 * 100)%nat). assert (AB : (A <= B)%nat) by (apply Nat.leb_le; vm_compute; reflexivity).
  assert (EA : Z.of_nat A = 4096) by (unfold A; rewrite Nat2Z.inj_mul; reflexivity).
  split; [apply MZ|]. split; [apply MZ|]. split; [intros; lia|].
  pose proof (bits_ones A B AB) as BE.
  split; [exact BE|]. intros pr. set (w := fun _ _ => _). set (e := repeat 1 A ++ _).
  assert (CB : forall i, cbd_sample (fun _ => 1085102592571150095) 2 (8 * i) = 4).
  { intros i. unfold cbd_sample. change (2 * 2)%nat with 4%nat. unfold stream_bit.
    assert (Q : forall j, (j < 8)%nat -> ((8 * i + j) mod 64 = 8 * (i mod 8) + j)%nat).
    { intros j Hj. symmetry. apply Nat.mod_unique with (i / 8)%nat; pose proof (Nat.mod_upper_bound i 8 ltac:(lia)); pose proof (Nat.div_mod i 8 ltac:(lia)); lia. }
    set (r := (i mod 8)%nat) in *. assert (Hr : (r < 8)%nat) by (apply Nat.mod_upper_bound; lia). clearbody r.
    set (p := (8 * i)%nat) in *. clearbody p. cbn [sumn]. rewrite <- !Nat.add_assoc. cbn [Nat.add]. rewrite !Q by lia. clear Q.
    do 8 (destruct r as [|r]; [vm_compute; reflexivity|]). lia. }
  set (errs := fun _ : nat => map (fun i => cbd_sample (fun _ => 1085102592571150095) 2 (8 * i)) (seq 0 B)).
  destruct (C48_exact_lem pr pvw_default (repeat (repeat 0 450) 4) (repeat (repeat 0 450) B) w errs [0; 0; 0; 0] e) as [pk [ct [E1 [E2 [_ [_ [_ E3]]]]]]].
  - cbn. lia.
  - apply MZ.
  - apply MZ.
  - intros l Hl. apply sample_vec_cbd_ok; [cbn; lia|]. intros i. unfold w. lia.
  - intros l k _. unfold w. lia.
  - split; [reflexivity|]. intros i Hi. left. cbn in Hi. destruct i as [|[|[|[|]]]]; auto; lia.
  - exact BE.
  - rewrite E1. cbn [bind]. rewrite E2. cbn [bind]. rewrite E3.
    assert (EE : forall l, pvw_error pvw_default errs e l = 16384).
    { intros l. change 16384 with (4096 * 4). rewrite <- EA. apply error_four; [exact AB|reflexivity|]. intros i Hi. unfold errs. rewrite nth_map_seq by exact Hi. apply CB. }
    change (pv_ell pvw_default) with 4%nat. cbn [seq map]. rewrite !EE. reflexivity.
Qed.

(*EXAMPLE
(** An error of q/4 is enough to change a bit: all errors are 4 here, q = 32. *)
Example C49_small_example :
  let P := mkPvw 1 1 2 32 2 in
  (pk <- pvw_gen_pk Release [[0]] P [[0]; [0]] (fun _ _ => 1085102592571150095) ;; ct <- pvw_encrypt Release pk P [0] [1; 1] ;;
   d <- pvw_decrypt Release [[0]] P ct ;; Ok (pc_b ct, d)) = Ok ([8], [1]).
Proof. vm_compute. reflexivity. Qed.
EXAMPLE*)

(** C49, the part that holds: with the default parameters decryption is correct
    whenever fewer than 4096 rows are selected (4096 is where it starts to fail). *)
Lemma C49_default_partial_lem :
  forall pr sk a w m e, matrix (pv_q pvw_default) (pv_ell pvw_default) (pv_n pvw_default) sk ->
    matrix (pv_q pvw_default) (pv_m pvw_default) (pv_n pvw_default) a -> (forall l k, 0 <= w l k < 2 ^ 64) ->
    bits (pv_ell pvw_default) m -> bits (pv_m pvw_default) e -> sumn (pv_m pvw_default) (fun i => nth i e 0) < 4096 ->
    (pk <- pvw_gen_pk pr sk pvw_default a w ;; ct <- pvw_encrypt pr pk pvw_default m e ;; pvw_decrypt pr sk pvw_default ct) = Ok m.
Proof.
  intros pr sk a w m e HS HA HW HM Hb HC. remember (pv_m pvw_default) as B eqn:EB.
  set (errs := fun l => map (fun i => cbd_sample (w l) 2 (8 * i)) (seq 0 B)).
  apply (C48_decrypt_lem pr pvw_default sk a w errs); rewrite <- ?EB; auto.
  - cbn. lia.
  - intros l Hl. apply sample_vec_cbd_ok; [cbn; lia|]. intros i. apply HW.
  - intros l Hl. unfold pvw_error. rewrite <- EB. change (pv_q pvw_default / 4) with 16384. change (pv_q pvw_default / 2) with 32768.
    assert (G : forall i, (i < B)%nat -> - (4 * nth i e 0) <= nth i e 0 * nth i (errs l) 0 <= 4 * nth i e 0).
    { intros i Hi. unfold errs. rewrite nth_map_seq by auto. pose proof (cbd_sample_bound (w l) 2 (8 * i)).
      destruct Hb as [_ Rb]. destruct (Rb i Hi) as [->| ->]; lia. }
    pose proof (sumn_le B _ _ (fun i Hi => proj1 (G i Hi))) as G1. pose proof (sumn_le B _ _ (fun i Hi => proj2 (G i Hi))) as G2.
    rewrite sumn_opp in G1. rewrite sumn_mul_l in G1, G2. lia.
Qed.

Lemma round_default b E : b = 0 \/ b = 1 ->
  (pvw_round 65537 ((65537 / 2 * b + E) mod 65537) = b <-> E mod 65537 < 16384 \/ 49152 + b <= E mod 65537).
Proof.
  intros Hb. unfold pvw_round. change (65537 / 4) with 16384. change (65537 / 2) with 32768.
  rewrite (Z.add_comm (32768 * b)), Z.add_mod by lia. pose proof (Z.mod_pos_bound E 65537 ltac:(lia)) as R. set (x := E mod 65537) in *. clearbody x.
  destruct Hb as [-> | ->]; rewrite ?(Z.mod_small (32768 * _) 65537) by lia; Z.to_euclidean_division_equations; lia.
Qed.

(** C49: the verdict of the crate's own test, for every draw: it passes exactly
    when the error of each slot, modulo 65537, is below 16384 or at least
    49152 + the bit. *)
Lemma C49_test_lem :
  forall pr sk a w errs m e, matrix 65537 4 450 sk -> matrix 65537 (160 * 100) 450 a -> (forall l k, 0 <= w l k < 2 ^ 64) ->
    (forall l, (l < 4)%nat -> sample_vec_cbd pr (160 * 100) 2 (w l) = Ok (errs l)) -> bits 4 m -> bits (160 * 100) e ->
    let good := forall l, (l < 4)%nat -> let E := pvw_error pvw_default errs e l in E mod 65537 < 16384 \/ 49152 + nth l m 0 <= E mod 65537 in
    (good -> test_pvw_encrypt_decrypt pr sk a w m e = Ok tt) /\ (~ good -> test_pvw_encrypt_decrypt pr sk a w m e = Panic).
Proof.
  intros pr sk a w errs m e HS HA HW HE HM Hb good.
  destruct (C48_exact_lem pr pvw_default sk a w errs m e) as [pk [ct [E1 [E2 [_ [_ [_ E3]]]]]]]; auto.
  { cbn. lia. }
  set (d := map _ _) in E3.
  assert (ET : test_pvw_encrypt_decrypt pr sk a w m e = rassert (zlist_eqb d m)).
  { unfold test_pvw_encrypt_decrypt, pvw_gen_sk. destruct (modulus_new_ok (pv_q pvw_default) ltac:(cbn; lia)) as [qm [EM _]]. rewrite EM. cbn [bind].
    rewrite E1. cbn [bind]. rewrite E2. cbn [bind]. rewrite E3. reflexivity. }
  rewrite ET. destruct HM as [Lm Rm].
  assert (GD : good <-> d = m).
  { pose proof (list_seq m 0 4 Lm) as Em. unfold d, good. change (pv_ell pvw_default) with 4%nat. change (pv_q pvw_default) with 65537. split; intros H.
    - etransitivity; [|symmetry; exact Em]. apply map_seq_ext. intros l Hl. apply round_default; auto.
    - intros l Hl. assert (H' := eq_trans H Em). clear H. rename H' into H. apply (f_equal (fun x => nth l x 0)) in H. rewrite !nth_map_seq in H by auto. apply round_default; auto. }
  split; intros G.
  - apply GD in G. rewrite (proj2 (zlist_eqb_eq _ _) G). reflexivity.
  - destruct (zlist_eqb d m) eqn:D; [|reflexivity]. exfalso. apply G, GD, zlist_eqb_eq, D.
Qed.
