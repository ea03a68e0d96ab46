(** Claim C63: the clue encoding of the detection server. *)
From Verif Require Import PBase NT Spec PSum MModulus MUtils MNtt MRns MRq MBfv MPvw MOmr PModulus PUtils PNttMath PNtt PNttNew PRq SpecRq QNtt PSafe PSafe2 PSafe3 PKsk2 TestEnv.

(** The vector [v] of 64 residues is the SIMD encoding of the slot values [x]. *)
Definition encodes (q psi : Z) (v : list Z) (x : nat -> Z) : Prop :=
  length v = 64%nat /\ Forall (fun a => 0 <= a < q) v /\
  forall i, (i < 64)%nat -> peval 64 (fun k => nth k v 0) (psi ^ Z.of_nat (2 * bitrev 6 i + 1)) mod q = x i.

(** The slot values of column [l]: one clue per slot, then zeros. *)
Definition slots (clues : list PvwCt) (field : PvwCt -> list Z) (l i : nat) : Z :=
  match nth_error clues i with Some c => nth l (field c) 0 | None => 0 end.

Lemma column_ok clues field l d q : (length clues <= d)%nat -> 0 < q ->
  (forall c, In c clues -> (l < length (field c))%nat /\ Forall (fun x => 0 <= x < q) (field c)) ->
  exists v, foldM (fun poly i => c <- get clues i ;; v <- get (field c) l ;; set poly i v) (seq 0 (length clues)) (repeat 0 d) = Ok v
    /\ length v = d /\ Forall (fun x => 0 <= x < q) v /\ forall i, (i < d)%nat -> nth i v 0 = slots clues field l i.
Proof.
  intros Hd Hq HC.
  destruct (foldM_seq_inv (fun poly i => c <- get clues i ;; v <- get (field c) l ;; set poly i v)
    (fun m v => length v = d /\ forall i, (i < d)%nat -> nth i v 0 = if (i <? m)%nat then slots clues field l i else 0) 0 (length clues) (repeat 0 d)) as [v [E [L H]]].
  - split; [apply repeat_length|]. intros i Hi. cbn [Nat.ltb Nat.leb]. apply nth_repeat.
  - intros i v Hi [L H]. cbn [Nat.add] in Hi. destruct (nth_error clues i) as [c|] eqn:EC.
    2:{ apply nth_error_None in EC. lia. }
    destruct (HC c (nth_error_In _ _ EC)) as [Hl _]. unfold get at 1. rewrite EC. cbn [bind].
    rewrite (get_ok (field c) l 0) by auto. cbn [bind]. rewrite set_ok by lia. eexists. split; [reflexivity|].
    rewrite upd_length. split; auto. intros j Hj. destruct (Nat.eq_dec i j) as [<-|N].
    + rewrite upd_nth_same by lia. destruct (Nat.ltb_spec i (S i)); [|lia]. unfold slots. rewrite EC. reflexivity.
    + rewrite upd_nth_other by auto. rewrite H by auto. destruct (Nat.ltb_spec j i), (Nat.ltb_spec j (S i)); auto; lia.
  - exists v. split; [exact E|]. split; auto. cbn [Nat.add] in H.
    assert (HS : forall i, (i < d)%nat -> nth i v 0 = slots clues field l i).
    { intros i Hi. rewrite H by auto. destruct (Nat.ltb_spec i (length clues)) as [|G]; auto.
      unfold slots. apply nth_error_None in G. rewrite G. reflexivity. }
    split; auto. apply Forall_forall. intros x Hx. apply (In_nth _ _ 0) in Hx. destruct Hx as [i [Hi <-]]. rewrite L in Hi.
    rewrite HS by auto. unfold slots. destruct (nth_error clues i) as [c|] eqn:EC; [|lia].
    destruct (HC c (nth_error_In _ _ EC)) as [Hl F]. rewrite Forall_forall in F. apply F. apply nth_In. auto.
Qed.

Lemma backward_full pr env p m n op a :
  0 <= p -> modulus_new p = Ok m -> (forall x, 0 <= x < 2 ^ 64 -> is_prime env x = true -> prime x) ->
  (forall k, 0 <= draw env p k < p) -> ntt_new pr env m n = Ok op -> length a = n -> Forall (fun x => 0 <= x < p) a ->
  exists b, ntt_backward pr op a = Ok b /\ length b = n /\ Forall (fun x => 0 <= x < p) b /\ ntt_forward pr op b = Ok a.
Proof.
  intros H0 Hm HP Hd H La Ra. destruct (modulus_new_valid p m H0 Hm) as [V Em]. subst p.
  destruct (ntt_new_inv pr env m n op V HP Hd H) as [L [psi [-> [Ep [W _]]]]].
  assert (R : rng L (mp (nt_p op)) a).
  { split; auto. intros k Hk. rewrite Ep. rewrite Forall_forall in Ra. apply Ra, nth_In. lia. }
  destruct (ntt_forward_backward pr op L psi W a R) as [b [E [[Lb Rb] E']]]. exists b. split; auto. split; auto. split; auto.
  apply Forall_forall. intros x Hx. apply (In_nth _ _ 0) in Hx. destruct Hx as [i [Hi <-]]. rewrite Lb in Hi. rewrite <- Ep. auto.
Qed.

(** C63: for at most 64 clues with entries below q, every polynomial returned
    takes at the 64 slot points the entries of its column of the clues, then
    zeros. *)
Lemma C63_encode_lem :
  forall pr env P clues, env_ok env -> 2 <= pv_q P < 2 ^ 62 -> ntt_possible env (pv_q P) 64 -> (length clues <= 64)%nat ->
    (forall c, In c clues -> length (pc_a c) = pv_n P /\ length (pc_b c) = pv_ell P
       /\ Forall (fun x => 0 <= x < pv_q P) (pc_a c) /\ Forall (fun x => 0 <= x < pv_q P) (pc_b c)) ->
    exists bs as_ psi, process_clues pr env P clues = Ok (bs, as_)
      /\ 0 <= psi < pv_q P /\ psi ^ 64 mod pv_q P = pv_q P - 1
      /\ length bs = pv_ell P /\ length as_ = pv_n P
      /\ (forall l, (l < pv_ell P)%nat -> encodes (pv_q P) psi (nth l bs []) (slots clues pc_b l))
      /\ (forall l, (l < pv_n P)%nat -> encodes (pv_q P) psi (nth l as_ []) (slots clues pc_a l)).
Proof.
  intros pr env P clues [EP ED] Hq [_ [NP1 [NP2 NP3]]] HL HC. set (q := pv_q P) in *.
  destruct (modulus_new_ok q) as [m [Em [Ep V]]]; [exact Hq|].
  assert (Pr : prime q) by (apply EP; auto; change (2 ^ 62) with 4611686018427387904 in Hq; change (2 ^ 64) with 18446744073709551616; lia).
  destruct (C11_construct_lem pr env q m 6 Em Pr NP2 ltac:(lia) ltac:(lia)) as [HN _]; [exact NP1|intros; apply ED; lia|].
  destruct (HN NP3) as [op [EO [So Po]]]. change (2 ^ 6)%nat with 64%nat in EO, So.
  destruct (C08_forward_lem pr env q m 64 op ltac:(lia) Em EP ltac:(intros; apply ED; lia) EO) as [L [psi [HL64 [Rp [HP HF]]]]].
  assert (L = 6%nat) by (apply (Nat.pow_inj_r 2); [lia|]; change (2 ^ 6)%nat with 64%nat; lia). subst L.
  assert (COL : forall field l, (forall c, In c clues -> (l < length (field c))%nat /\ Forall (fun x => 0 <= x < q) (field c)) ->
            exists v, encode_column pr op 64 clues field l = Ok v /\ encodes q psi v (slots clues field l)).
  { intros field l H. destruct (column_ok clues field l 64 q HL ltac:(lia) H) as [v [Ev [Lv [Fv Sv]]]].
    destruct (backward_full pr env q m 64 op v ltac:(lia) Em EP ltac:(intros; apply ED; lia) EO Lv Fv) as [b [Eb [Lb [Fb Ef]]]].
    exists b. unfold encode_column. rewrite Ev. cbn [bind]. split; [exact Eb|].
    split; auto. split; auto. intros i Hi. destruct (HF b Lb Fb) as [v' [Ef' [_ HV]]]. rewrite Ef in Ef'. apply Ok_inj in Ef'. subst v'.
    rewrite <- Sv by auto. symmetry. apply HV. auto. }
  unfold process_clues. fold q. rewrite Em. cbn [bind]. rewrite EO. cbn [bind].
  destruct (fin_choice [] (fun l v => encode_column pr op 64 clues pc_b l = Ok v /\ encodes q psi v (slots clues pc_b l)) (pv_ell P)) as [bs Hb].
  { intros l Hl. apply COL. intros c Hc. destruct (HC c Hc) as [A [B [FA FB]]]. rewrite B. auto. }
  destruct (fin_choice [] (fun l v => encode_column pr op 64 clues pc_a l = Ok v /\ encodes q psi v (slots clues pc_a l)) (pv_n P)) as [as_ Ha].
  { intros l Hl. apply COL. intros c Hc. destruct (HC c Hc) as [A [B [FA FB]]]. rewrite A. auto. }
  exists (map bs (seq 0 (pv_ell P))), (map as_ (seq 0 (pv_n P))), psi.
  rewrite (mapM_ok _ bs) by (intros l Hl; apply in_seq in Hl; apply Hb; lia). cbn [bind].
  rewrite (mapM_ok _ as_) by (intros l Hl; apply in_seq in Hl; apply Ha; lia). cbn [bind].
  split; [reflexivity|]. split; auto. split; [exact HP|]. rewrite !len_seq. split; auto. split; auto.
  split; intros l Hl; rewrite nth_map_seq by auto; [apply Hb|apply Ha]; auto.
Qed.

Lemma column_panic pr op d clues field l : (d < length clues)%nat -> (forall c, In c clues -> (l < length (field c))%nat) ->
  encode_column pr op d clues field l = Panic.
Proof.
  intros Hd HC. unfold encode_column.
  assert (G : foldM (fun poly i => c <- get clues i ;; v <- get (field c) l ;; set poly i v) (seq 0 (length clues)) (repeat 0 d) = Panic).
  { replace (length clues) with (d + S (length clues - d - 1))%nat by lia. rewrite seq_app, foldM_app.
    destruct (foldM_seq_inv (fun poly i => c <- get clues i ;; v <- get (field c) l ;; set poly i v)
      (fun m v => length v = d) 0 d (repeat 0 d)) as [v [E L]].
    - apply repeat_length.
    - intros i v Hi L. cbn [Nat.add] in Hi. destruct (nth_error clues i) as [c|] eqn:EC.
      2:{ apply nth_error_None in EC. lia. }
      unfold get at 1. rewrite EC. cbn [bind]. rewrite (get_ok (field c) l 0) by (apply HC; eapply nth_error_In; eauto). cbn [bind].
      rewrite set_ok by lia. eexists. split; [reflexivity|]. rewrite upd_length. exact L.
    - rewrite E. cbn [bind seq foldM Nat.add]. destruct (nth_error clues d) as [c|] eqn:EC.
      2:{ apply nth_error_None in EC. lia. }
      unfold get at 1. rewrite EC. cbn [bind]. rewrite (get_ok (field c) l 0) by (apply HC; eapply nth_error_In; eauto). cbn [bind].
      unfold set. destruct (Nat.ltb_spec d (length v)); [lia|]. reflexivity. }
  rewrite G. reflexivity.
Qed.

(** C63: more than 64 clues are never encoded: the call panics. *)
Lemma C63_too_many_lem :
  forall pr env P clues, (64 < length clues)%nat -> (0 < pv_ell P + pv_n P)%nat ->
    (forall c, In c clues -> length (pc_a c) = pv_n P /\ length (pc_b c) = pv_ell P) ->
    process_clues pr env P clues = Panic.
Proof.
  intros pr env P clues HL H0 HC. pose proof (sf_process_clues pr env P clues) as S.
  unfold process_clues in *. destruct (modulus_new (pv_q P)) as [m| | |]; cbn [bind] in *; try reflexivity; try contradiction.
  destruct (ntt_new pr env m 64) as [op| | |]; cbn [bind] in *; try reflexivity; try contradiction.
  destruct (pv_ell P) as [|l] eqn:EL.
  - cbn [seq mapM bind]. destruct (pv_n P) as [|n] eqn:EN; [lia|]. cbn [seq mapM]. rewrite column_panic; [reflexivity|auto|].
    intros c Hc. destruct (HC c Hc). lia.
  - cbn [seq mapM]. rewrite column_panic; [reflexivity|auto|]. intros c Hc. destruct (HC c Hc). lia.
Qed.

(** C63: [process] completes whenever its transform can be built. *)
Lemma C63_process_lem :
  forall pr env, env_ok env -> ntt_possible env (pv_q pvw_default) 64 -> process pr env = Ok tt.
Proof.
  intros pr env HE HN. unfold process.
  destruct (C63_encode_lem pr env pvw_default [] HE) as [bs [as_ [psi [E _]]]]; auto.
  - cbn. lia.
  - cbn. lia.
  - intros c [].
  - rewrite E. reflexivity.
Qed.

(*EXAMPLE
(** Two clues with one entry each, q = 257: the polynomials take the clue
    entries at the first two slot points and zero at the others; 65 clues panic. *)
Definition ex_pvw : PvwParams := mkPvw 1 1 1 257 2.
Example C63_example :
  ntt_possible tenv 257 64
  /\ (m <- modulus_new 257 ;; op <- ntt_new Release tenv m 64 ;;
      r <- process_clues Release tenv ex_pvw [mkPvwCt [3] [100]; mkPvwCt [250] [7]] ;;
      b <- ntt_forward Release op (nth 0 (fst r) []) ;; a <- ntt_forward Release op (nth 0 (snd r) []) ;; Ok (b, a))
     = Ok (100 :: 7 :: repeat 0 62, 3 :: 250 :: repeat 0 62)
  /\ process_clues Release tenv ex_pvw (repeat (mkPvwCt [3] [100]) 65) = Panic.
Proof.
  split; [|vm_compute; split; reflexivity].
  split; [exists 6%nat; split; [lia|reflexivity]|]. split; [reflexivity|]. split; [vm_compute; reflexivity|].
  exists 1%nat. split; [lia|vm_compute; reflexivity].
Qed.
EXAMPLE*)
