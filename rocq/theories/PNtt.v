(** The model of src/ntt.rs computes the transform of PNttMath. *)
From Coq Require Import Zpow_facts.
From Verif Require Import PBase NT Spec PSum MModulus MUtils MNtt PModulus PNttMath.

(** Well-formed operator with root psi, for size 2^L. *)
Record wf_ntt (op : NttOp) (L : nat) (psi : Z) : Prop := {
  wn_mod : valid_mod (nt_p op);
  wn_prime : prime (mp (nt_p op));
  wn_size : nt_size op = (2 ^ L)%nat;
  wn_L : (3 <= L <= 60)%nat;
  wn_twice : nt_p_twice op = 2 * mp (nt_p op);
  wn_psir : 0 <= psi < mp (nt_p op);
  wn_psi : eqm (mp (nt_p op)) (pw psi (2 ^ L)) (-1);
  wn_oml : length (nt_omegas op) = (2 ^ L)%nat;
  wn_om : forall i, (i < 2 ^ L)%nat -> 0 <= nth i (nt_omegas op) 0 < mp (nt_p op)
            /\ eqm (mp (nt_p op)) (nth i (nt_omegas op) 0) (pw psi (bitrev L i));
  wn_oms : nt_omegas_shoup op = map (shoup_of (mp (nt_p op))) (nt_omegas op);
  wn_ztl : length (nt_zetas_inv op) = (2 ^ L)%nat;
  wn_zt : forall i, (i < 2 ^ L)%nat -> 0 <= nth i (nt_zetas_inv op) 0 < mp (nt_p op)
            /\ eqm (mp (nt_p op)) (nth i (nt_zetas_inv op) 0 * pw psi (bitrev L i + 1)) 1;
  wn_zts : nt_zetas_inv_shoup op = map (shoup_of (mp (nt_p op))) (nt_zetas_inv op);
  wn_sr : 0 <= nt_size_inv op < mp (nt_p op);
  wn_si : eqm (mp (nt_p op)) (nt_size_inv op * Z.of_nat (2 ^ L)) 1;
  wn_ss : nt_size_inv_shoup op = shoup_of (mp (nt_p op)) (nt_size_inv op) }.

(** ** Butterflies *)
Lemma butterfly_ok pr op x y w : valid_mod (nt_p op) -> nt_p_twice op = 2 * mp (nt_p op) ->
  let p := mp (nt_p op) in
  0 <= x < 4 * p -> 0 <= y < 4 * p -> 0 <= w < p ->
  exists x' y', butterfly pr op x y w (shoup_of p w) = Ok (x', y')
    /\ 0 <= x' < 4 * p /\ 0 <= y' < 4 * p
    /\ eqm p x' (x + w * y) /\ eqm p y' (x - w * y).
Proof.
  intros V Ht p Hx Hy Hw. pose proof (valid_range _ V) as Hp. fold p in Hp.
  unfold butterfly. fold p. rewrite Ht.
  assert (G : (match pr with
   | Debug =>
       p4 <- mul64 pr (mp (nt_p op)) 4 ;;
       rassert (x <? p4) ;;;
       rassert (y <? p4) ;;;
       rassert (w <? mp (nt_p op)) ;;;
       s <- shoup pr (nt_p op) w ;;
       rassert (shoup_of p w =? s)
   | Release => Ok tt
   end) = Ok tt).
  { destruct pr; auto. fold p. rewrite mul64_ok by lia. cbn [bind].
    rewrite !rassert_true by lia. cbn [bind]. rewrite shoup_ok by auto. cbn [bind].
    apply rassert_true, Z.eqb_refl. }
  fold p in G. rewrite G. clear G. cbn [bind].
  rewrite reduce_ct_ok by lia. cbn [bind].
  destruct (lazy_mul_shoup_ok pr (nt_p op) y w V ltac:(lia) Hw) as [t [Et [Rt Ct]]].
  fold p in Et, Rt, Ct. rewrite Et. cbn [bind].
  pose proof (Z.mod_pos_bound x (2 * p) ltac:(lia)) as Hm.
  fold p. rewrite add64_ok by lia. cbn [bind]. rewrite sub64_ok by lia. cbn [bind].
  rewrite add64_ok by lia. cbn [bind].
  assert (Cx : eqm p (x mod (2 * p)) x).
  { apply eqm_weaken with (2 * p); try lia. { exists 2. ring. } apply eqm_mod. }
  assert (C1 : eqm p (x mod (2 * p) + t) (x + w * y)) by (rewrite Cx, Ct; apply eq_eqm; ring).
  assert (C2 : eqm p (x mod (2 * p) + 2 * p - t) (x - w * y)).
  { rewrite Ct. replace (x mod (2 * p) + 2 * p - y * w) with (x mod (2 * p) - y * w + 2 * p) by ring.
    rewrite eqm_add_mult, Cx. apply eq_eqm. ring. }
  exists (x mod (2 * p) + t), (x mod (2 * p) + 2 * p - t).
  split; [|split; [lia|split; [lia|split; auto]]].
  destruct pr; [|reflexivity]. rewrite mul64_ok by lia. cbn [bind].
  rewrite !rassert_true by lia. reflexivity.
Qed.

Lemma butterfly_inv_ok pr op x y w : valid_mod (nt_p op) -> nt_p_twice op = 2 * mp (nt_p op) ->
  let p := mp (nt_p op) in
  0 <= x < 2 * p -> 0 <= y < 2 * p -> 0 <= w < p ->
  exists x' y', butterfly_inv pr op x y w (shoup_of p w) = Ok (x', y')
    /\ 0 <= x' < 2 * p /\ 0 <= y' < 2 * p
    /\ eqm p x' (x + y) /\ eqm p y' ((x - y) * w).
Proof.
  intros V Ht p Hx Hy Hw. pose proof (valid_range _ V) as Hp. fold p in Hp.
  unfold butterfly_inv. fold p. rewrite Ht. fold p.
  rewrite !dassert_true by lia. cbn [bind].
  assert (G : (match pr with
   | Debug => s <- shoup pr (nt_p op) w ;; rassert (shoup_of p w =? s)
   | Release => Ok tt
   end) = Ok tt).
  { destruct pr; auto. rewrite shoup_ok by auto. cbn [bind]. apply rassert_true, Z.eqb_refl. }
  rewrite G. clear G. cbn [bind].
  rewrite add64_ok by lia. cbn [bind]. rewrite reduce_ct_ok by lia. cbn [bind].
  rewrite add64_ok by lia. cbn [bind]. rewrite sub64_ok by lia. cbn [bind].
  destruct (lazy_mul_shoup_ok pr (nt_p op) (2 * p + x - y) w V ltac:(lia) Hw) as [t [Et [Rt Ct]]].
  fold p in Et, Rt, Ct. rewrite Et. cbn [bind].
  pose proof (Z.mod_pos_bound (y + x) (2 * p) ltac:(lia)) as Hm.
  rewrite !dassert_true by lia. cbn [bind].
  exists ((y + x) mod (2 * p)), t. split; [reflexivity|]. split; [lia|]. split; [lia|]. split.
  - rewrite Z.add_comm. apply eqm_weaken with (2 * p); try lia. { exists 2. ring. } apply eqm_mod.
  - rewrite Ct. replace ((2 * p + x - y) * w) with ((x - y) * w + (2 * w) * p) by ring. apply eqm_add_mult.
Qed.

Lemma reduce_4p_ok pr m a : valid_mod m -> 0 <= a < 4 * mp m -> reduce_4p pr a m = Ok (a mod mp m).
Proof.
  intros V Ha. pose proof (valid_range m V) as Hp. unfold reduce_4p.
  assert (G : (match pr with
   | Debug => p4 <- mul64 pr (mp m) 4 ;; rassert (a <? p4)
   | Release => Ok tt
   end) = Ok tt).
  { destruct pr; auto. rewrite mul64_ok by lia. cbn [bind]. apply rassert_true. lia. }
  rewrite G. clear G. cbn [bind]. rewrite mul64_ok by lia. cbn [bind].
  rewrite reduce_ct_ok by lia. cbn [bind].
  pose proof (Z.mod_pos_bound a (2 * mp m) ltac:(lia)).
  rewrite reduce_ct_ok by lia. f_equal. apply eqm_mod_eq.
  apply eqm_weaken with (2 * mp m); try lia. { exists 2. ring. } apply eqm_mod.
Qed.

(** ** Array loops *)
Lemma bf_at_ok bf a j1 j2 x' y' :
  (j1 < length a)%nat -> (j2 < length a)%nat -> bf (nth j1 a 0) (nth j2 a 0) = Ok (x', y') ->
  bf_at bf a j1 j2 = Ok (upd (upd a j1 x') j2 y').
Proof.
  intros H1 H2 E. unfold bf_at. rewrite (getu_ok a j1 0), (getu_ok a j2 0) by auto. cbn [bind].
  rewrite E. cbn [bind]. rewrite setu_ok by auto. cbn [bind]. rewrite setu_ok by (rewrite upd_length; auto).
  reflexivity.
Qed.

(** The inner loop over one block: cells j and j+l for j in [s,s+l). *)
Lemma inner_ok (bf : Z -> Z -> outcome (Z * Z)) (R : Z -> Prop) (P : Z -> Z -> Z -> Z -> Prop) a s l :
  (s + 2 * l <= length a)%nat ->
  (forall x y, R x -> R y -> exists x' y', bf x y = Ok (x', y') /\ P x y x' y') ->
  (forall k, (s <= k < s + 2 * l)%nat -> R (nth k a 0)) ->
  exists b, foldM (fun a j => bf_at bf a j (j + l)) (seq s l) a = Ok b
    /\ length b = length a
    /\ (forall k, ~ (s <= k < s + 2 * l)%nat -> nth k b 0 = nth k a 0)
    /\ (forall j, (s <= j < s + l)%nat ->
          P (nth j a 0) (nth (j + l) a 0) (nth j b 0) (nth (j + l) b 0)).
Proof.
  intros HL Hbf HR.
  destruct (foldM_seq_inv (fun a j => bf_at bf a j (j + l))
    (fun i b => length b = length a
      /\ (forall k, ~ (s <= k < i)%nat -> ~ (s + l <= k < i + l)%nat -> nth k b 0 = nth k a 0)
      /\ (forall j, (s <= j < i)%nat -> P (nth j a 0) (nth (j + l) a 0) (nth j b 0) (nth (j + l) b 0)))
    s l a) as [b [E [Lb [Hout Hin]]]].
  - split; auto. split; auto. intros. lia.
  - intros i b Hi [Lb [Hout Hin]].
    destruct (Hbf (nth i a 0) (nth (i + l) a 0)) as [x' [y' [E HP]]]; try (apply HR; lia).
    assert (E' : bf (nth i b 0) (nth (i + l) b 0) = Ok (x', y')).
    { rewrite !Hout by lia. auto. }
    rewrite (bf_at_ok bf b i (i + l) x' y') by (auto; lia).
    eexists. split; [reflexivity|]. split; [rewrite !upd_length; auto|]. split.
    + intros k H1 H2. rewrite !upd_nth_other by lia. apply Hout; lia.
    + intros j Hj. destruct (Nat.eq_dec j i) as [->|Hne].
      * rewrite upd_nth_same by (rewrite upd_length; lia). rewrite upd_nth_other by lia.
        rewrite upd_nth_same by lia. auto.
      * assert (j < i)%nat by lia.
        rewrite !(upd_nth_other _ _ j) by lia. rewrite !(upd_nth_other _ _ (j + l)) by lia.
        apply Hin. lia.
  - exists b. split; auto. split; auto. split.
    + intros k Hk. apply Hout; lia.
    + intros j Hj. apply Hin. lia.
Qed.

(** One layer: m blocks of size 2l; the block function advances the root
    index. *)
Lemma layer_ok (blk : list Z * nat -> nat -> outcome (list Z * nat)) (R : Z -> Prop)
    (P : nat -> Z -> Z -> Z -> Z -> Prop) n l m k0 a :
  n = (2 * m * l)%nat -> length a = n ->
  (forall i b, (i < m)%nat -> length b = n ->
     (forall k, (2 * i * l <= k < 2 * i * l + 2 * l)%nat -> R (nth k b 0)) ->
     exists b', blk (b, (k0 + i)%nat) i = Ok (b', (k0 + S i)%nat) /\ length b' = n
       /\ (forall k, ~ (2 * i * l <= k < 2 * i * l + 2 * l)%nat -> nth k b' 0 = nth k b 0)
       /\ (forall j, (2 * i * l <= j < 2 * i * l + l)%nat ->
             P i (nth j b 0) (nth (j + l) b 0) (nth j b' 0) (nth (j + l) b' 0))) ->
  (forall k, (k < n)%nat -> R (nth k a 0)) ->
  exists a', foldM blk (seq 0 m) (a, k0) = Ok (a', (k0 + m)%nat) /\ length a' = n
    /\ (forall i r, (i < m)%nat -> (r < l)%nat ->
          P i (nth (2 * i * l + r) a 0) (nth (2 * i * l + l + r) a 0)
              (nth (2 * i * l + r) a' 0) (nth (2 * i * l + l + r) a' 0)).
Proof.
  intros Hn HL Hblk HR.
  destruct (foldM_seq_inv blk
    (fun i st => snd st = (k0 + i)%nat /\ length (fst st) = n
       /\ (forall k, (2 * i * l <= k)%nat -> nth k (fst st) 0 = nth k a 0)
       /\ (forall i' r, (i' < i)%nat -> (r < l)%nat ->
          P i' (nth (2 * i' * l + r) a 0) (nth (2 * i' * l + l + r) a 0)
              (nth (2 * i' * l + r) (fst st) 0) (nth (2 * i' * l + l + r) (fst st) 0)))
    0%nat m (a, k0)) as [[a' k'] [E [Ek [La [_ HP]]]]].
  - split; [simpl; lia|]. split; auto. split; auto. intros. lia.
  - intros i [b kb] Hi [Ek [Lb [Hout Hin]]]. cbn [fst snd] in *. subst kb.
    assert (HiL : (2 * i * l + 2 * l <= n)%nat).
    { assert ((S i) * (2 * l) <= m * (2 * l))%nat by (apply Nat.mul_le_mono_r; lia). lia. }
    destruct (Hblk i b) as [b' [E [Lb' [Hout' Hin']]]]; auto; [lia| |].
    { intros k Hk. rewrite Hout by lia. apply HR. lia. }
    exists (b', (k0 + S i)%nat). split; auto. cbn [fst snd]. split; auto. split; auto. split.
    + intros k Hk. rewrite Hout' by lia. apply Hout. lia.
    + intros i' r Hi' Hr. destruct (Nat.eq_dec i' i) as [->|Hne].
      * specialize (Hin' (2 * i * l + r)%nat ltac:(lia)).
        rewrite !(Hout (2 * i * l + r)%nat) in Hin' by lia.
        rewrite !(Hout (2 * i * l + r + l)%nat) in Hin' by lia.
        replace (2 * i * l + l + r)%nat with (2 * i * l + r + l)%nat by lia. auto.
      * assert (i' < i)%nat by lia.
        assert ((S i') * (2 * l) <= i * (2 * l))%nat by (apply Nat.mul_le_mono_r; lia).
        rewrite !(Hout' (2 * i' * l + r)%nat), !(Hout' (2 * i' * l + l + r)%nat) by lia. apply Hin; auto.
  - cbn [fst snd] in *. subst k'. exists a'. rewrite Nat.add_0_l in *. split; auto.
Qed.

Section Run.
Variables (pr : profile) (op : NttOp) (L : nat) (psi : Z).
Hypothesis W : wf_ntt op L psi.
Let p := mp (nt_p op).

Lemma wn_pr : 2 <= p < 2 ^ 62.
Proof. apply (vm_range _ (wn_mod _ _ _ W)). Qed.

Lemma omega_get k : (k < 2 ^ L)%nat -> exists w, getu (nt_omegas op) k = Ok w
  /\ getu (nt_omegas_shoup op) k = Ok (shoup_of p w) /\ 0 <= w < p /\ eqm p w (pw psi (bitrev L k)).
Proof.
  intros Hk. destruct (wn_om _ _ _ W k Hk) as [R C]. exists (nth k (nt_omegas op) 0).
  rewrite (getu_ok _ k 0) by (rewrite (wn_oml _ _ _ W); auto). split; auto. split; auto.
  rewrite (wn_oms _ _ _ W). rewrite (getu_ok _ k (shoup_of p 0)) by (rewrite map_length, (wn_oml _ _ _ W); auto).
  rewrite map_nth. reflexivity.
Qed.
Lemma zeta_get k : (k < 2 ^ L)%nat -> exists w, getu (nt_zetas_inv op) k = Ok w
  /\ getu (nt_zetas_inv_shoup op) k = Ok (shoup_of p w) /\ 0 <= w < p /\ eqm p (w * pw psi (bitrev L k + 1)) 1.
Proof.
  intros Hk. destruct (wn_zt _ _ _ W k Hk) as [R C]. exists (nth k (nt_zetas_inv op) 0).
  rewrite (getu_ok _ k 0) by (rewrite (wn_ztl _ _ _ W); auto). split; auto. split; auto.
  rewrite (wn_zts _ _ _ W). rewrite (getu_ok _ k (shoup_of p 0)) by (rewrite map_length, (wn_ztl _ _ _ W); auto).
  rewrite map_nth. reflexivity.
Qed.

Definition nf (a : list Z) : nat -> Z := fun k => nth k a 0.

Definition rng (B : Z) (a : list Z) : Prop :=
  length a = (2 ^ L)%nat /\ forall k, (k < 2 ^ L)%nat -> 0 <= nth k a 0 < B.

(** The relation established by one forward block. *)
Definition Pf (B : Z) (t i : nat) (x y x' y' : Z) : Prop :=
  0 <= x' < B /\ 0 <= y' < B /\ eqm p x' (x + tw psi L t i * y) /\ eqm p y' (x - tw psi L t i * y).

Lemma fwd_block_ok t i b : (t < L)%nat -> (i < 2 ^ t)%nat -> length b = (2 ^ L)%nat ->
  let l := half L t in
  (forall k, (2 * i * l <= k < 2 * i * l + 2 * l)%nat -> 0 <= nth k b 0 < 4 * p) ->
  exists b', fwd_block pr op l (b, (2 ^ t + i)%nat) i = Ok (b', (2 ^ t + S i)%nat)
    /\ length b' = (2 ^ L)%nat
    /\ (forall k, ~ (2 * i * l <= k < 2 * i * l + 2 * l)%nat -> nth k b' 0 = nth k b 0)
    /\ (forall j, (2 * i * l <= j < 2 * i * l + l)%nat ->
          Pf (if (S t =? L)%nat then p else 4 * p) t i
             (nth j b 0) (nth (j + l) b 0) (nth j b' 0) (nth (j + l) b' 0)).
Proof.
  intros Ht Hi Lb l HR. pose proof wn_pr as Hp.
  pose proof (half_n L t Ht) as Hn. fold l in Hn. rewrite pow2_S in Hn.
  assert (HiL : (2 * i * l + 2 * l <= 2 ^ L)%nat).
  { assert ((S i) * (2 * l) <= 2 ^ t * (2 * l))%nat by (apply Nat.mul_le_mono_r; lia). lia. }
  assert (Hl : (0 < l)%nat) by apply half_pos.
  assert (Hk : (2 ^ t + i < 2 ^ L)%nat).
  { assert (2 ^ S t <= 2 ^ L)%nat by (apply Nat.pow_le_mono_r; lia). rewrite pow2_S in H. lia. }
  destruct (omega_get (2 ^ t + i) Hk) as [w [E1 [E2 [Rw Cw]]]].
  assert (Etw : pw psi (bitrev L (2 ^ t + i)) = tw psi L t i).
  { unfold tw, half. replace L with ((L - 1 - t) + S t)%nat at 1 by lia. rewrite bitrev_fwd by auto. reflexivity. }
  rewrite Etw in Cw.
  assert (Hbf : forall x y, 0 <= x < 4 * p -> 0 <= y < 4 * p ->
     exists x' y', butterfly pr op x y w (shoup_of p w) = Ok (x', y') /\ Pf (4 * p) t i x y x' y').
  { intros x y Hx Hy.
    destruct (butterfly_ok pr op x y w (wn_mod _ _ _ W) (wn_twice _ _ _ W) Hx Hy Rw) as [x' [y' [E [Rx [Ry [Cx Cy]]]]]].
    exists x', y'. split; auto. unfold Pf. split; auto. split; auto. rewrite <- Cw. auto. }
  unfold fwd_block. rewrite E1. cbn [bind]. rewrite E2. cbn [bind].
  destruct (l =? 1)%nat eqn:El.
  - apply Nat.eqb_eq in El.
    assert (Et : (S t = L)%nat).
    { unfold l, half in El. destruct (L - 1 - t)%nat eqn:Ed; [lia|]. rewrite pow2_S in El. lia. }
    rewrite El in *.
    set (s := (2 * i * 1)%nat) in *.
    destruct (Hbf (nth s b 0) (nth (s + 1) b 0)) as [x' [y' [E [Rx [Ry [Cx Cy]]]]]]; try (apply HR; lia).
    rewrite (bf_at_ok _ b s (s + 1) x' y') by (auto; lia). cbn [bind].
    rewrite (getu_ok _ s 0) by (rewrite !upd_length; lia). cbn [bind].
    rewrite (upd_nth_other _ _ s) by lia. rewrite upd_nth_same by lia.
    rewrite reduce_4p_ok by (auto; apply (wn_mod _ _ _ W)). cbn [bind].
    rewrite setu_ok by (rewrite !upd_length; lia). cbn [bind].
    rewrite (getu_ok _ (s + 1) 0) by (rewrite !upd_length; lia). cbn [bind].
    rewrite (upd_nth_other _ _ (s + 1)) by lia. rewrite upd_nth_same by (rewrite !upd_length; lia).
    rewrite reduce_4p_ok by (auto; apply (wn_mod _ _ _ W)). cbn [bind].
    rewrite setu_ok by (rewrite !upd_length; lia). cbn [bind]. fold p.
    eexists. split; [rewrite (Nat.add_succ_r (2 ^ t) i); reflexivity|].
    split; [rewrite !upd_length; auto|]. split.
    + intros k Hkk. rewrite !upd_nth_other by lia. reflexivity.
    + intros j Hj. replace j with s by lia.
      rewrite (upd_nth_other _ _ s) by lia. rewrite upd_nth_same by (rewrite !upd_length; lia).
      rewrite (upd_nth_same _ (s + 1)) by (rewrite !upd_length; lia).
      rewrite Et, Nat.eqb_refl.
      split; [apply Z.mod_pos_bound; lia|]. split; [apply Z.mod_pos_bound; lia|].
      rewrite !eqm_mod. auto.
  - apply Nat.eqb_neq in El.
    destruct (inner_ok (fun x y => butterfly pr op x y w (shoup_of p w)) (fun x => 0 <= x < 4 * p)
      (Pf (4 * p) t i) b (2 * i * l) l) as [b' [E [Lb' [Hout Hin]]]]; auto; [lia|].
    rewrite E. cbn [bind].
    eexists. split; [rewrite Nat.add_succ_r; reflexivity|]. split; [congruence|]. split; [exact Hout|].
    intros j Hj. destruct (S t =? L)%nat eqn:Et; [|apply Hin; auto].
    apply Nat.eqb_eq in Et. exfalso. apply El. unfold l, half. replace (L - 1 - t)%nat with 0%nat by lia. reflexivity.
Qed.

Lemma fwd_layer_ok t a : (t < L)%nat -> rng (4 * p) a ->
  exists a', foldM (fwd_block pr op (half L t)) (seq 0 (2 ^ t)) (a, (2 ^ t)%nat) = Ok (a', (2 ^ S t)%nat)
    /\ rng (if (S t =? L)%nat then p else 4 * p) a' /\ flayer p psi L t (nf a) (nf a').
Proof.
  intros Ht [La HR]. pose proof (half_n L t Ht) as Hn. rewrite pow2_S in Hn.
  destruct (layer_ok (fwd_block pr op (half L t)) (fun x => 0 <= x < 4 * p)
    (fun i => Pf (if (S t =? L)%nat then p else 4 * p) t i) (2 ^ L) (half L t) (2 ^ t) (2 ^ t) a)
    as [a' [E [La' HP]]]; auto.
  - intros i b Hi Lb Hb. apply fwd_block_ok; auto.
  - exists a'. split; [rewrite E; do 2 f_equal; rewrite pow2_S; lia|]. split.
    + split; auto. intros k Hk. destruct (block_index L t k Ht Hk) as [i [r [Hi [Hr Ek]]]].
      destruct (HP i r Hi Hr) as [R1 [R2 _]]. destruct Ek as [-> | ->]; auto.
    + intros i r Hi Hr. destruct (HP i r Hi Hr) as [_ [_ C]]. exact C.
Qed.

Lemma div2_half t : (t < L)%nat -> Nat.div2 (half L t) = if (S t =? L)%nat then 0%nat else half L (S t).
Proof.
  intros Ht. rewrite Nat.div2_div. destruct (S t =? L)%nat eqn:E.
  - apply Nat.eqb_eq in E. unfold half. replace (L - 1 - t)%nat with 0%nat by lia. reflexivity.
  - apply Nat.eqb_neq in E. rewrite half_S by lia. rewrite Nat.mul_comm, Nat.div_mul; lia.
Qed.

(** The layers from level t on. *)
Lemma fwd_loop_ok d : forall t fuel a, (d + t = L)%nat -> (0 < d)%nat -> (d <= fuel)%nat -> rng (4 * p) a ->
  exists (X : nat -> nat -> Z) b, fwd_loop pr op fuel (half L t) (2 ^ t) (2 ^ t) a = Ok b
    /\ X t = nf a /\ X L = nf b /\ rng p b /\ fchain p psi L t d X.
Proof.
  induction d as [|d IH]; intros t fuel a Hd H0 Hf Ha; [lia|].
  destruct fuel as [|fuel]; [lia|]. cbn [fwd_loop].
  destruct (half L t =? 0)%nat eqn:E0; [pose proof (half_pos L t); lia|]. clear E0.
  destruct (fwd_layer_ok t a ltac:(lia) Ha) as [a' [E [Ra' HF]]]. rewrite E. cbn [bind].
  rewrite div2_half by lia.
  destruct (S t =? L)%nat eqn:Et.
  - apply Nat.eqb_eq in Et.
    exists (fun u => if (u =? t)%nat then nf a else nf a'), a'.
    split; [destruct fuel; reflexivity|]. rewrite Nat.eqb_refl.
    destruct (L =? t)%nat eqn:ELt; [lia|]. split; auto. split; auto. split; auto.
    intros u Hu. replace u with t by lia. rewrite Nat.eqb_refl. destruct (S t =? t)%nat eqn:E2; [lia|]. auto.
  - destruct (IH (S t) fuel a' ltac:(lia) ltac:(lia) ltac:(lia) Ra') as [X [b [Eb [X1 [X2 [Rb HC]]]]]].
    rewrite <- pow2_S.
    exists (fun u => if (u =? t)%nat then nf a else X u), b. split; auto. rewrite Nat.eqb_refl.
    destruct (L =? t)%nat eqn:ELt; [lia|]. split; auto. split; auto. split; auto.
    intros u Hu. destruct (u =? t)%nat eqn:Eu.
    + apply Nat.eqb_eq in Eu. subst u. destruct (S t =? t)%nat eqn:E2; [lia|]. rewrite X1. auto.
    + apply Nat.eqb_neq in Eu. destruct (S u =? t)%nat eqn:E2; [lia|]. apply HC. lia.
Qed.

Lemma ntt_forward_chain a : rng (4 * p) a ->
  exists (X : nat -> nat -> Z) b, ntt_forward pr op a = Ok b
    /\ X 0%nat = nf a /\ X L = nf b /\ rng p b /\ fchain p psi L 0 L X.
Proof.
  intros Ha. pose proof (wn_L _ _ _ W) as HL. unfold ntt_forward.
  rewrite (wn_size _ _ _ W). destruct Ha as [La Ha]. rewrite La, Nat.eqb_refl. cbn [rassert bind].
  destruct (fwd_loop_ok L 0 64 a ltac:(lia) ltac:(lia) ltac:(lia) (conj La Ha)) as [X [b H]].
  replace (Nat.div2 (2 ^ L)) with (half L 0).
  - exists X, b. exact H.
  - rewrite Nat.div2_div. unfold half. replace L with (S (L - 1 - 0)) at 2 by lia.
    rewrite pow2_S, Nat.mul_comm, Nat.div_mul; lia.
Qed.

(** ** Backward *)
Definition Pb (t i : nat) (x y x' y' : Z) : Prop :=
  0 <= x' < 2 * p /\ 0 <= y' < 2 * p /\ eqm p x' (x + y) /\ eqm p (tw psi L t i * y') (x - y).

Lemma bwd_block_ok t i b : (t < L)%nat -> (i < 2 ^ t)%nat -> length b = (2 ^ L)%nat ->
  let l := half L t in let k0 := (2 ^ L - 2 ^ S t)%nat in
  (forall k, (2 * i * l <= k < 2 * i * l + 2 * l)%nat -> 0 <= nth k b 0 < 2 * p) ->
  exists b', bwd_block pr op l (b, (k0 + i)%nat) i = Ok (b', (k0 + S i)%nat)
    /\ length b' = (2 ^ L)%nat
    /\ (forall k, ~ (2 * i * l <= k < 2 * i * l + 2 * l)%nat -> nth k b' 0 = nth k b 0)
    /\ (forall j, (2 * i * l <= j < 2 * i * l + l)%nat ->
          Pb t i (nth j b 0) (nth (j + l) b 0) (nth j b' 0) (nth (j + l) b' 0)).
Proof.
  intros Ht Hi Lb l k0 HR. pose proof wn_pr as Hp.
  pose proof (half_n L t Ht) as Hn. fold l in Hn. rewrite pow2_S in Hn.
  assert (HiL : (2 * i * l + 2 * l <= 2 ^ L)%nat).
  { assert ((S i) * (2 * l) <= 2 ^ t * (2 * l))%nat by (apply Nat.mul_le_mono_r; lia). lia. }
  assert (Hk : (k0 + i < 2 ^ L)%nat).
  { unfold k0. assert (2 ^ S t <= 2 ^ L)%nat by (apply Nat.pow_le_mono_r; lia). rewrite pow2_S in *. lia. }
  destruct (zeta_get (k0 + i) Hk) as [w [E1 [E2 [Rw Cw]]]].
  assert (Etw : pw psi (bitrev L (k0 + i) + 1) = tw psi L t i).
  { unfold tw, half, k0. f_equal. remember (L - 1 - t)%nat as d eqn:Ed.
    replace L with (d + S t)%nat by lia. rewrite bitrev_bwd by auto. reflexivity. }
  rewrite Etw in Cw.
  unfold bwd_block. rewrite E1. cbn [bind]. rewrite E2. cbn [bind].
  destruct (inner_ok (fun x y => butterfly_inv pr op x y w (shoup_of p w)) (fun x => 0 <= x < 2 * p)
      (Pb t i) b (2 * i * l) l) as [b' [E [Lb' [Hout Hin]]]]; auto; [lia| |].
  - intros x y Hx Hy.
    destruct (butterfly_inv_ok pr op x y w (wn_mod _ _ _ W) (wn_twice _ _ _ W) Hx Hy Rw)
      as [x' [y' [E [Rx [Ry [Cx Cy]]]]]].
    exists x', y'. split; auto. unfold Pb. split; auto. split; auto. split; auto.
    rewrite Cy. replace (tw psi L t i * ((x - y) * w)) with ((x - y) * (w * tw psi L t i)) by ring.
    rewrite Cw. apply eq_eqm. ring.
  - rewrite E. cbn [bind].
    eexists. split; [rewrite Nat.add_succ_r; reflexivity|]. split; [congruence|]. auto.
Qed.

Lemma bwd_layer_ok t a : (t < L)%nat -> rng (2 * p) a ->
  exists a', foldM (bwd_block pr op (half L t)) (seq 0 (2 ^ t)) (a, (2 ^ L - 2 ^ S t)%nat)
              = Ok (a', (2 ^ L - 2 ^ t)%nat)
    /\ rng (2 * p) a' /\ blayer p psi L t (nf a) (nf a').
Proof.
  intros Ht [La HR]. pose proof (half_n L t Ht) as Hn. rewrite pow2_S in Hn.
  destruct (layer_ok (bwd_block pr op (half L t)) (fun x => 0 <= x < 2 * p)
    (fun i => Pb t i) (2 ^ L) (half L t) (2 ^ t) (2 ^ L - 2 ^ S t) a)
    as [a' [E [La' HP]]]; auto.
  - intros i b Hi Lb Hb. apply bwd_block_ok; auto.
  - exists a'. split.
    { rewrite E. do 2 f_equal.
      assert (2 ^ S t <= 2 ^ L)%nat by (apply Nat.pow_le_mono_r; lia). rewrite pow2_S in *. lia. }
    split.
    + split; auto. intros k Hk. destruct (block_index L t k Ht Hk) as [i [r [Hi [Hr Ek]]]].
      destruct (HP i r Hi Hr) as [R1 [R2 _]]. destruct Ek as [-> | ->]; auto.
    + intros i r Hi Hr. destruct (HP i r Hi Hr) as [_ [_ C]]. exact C.
Qed.

Lemma bwd_loop_ok d : forall fuel a, (d <= L)%nat -> (d <= fuel)%nat -> rng (2 * p) a ->
  exists (X : nat -> nat -> Z) b,
    bwd_loop pr op fuel (Nat.div2 (2 ^ d)) (2 ^ (L - d)) (2 ^ L - 2 ^ d) a = Ok b
    /\ X d = nf a /\ X 0%nat = nf b /\ rng (2 * p) b /\ bchain p psi L d X.
Proof.
  induction d as [|d IH]; intros fuel a Hd Hf Ha.
  - exists (fun _ => nf a), a. split; [destruct fuel; reflexivity|].
    split; auto. split; auto. split; auto. intros u Hu. lia.
  - destruct fuel as [|fuel]; [lia|]. cbn [bwd_loop].
    replace (Nat.div2 (2 ^ S d)) with (2 ^ d)%nat
      by (rewrite Nat.div2_div, pow2_S, Nat.mul_comm, Nat.div_mul; lia).
    destruct (2 ^ d =? 0)%nat eqn:E0; [pose proof (pow2_pos d); lia|]. clear E0.
    destruct (bwd_layer_ok d a ltac:(lia) Ha) as [a' [E [Ra' HF]]].
    replace (2 ^ (L - S d))%nat with (half L d) by (unfold half; f_equal; lia).
    rewrite E. cbn [bind].
    destruct (IH fuel a' ltac:(lia) ltac:(lia) Ra') as [X [b [Eb [X1 [X2 [Rb HC]]]]]].
    replace (2 * half L d)%nat with (2 ^ (L - d))%nat by (apply half_split; lia).
    rewrite Eb.
    exists (fun u => if (u =? S d)%nat then nf a else X u), b. split; auto. rewrite Nat.eqb_refl.
    destruct (0 =? S d)%nat eqn:ELt; [lia|]. split; auto. split; auto. split; auto.
    intros u Hu. destruct (u =? S d)%nat eqn:E1; [lia|]. destruct (S u =? S d)%nat eqn:E2.
    + replace u with d by lia. rewrite X1. auto.
    + apply HC. lia.
Qed.

Lemma ntt_backward_chain a : rng (2 * p) a ->
  exists (X : nat -> nat -> Z) b, ntt_backward pr op a = Ok b
    /\ X L = nf a /\ rng p b /\ bchain p psi L L X
    /\ forall k, (k < 2 ^ L)%nat -> eqm p (nth k b 0) (X 0%nat k * nt_size_inv op).
Proof.
  intros Ha. pose proof (wn_L _ _ _ W) as HL. unfold ntt_backward.
  rewrite (wn_size _ _ _ W). destruct Ha as [La Ha]. rewrite La, Nat.eqb_refl. cbn [rassert bind].
  destruct (bwd_loop_ok L 64 a ltac:(lia) ltac:(lia) (conj La Ha)) as [X [b [E [X1 [X2 [[Lb Rb] HC]]]]]].
  rewrite !Nat.sub_diag in E. change (2 ^ 0)%nat with 1%nat in E. rewrite E. cbn [bind].
  pose proof wn_pr as Hp. pose proof (wn_mod _ _ _ W) as V. pose proof (wn_sr _ _ _ W) as Rs. fold p in Rs.
  rewrite (wn_ss _ _ _ W).
  rewrite (mapM_ok _ (fun x => (x * nt_size_inv op) mod p)).
  2:{ intros x Hx. apply mul_shoup_ok; auto. apply In_nth with (d := 0) in Hx. destruct Hx as [k [Hk <-]].
      rewrite Lb in Hk. specialize (Rb k Hk). lia. }
  exists X. eexists. split; [reflexivity|].
  assert (N : forall k, (k < 2 ^ L)%nat ->
    nth k (map (fun x => (x * nt_size_inv op) mod p) b) 0 = (nth k b 0 * nt_size_inv op) mod p).
  { intros k Hk. rewrite nth_indep with (d' := (fun x => (x * nt_size_inv op) mod p) 0) by (rewrite map_length; lia).
    rewrite (map_nth (fun x => (x * nt_size_inv op) mod p)). reflexivity. }
  split; auto. split.
  - split; [rewrite map_length; auto|]. intros k Hk. rewrite N by auto. apply Z.mod_pos_bound. lia.
  - split; auto. intros k Hk. rewrite N by auto. rewrite eqm_mod. rewrite X2. reflexivity.
Qed.

(** ** Main facts *)
Lemma rng_weaken B B' a : B <= B' -> rng B a -> rng B' a.
Proof. intros H [L1 R]. split; auto. intros k Hk. specialize (R k Hk). lia. Qed.

Lemma rng_eq a b : rng p a -> rng p b -> (forall k, (k < 2 ^ L)%nat -> eqm p (nth k a 0) (nth k b 0)) -> a = b.
Proof.
  intros [La Ra] [Lb Rb] H. apply nth_ext' with 0; [congruence|]. intros k Hk. rewrite La in Hk.
  apply eqm_small with p; auto.
Qed.

Lemma tw_unit t i : rel_prime (tw psi L t i) p.
Proof.
  pose proof wn_pr as Hp. unfold tw, pw. apply rel_prime_sym, Zpow_facts.rel_prime_Zpower_r.
  - lia.
  - apply rel_prime_sym, rel_prime_le_prime; [apply (wn_prime _ _ _ W)|].
    pose proof (wn_psir _ _ _ W) as R. pose proof (wn_psi _ _ _ W) as C. fold p in R, C.
    split; [|lia]. destruct (Z.eq_dec psi 0) as [->|]; [|lia]. exfalso.
    unfold pw in C. rewrite Z.pow_0_l in C by (apply (Nat2Z.inj_lt 0), pow2_pos).
    apply eqm_divide in C; [|lia]. destruct C as [c C]. destruct (Z.eq_dec c 0); nia.
Qed.

Definition point (j : nat) : Z := pw psi (2 * bitrev L j + 1).

Lemma ntt_forward_ok a : rng (4 * p) a ->
  exists b, ntt_forward pr op a = Ok b /\ rng p b
    /\ forall j, (j < 2 ^ L)%nat -> eqm p (nth j b 0) (peval (2 ^ L) (nf a) (point j)).
Proof.
  intros Ha. destruct (ntt_forward_chain a Ha) as [X [b [E [X0 [XL [Rb HC]]]]]].
  exists b. split; auto. split; auto. intros j Hj.
  pose proof (fchain_eval p psi L (wn_psi _ _ _ W) X HC j Hj) as C. rewrite X0, XL in C. exact C.
Qed.

(** Backward recovers any polynomial from (lazily reduced) evaluations. *)
Lemma ntt_backward_eval f b : rng (2 * p) b ->
  (forall j, (j < 2 ^ L)%nat -> eqm p (nth j b 0) (peval (2 ^ L) f (point j))) ->
  exists a, ntt_backward pr op b = Ok a /\ rng p a /\ forall k, (k < 2 ^ L)%nat -> eqm p (nth k a 0) (f k).
Proof.
  intros Hb HE. pose proof wn_pr as Hp.
  destruct (ntt_backward_chain b Hb) as [Y [a [E [YL [Ra [HB Hs]]]]]].
  exists a. split; auto. split; auto.
  set (a0 := map (fun k => f k mod p) (seq 0 (2 ^ L))).
  assert (N0 : forall k, (k < 2 ^ L)%nat -> nth k a0 0 = f k mod p) by (intros; apply (nth_map_seq (fun k => f k mod p)); auto).
  assert (R0 : rng (4 * p) a0).
  { split; [unfold a0; rewrite map_length, seq_length; auto|]. intros k Hk. rewrite N0 by auto.
    pose proof (Z.mod_pos_bound (f k) p ltac:(lia)). lia. }
  destruct (ntt_forward_chain a0 R0) as [X [b' [E' [X0 [XL [Rb' HF]]]]]].
  assert (A : aeq p L (Y L) (fun k => 1 * X L k)).
  { intros k Hk. rewrite YL, Z.mul_1_l. unfold nf. rewrite (HE k Hk).
    rewrite (fchain_eval p psi L (wn_psi _ _ _ W) X HF k Hk). rewrite X0.
    apply peval_eqm. intros u Hu. unfold nf. rewrite N0 by auto. rewrite eqm_mod. reflexivity. }
  pose proof (chain_bf p psi L ltac:(lia) X Y 1 HF HB (fun t i _ _ => tw_unit t i) A) as R.
  intros k Hk. rewrite (Hs k Hk). rewrite (R k Hk). rewrite X0. unfold nf. rewrite N0 by auto. rewrite eqm_mod.
  pose proof (wn_si _ _ _ W) as C. fold p in C.
  replace (Z.of_nat (2 ^ L) * 1 * f k * nt_size_inv op) with ((nt_size_inv op * Z.of_nat (2 ^ L)) * f k) by ring.
  rewrite C. apply eq_eqm. ring.
Qed.

Lemma ntt_backward_forward a : rng p a ->
  exists b, ntt_forward pr op a = Ok b /\ ntt_backward pr op b = Ok a.
Proof.
  intros Ha. pose proof wn_pr as Hp.
  destruct (ntt_forward_ok a) as [b [E [Rb HE]]]; [apply rng_weaken with p; auto; lia|].
  destruct (ntt_backward_eval (nf a) b) as [a' [E' [Ra' H']]]; auto; [apply rng_weaken with p; auto; lia|].
  exists b. split; auto. rewrite E'. f_equal. apply rng_eq; auto.
Qed.

Lemma ntt_forward_backward b : rng p b ->
  exists a, ntt_backward pr op b = Ok a /\ rng p a /\ ntt_forward pr op a = Ok b.
Proof.
  intros Hb. pose proof wn_pr as Hp.
  destruct (ntt_backward_chain b) as [Y [a [E [YL [Ra [HB Hs]]]]]]; [apply rng_weaken with p; auto; lia|].
  exists a. split; auto. split; auto.
  destruct (ntt_forward_chain a) as [X [b' [E' [X0 [XL [Rb' HF]]]]]]; [apply rng_weaken with p; auto; lia|].
  rewrite E'. f_equal. apply rng_eq; auto.
  assert (A : aeq p L (X 0%nat) (fun k => nt_size_inv op * Y 0%nat k)).
  { intros k Hk. rewrite X0. unfold nf. rewrite (Hs k Hk). apply eq_eqm. ring. }
  pose proof (chain_fb p psi L X Y (nt_size_inv op) HF HB A) as R.
  intros k Hk. specialize (R k Hk). rewrite XL in R. unfold nf in R. rewrite R. rewrite YL.
  pose proof (wn_si _ _ _ W) as C. fold p in C. rewrite Z.mul_comm in C. rewrite C. apply eq_eqm. unfold nf. ring.
Qed.

(** Every reduced vector is the vector of evaluations of a polynomial. *)
Lemma eval_surj b : rng p b -> exists f, forall j, (j < 2 ^ L)%nat -> eqm p (nth j b 0) (peval (2 ^ L) f (point j)).
Proof.
  intros Hb. pose proof wn_pr as Hp. destruct (ntt_forward_backward b Hb) as [a [E [Ra E']]].
  destruct (ntt_forward_ok a) as [b' [E2 [Rb HE]]]; [apply rng_weaken with p; auto; lia|].
  rewrite E' in E2. injection E2 as <-. exists (nf a). exact HE.
Qed.

Lemma point_n j : eqm p (pw (point j) (2 ^ L)) (-1).
Proof.
  unfold point. rewrite <- pw_mul, Nat.mul_comm, pw_mul.
  rewrite (pw_eqm p _ (-1)) by apply (wn_psi _ _ _ W). rewrite pw_m1.
  replace (Nat.even (2 * bitrev L j + 1)) with false; [reflexivity|].
  rewrite Nat.even_add, Nat.even_mul. reflexivity.
Qed.
End Run.
