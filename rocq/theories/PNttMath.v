(** Mathematics of the number-theoretic transform, independent of the model. *)
From Verif Require Import PBase NT Spec PSum.

(** ** Bit reversal *)
Lemma pow2_pos k : (0 < 2 ^ k)%nat.
Proof. apply Nat.neq_0_lt_0. apply Nat.pow_nonzero. lia. Qed.
Lemma pow2_S k : (2 ^ S k = 2 * 2 ^ k)%nat.
Proof. reflexivity. Qed.
Lemma pow2_Z k : Z.of_nat (2 ^ k) = 2 ^ Z.of_nat k.
Proof. rewrite Nat2Z.inj_pow. reflexivity. Qed.
Lemma div2_lt i k : (i < 2 ^ S k)%nat -> (i / 2 < 2 ^ k)%nat.
Proof. intros H. apply Nat.div_lt_upper_bound; [lia|]. rewrite <- pow2_S. auto. Qed.
Lemma mod2_cases i : (i mod 2 = 0 \/ i mod 2 = 1)%nat.
Proof. pose proof (Nat.mod_upper_bound i 2). lia. Qed.

Lemma bitrev_0 k : bitrev k 0 = 0%nat.
Proof. induction k; simpl; auto. Qed.
Lemma bitrev_S k i : bitrev (S k) i = (i mod 2 * 2 ^ k + bitrev k (i / 2))%nat.
Proof. reflexivity. Qed.
Lemma bitrev_lt k i : (bitrev k i < 2 ^ k)%nat.
Proof.
  revert i; induction k as [|k IH]; intros i; [simpl; lia|].
  rewrite bitrev_S, pow2_S. specialize (IH (i / 2)%nat). destruct (mod2_cases i) as [-> | ->]; lia.
Qed.
Lemma bitrev_even k i : bitrev (S k) (2 * i) = bitrev k i.
Proof.
  rewrite bitrev_S. rewrite (Nat.mul_comm 2 i), Nat.mod_mul, Nat.div_mul by lia. lia.
Qed.
Lemma bitrev_odd k i : bitrev (S k) (2 * i + 1) = (2 ^ k + bitrev k i)%nat.
Proof.
  rewrite bitrev_S. replace ((2 * i + 1) mod 2)%nat with 1%nat by (zify; dlia).
  replace ((2 * i + 1) / 2)%nat with i by (zify; dlia). lia.
Qed.
Lemma bitrev_snoc k i : (i < 2 ^ k)%nat -> bitrev (S k) i = (2 * bitrev k i)%nat.
Proof.
  revert i; induction k as [|k IH]; intros i H.
  - simpl in H. replace i with 0%nat by lia. reflexivity.
  - rewrite bitrev_S, IH by (apply div2_lt; auto). rewrite (bitrev_S k i), pow2_S. lia.
Qed.
Lemma bitrev_snoc1 k i : (i < 2 ^ k)%nat -> bitrev (S k) (2 ^ k + i) = (2 * bitrev k i + 1)%nat.
Proof.
  revert i; induction k as [|k IH]; intros i H.
  - simpl in H. replace i with 0%nat by lia. reflexivity.
  - rewrite bitrev_S.
    replace ((2 ^ S k + i) mod 2)%nat with (i mod 2)%nat by (rewrite pow2_S; dlia).
    replace ((2 ^ S k + i) / 2)%nat with (2 ^ k + i / 2)%nat by (rewrite pow2_S; dlia).
    rewrite IH by (apply div2_lt; auto). rewrite (bitrev_S k i), pow2_S. lia.
Qed.
Lemma bitrev_pad k d i : (i < 2 ^ k)%nat -> bitrev (d + k) i = (2 ^ d * bitrev k i)%nat.
Proof.
  intros H. induction d as [|d IH]; [simpl; lia|].
  rewrite Nat.add_succ_l, bitrev_snoc, IH; [rewrite pow2_S; lia|].
  eapply Nat.lt_le_trans; [apply H|]. apply Nat.pow_le_mono_r; lia.
Qed.
(** Index used by the forward transform. *)
Lemma bitrev_fwd d t i : (i < 2 ^ t)%nat ->
  bitrev (d + S t) (2 ^ t + i) = (2 ^ d * (2 * bitrev t i + 1))%nat.
Proof.
  intros H. rewrite bitrev_pad, bitrev_snoc1; auto. rewrite pow2_S. lia.
Qed.
Lemma bitrev_ones k : bitrev k (2 ^ k - 1) = (2 ^ k - 1)%nat.
Proof.
  induction k as [|k IH]; [reflexivity|]. rewrite bitrev_S. pose proof (pow2_pos k).
  replace ((2 ^ S k - 1) mod 2)%nat with 1%nat by (rewrite pow2_S; dlia).
  replace ((2 ^ S k - 1) / 2)%nat with (2 ^ k - 1)%nat by (rewrite pow2_S; dlia).
  rewrite IH, pow2_S. lia.
Qed.
(** Index used by the backward transform. *)
Lemma bitrev_bwd d t i : (i < 2 ^ t)%nat ->
  (bitrev (d + S t) (2 ^ (d + S t) - 2 ^ S t + i) + 1 = 2 ^ d * (2 * bitrev t i + 1))%nat.
Proof.
  revert i; induction t as [|t IH]; intros i H.
  - simpl in H. replace i with 0%nat by lia. replace (d + 1)%nat with (S d) by lia. rewrite Nat.add_0_r.
    rewrite bitrev_S. pose proof (pow2_pos d).
    replace (2 ^ S d - 2 ^ 1)%nat with (2 * (2 ^ d - 1))%nat by (rewrite pow2_S; simpl; lia).
    replace ((2 * (2 ^ d - 1)) mod 2)%nat with 0%nat by dlia.
    replace (2 * (2 ^ d - 1) / 2)%nat with (2 ^ d - 1)%nat by dlia.
    rewrite bitrev_ones. simpl. lia.
  - replace (d + S (S t))%nat with (S (d + S t)) by lia. rewrite bitrev_S.
    assert (2 ^ S t <= 2 ^ (d + S t))%nat by (apply Nat.pow_le_mono_r; lia).
    replace ((2 ^ S (d + S t) - 2 ^ S (S t) + i) mod 2)%nat with (i mod 2)%nat
      by (rewrite !(pow2_S (d + S t)), (pow2_S (S t)); dlia).
    replace ((2 ^ S (d + S t) - 2 ^ S (S t) + i) / 2)%nat with (2 ^ (d + S t) - 2 ^ S t + i / 2)%nat
      by (rewrite !(pow2_S (d + S t)), (pow2_S (S t)); dlia).
    pose proof (IH (i / 2)%nat (div2_lt _ _ H)) as E. rewrite (bitrev_S t i).
    rewrite <- Nat.add_assoc, E.
    replace (2 ^ (d + S t))%nat with (2 ^ d * (2 * 2 ^ t))%nat by (rewrite Nat.pow_add_r, pow2_S; reflexivity).
    lia.
Qed.
Lemma bitrev_inj k i j : (i < 2 ^ k)%nat -> (j < 2 ^ k)%nat -> bitrev k i = bitrev k j -> i = j.
Proof.
  revert i j; induction k as [|k IH]; intros i j Hi Hj E; [simpl in *; lia|].
  rewrite !bitrev_S in E. pose proof (bitrev_lt k (i / 2)). pose proof (bitrev_lt k (j / 2)).
  assert (E1 : (i mod 2 = j mod 2)%nat)
    by (destruct (mod2_cases i) as [A|A], (mod2_cases j) as [B|B]; rewrite A, B in *; lia).
  rewrite E1 in E. assert (E2 : (i / 2 = j / 2)%nat) by (apply IH; try (apply div2_lt; auto); lia).
  rewrite (Nat.div_mod i 2), (Nat.div_mod j 2) by lia. congruence.
Qed.
Lemma bitrev_invol k i : (i < 2 ^ k)%nat -> bitrev k (bitrev k i) = i.
Proof.
  revert i; induction k as [|k IH]; intros i H; [simpl in *; lia|].
  rewrite (bitrev_S k i). pose proof (bitrev_lt k (i / 2)) as Hb.
  rewrite (Nat.div_mod i 2) at 3 by lia.
  destruct (mod2_cases i) as [-> | ->].
  - rewrite Nat.mul_0_l, Nat.add_0_l. rewrite bitrev_snoc by auto. rewrite IH by (apply div2_lt; auto). lia.
  - rewrite Nat.mul_1_l, bitrev_snoc1 by auto. rewrite IH by (apply div2_lt; auto). lia.
Qed.

(** ** Powers with natural exponents *)
Definition pw (y : Z) (e : nat) : Z := y ^ Z.of_nat e.
Lemma pw_0 y : pw y 0 = 1. Proof. reflexivity. Qed.
Lemma pw_1 y : pw y 1 = y. Proof. unfold pw. apply Z.pow_1_r. Qed.
Lemma pw_add y a b : pw y (a + b) = pw y a * pw y b.
Proof. unfold pw. rewrite Nat2Z.inj_add, Z.pow_add_r by lia. reflexivity. Qed.
Lemma pw_mul y a b : pw y (a * b) = pw (pw y a) b.
Proof. unfold pw. rewrite Nat2Z.inj_mul, Z.pow_mul_r by lia. reflexivity. Qed.
Lemma pw_S y a : pw y (S a) = y * pw y a.
Proof. unfold pw. rewrite Nat2Z.inj_succ, Z.pow_succ_r by lia. reflexivity. Qed.
Lemma pw_mul_base x y a : pw (x * y) a = pw x a * pw y a.
Proof. unfold pw. apply Z.pow_mul_l. Qed.
Lemma pw_eqm p a b e : eqm p a b -> eqm p (pw a e) (pw b e).
Proof. intros. apply eqm_pow; auto. lia. Qed.
Lemma pw_one e : pw 1 e = 1.
Proof. unfold pw. apply Z.pow_1_l. lia. Qed.
Lemma pw_m1 e : pw (-1) e = if Nat.even e then 1 else -1.
Proof.
  induction e as [|e IH]; [reflexivity|]. rewrite pw_S, IH, Nat.even_succ, <- Nat.negb_even.
  destruct (Nat.even e); reflexivity.
Qed.

(** ** Layers *)
Section Layers.
Variables (p psi : Z) (L : nat).
Let n := (2 ^ L)%nat.
Hypothesis Hp : 1 < p.
Hypothesis Hpsi : eqm p (pw psi n) (-1).

(** Twiddle of block i at level t (l = 2^(L-1-t) is the half block size). *)
Definition half (t : nat) : nat := (2 ^ (L - 1 - t))%nat.
Definition tw (t i : nat) : Z := pw psi (half t * (2 * bitrev t i + 1)).

(** Two arrays related by one forward layer. *)
Definition flayer (t : nat) (x y : nat -> Z) : Prop :=
  forall i r, (i < 2 ^ t)%nat -> (r < half t)%nat ->
    eqm p (y (2 * i * half t + r)%nat)
          (x (2 * i * half t + r)%nat + tw t i * x (2 * i * half t + half t + r)%nat)
    /\ eqm p (y (2 * i * half t + half t + r)%nat)
          (x (2 * i * half t + r)%nat - tw t i * x (2 * i * half t + half t + r)%nat).

(** Two arrays related by one backward layer. *)
Definition blayer (t : nat) (y x : nat -> Z) : Prop :=
  forall i r, (i < 2 ^ t)%nat -> (r < half t)%nat ->
    eqm p (x (2 * i * half t + r)%nat)
          (y (2 * i * half t + r)%nat + y (2 * i * half t + half t + r)%nat)
    /\ eqm p (tw t i * x (2 * i * half t + half t + r)%nat)
          (y (2 * i * half t + r)%nat - y (2 * i * half t + half t + r)%nat).

Lemma half_split t : (t < L)%nat -> (2 ^ (L - t) = 2 * half t)%nat.
Proof. intros H. unfold half. rewrite <- pow2_S. f_equal. lia. Qed.
Lemma half_S t : (S t < L)%nat -> (half t = 2 * half (S t))%nat.
Proof. intros H. unfold half. rewrite <- pow2_S. f_equal. lia. Qed.
Lemma half_n t : (t < L)%nat -> (2 ^ S t * half t = n)%nat.
Proof. intros H. unfold half, n. rewrite <- Nat.pow_add_r. f_equal. lia. Qed.
Lemma half_pos t : (0 < half t)%nat.
Proof. apply pow2_pos. Qed.

(** Every index lies in one half of one block. *)
Lemma block_index t k : (t < L)%nat -> (k < n)%nat ->
  exists i r, (i < 2 ^ t)%nat /\ (r < half t)%nat /\
    (k = 2 * i * half t + r \/ k = 2 * i * half t + half t + r)%nat.
Proof.
  intros Ht Hk. pose proof (half_pos t) as Hh. pose proof (half_n t Ht) as Hn. rewrite pow2_S in Hn.
  exists (k / (2 * half t))%nat, (k mod half t)%nat.
  assert (A : (k / (2 * half t) < 2 ^ t)%nat) by (apply Nat.div_lt_upper_bound; lia).
  split; [auto|]. split; [apply Nat.mod_upper_bound; lia|].
  rewrite (Nat.mul_comm 2 (half t)), <- Nat.div_div by lia.
  pose proof (Nat.div_mod k (half t) ltac:(lia)) as E1.
  pose proof (Nat.div_mod (k / half t) 2 ltac:(lia)) as E2.
  destruct (mod2_cases (k / half t)) as [E|E]; rewrite E in E2.
  - left. rewrite E1 at 1. rewrite E2 at 1. lia.
  - right. rewrite E1 at 1. rewrite E2 at 1. lia.
Qed.

(** Closed form after t layers. *)
Definition root_at (t i : nat) : Z := pw psi (2 ^ (L - t) * (2 * bitrev t i + 1)).
Definition closed (x : nat -> Z) (t : nat) (y : nat -> Z) : Prop :=
  forall i r, (i < 2 ^ t)%nat -> (r < 2 ^ (L - t))%nat ->
    eqm p (y (i * 2 ^ (L - t) + r)%nat)
          (sumn (2 ^ t) (fun u => x (u * 2 ^ (L - t) + r)%nat * pw (root_at t i) u)).

Lemma closed_0 x : closed x 0 x.
Proof.
  intros i r Hi Hr. simpl in Hi. replace i with 0%nat by lia. simpl. rewrite pw_0.
  rewrite Z.mul_1_r. reflexivity.
Qed.

Lemma sumn_pair m f : sumn (2 * m) f = sumn m (fun u => f (2 * u)%nat + f (2 * u + 1)%nat).
Proof.
  induction m as [|m IH]; [reflexivity|].
  replace (2 * S m)%nat with (S (S (2 * m))) by lia. cbn [sumn]. rewrite IH.
  rewrite Nat.add_1_r. lia.
Qed.

Lemma closed_step x t y z : (t < L)%nat -> closed x t y -> flayer t y z -> closed x (S t) z.
Proof.
  intros Ht HC HF. assert (E : (2 ^ (L - t) = 2 * half t)%nat) by (apply half_split; auto).
  assert (E' : (2 ^ (L - S t) = half t)%nat) by (unfold half; f_equal; lia).
  intros j r Hj Hr. rewrite E' in *. unfold closed in HC. rewrite E in HC.
  set (i := (j / 2)%nat). assert (Hi : (i < 2 ^ t)%nat) by (apply div2_lt; auto).
  destruct (HF i r Hi Hr) as [F1 F2].
  pose proof (HC i r Hi ltac:(lia)) as C1. pose proof (HC i (half t + r)%nat Hi ltac:(lia)) as C2.
  replace (i * (2 * half t) + r)%nat with (2 * i * half t + r)%nat in C1 by lia.
  replace (i * (2 * half t) + (half t + r))%nat with (2 * i * half t + half t + r)%nat in C2 by lia.
  assert (R : root_at t i = pw (tw t i) 2).
  { unfold root_at, tw. rewrite E. rewrite <- pw_mul. f_equal. lia. }
  assert (G : forall w s, eqm p (w * w) (tw t i * tw t i) -> eqm p w (s * tw t i) ->
    eqm p (y (2 * i * half t + r)%nat + s * (tw t i * y (2 * i * half t + half t + r)%nat))
     (sumn (2 ^ S t) (fun u => x (u * half t + r)%nat * pw w u))).
  { intros w s Hw Hws. rewrite pow2_S, sumn_pair.
    rewrite C1, C2. rewrite Z.mul_assoc, <- Hws. rewrite <- sumn_mul_l, <- sumn_add.
    apply sumn_eqm. intros u Hu.
    replace (2 * u * half t + r)%nat with (u * (2 * half t) + r)%nat by lia.
    replace ((2 * u + 1) * half t + r)%nat with (u * (2 * half t) + (half t + r))%nat by lia.
    rewrite pw_add, pw_1, (pw_mul w 2 u).
    assert (Q : eqm p (pw (root_at t i) u) (pw (pw w 2) u)).
    { apply pw_eqm. rewrite R. rewrite !pw_S, !pw_0, !Z.mul_1_r. symmetry. auto. }
    rewrite Q. apply eq_eqm. ring. }
  destruct (mod2_cases j) as [Ej|Ej].
  - replace j with (2 * i)%nat by (unfold i; pose proof (Nat.div_mod j 2 ltac:(lia)); lia).
    rewrite F1. rewrite <- (G (root_at (S t) (2 * i)) 1).
    + apply eq_eqm. ring.
    + unfold root_at, tw. rewrite E', bitrev_even. reflexivity.
    + unfold root_at, tw. rewrite E', bitrev_even. apply eq_eqm. ring.
  - replace j with (2 * i + 1)%nat by (unfold i; pose proof (Nat.div_mod j 2 ltac:(lia)); lia).
    replace ((2 * i + 1) * half t + r)%nat with (2 * i * half t + half t + r)%nat by lia.
    rewrite F2.
    assert (RR : eqm p (root_at (S t) (2 * i + 1)) (-1 * tw t i)).
    { unfold root_at. rewrite E', bitrev_odd.
      replace (half t * (2 * (2 ^ t + bitrev t i) + 1))%nat
        with (2 ^ S t * half t + half t * (2 * bitrev t i + 1))%nat by (rewrite pow2_S; lia).
      rewrite pw_add, half_n, Hpsi by auto. reflexivity. }
    rewrite <- (G (root_at (S t) (2 * i + 1)) (-1)).
    + apply eq_eqm. ring.
    + rewrite RR. apply eq_eqm. ring.
    + exact RR.
Qed.

(** Agreement modulo p below n. *)
Definition aeq (x y : nat -> Z) : Prop := forall k, (k < n)%nat -> eqm p (x k) (y k).

Lemma in_block t i r : (t < L)%nat -> (i < 2 ^ t)%nat -> (r < half t)%nat ->
  (2 * i * half t + r < n)%nat /\ (2 * i * half t + half t + r < n)%nat.
Proof.
  intros Ht Hi Hr. pose proof (half_n t Ht) as Hn. rewrite pow2_S in Hn.
  assert ((S i) * (2 * half t) <= 2 ^ t * (2 * half t))%nat by (apply Nat.mul_le_mono_r; lia).
  lia.
Qed.

(** A backward layer undoes a forward layer up to the factor 2, and
    conversely; c is an arbitrary common factor. *)
Lemma bf_cancel t x y y' x' c : (t < L)%nat ->
  (forall i, (i < 2 ^ t)%nat -> rel_prime (tw t i) p) ->
  flayer t x y -> aeq y' (fun k => c * y k) -> blayer t y' x' -> aeq x' (fun k => 2 * c * x k).
Proof.
  intros Ht Hu HF HA HB k Hk. destruct (block_index t k Ht Hk) as [i [r [Hi [Hr Ek]]]].
  destruct (HF i r Hi Hr) as [F1 F2]. destruct (HB i r Hi Hr) as [B1 B2].
  destruct (in_block t i r Ht Hi Hr) as [N1 N2].
  pose proof (HA _ N1) as A1. pose proof (HA _ N2) as A2. cbv beta in A1, A2.
  rewrite F1 in A1. rewrite F2 in A2. rewrite A1, A2 in B1, B2.
  destruct Ek as [-> | ->].
  - rewrite B1. apply eq_eqm. ring.
  - apply eqm_cancel with (tw t i); auto. rewrite B2. apply eq_eqm. ring.
Qed.

Lemma fb_cancel t x y y' x' c : (t < L)%nat ->
  blayer t y x -> aeq x' (fun k => c * x k) -> flayer t x' y' -> aeq y' (fun k => 2 * c * y k).
Proof.
  intros Ht HB HA HF k Hk. destruct (block_index t k Ht Hk) as [i [r [Hi [Hr Ek]]]].
  destruct (HF i r Hi Hr) as [F1 F2]. destruct (HB i r Hi Hr) as [B1 B2].
  destruct (in_block t i r Ht Hi Hr) as [N1 N2].
  pose proof (HA _ N1) as A1. pose proof (HA _ N2) as A2. cbv beta in A1, A2.
  assert (T : eqm p (tw t i * x' (2 * i * half t + half t + r)%nat)
    (c * (y (2 * i * half t + r)%nat - y (2 * i * half t + half t + r)%nat))).
  { rewrite A2, <- B2. apply eq_eqm. ring. }
  destruct Ek as [-> | ->].
  - rewrite F1, T, A1, B1. apply eq_eqm. ring.
  - rewrite F2, T, A1, B1. apply eq_eqm. ring.
Qed.

(** Chains of layers. *)
Definition fchain (t d : nat) (X : nat -> nat -> Z) : Prop :=
  forall u, (t <= u < t + d)%nat -> flayer u (X u) (X (S u)).
Definition bchain (d : nat) (X : nat -> nat -> Z) : Prop :=
  forall u, (u < d)%nat -> blayer u (X (S u)) (X u).

Lemma fchain_closed X : fchain 0 L X -> closed (X 0%nat) L (X L).
Proof.
  intros H. assert (G : forall t, (t <= L)%nat -> closed (X 0%nat) t (X t)).
  { induction t as [|t IH]; intros Ht; [apply closed_0|].
    apply closed_step with (X t); auto; [apply IH; lia|]. apply H. lia. }
  apply G. lia.
Qed.

Lemma fchain_eval X : fchain 0 L X -> forall j, (j < n)%nat ->
  eqm p (X L j) (peval n (X 0%nat) (pw psi (2 * bitrev L j + 1))).
Proof.
  intros H j Hj. pose proof (fchain_closed X H j 0%nat Hj) as C.
  rewrite Nat.sub_diag in C. specialize (C ltac:(simpl; lia)).
  replace (j * 2 ^ 0 + 0)%nat with j in C by (simpl; lia). rewrite C.
  apply eq_eqm. unfold peval. apply sumn_ext. intros u Hu. unfold root_at.
  rewrite Nat.sub_diag. replace (u * 2 ^ 0 + 0)%nat with u by (simpl; lia).
  replace (2 ^ 0 * (2 * bitrev L j + 1))%nat with (2 * bitrev L j + 1)%nat by (simpl; lia).
  reflexivity.
Qed.

Lemma chain_bf X Y c : fchain 0 L X -> bchain L Y ->
  (forall t i, (t < L)%nat -> (i < 2 ^ t)%nat -> rel_prime (tw t i) p) ->
  aeq (Y L) (fun k => c * X L k) -> aeq (Y 0%nat) (fun k => Z.of_nat n * c * X 0%nat k).
Proof.
  intros HF HB Hu H0.
  assert (G : forall d, (d <= L)%nat -> aeq (Y (L - d)%nat) (fun k => 2 ^ Z.of_nat d * c * X (L - d)%nat k)).
  { induction d as [|d IH]; intros Hd.
    - rewrite Nat.sub_0_r. intros k Hk. rewrite (H0 k Hk). apply eq_eqm. change (2 ^ Z.of_nat 0) with 1. ring.
    - specialize (IH ltac:(lia)). replace (L - d)%nat with (S (L - S d)) in IH by lia.
      set (t := (L - S d)%nat) in *.
      assert (Ht : (t < L)%nat) by (unfold t; lia).
      pose proof (bf_cancel t (X t) (X (S t)) (Y (S t)) (Y t) (2 ^ Z.of_nat d * c) Ht
        (fun i => Hu t i Ht) (HF t ltac:(lia)) IH (HB t ltac:(lia))) as R.
      intros k Hk. rewrite (R k Hk). apply eq_eqm. rewrite Nat2Z.inj_succ, Z.pow_succ_r by lia. ring. }
  intros k Hk. specialize (G L (le_n L) k Hk). rewrite Nat.sub_diag in G. rewrite G.
  unfold n. rewrite pow2_Z. reflexivity.
Qed.

Lemma chain_fb X Y c : fchain 0 L X -> bchain L Y ->
  aeq (X 0%nat) (fun k => c * Y 0%nat k) -> aeq (X L) (fun k => Z.of_nat n * c * Y L k).
Proof.
  intros HF HB H0.
  assert (G : forall d, (d <= L)%nat -> aeq (X d) (fun k => 2 ^ Z.of_nat d * c * Y d k)).
  { induction d as [|d IH]; intros Hd.
    - intros k Hk. rewrite (H0 k Hk). apply eq_eqm. change (2 ^ Z.of_nat 0) with 1. ring.
    - specialize (IH ltac:(lia)).
      pose proof (fb_cancel d (Y d) (Y (S d)) (X (S d)) (X d) (2 ^ Z.of_nat d * c) ltac:(lia)
        (HB d ltac:(lia)) IH (HF d ltac:(lia))) as R.
      intros k Hk. rewrite (R k Hk). apply eq_eqm. rewrite Nat2Z.inj_succ, Z.pow_succ_r by lia. ring. }
  intros k Hk. rewrite (G L (le_n L) k Hk). unfold n. rewrite pow2_Z. reflexivity.
Qed.
End Layers.

(** ** Evaluation is a ring homomorphism at points with y^n = -1. *)
Lemma mono_eval p n y e : (0 < n)%nat -> eqm p (pw y n) (-1) ->
  eqm p (sumn n (fun k => mono n k e * pw y k)) (pw y e).
Proof.
  intros Hn Hy. rewrite (sumn_single n (e mod n)).
  - unfold mono. rewrite Nat.eqb_refl. rewrite (Nat.div_mod e n) at 3 by lia.
    rewrite pw_add, pw_mul. rewrite (pw_eqm p (pw y n) (-1)) by auto. rewrite pw_m1. reflexivity.
  - apply Nat.mod_upper_bound. lia.
  - intros i Hi Hne. unfold mono. destruct (e mod n =? i)%nat eqn:E; [|ring].
    apply Nat.eqb_eq in E. congruence.
Qed.

Lemma peval_rmul p n f g y : (0 < n)%nat -> eqm p (pw y n) (-1) ->
  eqm p (peval n (rmul n f g) y) (peval n f y * peval n g y).
Proof.
  intros Hn Hy. unfold peval, rmul.
  erewrite sumn_ext.
  2:{ intros k Hk. rewrite <- sumn_mul_r. apply sumn_ext. intros i Hi. rewrite <- sumn_mul_r. reflexivity. }
  rewrite sumn_swap. rewrite <- sumn_mul_r. apply sumn_eqm. intros i Hi.
  rewrite sumn_swap. rewrite <- sumn_mul_l. apply sumn_eqm. intros j Hj.
  erewrite sumn_ext.
  2:{ intros k Hk. rewrite <- Z.mul_assoc. reflexivity. }
  rewrite sumn_mul_l. fold (pw y i) (pw y j).
  rewrite (mono_eval p n y (i + j) Hn Hy : eqm p (sumn n (fun k => mono n k (i + j) * y ^ Z.of_nat k)) _).
  rewrite pw_add. apply eq_eqm. ring.
Qed.

Lemma peval_rsubst p n e f y : (0 < n)%nat -> eqm p (pw y n) (-1) ->
  eqm p (peval n (rsubst n e f) y) (peval n f (pw y e)).
Proof.
  intros Hn Hy. unfold peval, rsubst.
  erewrite sumn_ext.
  2:{ intros k Hk. rewrite <- sumn_mul_r. reflexivity. }
  rewrite sumn_swap. apply sumn_eqm. intros i Hi.
  erewrite sumn_ext.
  2:{ intros k Hk. rewrite <- Z.mul_assoc. reflexivity. }
  rewrite sumn_mul_l.
  rewrite (mono_eval p n y (i * e) Hn Hy : eqm p (sumn n (fun k => mono n k (i * e) * y ^ Z.of_nat k)) _).
  fold (pw (pw y e) i). rewrite <- pw_mul, Nat.mul_comm. reflexivity.
Qed.

Lemma peval_ext n f g y : (forall k, (k < n)%nat -> f k = g k) -> peval n f y = peval n g y.
Proof. intros H. apply sumn_ext. intros k Hk. rewrite H by auto. reflexivity. Qed.
Lemma peval_eqm p n f g y : (forall k, (k < n)%nat -> eqm p (f k) (g k)) -> eqm p (peval n f y) (peval n g y).
Proof. intros H. apply sumn_eqm. intros k Hk. rewrite (H k Hk). reflexivity. Qed.
Lemma peval_point p n f y z : eqm p y z -> eqm p (peval n f y) (peval n f z).
Proof. intros H. apply sumn_eqm. intros k Hk. fold (pw y k) (pw z k). rewrite (pw_eqm p y z k H). reflexivity. Qed.
