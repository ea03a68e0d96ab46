(** Claim C65: the distribution of the centred binomial sampler. *)
From Verif Require Import PBase Spec SpecProb PSum MModulus MUtils PUtils PUtils2.

Lemma sumb_ext m : forall f g, (forall l, length l = m -> f l = g l) -> sumb m f = sumb m g.
Proof.
  induction m as [|m IH]; intros f g H; cbn [sumb]; [apply H; reflexivity|].
  f_equal; apply IH; intros l Hl; apply H; cbn [length]; lia.
Qed.
Lemma sumb_add m : forall f g, sumb m (fun l => f l + g l) = sumb m f + sumb m g.
Proof. induction m as [|m IH]; intros f g; cbn [sumb]; [reflexivity|]. rewrite !IH. lia. Qed.
Lemma sumb_mul m : forall c f, sumb m (fun l => c * f l) = c * sumb m f.
Proof. induction m as [|m IH]; intros c f; cbn [sumb]; [reflexivity|]. rewrite !IH. lia. Qed.
Lemma sumb_const m c : sumb m (fun _ => c) = c * 2 ^ Z.of_nat m.
Proof.
  induction m as [|m IH]; cbn [sumb]; [change (2 ^ Z.of_nat 0) with 1; lia|].
  rewrite IH, Nat2Z.inj_succ, Z.pow_succ_r by lia. lia.
Qed.
(** A product of functions of disjoint bits. *)
Lemma sumb_split a b : forall (f g : list bool -> Z),
  sumb (a + b) (fun l => f (firstn a l) * g (skipn a l)) = sumb a f * sumb b g.
Proof.
  induction a as [|a IH]; intros f g; cbn [Nat.add sumb firstn skipn].
  - apply sumb_mul.
  - rewrite (IH (fun l => f (false :: l))), (IH (fun l => f (true :: l))). lia.
Qed.

Definition ones (l : list bool) : Z := sumn (length l) (fun j => Z.b2z (nth j l false)).
Lemma ones_cons b l : ones (b :: l) = Z.b2z b + ones l.
Proof. unfold ones. cbn [length]. rewrite sumn_S_l. reflexivity. Qed.

(** The samples as a function of the bits. *)
Definition samp1 (V : nat) (l : list bool) : Z := ones (firstn (2 * V) l) - ones (firstn (2 * V) (skipn (2 * V) l)).
Fixpoint samps (size V : nat) (l : list bool) : list Z :=
  match size with
  | O => []
  | S s => samp1 V (firstn (4 * V) l) :: samps s V (skipn (4 * V) l)
  end.

Lemma bits_num_testbit l : forall j, Z.testbit (bits_num l) (Z.of_nat j) = nth j l false.
Proof.
  induction l as [|b l IH]; intros j; cbn [bits_num].
  - rewrite Z.bits_0. destruct j; reflexivity.
  - rewrite Z.add_comm. destruct j as [|j].
    + change (Z.of_nat 0) with 0. apply Z.testbit_0_r.
    + rewrite Nat2Z.inj_succ, Z.testbit_succ_r by lia. apply IH.
Qed.
Lemma bits_num_range l : 0 <= bits_num l < 2 ^ Z.of_nat (length l).
Proof.
  induction l as [|b l IH]; cbn [bits_num length]; [change (2 ^ Z.of_nat 0) with 1; lia|].
  rewrite Nat2Z.inj_succ, Z.pow_succ_r by lia. destruct b; cbn [Z.b2z]; lia.
Qed.
Lemma words_range l k : 0 <= words_of l k < 2 ^ 64.
Proof.
  unfold words_of. set (x := firstn _ _). pose proof (bits_num_range x) as R.
  assert (length x <= 64)%nat by (unfold x; rewrite firstn_length; apply Nat.le_min_l).
  assert (2 ^ Z.of_nat (length x) <= 2 ^ 64) by (apply Z.pow_le_mono_r; lia). lia.
Qed.
Lemma nth_firstn_lt {A} (l : list A) d : forall n j, (j < n)%nat -> nth j (firstn n l) d = nth j l d.
Proof.
  induction l as [|a l IH]; intros n j H; [rewrite firstn_nil; reflexivity|].
  destruct n as [|n]; [lia|]. destruct j as [|j]; [reflexivity|]. cbn [firstn nth]. apply IH. lia.
Qed.
Lemma nth_skipn_add {A} (l : list A) d : forall n j, nth j (skipn n l) d = nth (n + j) l d.
Proof.
  induction l as [|a l IH]; intros n j; [rewrite skipn_nil; destruct j, n; reflexivity|].
  destruct n as [|n]; [reflexivity|]. cbn [skipn Nat.add nth]. apply IH.
Qed.
Lemma stream_words l i : stream_bit (words_of l) i = Z.b2z (nth i l false).
Proof.
  unfold stream_bit, words_of. rewrite bits_num_testbit.
  rewrite nth_firstn_lt by (apply Nat.mod_upper_bound; lia). rewrite nth_skipn_add, <- Nat.div_mod by lia. 
  destruct (nth i l false); reflexivity.
Qed.

Lemma ones_firstn l n : (n <= length l)%nat -> ones (firstn n l) = sumn n (fun j => Z.b2z (nth j l false)).
Proof.
  intros H. unfold ones. rewrite firstn_length_le by auto. apply sumn_ext. intros j Hj. rewrite nth_firstn_lt by auto. reflexivity.
Qed.
Lemma samps_spec size V : forall l, (4 * V * size <= length l)%nat ->
  samps size V l = map (fun i => sumn (2 * V) (fun j => Z.b2z (nth (4 * V * i + j) l false)) - sumn (2 * V) (fun j => Z.b2z (nth (4 * V * i + 2 * V + j) l false))) (seq 0 size).
Proof.
  induction size as [|s IH]; intros l H; [reflexivity|]. cbn [samps seq map]. f_equal.
  - unfold samp1. rewrite !ones_firstn; rewrite ?skipn_length, ?firstn_length_le; try lia. f_equal; apply sumn_ext; intros j Hj.
    + rewrite nth_firstn_lt by lia. do 2 f_equal. lia.
    + rewrite nth_skipn_add, nth_firstn_lt by lia. do 2 f_equal. lia.
  - rewrite IH by (rewrite skipn_length; lia). rewrite <- seq_shift, map_map. apply map_ext. intros i.
    f_equal; apply sumn_ext; intros j Hj; rewrite nth_skipn_add; do 2 f_equal; lia.
Qed.
Lemma sampler_samps pr size V l : (1 <= V <= 16)%nat -> (4 * V * size <= length l)%nat ->
  sample_vec_cbd pr size (Z.of_nat V) (words_of l) = Ok (samps size V l).
Proof.
  intros HV HL. rewrite sample_vec_cbd_ok by (try lia; apply words_range). f_equal. rewrite samps_spec by auto. rewrite Nat2Z.id.
  apply map_ext. intros i. unfold cbd_sample. f_equal; apply sumn_ext; intros j Hj; rewrite stream_words; reflexivity.
Qed.

(** The number of bit lists of length a + b with (ones of the first a) minus
    (ones of the last b) equal to x. *)
Lemma count_diff b x : forall a y, sumb (a + b) (fun l => if y + ones (firstn a l) - ones (skipn a l) =? x then 1 else 0) = binom (a + b) (x - y + Z.of_nat b).
Proof.
  induction a as [|a IH]; intros y.
  - cbn [Nat.add firstn skipn]. revert y. induction b as [|b IH]; intros y.
    + cbn [sumb binom]. change (ones []) with 0. change (Z.of_nat 0) with 0. destruct (Z.eqb_spec (y + 0 - 0) x), (Z.eqb_spec (x - y + 0) 0); lia.
    + cbn [sumb binom]. rewrite (sumb_ext b _ (fun l => if y + ones [] - ones l =? x then 1 else 0)) by (intros l _; rewrite (ones_cons false); reflexivity).
      rewrite (sumb_ext b (fun l => if y + ones [] - ones (true :: l) =? x then 1 else 0) (fun l => if (y - 1) + ones [] - ones l =? x then 1 else 0)).
      2:{ intros l _. rewrite (ones_cons true). cbn [Z.b2z]. replace (y + ones [] - (1 + ones l)) with (y - 1 + ones [] - ones l) by lia. reflexivity. }
      rewrite !IH. rewrite Nat2Z.inj_succ. f_equal; f_equal; lia.
  - cbn [Nat.add firstn skipn sumb binom].
    rewrite (sumb_ext (a + b) _ (fun l => if y + ones (firstn a l) - ones (skipn a l) =? x then 1 else 0)) by (intros l _; rewrite (ones_cons false); reflexivity).
    rewrite (sumb_ext (a + b) (fun l => if y + ones (true :: firstn a l) - ones (skipn a l) =? x then 1 else 0)
              (fun l => if (y + 1) + ones (firstn a l) - ones (skipn a l) =? x then 1 else 0)).
    2:{ intros l _. rewrite (ones_cons true). cbn [Z.b2z]. replace (y + (1 + ones (firstn a l))) with (y + 1 + ones (firstn a l)) by lia. reflexivity. }
    rewrite !IH. rewrite Z.add_comm. f_equal; f_equal; lia.
Qed.
Lemma count_samp1 V x : sumb (4 * V) (fun l => if samp1 V l =? x then 1 else 0) = binom (4 * V) (x + 2 * Z.of_nat V).
Proof.
  replace (4 * V)%nat with (2 * V + 2 * V)%nat at 1 by lia.
  rewrite (sumb_ext _ _ (fun l => if 0 + ones (firstn (2 * V) l) - ones (skipn (2 * V) l) =? x then 1 else 0)).
  - rewrite count_diff. f_equal; lia.
  - intros l Hl. unfold samp1. rewrite (firstn_all2 (skipn (2 * V) l)) by (rewrite skipn_length; lia). rewrite Z.add_0_l. reflexivity.
Qed.

Fixpoint leqb (a b : list Z) : bool :=
  match a, b with [], [] => true | x :: a', y :: b' => (x =? y) && leqb a' b' | _, _ => false end.
Lemma leqb_spec a : forall b, leqb a b = true <-> a = b.
Proof.
  induction a as [|x a IH]; intros [|y b]; cbn [leqb]; split; intros H; try discriminate; auto.
  - apply andb_true_iff in H. destruct H as [H1 H2]. apply Z.eqb_eq in H1. apply IH in H2. congruence.
  - injection H as -> ->. rewrite Z.eqb_refl. apply IH. reflexivity.
Qed.

Lemma count_samps V : forall size xs rest, length xs = size ->
  sumb (4 * V * size + rest) (fun l => if leqb (samps size V l) xs then 1 else 0)
  = 2 ^ Z.of_nat rest * prodl (map (fun x => binom (4 * V) (x + 2 * Z.of_nat V)) xs).
Proof.
  induction size as [|s IH]; intros xs rest Hl; destruct xs as [|x xs]; try discriminate Hl.
  - rewrite Nat.mul_0_r. cbn [Nat.add samps leqb map prodl]. rewrite sumb_const. lia.
  - cbn [length] in Hl. replace (4 * V * S s + rest)%nat with (4 * V + (4 * V * s + rest))%nat by lia.
    set (F := fun a => if samp1 V a =? x then 1 else 0). set (G := fun b => if leqb (samps s V b) xs then 1 else 0).
    rewrite (sumb_ext _ _ (fun l => F (firstn (4 * V) l) * G (skipn (4 * V) l))).
    + rewrite sumb_split. unfold F, G. rewrite count_samp1, IH by lia. cbn [map prodl]. lia.
    + intros l _. unfold F, G. cbn [samps leqb]. destruct (samp1 V (firstn (4 * V) l) =? x), (leqb (samps s V (skipn (4 * V) l)) xs); reflexivity.
Qed.

Definition returns (o : outcome (list Z)) (xs : list Z) : bool := match o with Ok l => leqb l xs | _ => false end.
Lemma returns_spec o xs : returns o xs = true <-> o = Ok xs.
Proof.
  destruct o; cbn [returns]; split; intros H; try discriminate.
  - apply leqb_spec in H. congruence.
  - apply leqb_spec. congruence.
Qed.

(** C65: over all outcomes of the generator (m bits, at least as many as are
    used) the vector xs is returned with frequency exactly the product of
    centred binomial frequencies: the samples are independent and each is
    distributed as B(4v, 1/2) - 2v. *)
Lemma C65_distribution_lem :
  forall pr size v m xs, (1 <= v <= 16)%nat -> (4 * v * size <= m)%nat -> length xs = size ->
    (forall o, returns o xs = true <-> o = Ok xs)
    /\ countb m (fun bits => returns (sample_vec_cbd pr size (Z.of_nat v) (words_of bits)) xs) * 2 ^ (4 * Z.of_nat v * Z.of_nat size)
       = 2 ^ Z.of_nat m * prodl (map (fun x => binom (4 * v) (x + 2 * Z.of_nat v)) xs).
Proof.
  intros pr size v m xs Hv Hm Hl. split; [intros o; apply returns_spec|].
  unfold countb. rewrite (sumb_ext m _ (fun l => if leqb (samps size v l) xs then 1 else 0)).
  2:{ intros l Hll. rewrite sampler_samps by lia. reflexivity. }
  replace m with (4 * v * size + (m - 4 * v * size))%nat at 1 by lia. rewrite count_samps by auto.
  replace (2 ^ Z.of_nat m) with (2 ^ Z.of_nat (m - 4 * v * size) * 2 ^ (4 * Z.of_nat v * Z.of_nat size)).
  - ring.
  - rewrite <- Z.pow_add_r by lia. f_equal. lia.
Qed.

(** Moments of one sample. *)
Lemma sumb_shift f a b : sumb (a + b) (fun l => f (firstn a l)) = 2 ^ Z.of_nat b * sumb a f.
Proof.
  set (G := fun _ : list bool => 1). rewrite (sumb_ext _ _ (fun l => f (firstn a l) * G (skipn a l))) by (intros; unfold G; lia).
  rewrite sumb_split. unfold G. rewrite sumb_const. lia.
Qed.
Lemma ones_sum m : sumb m ones * 2 = Z.of_nat m * 2 ^ Z.of_nat m.
Proof.
  induction m as [|m IH]; [reflexivity|]. cbn [sumb].
  rewrite (sumb_ext m (fun l => ones (false :: l)) ones) by (intros l _; apply (ones_cons false)).
  rewrite (sumb_ext m (fun l => ones (true :: l)) (fun l => 1 + ones l)) by (intros l _; apply (ones_cons true)).
  rewrite sumb_add, sumb_const, Nat2Z.inj_succ, Z.pow_succ_r by lia. lia.
Qed.
Lemma ones_sum2 m : sumb m (fun l => ones l * ones l) * 4 = Z.of_nat m * (Z.of_nat m + 1) * 2 ^ Z.of_nat m.
Proof.
  induction m as [|m IH]; [reflexivity|]. cbn [sumb].
  rewrite (sumb_ext m (fun l => ones (false :: l) * _) (fun l => ones l * ones l)) by (intros l _; rewrite (ones_cons false); cbn [Z.b2z]; ring).
  rewrite (sumb_ext m (fun l => ones (true :: l) * _) (fun l => (1 + 2 * ones l) + ones l * ones l)) by (intros l _; rewrite (ones_cons true); cbn [Z.b2z]; ring).
  rewrite sumb_add, sumb_add, sumb_const, sumb_mul, Nat2Z.inj_succ, Z.pow_succ_r by lia. pose proof (ones_sum m) as M1.
  set (A := sumb m (fun l => ones l * ones l)) in *. set (M := sumb m ones) in *. set (p := 2 ^ Z.of_nat m) in *. set (z := Z.of_nat m) in *.
  replace ((A + (1 * p + 2 * M + A)) * 4) with (2 * (A * 4) + 4 * p + 4 * (M * 2)) by ring. rewrite IH, M1. unfold Z.succ. ring.
Qed.
Lemma samp1_mean V : sumb (4 * V) (samp1 V) = 0.
Proof.
  set (G := fun _ : list bool => 1).
  rewrite (sumb_ext _ _ (fun l => ones (firstn (2 * V) l) * G (skipn (2 * V) l) + (-1) * (G (firstn (2 * V) l) * ones (skipn (2 * V) l)))).
  - rewrite sumb_add, sumb_mul. replace (4 * V)%nat with (2 * V + 2 * V)%nat by lia. rewrite !sumb_split. ring.
  - intros l Hl. unfold samp1, G. rewrite (firstn_all2 (skipn (2 * V) l)) by (rewrite skipn_length; lia). lia.
Qed.
Lemma samp1_var V : sumb (4 * V) (fun l => samp1 V l * samp1 V l) = Z.of_nat V * 2 ^ Z.of_nat (4 * V).
Proof.
  set (G := fun _ : list bool => 1). set (F := fun a => ones a * ones a).
  rewrite (sumb_ext _ _ (fun l => (F (firstn (2 * V) l) * G (skipn (2 * V) l) + G (firstn (2 * V) l) * F (skipn (2 * V) l)) + (-2) * (ones (firstn (2 * V) l) * ones (skipn (2 * V) l)))).
  - rewrite sumb_add, sumb_add, sumb_mul. replace (4 * V)%nat with (2 * V + 2 * V)%nat by lia.
    rewrite !sumb_split. unfold G, F. rewrite sumb_const.
    pose proof (ones_sum (2 * V)) as M1. pose proof (ones_sum2 (2 * V)) as M2. rewrite (Nat2Z.inj_add (2 * V)), Z.pow_add_r by lia.
    set (A := sumb (2 * V) (fun l => ones l * ones l)) in *. set (M := sumb (2 * V) ones) in *. set (p := 2 ^ Z.of_nat (2 * V)) in *.
    assert (X : 2 * (A * (1 * p) + 1 * p * A + -2 * (M * M)) = 2 * (Z.of_nat V * (p * p))); [|lia].
    replace (2 * (A * (1 * p) + 1 * p * A + -2 * (M * M))) with (A * 4 * p - (M * 2) * (M * 2)) by ring. rewrite M1, M2. rewrite Nat2Z.inj_mul. change (Z.of_nat 2) with 2. ring.
  - intros l Hl. unfold samp1, F, G. rewrite (firstn_all2 (skipn (2 * V) l)) by (rewrite skipn_length; lia). ring.
Qed.
Lemma skipn_skipn' {A} (l : list A) : forall a b, skipn a (skipn b l) = skipn (b + a) l.
Proof.
  induction l as [|x l IH]; intros a b; [rewrite !skipn_nil; reflexivity|].
  destruct b as [|b]; [reflexivity|]. cbn [skipn Nat.add]. apply IH.
Qed.
Lemma samps_nth V : forall size i l, (i < size)%nat -> nth i (samps size V l) 0 = samp1 V (firstn (4 * V) (skipn (4 * V * i) l)).
Proof.
  induction size as [|s IH]; intros i l Hi; [lia|]. destruct i as [|i]; [rewrite Nat.mul_0_r; reflexivity|].
  cbn [samps nth]. rewrite IH by lia. rewrite skipn_skipn'. do 3 f_equal. lia.
Qed.
Lemma moment V (h : Z -> Z) size i m : (i < size)%nat -> (4 * V * size <= m)%nat ->
  sumb m (fun l => h (nth i (samps size V l) 0)) * 2 ^ Z.of_nat (4 * V) = 2 ^ Z.of_nat m * sumb (4 * V) (fun l => h (samp1 V l)).
Proof.
  intros Hi Hm. set (a := (4 * V * i)%nat). set (r := (m - a - 4 * V)%nat). assert (Hr : (m = a + (4 * V + r))%nat) by (unfold r, a; nia).
  set (G := fun _ : list bool => 1). set (F := fun u => h (samp1 V (firstn (4 * V) u))).
  rewrite (sumb_ext m _ (fun l => G (firstn a l) * F (skipn a l))).
  2:{ intros l _. unfold F, G. rewrite samps_nth by auto. fold a. lia. }
  rewrite Hr at 1. rewrite sumb_split. unfold F, G. rewrite sumb_const, (sumb_shift (fun l => h (samp1 V l))).
  rewrite Hr, !Nat2Z.inj_add, !Z.pow_add_r by lia. ring.
Qed.

(** C65: every sample has mean 0 and variance v over all generator outcomes. *)
Lemma C65_moments_lem :
  forall pr size v m i, (1 <= v <= 16)%nat -> (4 * v * size <= m)%nat -> (i < size)%nat ->
    let x bits := match sample_vec_cbd pr size (Z.of_nat v) (words_of bits) with Ok l => nth i l 0 | _ => 0 end in
    sumb m x = 0 /\ sumb m (fun bits => x bits * x bits) = Z.of_nat v * 2 ^ Z.of_nat m.
Proof.
  intros pr size v m i Hv Hm Hi x.
  assert (E : forall l, length l = m -> x l = nth i (samps size v l) 0) by (intros l Hl; unfold x; rewrite sampler_samps by lia; reflexivity).
  assert (P0 : 0 < 2 ^ Z.of_nat (4 * v)) by (apply Z.pow_pos_nonneg; lia).
  split.
  - rewrite (sumb_ext m x (fun l => nth i (samps size v l) 0)) by auto.
    pose proof (moment v (fun y => y) size i m Hi Hm) as M. cbv beta in M. change (fun l => samp1 v l) with (samp1 v) in M. rewrite samp1_mean in M. nia.
  - rewrite (sumb_ext m _ (fun l => (fun y => y * y) (nth i (samps size v l) 0))) by (intros l Hl; cbv beta; rewrite E by auto; reflexivity).
    pose proof (moment v (fun y => y * y) size i m Hi Hm) as M. rewrite samp1_var in M.
    set (p := 2 ^ Z.of_nat (4 * v)) in *. apply (Z.mul_reg_r _ _ p); [lia|]. cbv beta in M |- *. rewrite M. ring.
Qed.

(*EXAMPLE
(** Two samples of variance 1 over the 256 outcomes of 8 bits. *)
Example C65_example :
  map (fun x => countb 8 (fun bits => returns (sample_vec_cbd Debug 2 1 (words_of bits)) [x; 1])) [-3; -2; -1; 0; 1; 2]
  = [0; 4; 16; 24; 16; 4].
Proof. vm_compute. reflexivity. Qed.
EXAMPLE*)
