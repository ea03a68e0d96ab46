(** Claim C79: how likely [primitive_root] finds no root. *)
From Verif Require Import PBase NT Spec SpecProb SpecRand PSum MModulus MUtils MNtt MRq MRand MChaCha SpecChaCha SpecRoot PModulus PUtils PUtils2 PNttMath PNtt PNttNew QNtt QProb QRand QChaCha.

(** ** Lagrange: a monic polynomial of degree d has at most d roots modulo p. *)
Fixpoint mono (l : list Z) (x : Z) : Z := match l with [] => 1 | a :: l' => a + x * mono l' x end.
Fixpoint quo (l : list Z) (r : Z) : list Z := match l with [] => [] | _ :: l' => mono l r :: quo l' r end.

Lemma quo_length l r : length (quo l r) = length l.
Proof. induction l as [|a l IH]; cbn [quo length]; auto. Qed.
Lemma mono_diff l r x : forall a, mono (a :: l) x - mono (a :: l) r = (x - r) * mono (quo l r) x.
Proof.
  induction l as [|b l IH]; intros a; [cbn [mono quo]; ring|]. specialize (IH b). cbn [quo]. set (b1 := mono (b :: l) x) in *. set (b2 := mono (b :: l) r) in *.
  change (mono (a :: b :: l) x) with (a + x * b1). change (mono (a :: b :: l) r) with (a + r * b2). change (mono (b2 :: quo l r) x) with (b2 + x * mono (quo l r) x).
  replace ((x - r) * (b2 + x * mono (quo l r) x)) with ((x - r) * b2 + x * ((x - r) * mono (quo l r) x)) by ring. rewrite <- IH. ring.
Qed.
Lemma mono_roots p : prime p -> forall n l rs, length l = n -> NoDup rs -> (forall x, In x rs -> 0 <= x < p /\ eqm p (mono l x) 0) -> (length rs <= n)%nat.
Proof.
  intros Hp. pose proof (prime_ge_2 p Hp) as P2. induction n as [|n IH]; intros l rs Hl ND HR.
  - destruct l; [|discriminate]. destruct rs as [|r rs]; [cbn; lia|]. destruct (HR r (or_introl eq_refl)) as [_ E]. cbn [mono] in E. apply eqm_small in E; lia.
  - destruct l as [|a l]; [discriminate|]. destruct rs as [|r rs]; [cbn; lia|]. inversion ND as [|? ? NI ND']; subst. cbn [length]. apply le_n_S.
    cbn [length] in Hl. apply (IH (quo l r) rs); [rewrite quo_length; lia|exact ND'|].
    intros x Hx. destruct (HR x (or_intror Hx)) as [Rx Ex]. destruct (HR r (or_introl eq_refl)) as [Rr Er]. split; [exact Rx|].
    assert (E : eqm p ((x - r) * mono (quo l r) x) 0).
    { rewrite <- (mono_diff l r x a). eapply eqm_trans; [apply eqm_sub; [exact Ex|exact Er]|]. reflexivity. }
    apply prime_mul_zero in E; auto. destruct E as [E|E]; [|exact E]. exfalso.
    assert (x = r). { apply (eqm_small p); auto. replace x with ((x - r) + r) by ring. eapply eqm_trans; [apply eqm_add; [exact E|apply eqm_refl]|]. reflexivity. }
    subst. auto.
Qed.
Lemma mono_zeros k x : mono (repeat 0 k) x = x ^ Z.of_nat k.
Proof. induction k as [|k IH]; [reflexivity|]. cbn [repeat mono]. rewrite IH, Nat2Z.inj_succ, Z.pow_succ_r by lia. ring. Qed.
(** At most h residues have a given h-th power. *)
Lemma power_roots p h c rs : prime p -> 0 < h -> NoDup rs -> (forall x, In x rs -> 0 <= x < p /\ x ^ h mod p = c mod p) -> Z.of_nat (length rs) <= h.
Proof.
  intros Hp Hh ND HR. pose proof (prime_ge_2 p Hp).
  assert (L : (length rs <= Z.to_nat h)%nat); [|lia].
  apply (mono_roots p Hp (Z.to_nat h) (- c :: repeat 0 (Z.to_nat h - 1)) rs); auto.
  - cbn [length]. rewrite repeat_length. lia.
  - intros x Hx. destruct (HR x Hx) as [R E]. split; [exact R|]. cbn [mono]. rewrite mono_zeros.
    replace (x * x ^ Z.of_nat (Z.to_nat h - 1)) with (x ^ h).
    + unfold eqm in *. rewrite Z.add_comm. replace 0 with (c + - c) at 1 by ring. apply eqm_add; [exact E|reflexivity].
    + rewrite <- Z.pow_succ_r by lia. f_equal. lia.
Qed.

Lemma filter_two {A} (f g : A -> bool) l : (forall x, In x l -> f x = negb (g x)) -> (length (filter f l) + length (filter g l) = length l)%nat.
Proof.
  induction l as [|x l IH]; intros H; [reflexivity|]. specialize (IH (fun y Hy => H y (or_intror Hy))). cbn [filter length]. rewrite (H x (or_introl eq_refl)).
  destruct (g x); cbn [negb length]; lia.
Qed.

Lemma half_count p : prime p -> p mod 2 = 1 ->
  Z.of_nat (length (filter (fun x => x ^ ((p - 1) / 2) mod p =? p - 1) (residues p))) = (p - 1) / 2.
Proof.
  intros Hp Odd. pose proof (prime_ge_2 p Hp) as P2. set (h := (p - 1) / 2).
  assert (EH : p - 1 = 2 * h) by (unfold h; Z.to_euclidean_division_equations; lia).
  assert (Hh : 0 < h) by lia.
  set (f := fun x => x ^ h mod p =? p - 1). set (g := fun x => x ^ h mod p =? 1).
  assert (T : (length (filter f (residues p)) + length (filter g (residues p)) = length (residues p))%nat).
  { apply filter_two. intros x Hx. apply residues_In in Hx. unfold f, g.
    assert (NZ : ~ (p | x)) by (intros D; apply Z.divide_pos_le in D; lia).
    pose proof (fermat p x Hp NZ) as F. rewrite EH, Z.mul_comm, Z.pow_mul_r in F by lia.
    set (y := x ^ h) in *. assert (Z0 : eqm p ((y - 1) * (y + 1)) 0).
    { replace ((y - 1) * (y + 1)) with (y ^ 2 - 1) by ring. eapply eqm_trans; [apply eqm_sub; [exact F|apply eqm_refl]|]. reflexivity. }
    apply prime_mul_zero in Z0; auto. destruct Z0 as [Z0|Z0].
    - assert (E : y mod p = 1). { replace y with ((y - 1) + 1) by ring. transitivity (1 mod p); [|apply Z.mod_small; lia]. apply (eqm_add p (y - 1) 0 1 1 Z0 (eqm_refl p 1)). }
      rewrite E. destruct (Z.eqb_spec 1 (p - 1)); [lia|]. rewrite Z.eqb_refl. reflexivity.
    - assert (E : y mod p = p - 1). { replace y with ((y + 1) + (-1)) by ring. transitivity ((-1) mod p); [|symmetry; apply Z.mod_unique with (-1); lia]. apply (eqm_add p (y + 1) 0 (-1) (-1) Z0 (eqm_refl p (-1))). }
      rewrite E, Z.eqb_refl. destruct (Z.eqb_spec (p - 1) 1); [lia|reflexivity]. }
  apply (f_equal Z.of_nat) in T. rewrite Nat2Z.inj_add, residues_length, EH in T by lia.
  assert (B1 : Z.of_nat (length (filter f (residues p))) <= h).
  { apply (power_roots p h (p - 1)); auto; [apply NoDup_filter, residues_NoDup|]. intros x Hx. apply filter_In in Hx. destruct Hx as [Hx E]. apply residues_In in Hx.
    unfold f in E. apply Z.eqb_eq in E. rewrite E, Z.mod_small by lia. lia. }
  assert (B2 : Z.of_nat (length (filter g (residues p))) <= h).
  { apply (power_roots p h 1); auto; [apply NoDup_filter, residues_NoDup|]. intros x Hx. apply filter_In in Hx. destruct Hx as [Hx E]. apply residues_In in Hx.
    unfold g in E. apply Z.eqb_eq in E. rewrite E, Z.mod_small by lia. lia. }
  fold f. lia.
Qed.

(** C79: exactly half of the nonzero residues give a root: the values x below p
    with x^((p-1)/2) = -1 are (p-1)/2 in number. *)
Lemma C79_half_lem :
  forall p, prime p -> p mod 2 = 1 -> exists l, NoDup l /\ Z.of_nat (length l) = (p - 1) / 2
    /\ forall x, In x l <-> 0 <= x < p /\ x ^ ((p - 1) / 2) mod p = p - 1.
Proof.
  intros p Hp Odd. pose proof (prime_ge_2 p Hp). exists (filter (fun x => x ^ ((p - 1) / 2) mod p =? p - 1) (residues p)).
  split; [apply NoDup_filter, residues_NoDup|]. split; [apply half_count; auto|]. intros x. rewrite filter_In, residues_In, Z.eqb_eq.
  split; intros [A B]; split; auto; try lia. destruct (Z.eq_dec x 0) as [->|]; [|lia]. exfalso.
  rewrite Z.pow_0_l, Z.mod_0_l in B; [lia|lia|]. Z.to_euclidean_division_equations. lia.
Qed.

(** ** Counting words *)
Lemma pred_count_m m cp (B : Z -> bool) : Z.of_nat m = 64 -> cp_ok cp ->
  countb m (fun l => accb cp (bits_num l) && B (bits_num l * snd cp / W64))
  = fst cp * sumn (Z.to_nat (snd cp)) (fun x => if B (Z.of_nat x) then 1 else 0).
Proof.
  intros Hm O. pose proof O as [Hc [Hp HZ]].
  transitivity (sumb m (fun l => sumn (Z.to_nat (snd cp)) (fun x => (if B (Z.of_nat x) then 1 else 0) * (if hitb cp (Z.of_nat x) (bits_num l) then 1 else 0)))).
  - unfold countb. apply sumb_ext. intros l Hl. pose proof (bits_num_range l) as R. rewrite Hl, Hm in R. change (2 ^ 64) with W64 in R.
    pose proof (sample_value (snd cp) _ Hp R) as SV. unfold hitb. set (y := bits_num l * snd cp / W64) in *. clearbody y.
    rewrite (sumn_single _ (Z.to_nat y)) by (try lia; intros i Hi Ne; replace (y =? Z.of_nat i) with false by lia; rewrite andb_false_r; lia).
    rewrite Z2Nat.id, Z.eqb_refl, andb_true_r by lia. destruct (accb cp (bits_num l)), (B y); reflexivity.
  - rewrite (sumb_sumn m (Z.to_nat (snd cp)) (fun l x => (if B (Z.of_nat x) then 1 else 0) * (if hitb cp (Z.of_nat x) (bits_num l) then 1 else 0))).
    rewrite <- sumn_mul_l. apply sumn_ext. intros i Hi.
    rewrite sumb_mul. change (sumb m (fun l => if hitb cp (Z.of_nat i) (bits_num l) then 1 else 0)) with (countb m (fun l => hitb cp (Z.of_nat i) (bits_num l))).
    rewrite (hit_count_m m cp) by (auto; lia). ring.
Qed.
Lemma pred_count cp B : cp_ok cp -> countb 64 (fun l => accb cp (bits_num l) && B (bits_num l * snd cp / W64)) = fst cp * sumn (Z.to_nat (snd cp)) (fun x => if B (Z.of_nat x) then 1 else 0).
Proof. apply (pred_count_m 64). reflexivity. Qed.
Local Opaque sumb.

Lemma gcount_pred N cp cps B : cp_ok cp ->
  gcount (S N) (cp :: cps) (forallb B)
  = fst cp * sumn (Z.to_nat (snd cp)) (fun x => if B (Z.of_nat x) then 1 else 0) * gcount N cps (forallb B)
    + (2 ^ 64 - fst cp * snd cp) * gcount N (cp :: cps) (forallb B).
Proof.
  intros O. unfold gcount. unfold countb at 1.
  set (H := fun l : list bool => if accb cp (bits_num l) && B (bits_num l * snd cp / W64) then 1 else 0). set (R := fun l : list bool => if negb (accb cp (bits_num l)) then 1 else 0).
  set (g1 := fun l => if gives (draws cps (words N l)) (forallb B) then 1 else 0).
  set (g2 := fun l => if gives (draws (cp :: cps) (words N l)) (forallb B) then 1 else 0).
  replace (64 * S N)%nat with (64 + 64 * N)%nat by lia.
  rewrite (sumb_ext _ _ (fun l => H (firstn 64 l) * g1 (skipn 64 l) + R (firstn 64 l) * g2 (skipn 64 l))).
  - rewrite sumb_add, !sumb_split. rewrite <- (rej_count cp O). rewrite <- (pred_count cp B O) at 1. reflexivity.
  - intros l _. rewrite words_S, draws_cons. unfold H, R, g1, g2. set (v := bits_num (firstn 64 l)). set (ws := words N (skipn 64 l)).
    destruct (accb cp v); cbn [negb andb]; [|lia]. destruct (draws cps ws) as [[ys w2]| | |]; cbn [bind gives forallb]; destruct (B _); cbn [andb]; try lia; destruct (forallb B ys); lia.
Qed.

Lemma gcount_all N : forall cp s B, cp_ok cp -> 
  gcount N (repeat cp s) (forallb B) * snd cp ^ Z.of_nat s
  = sumn (Z.to_nat (snd cp)) (fun x => if B (Z.of_nat x) then 1 else 0) ^ Z.of_nat s * gcount N (repeat cp s) (fun _ => true).
Proof.
  induction N as [|N IH]; intros cp s B O.
  - rewrite !gcount_0. destruct s as [|s]; [cbn; lia|]. cbn [repeat draws uniform_sample bind gives]. lia.
  - destruct s as [|s].
    + cbn [repeat]. unfold gcount. cbn [draws gives forallb]. change (Z.of_nat 0) with 0. rewrite !Z.pow_0_r. lia.
    + cbn [repeat]. rewrite gcount_pred, gcount_any by auto. pose proof (IH cp s B O) as I1. pose proof (IH cp (S s) B O) as I2. cbn [repeat] in I2.
      rewrite Nat2Z.inj_succ, !Z.pow_succ_r in * by lia.
      set (b := sumn _ _) in *. set (q := snd cp) in *. set (c := fst cp) in *. set (A1 := gcount N (repeat cp s) (forallb B)) in *. set (A2 := gcount N (cp :: repeat cp s) (forallb B)) in *.
      set (T1 := gcount N (repeat cp s) (fun _ => true)) in *. set (T2 := gcount N (cp :: repeat cp s) (fun _ => true)) in *. set (qs := q ^ Z.of_nat s) in *. set (bs := b ^ Z.of_nat s) in *.
      replace ((c * b * A1 + (2 ^ 64 - c * q) * A2) * (q * qs)) with (c * b * q * (A1 * qs) + (2 ^ 64 - c * q) * (A2 * (q * qs))) by ring.
      rewrite I1, I2. ring.
Qed.

(** ** The draws of [primitive_root] *)
Lemma gen_range_sample p : 0 < p < 2 ^ 62 -> exists c, cp_ok (c, p) /\ forall ws, gen_range p ws = uniform_sample (c * p - 1) p ws.
Proof.
  intros Hp. set (k := leading_zeros 64 p). 
  assert (E : 0 <= k /\ 2 ^ 63 <= 2 ^ k * p < 2 ^ 64).
  { pose proof (Z.log2_spec p ltac:(lia)) as [L1 L2]. pose proof (Z.log2_nonneg p) as L0. assert (L3 : Z.log2 p < 62) by (apply Z.log2_lt_pow2; lia).
    set (g := Z.log2 p) in *. assert (LZ : k = 63 - g).
    { pose proof (lz_eq p (g + 1) ltac:(lia) ltac:(lia)) as Q. replace (64 - (g + 1)) with (63 - g) in Q by lia. unfold k. apply Z.eqb_eq. rewrite Q. apply andb_true_iff. rewrite Z.leb_le, Z.ltb_lt.
      replace (g + 1 - 1) with g by lia. replace (g + 1) with (Z.succ g) by lia. lia. }
    rewrite LZ. split; [lia|]. assert (P : 0 < 2 ^ (63 - g)) by (apply Z.pow_pos_nonneg; lia).
    assert (E1 : 2 ^ 63 = 2 ^ (63 - g) * 2 ^ g) by (rewrite <- Z.pow_add_r by lia; f_equal; lia).
    assert (E2 : 2 ^ 64 = 2 ^ (63 - g) * 2 ^ Z.succ g) by (rewrite <- Z.pow_add_r by lia; f_equal; lia). rewrite E1, E2. nia. }
  destruct E as [K0 K1]. exists (2 ^ k). assert (1 <= 2 ^ k) by (pose proof (Z.pow_pos_nonneg 2 k ltac:(lia) K0); lia).
  split; [unfold cp_ok; cbn [fst snd]; change W64 with (2 ^ 64); lia|]. intros ws.
  unfold gen_range, gen_range_zone. rewrite rassert_true by lia. cbn [bind]. fold k. rewrite Z.shiftl_mul_pow2 by lia. rewrite (Z.mul_comm p), Z.mod_small by (change W64 with (2 ^ 64); lia). reflexivity.
Qed.

Lemma kth_draws p c : (forall ws, gen_range p ws = uniform_sample (c * p - 1) p ws) -> forall k ws,
  kth_draw p k ws = ('(xs, _) <- draws (repeat (c, p) (S k)) ws ;; Ok (nth k xs 0)).
Proof.
  intros G. induction k as [|k IH]; intros ws; cbn [kth_draw]; rewrite G.
  - cbn [repeat draws fst snd]. destruct (uniform_sample _ p ws) as [[x w]| | |]; reflexivity.
  - change (repeat (c, p) (S (S k))) with ((c, p) :: repeat (c, p) (S k)). cbn [draws fst snd].
    destruct (uniform_sample _ p ws) as [[x w]| | |]; cbn [bind]; try reflexivity. rewrite IH.
    destruct (draws (repeat (c, p) (S k)) w) as [[xs w2]| | |]; reflexivity.
Qed.
Lemma draws_length cps : forall ws xs w, draws cps ws = Ok (xs, w) -> length xs = length cps.
Proof.
  induction cps as [|cp cps IH]; intros ws xs w H; cbn [draws] in H; [injection H as <- <-; reflexivity|].
  destruct (uniform_sample _ _ ws) as [[x w1]| | |]; cbn [bind] in H; try discriminate. destruct (draws cps w1) as [[ys w2]| | |] eqn:E; cbn [bind] in H; try discriminate.
  injection H as <- <-. cbn [length]. f_equal. eapply IH; eauto.
Qed.
Lemma draws_prefix cp : forall k s ws xs w, (k < s)%nat -> draws (repeat cp s) ws = Ok (xs, w) -> exists w', draws (repeat cp (S k)) ws = Ok (firstn (S k) xs, w').
Proof.
  intros k s ws xs w Hk H. replace s with (S k + (s - S k))%nat in H by lia. rewrite repeat_app, draws_app in H.
  destruct (draws (repeat cp (S k)) ws) as [[ys w1]| | |] eqn:E; cbn [bind] in H; try discriminate.
  destruct (draws (repeat cp (s - S k)) w1) as [[zs w2]| | |]; cbn [bind] in H; try discriminate. injection H as <- <-.
  exists w1. pose proof (draws_length _ _ _ _ E) as LY. rewrite repeat_length in LY. rewrite <- LY, firstn_app, Nat.sub_diag, firstn_all, firstn_O, app_nil_r. reflexivity.
Qed.

Lemma forallb_nth {A} (f : A -> bool) l d : forallb f l = true <-> forall k, (k < length l)%nat -> f (nth k l d) = true.
Proof.
  rewrite forallb_forall. split.
  - intros H k Hk. apply H. apply nth_In. auto.
  - intros H x Hx. apply (In_nth _ _ d) in Hx. destruct Hx as [k [Hk <-]]. auto.
Qed.
Lemma sumn_filter n (f : Z -> bool) : sumn n (fun x => if f (Z.of_nat x) then 1 else 0) = Z.of_nat (length (filter f (map Z.of_nat (seq 0 n)))).
Proof.
  induction n as [|n IH]; [reflexivity|]. cbn [sumn]. rewrite seq_S, map_app, filter_app, app_length, Nat2Z.inj_add, <- IH. cbn [Nat.add map filter].
  destruct (f (Z.of_nat n)); reflexivity.
Qed.

Lemma bad_count p : prime p -> p mod 2 = 1 -> let B := fun x => negb (x ^ ((p - 1) / 2) mod p =? p - 1) in
  2 * sumn (Z.to_nat p) (fun x => if B (Z.of_nat x) then 1 else 0) = p + 1.
Proof.
  intros Hp Odd B. pose proof (prime_ge_2 p Hp) as P2. rewrite sumn_filter. pose proof (half_count p Hp Odd) as HC.
  replace (Z.to_nat p) with (S (Z.to_nat (p - 1))) by lia. cbn [seq map filter].
  assert (B0 : B (Z.of_nat 0) = true).
  { unfold B. change (Z.of_nat 0) with 0. rewrite Z.pow_0_l, Z.mod_0_l by (try lia; clear - P2 Odd; Z.to_euclidean_division_equations; lia). destruct (Z.eqb_spec 0 (p - 1)); [lia|reflexivity]. }
  rewrite B0. cbn [length]. fold (residues p).
  pose proof (filter_two B (fun x => x ^ ((p - 1) / 2) mod p =? p - 1) (residues p) (fun x _ => eq_refl)) as T. apply (f_equal Z.of_nat) in T.
  rewrite Nat2Z.inj_add, residues_length, HC in T by lia. rewrite Nat2Z.inj_succ. set (k := length _) in *. clearbody k. clear - T P2 Odd. Z.to_euclidean_division_equations. lia.
Qed.

(** C79: of the generator outcomes that are long enough for 100 draws, the
    fraction exactly ((p+1)/(2p))^100 makes [NttOperator::new] panic. *)
Lemma C79_failure_lem :
  forall pr ip p m L N, modulus_new p = Ok m -> prime p -> ip p = true -> p < 2 ^ 62 -> (3 <= L)%nat -> p mod (2 * 2 ^ Z.of_nat L) = 1 ->
    countb (64 * N) (fun bits => completes p (words N bits) && panics (ntt_new pr (word_env ip (words N bits)) m (2 ^ L))) * (2 * p) ^ 100
    = (p + 1) ^ 100 * countb (64 * N) (fun bits => completes p (words N bits))
    /\ (0 < countb (64 * N) (fun bits => completes p (words N bits)) <-> (100 <= N)%nat).
Proof.
  intros pr ip p m L N HM Hp HI HB HL H1. pose proof (prime_ge_2 p Hp) as P2.
  destruct (gen_range_sample p ltac:(lia)) as [c [O G]]. set (cp := (c, p)).
  set (B := fun x => negb (x ^ ((p - 1) / 2) mod p =? p - 1)).
  assert (E1 : countb (64 * N) (fun bits => completes p (words N bits)) = gcount N (repeat cp 100) (fun _ => true)).
  { unfold gcount, countb. apply sumb_ext. intros l _. unfold completes. rewrite (kth_draws p c G). fold cp. change (S 99) with 100%nat.
    destruct (draws (repeat cp 100) (words N l)) as [[xs w]| | |]; reflexivity. }
  assert (Odd : p mod 2 = 1).
  { pose proof (Z.div_mod p (2 * 2 ^ Z.of_nat L) ltac:(pose proof (Z.pow_pos_nonneg 2 (Z.of_nat L) ltac:(lia) ltac:(lia)); lia)) as D. rewrite H1 in D.
    set (q := p / _) in D. rewrite D. replace (2 * 2 ^ Z.of_nat L * q + 1) with (1 + (2 ^ Z.of_nat L * q) * 2) by ring. rewrite Z.mod_add by lia. reflexivity. }
  assert (E2 : countb (64 * N) (fun bits => completes p (words N bits) && panics (ntt_new pr (word_env ip (words N bits)) m (2 ^ L))) = gcount N (repeat cp 100) (forallb B)).
  { unfold gcount, countb. apply sumb_ext. intros l _. set (ws := words N l). unfold completes. rewrite (kth_draws p c G). fold cp. change (S 99) with 100%nat.
    destruct (draws (repeat cp 100) ws) as [[xs w]| | |] eqn:ED; try reflexivity. cbn [bind andb gives].
    assert (LX : length xs = 100%nat) by (rewrite (draws_length _ _ _ _ ED); apply repeat_length).
    set (env := word_env ip ws).
    assert (DK : forall k, (k < 100)%nat -> draw env p k = nth k xs 0).
    { intros k Hk. unfold env, word_env. cbn [draw]. rewrite (kth_draws p c G). fold cp. destruct (draws_prefix cp k 100 ws xs w Hk ED) as [w' E]. rewrite E. cbn [bind].
      rewrite <- (firstn_skipn (S k) xs) at 2. rewrite app_nth1; [reflexivity|]. rewrite firstn_length_le; lia. }
    assert (RG : forall k, 0 <= draw env p k < p).
    { intros k. unfold env, word_env. cbn [draw]. destruct (kth_range p ltac:(lia) k ws (words_all N l)) as [[x [E R]]|E]; rewrite E; [exact R|lia]. }
    destruct (C11_construct_lem pr env p m L HM Hp HI HB HL H1 RG) as [C1 C2].
    destruct (forallb B xs) eqn:FB.
    - rewrite C2; [reflexivity|]. intros k Hk. rewrite DK by auto. rewrite (forallb_nth B xs 0) in FB. specialize (FB k ltac:(lia)). unfold B in FB. apply Bool.negb_true_iff, Z.eqb_neq in FB. exact FB.
    - destruct C1 as [op [EO _]].
      + assert (NE : exists x, In x xs /\ B x = false).
        { clear - FB. induction xs as [|x xs IH]; [discriminate|]. cbn [forallb] in FB. destruct (B x) eqn:E; [destruct (IH FB) as [y [I F]]; exists y; split; [right; auto|auto]|exists x; split; [left; auto|auto]]. }
        destruct NE as [x [Hx Fx]]. apply (In_nth _ _ 0) in Hx. destruct Hx as [k [Hk <-]]. exists k. split; [lia|]. rewrite DK by lia. unfold B in Fx. apply Bool.negb_false_iff, Z.eqb_eq in Fx. exact Fx.
      + rewrite EO. reflexivity. }
  rewrite E1, E2. split.
  - pose proof (gcount_all N cp 100 B O) as GA. cbn [snd cp] in GA. unfold cp in GA at 2. cbn [snd] in GA. change (Z.of_nat 100) with 100 in GA.
    pose proof (bad_count p Hp Odd) as BC. cbv beta zeta in BC. fold B in BC.
    rewrite Z.pow_mul_l. rewrite <- BC, Z.pow_mul_l.
    set (b := sumn _ _) in *. clearbody b. set (X := gcount N _ (forallb B)) in *. set (Y := gcount N _ (fun _ => true)) in *. clearbody X Y.
    generalize dependent (p ^ 100). generalize (2 ^ 100). generalize (b ^ 100). clear. intros b2 t p2 E. replace (X * (t * p2)) with (t * (X * p2)) by ring. rewrite E. ring.
  - assert (FO : Forall cp_ok (repeat cp 100)) by (apply Forall_forall; intros y Hy; apply repeat_spec in Hy; subst; exact O).
    split; intros HH.
    + destruct (Nat.lt_ge_cases N 100) as [Hlt|]; [|assumption]. rewrite gcount_zero in HH; [lia|rewrite repeat_length; exact Hlt|exact FO].
    + apply gcount_pos; [exact FO|rewrite repeat_length; exact HH].
Qed.
(*EXAMPLE
(* modulo 17 the eight non-residues; a generator that keeps giving 0 fails, one that gives 3 finds the root *)
Example C79_failure_ex :
  filter (fun x => x ^ 8 mod 17 =? 16) (map Z.of_nat (seq 0 17)) = [3; 5; 6; 7; 10; 11; 12; 14]
  /\ completes 17 (repeat 0 100) = true /\ panics (m <- modulus_new 17 ;; ntt_new Debug (word_env (fun _ => true) (repeat 0 100)) m 8) = true
  /\ panics (m <- modulus_new 17 ;; ntt_new Debug (word_env (fun _ => true) (repeat 0 99 ++ [3255307777713450286])) m 8) = false.
Proof. vm_compute. repeat split. Qed.
EXAMPLE*)

Lemma bernoulli p : 0 < p -> forall n : nat, (p + 1) ^ Z.of_nat n * (p + 1 - Z.of_nat n) <= p ^ Z.of_nat n * (p + 1).
Proof.
  intros Hp. induction n as [|n IH]; [change (Z.of_nat 0) with 0; rewrite !Z.pow_0_r; lia|].
  rewrite Nat2Z.inj_succ, !Z.pow_succ_r by lia. assert (0 < (p + 1) ^ Z.of_nat n) by (apply Z.pow_pos_nonneg; lia). assert (0 < p ^ Z.of_nat n) by (apply Z.pow_pos_nonneg; lia).
  set (a := (p + 1) ^ Z.of_nat n) in *. set (b := p ^ Z.of_nat n) in *. clearbody a b. set (k := Z.of_nat n) in *. assert (0 <= k) by lia. clearbody k. clear n.
  assert (p * (a * (p + 1 - k)) <= p * (b * (p + 1))) by (apply Z.mul_le_mono_nonneg_l; lia).
  assert (0 <= k * a) by nia. nia.
Qed.
(** C79: for a modulus of at least 200 that fraction is at most 2^-99. *)
Lemma C79_bound_lem :
  forall pr ip p m L N, modulus_new p = Ok m -> prime p -> ip p = true -> 200 <= p < 2 ^ 62 -> (3 <= L)%nat -> p mod (2 * 2 ^ Z.of_nat L) = 1 ->
    countb (64 * N) (fun bits => completes p (words N bits) && panics (ntt_new pr (word_env ip (words N bits)) m (2 ^ L))) * 2 ^ 99
    <= countb (64 * N) (fun bits => completes p (words N bits)).
Proof.
  intros pr ip p m L N HM Hp HI HB HL H1. destruct (C79_failure_lem pr ip p m L N HM Hp HI ltac:(lia) HL H1) as [E _].
  pose proof (countb_nonneg (64 * N) (fun bits => completes p (words N bits))) as HY.
  revert E HY. generalize (countb (64 * N) (fun bits => completes p (words N bits))). generalize (countb (64 * N) (fun bits => completes p (words N bits) && panics (ntt_new pr (word_env ip (words N bits)) m (2 ^ L)))). intros X Y E HY.
  pose proof (bernoulli p ltac:(lia) 100) as BE. change (Z.of_nat 100) with 100 in BE.
  assert (P1 : 0 < p ^ 100) by (apply Z.pow_pos_nonneg; lia). assert (P0 : 0 < (p + 1) ^ 100) by (apply Z.pow_pos_nonneg; lia).
  rewrite Z.pow_mul_l in E. replace (2 ^ 100) with (2 * 2 ^ 99) in E by reflexivity. assert (P99 : 0 < 2 ^ 99) by (apply Z.pow_pos_nonneg; discriminate || reflexivity).
  generalize dependent (2 ^ 99). generalize dependent ((p + 1) ^ 100). generalize dependent (p ^ 100). clear - HB HY.
  intros b Pb a BE Pa t E Pt. assert (A2 : a <= 2 * b) by nia. 
  assert (X * t * (2 * b) <= Y * (2 * b)) by nia. nia.
Qed.
(*EXAMPLE
Example C79_bound_ex : (257 + 1) ^ 100 * 2 ^ 99 <= (2 * 257) ^ 100 /\ 257 mod 16 = 1.
Proof. split; [apply Z.leb_le; reflexivity|reflexivity]. Qed.
EXAMPLE*)
