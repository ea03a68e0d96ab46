(** Claim C74: uniform sampling (src/modulus.rs:244-252, src/rq.rs:460-476). *)
From Verif Require Import PBase NT Spec SpecProb SpecRand PSum MModulus MUtils MNtt MRns MRq MRand PModulus PUtils PUtils2 PRns SpecRq PRq PRq2 TestEnv QProb QRq.

(** A zone of c*p words, and what one word gives. *)
Lemma word_interval c p v x : 1 <= c -> 0 < p -> c * p <= W64 -> 0 <= v < W64 -> 0 <= x < p ->
  (as64 (v * p) <= c * p - 1 /\ v * p / W64 = x) <-> ((x * W64 + p - 1) / p <= v < (x * W64 + p - 1) / p + c).
Proof.
  intros Hc Hp HZ Hv Hx. unfold as64. set (a := (x * W64 + p - 1) / p).
  pose proof (Z.div_mod (x * W64 + p - 1) p ltac:(lia)) as D. fold a in D. pose proof (Z.mod_pos_bound (x * W64 + p - 1) p Hp) as B.
  set (r := (x * W64 + p - 1) mod p) in *. clearbody a r.
  pose proof (Z.div_mod (v * p) W64 ltac:(lia)) as D2. pose proof (Z.mod_pos_bound (v * p) W64 ltac:(lia)) as B2.
  set (s := (v * p) mod W64) in *. set (y := v * p / W64) in *. clearbody s y.
  split.
  - intros [H1 H2]. subst y. split; nia.
  - intros [H1 H2]. assert (LO : x * W64 <= v * p) by nia. assert (HI : v * p < x * W64 + c * p) by nia.
    assert (y = x) by nia. subst y. nia.
Qed.
Lemma sample_value p v : 0 < p -> 0 <= v < W64 -> 0 <= v * p / W64 < p.
Proof. intros Hp Hv. split; [apply Z.div_pos; nia|apply Z.div_lt_upper_bound; nia]. Qed.

Lemma uniform_zone_ok p : 0 < p < 2 ^ 62 -> uniform_zone p = Ok (2 ^ 64 / p * p - 1).
Proof.
  intros Hp. change (2 ^ 62) with 4611686018427387904 in Hp. unfold uniform_zone. rewrite rassert_true by lia. cbn [bind]. f_equal. change (2 ^ 64) with W64.
  replace (W64 - 1 - p + 1) with (W64 + (-1) * p) by ring. rewrite Z.mod_add by lia. pose proof (Z.div_mod W64 p ltac:(lia)). lia.
Qed.
Lemma zone_c p : 0 < p < 2 ^ 62 -> 1 <= 2 ^ 64 / p /\ 2 ^ 64 / p * p <= W64.
Proof.
  intros Hp. change (2 ^ 62) with 4611686018427387904 in Hp. change (2 ^ 64) with W64. pose proof (Z.mul_div_le W64 p ltac:(lia)).
  split; [apply Z.div_le_lower_bound; lia|lia].
Qed.

(** Counting. *)
Lemma count_interval m : forall a b, 0 <= a -> a <= b -> b <= 2 ^ Z.of_nat m ->
  countb m (fun l => (a <=? bits_num l) && (bits_num l <? b)) = b - a.
Proof.
  unfold countb. induction m as [|m IH]; intros a b Ha Hab Hb.
  - change (2 ^ Z.of_nat 0) with 1 in Hb. cbn [sumb bits_num]. destruct (Z.leb_spec a 0), (Z.ltb_spec 0 b); cbn [andb]; lia.
  - rewrite Nat2Z.inj_succ, Z.pow_succ_r in Hb by lia. cbn [sumb].
    rewrite (sumb_ext m _ (fun l => if ((a + 1) / 2 <=? bits_num l) && (bits_num l <? (b + 1) / 2) then 1 else 0)).
    2:{ intros l _. cbn [bits_num Z.b2z]. replace (a <=? 0 + 2 * bits_num l) with ((a + 1) / 2 <=? bits_num l); [replace (0 + 2 * bits_num l <? b) with (bits_num l <? (b + 1) / 2); [reflexivity|]|].
        - apply eq_true_iff_eq. rewrite !Z.ltb_lt. Z.to_euclidean_division_equations. lia.
        - apply eq_true_iff_eq. rewrite !Z.leb_le. Z.to_euclidean_division_equations. lia. }
    rewrite (sumb_ext m (fun l => if (a <=? bits_num (true :: l)) && _ then 1 else 0) (fun l => if (a / 2 <=? bits_num l) && (bits_num l <? b / 2) then 1 else 0)).
    2:{ intros l _. cbn [bits_num Z.b2z]. replace (a <=? 1 + 2 * bits_num l) with (a / 2 <=? bits_num l); [replace (1 + 2 * bits_num l <? b) with (bits_num l <? b / 2); [reflexivity|]|].
        - apply eq_true_iff_eq. rewrite !Z.ltb_lt. Z.to_euclidean_division_equations. lia.
        - apply eq_true_iff_eq. rewrite !Z.leb_le. Z.to_euclidean_division_equations. lia. }
    rewrite !IH; Z.to_euclidean_division_equations; lia.
Qed.

(** Sampling from a list of ranges; each comes with the number c of words that
    give each value. *)
Fixpoint draws (cps : list (Z * Z)) (ws : list Z) : outcome (list Z * list Z) :=
  match cps with
  | [] => Ok ([], ws)
  | cp :: cps' =>
      '(x, ws1) <- uniform_sample (fst cp * snd cp - 1) (snd cp) ws ;;
      '(xs, ws2) <- draws cps' ws1 ;;
      Ok (x :: xs, ws2)
  end.
Definition cp_ok (cp : Z * Z) : Prop := 1 <= fst cp /\ 0 < snd cp /\ fst cp * snd cp <= W64.

Lemma words_S N bits : words (S N) bits = bits_num (firstn 64 bits) :: words N (skipn 64 bits).
Proof.
  unfold words. cbn [seq map]. f_equal. rewrite <- seq_shift, map_map. apply map_ext. intros i. unfold words_of. f_equal. rewrite skipn_skipn'. do 2 f_equal. lia.
Qed.
Lemma words_length N bits : length (words N bits) = N.
Proof. unfold words. rewrite map_length, seq_length. reflexivity. Qed.
Lemma words_all N bits : Forall (fun w => 0 <= w < 2 ^ 64) (words N bits).
Proof. unfold words. rewrite Forall_map. apply Forall_forall. intros i _. apply words_range. Qed.

(** The number of words accepted, and rejected, by one range. *)
Definition accb (cp : Z * Z) (v : Z) : bool := as64 (v * snd cp) <=? fst cp * snd cp - 1.
Definition hitb (cp : Z * Z) (x v : Z) : bool := accb cp v && (v * snd cp / W64 =? x).
Lemma hit_count_m m cp x : Z.of_nat m = 64 -> cp_ok cp -> 0 <= x < snd cp -> countb m (fun l => hitb cp x (bits_num l)) = fst cp.
Proof.
  intros Hm [Hc [Hp HZ]] Hx. destruct cp as [c p]. cbn [fst snd] in *. set (a := (x * W64 + p - 1) / p).
  assert (A0 : 0 <= a) by (apply Z.div_pos; lia).
  assert (A1 : a + c <= W64).
  { unfold a. pose proof (Z.mul_div_le (x * W64 + p - 1) p Hp). set (q := (x * W64 + p - 1) / p) in *. clearbody q. clear a A0.
    assert ((q + c) * p < (W64 + 1) * p) by nia. nia. }
  transitivity (a + c - a); [|lia]. rewrite <- (count_interval m a (a + c)) by (rewrite ?Hm; change (2 ^ 64) with W64; lia).
  unfold countb. apply sumb_ext. intros l Hl. pose proof (bits_num_range l) as R. rewrite Hl, Hm in R. change (2 ^ 64) with W64 in R.
  unfold hitb, accb. cbn [fst snd]. pose proof (word_interval c p (bits_num l) x Hc Hp HZ R Hx) as I. fold a in I.
  replace ((as64 (bits_num l * p) <=? c * p - 1) && (bits_num l * p / W64 =? x)) with ((a <=? bits_num l) && (bits_num l <? a + c)); [reflexivity|].
  apply eq_true_iff_eq. rewrite !andb_true_iff, !Z.leb_le, Z.ltb_lt, Z.eqb_eq. symmetry. exact I.
Qed.
Lemma sumb_sumn m n : forall F : list bool -> nat -> Z, sumb m (fun l => sumn n (F l)) = sumn n (fun x => sumb m (fun l => F l x)).
Proof.
  intros F. induction n as [|n IH]; cbn [sumn]; [rewrite sumb_const; lia|]. rewrite sumb_add, IH. reflexivity.
Qed.
Lemma acc_count_m m cp : Z.of_nat m = 64 -> cp_ok cp -> countb m (fun l => accb cp (bits_num l)) = fst cp * snd cp.
Proof.
  intros Hm O. pose proof O as [Hc [Hp HZ]].
  transitivity (sumb m (fun l => sumn (Z.to_nat (snd cp)) (fun x => if hitb cp (Z.of_nat x) (bits_num l) then 1 else 0))).
  - unfold countb. apply sumb_ext. intros l Hl. pose proof (bits_num_range l) as R. rewrite Hl, Hm in R. change (2 ^ 64) with W64 in R.
    pose proof (sample_value (snd cp) _ Hp R) as SV. unfold hitb. set (y := bits_num l * snd cp / W64) in *. clearbody y.
    rewrite (sumn_single _ (Z.to_nat y)) by (try lia; intros i Hi Ne; replace (y =? Z.of_nat i) with false by lia; rewrite andb_false_r; reflexivity).
    rewrite Z2Nat.id, Z.eqb_refl, andb_true_r by lia. reflexivity.
  - rewrite sumb_sumn. rewrite (sumn_ext _ _ (fun _ => fst cp)) by (intros i Hi; apply (hit_count_m m cp); auto; lia).
    rewrite sumn_const, Z2Nat.id by lia. ring.
Qed.
Lemma hit_count cp x : cp_ok cp -> 0 <= x < snd cp -> countb 64 (fun l => hitb cp x (bits_num l)) = fst cp.
Proof. apply (hit_count_m 64); reflexivity. Qed.
Lemma acc_count cp : cp_ok cp -> countb 64 (fun l => accb cp (bits_num l)) = fst cp * snd cp.
Proof. apply (acc_count_m 64); reflexivity. Qed.
Lemma count_neg m p : countb m (fun l => negb (p l)) = 2 ^ Z.of_nat m - countb m p.
Proof.
  unfold countb.
  assert (E : sumb m (fun l => (if negb (p l) then 1 else 0) + (if p l then 1 else 0)) = 2 ^ Z.of_nat m).
  { rewrite (sumb_ext m _ (fun _ => 1)) by (intros l _; destruct (p l); reflexivity). rewrite sumb_const. lia. }
  rewrite sumb_add in E. lia.
Qed.
Lemma rej_count cp : cp_ok cp -> countb 64 (fun l => negb (accb cp (bits_num l))) = 2 ^ 64 - fst cp * snd cp.
Proof.
  intros O. rewrite (count_neg 64 (fun l => accb cp (bits_num l))). rewrite (acc_count cp O). reflexivity.
Qed.

Lemma countb_nonneg m p : 0 <= countb m p.
Proof. unfold countb. revert p. induction m as [|m IH]; intros p; cbn [sumb]; [destruct (p []); lia|]. pose proof (IH (fun l => p (false :: l))). pose proof (IH (fun l => p (true :: l))). lia. Qed.
Lemma sumb_nil f : sumb (64 * 0) f = f [].
Proof. reflexivity. Qed.
Local Opaque sumb.

(** One more word. *)
Lemma draws_cons cp cps v ws : draws (cp :: cps) (v :: ws) =
  if accb cp v then '(xs, w2) <- draws cps ws ;; Ok (v * snd cp / W64 :: xs, w2) else draws (cp :: cps) ws.
Proof.
  cbn [draws uniform_sample]. fold (accb cp v). destruct (accb cp v); [|reflexivity]. cbn [bind]. rewrite Z.shiftr_div_pow2 by lia. reflexivity.
Qed.
Definition gcount (N : nat) (cps : list (Z * Z)) (t : list Z -> bool) : Z :=
  countb (64 * N) (fun bits => gives (draws cps (words N bits)) t).
Lemma gcount_cons N cp cps x xs : cp_ok cp -> 0 <= x < snd cp ->
  gcount (S N) (cp :: cps) (vec_is (x :: xs)) = fst cp * gcount N cps (vec_is xs) + (2 ^ 64 - fst cp * snd cp) * gcount N (cp :: cps) (vec_is (x :: xs)).
Proof.
  intros O Hx. unfold gcount. unfold countb at 1.
  set (H := fun l : list bool => if hitb cp x (bits_num l) then 1 else 0). set (R := fun l : list bool => if negb (accb cp (bits_num l)) then 1 else 0).
  set (g1 := fun l => if gives (draws cps (words N l)) (vec_is xs) then 1 else 0).
  set (g2 := fun l => if gives (draws (cp :: cps) (words N l)) (vec_is (x :: xs)) then 1 else 0).
  replace (64 * S N)%nat with (64 + 64 * N)%nat by lia.
  rewrite (sumb_ext _ _ (fun l => H (firstn 64 l) * g1 (skipn 64 l) + R (firstn 64 l) * g2 (skipn 64 l))).
  - rewrite sumb_add, !sumb_split. rewrite <- (rej_count cp O). rewrite <- (hit_count cp x O Hx) at 1. reflexivity.
  - intros l _. rewrite words_S, draws_cons. unfold H, R, g1, g2, hitb. set (v := bits_num (firstn 64 l)). set (ws := words N (skipn 64 l)).
    destruct (accb cp v); cbn [negb andb]; [|lia]. destruct (draws cps ws) as [[ys w2]| | |]; cbn [bind gives]; try (destruct (_ =? x); lia).
    unfold vec_is. cbn [zlist_eqb]. destruct (v * snd cp / W64 =? x); cbn [andb]; lia.
Qed.
Lemma gcount_any N cp cps : cp_ok cp ->
  gcount (S N) (cp :: cps) (fun _ => true) = fst cp * snd cp * gcount N cps (fun _ => true) + (2 ^ 64 - fst cp * snd cp) * gcount N (cp :: cps) (fun _ => true).
Proof.
  intros O. unfold gcount. unfold countb at 1.
  set (H := fun l : list bool => if accb cp (bits_num l) then 1 else 0). set (R := fun l : list bool => if negb (accb cp (bits_num l)) then 1 else 0).
  set (g1 := fun l => if gives (draws cps (words N l)) (fun _ => true) then 1 else 0).
  set (g2 := fun l => if gives (draws (cp :: cps) (words N l)) (fun _ => true) then 1 else 0).
  replace (64 * S N)%nat with (64 + 64 * N)%nat by lia.
  rewrite (sumb_ext _ _ (fun l => H (firstn 64 l) * g1 (skipn 64 l) + R (firstn 64 l) * g2 (skipn 64 l))).
  - rewrite sumb_add, !sumb_split. rewrite <- (rej_count cp O). rewrite <- (acc_count cp O) at 1. reflexivity.
  - intros l _. rewrite words_S, draws_cons. unfold H, R, g1, g2. set (v := bits_num (firstn 64 l)). set (ws := words N (skipn 64 l)).
    destruct (accb cp v); cbn [negb andb]; [|lia]. destruct (draws cps ws) as [[ys w2]| | |]; cbn [bind gives]; lia.
Qed.
Lemma gcount_0 cps t : gcount 0 cps t = if gives (draws cps []) t then 1 else 0.
Proof. unfold gcount, countb. rewrite sumb_nil. reflexivity. Qed.
Lemma gcount_uniform N : forall cps xs, Forall cp_ok cps -> Forall2 (fun cp x => 0 <= x < snd cp) cps xs ->
  gcount N cps (vec_is xs) * prodl (map snd cps) = gcount N cps (fun _ => true).
Proof.
  induction N as [|N IH]; intros cps xs FO F2.
  - rewrite !gcount_0. destruct F2; reflexivity.
  - destruct F2 as [|cp x cps xs Hx F2].
    + cbn [map prodl]. rewrite Z.mul_1_r. reflexivity.
    + inversion FO as [|? ? O FO']; subst. rewrite gcount_cons, gcount_any by auto.
      rewrite <- (IH (cp :: cps) (x :: xs)) by (constructor; auto). rewrite <- (IH cps xs) by auto. cbn [map prodl]. ring.
Qed.
Lemma gcount_pos N : forall cps, Forall cp_ok cps -> (length cps <= N)%nat -> 0 < gcount N cps (fun _ => true).
Proof.
  induction N as [|N IH]; intros cps FO HL.
  - rewrite gcount_0. destruct cps; [reflexivity|cbn [length] in HL; lia].
  - destruct cps as [|cp cps].
    + unfold gcount. cbn [draws gives]. unfold countb. rewrite sumb_const. assert (0 < 2 ^ Z.of_nat (64 * S N)) by (apply Z.pow_pos_nonneg; lia). lia.
    + inversion FO as [|? ? O FO']; subst. rewrite gcount_any by auto. cbn [length] in HL.
      specialize (IH cps FO' ltac:(lia)). pose proof (countb_nonneg (64 * N) (fun bits => gives (draws (cp :: cps) (words N bits)) (fun _ => true))) as C.
      unfold gcount at 2. destruct O as [Hc [Hp HZ]]. change (2 ^ 64) with W64. set (B := countb _ _) in *. clearbody B. nia.
Qed.
Lemma gcount_zero N : forall cps, (N < length cps)%nat -> Forall cp_ok cps -> gcount N cps (fun _ => true) = 0.
Proof.
  induction N as [|N IH]; intros cps HL FO; destruct cps as [|cp cps]; cbn [length] in HL; try lia; [rewrite gcount_0; reflexivity|].
  inversion FO; subst. rewrite gcount_any by auto. rewrite !IH; cbn [length]; auto; lia.
Qed.

(** ** The samplers of the crate *)
Definition std_cp (p : Z) : Z * Z := (2 ^ 64 / p, p).
Lemma std_ok p : 0 < p < 2 ^ 62 -> cp_ok (std_cp p).
Proof. intros H. unfold cp_ok, std_cp. cbn [fst snd]. pose proof (zone_c p H) as [A B]. repeat split; auto; lia. Qed.
Lemma take_draws p size : forall ws, uniform_take (2 ^ 64 / p * p - 1) p size ws = draws (repeat (std_cp p) size) ws.
Proof.
  induction size as [|s IH]; intros ws; [reflexivity|]. cbn [uniform_take repeat draws std_cp fst snd].
  destruct (uniform_sample _ p ws) as [[x w1]| | |]; cbn [bind]; [|reflexivity|reflexivity|reflexivity]. rewrite IH. reflexivity.
Qed.
Lemma sample_draws c p ws : uniform_sample (c * p - 1) p ws = ('(xs, w) <- draws [(c, p)] ws ;; Ok (nth 0 xs 0, w)).
Proof. cbn [draws fst snd]. destruct (uniform_sample _ p ws) as [[x w]| | |]; reflexivity. Qed.
Lemma vec_draws m size ws : 0 < mp m < 2 ^ 62 -> modulus_random_vec m size ws = draws (repeat (std_cp (mp m)) size) ws.
Proof. intros H. unfold modulus_random_vec. rewrite uniform_zone_ok by auto. cbn [bind]. apply take_draws. Qed.
Lemma draws_app a b : forall ws, draws (a ++ b) ws = ('(x, w1) <- draws a ws ;; '(y, w2) <- draws b w1 ;; Ok (x ++ y, w2)).
Proof.
  induction a as [|cp a IH]; intros ws; cbn [app draws].
  - cbn [bind]. destruct (draws b ws) as [[y w]| | |]; reflexivity.
  - destruct (uniform_sample _ _ ws) as [[x w1]| | |]; cbn [bind]; try reflexivity. rewrite IH.
    destruct (draws a w1) as [[xs w2]| | |]; cbn [bind]; try reflexivity. destruct (draws b w2) as [[y w3]| | |]; reflexivity.
Qed.
Lemma sample_total zone p : 0 < p -> forall ws, Forall (fun w => 0 <= w < 2 ^ 64) ws ->
  (exists x used w, uniform_sample zone p ws = Ok (x, w) /\ 0 <= x < p /\ ws = used ++ w /\ (1 <= length used)%nat) \/ uniform_sample zone p ws = NoFuel.
Proof.
  intros Hp. induction ws as [|v ws IH]; intros F; [right; reflexivity|]. inversion F as [|? ? Hv F']; subst. cbn [uniform_sample].
  destruct (as64 (v * p) <=? zone).
  - left. exists (Z.shiftr (v * p) 64), [v], ws. rewrite Z.shiftr_div_pow2 by lia. change (2 ^ 64) with W64 in *. pose proof (sample_value p v Hp Hv). auto.
  - destruct (IH F') as [[x [u [w [E [R [-> L]]]]]]|E]; [left; exists x, (v :: u), w|right; auto]. cbn [length app]. auto.
Qed.
Lemma draws_total cps : Forall (fun cp => 0 < snd cp) cps -> forall ws, Forall (fun w => 0 <= w < 2 ^ 64) ws ->
  (exists xs used w, draws cps ws = Ok (xs, w) /\ Forall2 (fun cp x => 0 <= x < snd cp) cps xs /\ ws = used ++ w /\ (length cps <= length used)%nat) \/ draws cps ws = NoFuel.
Proof.
  induction 1 as [|cp cps Hp F IH]; intros ws Fw; [left; exists [], [], ws; repeat split; auto|]. cbn [draws].
  destruct (sample_total (fst cp * snd cp - 1) (snd cp) Hp ws Fw) as [[x [u [w [E [R [-> L]]]]]]|E]; rewrite E; cbn [bind]; [|right; reflexivity].
  apply Forall_app in Fw. destruct (IH w (proj2 Fw)) as [[xs [u2 [w2 [E2 [F2 [-> L2]]]]]]|E2]; rewrite E2; cbn [bind]; [|right; reflexivity].
  left. exists (x :: xs), (u ++ u2), w2. rewrite <- app_assoc, app_length. cbn [length]. repeat split; auto. lia.
Qed.
Lemma range2_repeat cp size xs : Forall2 (fun (cp : Z * Z) x => 0 <= x < snd cp) (repeat cp size) xs <-> length xs = size /\ Forall (fun x => 0 <= x < snd cp) xs.
Proof.
  revert xs. induction size as [|s IH]; intros xs; cbn [repeat]; split.
  - intros H. inversion H. auto.
  - intros [H _]. destruct xs; [constructor|discriminate H].
  - intros H. inversion H as [|? x ? ys Hx H2]; subst. apply IH in H2. destruct H2. cbn [length]. auto.
  - intros [H F]. destruct xs as [|x xs]; [discriminate H|]. injection H as H. inversion F; subst. constructor; auto. apply IH. auto.
Qed.
Lemma prodl_repeat p n : prodl (map snd (repeat (std_cp p) n)) = p ^ Z.of_nat n.
Proof. induction n as [|n IH]; [reflexivity|]. cbn [repeat map prodl]. rewrite IH, Nat2Z.inj_succ, Z.pow_succ_r by lia. reflexivity. Qed.
Lemma gcount_one N cp : cp_ok cp -> gcount N [cp] (fun _ => true) = 2 ^ (64 * Z.of_nat N) - (2 ^ 64 - fst cp * snd cp) ^ Z.of_nat N.
Proof.
  intros O. induction N as [|N IH]; [rewrite gcount_0; reflexivity|]. rewrite gcount_any, IH by auto.
  replace (gcount N [] (fun _ => true)) with (2 ^ (64 * Z.of_nat N)) by (unfold gcount, countb; cbn [draws gives]; rewrite sumb_const, Nat2Z.inj_mul, Z.mul_1_l; reflexivity).
  rewrite Nat2Z.inj_succ, Z.pow_succ_r by lia. replace (64 * Z.succ (Z.of_nat N)) with (64 + 64 * Z.of_nat N) by lia. rewrite Z.pow_add_r by lia. ring.
Qed.
Lemma one_uniform N c p x : cp_ok (c, p) -> 0 <= x < p ->
  countb (64 * N) (fun bits => gives (uniform_sample (c * p - 1) p (words N bits)) (Z.eqb x)) * p = 2 ^ (64 * Z.of_nat N) - (2 ^ 64 - c * p) ^ Z.of_nat N.
Proof.
  intros O Hx. transitivity (gcount N [(c, p)] (fun _ => true)); [|exact (gcount_one N (c, p) O)]. rewrite <- (gcount_uniform N [(c, p)] [x]); [|constructor; [exact O|constructor]|constructor; [exact Hx|constructor]].
  cbn [map prodl snd]. rewrite Z.mul_1_r. f_equal. unfold gcount, countb. apply sumb_ext. intros l _. rewrite sample_draws.
  destruct (draws [(c, p)] (words N l)) as [[xs w]| | |] eqn:E; cbn [bind gives]; try reflexivity.
  assert (LX : exists y, xs = [y]).
  { cbn [draws] in E. destruct (uniform_sample _ _ _) as [[y w']| | |]; cbn [bind] in E; try discriminate E. injection E as <- _. eauto. }
  destruct LX as [y ->]. unfold vec_is. cbn [nth zlist_eqb]. rewrite andb_true_r, Z.eqb_sym. reflexivity.
Qed.
Lemma mod_range p m : 0 <= p -> modulus_new p = Ok m -> 0 < mp m < 2 ^ 62 /\ mp m = p.
Proof. intros H0 H. destruct (modulus_new_valid p m H0 H) as [V E]. pose proof (valid_range m V). change (2 ^ 62) with P62. split; [lia|auto]. Qed.

(** ** C74 *)
(** C74: [random] gives each x below p equally often: over all outcomes of N
    generator words, p times the number that return x is the number that return
    anything, and only (2^64 mod p)^N outcomes need more words. *)
Lemma C74_random_lem :
  forall p m N x, 0 <= p -> modulus_new p = Ok m -> 0 <= x < p ->
    countb (64 * N) (fun bits => gives (modulus_random m (words N bits)) (Z.eqb x)) * p
    = 2 ^ (64 * Z.of_nat N) - (2 ^ 64 mod p) ^ Z.of_nat N.
Proof.
  intros p m N x H0 HM Hx. destruct (mod_range p m H0 HM) as [R E]. rewrite E in R.
  assert (C : 2 ^ 64 mod p = 2 ^ 64 - 2 ^ 64 / p * p) by (pose proof (Z.div_mod (2 ^ 64) p ltac:(lia)); lia).
  rewrite C. rewrite <- (one_uniform N (2 ^ 64 / p) p x (std_ok p R) Hx). f_equal. unfold countb. apply sumb_ext. intros l _.
  unfold modulus_random. rewrite E, uniform_zone_ok by auto. reflexivity.
Qed.

(** C74: the same for [gen_range], with another number of rejected words. *)
Lemma C74_gen_range_lem :
  forall p k N x, 0 <= k -> 2 ^ 63 <= 2 ^ k * p < 2 ^ 64 -> 0 <= x < p ->
    countb (64 * N) (fun bits => gives (gen_range p (words N bits)) (Z.eqb x)) * p
    = 2 ^ (64 * Z.of_nat N) - (2 ^ 64 - 2 ^ k * p) ^ Z.of_nat N.
Proof.
  intros p k N x Hk Hb Hx. assert (K0 : 1 <= 2 ^ k) by (pose proof (Z.pow_pos_nonneg 2 k ltac:(lia) Hk); lia).
  assert (KL : k < 64) by (destruct (Z.lt_ge_cases k 64) as [L|L]; auto; pose proof (Z.pow_le_mono_r 2 64 k ltac:(lia) L); nia).
  assert (LZ : leading_zeros 64 p = k).
  { pose proof (lz_eq p (64 - k) ltac:(lia) ltac:(lia)) as E. replace (64 - (64 - k)) with k in E by lia.
    apply Z.eqb_eq. rewrite E. apply andb_true_iff. rewrite Z.leb_le, Z.ltb_lt.
    replace 64 with (k + (64 - k)) in Hb at 1 by lia. replace 63 with (k + (64 - k - 1)) in Hb by lia.
    rewrite !Z.pow_add_r in Hb by lia. nia. }
  assert (O : cp_ok (2 ^ k, p)) by (unfold cp_ok; cbn [fst snd]; change W64 with (2 ^ 64); lia).
  rewrite <- (one_uniform N (2 ^ k) p x O Hx). f_equal. unfold countb. apply sumb_ext. intros l _.
  unfold gen_range, gen_range_zone. rewrite rassert_true by lia. cbn [bind]. rewrite LZ, Z.shiftl_mul_pow2 by lia.
  rewrite Z.mod_small by (change W64 with (2 ^ 64); lia). rewrite (Z.mul_comm p). reflexivity.
Qed.

(** C74: [random_vec] gives each vector below p equally often, and size words
    can be enough but fewer never are. *)
Lemma C74_vec_lem :
  forall p m size N xs, 0 <= p -> modulus_new p = Ok m -> length xs = size -> Forall (fun x => 0 <= x < p) xs ->
    let total := countb (64 * N) (fun bits => gives (modulus_random_vec m size (words N bits)) (fun _ => true)) in
    countb (64 * N) (fun bits => gives (modulus_random_vec m size (words N bits)) (vec_is xs)) * p ^ Z.of_nat size = total
    /\ (0 < total <-> (size <= N)%nat).
Proof.
  intros p m size N xs H0 HM HL F. destruct (mod_range p m H0 HM) as [R E]. rewrite E in R. cbv zeta.
  assert (EQ : forall t, countb (64 * N) (fun bits => gives (modulus_random_vec m size (words N bits)) t) = gcount N (repeat (std_cp p) size) t).
  { intros t. unfold gcount, countb. apply sumb_ext. intros l _. rewrite vec_draws by (rewrite E; auto). rewrite E. reflexivity. }
  assert (FO : Forall cp_ok (repeat (std_cp p) size)) by (apply Forall_forall; intros cp I; apply repeat_spec in I; subst; apply std_ok; auto).
  rewrite !EQ. split.
  - rewrite <- prodl_repeat. apply gcount_uniform; auto. apply range2_repeat. auto.
  - destruct (le_lt_dec size N) as [L|L].
    + split; auto. intros _. apply gcount_pos; auto. rewrite repeat_length. auto.
    + rewrite gcount_zero by (auto; rewrite repeat_length; auto). split; lia.
Qed.

(** C74: it never panics and its values are below p. *)
Lemma C74_vec_range_lem :
  forall p m size ws, 0 <= p -> modulus_new p = Ok m -> Forall (fun w => 0 <= w < 2 ^ 64) ws ->
    (exists xs used rest, modulus_random_vec m size ws = Ok (xs, rest) /\ length xs = size
       /\ Forall (fun x => 0 <= x < p) xs /\ ws = used ++ rest /\ (size <= length used)%nat)
    \/ modulus_random_vec m size ws = NoFuel.
Proof.
  intros p m size ws H0 HM FW. destruct (mod_range p m H0 HM) as [R E]. rewrite vec_draws by auto. rewrite E in *.
  destruct (draws_total (repeat (std_cp p) size)) with (ws := ws) as [[xs [u [w [D [F2 [-> L]]]]]]|D]; auto.
  - apply Forall_forall. intros cp I. apply repeat_spec in I. subst. unfold std_cp. cbn [snd]. lia.
  - left. apply range2_repeat in F2. destruct F2 as [L2 F2]. rewrite repeat_length in L. exists xs, u, w. auto.
Qed.

(** Polynomials. *)
Definition row_cps (degree : nat) (ms : list Modulus) : list (Z * Z) := concat (map (fun q => repeat (std_cp (mp q)) degree) ms).
Fixpoint chunk (degree k : nat) (l : list Z) : list (list Z) :=
  match k with O => [] | S k' => firstn degree l :: chunk degree k' (skipn degree l) end.
Lemma draws_len cps : forall ws xs w, draws cps ws = Ok (xs, w) -> length xs = length cps.
Proof.
  induction cps as [|cp cps IH]; intros ws xs w H; cbn [draws] in H; [injection H as <- _; reflexivity|].
  destruct (uniform_sample _ _ ws) as [[x w1]| | |]; cbn [bind] in H; try discriminate H.
  destruct (draws cps w1) as [[ys w2]| | |] eqn:E; cbn [bind] in H; try discriminate H. injection H as <- _. cbn [length]. f_equal. eapply IH; eauto.
Qed.
Lemma rows_draws degree ms : Forall (fun q => 0 < mp q < 2 ^ 62) ms -> forall ws,
  random_rows degree (repeat (repeat 0 degree) (length ms)) ms ws = ('(xs, w) <- draws (row_cps degree ms) ws ;; Ok (chunk degree (length ms) xs, w)).
Proof.
  induction 1 as [|q ms Hq F IH]; intros ws; [reflexivity|]. cbn [length repeat random_rows]. unfold row_cps. cbn [map concat]. fold (row_cps degree ms).
  rewrite vec_draws, draws_app by auto. destruct (draws (repeat _ degree) ws) as [[v w1]| | |] eqn:E; cbn [bind]; try reflexivity.
  pose proof (draws_len _ _ _ _ E) as LV. rewrite repeat_length in LV. rewrite repeat_length, LV, Nat.eqb_refl. cbn [rassert bind]. rewrite IH.
  destruct (draws (row_cps degree ms) w1) as [[xs w2]| | |]; cbn [bind]; try reflexivity. cbn [chunk].
  rewrite firstn_app, skipn_app, firstn_all2, skipn_all2, LV, Nat.sub_diag by lia. cbn [firstn skipn app]. rewrite app_nil_r. reflexivity.
Qed.
Lemma zlist_eqb_app a b c d : length a = length c -> zlist_eqb (a ++ b) (c ++ d) = zlist_eqb a c && zlist_eqb b d.
Proof.
  revert c. induction a as [|x a IH]; intros [|y c] H; try discriminate H; [reflexivity|]. cbn [app zlist_eqb]. injection H as H. rewrite IH by auto. apply andb_assoc.
Qed.
Lemma chunk_eqb degree : forall rows l, Forall (fun r => length r = degree) rows -> length l = (length rows * degree)%nat ->
  rows_eqb (chunk degree (length rows) l) rows = zlist_eqb l (concat rows).
Proof.
  induction rows as [|r rows IH]; intros l F HL; cbn [length chunk rows_eqb concat]; [destruct l; [reflexivity|discriminate HL]|].
  inversion F; subst. cbn [length] in HL. rewrite <- (firstn_skipn (length r) l) at 3.
  rewrite zlist_eqb_app by (apply firstn_length_le; lia). f_equal. apply IH; auto. rewrite skipn_length. lia.
Qed.
Lemma chunk_spec degree : forall ms l, Forall2 (fun cp x => 0 <= x < snd cp) (row_cps degree ms) l ->
  length (chunk degree (length ms) l) = length ms /\
  Forall2 (fun q r => length r = degree /\ Forall (fun x => 0 <= x < mp q) r) ms (chunk degree (length ms) l).
Proof.
  induction ms as [|q ms IH]; intros l F; cbn [length chunk]; [auto|]. unfold row_cps in F. cbn [map concat] in F. fold (row_cps degree ms) in F.
  apply Forall2_app_inv_l in F. destruct F as [a [b [Fa [Fb ->]]]]. apply range2_repeat in Fa. destruct Fa as [La Fa].
  rewrite firstn_app, skipn_app, firstn_all2, skipn_all2, La, Nat.sub_diag by lia. cbn [firstn skipn app]. rewrite app_nil_r.
  destruct (IH b Fb) as [L1 F1]. split; [cbn [length]; lia|]. constructor; auto.
Qed.
Lemma concat_range degree : forall ms rows, Forall2 (fun q r => length r = degree /\ Forall (fun x => 0 <= x < mp q) r) ms rows ->
  Forall2 (fun cp x => 0 <= x < snd cp) (row_cps degree ms) (concat rows).
Proof.
  induction 1 as [|q r ms rows [L F] F2 IH]; [constructor|]. unfold row_cps. cbn [map concat]. apply Forall2_app; auto. apply range2_repeat. auto.
Qed.
Lemma row_cps_len degree ms : length (row_cps degree ms) = (length ms * degree)%nat.
Proof. unfold row_cps. induction ms as [|q ms IH]; [reflexivity|]. cbn [map concat length]. rewrite app_length, repeat_length, IH. reflexivity. Qed.
Lemma row_cps_prod degree ms : prodl (map snd (row_cps degree ms)) = zprod (map mp ms) ^ Z.of_nat degree.
Proof.
  assert (PA : forall a b, prodl (a ++ b) = prodl a * prodl b) by (induction a as [|x a IH]; intros b; cbn [app prodl]; [lia|rewrite IH; ring]).
  unfold row_cps. induction ms as [|q ms IH]; cbn [map concat].
  - cbn [prodl]. change (zprod []) with 1. rewrite Z.pow_1_l by lia. reflexivity.
  - rewrite map_app, PA, IH, prodl_repeat. change (zprod (mp q :: map mp ms)) with (mp q * zprod (map mp ms)). rewrite Z.pow_mul_l. reflexivity.
Qed.

Lemma ctx_mods ctx : built ctx -> Forall (fun q => 0 < mp q < 2 ^ 62) (rq_moduli ctx) /\ map mp (rq_moduli ctx) = rq_moduli_64 ctx.
Proof.
  intros B. pose proof (built_loc ctx B) as W. pose proof (wl_rns _ W) as WR. rewrite (wl_mod _ W).
  pose proof (wr_mod _ _ WR) as F. clear - F. induction F as [|q m ms l [V E] F [IH1 IH2]]; [auto|].
  pose proof (valid_range m V). split; [constructor; auto; change (2 ^ 62) with P62; lia|cbn [map]; congruence].
Qed.
Lemma wf_rows ctx r rows : map mp (rq_moduli ctx) = rq_moduli_64 ctx ->
  wf_poly (mkPoly ctx r rows) <-> Forall2 (fun q row => length row = rq_degree ctx /\ Forall (fun x => 0 <= x < mp q) row) (rq_moduli ctx) rows.
Proof.
  intros E. unfold wf_poly, cx_k, cx_q. cbn [p_rows p_ctx]. rewrite <- E, map_length. generalize (rq_degree ctx) (rq_moduli ctx). clear. intros n ms. split.
  - revert rows. induction ms as [|q ms IH]; intros rows [HL H]; destruct rows as [|x rows]; try discriminate HL; constructor.
    + apply (H 0%nat). cbn [length]. lia.
    + apply IH. split; [cbn [length] in HL; lia|]. intros i Hi. apply (H (S i)). cbn [length]. lia.
  - induction 1 as [|q x ms rows H F [HL IH]]; [split; [reflexivity|cbn [length]; lia]|]. split; [cbn [length]; lia|].
    intros [|i] Hi; [exact H|]. apply IH. cbn [length] in Hi. lia.
Qed.

(** C74: [Poly::random] gives each polynomial of the context equally often. *)
Lemma C74_poly_lem :
  forall ctx r rows N, built ctx -> wf_poly (mkPoly ctx r rows) ->
    let total := countb (64 * N) (fun bits => gives (poly_random_gen ctx r (words N bits)) (fun _ => true)) in
    countb (64 * N) (fun bits => gives (poly_random_gen ctx r (words N bits)) (rows_are rows)) * cx_Q ctx ^ Z.of_nat (rq_degree ctx) = total
    /\ (0 < total <-> (cx_k ctx * rq_degree ctx <= N)%nat).
Proof.
  intros ctx r rows N B W. destruct (ctx_mods ctx B) as [FM EM]. apply (wf_rows ctx r rows EM) in W. cbv zeta.
  assert (KL : cx_k ctx = length (rq_moduli ctx)) by (unfold cx_k; rewrite <- EM, map_length; reflexivity).
  set (cps := row_cps (rq_degree ctx) (rq_moduli ctx)).
  assert (FO : Forall cp_ok cps).
  { unfold cps, row_cps. apply Forall_forall. intros cp I. apply in_concat in I. destruct I as [l [I1 I2]]. apply in_map_iff in I1. destruct I1 as [q [<- I1]].
    apply repeat_spec in I2. subst. apply std_ok. apply (proj1 (Forall_forall _ _) FM). auto. }
  pose proof (concat_range _ _ _ W) as R2. fold cps in R2. pose proof (forall2_length _ _ _ W) as LR.
  assert (GT : countb (64 * N) (fun bits => gives (poly_random_gen ctx r (words N bits)) (fun _ => true)) = gcount N cps (fun _ => true)).
  { unfold gcount, countb. apply sumb_ext. intros l _. unfold poly_random_gen, zero_rows. rewrite rows_draws by auto. fold cps.
    destruct (draws cps (words N l)) as [[xs w]| | |]; reflexivity. }
  assert (GX : countb (64 * N) (fun bits => gives (poly_random_gen ctx r (words N bits)) (rows_are rows)) = gcount N cps (vec_is (concat rows))).
  { unfold gcount, countb. apply sumb_ext. intros l _. unfold poly_random_gen, zero_rows. rewrite rows_draws by auto. fold cps.
    destruct (draws cps (words N l)) as [[xs w]| | |] eqn:D; cbn [bind gives]; try reflexivity. unfold rows_are, vec_is. cbn [p_rows]. rewrite LR. 
    rewrite chunk_eqb; [reflexivity| |].
    - clear - W. induction W as [|q x ms rows [H _] F IH]; auto.
    - rewrite (draws_len _ _ _ _ D). unfold cps. rewrite row_cps_len, LR. reflexivity. }
  rewrite GT, GX. split.
  - unfold cx_Q. rewrite <- EM, <- row_cps_prod. fold cps. apply gcount_uniform; auto.
  - rewrite KL, <- row_cps_len. fold cps. destruct (le_lt_dec (length cps) N) as [L|L].
    + split; auto. intros _. apply gcount_pos; auto.
    + rewrite gcount_zero by auto. split; lia.
Qed.

(** C74: its result is a well-shaped polynomial of the context. *)
Lemma C74_poly_wf_lem :
  forall ctx r ws, built ctx -> Forall (fun w => 0 <= w < 2 ^ 64) ws ->
    (exists p used rest, poly_random_gen ctx r ws = Ok (p, rest) /\ wf_poly p /\ p_ctx p = ctx /\ p_repr p = r
       /\ p = poly_random ctx r (p_rows p) /\ ws = used ++ rest /\ (cx_k ctx * rq_degree ctx <= length used)%nat)
    \/ poly_random_gen ctx r ws = NoFuel.
Proof.
  intros ctx r ws B FW. destruct (ctx_mods ctx B) as [FM EM]. unfold poly_random_gen, zero_rows. rewrite rows_draws by auto.
  assert (KL : cx_k ctx = length (rq_moduli ctx)) by (unfold cx_k; rewrite <- EM, map_length; reflexivity).
  destruct (draws_total (row_cps (rq_degree ctx) (rq_moduli ctx))) with (ws := ws) as [[xs [u [w [D [F2 [-> L]]]]]]|D]; auto.
  - unfold row_cps. apply Forall_forall. intros cp I. apply in_concat in I. destruct I as [l [I1 I2]]. apply in_map_iff in I1. destruct I1 as [q [<- I1]].
    apply repeat_spec in I2. subst. cbn [std_cp snd]. apply (proj1 (Forall_forall _ _) FM). auto.
  - left. rewrite D. cbn [bind]. do 3 eexists. split; [reflexivity|]. split; [apply wf_rows; auto; apply chunk_spec; auto|].
    rewrite row_cps_len in L. rewrite KL. repeat split; auto.
  - right. rewrite D. reflexivity.
Qed.

(*EXAMPLE
(** One word in 2^64 is rejected for p = 3. *)
Example C74_example :
  (m <- modulus_new 3 ;; modulus_random_vec m 3 [18446744073709551615; 6148914691236517205; 6148914691236517206; 3; 7])
  = Ok ([2; 1; 0], [7]).
Proof. vm_compute. reflexivity. Qed.
Example C74_context_example pr c : test_ctx pr test_ms = Ok c -> built c.
Proof.
  unfold test_ctx. intros E. exists pr, tenv, test_ms, 8%nat, (mkBD 4 5). split; [exact tenv_ok|]. split; [|exact E].
  repeat (constructor; [lia|]). constructor.
Qed.
Example C74_context_example2 : (c <- test_ctx Debug test_ms ;; Ok (rq_degree c)) = Ok 8%nat.
Proof. vm_compute. reflexivity. Qed.
EXAMPLE*)
