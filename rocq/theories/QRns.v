(** Claims C12-C14, C56 (RNS contexts and scaling). *)
From Verif Require Import PBase NT Spec PSum MModulus MUtils MRns PModulus PUtils PCrt PRns PRnsScale PRnsScale2.

Lemma pairwise_gcd ms : pairwise ms <->
  forall i j, (i < length ms)%nat -> (j < length ms)%nat -> i <> j -> Z.gcd (nth i ms 1) (nth j ms 1) = 1.
Proof. split; intros H i j Hi Hj Hne; apply Zgcd_1_rel_prime; apply H; auto. Qed.

(** A basis can be constructed exactly when its moduli are in [2, 2^62) and pairwise coprime;
    otherwise construction panics. *)
Lemma C12_construct_lem : forall ms : list Z, Forall (fun q => 0 <= q) ms ->
  let good := Forall (fun q => 2 <= q < 2 ^ 62) ms /\
    forall i j, (i < length ms)%nat -> (j < length ms)%nat -> i <> j -> Z.gcd (nth i ms 1) (nth j ms 1) = 1 in
  (good -> exists c, rns_new ms = Ok c /\ rns_product c = zprod ms) /\ (~ good -> rns_new ms = Panic).
Proof.
  intros ms H0 good. split.
  - intros [HR PW]. apply pairwise_gcd in PW. destruct (rns_new_ok ms HR PW) as [c [E W]]. exists c. split; auto.
    apply (wr_prod _ _ W).
  - intros HN. apply rns_new_panic; auto. intros [HR PW]. apply HN. split; auto. apply pairwise_gcd. auto.
Qed.

(** Projecting gives the residues and lifting them gives the integer back. *)
Lemma C12_lift_project_lem : forall (ms : list Z) c x, Forall (fun q => 0 <= q) ms -> rns_new ms = Ok c ->
  0 <= x < zprod ms ->
  rns_project c x = Ok (map (fun q => x mod q) ms) /\ rns_lift c (map (fun q => x mod q) ms) = Ok x.
Proof.
  intros ms c x H0 E Hx. pose proof (rns_new_inv ms c H0 E) as W.
  pose proof (project_ok c ms W x ltac:(lia)) as EP.
  destruct (lift_project c ms W x Hx) as [r [E1 E2]]. rewrite EP in E1. injection E1 as <-. auto.
Qed.

(** Every vector of reduced residues is the projection of its lift. *)
Lemma C12_project_lift_lem : forall (ms : list Z) c r, Forall (fun q => 0 <= q) ms -> rns_new ms = Ok c ->
  length r = length ms -> (forall i, (i < length ms)%nat -> 0 <= nth i r 0 < nth i ms 1) ->
  exists x, rns_lift c r = Ok x /\ 0 <= x < zprod ms /\ rns_project c x = Ok r.
Proof.
  intros ms c r H0 E HL HR. pose proof (rns_new_inv ms c H0 E) as W. apply (project_lift c ms W); auto.
Qed.

(*EXAMPLE
Example C12_example : (c <- rns_new [7; 9; 10] ;; r <- rns_project c 629 ;; x <- rns_lift c r ;; Ok (r, x)) = Ok ([6; 8; 9], 629).
Proof. vm_compute. reflexivity. Qed.
Example C12_example_panic : rns_new [6; 9] = Panic /\ rns_new [5; 1] = Panic.
Proof. vm_compute. auto. Qed.
EXAMPLE*)

Lemma rep_centred wa Q x' : 0 < wa -> 0 < Q -> wa * (2 * Z.abs x' - Q) <= Q ->
  wa * (2 * Z.abs (centred Q x')) < (wa - 1) * Q -> x' = centred Q x'.
Proof.
  intros PA HQ X HC. unfold centred in *.
  pose proof (Z.div_mod x' Q ltac:(lia)) as DM. pose proof (Z.mod_pos_bound x' Q ltac:(lia)) as MB.
  revert HC X DM MB. generalize (x' mod Q) (x' / Q). intros m d HC X DM MB.
  assert (W2 : 2 <= wa) by nia.
  assert (NN : forall a b, a <= b -> wa * a <= wa * b) by (intros; apply Z.mul_le_mono_nonneg_l; lia).
  destruct (2 * m <? Q) eqn:E.
  - apply Z.ltb_lt in E. assert (d = 0); [|subst; lia].
    destruct (Z.lt_trichotomy d 0) as [Hd|[Hd|Hd]]; [exfalso|exact Hd|exfalso].
    + assert (Q * d <= - Q) by nia. pose proof (NN (Q - 2 * m) (2 * Z.abs x' - Q) ltac:(lia)). rewrite Z.abs_eq in HC by lia. lia.
    + assert (Q <= Q * d) by nia. pose proof (NN Q (2 * Z.abs x' - Q) ltac:(lia)). nia.
  - apply Z.ltb_ge in E. assert (d = -1); [|subst; lia].
    destruct (Z.lt_trichotomy d (-1)) as [Hd|[Hd|Hd]]; [exfalso|exact Hd|exfalso].
    + assert (Q * d <= - 2 * Q) by nia. pose proof (NN Q (2 * Z.abs x' - Q) ltac:(lia)). nia.
    + assert (0 <= Q * d) by nia. pose proof (NN (2 * m - Q) (2 * Z.abs x' - Q) ltac:(lia)). rewrite Z.abs_neq in HC by lia. lia.
Qed.

(** Scaling by N/D: the output words are the residues of one integer y, which is N*x'/D rounded
    (half rounds up, with a one-sided error of relative size 2^-(125-L) in the rounding), where x' is a
    representative of x of absolute value at most product/2*(1+2^-(191-2L)).  [scale_room L]: every
    source modulus times the number of moduli is at most 2^L.  L = 65 covers every basis of at most 8
    moduli; a larger L (up to 94) is possible when D divides N*product, as it does for base
    extension and for the factors t/product of the scheme.  C56 shows that this condition is needed. *)
Lemma C13_scale_lem : forall pr L (ms mt : list Z) from to N D,
  Forall (fun q => 0 <= q) ms -> Forall (fun q => 0 <= q) mt -> ms <> [] ->
  rns_new ms = Ok from -> rns_new mt = Ok to -> 0 <= N -> 1 <= D -> scale_room L N D ms ->
  exists s, (sf <- sf_new N D ;; rns_scaler_new pr from to sf) = Ok s /\
  forall rests x, length rests = length ms ->
    (forall i, (i < length ms)%nat -> 0 <= nth i rests 0 < nth i ms 1) ->
    (forall i, (i < length ms)%nat -> x mod nth i ms 1 = nth i rests 0) ->
    exists x' y,
      x' mod zprod ms = x mod zprod ms
      /\ 2 ^ (191 - 2 * L) * (2 * Z.abs x' - zprod ms) <= zprod ms
      /\ 2 * N * x' - 2 * D * y < D
      /\ 2 ^ (125 - L) * (2 * D * y - 2 * N * x' - D) < D
      /\ (N = D -> y = x')
      /\ forall out_len start, (out_len <> 0)%nat -> (start + out_len <= length mt)%nat ->
           rns_scale pr s rests out_len start = Ok (map (fun i => y mod nth (start + i) mt 1) (seq 0 out_len)).
Proof.
  intros pr L ms mt from to N D H0 H0' Hne E1 E2 HN HD H65.
  pose proof (rns_new_inv ms from H0 E1) as WF. pose proof (rns_new_inv mt to H0' E2) as WT.
  unfold sf_new. rewrite rassert_true by (apply negb_true_iff, Z.eqb_neq; lia). cbn [bind].
  destruct (rns_scaler_new_ok pr from to ms mt (mkSF N D (N =? D)) N D WF WT Hne (rns_k_bound _ _ WF) HN HD eq_refl) as [s [Es W]].
  exists s. split; auto. intros rests x HL HR HX.
  exists (xrep s from ms rests), (yrep s from ms N D rests).
  split.
  { eapply xrep_eqm; [exact W| ..]; auto. intros i Hi. pose proof (HR i Hi) as B.
    unfold eqm. rewrite HX by auto. symmetry. apply Z.mod_small. auto. }
  split; [eapply xrep_bound; eauto|].
  assert (YB : 2 * N * xrep s from ms rests - 2 * D * yrep s from ms N D rests < D /\
    2 ^ (125 - L) * (2 * D * yrep s from ms N D rests - 2 * N * xrep s from ms rests - D) < D) by (eapply yrep_bound; eauto).
  destruct YB as [B1 B2]. split; [auto|]. split; [auto|].
  split; [intros E; eapply yrep_one; eauto|].
  intros. eapply rns_scale_ok; eauto.
Qed.

(** When x is not extremely close to product/2 modulo the product and N*xc/D is not extremely
    close below a half integer, the result is exactly floor(N*xc/D + 1/2), xc the centred value. *)
Lemma C13_exact_lem : forall pr L (ms mt : list Z) from to N D,
  Forall (fun q => 0 <= q) ms -> Forall (fun q => 0 <= q) mt -> ms <> [] ->
  rns_new ms = Ok from -> rns_new mt = Ok to -> 0 <= N -> 1 <= D -> scale_room L N D ms ->
  exists s, (sf <- sf_new N D ;; rns_scaler_new pr from to sf) = Ok s /\
  forall rests x, length rests = length ms ->
    (forall i, (i < length ms)%nat -> 0 <= nth i rests 0 < nth i ms 1) ->
    (forall i, (i < length ms)%nat -> x mod nth i ms 1 = nth i rests 0) ->
    let xc := centred (zprod ms) x in
    2 ^ (191 - 2 * L) * (2 * Z.abs xc) < (2 ^ (191 - 2 * L) - 1) * zprod ms ->
    D <= 2 ^ (125 - L) * (2 * D - (2 * N * xc + D) mod (2 * D)) ->
    rns_scale pr s rests (length mt) 0 = Ok (map (fun q => ((2 * N * xc + D) / (2 * D)) mod q) mt)
    \/ mt = [].
Proof.
  intros pr L ms mt from to N D H0 H0' Hne E1 E2 HN HD H65.
  destruct (C13_scale_lem pr L ms mt from to N D H0 H0' Hne E1 E2 HN HD H65) as [s [Es H]].
  exists s. split; auto. intros rests x HL HR HX xc HC1 HC2.
  destruct (H rests x HL HR HX) as [x' [y [X1 [X2 [Y1 [Y2 [_ HS]]]]]]].
  pose proof (rns_new_inv ms from H0 E1) as WF. pose proof (wr_Q _ _ WF) as HQ.
  assert (HL94 : 65 <= L <= 94) by (destruct H65; auto).
  assert (EX : x' = xc).
  { unfold xc in *. assert (EC : centred (zprod ms) x = centred (zprod ms) x') by (unfold centred; rewrite X1; reflexivity).
    rewrite EC in *. apply (rep_centred (2 ^ (191 - 2 * L))); auto; [apply Z.pow_pos_nonneg; clear - HL94; lia|lia]. }
  rewrite EX in *. clear X1 X2 HC1.
  assert (EY : y = (2 * N * xc + D) / (2 * D)).
  { pose proof (Z.div_mod (2 * N * xc + D) (2 * D) ltac:(lia)) as DM.
    pose proof (Z.mod_pos_bound (2 * N * xc + D) (2 * D) ltac:(lia)) as MB.
    assert (PB : 0 < 2 ^ (125 - L)) by (apply Z.pow_pos_nonneg; clear - HL94; lia).
    set (wb := 2 ^ (125 - L)) in *. clearbody wb.
    revert Y1 Y2 HC2 DM MB. generalize ((2 * N * xc + D) mod (2 * D)) ((2 * N * xc + D) / (2 * D)) (2 * N * xc).
    clear - HD PB. intros m d a Y1 Y2 HC DM MB. nia. }
  destruct mt as [|q0 mt0]; [right; auto|left].
  rewrite HS by (cbn [length]; lia). f_equal. rewrite EY.
  apply nth_ext' with 0; [rewrite !map_length, seq_length; auto|].
  intros i Hi. rewrite map_length, seq_length in Hi. rewrite nth_map_seq by auto.
  rewrite (nth_map' _ _ 1) by auto. reflexivity.
Qed.

(*EXAMPLE
Example C13_example :
  (a <- rns_new [97; 193] ;; b <- rns_new [113; 241] ;; f <- sf_new 2 7 ;;
   s <- rns_scaler_new Debug a b f ;; r <- rns_project a (97 * 193 - 1000) ;; rns_scale Debug s r 2 0)
  = Ok [(-286) mod 113; (-286) mod 241].
Proof. vm_compute. reflexivity. Qed.
EXAMPLE*)

(** Factor one: the residues of the centred representative, away from product/2. *)
Lemma C14_extend_lem : forall pr L (ms mt : list Z) from to N,
  Forall (fun q => 0 <= q) ms -> Forall (fun q => 0 <= q) mt -> ms <> [] ->
  rns_new ms = Ok from -> rns_new mt = Ok to -> 1 <= N -> 65 <= L <= 94 ->
  (forall q, In q ms -> q * Z.of_nat (length ms) <= 2 ^ L) ->
  exists s, (sf <- sf_new N N ;; rns_scaler_new pr from to sf) = Ok s /\
  forall x r out_len start, rns_project from x = Ok r -> 0 <= x ->
    let xc := centred (zprod ms) x in
    2 ^ (191 - 2 * L) * (2 * Z.abs xc) < (2 ^ (191 - 2 * L) - 1) * zprod ms ->
    (out_len <> 0)%nat -> (start + out_len <= length mt)%nat ->
    rns_scale pr s r out_len start = Ok (map (fun i => xc mod nth (start + i) mt 1) (seq 0 out_len)).
Proof.
  intros pr L ms mt from to N H0 H0' Hne E1 E2 HN HL65 H65.
  destruct (C13_scale_lem pr L ms mt from to N N H0 H0' Hne E1 E2 ltac:(lia) HN ltac:(split; [exact HL65|split; [exact H65|right; exists (zprod ms); ring]])) as [s [Es H]].
  exists s. split; auto. intros x r out_len start EP Hx xc HC1 HO HS.
  pose proof (rns_new_inv ms from H0 E1) as WF. pose proof (wr_Q _ _ WF) as HQ.
  rewrite (project_ok from ms WF x Hx) in EP. injection EP as <-.
  destruct (H (map (fun q => x mod q) ms) x) as [x' [y [X1 [X2 [_ [_ [Y HS']]]]]]].
  { apply map_length. }
  { intros i Hi. rewrite (nth_map' _ _ 1) by auto. pose proof (range_nth ms i (wr_range _ _ WF) Hi). apply Z.mod_pos_bound. lia. }
  { intros i Hi. rewrite (nth_map' _ _ 1) by auto. reflexivity. }
  rewrite HS' by auto. rewrite Y by auto.
  assert (EX : x' = xc).
  { unfold xc in *. assert (EC : centred (zprod ms) x = centred (zprod ms) x') by (unfold centred; rewrite X1; reflexivity).
    rewrite EC in *. apply (rep_centred (2 ^ (191 - 2 * L))); auto; [apply Z.pow_pos_nonneg; clear - HL65; lia|lia]. }
  rewrite EX. reflexivity.
Qed.

(*EXAMPLE
Example C14_example :
  (a <- rns_new [97; 193] ;; b <- rns_new [113; 241; 17] ;; f <- sf_new 1 1 ;;
   s <- rns_scaler_new Release a b f ;; r <- rns_project a (97 * 193 - 1000) ;; rns_scale Release s r 2 1)
  = Ok [(-1000) mod 241; (-1000) mod 17].
Proof. vm_compute. reflexivity. Qed.
EXAMPLE*)

Lemma near_m1 Q x' y : 10 <= Q -> x' mod Q = (Q - 1) mod Q -> 3 * Z.abs x' <= 2 * Q -> Z.abs (3 * y - x') <= 3 -> y mod 97 <> 2.
Proof.
  intros HQ HX HB HY HO. rewrite (Z.mod_small (Q - 1)) in HX by lia.
  pose proof (Z.div_mod x' Q ltac:(lia)) as DM. rewrite HX in DM.
  assert (x' = -1). { generalize dependent (x' / Q). clear - HB HQ. intros d DM. assert (d = -1) by nia. subst. lia. }
  subst x'. assert (y = -1 \/ y = 0) as [-> | ->] by lia; discriminate HO.
Qed.
Definition ms12 : list Z := [4611686018427387847; 4611686018427387817; 4611686018427387751; 4611686018427387631;
  4611686018427387301; 4611686018427387271; 4611686018427387139; 4611686018427386911; 4611686018427386663;
  4611686018427386329; 4611686018427386231; 4611686018427385861].

Lemma ms12_run pr : (a <- rns_new ms12 ;; b <- rns_new [97] ;; f <- sf_new 1 3 ;; s <- rns_scaler_new pr a b f ;;
     r <- rns_project a (zprod ms12 - 1) ;; rns_scale pr s r 1 0) = Ok [2].
Proof. destruct pr; vm_compute; reflexivity. Qed.

(** With twelve source moduli the scaled value can be wrong: x = product - 1 stands for -1, and
    -1/3 rounds to 0 (or at worst -1), but the scaler returns the residue of 2.  The carry word
    of v * theta_gamma is dropped once v >= 2^65. *)
Lemma C56_twelve_moduli_refuted_lem : forall pr, exists (ms : list Z) from to s r x q out,
  length ms = 12%nat /\ rns_new ms = Ok from /\ rns_new [q] = Ok to
  /\ (sf <- sf_new 1 3 ;; rns_scaler_new pr from to sf) = Ok s
  /\ 0 <= x < zprod ms /\ rns_project from x = Ok r /\ rns_scale pr s r 1 0 = Ok [out]
  /\ forall x' y, x' mod zprod ms = x mod zprod ms -> 3 * Z.abs x' <= 2 * zprod ms ->
       Z.abs (3 * y - x') <= 3 -> y mod q <> out.
Proof.
  intros pr. pose proof (ms12_run pr) as E.
  apply bind_inv in E. destruct E as [a [Ea E]]. apply bind_inv in E. destruct E as [b [Eb E]].
  apply bind_inv in E. destruct E as [f [Ef E]]. apply bind_inv in E. destruct E as [s [Es E]].
  apply bind_inv in E. destruct E as [r [Er E]].
  exists ms12, a, b, s, r, (zprod ms12 - 1), 97, 2.
  split; [reflexivity|]. split; [auto|]. split; [auto|]. split; [rewrite Ef; exact Es|].
  assert (HQ : 10 <= zprod ms12) by (vm_compute; discriminate).
  split; [clear - HQ; revert HQ; generalize (zprod ms12); intros; lia|]. split; [auto|]. split; [auto|].
  clear - HQ. revert HQ. generalize (zprod ms12). intros Q HQ x' y HX HB HY HO.
  apply (near_m1 Q x' y HQ HX HB HY HO).
Qed.

(** The condition on many moduli in [scale_room] is met by every factor N/D for which N*product/D
    is an integer, so for base extension and for t/product with up to 2^32 moduli of 62 bits:
    the dropped carry is harmless for these. *)
Lemma C56_integral_partial_lem : forall pr L (ms mt : list Z) from to N D,
  Forall (fun q => 0 <= q) ms -> Forall (fun q => 0 <= q) mt -> ms <> [] ->
  rns_new ms = Ok from -> rns_new mt = Ok to -> 0 <= N -> 1 <= D ->
  (N = D \/ D = zprod ms) -> 65 <= L <= 94 -> Z.of_nat (length ms) <= 2 ^ (L - 62) ->
  exists s, (sf <- sf_new N D ;; rns_scaler_new pr from to sf) = Ok s /\
  forall x r out_len start, rns_project from x = Ok r -> 0 <= x ->
    let xc := centred (zprod ms) x in
    2 ^ (191 - 2 * L) * (2 * Z.abs xc) < (2 ^ (191 - 2 * L) - 1) * zprod ms ->
    D <= 2 ^ (125 - L) * (2 * D - (2 * N * xc + D) mod (2 * D)) ->
    (out_len <> 0)%nat -> (start + out_len <= length mt)%nat ->
    rns_scale pr s r out_len start = Ok (map (fun i => ((2 * N * xc + D) / (2 * D)) mod nth (start + i) mt 1) (seq 0 out_len)).
Proof.
  intros pr L ms mt from to N D H0 H0' Hne E1 E2 HN HD HI HL HK.
  pose proof (rns_new_inv ms from H0 E1) as WF. pose proof (wr_Q _ _ WF) as HQ.
  assert (SR : scale_room L N D ms).
  { split; [exact HL|split].
    - intros q Hq. pose proof (wr_range _ _ WF) as R. rewrite Forall_forall in R. specialize (R q Hq).
      replace L with (62 + (L - 62)) by lia. rewrite Z.pow_add_r by lia.
      assert (0 < 2 ^ (L - 62)) by (apply Z.pow_pos_nonneg; lia).
      apply Z.mul_le_mono_nonneg; lia.
    - right. destruct HI as [-> | ->]; [exists (zprod ms); ring|exists N; reflexivity]. }
  destruct (C13_scale_lem pr L ms mt from to N D H0 H0' Hne E1 E2 HN HD SR) as [s [Es H]].
  exists s. split; auto. intros x r out_len start EP Hx xc HC1 HC2 HO HS.
  rewrite (project_ok from ms WF x Hx) in EP. injection EP as <-.
  destruct (H (map (fun q => x mod q) ms) x) as [x' [y [X1 [X2 [Y1 [Y2 [_ HS']]]]]]].
  { apply map_length. }
  { intros i Hi. rewrite (nth_map' _ _ 1) by auto. pose proof (range_nth ms i (wr_range _ _ WF) Hi). apply Z.mod_pos_bound. lia. }
  { intros i Hi. rewrite (nth_map' _ _ 1) by auto. reflexivity. }
  rewrite HS' by auto.
  assert (EX : x' = xc).
  { unfold xc in *. assert (EC : centred (zprod ms) x = centred (zprod ms) x') by (unfold centred; rewrite X1; reflexivity).
    rewrite EC in *. apply (rep_centred (2 ^ (191 - 2 * L))); auto; [apply Z.pow_pos_nonneg; clear - HL; lia|lia]. }
  rewrite EX in *. clear X1 X2 HC1 HS' H.
  assert (EY : y = (2 * N * xc + D) / (2 * D)).
  { pose proof (Z.div_mod (2 * N * xc + D) (2 * D) ltac:(lia)) as DM.
    pose proof (Z.mod_pos_bound (2 * N * xc + D) (2 * D) ltac:(lia)) as MB.
    assert (PB : 0 < 2 ^ (125 - L)) by (apply Z.pow_pos_nonneg; clear - HL; lia).
    set (wb := 2 ^ (125 - L)) in *. clearbody wb.
    revert Y1 Y2 HC2 DM MB. generalize ((2 * N * xc + D) mod (2 * D)) ((2 * N * xc + D) / (2 * D)) (2 * N * xc).
    clear - HD PB. intros m d a Y1 Y2 HC DM MB. nia. }
  rewrite EY. reflexivity.
Qed.

(*EXAMPLE
(** The basis of the counterexample above with factor one: x = product - 1 gives the residue of -1. *)
Example C56_integral_example :
  (a <- rns_new ms12 ;; b <- rns_new [97] ;; f <- sf_new 1 1 ;; s <- rns_scaler_new Debug a b f ;;
     r <- rns_project a (zprod ms12 - 1) ;; rns_scale Debug s r 1 0) = Ok [96]
  /\ Z.of_nat (length ms12) <= 2 ^ (66 - 62)
  /\ 2 ^ (191 - 2 * 66) * (2 * Z.abs (centred (zprod ms12) (zprod ms12 - 1))) < (2 ^ (191 - 2 * 66) - 1) * zprod ms12
  /\ 1 <= 2 ^ (125 - 66) * (2 * 1 - (2 * 1 * centred (zprod ms12) (zprod ms12 - 1) + 1) mod (2 * 1)).
Proof. vm_compute. repeat split; congruence. Qed.
EXAMPLE*)
