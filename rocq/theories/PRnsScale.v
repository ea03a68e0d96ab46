(** RnsScaler (src/rns.rs:138-432). *)
From Verif Require Import PBase NT Spec PSum MModulus MUtils MRns PModulus PUtils PU256 PCrt PRns.

(** ** Rounded quotient, remainder and fixed point remainder *)
Definition rq (N D x : Z) : Z := (N * x + D / 2) / D.
Definition rr (N D x : Z) : Z := N * x - rq N D x * D.
Definition tsigned (sign : bool) (lo hi : Z) : Z := if sign then - (lo + hi * W64) else lo + hi * W64.
Definition theta_ok (up : bool) (D s th : Z) : Prop :=
  if up then 2 ^ 127 * s <= th * D < 2 ^ 127 * s + D else th * D <= 2 ^ 127 * s < th * D + D.

Lemma ceil_bounds a d : 0 < d -> a <= (a + d - 1) / d * d < a + d.
Proof. intros. dlia. Qed.
Lemma floor_bounds a d : 0 < d -> a / d * d <= a < a / d * d + d.
Proof. intros. dlia. Qed.

Lemma split_words t : 0 <= t < W128 ->
  t = (t - t / W64 * W64) + t / W64 * W64 /\ 0 <= t - t / W64 * W64 < W64 /\ 0 <= t / W64 < W64.
Proof. intros. dlia. Qed.

Definition theta_abs (th D : Z) (up sign : bool) : Z :=
  if up then if sign then th * 2 ^ 127 / D else (th * 2 ^ 127 + D - 1) / D
  else if sign then (th * 2 ^ 127 + D - 1) / D else th * 2 ^ 127 / D.

Lemma theta_abs_spec th D up (sign : bool) : 0 < D -> 0 <= th -> 2 * th <= D ->
  0 <= theta_abs th D up sign <= 2 ^ 126 /\
  theta_ok up D (if sign then - th else th) (if sign then - theta_abs th D up sign else theta_abs th D up sign).
Proof.
  intros HD H0 H2. unfold theta_abs, theta_ok.
  pose proof (ceil_bounds (th * 2 ^ 127) D HD) as C. pose proof (floor_bounds (th * 2 ^ 127) D HD) as F.
  set (cc := (th * 2 ^ 127 + D - 1) / D) in *. set (ff := th * 2 ^ 127 / D) in *. clearbody cc ff.
  destruct up, sign; repeat split; nia.
Qed.

Lemma round_div a D : 1 <= D ->
  (a + D / 2) / D = if a mod D + D / 2 <? D then a / D else a / D + 1.
Proof.
  intros HD. assert (E : a + D / 2 = a / D * D + (a mod D + D / 2)) by (pose proof (Z.div_mod a D ltac:(lia)); lia).
  rewrite E at 1. rewrite Z.div_add_l by lia.
  pose proof (Z.mod_pos_bound a D ltac:(lia)) as MB.
  assert (HD2 : 0 <= D / 2 /\ 2 * (D / 2) <= D) by dlia.
  set (h := D / 2) in *. set (r := a mod D) in *. set (q := a / D) in *. clearbody h r q.
  destruct (r + h <? D) eqn:X.
  - rewrite (Z.div_small (r + h) D) by lia. lia.
  - replace ((r + h) / D) with 1; [lia|]. apply Z.div_unique with (r + h - D); lia.
Qed.

Lemma rr_cases N D x : 1 <= D -> 0 <= N * x ->
  let th0 := (N * x) mod D in
  forall th1 sign,
  (if 1 <? D then
      if Z.land D 1 =? 1 then
        if Z.shiftr D 1 <? th0 then (D - th0, true) else (th0, false)
      else
        if Z.shiftr D 1 <=? th0 then (D - th0, true) else (th0, false)
    else (th0, false)) = (th1, sign) ->
  0 <= th1 /\ 2 * th1 <= D /\ rr N D x = if sign then - th1 else th1.
Proof.
  intros HD Hx th0 th1 sign E. unfold rr, rq. unfold th0 in *. clear th0.
  change 1 with (Z.ones 1) in E at 2. rewrite Z.land_ones in E by lia. change (Z.ones 1) with 1 in E.
  rewrite shiftr_div in E by lia. change (2 ^ 1) with 2 in E.
  generalize dependent (N * x). intros a Ha E. clear N x.
  assert (Q : (a + D / 2) / D = if a mod D + D / 2 <? D then a / D else a / D + 1).
  { apply round_div; lia. }
  rewrite Q. clear Q. pose proof (Z.div_mod a D ltac:(lia)) as DM. pose proof (Z.mod_pos_bound a D ltac:(lia)) as MB.
  set (r := a mod D) in *. set (q := a / D) in *. clearbody r q.
  destruct (1 <? D) eqn:E1.
  - destruct (D mod 2 =? 1) eqn:E2.
    + destruct (D / 2 <? r) eqn:E3; injection E as <- <-; destruct (r + D / 2 <? D) eqn:E4; dlia.
    + destruct (D / 2 <=? r) eqn:E3; injection E as <- <-; destruct (r + D / 2 <? D) eqn:E4; dlia.
  - injection E as <- <-. destruct (r + D / 2 <? D) eqn:E4; dlia.
Qed.

Lemma extract_ok to mt x N D up : wf_rns to mt -> 1 <= D -> 0 <= N -> 0 <= x ->
  exists lo hi sg,
    extract_projection_and_theta to x N D up = Ok (map (fun q => rq N D x mod q) mt, lo, hi, sg)
    /\ 0 <= lo < W64 /\ 0 <= hi < W64 /\ lo + hi * W64 <= 2 ^ 126
    /\ theta_ok up D (rr N D x) (tsigned sg lo hi).
Proof.
  intros W HD HN Hx. assert (HNx : 0 <= N * x) by nia.
  unfold extract_projection_and_theta.
  rewrite udiv_ok by lia. cbn [bind].
  assert (G : (N * x + Z.shiftr D 1) / D = rq N D x) by (rewrite shiftr_div by lia; reflexivity).
  rewrite G. clear G.
  rewrite (project_ok to mt W) by (unfold rq; apply Z.div_pos; dlia). cbn [bind].
  rewrite umod_ok by lia. cbn [bind].
  destruct (if 1 <? D then
      if Z.land D 1 =? 1 then
        if Z.shiftr D 1 <? (N * x) mod D then (D - (N * x) mod D, true) else ((N * x) mod D, false)
      else
        if Z.shiftr D 1 <=? (N * x) mod D then (D - (N * x) mod D, true) else ((N * x) mod D, false)
    else ((N * x) mod D, false)) as [th1 sg] eqn:E.
  destruct (rr_cases N D x HD HNx th1 sg E) as [T0 [T2 TR]]. clear E.
  destruct (theta_abs_spec th1 D up sg ltac:(lia) T0 T2) as [AB AO].
  assert (E2 : (if up then
               if sg then udiv (Z.shiftl th1 127) D
               else udiv (Z.shiftl th1 127 + D - 1) D
             else
               if sg then udiv (Z.shiftl th1 127 + D - 1) D
               else udiv (Z.shiftl th1 127) D) = Ok (theta_abs th1 D up sg)).
  { unfold theta_abs. rewrite Z.shiftl_mul_pow2 by lia.
    destruct up, sg; rewrite udiv_ok by lia; reflexivity. }
  rewrite E2. cbn [bind]. rewrite shiftr64, shiftl64.
  set (t := theta_abs th1 D up sg) in *. clearbody t.
  destruct (split_words t ltac:(lia)) as [S1 [S2 S3]].
  rewrite !to_u64_ok by lia. cbn [bind unwrap].
  eexists _, _, _. split; [reflexivity|]. split; [auto|]. split; [auto|]. split; [lia|].
  rewrite TR. unfold tsigned. rewrite <- S1. exact AO.
Qed.

(** ** Invariant of a constructed scaler *)
Record wf_scaler (s : RnsScaler) (from to : RnsContext) (ms mt : list Z) (N D : Z) : Prop := {
  wc_from : rs_from s = from;
  wc_to : rs_to s = to;
  wc_wf : wf_rns from ms;
  wc_wt : wf_rns to mt;
  wc_D : 1 <= D;
  wc_N : 0 <= N;
  wc_one : sf_is_one (rs_factor s) = (N =? D);
  wc_gamma : rs_gamma s = map (fun q => rq N D (zprod ms) mod q) mt;
  wc_gammas : rs_gamma_shoup s = map (fun q => shoup_of q (rq N D (zprod ms) mod q)) mt;
  wc_tg : 0 <= rs_theta_gamma_lo s < W64 /\ 0 <= rs_theta_gamma_hi s < W64
     /\ rs_theta_gamma_lo s + rs_theta_gamma_hi s * W64 <= 2 ^ 126
     /\ theta_ok false D (rr N D (zprod ms)) (tsigned (rs_theta_gamma_sign s) (rs_theta_gamma_lo s) (rs_theta_gamma_hi s));
  wc_omega : rs_omega s = map (fun q => map (fun g => rq N D g mod q) (rns_garner from)) mt;
  wc_omegas : rs_omega_shoup s = map (fun q => map (fun g => shoup_of q (rq N D g mod q)) (rns_garner from)) mt;
  wc_tol : length (rs_theta_omega_lo s) = length ms /\ length (rs_theta_omega_hi s) = length ms
     /\ length (rs_theta_omega_sign s) = length ms;
  wc_to_ : forall i, (i < length ms)%nat ->
     0 <= nth i (rs_theta_omega_lo s) 0 < W64 /\ 0 <= nth i (rs_theta_omega_hi s) 0 < W64
     /\ nth i (rs_theta_omega_lo s) 0 + nth i (rs_theta_omega_hi s) 0 * W64 <= 2 ^ 126
     /\ theta_ok true D (rr N D (nth i (rns_garner from) 0))
          (tsigned (nth i (rs_theta_omega_sign s) false) (nth i (rs_theta_omega_lo s) 0) (nth i (rs_theta_omega_hi s) 0));
  wc_sh : 1 <= rs_theta_garner_shift s <= 127 /\
     (forall q, In q ms -> q * Z.of_nat (length ms) <= 2 ^ (191 - rs_theta_garner_shift s)) /\
     (forall L, 64 <= L -> (forall q, In q ms -> q * Z.of_nat (length ms) <= 2 ^ L) -> 191 - L <= rs_theta_garner_shift s);
  wc_tgl : length (rs_theta_garner_lo s) = length ms /\ length (rs_theta_garner_hi s) = length ms;
  wc_tgi : forall i, (i < length ms)%nat ->
     0 <= nth i (rs_theta_garner_lo s) 0 < W64 /\ 0 <= nth i (rs_theta_garner_hi s) 0 < W64
     /\ nth i (rs_theta_garner_lo s) 0 + nth i (rs_theta_garner_hi s) 0 * W64
        = (nth i (rns_garner from) 0 * 2 ^ rs_theta_garner_shift s + zprod ms / 2) / zprod ms }.

(** *** Construction *)
Lemma minlistZ_spec l : l <> [] -> exists m, minlistZ l = Some m /\ In m l /\ forall x, In x l -> m <= x.
Proof.
  induction l as [|x l IH]; intros H; [congruence|]. cbn [minlistZ]. destruct l as [|y l].
  - exists x. cbn [minlistZ]. split; auto. split; [left; auto|]. intros z [->|[]]. lia.
  - destruct IH as [m [E [I M]]]; [discriminate|]. rewrite E. exists (Z.min x m). split; auto. split.
    + destruct (Z.min_spec x m) as [[_ ->]|[_ ->]]; [left; auto|right; auto].
    + intros z [->|Hz]; [lia|]. specialize (M z Hz). lia.
Qed.

Lemma shift_elem pr q k : 2 <= q < P62 -> 1 <= k <= 2 ^ 64 ->
  (p <- mul128 pr q k ;; l <- ilog2 pr 128 (next_power_of_two p) ;; sub64 pr (192 - 1) l)
  = Ok (191 - Z.log2_up (q * k)).
Proof.
  intros Hq Hk. assert (B : 2 <= q * k < 2 ^ 126) by nia.
  rewrite mul128_ok by lia. cbn [bind]. unfold next_power_of_two.
  assert (L0 : 0 <= Z.log2_up (q * k)) by apply Z.log2_up_nonneg.
  assert (L : Z.log2_up (q * k) <= 126) by (apply Z.log2_up_le_pow2; lia).
  rewrite ilog2_ok; [|lia|].
  2:{ split; [apply Z.pow_pos_nonneg; lia|]. apply Z.pow_lt_mono_r; lia. }
  cbn [bind]. rewrite Z.log2_pow2 by lia. rewrite sub64_ok; [reflexivity|]. lia.
Qed.

Lemma tgarner_bound g Q sh : 0 <= g < Q -> 0 <= sh -> 0 <= (g * 2 ^ sh + Q / 2) / Q <= 2 ^ sh.
Proof.
  intros Hg Hs. assert (1 <= 2 ^ sh) by (pose proof (Z.pow_pos_nonneg 2 sh); lia).
  split; [apply Z.div_pos; dlia|].
  assert (Q / 2 < Q) by dlia.
  apply Z.lt_succ_r. apply Z.div_lt_upper_bound; nia.
Qed.

Lemma mapM_mapM_ext {A B} (f g : A -> outcome B) l : (forall x, In x l -> f x = g x) -> mapM f l = mapM g l.
Proof.
  induction l as [|x l IH]; intros H; auto. cbn [mapM]. rewrite H by (left; auto). rewrite IH; auto.
  intros; apply H; right; auto.
Qed.

Lemma combine_seq_nth {A} (l : list A) s (da : A) p : In p (combine (seq s (length l)) l) ->
  (s <= fst p < s + length l)%nat /\ snd p = nth (fst p - s) l da.
Proof.
  revert s; induction l as [|x l IH]; intros s H; simpl in H; [contradiction|]. destruct H as [<-|H].
  - simpl. rewrite Nat.sub_diag. split; [lia|auto].
  - apply IH in H. destruct H as [H1 H2]. simpl. split; [lia|]. rewrite H2.
    replace (fst p - s)%nat with (S (fst p - S s)) by lia. reflexivity.
Qed.

Lemma map_combine_seq {A B} (l : list A) s (f : A -> B) : map (fun p => f (snd p)) (combine (seq s (length l)) l) = map f l.
Proof. revert s; induction l as [|x l IH]; intros s; simpl; [auto|]. f_equal. apply IH. Qed.
Lemma map_ext_forall2 {A B C} (R : A -> B -> Prop) (f : A -> C) (g : B -> C) l l' :
  Forall2 R l l' -> (forall x y, R x y -> f x = g y) -> map f l = map g l'.
Proof. intros H HR. induction H; simpl; [auto|]. f_equal; auto. Qed.

Lemma zipM_forall2_ok {A B C} (f : A -> B -> outcome C) (g : B -> C) (h : B -> A) bs :
  (forall b, In b bs -> f (h b) b = Ok (g b)) -> zipM f (map h bs) bs = Ok (map g bs).
Proof.
  induction bs as [|b bs IH]; intros H; [reflexivity|]. cbn [map zipM]. rewrite H by (left; auto). cbn [bind].
  rewrite IH by (intros; apply H; right; auto). reflexivity.
Qed.

Lemma rns_mods_map c ms (f : Z -> Z) : wf_rns c ms -> map f ms = map (fun m => f (mp m)) (rns_moduli c).
Proof.
  intros W. eapply map_ext_forall2; [apply (wr_mod _ _ W)|]. intros x y [_ <-]. reflexivity.
Qed.
Lemma rns_mods_mapg {C} c ms (f : Z -> C) : wf_rns c ms -> map f ms = map (fun m => f (mp m)) (rns_moduli c).
Proof.
  intros W. eapply map_ext_forall2; [apply (wr_mod _ _ W)|]. intros x y [_ <-]. reflexivity.
Qed.
Lemma rns_mods_valid c ms m : wf_rns c ms -> In m (rns_moduli c) -> valid_mod m.
Proof.
  intros W. pose proof (wr_mod _ _ W) as F. clear W. induction F as [|q m' ms' l [V _] F IH]; intros Hi; [contradiction|].
  destruct Hi as [<-|Hi]; auto.
Qed.
Lemma rns_mods_length c ms : wf_rns c ms -> length (rns_moduli c) = length ms.
Proof. intros W. symmetry. eapply forall2_length, (wr_mod _ _ W). Qed.

Definition dmod : Modulus := mkModulus 0 0 0.

Lemma rns_scaler_new_ok pr from to ms mt sf N D :
  wf_rns from ms -> wf_rns to mt -> ms <> [] -> Z.of_nat (length ms) <= 2 ^ 64 -> 0 <= N -> 1 <= D ->
  sf = mkSF N D (N =? D) ->
  exists s, rns_scaler_new pr from to sf = Ok s /\ wf_scaler s from to ms mt N D.
Proof.
  intros WF WT Hne Hk HN HD ->. unfold rns_scaler_new. cbn [sf_num sf_den].
  rewrite (wr_prod _ _ WF). pose proof (wr_Q _ _ WF) as HQ.
  destruct (extract_ok to mt (zprod ms) N D false WT HD HN ltac:(lia)) as [glo [ghi [gsg [Eg Hg]]]].
  rewrite Eg. cbn [bind]. clear Eg.
  assert (Egs : zipM (fun wi q => shoup pr q wi) (map (fun q => rq N D (zprod ms) mod q) mt) (rns_moduli to)
     = Ok (map (fun q => shoup_of q (rq N D (zprod ms) mod q)) mt)).
  { rewrite (rns_mods_mapg to mt (fun q => rq N D (zprod ms) mod q) WT).
    rewrite (rns_mods_mapg to mt (fun q => shoup_of q (rq N D (zprod ms) mod q)) WT).
    apply zipM_forall2_ok. intros m Hm. pose proof (rns_mods_valid _ _ m WT Hm) as V. pose proof (valid_range m V).
    apply shoup_ok; auto. apply Z.mod_pos_bound. lia. }
  rewrite Egs. cbn [bind]. clear Egs.
  pose proof (wr_gl _ _ WF) as GL.
  assert (GN : forall g, In g (rns_garner from) -> 0 <= g < zprod ms).
  { intros g Hi. apply In_nth with (d := 0) in Hi. destruct Hi as [i [Hi <-]]. apply (wr_g _ _ WF). lia. }
  destruct (mapM_exists (fun g => extract_projection_and_theta to g N D true)
    (fun g e => fst (fst (fst e)) = map (fun q => rq N D g mod q) mt
      /\ 0 <= snd (fst (fst e)) < W64 /\ 0 <= snd (fst e) < W64 /\ snd (fst (fst e)) + snd (fst e) * W64 <= 2 ^ 126
      /\ theta_ok true D (rr N D g) (tsigned (snd e) (snd (fst (fst e))) (snd (fst e)))) (rns_garner from))
    as [exts [Ee Fe]].
  { intros g Hi. destruct (extract_ok to mt g N D true WT HD HN ltac:(apply GN; auto)) as [lo [hi [sg [E H]]]].
    exists (map (fun q => rq N D g mod q) mt, lo, hi, sg). split; auto. }
  rewrite Ee. cbn [bind]. clear Ee.
  pose proof (forall2_length _ _ _ Fe) as LE.
  pose proof (rns_mods_length _ _ WT) as LT.
  assert (Eo : mapM (fun jq : nat * Modulus =>
                   mapM (fun e : list Z * Z * Z * bool =>
                           w <- get (fst (fst (fst e))) (fst jq) ;;
                           mreduce pr (snd jq) w) exts)
                (combine (seq 0 (length (rns_moduli to))) (rns_moduli to))
     = Ok (map (fun q => map (fun g => rq N D g mod q) (rns_garner from)) mt)).
  { rewrite (rns_mods_mapg to mt (fun q => map (fun g => rq N D g mod q) (rns_garner from)) WT).
    rewrite <- (map_combine_seq (rns_moduli to) 0 (fun m => map (fun g => rq N D g mod mp m) (rns_garner from))).
    apply mapM_ok. intros [j m] Hjm. apply (combine_seq_nth _ _ dmod) in Hjm. cbn [fst snd] in *. destruct Hjm as [Hj Hm].
    rewrite Nat.sub_0_r in Hm.
    assert (V : valid_mod m) by (apply rns_mods_valid with to mt; auto; rewrite Hm; apply nth_In; lia).
    assert (Hmp : nth j mt 1 = mp m).
    { rewrite Hm. destruct (forall2_nth _ _ _ 1 dmod j (wr_mod _ _ WT) ltac:(lia)) as [_ E]. auto. }
    pose proof (valid_range m V).
    clear - Fe Hj V Hmp LT H. induction Fe as [|g e gs exts [E _] Fe IH]; [reflexivity|].
    cbn [mapM map]. rewrite E. rewrite (get_ok _ j 0) by (rewrite map_length; lia). cbn [bind].
    rewrite (nth_map' _ _ 1) by lia. rewrite Hmp.
    pose proof (Z.mod_pos_bound (rq N D g) (mp m) ltac:(lia)).
    rewrite mreduce_ok by (auto; lia). cbn [bind]. rewrite Z.mod_mod by lia. rewrite IH. reflexivity. }
  rewrite Eo. cbn [bind]. clear Eo.
  assert (Eos : zipM (fun row q => mapM (shoup pr q) row) (map (fun q => map (fun g => rq N D g mod q) (rns_garner from)) mt) (rns_moduli to)
    = Ok (map (fun q => map (fun g => shoup_of q (rq N D g mod q)) (rns_garner from)) mt)).
  { rewrite (rns_mods_mapg to mt (fun q => map (fun g => rq N D g mod q) (rns_garner from)) WT).
    rewrite (rns_mods_mapg to mt (fun q => map (fun g => shoup_of q (rq N D g mod q)) (rns_garner from)) WT).
    apply zipM_forall2_ok. intros m Hm. pose proof (rns_mods_valid _ _ m WT Hm) as V. pose proof (valid_range m V).
    rewrite <- (map_map (fun g => rq N D g mod mp m) (shoup_of (mp m))).
    apply mapM_ok. intros x Hx. apply in_map_iff in Hx. destruct Hx as [g [<- _]].
    apply shoup_ok; auto. apply Z.mod_pos_bound. lia. }
  rewrite Eos. cbn [bind]. clear Eos.
  rewrite (wr_ms _ _ WF). set (k := Z.of_nat (length ms)) in *.
  assert (Hk1 : 1 <= k) by (destruct ms; [congruence|unfold k; cbn [length]; lia]).
  assert (RQ : forall q, In q ms -> 2 <= q < P62).
  { intros q Hq. pose proof (wr_range _ _ WF) as R. rewrite Forall_forall in R. apply R. auto. }
  rewrite (mapM_ok _ (fun q => 191 - Z.log2_up (q * k))) by (intros q Hq; apply shift_elem; auto).
  cbn [bind].
  destruct (minlistZ_spec (map (fun q => 191 - Z.log2_up (q * k)) ms)) as [mn [Em [Im Mm]]].
  { destruct ms; [congruence|discriminate]. }
  rewrite Em. cbn [bind unwrap]. cbv zeta.
  set (sh := Z.min mn 127).
  assert (Hsh : 1 <= sh <= 127).
  { apply in_map_iff in Im. destruct Im as [q [Eq Hq]]. specialize (RQ q Hq).
    assert (Z.log2_up (q * k) <= 126) by (apply Z.log2_up_le_pow2; nia). unfold sh. lia. }
  destruct (mapM_exists (fun g =>
                    t <- udiv (Z.shiftl g sh + Z.shiftr (zprod ms) 1) (zprod ms) ;;
                    let t_hi := Z.shiftr t 64 in
                    let t_lo := t - Z.shiftl t_hi 64 in
                    lo <- unwrap (to_u64 t_lo) ;;
                    hi <- unwrap (to_u64 t_hi) ;;
                    Ok (lo, hi))
     (fun g p => 0 <= fst p < W64 /\ 0 <= snd p < W64 /\ fst p + snd p * W64 = (g * 2 ^ sh + zprod ms / 2) / zprod ms)
     (rns_garner from)) as [th [Et Ft]].
  { intros g Hi. specialize (GN g Hi). pose proof (tgarner_bound g (zprod ms) sh GN ltac:(lia)) as TB.
    assert (2 ^ sh <= 2 ^ 127) by (apply Z.pow_le_mono_r; lia).
    rewrite Z.shiftl_mul_pow2, (shiftr_div (zprod ms)) by lia. change (2 ^ 1) with 2.
    rewrite udiv_ok by lia. cbn [bind]. rewrite shiftr64, shiftl64.
    set (t := (g * 2 ^ sh + zprod ms / 2) / zprod ms) in *. clearbody t.
    destruct (split_words t ltac:(lia)) as [S1 [S2 S3]].
    rewrite !to_u64_ok by lia. cbn [bind unwrap]. eexists. split; [reflexivity|]. cbn [fst snd].
    split; [auto|]. split; [auto|]. lia. }
  cbv zeta in Et. rewrite Et. cbn [bind]. clear Et. pose proof (forall2_length _ _ _ Ft) as LTh.
  eexists. split; [reflexivity|].
  constructor; cbn [rs_from rs_to rs_factor rs_gamma rs_gamma_shoup rs_theta_gamma_lo rs_theta_gamma_hi rs_theta_gamma_sign
    rs_omega rs_omega_shoup rs_theta_omega_lo rs_theta_omega_hi rs_theta_omega_sign rs_theta_garner_lo rs_theta_garner_hi
    rs_theta_garner_shift sf_is_one]; auto.
  - rewrite !map_length. lia.
  - intros i Hi. destruct (forall2_nth _ _ _ 0 ([], 0, 0, false) i Fe ltac:(lia)) as [_ [H1 [H2 [H3 H4]]]].
    rewrite !(nth_map' _ exts ([], 0, 0, false)) by lia. auto.
  - split; [auto|]. split.
    + intros q Hq.
      assert (sh <= 191 - Z.log2_up (q * k)).
      { specialize (Mm (191 - Z.log2_up (q * k))). unfold sh. rewrite Z.min_le_iff. left. apply Mm. apply in_map_iff. eauto. }
      fold k. apply Z.log2_up_le_pow2; [specialize (RQ q Hq); clear -RQ Hk1; nia|clear -H; clearbody sh; lia].
    + intros L HL HB. apply in_map_iff in Im. destruct Im as [q [Eq Hq]]. specialize (RQ q Hq).
      assert (Z.log2_up (q * k) <= L) by (apply Z.log2_up_le_pow2; auto; nia). unfold sh. lia.
  - rewrite !map_length. lia.
  - intros i Hi. destruct (forall2_nth _ _ _ 0 (0, 0) i Ft ltac:(lia)) as [H1 [H2 H3]].
    rewrite !(nth_map' _ th (0, 0)) by lia. auto.
Qed.
