(** Claim C98: what making a query and PVW encryption give away through their steps. *)
From Verif Require Import PBase NT Spec PSum MModulus MUtils MBfv MEval MPvw PModulus PUtils PRq SpecPvw PPvw MTrace MTrace2 MTrace4 MTrace5 SpecTrace SpecTrace2 SpecTrace5 QTrace QTrace2 QTrace4.

(** ** Values *)
Lemma mapM_all {A B} (f : A -> B) l : mapM (fun x => Ok (f x)) l = Ok (map f l).
Proof. induction l as [|x l IH]; [reflexivity|]. cbn [mapM map bind]. rewrite IH. reflexivity. Qed.
Lemma v_one_hot n k : snd (t_one_hot n k) = Ok (one_hot n k).
Proof. unfold t_one_hot, one_hot. rewrite (v_each _ (fun j => Ok (if (j =? k)%nat then 1 else 0))) by reflexivity. apply mapM_all. Qed.
Lemma v_encode c qd r : snd (t_client_encode c qd r) = client_encode Release c qd r.
Proof.
  unfold t_client_encode, client_encode. rewrite snd_bind. cbn [t_get snd]. apply bind_ext. intros q0. rewrite snd_bind. cbn [t_assert snd]. apply bind_ext. intros _.
  rewrite snd_bind, v_one_hot. cbn [bind]. rewrite snd_bind. cbn [t_div snd]. apply bind_ext. intros k. rewrite snd_bind. rewrite chkR by reflexivity. cbn [wd snd bind].
  rewrite snd_bind. cbn [t_div snd]. apply bind_ext. intros k'. rewrite snd_bind. cbn [t_assert snd]. apply bind_ext. intros _. rewrite snd_bind.
  rewrite (v_each _ (fun q => rassert (q <? cl_dim c)%nat ;;; Ok (one_hot (cl_dim c) q))); [reflexivity|]. intros q. rewrite snd_bind. cbn [t_assert snd]. apply bind_ext. intros _. apply v_one_hot.
Qed.
Lemma v_at2 t m i j : snd (t_at2 t m i j) = get2 m i j.
Proof. unfold t_at2, get2. rewrite snd_bind. reflexivity. Qed.
Lemma foldM_ext' {A B} (f g : B -> A -> outcome B) l : (forall b x, f b x = g b x) -> forall b, foldM f l b = foldM g l b.
Proof. intros H. induction l as [|x l IH]; intros b; [reflexivity|]. cbn [foldM]. rewrite H. apply bind_ext. intros; apply IH. Qed.
Lemma v_dot q n x y gx gy : (forall i, snd (x i) = gx i) -> (forall i, snd (y i) = gy i) -> snd (t_pvw_dot q n x y) = pvw_dot Release q n gx gy.
Proof.
  intros Hx Hy. unfold t_pvw_dot, pvw_dot. apply v_fold. intros b i. rewrite snd_bind, Hx. apply bind_ext. intros a. rewrite snd_bind, Hy. apply bind_ext. intros a'.
  rewrite snd_bind, v_mul. apply bind_ext. intros; apply v_add.
Qed.
Lemma v_entry q n sk a err l p i : snd (t_pvw_pk_entry q n sk a err l p i) = pvw_pk_entry Release q n sk a err l p i.
Proof.
  unfold t_pvw_pk_entry, pvw_pk_entry. rewrite snd_bind, (v_dot _ _ _ _ (get2 sk l) (get2 a i)) by (intros; apply v_at2). apply bind_ext. intros s. rewrite snd_bind. cbn [t_at snd]. apply bind_ext. intros e.
  rewrite snd_bind, v_add. apply bind_ext. intros s'. rewrite snd_bind. cbn [t_at snd]. apply bind_ext. intros row. rewrite snd_bind. reflexivity.
Qed.
Lemma v_gen_pk sk P a w : snd (t_pvw_gen_pk sk P a w) = pvw_gen_pk Release sk P a w.
Proof.
  unfold t_pvw_gen_pk, pvw_gen_pk. rewrite snd_bind. cbn [t_modulus_new snd]. apply bind_ext. intros q. rewrite snd_bind.
  rewrite (v_fold _ (fun p l => e <- sample_vec_cbd Release (pv_m P) (pv_variance P) (w l) ;; err <- reduce_vec_i64 Release q e ;; foldM (pvw_pk_entry Release q (pv_n P) sk a err l) (seq 0 (pv_m P)) p)).
  - apply bind_ext. intros p. apply v_each. intros i. rewrite snd_bind. cbn [t_at snd]. apply bind_ext. intros b. rewrite snd_bind. reflexivity.
  - intros p l. rewrite snd_bind, v_sample. apply bind_ext. intros e. rewrite snd_bind. unfold t_reduce_vec_i64, reduce_vec_i64. rewrite (v_map _ (reduce_i64 Release q)) by (intros; apply v_reduce_i64). apply bind_ext. intros err.
    apply v_fold. intros; apply v_entry.
Qed.
Lemma v_decrypt sk P ct : snd (t_pvw_decrypt sk P ct) = pvw_decrypt Release sk P ct.
Proof.
  unfold t_pvw_decrypt, pvw_decrypt. rewrite snd_bind. cbn [t_modulus_new snd]. apply bind_ext. intros q. rewrite snd_bind.
  rewrite (v_fold _ (fun b l => sum <- pvw_dot Release q (pv_n P) (get2 sk l) (get (pc_a ct)) ;; bl <- get b l ;; d <- msub Release q bl sum ;; set b l d)).
  - apply bind_ext. intros b. apply v_map. intros v. unfold t_pvw_round. rewrite snd_bind, v_add64. apply bind_ext. intros s. rewrite snd_bind. reflexivity.
  - intros b l. rewrite snd_bind, (v_dot _ _ _ _ (get2 sk l) (get (pc_a ct))) by (intros; try apply v_at2; reflexivity). apply bind_ext. intros s. rewrite snd_bind. cbn [t_at snd]. apply bind_ext. intros bl.
    rewrite snd_bind, v_sub. reflexivity.
Qed.
Lemma v_acc q e x acc ge gx : snd e = ge -> (forall i, snd (x i) = gx i) -> snd (t_pvw_acc q e x acc) = pvw_acc Release q ge gx acc.
Proof.
  intros He Hx. unfold t_pvw_acc, pvw_acc. apply v_each. intros i. rewrite snd_bind, Hx. apply bind_ext. intros xi. rewrite snd_bind, He. apply bind_ext. intros ei.
  rewrite snd_bind, v_mul. apply bind_ext. intros p. rewrite snd_bind. cbn [t_at snd]. apply bind_ext. intros y. rewrite snd_bind, v_add. destruct (madd _ _ _ _); reflexivity.
Qed.
Lemma v_encrypt pk P m e : snd (t_pvw_encrypt pk P m e) = pvw_encrypt Release pk P m e.
Proof.
  unfold t_pvw_encrypt, pvw_encrypt. rewrite snd_bind. cbn [t_modulus_new snd]. apply bind_ext. intros q. rewrite snd_bind.
  rewrite (v_fold _ (fun (st : list Z * list Z) i =>
                      b <- pvw_acc Release q (get e i) (fun l => row <- get pk i ;; get (pc_b row) l) (fst st) ;;
                      a <- pvw_acc Release q (get e i) (fun l => row <- get pk i ;; get (pc_a row) l) (snd st) ;;
                      Ok (b, a))).
  - apply bind_ext. intros [b a]. rewrite snd_bind. rewrite (v_zip _ (fun v m_v => t <- mul64 Release (pv_q P / 2) m_v ;; madd Release q v t)); [reflexivity|].
    intros x y. rewrite snd_bind, v_mul64. apply bind_ext. intros; apply v_add.
  - intros st i. rewrite snd_bind. rewrite (v_acc _ _ _ _ (get e i) (fun l => row <- get pk i ;; get (pc_b row) l)); [|reflexivity|intros; rewrite snd_bind; reflexivity]. apply bind_ext. intros b.
    rewrite snd_bind. rewrite (v_acc _ _ _ _ (get e i) (fun l => row <- get pk i ;; get (pc_a row) l)); [|reflexivity|intros; rewrite snd_bind; reflexivity]. reflexivity.
Qed.

(** The recorded runs compute what the model computes in a Release build. *)
Lemma C98_values_lem :
  (forall c qd r, snd (t_client_encode c qd r) = client_encode Release c qd r)
  /\ (forall sk P a w, snd (t_pvw_gen_pk sk P a w) = pvw_gen_pk Release sk P a w)
  /\ (forall pk P m e, snd (t_pvw_encrypt pk P m e) = pvw_encrypt Release pk P m e)
  /\ (forall sk P ct, snd (t_pvw_decrypt sk P ct) = pvw_decrypt Release sk P ct).
Proof. split; [exact v_encode|]. split; [exact v_gen_pk|]. split; [exact v_encrypt|exact v_decrypt]. Qed.

(** ** Steps *)
Lemma r_one_hot n k k' : rel (Forall2 any) (t_one_hot n k) (t_one_hot n k').
Proof. apply (r_each eq any); [|apply F2_eq]. intros; apply rel_wd. Qed.

(** The steps of making a query for an accepted position do not tell the
    position: two lists of indices of the same length, each within its
    dimension, look the same, and so they do when both first indices, or the
    same later ones, are out of range. *)
Lemma C98_query_lem :
  forall c qd qd' r,
    Forall2 (fun x y => (x <? cl_dim c)%nat = (y <? cl_dim c)%nat) (tl qd) (tl qd') ->
    length qd = length qd' ->
    (nth 0 qd 0 <? cl_first_dim c)%nat = (nth 0 qd' 0 <? cl_first_dim c)%nat ->
    looks_same (t_client_encode c qd r) (t_client_encode c qd' r).
Proof.
  intros c qd qd' r HT HL H0. apply (rel_looks any). unfold t_client_encode. rewrite HL. destruct qd as [|x qd], qd' as [|y qd']; try discriminate HL; [split; [reflexivity|exact I]|].
  cbn [nth] in H0. cbn [tl] in HT |- *. eapply rel_bind with (R := fun a b => (a <? cl_first_dim c)%nat = (b <? cl_first_dim c)%nat); [split; [reflexivity|exact H0]|].
  intros a b E. rewrite E. eapply rel_bind; [apply r_assert|]. intros ? ? _. eapply rel_bind; [apply r_one_hot|]. intros f f' _.
  eapply rel_bind; [apply (rel_refl eq); reflexivity|]. intros k ? <-. eapply rel_bind; [apply (rel_refl eq); reflexivity|]. intros p ? <-. eapply rel_bind; [apply (rel_refl eq); reflexivity|]. intros k' ? <-.
  eapply rel_bind; [apply r_assert|]. intros ? ? _. eapply rel_bind with (R := any); [|intros; apply rel_ret; exact I].
  eapply rel_weak; [|apply (r_each (fun x y => (x <? cl_dim c)%nat = (y <? cl_dim c)%nat) (Forall2 any)); [|exact HT]]; [intros; exact I|].
  intros u v Huv. cbn beta in Huv |- *. rewrite Huv. eapply rel_bind; [apply r_assert|]. intros ? ? _. apply r_one_hot.
Qed.

Lemma r_atR {A} (R : A -> A -> Prop) t a b i : Forall2 R a b -> rel R (t_at t a i) (t_at t b i).
Proof. intros H. destruct (r_get R a b i H) as [_ E]. split; [reflexivity|exact E]. Qed.
Lemma r_at2 t x y i j : like_mat x y -> rel any (t_at2 t x i j) (t_at2 t y i j).
Proof. intros H. unfold t_at2. eapply rel_bind; [apply (r_atR _ _ _ _ _ H)|]. intros r s E. apply r_at, E. Qed.
Lemma r_dot q n x y x' y' : (forall i, rel any (x i) (x' i)) -> (forall i, rel any (y i) (y' i)) -> rel any (t_pvw_dot q n x y) (t_pvw_dot q n x' y').
Proof.
  intros Hx Hy. apply (r_fold any); [|exact I]. intros b c i _. eapply rel_bind; [apply Hx|]. intros ? ? _. eapply rel_bind; [apply Hy|]. intros ? ? _. eapply rel_bind; [apply r_mul|]. intros; apply r_add.
Qed.
Lemma F2_upd {A} (R : A -> A -> Prop) a b : Forall2 R a b -> forall i v w, R v w -> Forall2 R (upd a i v) (upd b i w).
Proof. induction 1 as [|x y a b Hx H IH]; intros [|i] v w Hv; cbn [upd]; constructor; auto. Qed.
Lemma F2_length {A B} (R : A -> B -> Prop) a b : Forall2 R a b -> length a = length b.
Proof. induction 1; cbn [length]; congruence. Qed.
Lemma r_putR {A} (R : A -> A -> Prop) a b i v w : Forall2 R a b -> R v w -> rel (Forall2 R) (t_put a i v) (t_put b i w).
Proof. intros H Hv. split; [reflexivity|]. cbn [t_put snd]. unfold set. rewrite (F2_length _ _ _ H). destruct (_ <? _)%nat; [apply F2_upd; assumption|exact I]. Qed.
Lemma like_refl x : like_mat x x.
Proof. induction x; constructor; auto. Qed.
Lemma r_entry q n sk sk' a a' err err' l p p' i : like_mat sk sk' -> like_mat a a' -> length err = length err' -> like_mat p p' ->
  rel like_mat (t_pvw_pk_entry q n sk a err l p i) (t_pvw_pk_entry q n sk' a' err' l p' i).
Proof.
  intros Hs Ha He Hp. unfold t_pvw_pk_entry. eapply rel_bind; [apply r_dot; intros; apply r_at2; assumption|]. intros ? ? _. eapply rel_bind; [apply r_at, He|]. intros ? ? _. eapply rel_bind; [apply r_add|]. intros ? ? _.
  eapply rel_bind; [apply (r_atR _ _ _ _ _ Hp)|]. intros r s E. eapply rel_bind; [apply r_put, E|]. intros r' s' E'. apply r_putR; assumption.
Qed.
Lemma r_gen_pk sk sk' P a a' w w' : like_mat sk sk' -> like_mat a a' -> rel (Forall2 like_ct) (t_pvw_gen_pk sk P a w) (t_pvw_gen_pk sk' P a' w').
Proof.
  intros Hs Ha. unfold t_pvw_gen_pk. eapply rel_bind; [apply (rel_refl eq); reflexivity|]. intros q ? <-. eapply rel_bind; [apply (r_fold like_mat); [|apply like_refl]|].
  - intros p p' l Hp. eapply rel_bind; [apply r_sample|]. intros e e' He. eapply rel_bind; [apply r_map; [intros; apply r_reduce_i64|exact He]|]. intros err err' Herr.
    apply (r_fold like_mat); [|exact Hp]. intros; apply r_entry; assumption.
  - intros p p' Hp. apply (r_each eq like_ct); [|apply F2_eq]. intros i ? <-. eapply rel_bind; [apply (r_atR _ _ _ _ _ Hp)|]. intros b b' Hb. eapply rel_bind; [apply (r_atR _ _ _ _ _ Ha)|]. intros x x' Hx.
    apply rel_ret. split; assumption.
Qed.
Lemma r_acc q e e' x x' acc acc' : rel any e e' -> (forall i, rel any (x i) (x' i)) -> length acc = length acc' -> rel samelen (t_pvw_acc q e x acc) (t_pvw_acc q e' x' acc').
Proof.
  intros He Hx L. unfold t_pvw_acc. rewrite L. eapply rel_weak; [|apply (r_each eq any); [|apply F2_eq]]; [intros ? ? F; exact (F2_length _ _ _ F)|].
  intros i ? <-. eapply rel_bind; [apply Hx|]. intros ? ? _. eapply rel_bind; [exact He|]. intros ? ? _. eapply rel_bind; [apply r_mul|]. intros ? ? _. eapply rel_bind; [apply r_at, L|]. intros ? ? _. eapply rel_bind; [apply r_add|]. intros ? ? _.
  eapply rel_bind; [apply rel_emit|]. intros; apply rel_ret; exact I.
Qed.
Lemma r_encrypt pk pk' P m m' e e' : Forall2 like_ct pk pk' -> length m = length m' -> length e = length e' -> rel like_ct (t_pvw_encrypt pk P m e) (t_pvw_encrypt pk' P m' e').
Proof.
  intros Hp Hm He. unfold t_pvw_encrypt. eapply rel_bind; [apply (rel_refl eq); reflexivity|]. intros q ? <-.
  eapply rel_bind; [apply (r_fold (fun s t : list Z * list Z => length (fst s) = length (fst t) /\ length (snd s) = length (snd t))); [|split; reflexivity]|].
  - intros s t i [Hs Ht]. eapply rel_bind; [apply r_acc; [apply r_at, He| |exact Hs]|].
    + intros j. eapply rel_bind; [apply (r_atR _ _ _ _ _ Hp)|]. intros c c' [_ Hc]. apply r_at, Hc.
    + intros b b' Hb. eapply rel_bind; [apply r_acc; [apply r_at, He| |exact Ht]|].
      * intros j. eapply rel_bind; [apply (r_atR _ _ _ _ _ Hp)|]. intros c c' [Hc _]. apply r_at, Hc.
      * intros a a' Ha. apply rel_ret. split; assumption.
  - intros [b a] [b' a'] [Hb Ha]. cbn [fst snd] in Hb, Ha. eapply rel_bind; [apply r_zip; [|exact Hb|exact Hm]|].
    + intros. eapply rel_bind; [apply rel_wd|]. intros; apply r_add.
    + intros c c' Hc. apply rel_ret. split; assumption.
Qed.

(** Making a PVW public key and PVW encryption give away sizes only: neither
    the secret key, nor the message, nor what the generator returned. *)
Lemma C98_pvw_lem :
  (forall sk sk' P a a' w w', like_mat sk sk' -> like_mat a a' -> looks_same (t_pvw_gen_pk sk P a w) (t_pvw_gen_pk sk' P a' w'))
  /\ (forall pk pk' P m m' e e', Forall2 like_ct pk pk' -> length m = length m' -> length e = length e' ->
        looks_same (t_pvw_encrypt pk P m e) (t_pvw_encrypt pk' P m' e')).
Proof. split; intros; [apply (rel_looks (Forall2 like_ct)), r_gen_pk|apply (rel_looks like_ct), r_encrypt]; assumption. Qed.

(** ** Decryption *)
Definition t_dec_step (q : Modulus) (n : nat) (sk : list (list Z)) (a : list Z) (b : list Z) (l : nat) : run (list Z) :=
  sum <~ t_pvw_dot q n (t_at2 1 sk l) (t_at 2 a) ;~ bl <~ t_at 0 b l ;~ d <~ t_sub q bl sum ;~ t_put b l d.
Lemma mat_like q r d x y : matrix q r d x -> matrix q r d y -> like_mat x y.
Proof.
  intros [Lx Hx] [Ly Hy]. assert (G : forall r x y, length x = r -> length y = r -> (forall i, (i < r)%nat -> length (nth i x []) = length (nth i y [])) -> like_mat (x : list (list Z)) y).
  { clear. induction r as [|r IH]; intros [|u x] [|v y] Lx Ly H; try discriminate; constructor; [apply (H 0%nat); lia|]. apply IH; [injection Lx; auto|injection Ly; auto|]. intros i Hi. apply (H (S i)). lia. }
  apply (G r); auto. intros i Hi. rewrite (proj1 (Hx i Hi)), (proj1 (Hy i Hi)). reflexivity.
Qed.
Lemma dec_fold P qm sk c : valid_mod qm -> mp qm = pv_q P -> matrix (pv_q P) (pv_ell P) (pv_n P) sk -> well_ct P c ->
  snd (t_fold (t_dec_step qm (pv_n P) sk (pc_a c)) (seq 0 (pv_ell P)) (pc_b c)) = Ok (map (noisy_slot P sk c) (seq 0 (pv_ell P))).
Proof.
  intros V Eq [LS RS] [[La Ra] [Lb Rb]]. pose proof (valid_range qm V) as QR. rewrite Eq in QR.
  rewrite (v_fold _ (fun b l => sum <- pvw_dot Release qm (pv_n P) (get2 sk l) (get (pc_a c)) ;; bl <- get b l ;; d <- msub Release qm bl sum ;; set b l d)).
  2:{ intros b l. unfold t_dec_step. rewrite snd_bind, (v_dot _ _ _ _ (get2 sk l) (get (pc_a c))) by (intros; try apply v_at2; reflexivity). apply bind_ext. intros s. rewrite snd_bind. cbn [t_at snd]. apply bind_ext. intros bl. rewrite snd_bind, v_sub. reflexivity. }
  destruct (foldM_seq_inv (fun b l => sum <- pvw_dot Release qm (pv_n P) (get2 sk l) (get (pc_a c)) ;; bl <- get b l ;; d <- msub Release qm bl sum ;; set b l d)
    (fun i b => b = map (fun l => if (l <? i)%nat then noisy_slot P sk c l else nth l (pc_b c) 0) (seq 0 (pv_ell P))) 0 (pv_ell P) (pc_b c)) as [b [E H]].
  - apply nth_ext' with 0; [rewrite len_seq; exact Lb|]. intros j Hj. rewrite nth_map_seq by lia. reflexivity.
  - intros l b Hl ->. destruct (RS l ltac:(lia)) as [Ls Rs].
    rewrite (dot_ok Release P qm V Eq (pv_n P) (nth l sk []) (pc_a c)) by (auto; try lia; intros j Hj; unfold get2; rewrite (get_ok sk l []) by lia; reflexivity). cbn [bind].
    rewrite (get_ok _ l 0) by (rewrite len_seq; lia). rewrite nth_map_seq by lia. rewrite Nat.ltb_irrefl. cbn [bind].
    rewrite msub_ok by (rewrite ?Eq; auto; try (apply Z.mod_pos_bound; lia); apply Rb; lia). cbn [bind]. rewrite Eq.
    replace ((nth l (pc_b c) 0 - dot (pv_n P) (nth l sk []) (pc_a c) mod pv_q P) mod pv_q P) with (noisy_slot P sk c l) by (unfold noisy_slot; rewrite Zminus_mod_idemp_r; reflexivity).
    rewrite set_ok by (rewrite len_seq; lia). eexists. split; [reflexivity|].
    apply nth_ext' with 0; [rewrite upd_length, !len_seq; reflexivity|]. intros j Hj. rewrite upd_length, len_seq in Hj.
    rewrite nth_map_seq by auto. destruct (Nat.eq_dec j l) as [->|Hne].
    + rewrite upd_nth_same by (rewrite len_seq; lia). rewrite (proj2 (Nat.ltb_lt l (S l))) by lia. reflexivity.
    + rewrite upd_nth_other by auto. rewrite nth_map_seq by auto. destruct (Nat.ltb_spec j l), (Nat.ltb_spec j (S l)); auto; lia.
  - rewrite E, H. f_equal. apply map_ext_in. intros l Hl. apply in_seq in Hl. rewrite (proj2 (Nat.ltb_lt l (0 + pv_ell P))) by lia. reflexivity.
Qed.
Lemma round_steps q v : 2 <= q -> exists d, t_pvw_round q v = ([EOp OAdd64; EDiv ((v + q / 4) mod W64) (q / 2); EOp OAnd64], Ok d).
Proof.
  intros Hq. unfold t_pvw_round. assert (1 <= q / 2) by (apply Z.div_le_lower_bound; lia). unfold rbind. cbn [t_add64 wd fst snd t_div]. rewrite udiv_ok by lia. cbn [fst snd app]. eexists. reflexivity.
Qed.
Lemma round_reveals q : 2 <= q < 2 ^ 62 -> forall x y i, length x = length y -> Forall (fun v => 0 <= v < q) x -> Forall (fun v => 0 <= v < q) y ->
  fst (t_map (t_pvw_round q) i x) = fst (t_map (t_pvw_round q) i y) -> x = y.
Proof.
  intros Hq. assert (Hd : 0 <= q / 4 < q) by (split; [apply Z.div_pos; lia|apply Z.div_lt; lia]). change (2 ^ 62) with 4611686018427387904 in Hq.
  induction x as [|u x IH]; intros [|v y] i L Hx Hy H; try discriminate L; [reflexivity|]. inversion Hx as [|? ? Hu Hx']; subst. inversion Hy as [|? ? Hv Hy']; subst.
  cbn [t_map] in H. destruct (round_steps q u ltac:(lia)) as [d Ed], (round_steps q v ltac:(lia)) as [d' Ed']. rewrite Ed, Ed' in H.
  unfold rbind in H. cbn [emit fst snd app] in H.
  assert (T : forall (z : run (list Z)) (d : Z), fst match snd z with Ok a => (fst z ++ fst (ret (d :: a)), snd (ret (d :: a))) | Panic => (fst z, Panic) | UB => (fst z, UB) | NoFuel => (fst z, NoFuel) end = fst z).
  { intros z d0. destruct (snd z); cbn [fst ret]; rewrite ?app_nil_r; reflexivity. }
  rewrite !T in H. injection H as H1 H2. f_equal.
  - change W64 with 18446744073709551616 in H1. rewrite !Z.mod_small in H1 by lia. lia.
  - apply (IH y (S i)); auto.
Qed.

(** PVW decryption divides by a number fixed at run time, and so gives away
    exactly the slots before rounding: two decryptions look the same if and
    only if these agree. *)
Lemma C98_pvw_decrypt_lem :
  forall P sk sk' c c', 2 <= pv_q P < 2 ^ 62 ->
    matrix (pv_q P) (pv_ell P) (pv_n P) sk -> matrix (pv_q P) (pv_ell P) (pv_n P) sk' -> well_ct P c -> well_ct P c' ->
    (looks_same (t_pvw_decrypt sk P c) (t_pvw_decrypt sk' P c')
     <-> forall l, (l < pv_ell P)%nat -> noisy_slot P sk c l = noisy_slot P sk' c' l).
Proof.
  intros P sk sk' c c' Hq HS HS' HC HC'. destruct (modulus_new_ok (pv_q P) Hq) as [qm [EM [Eq V]]].
  pose proof (dec_fold P qm sk c V Eq HS HC) as E. pose proof (dec_fold P qm sk' c' V Eq HS' HC') as E'.
  assert (F : fst (t_fold (t_dec_step qm (pv_n P) sk (pc_a c)) (seq 0 (pv_ell P)) (pc_b c)) = fst (t_fold (t_dec_step qm (pv_n P) sk' (pc_a c')) (seq 0 (pv_ell P)) (pc_b c'))).
  { apply (r_fold samelen); [|unfold samelen; rewrite (proj1 (proj2 HC)), (proj1 (proj2 HC')); reflexivity]. intros b b' l Hb. unfold t_dec_step.
    eapply rel_bind; [apply r_dot; intros; [apply r_at2, (mat_like _ _ _ _ _ HS HS')|apply r_at; rewrite (proj1 (proj1 HC)), (proj1 (proj1 HC')); reflexivity]|]. intros ? ? _.
    eapply rel_bind; [apply r_at, Hb|]. intros ? ? _. eapply rel_bind; [apply r_sub|]. intros ? ? _. apply r_put, Hb. }
  assert (G : forall s x b, snd (t_fold (t_dec_step qm (pv_n P) s (pc_a x)) (seq 0 (pv_ell P)) (pc_b x)) = Ok b ->
     t_pvw_decrypt s P x = (EDiv W128 (pv_q P) :: fst (t_fold (t_dec_step qm (pv_n P) s (pc_a x)) (seq 0 (pv_ell P)) (pc_b x)) ++ fst (t_map (t_pvw_round (pv_q P)) 0 b), snd (t_map (t_pvw_round (pv_q P)) 0 b))).
  { intros s x b Hb. unfold t_pvw_decrypt. unfold rbind at 1. cbn [t_modulus_new fst snd]. rewrite EM.
    change (fun b l => sum <~ t_pvw_dot qm (pv_n P) (t_at2 1 s l) (t_at 2 (pc_a x)) ;~ bl <~ t_at 0 b l ;~ d <~ t_sub qm bl sum ;~ t_put b l d) with (t_dec_step qm (pv_n P) s (pc_a x)).
    unfold rbind. rewrite Hb. reflexivity. }
  rewrite (G _ _ _ E), (G _ _ _ E'). split.
  - intros [H _] l Hl. cbn [fst] in H. rewrite F in H. apply (f_equal (@tl event)) in H. cbn [tl] in H. apply app_inv_head in H.
    assert (R : forall s x, Forall (fun v => 0 <= v < pv_q P) (map (noisy_slot P s x) (seq 0 (pv_ell P)))).
    { intros s x. apply Forall_forall. intros v Hv. apply in_map_iff in Hv. destruct Hv as [j [<- _]]. apply Z.mod_pos_bound. lia. }
    apply (round_reveals _ Hq) in H; [|rewrite !len_seq; reflexivity|apply R|apply R].
    apply (f_equal (fun z => nth l z 0)) in H. rewrite !nth_map_seq in H by exact Hl. exact H.
  - intros H. rewrite F. rewrite (map_ext_in (noisy_slot P sk c) (noisy_slot P sk' c')) by (intros l Hl; apply in_seq in Hl; apply H; lia).
    split; [reflexivity|]. cbn [snd]. destruct (snd (t_map _ _ _)); exact I.
Qed.

(*EXAMPLE
(** Two queries look the same; two decryptions of the same bit with different
    errors do not, and the divisions show the slot before rounding. *)
Example C98_example :
  let c := mkClient 4 2 in let P := mkPvw 2 1 3 257 1 in
  let divs t := flat_map (fun e => match e with EDiv x y => [(x, y)] | _ => [] end) t in
  fst (t_client_encode c [1; 0; 1]%nat 16) = fst (t_client_encode c [3; 1; 0]%nat 16)
  /\ snd (t_client_encode c [1; 0; 1]%nat 16) <> snd (t_client_encode c [3; 1; 0]%nat 16)
  /\ (tl (divs (fst (t_pvw_decrypt [[5; 7]] P (mkPvwCt [1; 2] [150])))), snd (t_pvw_decrypt [[5; 7]] P (mkPvwCt [1; 2] [150]))) = ([(195, 128)], Ok [1])
  /\ (tl (divs (fst (t_pvw_decrypt [[5; 7]] P (mkPvwCt [1; 2] [152])))), snd (t_pvw_decrypt [[5; 7]] P (mkPvwCt [1; 2] [152]))) = ([(197, 128)], Ok [1]).
Proof. vm_compute. repeat split; discriminate. Qed.
EXAMPLE*)
