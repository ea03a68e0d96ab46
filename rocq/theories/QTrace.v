(** Claim C93: what the word arithmetic and the transforms give away through their steps. *)
From Verif Require Import PBase MModulus MUtils MNtt MTrace SpecTrace.

(** ** Values *)
Lemma chkR w x : 0 < w -> chk Release w x = Ok (x mod w).
Proof.
  intros Hw. unfold chk. destruct ((0 <=? x) && (x <? w)) eqn:E; [|reflexivity].
  apply andb_true_iff in E. destruct E as [E1 E2]. rewrite Z.mod_small; [reflexivity|]. split; [apply Z.leb_le, E1|apply Z.ltb_lt, E2].
Qed.
Lemma snd_bind {A B} (x : run A) (f : A -> run B) : snd (rbind x f) = bind (snd x) (fun a => snd (f a)).
Proof. unfold rbind, bind. destruct (snd x); reflexivity. Qed.
Lemma bind_ext {A B} (x : outcome A) (f g : A -> outcome B) : (forall a, f a = g a) -> bind x f = bind x g.
Proof. intros H. destruct x; cbn; auto. Qed.
Lemma v_add64 a b : snd (t_add64 a b) = add64 Release a b.
Proof. unfold add64. rewrite chkR by reflexivity. reflexivity. Qed.
Lemma v_sub64 a b : snd (t_sub64 a b) = sub64 Release a b.
Proof. unfold sub64. rewrite chkR by reflexivity. reflexivity. Qed.
Lemma v_mul64 a b : snd (t_mul64 a b) = mul64 Release a b.
Proof. unfold mul64. rewrite chkR by reflexivity. reflexivity. Qed.
Lemma v_add128 a b : snd (t_add128 a b) = add128 Release a b.
Proof. unfold add128. rewrite chkR by reflexivity. reflexivity. Qed.
Lemma v_sub128 a b : snd (t_sub128 a b) = sub128 Release a b.
Proof. unfold sub128. rewrite chkR by reflexivity. reflexivity. Qed.
Lemma v_mul128 a b : snd (t_mul128 a b) = mul128 Release a b.
Proof. unfold mul128. rewrite chkR by reflexivity. reflexivity. Qed.

Lemma v_lazy_reduce_ct m a : snd (t_lazy_reduce_ct m a) = lazy_reduce_ct Release m a.
Proof.
  unfold lazy_reduce_ct, add128, sub128, mul128. rewrite chkR by reflexivity. cbn [bind]. rewrite chkR by reflexivity. cbn [bind]. rewrite chkR by reflexivity. cbn [bind]. rewrite chkR by reflexivity. cbn [bind]. rewrite chkR by reflexivity. reflexivity.
Qed.
Lemma v_lazy_reduce_u128 m a : snd (t_lazy_reduce_u128 m a) = lazy_reduce_u128 Release m a.
Proof.
  unfold lazy_reduce_u128, add128, sub128, mul128. cbv zeta. do 8 (rewrite chkR by reflexivity; cbn [bind]). rewrite chkR by reflexivity. reflexivity.
Qed.
Lemma v_reduce_ct x p : snd (t_reduce_ct x p) = reduce_ct Release x p.
Proof. reflexivity. Qed.
Lemma v_reduce m a : snd (t_reduce m a) = mreduce Release m a.
Proof. unfold t_reduce, mreduce. rewrite snd_bind, v_lazy_reduce_ct. apply bind_ext. intros; apply v_reduce_ct. Qed.
Lemma v_reduce_u128 m a : snd (t_reduce_u128 m a) = mreduce_u128 Release m a.
Proof. unfold t_reduce_u128, mreduce_u128. rewrite snd_bind, v_lazy_reduce_u128. apply bind_ext. intros; apply v_reduce_ct. Qed.
Lemma v_reduce_i64 m a : snd (t_reduce_i64 m a) = reduce_i64 Release m a.
Proof. unfold t_reduce_i64, reduce_i64. rewrite !snd_bind. cbn [t_shl128 wd snd bind]. rewrite snd_bind. cbn [wd snd bind]. rewrite snd_bind. apply v_reduce_u128. Qed.
Lemma v_add m a b : snd (t_add m a b) = madd Release m a b.
Proof. unfold t_add, madd. rewrite snd_bind, v_add64. cbn [dassert bind]. apply bind_ext. intros; apply v_reduce_ct. Qed.
Lemma v_sub m a b : snd (t_sub m a b) = msub Release m a b.
Proof. unfold t_sub, msub. rewrite snd_bind, v_sub64. cbn [dassert bind]. apply bind_ext. intros d. rewrite snd_bind, v_add64. apply bind_ext. intros; apply v_reduce_ct. Qed.
Lemma v_mul m a b : snd (t_mul m a b) = mmul Release m a b.
Proof. unfold t_mul, mmul. rewrite snd_bind, v_mul128. cbn [dassert bind]. apply bind_ext. intros; apply v_reduce_u128. Qed.
Lemma v_neg m a : snd (t_neg m a) = mneg Release m a.
Proof. unfold t_neg, mneg. rewrite snd_bind, v_sub64. cbn [dassert bind]. apply bind_ext. intros; apply v_reduce_ct. Qed.
Lemma v_pow_loop m a r k : forall v, snd (t_pow_loop m a r k v) = pow_loop Release m a r k v.
Proof.
  induction k as [|k IH]; intros v; [reflexivity|]. cbn [t_pow_loop pow_loop]. rewrite snd_bind. cbn [emit snd bind]. rewrite snd_bind, v_mul. apply bind_ext. intros u.
  rewrite snd_bind. cbn [t_shr64 wd snd bind]. rewrite snd_bind. cbn [t_and wd snd bind]. rewrite snd_bind. unfold t_if. rewrite snd_bind. cbn [emit snd bind].
  destruct (Z.land _ _ =? 1); [rewrite v_mul|cbn [ret snd]]; apply bind_ext; intros; apply IH.
Qed.
Lemma v_pow m a r : snd (t_pow m a r) = mpow Release m a r.
Proof.
  unfold t_pow, mpow, t_if. rewrite snd_bind. cbn [emit snd bind dassert]. destruct (r =? 0); [reflexivity|]. rewrite snd_bind. cbn [emit snd bind]. destruct (r =? 1); [reflexivity|].
  rewrite snd_bind. cbn [wd snd bind]. cbv zeta. apply v_pow_loop.
Qed.
Lemma v_inv m a : snd (t_inv m a) = minv Release m a.
Proof. unfold t_inv, minv. rewrite snd_bind, v_sub64. cbn [dassert bind]. apply bind_ext. intros; apply v_pow. Qed.
Lemma v_shoup m a : snd (t_shoup m a) = shoup Release m a.
Proof. unfold t_shoup, shoup. rewrite snd_bind. cbn [t_shl128 wd snd bind dassert]. rewrite snd_bind. cbn [t_div snd]. apply bind_ext. reflexivity. Qed.
Lemma v_lazy_mul_shoup m a b s : snd (t_lazy_mul_shoup m a b s) = lazy_mul_shoup Release m a b s.
Proof.
  unfold lazy_mul_shoup, sub128, mul128. cbn [dassert bind]. do 3 (rewrite chkR by reflexivity; cbn [bind]). rewrite chkR by reflexivity. reflexivity.
Qed.
Lemma v_mul_shoup m a b s : snd (t_mul_shoup m a b s) = mul_shoup Release m a b s.
Proof. unfold t_mul_shoup, mul_shoup. rewrite snd_bind, v_lazy_mul_shoup. apply bind_ext. intros; apply v_reduce_ct. Qed.
Lemma v_map f g l : (forall x, snd (f x) = g x) -> forall i, snd (t_map f i l) = mapM g l.
Proof.
  intros H. induction l as [|x l IH]; intros i; [reflexivity|]. cbn [t_map mapM]. rewrite snd_bind. cbn [emit snd bind]. rewrite snd_bind. cbn [emit snd bind]. rewrite snd_bind, H. apply bind_ext. intros y.
  rewrite snd_bind. cbn [emit snd bind]. rewrite snd_bind, IH. apply bind_ext. reflexivity.
Qed.
Lemma v_zip f g a : (forall x y, snd (f x y) = g x y) -> forall b i, snd (t_zip f i a b) = zipM_upd g a b.
Proof.
  intros H. induction a as [|x a IH]; intros b i; [reflexivity|]. destruct b as [|y b]; [reflexivity|]. cbn [t_zip zipM_upd]. do 3 (rewrite snd_bind; cbn [emit snd bind]). rewrite snd_bind, H. apply bind_ext. intros z.
  rewrite snd_bind. cbn [emit snd bind]. rewrite snd_bind, IH. apply bind_ext. reflexivity.
Qed.
Lemma v_fold {A B} (f : B -> A -> run B) g l : (forall b x, snd (f b x) = g b x) -> forall b, snd (t_fold f l b) = foldM g l b.
Proof.
  intros H. induction l as [|x l IH]; intros b; [reflexivity|]. cbn [t_fold foldM]. rewrite snd_bind. cbn [emit snd bind]. rewrite snd_bind, H. apply bind_ext. intros; apply IH.
Qed.
Lemma v_scalar m a b : snd (t_scalar_mul_vec m a b) = scalar_mul_vec Release m a b.
Proof. unfold t_scalar_mul_vec, scalar_mul_vec. rewrite snd_bind, v_shoup. apply bind_ext. intros s. apply v_map. intros; apply v_lazy_mul_shoup. Qed.
Lemma v_butterfly op x y w s : snd (t_butterfly op x y w s) = butterfly Release op x y w s.
Proof.
  unfold t_butterfly, butterfly. rewrite snd_bind, v_reduce_ct. cbn [bind]. apply bind_ext. intros x1. rewrite snd_bind, v_lazy_mul_shoup. apply bind_ext. intros t.
  rewrite snd_bind, v_add64. apply bind_ext. intros xp. rewrite snd_bind, v_sub64. apply bind_ext. intros y1. rewrite snd_bind, v_add64. apply bind_ext. reflexivity.
Qed.
Lemma v_butterfly_inv op x y w s : snd (t_butterfly_inv op x y w s) = butterfly_inv Release op x y w s.
Proof.
  unfold t_butterfly_inv, butterfly_inv. rewrite snd_bind, v_add64. cbn [dassert bind]. cbv zeta. apply bind_ext. intros yt. rewrite snd_bind, v_reduce_ct. apply bind_ext. intros x1.
  rewrite snd_bind, v_add64. apply bind_ext. intros pt. rewrite snd_bind, v_sub64. apply bind_ext. intros d. rewrite snd_bind, v_lazy_mul_shoup. apply bind_ext. reflexivity.
Qed.
Lemma v_reduce_4p a p : snd (t_reduce_4p a p) = reduce_4p Release a p.
Proof. unfold t_reduce_4p, reduce_4p. rewrite snd_bind, v_mul64. cbn [bind]. apply bind_ext. intros p2. rewrite snd_bind, v_reduce_ct. apply bind_ext. intros; apply v_reduce_ct. Qed.
Lemma v_bf_at f g a i j : (forall x y, snd (f x y) = g x y) -> snd (t_bf_at f a i j) = bf_at g a i j.
Proof.
  intros H. unfold t_bf_at, bf_at. rewrite snd_bind. cbn [t_getu snd]. apply bind_ext. intros x. rewrite snd_bind. cbn [t_getu snd]. apply bind_ext. intros y. rewrite snd_bind, H. apply bind_ext. intros [x' y'].
  rewrite snd_bind. cbn [t_setu snd]. reflexivity.
Qed.
Lemma foldM_ext {A B} (f g : B -> A -> outcome B) l : (forall b x, f b x = g b x) -> forall b, foldM f l b = foldM g l b.
Proof. intros H. induction l as [|x l IH]; intros b; [reflexivity|]. cbn. rewrite H. apply bind_ext. intros; apply IH. Qed.
Lemma v_fwd_block op l st i : snd (t_fwd_block op l st i) = fwd_block Release op l st i.
Proof.
  destruct st as [a k]. unfold t_fwd_block, fwd_block. rewrite snd_bind. cbn [t_getu snd]. apply bind_ext. intros w. rewrite snd_bind. cbn [t_getu snd]. apply bind_ext. intros s. cbv zeta. unfold t_if. rewrite snd_bind. cbn [emit snd bind].
  destruct (l =? 1)%nat.
  - rewrite snd_bind, (v_bf_at _ (fun x y => butterfly Release op x y w s)) by (intros; apply v_butterfly). apply bind_ext. intros a1. rewrite snd_bind. cbn [t_getu snd]. apply bind_ext. intros u. rewrite snd_bind, v_reduce_4p. apply bind_ext. intros u'.
    rewrite snd_bind. cbn [t_setu snd]. apply bind_ext. intros a2. rewrite snd_bind. cbn [t_getu snd]. apply bind_ext. intros v. rewrite snd_bind, v_reduce_4p. apply bind_ext. intros v'. rewrite snd_bind. cbn [t_setu snd]. reflexivity.
  - rewrite snd_bind. rewrite (v_fold _ (fun a j => bf_at (fun x y => butterfly Release op x y w s) a j (j + l))); [reflexivity|]. intros; apply v_bf_at; intros; apply v_butterfly.
Qed.
Lemma v_fwd_loop op f : forall l m k a, snd (t_fwd_loop op f l m k a) = fwd_loop Release op f l m k a.
Proof.
  induction f as [|f IH]; intros l m k a; cbn [t_fwd_loop fwd_loop]; destruct (l =? 0)%nat; try reflexivity.
  rewrite snd_bind. cbn [emit snd bind]. rewrite snd_bind, (v_fold _ (fwd_block Release op l)) by (intros; apply v_fwd_block). apply bind_ext. intros [a' k']. apply IH.
Qed.
Lemma v_forward op a : snd (t_forward op a) = ntt_forward Release op a.
Proof. unfold t_forward, ntt_forward. rewrite snd_bind. cbn [t_assert snd]. apply bind_ext. intros; apply v_fwd_loop. Qed.
Lemma v_bwd_block op l st i : snd (t_bwd_block op l st i) = bwd_block Release op l st i.
Proof.
  destruct st as [a k]. unfold t_bwd_block, bwd_block. cbv zeta. rewrite snd_bind. cbn [t_getu snd]. apply bind_ext. intros w. rewrite snd_bind. cbn [t_getu snd]. apply bind_ext. intros s.
  rewrite snd_bind. rewrite (v_fold _ (fun a j => bf_at (fun x y => butterfly_inv Release op x y w s) a j (j + l))); [reflexivity|]. intros; apply v_bf_at; intros; apply v_butterfly_inv.
Qed.
Lemma v_bwd_loop op f : forall l m k a, snd (t_bwd_loop op f l m k a) = bwd_loop Release op f l m k a.
Proof.
  induction f as [|f IH]; intros l m k a; cbn [t_bwd_loop bwd_loop]; destruct (l =? 0)%nat; try reflexivity.
  rewrite snd_bind. cbn [emit snd bind]. rewrite snd_bind, (v_fold _ (bwd_block Release op m)) by (intros; apply v_bwd_block). apply bind_ext. intros [a' k']. apply IH.
Qed.
Lemma v_backward op a : snd (t_backward op a) = ntt_backward Release op a.
Proof. unfold t_backward, ntt_backward. rewrite snd_bind. cbn [t_assert snd]. apply bind_ext. intros _. rewrite snd_bind, v_bwd_loop. apply bind_ext. intros; apply v_map. intros; apply v_mul_shoup. Qed.

(** ** Steps *)
Definition rel {A B} (R : A -> B -> Prop) (x : run A) (y : run B) : Prop :=
  fst x = fst y /\
  match snd x, snd y with
  | Ok a, Ok b => R a b
  | Panic, Panic => True
  | UB, UB => True
  | NoFuel, NoFuel => True
  | _, _ => False
  end.
Lemma rel_looks {A B} R (x : run A) (y : run B) : rel R x y -> looks_same x y.
Proof. intros [H1 H2]. split; [exact H1|]. destruct (snd x), (snd y); auto. Qed.
Lemma rel_weak {A B} (R S : A -> B -> Prop) x y : (forall a b, R a b -> S a b) -> rel R x y -> rel S x y.
Proof. intros H [H1 H2]. split; [exact H1|]. destruct (snd x), (snd y); auto. Qed.
Lemma rel_bind {A B C D} (R : A -> B -> Prop) (S : C -> D -> Prop) x y f g :
  rel R x y -> (forall a b, R a b -> rel S (f a) (g b)) -> rel S (rbind x f) (rbind y g).
Proof.
  intros [H1 H2] H. unfold rel, rbind. rewrite <- H1. destruct (snd x), (snd y); try contradiction; cbn [fst snd]; auto.
  destruct (H _ _ H2) as [H3 H4]. rewrite H3. auto.
Qed.
Definition any {A B} (a : A) (b : B) : Prop := True.
Definition samelen {A B} (a : list A) (b : list B) : Prop := length a = length b.
Lemma rel_ret {A B} (R : A -> B -> Prop) a b : R a b -> rel R (ret a) (ret b).
Proof. intros H; split; [reflexivity|exact H]. Qed.
Lemma rel_wd o v w : rel any (wd o v) (wd o w).
Proof. split; [reflexivity|exact I]. Qed.
Lemma rel_emit e : rel any (emit e) (emit e).
Proof. split; [reflexivity|exact I]. Qed.
Lemma rel_getu {A B} t (a : list A) (b : list B) i : length a = length b -> rel any (t_getu t a i) (t_getu t b i).
Proof.
  intros H. split; [reflexivity|]. cbn [t_getu snd]. unfold getu. destruct (nth_error a i) eqn:Ea, (nth_error b i) eqn:Eb; try exact I.
  - apply nth_error_None in Eb. assert (nth_error a i <> None) by congruence. apply nth_error_Some in H0. lia.
  - apply nth_error_None in Ea. assert (nth_error b i <> None) by congruence. apply nth_error_Some in H0. lia.
Qed.
Lemma upd_len {A} (l : list A) : forall i v, length (upd l i v) = length l.
Proof. induction l as [|x l IH]; intros [|i] v; cbn; auto. Qed.
Lemma rel_setu {A B} (a : list A) (b : list B) i v w : length a = length b -> rel samelen (t_setu a i v) (t_setu b i w).
Proof.
  intros H. split; [reflexivity|]. cbn [t_setu snd]. unfold setu. rewrite H. destruct (i <? length b)%nat; [|exact I]. unfold samelen. rewrite !upd_len. exact H.
Qed.
Lemma rel_if {A B} (R : A -> B -> Prop) b x x' y y' : rel R x x' -> rel R y y' -> rel R (t_if b x y) (t_if b x' y').
Proof. intros H1 H2. unfold t_if. eapply rel_bind; [apply rel_emit|]. intros _ _ _. destruct b; auto. Qed.
Ltac word := repeat (eapply rel_bind; [apply rel_wd|intros ? ? _]); try apply rel_wd.
Lemma r_lazy_reduce_ct m m' a a' : rel any (t_lazy_reduce_ct m a) (t_lazy_reduce_ct m' a').
Proof. unfold t_lazy_reduce_ct. word. Qed.
Lemma r_lazy_reduce_u128 m m' a a' : rel any (t_lazy_reduce_u128 m a) (t_lazy_reduce_u128 m' a').
Proof. unfold t_lazy_reduce_u128. word. Qed.
Lemma r_reduce_ct x x' p p' : rel any (t_reduce_ct x p) (t_reduce_ct x' p').
Proof. unfold t_reduce_ct. word. Qed.
Lemma r_reduce m m' a a' : rel any (t_reduce m a) (t_reduce m' a').
Proof. eapply rel_bind; [apply r_lazy_reduce_ct|]. intros; apply r_reduce_ct. Qed.
Lemma r_reduce_u128 m m' a a' : rel any (t_reduce_u128 m a) (t_reduce_u128 m' a').
Proof. eapply rel_bind; [apply r_lazy_reduce_u128|]. intros; apply r_reduce_ct. Qed.
Lemma r_reduce_i64 m m' a a' : rel any (t_reduce_i64 m a) (t_reduce_i64 m' a').
Proof. unfold t_reduce_i64. word; apply r_reduce_u128. Qed.
Lemma r_add m m' a a' b b' : rel any (t_add m a b) (t_add m' a' b').
Proof. unfold t_add. word; apply r_reduce_ct. Qed.
Lemma r_sub m m' a a' b b' : rel any (t_sub m a b) (t_sub m' a' b').
Proof. unfold t_sub. word; apply r_reduce_ct. Qed.
Lemma r_mul m m' a a' b b' : rel any (t_mul m a b) (t_mul m' a' b').
Proof. unfold t_mul. word; apply r_reduce_u128. Qed.
Lemma r_neg m m' a a' : rel any (t_neg m a) (t_neg m' a').
Proof. unfold t_neg. word; apply r_reduce_ct. Qed.
Lemma r_lazy_mul_shoup m m' a a' b b' s s' : rel any (t_lazy_mul_shoup m a b s) (t_lazy_mul_shoup m' a' b' s').
Proof. unfold t_lazy_mul_shoup. word. Qed.
Lemma r_mul_shoup m m' a a' b b' s s' : rel any (t_mul_shoup m a b s) (t_mul_shoup m' a' b' s').
Proof. eapply rel_bind; [apply r_lazy_mul_shoup|]. intros; apply r_reduce_ct. Qed.

Lemma r_pow_loop m m' a a' r k : forall v v', rel any (t_pow_loop m a r k v) (t_pow_loop m' a' r k v').
Proof.
  induction k as [|k IH]; intros v v'; cbn [t_pow_loop].
  - eapply rel_bind; [apply rel_emit|]. intros; apply rel_ret; exact I.
  - eapply rel_bind; [apply rel_emit|]. intros _ _ _. eapply rel_bind; [apply r_mul|]. intros u u' _. unfold t_shr64, t_and.
    eapply rel_bind with (R := eq); [split; reflexivity|]. intros ? ? <-. eapply rel_bind with (R := eq); [split; reflexivity|]. intros ? ? <-.
    eapply rel_bind with (R := any); [apply rel_if; [apply r_mul|apply rel_ret; exact I]|]. intros; apply IH.
Qed.
Lemma r_pow m m' a a' r : rel any (t_pow m a r) (t_pow m' a' r).
Proof.
  unfold t_pow. apply rel_if; [apply rel_ret; exact I|]. apply rel_if; [apply rel_ret; exact I|].
  eapply rel_bind with (R := eq); [split; reflexivity|]. intros ? ? <-. apply r_pow_loop.
Qed.
Lemma r_inv m m' a a' : mp m = mp m' -> rel any (t_inv m a) (t_inv m' a').
Proof.
  intros E. unfold t_inv. rewrite E. eapply rel_bind with (R := eq); [split; reflexivity|]. intros ? ? <-. apply r_pow.
Qed.
Lemma r_map f g : (forall x y, rel any (f x) (g y)) -> forall a b i, length a = length b -> rel samelen (t_map f i a) (t_map g i b).
Proof.
  intros H. induction a as [|x a IH]; intros [|y b] i E; try discriminate E; cbn [t_map].
  - eapply rel_bind; [apply rel_emit|]. intros; apply rel_ret; reflexivity.
  - eapply rel_bind; [apply rel_emit|]. intros _ _ _. eapply rel_bind; [apply rel_emit|]. intros _ _ _. eapply rel_bind; [apply H|]. intros u v _.
    eapply rel_bind; [apply rel_emit|]. intros _ _ _. eapply rel_bind; [apply IH; injection E; auto|]. intros us vs Hs. apply rel_ret. unfold samelen in *. cbn. congruence.
Qed.
Lemma r_zip f g : (forall x y z w, rel any (f x y) (g z w)) ->
  forall a b c d i, length a = length c -> length b = length d -> rel samelen (t_zip f i a b) (t_zip g i c d).
Proof.
  intros H. induction a as [|x a IH]; intros [|y b] [|z c] [|w d] i E F; try discriminate E; try discriminate F; cbn [t_zip];
    try (eapply rel_bind; [apply rel_emit|]; intros; apply rel_ret; exact E).
  do 3 (eapply rel_bind; [apply rel_emit|]; intros _ _ _). eapply rel_bind; [apply H|]. intros u v _.
  eapply rel_bind; [apply rel_emit|]. intros _ _ _. eapply rel_bind; [apply IH; [injection E|injection F]; auto|]. intros us vs Hs. apply rel_ret. unfold samelen in *. cbn. congruence.
Qed.
Lemma r_fold {A B C} (R : B -> C -> Prop) (f : B -> A -> run B) (g : C -> A -> run C) :
  (forall b c x, R b c -> rel R (f b x) (g c x)) -> forall l b c, R b c -> rel R (t_fold f l b) (t_fold g l c).
Proof.
  intros H. induction l as [|x l IH]; intros b c E; cbn [t_fold].
  - eapply rel_bind; [apply rel_emit|]. intros; apply rel_ret; exact E.
  - eapply rel_bind; [apply rel_emit|]. intros _ _ _. eapply rel_bind; [apply H; exact E|]. intros; apply IH; auto.
Qed.
Lemma r_butterfly o o' x x' y y' w w' s s' : rel any (t_butterfly o x y w s) (t_butterfly o' x' y' w' s').
Proof.
  unfold t_butterfly. eapply rel_bind; [apply r_reduce_ct|]. intros ? ? _. eapply rel_bind; [apply r_lazy_mul_shoup|]. intros ? ? _. word. apply rel_ret; exact I.
Qed.
Lemma r_butterfly_inv o o' x x' y y' w w' s s' : rel any (t_butterfly_inv o x y w s) (t_butterfly_inv o' x' y' w' s').
Proof.
  unfold t_butterfly_inv. eapply rel_bind; [apply rel_wd|]. intros ? ? _. eapply rel_bind; [apply r_reduce_ct|]. intros ? ? _. eapply rel_bind; [apply rel_wd|]. intros ? ? _. eapply rel_bind; [apply rel_wd|]. intros ? ? _.
  eapply rel_bind; [apply r_lazy_mul_shoup|]. intros ? ? _. apply rel_ret; exact I.
Qed.
Lemma r_reduce_4p a a' p p' : rel any (t_reduce_4p a p) (t_reduce_4p a' p').
Proof. unfold t_reduce_4p. eapply rel_bind; [apply rel_wd|]. intros ? ? _. eapply rel_bind; [apply r_reduce_ct|]. intros ? ? _. apply r_reduce_ct. Qed.
Lemma r_bf_at f g a b i j : (forall x y z w, rel any (f x y) (g z w)) -> length a = length b -> rel samelen (t_bf_at f a i j) (t_bf_at g b i j).
Proof.
  intros H E. unfold t_bf_at. eapply rel_bind; [apply rel_getu; exact E|]. intros ? ? _. eapply rel_bind; [apply rel_getu; exact E|]. intros ? ? _. eapply rel_bind; [apply H|]. intros [? ?] [? ?] _.
  eapply rel_bind; [apply rel_setu; exact E|]. intros; apply rel_setu; assumption.
Qed.
Definition stR (s t : list Z * nat) : Prop := length (fst s) = length (fst t) /\ snd s = snd t.
Lemma r_fwd_block o o' l s t i : same_shape o o' -> stR s t -> rel stR (t_fwd_block o l s i) (t_fwd_block o' l t i).
Proof.
  intros (_ & E1 & E2 & _ & _) [E F]. destruct s as [a k], t as [b k']. cbn [fst snd] in E, F. subst k'. unfold t_fwd_block.
  eapply rel_bind; [apply rel_getu; exact E1|]. intros w w' _. eapply rel_bind; [apply rel_getu; exact E2|]. intros v v' _. cbv zeta. apply rel_if.
  - eapply rel_bind; [apply r_bf_at; [intros; apply r_butterfly|exact E]|]. intros aa1 bb1 H1. eapply rel_bind; [apply rel_getu; exact H1|]. intros ? ? _. eapply rel_bind; [apply r_reduce_4p|]. intros ? ? _.
    eapply rel_bind; [apply rel_setu; exact H1|]. intros aa2 bb2 H2. eapply rel_bind; [apply rel_getu; exact H2|]. intros ? ? _. eapply rel_bind; [apply r_reduce_4p|]. intros ? ? _.
    eapply rel_bind; [apply rel_setu; exact H2|]. intros aa3 bb3 H3. apply rel_ret. split; [exact H3|reflexivity].
  - eapply rel_bind; [apply (r_fold samelen); [intros; apply r_bf_at; [intros; apply r_butterfly|assumption]|exact E]|]. intros aa1 bb1 H1. apply rel_ret. split; [exact H1|reflexivity].
Qed.
Lemma r_fwd_loop o o' (S : same_shape o o') f : forall l m k a b, length a = length b -> rel samelen (t_fwd_loop o f l m k a) (t_fwd_loop o' f l m k b).
Proof.
  induction f as [|f IH]; intros l m k a b E; cbn [t_fwd_loop]; destruct (l =? 0)%nat.
  - eapply rel_bind; [apply rel_emit|]. intros; apply rel_ret; exact E.
  - split; [reflexivity|exact I].
  - eapply rel_bind; [apply rel_emit|]. intros; apply rel_ret; exact E.
  - eapply rel_bind; [apply rel_emit|]. intros _ _ _. eapply rel_bind; [apply (r_fold stR); [intros; apply r_fwd_block; assumption|split; [exact E|reflexivity]]|].
    intros [a1 k1] [b1 k2] [H1 H2]. cbn [fst snd] in H1, H2. subst k2. apply IH. exact H1.
Qed.
Lemma r_assert b : rel any (t_assert b) (t_assert b).
Proof. split; [reflexivity|]. destruct b; exact I. Qed.
Lemma r_forward o o' a b : same_shape o o' -> length a = length b -> rel samelen (t_forward o a) (t_forward o' b).
Proof.
  intros S E. unfold t_forward. rewrite E, (proj1 S). eapply rel_bind; [apply r_assert|]. intros _ _ _. apply r_fwd_loop; assumption.
Qed.
Lemma r_bwd_block o o' l s t i : same_shape o o' -> stR s t -> rel stR (t_bwd_block o l s i) (t_bwd_block o' l t i).
Proof.
  intros (_ & _ & _ & E1 & E2) [E F]. destruct s as [a k], t as [b k']. cbn [fst snd] in E, F. subst k'. unfold t_bwd_block. cbv zeta.
  eapply rel_bind; [apply rel_getu; exact E1|]. intros w w' _. eapply rel_bind; [apply rel_getu; exact E2|]. intros v v' _.
  eapply rel_bind; [apply (r_fold samelen); [intros; apply r_bf_at; [intros; apply r_butterfly_inv|assumption]|exact E]|]. intros aa1 bb1 H1. apply rel_ret. split; [exact H1|reflexivity].
Qed.
Lemma r_bwd_loop o o' (S : same_shape o o') f : forall l m k a b, length a = length b -> rel samelen (t_bwd_loop o f l m k a) (t_bwd_loop o' f l m k b).
Proof.
  induction f as [|f IH]; intros l m k a b E; cbn [t_bwd_loop]; destruct (l =? 0)%nat.
  - eapply rel_bind; [apply rel_emit|]. intros; apply rel_ret; exact E.
  - split; [reflexivity|exact I].
  - eapply rel_bind; [apply rel_emit|]. intros; apply rel_ret; exact E.
  - eapply rel_bind; [apply rel_emit|]. intros _ _ _. eapply rel_bind; [apply (r_fold stR); [intros; apply r_bwd_block; assumption|split; [exact E|reflexivity]]|].
    intros [a1 k1] [b1 k2] [H1 H2]. cbn [fst snd] in H1, H2. subst k2. apply IH. exact H1.
Qed.
Lemma r_backward o o' a b : same_shape o o' -> length a = length b -> rel samelen (t_backward o a) (t_backward o' b).
Proof.
  intros S E. unfold t_backward. rewrite E, (proj1 S). eapply rel_bind; [apply r_assert|]. intros _ _ _. eapply rel_bind; [apply r_bwd_loop; assumption|].
  intros aa1 bb1 H1. apply r_map; [intros; apply r_mul_shoup|exact H1].
Qed.
Lemma r_scalar m m' a b x : mp m = mp m' -> length a = length b -> rel samelen (t_scalar_mul_vec m a x) (t_scalar_mul_vec m' b x).
Proof.
  intros E F. unfold t_scalar_mul_vec. eapply rel_bind with (R := any).
  - unfold t_shoup. rewrite E. eapply rel_bind with (R := eq); [split; reflexivity|]. intros ? ? <-. eapply rel_bind with (R := any); [split; [reflexivity|]; cbn [t_div snd]; destruct (udiv _ _); exact I|]. intros; apply rel_wd.
  - intros ? ? _. apply r_map; [intros; apply r_lazy_mul_shoup|exact F].
Qed.
Lemma straight_reduce_ct x p : straight (t_reduce_ct x p).
Proof. repeat constructor. Qed.
Lemma straight_bind {A B} (x : run A) (f : A -> run B) : straight x -> (forall a, straight (f a)) -> straight (rbind x f).
Proof.
  intros H1 H2. unfold straight, rbind. destruct (snd x) as [a| | |]; cbn [fst]; try exact H1. apply Forall_app; split; [exact H1|apply H2].
Qed.
Lemma straight_wd o v : straight (wd o v).
Proof. repeat constructor. Qed.
Ltac str := repeat (apply straight_bind; [|intros ?]); try apply straight_wd.

Lemma s_lazy_reduce_ct m a : straight (t_lazy_reduce_ct m a).
Proof. unfold t_lazy_reduce_ct. str. Qed.
Lemma s_lazy_reduce_u128 m a : straight (t_lazy_reduce_u128 m a).
Proof. unfold t_lazy_reduce_u128. str. Qed.
Lemma s_lazy_mul_shoup m a b s : straight (t_lazy_mul_shoup m a b s).
Proof. unfold t_lazy_mul_shoup. str. Qed.
Lemma s_mul_shoup m a b s : straight (t_mul_shoup m a b s).
Proof. apply straight_bind; [apply s_lazy_mul_shoup|intros; apply straight_reduce_ct]. Qed.
Lemma s_reduce m a : straight (t_reduce m a).
Proof. apply straight_bind; [apply s_lazy_reduce_ct|intros; apply straight_reduce_ct]. Qed.
Lemma s_reduce_u128 m a : straight (t_reduce_u128 m a).
Proof. apply straight_bind; [apply s_lazy_reduce_u128|intros; apply straight_reduce_ct]. Qed.
Lemma s_reduce_i64 m a : straight (t_reduce_i64 m a).
Proof. do 3 (apply straight_bind; [apply straight_wd|intros ?]). apply s_reduce_u128. Qed.
Lemma s_add m a b : straight (t_add m a b).
Proof. apply straight_bind; [apply straight_wd|intros; apply straight_reduce_ct]. Qed.
Lemma s_sub m a b : straight (t_sub m a b).
Proof. apply straight_bind; [apply straight_wd|intros ?]. apply straight_bind; [apply straight_wd|intros; apply straight_reduce_ct]. Qed.
Lemma s_mul m a b : straight (t_mul m a b).
Proof. apply straight_bind; [apply straight_wd|intros; apply s_reduce_u128]. Qed.
Lemma s_neg m a : straight (t_neg m a).
Proof. apply straight_bind; [apply straight_wd|intros; apply straight_reduce_ct]. Qed.

(** ** How much [pow] gives away *)
Lemma fst_app_inj {A} (a b c d : list A) : length a = length c -> a ++ b = c ++ d -> a = c /\ b = d.
Proof. revert c; induction a as [|x a IH]; intros [|y c] E H; try discriminate E; [auto|]. cbn in H. injection H as -> H. apply IH in H; [|injection E; auto]. destruct H as [-> ->]. auto. Qed.
Definition MT : list event := Eval vm_compute in fst (t_mul (mkModulus 17 0 0) 1 1).
Lemma mul_MT m a b : exists v, t_mul m a b = (MT, Ok v).
Proof. eexists. reflexivity. Qed.
Definition bitb (r : Z) (b : nat) : bool := Z.land (Z.shiftr r (Z.of_nat b)) 1 =? 1.
Fixpoint ptr (r : Z) (k : nat) : list event :=
  match k with
  | O => [EBranch false]
  | S b => EBranch true :: MT ++ EOp OShr64 :: EOp OAnd64 :: EBranch (bitb r b) :: (if bitb r b then MT else []) ++ ptr r b
  end.
Lemma fst_rbind {A B} (x : run A) a (f : A -> run B) : snd x = Ok a -> fst (rbind x f) = fst x ++ fst (f a).
Proof. intros E. unfold rbind. rewrite E. reflexivity. Qed.
Lemma pow_loop_ptr m a r k : forall v, fst (t_pow_loop m a r k v) = ptr r k.
Proof.
  induction k as [|k IH]; intros v; [reflexivity|]. cbn [t_pow_loop ptr]. erewrite fst_rbind by reflexivity. cbn [emit fst app]. f_equal.
  destruct (mul_MT m v v) as [u E]. rewrite E. erewrite fst_rbind by reflexivity. cbn [fst]. f_equal. erewrite fst_rbind by reflexivity. cbn [t_shr64 wd fst app]. f_equal.
  erewrite fst_rbind by reflexivity. cbn [t_and wd fst app]. f_equal. unfold t_if. fold (bitb r k). destruct (bitb r k).
  - destruct (mul_MT m u a) as [u' E']. rewrite E'. erewrite fst_rbind by reflexivity. rewrite IH. reflexivity.
  - erewrite fst_rbind by reflexivity. rewrite IH. reflexivity.
Qed.
Lemma ptr_inj r r' : forall k k', ptr r k = ptr r' k' -> k = k' /\ forall j, (j < k)%nat -> bitb r j = bitb r' j.
Proof.
  induction k as [|k IH]; intros [|k'] H; cbn [ptr] in H; try discriminate H; [split; [reflexivity|lia]|].
  injection H as Hb0 H. assert (Hb : bitb r k = bitb r' k' /\ ptr r k = ptr r' k').
  { rewrite <- Hb0 in H. destruct (bitb r k); [apply app_inv_head in H|]; auto. }
  destruct Hb as [Hb H2]. apply IH in H2. destruct H2 as [-> H2]. split; [reflexivity|]. intros j Hj. destruct (Nat.eq_dec j k') as [->|N]; [exact Hb|apply H2; lia].
Qed.
Lemma bitb_testbit r b : bitb r b = Z.testbit r (Z.of_nat b).
Proof.
  unfold bitb. rewrite <- (Z.add_0_l (Z.of_nat b)), <- Z.shiftr_spec by lia. rewrite Z.add_0_l. change 1 with (Z.ones 1) at 1. rewrite Z.land_ones by lia.
  rewrite Z.bit0_odd. change (2 ^ 1) with 2. rewrite Zmod_odd. destruct (Z.odd _); reflexivity.
Qed.
Lemma pow_fst m a r : 1 < r -> fst (t_pow m a r) = EBranch false :: EBranch false :: EOp OLz64 :: ptr r (Z.to_nat (Z.log2 r)).
Proof.
  intros Hr. unfold t_pow, t_if. erewrite fst_rbind by reflexivity. rewrite (proj2 (Z.eqb_neq r 0)) by lia. erewrite fst_rbind by reflexivity. rewrite (proj2 (Z.eqb_neq r 1)) by lia.
  erewrite fst_rbind by reflexivity. rewrite pow_loop_ptr. cbn [emit wd fst app]. do 4 f_equal. unfold leading_zeros, bitlen. rewrite (proj2 (Z.eqb_neq r 0)) by lia. lia.
Qed.
Lemma pow_inj m a m' a' r r' : 0 <= r -> 0 <= r' -> fst (t_pow m a r) = fst (t_pow m' a' r') -> r = r'.
Proof.
  intros H0 H0' H. assert (C : r = 0 \/ r = 1 \/ 1 < r) by lia. assert (C' : r' = 0 \/ r' = 1 \/ 1 < r') by lia.
  destruct C as [->|[->|C]], C' as [->|[->|C']]; try reflexivity; try (discriminate H); try (rewrite (pow_fst m a r C) in H; discriminate H); try (rewrite (pow_fst m' a' r' C') in H; discriminate H).
  rewrite (pow_fst m a r C), (pow_fst m' a' r' C') in H. injection H as H. apply ptr_inj in H. destruct H as [HL HB].
  assert (EL : Z.log2 r = Z.log2 r') by (apply Z2Nat.inj; auto using Z.log2_nonneg).
  apply Z.bits_inj'. intros n Hn. destruct (Z.lt_trichotomy n (Z.log2 r)) as [L|[L|L]].
  - specialize (HB (Z.to_nat n)). rewrite !bitb_testbit, Z2Nat.id in HB by exact Hn. apply HB. apply Z2Nat.inj_lt; auto using Z.log2_nonneg.
  - subst n. rewrite EL at 2. rewrite !Z.bit_log2 by lia. reflexivity.
  - rewrite !Z.bits_above_log2 by lia. reflexivity.
Qed.

(** The recorded functions compute, in a Release build, exactly what the
    functions of src/modulus.rs and src/ntt.rs compute, whatever the inputs. *)
Lemma C93_values_lem : forall (m : Modulus) (op : NttOp) (a b s : Z) (v w : list Z),
  snd (t_lazy_reduce_ct m a) = lazy_reduce_ct Release m a /\
  snd (t_lazy_reduce_u128 m a) = lazy_reduce_u128 Release m a /\
  snd (t_reduce_ct a b) = reduce_ct Release a b /\
  snd (t_reduce m a) = mreduce Release m a /\
  snd (t_reduce_u128 m a) = mreduce_u128 Release m a /\
  snd (t_reduce_i64 m a) = reduce_i64 Release m a /\
  snd (t_add m a b) = madd Release m a b /\
  snd (t_sub m a b) = msub Release m a b /\
  snd (t_mul m a b) = mmul Release m a b /\
  snd (t_neg m a) = mneg Release m a /\
  snd (t_pow m a b) = mpow Release m a b /\
  snd (t_inv m a) = minv Release m a /\
  snd (t_shoup m a) = shoup Release m a /\
  snd (t_lazy_mul_shoup m a b s) = lazy_mul_shoup Release m a b s /\
  snd (t_mul_shoup m a b s) = mul_shoup Release m a b s /\
  snd (t_reduce_vec_u64 m v) = reduce_vec_u64 Release m v /\
  snd (t_reduce_vec_i64 m v) = reduce_vec_i64 Release m v /\
  snd (t_add_vec m v w) = add_vec Release m v w /\
  snd (t_sub_vec m v w) = sub_vec Release m v w /\
  snd (t_mul_vec m v w) = mul_vec Release m v w /\
  snd (t_neg_vec m v) = neg_vec Release m v /\
  snd (t_scalar_mul_vec m v a) = scalar_mul_vec Release m v a /\
  snd (t_forward op v) = ntt_forward Release op v /\
  snd (t_backward op v) = ntt_backward Release op v.
Proof.
  intros. repeat split.
  - apply v_lazy_reduce_ct. - apply v_lazy_reduce_u128. - apply v_reduce. - apply v_reduce_u128. - apply v_reduce_i64. - apply v_add. - apply v_sub. - apply v_mul. - apply v_neg. - apply v_pow. - apply v_inv. - apply v_shoup.
  - apply v_lazy_mul_shoup. - apply v_mul_shoup. - apply v_map, v_reduce. - apply v_map, v_reduce_i64. - apply v_zip, v_add. - apply v_zip, v_sub. - apply v_zip, v_mul. - apply v_map, v_neg. - apply v_scalar. - apply v_forward. - apply v_backward.
Qed.

(** [lazy_reduce_ct], [reduce_ct] and [lazy_mul_shoup], which their comments
    call constant time, and the functions built from them, decide nothing,
    touch no array and divide nothing; and any two runs on any two sets of
    operands and moduli go through the same operations. *)
Lemma C93_words_lem : forall (m m' : Modulus) (a a' b b' s s' : Z),
  (straight (t_lazy_reduce_ct m a) /\ looks_same (t_lazy_reduce_ct m a) (t_lazy_reduce_ct m' a')) /\
  (straight (t_reduce_ct a b) /\ looks_same (t_reduce_ct a b) (t_reduce_ct a' b')) /\
  (straight (t_lazy_mul_shoup m a b s) /\ looks_same (t_lazy_mul_shoup m a b s) (t_lazy_mul_shoup m' a' b' s')) /\
  (straight (t_mul_shoup m a b s) /\ looks_same (t_mul_shoup m a b s) (t_mul_shoup m' a' b' s')) /\
  (straight (t_lazy_reduce_u128 m a) /\ looks_same (t_lazy_reduce_u128 m a) (t_lazy_reduce_u128 m' a')) /\
  (straight (t_reduce m a) /\ looks_same (t_reduce m a) (t_reduce m' a')) /\
  (straight (t_reduce_u128 m a) /\ looks_same (t_reduce_u128 m a) (t_reduce_u128 m' a')) /\
  (straight (t_reduce_i64 m a) /\ looks_same (t_reduce_i64 m a) (t_reduce_i64 m' a')) /\
  (straight (t_add m a b) /\ looks_same (t_add m a b) (t_add m' a' b')) /\
  (straight (t_sub m a b) /\ looks_same (t_sub m a b) (t_sub m' a' b')) /\
  (straight (t_mul m a b) /\ looks_same (t_mul m a b) (t_mul m' a' b')) /\
  (straight (t_neg m a) /\ looks_same (t_neg m a) (t_neg m' a')).
Proof.
  intros. split; [split; [apply s_lazy_reduce_ct|eapply rel_looks, r_lazy_reduce_ct]|]. split; [split; [apply straight_reduce_ct|eapply rel_looks, r_reduce_ct]|].
  split; [split; [apply s_lazy_mul_shoup|eapply rel_looks, r_lazy_mul_shoup]|]. split; [split; [apply s_mul_shoup|eapply rel_looks, r_mul_shoup]|].
  split; [split; [apply s_lazy_reduce_u128|eapply rel_looks, r_lazy_reduce_u128]|]. split; [split; [apply s_reduce|eapply rel_looks, r_reduce]|].
  split; [split; [apply s_reduce_u128|eapply rel_looks, r_reduce_u128]|]. split; [split; [apply s_reduce_i64|eapply rel_looks, r_reduce_i64]|].
  split; [split; [apply s_add|eapply rel_looks, r_add]|]. split; [split; [apply s_sub|eapply rel_looks, r_sub]|].
  split; [split; [apply s_mul|eapply rel_looks, r_mul]|]. split; [apply s_neg|eapply rel_looks, r_neg].
Qed.

(** The vector functions give away only the lengths of the vectors (and
    [scalar_mul_vec], through the division in [shoup], the modulus and the
    scalar it multiplies with). *)
Lemma C93_vectors_lem : forall (m m' : Modulus) (a a' b b' : list Z) (x : Z),
  length a = length a' -> length b = length b' ->
  looks_same (t_reduce_vec_u64 m a) (t_reduce_vec_u64 m' a') /\
  looks_same (t_reduce_vec_i64 m a) (t_reduce_vec_i64 m' a') /\
  looks_same (t_add_vec m a b) (t_add_vec m' a' b') /\
  looks_same (t_sub_vec m a b) (t_sub_vec m' a' b') /\
  looks_same (t_mul_vec m a b) (t_mul_vec m' a' b') /\
  looks_same (t_neg_vec m a) (t_neg_vec m' a') /\
  (mp m = mp m' -> looks_same (t_scalar_mul_vec m a x) (t_scalar_mul_vec m' a' x)).
Proof.
  intros m m' a a' b b' x Ea Eb. split; [eapply rel_looks, r_map; [intros; apply r_reduce|exact Ea]|]. split; [eapply rel_looks, r_map; [intros; apply r_reduce_i64|exact Ea]|].
  split; [eapply rel_looks, r_zip; [intros; apply r_add|exact Ea|exact Eb]|]. split; [eapply rel_looks, r_zip; [intros; apply r_sub|exact Ea|exact Eb]|].
  split; [eapply rel_looks, r_zip; [intros; apply r_mul|exact Ea|exact Eb]|]. split; [eapply rel_looks, r_map; [intros; apply r_neg|exact Ea]|].
  intros E. eapply rel_looks, r_scalar; assumption.
Qed.

(** The number-theoretic transforms give away only the sizes: two runs, on
    vectors of the same length and with tables of the same lengths, touch the
    same cells in the same order and take the same decisions, whatever the
    coefficients, the tables and the moduli. *)
Lemma C93_transforms_lem : forall (op op' : NttOp) (a a' : list Z),
  same_shape op op' -> length a = length a' ->
  looks_same (t_forward op a) (t_forward op' a') /\
  looks_same (t_backward op a) (t_backward op' a').
Proof. intros op op' a a' S E. split; eapply rel_looks; [apply r_forward|apply r_backward]; assumption. Qed.

(** [pow] gives away its exponent, all of it and nothing else: two runs with
    the same exponent look the same, and two runs whose steps are the same
    had the same exponent.  [inv] therefore gives away the modulus only. *)
Lemma C93_pow_lem : forall (m m' : Modulus) (a a' r r' : Z),
  looks_same (t_pow m a r) (t_pow m' a' r) /\
  (0 <= r -> 0 <= r' -> fst (t_pow m a r) = fst (t_pow m' a' r') -> r = r') /\
  (mp m = mp m' -> looks_same (t_inv m a) (t_inv m' a')).
Proof.
  intros. split; [eapply rel_looks, r_pow|]. split; [apply pow_inj|]. intros E. eapply rel_looks, r_inv. exact E.
Qed.

(*EXAMPLE
(** Reducing 5 and 60 modulo 37: the run takes eleven operations either way,
    and the values are right. *)
Example C93_reduce_ct_ex :
  t_reduce_ct 5 37 = ([EOp OSub64; EOp OXor64; EOp OXor64; EOp OXor64; EOp OXor64; EOp OShr64; EOp OSub64; EOp OAnd64; EOp ONot64; EOp OAnd64; EOp OOr64], Ok 5) /\
  t_reduce_ct 60 37 = (fst (t_reduce_ct 5 37), Ok 23).
Proof. vm_compute. split; reflexivity. Qed.
(** A reduction with a branch would be told apart: the runs of
    [if x < p then x else x - p] on 5 and on 60 differ. *)
Example C93_branch_ex :
  let naive := fun x p : Z => t_if (x <? p) (ret x) (t_sub64 x p) in
  snd (naive 5 37) = Ok 5 /\ snd (naive 60 37) = Ok 23 /\ ~ looks_same (naive 5 37) (naive 60 37).
Proof. cbv zeta. split; [vm_compute; reflexivity|]. split; [vm_compute; reflexivity|]. intros [H _]. vm_compute in H. discriminate H. Qed.
(** Exponents 5 and 6 are told apart. *)
Example C93_pow_ex :
  let m := mkModulus 17 (W128 / 17 / W64) ((W128 / 17) mod W64) in
  snd (t_pow m 3 5) = Ok 5 /\ snd (t_pow m 3 6) = Ok 15 /\ fst (t_pow m 3 5) <> fst (t_pow m 3 6).
Proof. cbv zeta. split; [vm_compute; reflexivity|]. split; [vm_compute; reflexivity|]. intros H. vm_compute in H. discriminate H. Qed.
EXAMPLE*)
