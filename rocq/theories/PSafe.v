(** Safety triples: [safe x Q] says that [x] is not undefined behaviour and not
    an exhausted loop, and that a normal result satisfies [Q].  Panics are
    allowed.  Only shapes (lengths of arrays) are needed, no values. *)
From Verif Require Import PBase NT Spec PSum MModulus MUtils MNtt MRns MRq MBfv MKsk MGalois MRgsw MEval MPvw MOmr PModulus PUtils PUtils2 PNttMath PNtt PNttNew.

Definition safe {A} (x : outcome A) (Q : A -> Prop) : Prop :=
  match x with Ok a => Q a | Panic => True | _ => False end.
Definition any {A} (_ : A) : Prop := True.

Lemma safe_ok {A} (a : A) (Q : A -> Prop) : Q a -> safe (Ok a) Q.
Proof. intros H; exact H. Qed.
Lemma safe_panic {A} (Q : A -> Prop) : safe Panic Q.
Proof. exact I. Qed.
Lemma safe_bind {A B} (x : outcome A) (f : A -> outcome B) (P : A -> Prop) (Q : B -> Prop) :
  safe x P -> (forall a, P a -> safe (f a) Q) -> safe (bind x f) Q.
Proof. destruct x; cbn [safe bind]; auto; contradiction. Qed.
Lemma safe_any {A B} (x : outcome A) (f : A -> outcome B) (Q : B -> Prop) :
  safe x any -> (forall a, safe (f a) Q) -> safe (bind x f) Q.
Proof. intros. eapply safe_bind; eauto. Qed.
Lemma safe_weak {A} (x : outcome A) (P Q : A -> Prop) : safe x P -> (forall a, P a -> Q a) -> safe x Q.
Proof. destruct x; cbn [safe]; auto. Qed.
Lemma safe_to_any {A} (x : outcome A) (P : A -> Prop) : safe x P -> safe x any.
Proof. intros H. eapply safe_weak; [exact H|]. intros; exact I. Qed.
Lemma safe_and {A} (x : outcome A) (P Q : A -> Prop) : safe x P -> safe x Q -> safe x (fun a => P a /\ Q a).
Proof. destruct x; cbn [safe]; auto. Qed.
Lemma safe_eq {A} (x : outcome A) (Q : A -> Prop) : safe x Q -> safe x (fun a => x = Ok a /\ Q a).
Proof. destruct x; cbn [safe]; auto. Qed.

Lemma sf_chk pr w x : safe (chk pr w x) any.
Proof. unfold chk. destruct ((0 <=? x) && (x <? w)); [exact I|]. destruct pr; exact I. Qed.
Lemma sf_rassert b : safe (rassert b) (fun _ => b = true).
Proof. destruct b; [reflexivity|exact I]. Qed.
Lemma sf_rassert_any b : safe (rassert b) any.
Proof. destruct b; exact I. Qed.
Lemma sf_dassert pr b : safe (dassert pr b) any.
Proof. destruct pr; [apply sf_rassert_any|exact I]. Qed.
Lemma sf_unwrap {A} (o : option A) : safe (unwrap o) (fun a => o = Some a).
Proof. destruct o; [reflexivity|exact I]. Qed.
Lemma sf_unwrap_any {A} (o : option A) : safe (unwrap o) any.
Proof. destruct o; exact I. Qed.
Lemma sf_udiv a b : safe (udiv a b) any.
Proof. unfold udiv. destruct (b =? 0); exact I. Qed.
Lemma sf_umod a b : safe (umod a b) any.
Proof. unfold umod. destruct (b =? 0); exact I. Qed.
Lemma sf_get {A} (l : list A) i : safe (get l i) (fun a => In a l).
Proof. unfold get. destruct (nth_error l i) eqn:E; [|exact I]. apply nth_error_In in E. exact E. Qed.
Lemma sf_get_any {A} (l : list A) i : safe (get l i) any.
Proof. unfold get. destruct (nth_error l i); exact I. Qed.
Lemma sf_set {A} (l : list A) i v : safe (set l i v) (fun r => length r = length l).
Proof. unfold set. destruct (i <? length l)%nat; [apply upd_length|exact I]. Qed.
Lemma in_upd {A} (l : list A) i v x : In x (upd l i v) -> x = v \/ In x l.
Proof.
  revert i; induction l as [|y l IH]; intros [|i] H; cbn [upd] in *; auto.
  - destruct H as [H|H]; [auto|right; right; auto].
  - destruct H as [->|H]; [right; left; auto|]. destruct (IH i H); auto. right; right; auto.
Qed.
Lemma sf_set_in {A} (l : list A) i v (Q : A -> Prop) : Forall Q l -> Q v -> safe (set l i v) (Forall Q).
Proof.
  intros H1 H2. unfold set. destruct (i <? length l)%nat; [|exact I]. apply Forall_forall. intros x Hx.
  apply in_upd in Hx. destruct Hx as [->|Hx]; auto. rewrite Forall_forall in H1. auto.
Qed.
Lemma sf_set_any {A} (l : list A) i v : safe (set l i v) any.
Proof. unfold set. destruct (i <? length l)%nat; exact I. Qed.
Lemma sf_getu {A} (l : list A) i : (i < length l)%nat -> safe (getu l i) any.
Proof. intros H. unfold getu. destruct (nth_error l i) eqn:E; [exact I|]. apply nth_error_None in E. lia. Qed.
Lemma sf_getu_in {A} (l : list A) i : (i < length l)%nat -> safe (getu l i) (fun a => In a l).
Proof. intros H. unfold getu. destruct (nth_error l i) eqn:E; [eapply nth_error_In; eauto|]. apply nth_error_None in E. lia. Qed.
Lemma sf_setu {A} (l : list A) i v : (i < length l)%nat -> safe (setu l i v) (fun r => length r = length l).
Proof. intros H. unfold setu. rewrite (proj2 (Nat.ltb_lt _ _)) by auto. apply upd_length. Qed.
Lemma sf_slice_to {A} (l : list A) k : safe (slice_to l k) (fun r => r = firstn k l /\ (k <= length l)%nat).
Proof. unfold slice_to. destruct (k <=? length l)%nat eqn:E; [|exact I]. split; auto. apply Nat.leb_le; auto. Qed.
Lemma sf_slice_to_any {A} (l : list A) k : safe (slice_to l k) any.
Proof. unfold slice_to. destruct (k <=? length l)%nat; exact I. Qed.
Lemma sf_copy_prefix {A} (d s : list A) : safe (copy_prefix d s) any.
Proof. unfold copy_prefix. destruct (length s <=? length d)%nat; exact I. Qed.
Lemma sf_chunks {A} k (l : list A) : safe (chunks k l) (fun ch => forall c x, In c ch -> In x c -> In x l).
Proof.
  unfold chunks. destruct (k =? 0)%nat; [exact I|]. cbn [safe].
  assert (G : forall f (l : list A) c x, In c (chunks_fuel f k l) -> In x c -> In x l).
  { clear l. induction f as [|f IH]; intros l c x H1 H2; [contradiction|]. cbn [chunks_fuel] in H1.
    destruct l as [|y l]; [contradiction|]. destruct H1 as [<-|H1].
    - rewrite <- (firstn_skipn k (y :: l)). apply in_or_app. auto.
    - rewrite <- (firstn_skipn k (y :: l)). apply in_or_app. right. eapply IH; eauto. }
  apply G.
Qed.
Lemma sf_chunks_any {A} k (l : list A) : safe (chunks k l) any.
Proof. unfold chunks. destruct (k =? 0)%nat; exact I. Qed.

Lemma sf_mapM {A B} (f : A -> outcome B) l (Q : B -> Prop) :
  (forall x, In x l -> safe (f x) Q) -> safe (mapM f l) (fun r => length r = length l /\ Forall Q r).
Proof.
  induction l as [|x l IH]; intros H; cbn [mapM]; [split; auto|].
  eapply safe_bind; [apply H; left; auto|]. intros y Hy. cbv beta in Hy.
  eapply safe_bind; [apply IH; intros; apply H; right; auto|]. intros ys [H1 H2].
  split; cbn [length]; auto.
Qed.
Lemma sf_mapM_any {A B} (f : A -> outcome B) l : (forall x, safe (f x) any) -> safe (mapM f l) any.
Proof. intros H. eapply safe_to_any. apply (sf_mapM f l any). intros; apply H. Qed.
Lemma sf_mapM_len {A B} (f : A -> outcome B) l : (forall x, safe (f x) any) -> safe (mapM f l) (fun r => length r = length l).
Proof. intros H. eapply safe_weak; [apply (sf_mapM f l any); intros; apply H|]. intros r [? _]; auto. Qed.
Lemma sf_foldM {A B} (f : B -> A -> outcome B) (I : B -> Prop) l : (forall b x, In x l -> I b -> safe (f b x) I) -> forall b, I b -> safe (foldM f l b) I.
Proof.
  induction l as [|x l IH]; intros H b Hb; cbn [foldM]; [exact Hb|].
  eapply safe_bind; [apply H; [left; auto|auto]|]. intros b' Hb'. cbv beta in Hb'. apply IH; auto. intros; apply H; auto. right; auto.
Qed.
Lemma sf_foldM_any {A B} (f : B -> A -> outcome B) l b : (forall b x, safe (f b x) any) -> safe (foldM f l b) any.
Proof. intros H. apply sf_foldM; [intros; apply H|exact I]. Qed.
Lemma sf_foldM_seq {B} (f : B -> nat -> outcome B) (I : nat -> B -> Prop) n : forall s b,
  I s b -> (forall i b, (s <= i < s + n)%nat -> I i b -> safe (f b i) (I (S i))) -> safe (foldM f (seq s n) b) (I (s + n)%nat).
Proof.
  induction n as [|n IH]; intros s b H0 HS; cbn [seq foldM].
  - rewrite Nat.add_0_r. exact H0.
  - eapply safe_bind; [apply HS; [lia|exact H0]|]. intros b' Hb'. cbv beta in Hb'.
    replace (s + S n)%nat with (S s + n)%nat by lia. apply IH; auto. intros; apply HS; auto. lia.
Qed.
Lemma sf_zipM_upd {A B} (f : A -> B -> outcome A) : forall a b, (forall x y, In x a -> In y b -> safe (f x y) any) ->
  safe (zipM_upd f a b) (fun r => length r = length a).
Proof.
  induction a as [|x a IH]; intros [|y b] H; cbn [zipM_upd]; try reflexivity.
  eapply safe_bind; [apply H; left; auto|]. intros z _.
  eapply safe_bind; [apply IH; intros; apply H; right; auto|]. intros r Hr. cbn [safe length]. cbv beta in Hr. lia.
Qed.
Lemma sf_zipM {A B C} (f : A -> B -> outcome C) (Q : C -> Prop) : forall a b, (forall x y, In x a -> In y b -> safe (f x y) Q) ->
  safe (zipM f a b) (fun r => length r = Nat.min (length a) (length b) /\ Forall Q r).
Proof.
  induction a as [|x a IH]; intros [|y b] H; cbn [zipM]; try (split; auto).
  eapply safe_bind; [apply H; left; auto|]. intros z Hz.
  eapply safe_bind; [apply IH; intros; apply H; right; auto|]. intros r [Hr Hf]. split; cbn [length]; auto. lia.
Qed.
Lemma sf_zipM_any {A B C} (f : A -> B -> outcome C) a b : (forall x y, safe (f x y) any) -> safe (zipM f a b) any.
Proof. intros H. eapply safe_to_any. apply (sf_zipM f any). intros; apply H. Qed.
Lemma sf_vec_repeat {A} (x : A) n e : safe (vec_repeat x n e) any.
Proof. unfold vec_repeat. destruct (n * e <? W63); exact I. Qed.

Create HintDb sf.
#[export] Hint Resolve sf_chk sf_dassert sf_udiv sf_umod sf_rassert_any sf_unwrap_any sf_get_any sf_set_any sf_slice_to_any sf_copy_prefix sf_chunks_any sf_vec_repeat : sf.

(** Functions without unsafe code, loops or interesting shapes. *)
Ltac sf1 :=
  match goal with
  | |- safe Panic _ => exact I
  | |- safe (Ok _) any => exact I
  | |- safe _ any => solve [auto 2 with sf nocore]
  | |- safe (bind _ _) _ => apply safe_any; [|intros]
  | |- safe (mapM _ _) any => apply sf_mapM_any; intros
  | |- safe (foldM _ _ _) any => apply sf_foldM_any; intros
  | |- safe (zipM_upd _ _ _) any => eapply safe_to_any; apply sf_zipM_upd; intros
  | |- safe (zipM _ _ _) any => apply sf_zipM_any; intros
  | |- safe (match ?b with _ => _ end) _ => destruct b
  | p : _ * _ |- _ => destruct p
  end.
Ltac sf := cbv zeta; repeat (sf1; cbv beta iota zeta).
Ltac sfu f := intros; unfold f; sf.


(** modulus.rs *)
Lemma sf_add64 pr a b : safe (add64 pr a b) any. Proof. apply sf_chk. Qed.
Lemma sf_sub64 pr a b : safe (sub64 pr a b) any. Proof. apply sf_chk. Qed.
Lemma sf_mul64 pr a b : safe (mul64 pr a b) any. Proof. apply sf_chk. Qed.
Lemma sf_add128 pr a b : safe (add128 pr a b) any. Proof. apply sf_chk. Qed.
Lemma sf_sub128 pr a b : safe (sub128 pr a b) any. Proof. apply sf_chk. Qed.
Lemma sf_mul128 pr a b : safe (mul128 pr a b) any. Proof. apply sf_chk. Qed.
#[export] Hint Resolve sf_add64 sf_sub64 sf_mul64 sf_add128 sf_sub128 sf_mul128 : sf.
Lemma sf_modulus_new p : safe (modulus_new p) any. Proof. sfu modulus_new. Qed.
Lemma sf_lazy_reduce_ct pr m a : safe (lazy_reduce_ct pr m a) any. Proof. sfu lazy_reduce_ct. Qed.
Lemma sf_lazy_reduce_u128 pr m a : safe (lazy_reduce_u128 pr m a) any. Proof. sfu lazy_reduce_u128. Qed.
Lemma sf_reduce_ct pr x p : safe (reduce_ct pr x p) any. Proof. sfu reduce_ct. Qed.
#[export] Hint Resolve sf_modulus_new sf_lazy_reduce_ct sf_lazy_reduce_u128 sf_reduce_ct : sf.
Lemma sf_mreduce pr m a : safe (mreduce pr m a) any. Proof. sfu mreduce. Qed.
Lemma sf_mreduce_u128 pr m a : safe (mreduce_u128 pr m a) any. Proof. sfu mreduce_u128. Qed.
Lemma sf_reduce_biguint m a : safe (reduce_biguint m a) any. Proof. sfu reduce_biguint. Qed.
#[export] Hint Resolve sf_mreduce sf_mreduce_u128 sf_reduce_biguint : sf.
Lemma sf_reduce_i64 pr m a : safe (reduce_i64 pr m a) any. Proof. sfu reduce_i64. Qed.
#[export] Hint Resolve sf_reduce_i64 : sf.
Lemma sf_reduce_vec_u64 pr m a : safe (reduce_vec_u64 pr m a) any. Proof. sfu reduce_vec_u64. Qed.
Lemma sf_reduce_vec_i64 pr m a : safe (reduce_vec_i64 pr m a) any. Proof. sfu reduce_vec_i64. Qed.
Lemma sf_reduce_vec_biguint m a : safe (reduce_vec_biguint m a) any. Proof. sfu reduce_vec_biguint. Qed.
Lemma sf_madd pr m a b : safe (madd pr m a b) any. Proof. sfu madd. Qed.
Lemma sf_msub pr m a b : safe (msub pr m a b) any. Proof. sfu msub. Qed.
Lemma sf_mmul pr m a b : safe (mmul pr m a b) any. Proof. sfu mmul. Qed.
Lemma sf_mneg pr m a : safe (mneg pr m a) any. Proof. sfu mneg. Qed.
#[export] Hint Resolve sf_reduce_vec_u64 sf_reduce_vec_i64 sf_reduce_vec_biguint sf_madd sf_msub sf_mmul sf_mneg : sf.
Lemma sf_pow_loop pr m a r k : forall v, safe (pow_loop pr m a r k v) any.
Proof. induction k as [|k IH]; intros v; cbn [pow_loop]; sf; apply IH. Qed.
#[export] Hint Resolve sf_pow_loop : sf.
Lemma sf_mpow pr m a r : safe (mpow pr m a r) any. Proof. sfu mpow. Qed.
#[export] Hint Resolve sf_mpow : sf.
Lemma sf_minv pr m a : safe (minv pr m a) any. Proof. sfu minv. Qed.
#[export] Hint Resolve sf_minv : sf.
Lemma sf_inv_vec pr m a : safe (inv_vec pr m a) any. Proof. sfu inv_vec. Qed.
Lemma sf_shoup pr m a : safe (shoup pr m a) any. Proof. sfu shoup. Qed.
#[export] Hint Resolve sf_inv_vec sf_shoup : sf.
Lemma sf_shoup_vec pr m a : safe (shoup_vec pr m a) (fun r => length r = length a).
Proof. apply sf_mapM_len. intros; apply sf_shoup. Qed.
Lemma sf_lazy_mul_shoup pr m a b c : safe (lazy_mul_shoup pr m a b c) any. Proof. sfu lazy_mul_shoup. Qed.
#[export] Hint Resolve sf_lazy_mul_shoup : sf.
Lemma sf_mul_shoup pr m a b c : safe (mul_shoup pr m a b c) any. Proof. sfu mul_shoup. Qed.
Lemma sf_scalar_mul_vec pr m a b : safe (scalar_mul_vec pr m a b) any. Proof. sfu scalar_mul_vec. Qed.
Lemma sf_add_vec pr m a b : safe (add_vec pr m a b) any. Proof. sfu add_vec. Qed.
Lemma sf_sub_vec pr m a b : safe (sub_vec pr m a b) any. Proof. sfu sub_vec. Qed.
Lemma sf_mul_vec pr m a b : safe (mul_vec pr m a b) any. Proof. sfu mul_vec. Qed.
Lemma sf_neg_vec pr m a : safe (neg_vec pr m a) any. Proof. sfu neg_vec. Qed.
#[export] Hint Resolve sf_mul_shoup sf_scalar_mul_vec sf_add_vec sf_sub_vec sf_mul_vec sf_neg_vec : sf.

(** utils.rs *)
Lemma sf_cbd_loop pr nb ma ms w size : forall pool nbits k, safe (cbd_loop pr nb ma ms w size pool nbits k) any.
Proof.
  induction size as [|size IH]; intros pool nbits k; cbn [cbd_loop]; [exact I|].
  destruct (nbits <? nb); cbv beta iota; (apply safe_any; [apply sf_dassert|]; intros; apply safe_any; [apply IH|]; intros; exact I).
Qed.
#[export] Hint Resolve sf_cbd_loop : sf.
Lemma sf_sample_vec_cbd pr n v w : safe (sample_vec_cbd pr n v w) any. Proof. sfu sample_vec_cbd. Qed.
Lemma sf_ilog2 pr w v : safe (ilog2 pr w v) any. Proof. sfu ilog2. Qed.
Lemma sf_div_ceil pr w a b : safe (div_ceil pr w a b) any. Proof. sfu div_ceil. Qed.
Lemma sf_u256_to_u128 pr x : safe (u256_to_u128 pr x) any. Proof. sfu u256_to_u128. Qed.
Lemma sf_u256_shr pr x s : safe (u256_shr pr x s) any. Proof. sfu u256_shr. Qed.
#[export] Hint Resolve sf_sample_vec_cbd sf_ilog2 sf_div_ceil sf_u256_to_u128 sf_u256_shr : sf.

(** Both loops of [generate_prime] end, whatever the primality test. *)
Lemma sf_generate_prime pr ip b m ub : 0 <= m -> 0 <= ub <= 2 ^ 64 ->
  safe (generate_prime pr ip b m ub) (fun o => forall r, o = Some r -> 2 ^ (b - 1) <= r < 2 ^ b /\ (1 <= ub -> r < ub)).
Proof.
  intros Hm Hu. unfold generate_prime.
  destruct (negb ((10 <=? b) && (b <=? 62))) eqn:Eb; [cbn [safe]; intros; discriminate|].
  assert (Hb : 10 <= b <= 62) by lia. clear Eb.
  assert (P0 : 0 < 2 ^ (b - 1)) by (apply Z.pow_pos_nonneg; lia).
  change (2 ^ 64) with W64 in Hu.
  apply safe_any; [apply sf_dassert|]. intros _.
  apply (safe_bind _ _ (fun t0 => 0 <= t0 < W64 /\ (1 <= ub -> t0 < ub))).
  { unfold sub64, chk. destruct ((0 <=? ub - 1) && (ub - 1 <? W64)) eqn:E; [cbn [safe]; lia|].
    destruct pr; [exact I|]. cbn [safe]. split; [apply Z.mod_pos_bound; reflexivity|lia]. }
  intros t0 [Ht0 Ht0'].
  eapply safe_bind; [apply sf_rassert|]. intros u Hm0. cbv beta in Hm0.
  set (I0 := fun t => 0 <= t <= t0).
  destruct (iter2_term (gp_step1 (64 - b) m) I0 (fun t => t) 64 t0) as [t1 [s1 [E1 [I1 F1]]]].
  - intros s s' [A1 A2] E. unfold gp_step1 in E. rewrite lz_eq in E by lia.
    destruct (negb (s mod m =? 1) && _) eqn:N; [|discriminate]. injection E as <-. unfold I0. lia.
  - intros s [A1 _]. exact A1.
  - unfold I0. lia.
  - change (2 ^ Z.of_nat 64) with W64. lia.
  - rewrite E1. assert (R1 : 0 <= t1 <= t0).
    { unfold gp_step1 in F1. destruct (negb (s1 mod m =? 1) && _); [discriminate|]. injection F1 as <-. exact I1. }
    destruct (iter2_term (gp_step2 ip (64 - b) m) I0 (fun t => t) 64 t1) as [t2 [s2 [E2 [I2 F2]]]].
    + intros s s' [A1 A2] E. unfold gp_step2 in E.
      destruct ((leading_zeros 64 s =? 64 - b) && negb (ip s) && (m <=? s)) eqn:N; [|discriminate]. injection E as <-. unfold I0. lia.
    + intros s [A1 _]. exact A1.
    + exact R1.
    + change (2 ^ Z.of_nat 64) with W64. lia.
    + rewrite E2. assert (R2 : 0 <= t2 <= t0).
      { unfold gp_step2 in F2. destruct (_ && _ && _); [discriminate|]. injection F2 as <-. exact I2. }
      rewrite lz_eq by lia.
      destruct ((2 ^ (b - 1) <=? t2) && (t2 <? 2 ^ b) && ip t2) eqn:F; cbn [safe]; intros r Er; [|discriminate].
      injection Er as <-. split; [lia|]. intros H. specialize (Ht0' H). lia.
Qed.

(** ntt.rs *)
Lemma sf_is_primitive_root pr v n p : safe (is_primitive_root pr v n p) any. Proof. sfu is_primitive_root. Qed.
#[export] Hint Resolve sf_is_primitive_root : sf.
Lemma sf_primitive_root_loop pr env tries : forall k l n p, safe (primitive_root_loop pr env tries k l n p) any.
Proof. induction tries as [|t IH]; intros; cbn [primitive_root_loop]; sf; apply IH. Qed.
#[export] Hint Resolve sf_primitive_root_loop : sf.
Lemma sf_primitive_root pr env n p : safe (primitive_root pr env n p) any. Proof. sfu primitive_root. Qed.
#[export] Hint Resolve sf_primitive_root : sf.
Lemma sf_powers_loop pr p w c : forall v, safe (powers_loop pr p w c v) any.
Proof. induction c as [|c IH]; intros; cbn [powers_loop]; sf; apply IH. Qed.
#[export] Hint Resolve sf_powers_loop : sf.

Record ntt_shape (op : NttOp) : Prop := {
  ns_pow : exists L, nt_size op = (2 ^ L)%nat /\ (1 <= L < 64)%nat;
  ns_om : length (nt_omegas op) = nt_size op;
  ns_oms : length (nt_omegas_shoup op) = nt_size op;
  ns_ze : length (nt_zetas_inv op) = nt_size op;
  ns_zes : length (nt_zetas_inv_shoup op) = nt_size op }.

Lemma sf_ntt_new pr env p size : Z.of_nat size < 2 ^ 64 -> safe (ntt_new pr env p size) (fun op => ntt_shape op /\ nt_size op = size).
Proof.
  intros Hs. unfold ntt_new. eapply safe_bind; [apply sf_rassert|]. intros u H. cbv beta in H.
  assert (HL : exists L, size = (2 ^ L)%nat /\ (1 <= L < 64)%nat).
  { unfold supports_ntt in H. destruct (negb (is_power_of_two (Z.of_nat size)) || (Z.of_nat size <? 8)) eqn:E; [discriminate|].
    apply orb_false_iff in E. destruct E as [E1 E2]. apply negb_false_iff in E1.
    destruct (pow2_test size E1) as [L ->]. exists L. split; auto.
    rewrite pow2_Z in *. split.
    - destruct L; [|lia]. cbn in E2. discriminate.
    - assert (Z.of_nat L < 64) by (apply (Z.pow_lt_mono_r_iff 2); lia). lia. }
  repeat (apply safe_any; [solve [auto with sf nocore]|]; intros). cbv zeta.
  set (js := map _ (seq 0 size)).
  assert (Hjs : length js = size) by (unfold js; rewrite map_length, seq_length; auto).
  eapply safe_bind; [apply sf_mapM_len; intros; apply sf_get_any|]. intros om Hom.
  eapply safe_bind; [apply sf_mapM_len; intros; apply sf_get_any|]. intros omi Homi.
  eapply safe_bind; [apply sf_mapM_len; intros; apply sf_get_any|]. intros ze Hze.
  eapply safe_bind; [apply sf_shoup_vec|]. intros oms Homs.
  eapply safe_bind; [apply sf_shoup_vec|]. intros zes Hzes.
  repeat (apply safe_any; [solve [auto with sf nocore]|]; intros). cbv beta in *.
  cbn [safe]. split; [|reflexivity]. split; cbn; try congruence.
Qed.

Lemma sf_butterfly pr op x y w s : safe (butterfly pr op x y w s) any. Proof. sfu butterfly. Qed.
Lemma sf_butterfly_inv pr op x y w s : safe (butterfly_inv pr op x y w s) any. Proof. sfu butterfly_inv. Qed.
Lemma sf_reduce_4p pr a p : safe (reduce_4p pr a p) any. Proof. sfu reduce_4p. Qed.
#[export] Hint Resolve sf_butterfly sf_butterfly_inv sf_reduce_4p : sf.
Lemma sf_bf_at f a i j : (forall x y, safe (f x y) any) -> (i < length a)%nat -> (j < length a)%nat ->
  safe (bf_at f a i j) (fun r => length r = length a).
Proof.
  intros H Hi Hj. unfold bf_at. apply safe_any; [apply sf_getu; auto|]. intros x. apply safe_any; [apply sf_getu; auto|]. intros y.
  apply safe_any; [apply H|]. intros [x' y'].
  eapply safe_bind; [apply sf_setu; auto|]. intros a1 H1. cbv beta in H1.
  eapply safe_weak; [apply sf_setu; lia|]. intros a2 H2. cbv beta in *. lia.
Qed.
Lemma block_bound m i l (Hi : (i < m)%nat) : (2 * i * l + 2 * l <= 2 * m * l)%nat.
Proof. nia. Qed.
Lemma sf_fwd_block pr op l m a k i : (1 <= l)%nat -> (i < m)%nat -> length a = (2 * m * l)%nat ->
  (k < length (nt_omegas op))%nat -> (k < length (nt_omegas_shoup op))%nat ->
  safe (fwd_block pr op l (a, k) i) (fun st => length (fst st) = length a /\ snd st = S k).
Proof.
  intros Hl Hi Ha Hk1 Hk2. pose proof (block_bound m i l Hi) as B. unfold fwd_block.
  apply safe_any; [apply sf_getu; auto|]. intros om. apply safe_any; [apply sf_getu; auto|]. intros oms. cbv zeta.
  set (s := (2 * i * l)%nat) in *.
  destruct (l =? 1)%nat eqn:E.
  - eapply safe_bind; [apply sf_bf_at; [intros; auto with sf nocore|lia|lia]|]. intros a1 H1. cbv beta in H1.
    apply safe_any; [apply sf_getu; lia|]. intros u. apply safe_any; [apply sf_reduce_4p|]. intros u'.
    eapply safe_bind; [apply sf_setu; lia|]. intros a2 H2. cbv beta in H2.
    apply safe_any; [apply sf_getu; lia|]. intros v. apply safe_any; [apply sf_reduce_4p|]. intros v'.
    eapply safe_bind; [apply sf_setu; lia|]. intros a3 H3. cbv beta in H3. split; cbn; lia.
  - eapply safe_bind.
    + apply (sf_foldM_seq _ (fun _ x => length x = length a)); [auto|]. intros j x Hj Hx. cbv beta in Hx.
      eapply safe_weak; [apply sf_bf_at; [intros; auto with sf nocore|lia|lia]|]. intros y Hy. cbv beta in *. lia.
    + intros a1 H1. cbv beta in H1. split; cbn; lia.
Qed.
Lemma sf_bwd_block pr op l m a k i : (1 <= l)%nat -> (i < m)%nat -> length a = (2 * m * l)%nat ->
  (k < length (nt_zetas_inv op))%nat -> (k < length (nt_zetas_inv_shoup op))%nat ->
  safe (bwd_block pr op l (a, k) i) (fun st => length (fst st) = length a /\ snd st = S k).
Proof.
  intros Hl Hi Ha Hk1 Hk2. pose proof (block_bound m i l Hi) as B. unfold bwd_block. cbv zeta.
  set (s := (2 * i * l)%nat) in *.
  apply safe_any; [apply sf_getu; auto|]. intros om. apply safe_any; [apply sf_getu; auto|]. intros oms.
  eapply safe_bind.
  - apply (sf_foldM_seq _ (fun _ x => length x = length a)); [auto|]. intros j x Hj Hx. cbv beta in Hx.
    eapply safe_weak; [apply sf_bf_at; [intros; auto with sf nocore|lia|lia]|]. intros y Hy. cbv beta in *. lia.
  - intros a1 H1. cbv beta in H1. split; cbn; lia.
Qed.

Lemma div2_pow t : Nat.div2 (2 ^ S t) = (2 ^ t)%nat.
Proof. rewrite Nat.pow_succ_r by lia. apply Nat.div2_double. Qed.

Lemma sf_fwd_loop pr op : ntt_shape op -> forall L fuel m a, (L <= fuel)%nat -> nt_size op = (2 * m * 2 ^ L)%nat \/ False ->
  (1 <= m)%nat -> length a = nt_size op ->
  safe (fwd_loop pr op (S fuel) (2 ^ L) m m a) any.
Proof.
  intros W. induction L as [|L IH]; intros fuel m a Hf [Hn|[]] Hm Ha.
  - cbn [fwd_loop]. change (2 ^ 0)%nat with 1%nat in *. cbn [Nat.eqb].
    eapply safe_bind.
    + apply (sf_foldM_seq _ (fun i st => length (fst st) = nt_size op /\ snd st = (m + i)%nat)); [cbn; lia|].
      intros i [x k] Hi [H1 H2]. cbn [fst snd] in H1, H2. subst k.
      eapply safe_weak; [apply (sf_fwd_block pr op 1 m x (m + i) i); try lia; [rewrite (ns_om op W)|rewrite (ns_oms op W)]; lia|].
      intros [y k'] [G1 G2]. cbn [fst snd] in *. lia.
    + intros [a' k'] _. destruct fuel; exact I.
  - destruct fuel as [|fuel]; [lia|].
    change (fwd_loop pr op (S (S fuel)) (2 ^ S L) m m a) with
      (if (2 ^ S L =? 0)%nat then Ok a else '(a', k') <- foldM (fwd_block pr op (2 ^ S L)) (seq 0 m) (a, m) ;;
        fwd_loop pr op (S fuel) (Nat.div2 (2 ^ S L)) (2 * m) k' a').
    assert (P : (1 <= 2 ^ L)%nat) by (pose proof (pow2_pos L); lia).
    assert (E2 : (2 ^ S L = 2 * 2 ^ L)%nat) by (rewrite Nat.pow_succ_r by lia; reflexivity).
    destruct (2 ^ S L =? 0)%nat eqn:E; [lia|].
    assert (Hmn : (2 * m <= nt_size op)%nat) by (rewrite Hn, E2; clear - P; nia).
    eapply safe_bind.
    + apply (sf_foldM_seq _ (fun i st => length (fst st) = nt_size op /\ snd st = (m + i)%nat)); [cbn; lia|].
      intros i [x k] Hi [H1 H2]. cbn [fst snd] in H1, H2. subst k.
      eapply safe_weak; [apply (sf_fwd_block pr op (2 ^ S L) m x (m + i) i); try lia; [rewrite (ns_om op W)|rewrite (ns_oms op W)]; lia|].
      intros [y k'] [G1 G2]. cbn [fst snd] in *. lia.
    + intros [a' k'] [H1 H2]. cbn [fst snd] in H1, H2. rewrite div2_pow.
      replace k' with (2 * m)%nat by lia. apply IH; try lia;
      left; rewrite Hn, E2; clear; nia.
Qed.
Lemma sf_ntt_forward pr op a : ntt_shape op -> safe (ntt_forward pr op a) any.
Proof.
  intros W. unfold ntt_forward. eapply safe_bind; [apply sf_rassert|]. intros u H. cbv beta in H. apply Nat.eqb_eq in H.
  destruct (ns_pow op W) as [L [E HL]]. destruct L as [|L]; [lia|]. rewrite E, div2_pow.
  apply (sf_fwd_loop pr op W L 63 1 a); try lia. left. rewrite E, Nat.pow_succ_r by lia. lia.
Qed.

Lemma sf_bwd_loop pr op : ntt_shape op -> forall M fuel l k a, (M <= fuel)%nat -> nt_size op = (2 * 2 ^ M * l)%nat ->
  (1 <= l)%nat -> (k + 2 * 2 ^ M = nt_size op)%nat -> length a = nt_size op ->
  safe (bwd_loop pr op (S fuel) (2 ^ M) l k a) any.
Proof.
  intros W. induction M as [|M IH]; intros fuel l k a Hf Hn Hl Hk Ha.
  - cbn [bwd_loop]. change (2 ^ 0)%nat with 1%nat in *. cbn [Nat.eqb].
    eapply safe_bind.
    + apply (sf_foldM_seq _ (fun i st => length (fst st) = nt_size op /\ snd st = (k + i)%nat)); [cbn; lia|].
      intros i [x k0] Hi [H1 H2]. cbn [fst snd] in H1, H2. subst k0.
      eapply safe_weak; [apply (sf_bwd_block pr op l 1 x (k + i) i); try lia; [rewrite (ns_ze op W)|rewrite (ns_zes op W)]; lia|].
      intros [y k'] [G1 G2]. cbn [fst snd] in *. lia.
    + intros [a' k'] _. destruct fuel; exact I.
  - destruct fuel as [|fuel]; [lia|].
    change (bwd_loop pr op (S (S fuel)) (2 ^ S M) l k a) with
      (if (2 ^ S M =? 0)%nat then Ok a else '(a', k') <- foldM (bwd_block pr op l) (seq 0 (2 ^ S M)) (a, k) ;;
        bwd_loop pr op (S fuel) (Nat.div2 (2 ^ S M)) (2 * l) k' a').
    assert (P : (1 <= 2 ^ M)%nat) by (pose proof (pow2_pos M); lia).
    assert (E2 : (2 ^ S M = 2 * 2 ^ M)%nat) by (rewrite Nat.pow_succ_r by lia; reflexivity).
    destruct (2 ^ S M =? 0)%nat eqn:E; [lia|].
    eapply safe_bind.
    + apply (sf_foldM_seq _ (fun i st => length (fst st) = nt_size op /\ snd st = (k + i)%nat)); [cbn; lia|].
      intros i [x k0] Hi [H1 H2]. cbn [fst snd] in H1, H2. subst k0.
      eapply safe_weak; [apply (sf_bwd_block pr op l (2 ^ S M) x (k + i) i); try lia; [rewrite (ns_ze op W)|rewrite (ns_zes op W)]; lia|].
      intros [y k'] [G1 G2]. cbn [fst snd] in *. lia.
    + intros [a' k'] [H1 H2]. cbn [fst snd] in H1, H2. rewrite div2_pow.
      apply IH; try lia; rewrite Hn, E2; clear; nia.
Qed.
Lemma sf_ntt_backward pr op a : ntt_shape op -> safe (ntt_backward pr op a) any.
Proof.
  intros W. unfold ntt_backward. eapply safe_bind; [apply sf_rassert|]. intros u H. cbv beta in H. apply Nat.eqb_eq in H.
  destruct (ns_pow op W) as [L [E HL]]. destruct L as [|L]; [lia|]. rewrite E, div2_pow.
  apply safe_any; [|intros; sf].
  apply (sf_bwd_loop pr op W L 63 1 0 a); try lia; rewrite E, Nat.pow_succ_r by lia; lia.
Qed.
