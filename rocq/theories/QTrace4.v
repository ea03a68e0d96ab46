(** Claim C97: what the generation of Galois keys and RGSW encryption give away through their steps. *)
From Verif Require Import PBase MModulus MUtils MNtt MRns MRq MBfv MKsk MGalois MRgsw MTrace MTrace2 MTrace4 SpecTrace SpecTrace2 QTrace QTrace2 TestEnv TestBfv.

(** ** Values *)
Lemma v_step d pw j dst q src : snd (t_subst_pb_step d pw j dst q src) = subst_pb_step Release d pw j dst q src.
Proof.
  unfold t_subst_pb_step, subst_pb_step. rewrite snd_bind. cbn [t_at snd]. apply bind_ext. intros o. cbv zeta. rewrite snd_bind. cbn [t_at snd]. apply bind_ext. intros t. rewrite snd_bind. unfold t_if. rewrite snd_bind. cbn [emit snd bind].
  destruct (negb _); [rewrite v_sub|rewrite v_add]; reflexivity.
Qed.
Lemma v_pb_loop d e qs c : forall j pw rows, snd (t_subst_pb_loop d e qs c j pw rows) = subst_pb_loop Release d e qs c j pw rows.
Proof.
  induction c as [|c IH]; intros j pw rows; [reflexivity|]. cbn [t_subst_pb_loop subst_pb_loop]. rewrite snd_bind. cbn [emit snd bind]. rewrite snd_bind.
  rewrite (v_rows _ (fun dst (q : Modulus * list Z) => subst_pb_step Release d pw j dst (fst q) (snd q))) by (intros; apply v_step). apply bind_ext. intros rows'. rewrite snd_bind, v_add64. apply bind_ext. intros; apply IH.
Qed.
Lemma v_substitute p a : snd (t_substitute p a) = poly_substitute Release p a.
Proof.
  unfold t_substitute, poly_substitute. cbv zeta. rewrite snd_bind. cbn [emit snd bind].
  assert (E : forall c, snd (rows <~ t_rows (fun dst src => t_subst_ntt_row (sub_powers_bitrev a) (rq_bitrev c) src dst) (zero_rows c) (p_rows p) ;~ ret (mkPoly c (p_repr p) rows)) =
     (rows <- zipM_upd (fun dst src => subst_ntt_row (sub_powers_bitrev a) (rq_bitrev c) src dst) (zero_rows c) (p_rows p) ;; Ok (mkPoly c (p_repr p) rows))).
  { intros c. rewrite snd_bind. rewrite (v_rows _ (fun dst src => subst_ntt_row (sub_powers_bitrev a) (rq_bitrev c) src dst)); [reflexivity|]. intros x y. unfold t_subst_ntt_row, subst_ntt_row. apply v_fold. intros b jk. rewrite snd_bind. reflexivity. }
  revert E. destruct (p_repr p); intros E; try apply E. rewrite snd_bind, v_pb_loop. reflexivity.
Qed.
Lemma v_galois sk i l r : snd (t_galois_new sk i l r) = galois_new Release sk i l r.
Proof.
  unfold t_galois_new, galois_new. rewrite snd_bind. cbn [t_assert snd]. apply bind_ext. intros _. rewrite snd_bind. cbn [t_get snd]. apply bind_ext. intros c. rewrite snd_bind, v_from_i64. apply bind_ext. intros s.
  rewrite snd_bind, v_substitute. apply bind_ext. intros si. rewrite snd_bind, v_change. apply bind_ext. intros si'. rewrite snd_bind, v_ksk_new. reflexivity.
Qed.
Lemma v_with_pt sk m a b r : snd (t_ksk_new_with_pt sk m a b r) = ksk_new_with_pt Release sk m a b r.
Proof. unfold t_ksk_new_with_pt, ksk_new_with_pt. rewrite snd_bind, v_to_poly. apply bind_ext. intros; apply v_ksk_new. Qed.
Lemma v_rgsw_poly sk m r r' : snd (t_rgsw_encrypt_poly sk m r r') = rgsw_encrypt_poly Release sk m r r'.
Proof.
  unfold t_rgsw_encrypt_poly, rgsw_encrypt_poly. rewrite snd_bind. cbn [t_assert snd]. apply bind_ext. intros _. rewrite snd_bind. cbn [snd]. apply bind_ext. intros l. rewrite snd_bind, v_sk_ntt. apply bind_ext. intros s.
  rewrite snd_bind, v_poly_mul. apply bind_ext. intros sm. rewrite snd_bind, v_ksk_new. apply bind_ext. intros k0. rewrite snd_bind, v_ksk_new. reflexivity.
Qed.
Lemma v_rgsw sk m r r' : snd (t_rgsw_encrypt sk m r r') = rgsw_encrypt Release sk m r r'.
Proof.
  unfold t_rgsw_encrypt, rgsw_encrypt. rewrite snd_bind. cbn [t_assert snd]. apply bind_ext. intros _. rewrite snd_bind. cbn [t_get snd]. apply bind_ext. intros c. rewrite snd_bind, v_from_u64. apply bind_ext. intros p0. rewrite snd_bind, v_change. apply bind_ext. intros p.
  rewrite snd_bind, v_sk_ntt. apply bind_ext. intros s. rewrite snd_bind, v_poly_mul. apply bind_ext. intros sm. rewrite snd_bind, v_ksk_new. apply bind_ext. intros k0. rewrite snd_bind, v_ksk_new. reflexivity.
Qed.

(** ** Steps *)
Lemma r_at {A B} t (a : list A) (b : list B) i : length a = length b -> rel any (t_at t a i) (t_at t b i).
Proof.
  intros L. split; [reflexivity|]. cbn [t_at snd]. unfold get. destruct (nth_error a i) eqn:Ea, (nth_error b i) eqn:Eb; try exact I.
  - apply nth_error_None in Eb. assert (i < length a)%nat by (apply nth_error_Some; congruence). lia.
  - apply nth_error_None in Ea. assert (i < length b)%nat by (apply nth_error_Some; congruence). lia.
Qed.
Lemma r_put {A B} (a : list A) (b : list B) i v w : length a = length b -> rel samelen (t_put a i v) (t_put b i w).
Proof. intros L. split; [reflexivity|]. cbn [t_put snd]. unfold set. rewrite L. destruct (_ <? _)%nat; [|exact I]. unfold samelen. rewrite !upd_len. exact L. Qed.
Lemma r_step d pw j dst dst' q q' src src' : length dst = length dst' -> length src = length src' -> rel samelen (t_subst_pb_step d pw j dst q src) (t_subst_pb_step d pw j dst' q' src').
Proof.
  intros L1 L2. unfold t_subst_pb_step. eapply rel_bind; [apply r_at, L2|]. intros ? ? _. cbv zeta. eapply rel_bind; [apply r_at, L1|]. intros ? ? _.
  eapply rel_bind; [apply (rel_if any); [apply r_sub|apply r_add]|]. intros ? ? _. apply r_put, L1.
Qed.
Definition qsR (x y : Modulus * list Z) : Prop := fst x = fst y /\ length (snd x) = length (snd y).
Lemma r_pb_loop d e qs qs' c : Forall2 qsR qs qs' -> forall j pw rows rows', same_rows rows rows' -> rel same_rows (t_subst_pb_loop d e qs c j pw rows) (t_subst_pb_loop d e qs' c j pw rows').
Proof.
  intros Q. induction c as [|c IH]; intros j pw rows rows' H; cbn [t_subst_pb_loop]; (eapply rel_bind; [apply rel_emit|]; intros ? ? _); [apply rel_ret, H|].
  eapply rel_bind; [apply (r_rows qsR); [|exact H|exact Q]; intros x x' y y' Hx [_ Hy]; apply r_step; assumption|]. intros ro ro' Hr. eapply rel_bind; [apply (rel_refl eq); reflexivity|]. intros ? ? <-. apply IH, Hr.
Qed.
Lemma r_ntt_row js ks c c' p p' : length c = length c' -> length p = length p' -> rel samelen (t_subst_ntt_row js ks c p) (t_subst_ntt_row js ks c' p').
Proof.
  intros L1 L2. unfold t_subst_ntt_row. apply r_fold; [|exact L2]. intros b b' jk Hb. eapply rel_bind; [apply r_at, L1|]. intros ? ? _. apply r_put, Hb.
Qed.
Lemma r_substitute p q a : alike p q -> rel alike (t_substitute p a) (t_substitute q a).
Proof.
  intros [C [E H]]. unfold t_substitute. cbv zeta. rewrite C, E. eapply rel_bind; [apply rel_emit|]. intros ? ? _.
  assert (G : rel alike (rows <~ t_rows (fun dst src => t_subst_ntt_row (sub_powers_bitrev a) (rq_bitrev (p_ctx q)) src dst) (zero_rows (p_ctx q)) (p_rows p) ;~ ret (mkPoly (p_ctx q) (p_repr q) rows))
     (rows <~ t_rows (fun dst src => t_subst_ntt_row (sub_powers_bitrev a) (rq_bitrev (p_ctx q)) src dst) (zero_rows (p_ctx q)) (p_rows q) ;~ ret (mkPoly (p_ctx q) (p_repr q) rows))).
  { eapply rel_bind; [apply (r_rows (fun x y : list Z => length x = length y)); [|apply same_refl|exact H]; intros; apply r_ntt_row; assumption|]. intros r r' Hr. apply rel_ret. repeat split. exact Hr. }
  revert G. destruct (p_repr q); intros G; try exact G. eapply rel_bind; [apply r_pb_loop; [apply (F2_combine_r (fun x y : list Z => length x = length y)), H|apply same_refl]|]. intros r r' Hr. apply rel_ret. repeat split. exact Hr.
Qed.
Lemma r_galois sk sk' i l r r' : keys_alike sk sk' -> rnds_alike r r' -> rel any (t_galois_new sk i l r) (t_galois_new sk' i l r').
Proof.
  intros K R. pose proof K as [K1 K2]. unfold t_galois_new. rewrite K1. eapply rel_bind; [apply r_assert|]. intros ? ? _. eapply rel_bind; [apply r_get_same|]. intros c ? <-. eapply rel_bind; [apply r_from_i64, K2|]. intros s s' Hs.
  eapply rel_bind; [apply r_substitute, Hs|]. intros t t' Ht. eapply rel_bind; [apply r_change, Ht|]. intros u u' Hu. eapply rel_bind; [apply r_ksk_new; eassumption|]. intros. apply rel_ret. exact I.
Qed.
Lemma r_with_pt sk sk' m m' a b r r' : keys_alike sk sk' -> pts_alike m m' -> rnds_alike r r' -> rel any (t_ksk_new_with_pt sk m a b r) (t_ksk_new_with_pt sk' m' a b r').
Proof. intros K M R. eapply rel_bind; [apply r_to_poly, M|]. intros. apply r_ksk_new; assumption. Qed.
Lemma r_rgsw_poly sk sk' m m' r r' q q' : keys_alike sk sk' -> alike m m' -> rnds_alike r r' -> rnds_alike q q' -> rel any (t_rgsw_encrypt_poly sk m r q) (t_rgsw_encrypt_poly sk' m' r' q').
Proof.
  intros K M R Q. pose proof K as [K1 K2]. pose proof M as [C [E H]]. unfold t_rgsw_encrypt_poly. rewrite K1, C, E. eapply rel_bind; [apply r_assert|]. intros ? ? _. eapply rel_bind; [apply (rel_refl eq); reflexivity|]. intros l ? <-.
  eapply rel_bind; [apply r_sk_ntt, K2|]. intros s s' Hs. eapply rel_bind; [apply r_pmul; eassumption|]. intros t t' Ht. eapply rel_bind; [apply r_ksk_new; eassumption|]. intros ? ? _. eapply rel_bind; [apply r_ksk_new; eassumption|]. intros. apply rel_ret. exact I.
Qed.
Lemma r_rgsw sk sk' m m' r r' q q' : keys_alike sk sk' -> pts_alike m m' -> rnds_alike r r' -> rnds_alike q q' -> rel any (t_rgsw_encrypt sk m r q) (t_rgsw_encrypt sk' m' r' q').
Proof.
  intros K [M1 [M2 M3]] R Q. pose proof K as [K1 K2]. unfold t_rgsw_encrypt. rewrite K1, M1, M2. eapply rel_bind; [apply r_assert|]. intros ? ? _. eapply rel_bind; [apply r_get_same|]. intros c ? <-. eapply rel_bind; [apply r_from_u64, M3|]. intros p p' Hp.
  eapply rel_bind; [apply r_change, Hp|]. intros u u' Hu. eapply rel_bind; [apply r_sk_ntt, K2|]. intros s s' Hs. eapply rel_bind; [apply r_pmul; eassumption|]. intros t t' Ht.
  eapply rel_bind; [apply r_ksk_new; eassumption|]. intros ? ? _. eapply rel_bind; [apply r_ksk_new; eassumption|]. intros. apply rel_ret. exact I.
Qed.

(** Recording the steps of a Release build changes no result. *)
Lemma C97_values_lem : forall (sk : SecretKey) (p : Poly) (a : Subst) (m : Plaintext) (l l' : nat) (r r' : RndKsk),
  snd (t_substitute p a) = poly_substitute Release p a /\
  snd (t_galois_new sk a l r) = galois_new Release sk a l r /\
  snd (t_ksk_new_with_pt sk m l l' r) = ksk_new_with_pt Release sk m l l' r /\
  snd (t_rgsw_encrypt_poly sk p r r') = rgsw_encrypt_poly Release sk p r r' /\
  snd (t_rgsw_encrypt sk m r r') = rgsw_encrypt Release sk m r r'.
Proof. intros. repeat apply conj; [apply v_substitute|apply v_galois|apply v_with_pt|apply v_rgsw_poly|apply v_rgsw]. Qed.

(** Substitution in a secret polynomial and the generation of Galois keys: the steps depend on the exponent and the sizes, not on the key. *)
Lemma C97_galois_lem : forall (sk sk' : SecretKey) (p q : Poly) (a : Subst) (l : nat) (r r' : RndKsk),
  (alike p q -> looks_same (t_substitute p a) (t_substitute q a)) /\
  (keys_alike sk sk' -> rnds_alike r r' -> looks_same (t_galois_new sk a l r) (t_galois_new sk' a l r')).
Proof. intros. split; intros; eapply rel_looks; [apply r_substitute|apply r_galois]; assumption. Qed.

(** Key-switching keys for a plaintext and RGSW encryption: the steps depend neither on the key nor on the message nor on the randomness. *)
Lemma C97_rgsw_lem : forall (sk sk' : SecretKey) (m m' : Plaintext) (p p' : Poly) (l l' : nat) (r r' q q' : RndKsk),
  keys_alike sk sk' -> rnds_alike r r' -> rnds_alike q q' ->
  (pts_alike m m' -> looks_same (t_ksk_new_with_pt sk m l l' r) (t_ksk_new_with_pt sk' m' l l' r') /\
                     looks_same (t_rgsw_encrypt sk m r q) (t_rgsw_encrypt sk' m' r' q')) /\
  (alike p p' -> looks_same (t_rgsw_encrypt_poly sk p r q) (t_rgsw_encrypt_poly sk' p' r' q')).
Proof. intros sk sk' m m' p p' l l' r r' q q' K R Q. split; [intros M; split|intros A]; eapply rel_looks; [apply r_with_pt|apply r_rgsw|apply r_rgsw_poly]; assumption. Qed.

(*EXAMPLE
(** Substituting [X^3] in two polynomials: the same cells are
    touched in the same order; exponent 5 touches others. *)
Example C97_example :
  (c <- test_ctx Release [1048609] ;;
   a <- poly_from_u64 Release c [1; 2; 3; 4; 5; 6; 7; 8] ;; b <- poly_from_u64 Release c [0; 0; 90; 0; 11; 0; 0; 3] ;;
   s3 <- subst_new Release c 3 ;; s5 <- subst_new Release c 5 ;;
   let writes t := flat_map (fun e => match e with EWrite i => [i] | _ => [] end) t in
   Ok (writes (fst (t_substitute a s3)), writes (fst (t_substitute b s3)), writes (fst (t_substitute a s5))))
  = Ok ([0; 3; 6; 1; 4; 7; 2; 5], [0; 3; 6; 1; 4; 7; 2; 5], [0; 5; 2; 7; 4; 1; 6; 3])%nat.
Proof. vm_compute. reflexivity. Qed.
EXAMPLE*)
