(** Key switching (src/ksk.rs). *)
From Verif Require Import PBase NT Spec PSum MModulus MUtils MNtt MRns MRq MBfv MKsk PModulus PUtils PNttMath PNtt PNttNew PCrt PRns PRnsScale PUtils2 SpecRq SpecBfv SpecKsk PRing PRq PRq2 PRq3 PRq4 PRq5 PBfv PBfv2.

Lemma combine_self {A B} (f : A -> B) l : combine l (map f l) = map (fun i => (i, f i)) l.
Proof. induction l as [|x l IH]; [reflexivity|]. cbn [map combine]. rewrite IH. reflexivity. Qed.

Section Ksk.
Variables (pr : profile) (P : BfvParams) (i0 : nat) (c : RqContext).
Hypothesis LV : wf_level P i0 c.
Let W : wf_loc c := wf_ctx_loc _ (lv_wf _ _ _ LV).
Let n := rq_degree c.
Let K := cx_k c.
Let Q := cx_Q c.

Lemma phase2 s f0 f1 j : phase n s [f0; f1] j = f0 j + rmul n s f1 j.
Proof.
  cbn [phase]. f_equal. apply rmul_ext; auto. intros k _. rewrite rmul_0_r. ring.
Qed.

Lemma gadget_garner : gadget c (fun i => nth i (rns_garner (rq_rns c)) 0).
Proof.
  intros i j Hi Hj. pose proof (wl_rns _ W) as WR. destruct (wr_g _ _ WR i Hi) as [_ [G1 G2]].
  pose proof (cx_range c W j Hj) as R. destruct (Nat.eqb_spec i j) as [->|N].
  - change (eqm (cx_q c j) (nth j (rns_garner (rq_rns c)) 0) 1) in G1. unfold eqm in G1. rewrite G1. apply Z.mod_small. lia.
  - specialize (G2 j Hj ltac:(auto)). change (eqm (cx_q c j) (nth i (rns_garner (rq_rns c)) 0) 0) in G2. unfold eqm in G2. rewrite G2. apply Z.mod_small. lia.
Qed.

Lemma gadget_recompose G x : gadget c G -> eqm Q (sumn K (fun i => G i * (x mod cx_q c i))) x.
Proof.
  intros HG. apply (cx_crt c W). intros j Hj. rewrite (sumn_eqm (cx_q c j) K _ (fun i => if (i =? j)%nat then x else 0)).
  - rewrite (sumn_single K j); auto; [rewrite Nat.eqb_refl; reflexivity|]. intros i Hi N. destruct (Nat.eqb_spec i j); [contradiction|auto].
  - intros i Hi. pose proof (cx_range c W j Hj) as R. pose proof (HG i j Hi Hj) as E. destruct (Nat.eqb_spec i j) as [->|N].
    + transitivity (1 * x); [|rewrite Z.mul_1_l; reflexivity]. apply eqm_mul; [unfold eqm; rewrite E; symmetry; apply Z.mod_small; lia|].
      unfold eqm. apply Z.mod_mod. lia.
    + transitivity (0 * (x mod cx_q c i)); [|reflexivity]. apply eqm_mul; [|reflexivity]. unfold eqm. rewrite E. symmetry. apply Z.mod_small. lia.
Qed.

Section Run.
Variables (b a : nat -> nat -> Z).
Definition digit (p : nat -> Z) (i l : nat) : Z := p l mod cx_q c i.

Lemma row_u64 p i : (i < K)%nat -> poly_from_u64 pr c (rrow c PowerBasis p i) = Ok (rep c PowerBasis (digit p i)).
Proof.
  intros Hi. pose proof (cx_range c W i Hi) as R. change (2 ^ 62) with 4611686018427387904 in R. unfold rrow. rewrite rep_from_u64; auto.
  - f_equal. apply (rep_ext c W). intros j Hj. rewrite nth_map_seq by auto. reflexivity.
  - apply Forall_forall. intros x Hx. apply in_map_iff in Hx. destruct Hx as [j [<- _]]. cbn [rep_entry].
    pose proof (Z.mod_pos_bound (p j) (cx_q c i) ltac:(lia)). change W64 with 18446744073709551616. lia.
  - rewrite len_seq. auto.
Qed.

Lemma switch_loop p : forall m s0 u v, (s0 + m <= K)%nat ->
  foldM (key_switch_step pr c)
    (combine (map (rrow c PowerBasis p) (seq s0 m)) (combine (map (fun i => rep c Ntt (b i)) (seq s0 m)) (map (fun i => rep c Ntt (a i)) (seq s0 m))))
    (rep c Ntt u, rep c Ntt v)
  = Ok (rep c Ntt (fun j => u j + sumn m (fun i => rmul n (digit p (s0 + i)) (b (s0 + i)%nat) j)),
        rep c Ntt (fun j => v j + sumn m (fun i => rmul n (digit p (s0 + i)) (a (s0 + i)%nat) j))).
Proof.
  induction m as [|m IH]; intros s0 u v Hm.
  - cbn [seq map combine foldM sumn]. f_equal. f_equal; apply (rep_ext c W); intros; ring.
  - cbn [seq map combine foldM]. unfold key_switch_step at 1. cbn [fst snd].
    rewrite row_u64 by lia. cbn [bind]. rewrite change_fwd by auto. cbn [bind].
    rewrite !rep_mul by auto. cbn [bind]. rewrite !rep_add by auto. cbn [bind]. rewrite IH by lia. fold n.
    f_equal. f_equal; apply (rep_ext c W); intros j Hj; cbv beta; rewrite sumn_S_l, Nat.add_0_r, <- Z.add_assoc; f_equal; f_equal;
      apply sumn_ext; intros i Hi; rewrite Nat.add_succ_r; reflexivity.
Qed.

Lemma key_switch_run k p : k_ksk_ctx k = c -> k_ct_ctx k = c ->
  k_c0 k = map (fun i => rep c Ntt (b i)) (seq 0 K) -> k_c1 k = map (fun i => rep c Ntt (a i)) (seq 0 K) ->
  key_switch pr k (rep c PowerBasis p)
  = Ok (rep c Ntt (fun j => sumn K (fun i => rmul n (digit p i) (b i) j)), rep c Ntt (fun j => sumn K (fun i => rmul n (digit p i) (a i) j))).
Proof.
  intros E1 E2 E3 E4. unfold key_switch. rewrite E1, E2, E3, E4. rewrite rep_rows. cbn [p_ctx p_repr rep]. rewrite ctx_eqb_refl.
  cbn [rassert bind repr_eqb]. rewrite rep_zero by auto. rewrite switch_loop by lia. cbn [Nat.add]. reflexivity.
Qed.
End Run.

Lemma key_switch_ok k s from e p : ksk_for P c k s from e ->
  exists c0 c1, key_switch pr k (rep c PowerBasis p) = Ok (rep c Ntt c0, rep c Ntt c1)
    /\ forall j, (j < n)%nat -> eqm Q (phase n s [c0; c1] j) (rmul n p from j + ks_noise c e p j).
Proof.
  intros [_ [E1 [E2 [b [a [G [HG [E3 [E4 HE]]]]]]]]]. rewrite (key_switch_run b a k p E1 E2 E3 E4). eexists. eexists. split; [reflexivity|].
  intros j Hj. rewrite phase2. rewrite rmul_sum_r. rewrite <- sumn_add.
  transitivity (sumn K (fun i => rmul n (digit p i) (fun l => G i * from l + e i l) j)).
  - apply sumn_eqm. intros i Hi.
    change (rmul n s (fun j0 => rmul n (digit p i) (a i) j0) j) with (rmul n s (rmul n (digit p i) (a i)) j).
    replace (rmul n (digit p i) (b i) j + rmul n s (rmul n (digit p i) (a i)) j) with (rmul n (digit p i) (fun l => phase n s [b i; a i] l) j).
    + apply rmul_eqm; [reflexivity|]. intros l Hl. apply HE; auto.
    + rewrite (rmul_ext n (digit p i) (digit p i) (fun l => phase n s [b i; a i] l) (fun l => b i l + rmul n s (a i) l)); auto;
        [|intros l Hl; apply phase2].
      rewrite rmul_add_r. f_equal. rewrite <- !rmul_assoc by (pose proof (cx_n8 c W); unfold n; lia). apply rmul_ext; auto. intros l Hl. apply rmul_comm.
  - rewrite (sumn_ext K _ (fun i => rmul n (digit p i) (fun l => G i * from l) j + rmul n (digit p i) (e i) j)) by (intros; apply rmul_add_r).
    rewrite sumn_add. apply eqm_add; [|reflexivity].
    rewrite (sumn_ext K _ (fun i => rmul n (fun l => G i * digit p i l) from j)) by (intros; rewrite rmul_scal_r, rmul_scal_l; reflexivity).
    rewrite <- rmul_sum_l. apply rmul_eqm; [|reflexivity]. intros l Hl. apply (gadget_recompose G (p l) HG).
Qed.

Lemma ks_noise_bound e B p j : (j < n)%nat -> 0 <= B -> (forall i l, (i < K)%nat -> Z.abs (e i l) <= B) ->
  Z.abs (ks_noise c e p j) <= ks_bound c B.
Proof.
  intros Hj HB HE. unfold ks_noise, ks_bound. fold n K. eapply Z.le_trans; [apply sumn_abs|]. rewrite <- sumn_mul_l. apply sumn_le.
  intros i Hi. pose proof (cx_range c W i Hi) as R. eapply Z.le_trans; [apply (rmul_bound n ltac:(lia) _ _ (cx_q c i) B); auto; [lia|]|].
  - intros l Hl. pose proof (Z.mod_pos_bound (p l) (cx_q c i) ltac:(lia)). lia.
  - apply Z.eq_le_incl. ring.
Qed.

(** ** Key generation *)
Lemma ksk_entries s u rnd v : 1 <= v <= 16 -> rnd_ok c rnd -> exists a,
  map (fun i => poly_random c Ntt (rnd_rows rnd i)) (seq 0 K) = map (fun i => rep c Ntt (a i)) (seq 0 K)
  /\ forall G : nat -> Z,
     mapM (fun x : nat * (Poly * Z) => ksk_entry pr c v (rep c Ntt s) (rep c Ntt u) (rnd_words rnd (fst x)) (fst (snd x)) (snd (snd x)))
       (combine (seq 0 K) (combine (map (fun i => rep c Ntt (a i)) (seq 0 K)) (map G (seq 0 K))))
     = Ok (map (fun i => rep c Ntt (fun j => cbd_f (rnd_words rnd i) v j - rmul n (a i) s j + G i * u j)) (seq 0 K)).
Proof.
  intros Hv [R1 R2].
  assert (H : forall m, (m <= K)%nat -> exists a, forall i, (i < m)%nat -> poly_random c Ntt (rnd_rows rnd i) = rep c Ntt (a i)).
  { induction m as [|m IH]; intros Hm; [exists (fun _ _ => 0); lia|]. destruct IH as [a Ha]; [lia|].
    destruct (poly_random_rep pr P i0 c LV (rnd_rows rnd m)) as [am Em]; [apply R1; lia|].
    exists (fun i => if (i =? m)%nat then am else a i). intros i Hi. destruct (Nat.eqb_spec i m) as [->|]; auto. apply Ha. lia. }
  destruct (H K (le_n _)) as [a Ha]. exists a. split; [apply map_seq_ext; auto|]. intros G.
  rewrite combine_map, combine_self. apply mapM_seq. intros i Hi. cbn [fst snd]. unfold ksk_entry.
  rewrite rep_mul by auto. cbn [bind]. rewrite rep_random_small by (auto; congruence). cbn [bind].
  rewrite rep_sub by auto. cbn [bind]. rewrite rep_mul_big by auto. cbn [bind]. rewrite rep_add by auto. reflexivity.
Qed.

Lemma ksk_new_ok sk u rnd : sk_of P sk -> 1 <= bp_variance P <= 16 -> rnd_ok c rnd ->
  exists k e, ksk_new pr sk (rep c Ntt u) i0 i0 rnd = Ok k /\ ksk_for P c k (sk_fun sk) u e
    /\ forall i j, Z.abs (e i j) <= 2 * bp_variance P.
Proof.
  intros [SP [S1 S2]] Hv HR. rewrite SP in S2.
  destruct (ksk_entries (sk_fun sk) u rnd (bp_variance P) Hv HR) as [a [Ea HM]].
  unfold ksk_new. rewrite SP. rewrite (lv_ctx _ _ _ LV). cbn [bind]. rewrite (sk_ntt_ok pr P i0 c LV) by auto. cbn [bind].
  change (fun j => nth j (sk_coeffs sk) 0) with (sk_fun sk).
  assert (Lk : length (rns_moduli (rq_rns c)) = K).
  { rewrite <- (wl_mod _ W). apply (cx_moduli_len c W). }
  rewrite Lk, Ea, len_seq.
  assert (EG : rns_garner (rq_rns c) = map (fun i => nth i (rns_garner (rq_rns c)) 0) (seq 0 K)).
  { apply list_seq. apply (wr_gl _ _ (wl_rns _ W)). }
  rewrite EG. rewrite HM. cbn [bind].
  eexists. exists (fun i => cbd_f (rnd_words rnd i) (bp_variance P)). split; [reflexivity|]. split.
  - split; [reflexivity|]. split; [reflexivity|]. split; [reflexivity|].
    eexists. exists a. exists (fun i => nth i (rns_garner (rq_rns c)) 0). split; [apply gadget_garner|]. cbn [k_c0 k_c1].
    split; [reflexivity|]. split; [reflexivity|]. intros i j Hi Hj. fold n. rewrite phase2. f_equal.
    rewrite (rmul_comm n (sk_fun sk)). ring.
  - intros i j. apply (cbd_f_bound c). lia.
Qed.
End Ksk.
