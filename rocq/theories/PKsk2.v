(** Consequences for messages: how bounded extra noise changes what a phase carries. *)
From Verif Require Import PBase NT Spec PSum MModulus MUtils MNtt MRns MRq MBfv MKsk MGalois MRgsw PModulus PUtils PNttMath PNtt PNttNew PCrt PRns PRnsScale PUtils2 SpecRq SpecBfv SpecKsk PRing PRq PRq2 PRq3 PRq4 PRq5 PBfv PBfv2 PKsk PGal PRingT PMul PMul2.

Lemma carries_shift n Q t f f' m E v : 1 <= Q -> 1 <= t -> (forall j, (j < n)%nat -> eqm Q (f' j) (f j + v j)) ->
  carries n Q t f m E -> carries n Q t f' m (fun j => E j + t * v j).
Proof.
  intros HQ Ht H C j Hj. specialize (H j Hj). specialize (C j Hj). apply eqm_divide in H; [|lia]. destruct H as [z Z0].
  replace (t * f' j) with (t * f j + t * v j + z * (t * Q)) by (replace (f' j) with (f j + v j + z * Q) by lia; ring).
  change (eqm (t * Q) (t * f j + t * v j + z * (t * Q)) (Q * m j + (E j + t * v j))). rewrite eqm_add_mult, Z.add_assoc.
  apply eqm_add; [exact C|reflexivity].
Qed.
Lemma carries_rsubst n Q t e f m E : carries n Q t f m E -> carries n Q t (rsubst n e f) (rsubst n e m) (rsubst n e E).
Proof.
  intros C j Hj. rewrite <- rsubst_scal, <- (rsubst_scal n e Q), <- rsubst_add. apply rsubst_eqm. exact C.
Qed.

Lemma noise_ok_abs Q E B : 1 <= Q -> Z.abs E <= B -> 2 ^ 54 * (2 * B) <= (2 ^ 54 - 1) * Q -> noise_ok Q E.
Proof. intros HQ HE HB. unfold noise_ok. change (2 ^ 54) with 18014398509481984 in *. lia. Qed.

Lemma fin_choice {A} (d : A) (R : nat -> A -> Prop) k : (forall i, (i < k)%nat -> exists x, R i x) ->
  exists f, forall i, (i < k)%nat -> R i (f i).
Proof.
  induction k as [|k IH]; intros H; [exists (fun _ => d); intros; lia|].
  destruct IH as [f Hf]; [intros i Hi; apply H; lia|]. destruct (H k ltac:(lia)) as [x Hx].
  exists (fun i => if (i =? k)%nat then x else f i). intros i Hi. destruct (Nat.eqb_spec i k) as [->|]; auto. apply Hf. lia.
Qed.

(** Keys assembled from digit ciphertexts. *)
Section Digits.
Variables (pr : profile) (P : BfvParams) (c : RqContext).
Hypothesis WB : wf_bfv P.
Hypothesis LV : wf_level P 0 c.
Let W : wf_loc c := wf_ctx_loc _ (lv_wf _ _ _ LV).
Let n := rq_degree c.
Let K := cx_k c.
Let Q := cx_Q c.

Definition digit_cts (b a : nat -> nat -> Z) : list Ct := map (fun i => ct_of P 0 c [b i; a i]) (seq 0 (cx_k c)).

Lemma from_rlwes_ok b a G u e s : gadget c G ->
  (forall i j, (i < K)%nat -> (j < n)%nat -> phase n s [b i; a i] j mod Q = (G i * u j + e i j) mod Q) ->
  exists k, ksk_from_rlwes P (digit_cts b a) = Ok k /\ ksk_for P c k s u e.
Proof.
  intros HG HP. unfold ksk_from_rlwes, digit_cts.
  rewrite (mapM_seq _ _ (fun i => rep c Ntt (b i))); [|intros i Hi; cbn [ct_of ct_params ct_cts map]; rewrite params_eqb_refl; reflexivity].
  cbn [bind].
  rewrite (mapM_seq _ _ (fun i => rep c Ntt (a i))); [|intros i Hi; cbn [ct_of ct_params ct_cts map]; rewrite params_eqb_refl; reflexivity].
  cbn [bind]. rewrite (lv_ctx _ _ _ LV). cbn [bind]. eexists. split; [reflexivity|].
  split; [reflexivity|]. split; [reflexivity|]. split; [reflexivity|]. exists b, a, G. auto.
Qed.

Lemma external_digits r s e0 e1 b a G u e : ksk_for P c (rg_ksk0 r) s (rmul n s s) e0 -> ksk_for P c (rg_ksk1 r) s s e1 -> gadget c G ->
  (forall i j, (i < K)%nat -> (j < n)%nat -> phase n s [b i; a i] j mod Q = (G i * u j + e i j) mod Q) ->
  exists b' a', mapM (external_product pr r) (digit_cts b a) = Ok (map (fun i => (rep c Ntt (b' i), rep c Ntt (a' i))) (seq 0 K))
    /\ forall i j, (i < K)%nat -> (j < n)%nat -> phase n s [b' i; a' i] j mod Q
         = (G i * rmul n s u j + (rmul n s (e i) j + (ks_noise c e0 (a i) j + ks_noise c e1 (b i) j))) mod Q.
Proof.
  intros H0 H1 HG HP.
  destruct (fin_choice (fun _ : nat => 0, fun _ : nat => 0) (fun i (x : (nat -> Z) * (nat -> Z)) =>
      external_product pr r (ct_of P 0 c [b i; a i]) = Ok (rep c Ntt (fst x), rep c Ntt (snd x))
      /\ forall j, (j < n)%nat -> eqm Q (phase n s [fst x; snd x] j) (rmul n s (phase n s [b i; a i]) j + (ks_noise c e0 (a i) j + ks_noise c e1 (b i) j))) K) as [x Hx].
  { intros i Hi. destruct (external_ok pr P 0 c LV r s s e0 e1 (b i) (a i) H0 H1) as [h0 [h1 [EE HH]]]. exists (h0, h1). auto. }
  exists (fun i => fst (x i)), (fun i => snd (x i)). split.
  - apply mapM_seq. intros i Hi. apply Hx; auto.
  - intros i j Hi Hj. destruct (Hx i Hi) as [_ H]. change (eqm Q (phase n s [fst (x i); snd (x i)] j)
      (G i * rmul n s u j + (rmul n s (e i) j + (ks_noise c e0 (a i) j + ks_noise c e1 (b i) j)))).
    rewrite (H j Hj). rewrite (Z.add_assoc (G i * _)). apply eqm_add; [|reflexivity].
    rewrite <- rmul_scal_r, <- rmul_add_r. apply rmul_eqm; [intros; reflexivity|]. intros l Hl. apply (HP i l Hi Hl).
Qed.

Lemma ksk_for_ext k s u u' e : (forall j, (j < n)%nat -> u j = u' j) -> ksk_for P c k s u e -> ksk_for P c k s u' e.
Proof.
  intros H [A [B [C [b [a [G [HG [E0 [E1 HP]]]]]]]]]. split; auto. split; auto. split; auto. exists b, a, G. split; auto. split; auto. split; auto.
  intros i j Hi Hj. rewrite <- H by auto. auto.
Qed.
End Digits.
