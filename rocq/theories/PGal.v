(** Galois keys, relinearisation keys and RGSW ciphertexts. *)
From Verif Require Import PBase NT Spec PSum MModulus MUtils MNtt MRns MRq MBfv MKsk MGalois MRgsw PModulus PUtils PNttMath PNtt PNttNew PCrt PRns PRnsScale PUtils2 SpecRq SpecBfv SpecKsk PRing PRq PRq2 PRq3 PRq4 PRq5 PBfv PBfv2 PBfv3 PKsk.

Section Gal.
Variables (pr : profile) (P : BfvParams) (i0 : nat) (c : RqContext).
Hypothesis WB : wf_bfv P.
Hypothesis LV : wf_level P i0 c.
Let W : wf_loc c := wf_ctx_loc _ (lv_wf _ _ _ LV).
Let n := rq_degree c.
Let K := cx_k c.
Let Q := cx_Q c.

(** ** Relinearisation *)
Lemma rlk_new_ok sk rnd : sk_of P sk -> 1 <= bp_variance P <= 16 -> rnd_ok c rnd ->
  exists r e, rlk_new pr sk i0 rnd = Ok r /\ rlk_params r = P
    /\ ksk_for P c (rlk_ksk r) (sk_fun sk) (rmul n (sk_fun sk) (sk_fun sk)) e
    /\ forall i j, Z.abs (e i j) <= 2 * bp_variance P.
Proof.
  intros HS Hv HR. destruct (ksk_new_ok pr P i0 c LV sk (rmul n (sk_fun sk) (sk_fun sk)) rnd HS Hv HR) as [k [e [E [HK HE]]]].
  destruct HS as [SP [S1 S2]]. rewrite SP in S2. unfold rlk_new. rewrite SP, (lv_ctx _ _ _ LV). cbn [bind].
  rewrite (sk_ntt_ok pr P i0 c LV) by auto. cbn [bind]. change (fun j => nth j (sk_coeffs sk) 0) with (sk_fun sk).
  rewrite rep_mul by auto. cbn [bind]. fold n. rewrite E. cbn [bind]. eexists. exists e. split; [reflexivity|]. auto.
Qed.

Lemma relinearize_ok r s from e f x : ksk_for P c (rlk_ksk r) s from e -> x <> NttShoup ->
  exists c0 c1, relinearize_poly pr r (rep c x f) = Ok (rep c Ntt c0, rep c Ntt c1)
    /\ forall j, (j < n)%nat -> eqm Q (phase n s [c0; c1] j) (rmul n f from j + ks_noise c e f j).
Proof.
  intros HK Hx. destruct (key_switch_ok pr P i0 c LV (rlk_ksk r) s from e f HK) as [c0 [c1 [E HP]]].
  exists c0, c1. split; auto. unfold relinearize_poly. destruct x; try congruence; cbn [p_repr rep repr_eqb]; fold (rep c Ntt f); fold (rep c PowerBasis f); auto.
  rewrite change_bwd by auto. cbn [bind]. auto.
Qed.

(** ** Galois keys *)
Definition gexp (x : Z) : nat := Z.to_nat (x mod (2 * Z.of_nat n)).
Lemma galois_new_ok sk rnd x g : sk_of P sk -> 1 <= bp_variance P <= 16 -> rnd_ok c rnd -> 0 <= x -> subst_new pr c x = Ok g ->
  length (bp_moduli P) <> 1%nat ->
  exists gk e, galois_new pr sk g i0 rnd = Ok gk /\ gk_subst gk = g /\ gk_level gk = i0
    /\ ksk_for P c (gk_ksk gk) (sk_fun sk) (rsubst n (gexp x) (sk_fun sk)) e
    /\ forall i j, Z.abs (e i j) <= 2 * bp_variance P.
Proof.
  intros HS Hv HR Hx Hg HL. destruct (ksk_new_ok pr P i0 c LV sk (rsubst n (gexp x) (sk_fun sk)) rnd HS Hv HR) as [k [e [E [HK HE]]]].
  destruct HS as [SP [S1 S2]]. rewrite SP in S2. unfold galois_new. rewrite SP. rewrite rassert_true by (apply negb_true_iff, Nat.eqb_neq; auto). cbn [bind].
  rewrite (lv_ctx _ _ _ LV). cbn [bind]. rewrite rep_from_i64 by (auto; rewrite (lv_n _ _ _ LV); auto). cbn [bind].
  change (fun j => nth j (sk_coeffs sk) 0) with (sk_fun sk). rewrite (rep_substitute pr c W _ _ x g Hx Hg). cbn [bind].
  rewrite change_fwd by auto. cbn [bind]. fold n. fold (gexp x). rewrite E. cbn [bind]. eexists. exists e. split; [reflexivity|]. auto.
Qed.

Lemma gexp_odd x : 0 <= x -> x mod 2 = 1 -> Nat.odd (gexp x) = true.
Proof.
  intros Hx Ho. unfold gexp. pose proof (cx_n8 c W) as Hn. fold n in Hn.
  assert (E : (x mod (2 * Z.of_nat n)) mod 2 = 1).
  { rewrite (Z.mod_eq x (2 * Z.of_nat n)) by lia. rewrite <- Ho.
    replace (x - 2 * Z.of_nat n * (x / (2 * Z.of_nat n))) with (x + (- (Z.of_nat n * (x / (2 * Z.of_nat n)))) * 2) by ring. apply Z.mod_add. lia. }
  pose proof (Z.mod_pos_bound x (2 * Z.of_nat n) ltac:(lia)) as B. set (y := x mod (2 * Z.of_nat n)) in *.
  rewrite <- Nat.negb_even. apply negb_true_iff. destruct (Nat.even (Z.to_nat y)) eqn:EE; auto. apply Nat.even_spec in EE. destruct EE as [m Hm].
  exfalso. assert (y = Z.of_nat m * 2) by lia. rewrite H, Z.mod_mul in E; lia.
Qed.

Lemma galois_relin_ok gk g x s e f0 f1 : 0 <= x -> subst_new pr c x = Ok g -> x mod 2 = 1 -> gk_subst gk = g -> gk_level gk = i0 ->
  ksk_for P c (gk_ksk gk) s (rsubst n (gexp x) s) e ->
  exists h0 h1, galois_relinearize pr gk (ct_of P i0 c [f0; f1]) = Ok (ct_of P i0 c [h0; h1])
    /\ forall j, (j < n)%nat -> eqm Q (phase n s [h0; h1] j) (rsubst n (gexp x) (phase n s [f0; f1]) j + ks_noise c e (rsubst n (gexp x) f1) j).
Proof.
  intros Hx Hg Ho GS GL HK. destruct (key_switch_ok pr P i0 c LV (gk_ksk gk) s _ e (rsubst n (gexp x) f1) HK) as [c0 [c1 [E HP]]].
  unfold galois_relinearize. cbn [ct_of ct_level ct_cts map ct_params]. rewrite GL, GS, Nat.eqb_refl. cbn [rassert bind get nth_error].
  replace (match pr with Debug => rassert (repr_eqb (p_repr (rep c Ntt f0)) Ntt) | Release => Ok tt end) with (Ok tt) by (destruct pr; reflexivity).
  cbn [bind]. rewrite (rep_substitute pr c W _ _ x g Hx Hg). cbn [bind]. rewrite change_bwd by auto. cbn [bind]. fold n. fold (gexp x). rewrite E. cbn [bind].
  rewrite (rep_substitute pr c W _ _ x g Hx Hg). cbn [bind]. rewrite rep_add by auto. cbn [bind]. fold n. fold (gexp x).
  eexists. exists c1. split; [reflexivity|]. intros j Hj. rewrite (phase2 c). fold n.
  specialize (HP j Hj). rewrite (phase2 c) in HP. fold n in HP.
  rewrite (rsubst_ext n (gexp x) (phase n s [f0; f1]) (fun j => f0 j + rmul n s f1 j)) by (intros l Hl; apply (phase2 c)).
  pose proof (cx_n8 c W) as Hn8. fold n in Hn8.
  rewrite rsubst_add, rsubst_rmul by first [apply gexp_odd; auto|lia]. rewrite (rmul_comm n (rsubst n (gexp x) s)).
  replace (c0 j + rsubst n (gexp x) f0 j + rmul n s c1 j) with ((c0 j + rmul n s c1 j) + rsubst n (gexp x) f0 j) by ring.
  replace (rsubst n (gexp x) f0 j + rmul n (rsubst n (gexp x) f1) (rsubst n (gexp x) s) j + ks_noise c e (rsubst n (gexp x) f1) j)
    with ((rmul n (rsubst n (gexp x) f1) (rsubst n (gexp x) s) j + ks_noise c e (rsubst n (gexp x) f1) j) + rsubst n (gexp x) f0 j) by ring.
  apply eqm_add; [exact HP|reflexivity].
Qed.

(** ** External product *)
Lemma external_ok r s m e0 e1 f0 f1 : ksk_for P c (rg_ksk0 r) s (rmul n s m) e0 -> ksk_for P c (rg_ksk1 r) s m e1 ->
  exists h0 h1, external_product pr r (ct_of P i0 c [f0; f1]) = Ok (rep c Ntt h0, rep c Ntt h1)
    /\ forall j, (j < n)%nat -> eqm Q (phase n s [h0; h1] j) (rmul n m (phase n s [f0; f1]) j + (ks_noise c e0 f1 j + ks_noise c e1 f0 j)).
Proof.
  intros H0 H1. destruct (key_switch_ok pr P i0 c LV (rg_ksk0 r) s _ e0 f1 H0) as [a0 [a1 [E0 P0]]].
  destruct (key_switch_ok pr P i0 c LV (rg_ksk1 r) s _ e1 f0 H1) as [b0 [b1 [E1 P1]]].
  unfold external_product. cbn [ct_of ct_cts map get nth_error bind]. rewrite !change_bwd by auto. cbn [bind].
  rewrite E0. cbn [bind]. rewrite E1. cbn [bind]. rewrite !rep_add by auto. cbn [bind].
  eexists. eexists. split; [reflexivity|]. intros j Hj. specialize (P0 j Hj). specialize (P1 j Hj).
  rewrite (phase2 c) in P0, P1 |- *. fold n in P0, P1 |- *. rewrite rmul_add_r.
  rewrite (rmul_ext n m m (phase n s [f0; f1]) (fun j => f0 j + rmul n s f1 j)); auto; [|intros l Hl; apply (phase2 c)].
  rewrite rmul_add_r.
  replace (b0 j + a0 j + (rmul n s b1 j + rmul n s a1 j)) with ((a0 j + rmul n s a1 j) + (b0 j + rmul n s b1 j)) by ring.
  replace (rmul n m f0 j + rmul n m (rmul n s f1) j + (ks_noise c e0 f1 j + ks_noise c e1 f0 j))
    with ((rmul n f1 (rmul n s m) j + ks_noise c e0 f1 j) + (rmul n f0 m j + ks_noise c e1 f0 j)).
  - apply eqm_add; assumption.
  - rewrite (rmul_comm n m f0). replace (rmul n m (rmul n s f1) j) with (rmul n f1 (rmul n s m) j); [ring|].
    pose proof (cx_n8 c W) as Hn. fold n in Hn.
    rewrite (rmul_comm n f1). rewrite <- (rmul_assoc n ltac:(lia) m s f1). apply rmul_ext; auto. intros l Hl. apply rmul_comm.
Qed.

Lemma rgsw_poly_ok sk m rnd0 rnd1 : sk_of P sk -> 1 <= bp_variance P <= 16 -> rnd_ok c rnd0 -> rnd_ok c rnd1 ->
  exists r e0 e1, rgsw_encrypt_poly pr sk (rep c Ntt m) rnd0 rnd1 = Ok r
    /\ ksk_for P c (rg_ksk0 r) (sk_fun sk) (rmul n (sk_fun sk) m) e0 /\ ksk_for P c (rg_ksk1 r) (sk_fun sk) m e1
    /\ (forall i j, Z.abs (e0 i j) <= 2 * bp_variance P) /\ (forall i j, Z.abs (e1 i j) <= 2 * bp_variance P).
Proof.
  intros HS Hv R0 R1. destruct (ksk_new_ok pr P i0 c LV sk (rmul n (sk_fun sk) m) rnd0 HS Hv R0) as [k0 [e0 [E0 [HK0 HE0]]]].
  destruct (ksk_new_ok pr P i0 c LV sk m rnd1 HS Hv R1) as [k1 [e1 [E1 [HK1 HE1]]]].
  destruct HS as [SP [S1 S2]]. rewrite SP in S2. unfold rgsw_encrypt_poly. cbn [p_repr rep repr_eqb rassert bind p_ctx]. fold (rep c Ntt m). rewrite SP.
  assert (EL : ctx_level P c = Some i0).
  { apply (ctx_level_iff P WB). exists c. split; [apply (lv_ctx _ _ _ LV)|apply ctx_eqb_refl]. }
  rewrite EL. cbn [unwrap bind]. rewrite (sk_ntt_ok pr P i0 c LV) by auto. cbn [bind]. change (fun j => nth j (sk_coeffs sk) 0) with (sk_fun sk).
  rewrite rep_mul by auto. cbn [bind]. fold n. rewrite E0. cbn [bind]. rewrite E1. cbn [bind]. eexists. exists e0, e1. split; [reflexivity|]. auto.
Qed.

Lemma rgsw_ok sk pt rnd0 rnd1 : sk_of P sk -> 1 <= bp_variance P <= 16 -> rnd_ok c rnd0 -> rnd_ok c rnd1 ->
  pt_params pt = P -> pt_level pt = i0 -> Forall (fun x => 0 <= x < 2 ^ 64) (pt_values pt) -> (length (pt_values pt) <= bp_degree P)%nat ->
  exists r e0 e1, rgsw_encrypt pr sk pt rnd0 rnd1 = Ok r
    /\ ksk_for P c (rg_ksk0 r) (sk_fun sk) (rmul n (sk_fun sk) (pt_fun pt)) e0 /\ ksk_for P c (rg_ksk1 r) (sk_fun sk) (pt_fun pt) e1
    /\ (forall i j, Z.abs (e0 i j) <= 2 * bp_variance P) /\ (forall i j, Z.abs (e1 i j) <= 2 * bp_variance P).
Proof.
  intros HS Hv R0 R1 PP PL PV Pl. set (m := pt_fun pt).
  destruct (ksk_new_ok pr P i0 c LV sk (rmul n (sk_fun sk) m) rnd0 HS Hv R0) as [k0 [e0 [E0 [HK0 HE0]]]].
  destruct (ksk_new_ok pr P i0 c LV sk m rnd1 HS Hv R1) as [k1 [e1 [E1 [HK1 HE1]]]].
  destruct HS as [SP [S1 S2]]. rewrite SP in S2. unfold rgsw_encrypt. rewrite SP, PP, PL. rewrite params_eqb_refl. cbn [rassert bind].
  rewrite (lv_ctx _ _ _ LV). cbn [bind]. rewrite rep_from_u64 by (auto; rewrite (lv_n _ _ _ LV); auto). cbn [bind].
  rewrite change_fwd by auto. cbn [bind]. change (fun j => nth j (pt_values pt) 0) with m.
  rewrite (sk_ntt_ok pr P i0 c LV) by auto. cbn [bind]. change (fun j => nth j (sk_coeffs sk) 0) with (sk_fun sk).
  rewrite rep_mul by auto. cbn [bind]. fold n. rewrite E0. cbn [bind]. rewrite E1. cbn [bind]. eexists. exists e0, e1. split; [reflexivity|]. auto.
Qed.
End Gal.
