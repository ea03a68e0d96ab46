(** The evaluation key. *)
From Verif Require Import PBase NT Spec PSum MModulus MUtils MNtt MRns MRq MBfv MKsk MGalois MRgsw MEval PModulus PUtils PNttMath PNtt PNttNew PCrt PRns PRnsScale PUtils2 SpecRq SpecBfv SpecKsk SpecEval PRing PRq PRq2 PRq3 PRq4 PRq5 PBfv PBfv2 PBfv3 PKsk PGal PKsk2 PExpand PEval.

Lemma gk_lookup_cons k g m k' : gk_lookup ((k, g) :: m) k' = if (k =? k')%nat then Some g else gk_lookup m k'.
Proof. unfold gk_lookup. cbn [find fst]. destruct (k =? k')%nat; reflexivity. Qed.

Section Key.
Variables (pr : profile) (P : BfvParams) (c : RqContext) (sk : SecretKey).
Hypothesis WB : wf_bfv P.
Hypothesis LV : wf_level P 0 c.
Let W : wf_loc c := wf_ctx_loc _ (lv_wf _ _ _ LV).
Let n := rq_degree c.
Let L := cx_L c.
Let s := sk_fun sk.
Let En : n = (2 ^ L)%nat := wl_n c W.
Let KB := ks_bound c (2 * bp_variance P).

Lemma exp_inj i i' : (i < L)%nat -> (i' < L)%nat -> (n / 2 ^ i + 1 = n / 2 ^ i' + 1)%nat -> i = i'.
Proof.
  intros Hi Hi' E. rewrite En, (exp_div L i Hi), (exp_div L i' Hi') in E.
  assert (E2 : (2 ^ (L - i - 1) = 2 ^ (L - i' - 1))%nat) by lia. apply Nat.pow_inj_r in E2; lia.
Qed.

(** What [Evaluation::build] returns. *)
Definition eval_key (ev : Evaluation) : Prop :=
  (forall i, (i < L)%nat -> exists gk, gk_lookup (ev_gk ev) (n / 2 ^ i + 1) = Some gk /\ gkey pr P 0 c s (n / 2 ^ i + 1) KB gk)
  /\ exists e0 e1, ksk_for P c (rg_ksk0 (ev_sk_rgsw ev)) s (rmul n s s) e0 /\ ksk_for P c (rg_ksk1 (ev_sk_rgsw ev)) s s e1
       /\ (forall i j, Z.abs (e0 i j) <= 2 * bp_variance P) /\ (forall i j, Z.abs (e1 i j) <= 2 * bp_variance P).

Lemma eval_build_ok rnd rnd0 rnd1 : sk_of P sk -> 1 <= bp_variance P <= 16 -> length (bp_moduli P) <> 1%nat ->
  (forall i, rnd_ok c (rnd i)) -> rnd_ok c rnd0 -> rnd_ok c rnd1 -> small_degree pr n ->
  exists ev, eval_build pr sk P rnd rnd0 rnd1 = Ok ev /\ eval_key ev.
Proof.
  intros HS Hv HL HR R0 R1 SD. unfold eval_build. rewrite <- (lv_n _ _ _ LV). rewrite (ilog2_n pr c W). cbn [bind]. rewrite Nat2Z.id. fold n L.
  destruct (foldM_seq_inv (fun m i => ctx <- get (bp_q_ctxs P) 0 ;; sb <- subst_new pr ctx (Z.of_nat (n / 2 ^ i + 1)) ;;
      g <- galois_new pr sk sb 0 (rnd i) ;; Ok ((n / 2 ^ i + 1, g)%nat :: m))
    (fun i m => forall i', (i' < i)%nat -> exists gk, gk_lookup m (n / 2 ^ i' + 1) = Some gk /\ gkey pr P 0 c s (n / 2 ^ i' + 1) KB gk) 0 L [])
    as [m [E I]].
  - intros; lia.
  - intros i m Hi I. assert (HiL : (i < L)%nat) by lia. rewrite (lv_ctx _ _ _ LV). cbn [bind].
    pose proof (subst_new_ok pr c W (Z.of_nat (n / 2 ^ i + 1)) (Nat2Z.is_nonneg _) (exp_odd_z P 0 c s LV i HiL) (small_fits pr c W _ SD)) as EG.
    set (g := mkSubst _ _) in EG. rewrite EG. cbn [bind].
    destruct (galois_new_ok pr P 0 c LV sk (rnd i) (Z.of_nat (n / 2 ^ i + 1)) g HS Hv (HR i) (Nat2Z.is_nonneg _) EG HL) as [gk [e [EK [G1 [G2 [GK GE]]]]]].
    rewrite EK. cbn [bind]. eexists. split; [reflexivity|]. intros i' Hi'. rewrite gk_lookup_cons.
    destruct (Nat.eqb_spec (n / 2 ^ i + 1) (n / 2 ^ i' + 1)) as [Ee|Ne].
    + exists gk. split; auto. rewrite <- Ee. exists g, e. pose proof (gexp_small P 0 c s LV i HiL) as EX. fold n in EX. rewrite EX in GK. repeat (split; auto).
      intros f l Hl. apply (ks_noise_bound P 0 c LV); auto. lia.
    + apply I. assert (i <> i') by (intros ->; congruence). lia.
  - rewrite E. cbn [bind]. rewrite (lv_ctx _ _ _ LV). cbn [bind]. destruct HS as [SP [S1 S2]].
    rewrite (sk_ntt_ok pr P 0 c LV) by (auto; rewrite SP in S2; auto). cbn [bind].
    destruct (rgsw_poly_ok pr P 0 c WB LV sk (sk_fun sk) rnd0 rnd1 (conj SP (conj S1 S2)) Hv R0 R1) as [r [e0 [e1 [ER [K0 [K1 [B0 B1]]]]]]].
    change (fun j => nth j (sk_coeffs sk) 0) with (sk_fun sk). rewrite ER. cbn [bind]. eexists. split; [reflexivity|].
    split; [exact I|]. exists e0, e1. auto.
Qed.
End Key.
