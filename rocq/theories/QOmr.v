(** Claim C53: the inner product of ciphertexts and polynomials. *)
From Verif Require Import PBase NT Spec PSum MModulus MUtils MNtt MRns MRq MBfv MOmr PModulus PUtils SpecRq SpecBfv PRing PRq PRq2 PRq3 PRq4 PRq5 PBfv PBfv2 PBfv3 PFold TestBfv QBfv.

Section Inner.
Variables (pr : profile) (P : BfvParams) (i : nat) (c : RqContext).
Hypothesis LV : wf_level P i c.
Let n := bp_degree P.

Definition ct2 (f : nat -> nat -> Z) : Ct := ct_of P i c [f 0%nat; f 1%nat].
Definition ip (f : nat -> nat -> nat -> Z) (h : nat -> nat -> Z) (d b j : nat) : Z := sumn d (fun k => rmul n (f k b) (h k) j).

Lemma ip_fold d : forall f h x, exists g,
  foldM (fun prod (cp : Ct * Poly) => p <- ct_mul_poly pr (fst cp) (snd cp) ;; ct_add pr prod p)
        (combine (map (fun k => ct2 (f k)) (seq 1 d)) (map (fun k => rep c Ntt (h k)) (seq 1 d))) (ct2 x) = Ok (ct2 g)
  /\ forall b j, (b < 2)%nat -> g b j = x b j + sumn d (fun k => rmul n (f (S k) b) (h (S k)) j).
Proof.
  induction d as [|d IH]; intros f h x.
  - exists x. split; [reflexivity|]. intros. cbn [sumn]. lia.
  - cbn [seq map combine foldM fst snd]. change (ct2 (f 1%nat)) with (ct_of P i c [f 1%nat 0%nat; f 1%nat 1%nat]). rewrite (ct_mul_poly_ok pr P i c LV). cbn [bind map].
    change (ct2 x) with (ct_of P i c [x 0%nat; x 1%nat]). rewrite (ct_add_ok pr P i c LV). cbn [bind].
    destruct (IH (fun k => f (S k)) (fun k => h (S k)) (fun b j => x b j + rmul n (f 1%nat b) (h 1%nat) j)) as [g [E H]].
    exists g. split.
    + rewrite <- seq_shift, !map_map. exact E.
    + intros b j Hb. rewrite H by auto. rewrite sumn_S_l. lia.
Qed.
End Inner.

(** C53: for equally long non-empty lists, at every level, the phase of the
    result is the sum of the products of the phases with the polynomials. *)
Lemma C53_inner_product_lem :
  forall pr P i c f h d, built_params P -> level P i c -> (0 < d)%nat ->
    exists g0 g1,
      inner_product pr (map (fun k => ct_of P i c [f k 0%nat; f k 1%nat]) (seq 0 d)) (map (fun k => rep c Ntt (h k)) (seq 0 d))
      = Ok (ct_of P i c [g0; g1])
      /\ forall s j, phase (bp_degree P) s [g0; g1] j
                     = sumn d (fun k => rmul (bp_degree P) (phase (bp_degree P) s [f k 0%nat; f k 1%nat]) (h k) j).
Proof.
  intros pr P i c f h d B L Hd. pose proof (built_params_wf P B) as WB. destruct (level_wf P i c WB L) as [Hi LV].
  destruct d as [|d]; [lia|]. set (n := bp_degree P).
  destruct (ip_fold pr P i c LV d f h (fun b => rmul n (f 0%nat b) (h 0%nat))) as [g [E H]].
  exists (g 0%nat), (g 1%nat). split.
  - unfold inner_product. rewrite !len_seq, Nat.eqb_refl. cbn [rassert bind seq map get nth_error tl].
    rewrite (ct_mul_poly_ok pr P i c LV). cbn [bind map]. exact E.
  - intros s j. rewrite (sumn_ext (S d) _ (fun k => phase n s (map (fun f => rmul n f (h k)) [f k 0%nat; f k 1%nat]) j)).
    2:{ intros k _. symmetry. apply (phase_rmul P i c LV). }
    cbn [map phase]. rewrite sumn_add. f_equal.
    + rewrite H by lia. rewrite sumn_S_l. reflexivity.
    + rewrite <- rmul_sum_r. apply rmul_ext; auto. intros l Hl. cbv beta. rewrite rmul_0_r, H by lia. rewrite sumn_S_l, !Z.add_0_r. f_equal.
      apply sumn_ext. intros k _. rewrite ?Z.add_0_r, ?rmul_0_r, ?Z.add_0_r. reflexivity.
Qed.

(** C53: under the summed noise the result decrypts to the inner product. *)
Lemma C53_decrypt_lem :
  forall pr P i c sk f h d m E, built_params P -> level P i c -> (0 < d)%nat -> sk_params sk = P -> sk_ok sk ->
    small_basis (rq_moduli_64 c) -> 2 * bp_t P <= cx_q c 0 ->
    (forall k, (k < d)%nat -> carries (bp_degree P) (cx_Q c) (bp_t P) (phase (bp_degree P) (sk_fun sk) [f k 0%nat; f k 1%nat]) (m k) (E k)) ->
    (forall j, (j < bp_degree P)%nat -> noise_ok (cx_Q c) (sumn d (fun k => rmul (bp_degree P) (E k) (h k) j))) ->
    (x <- inner_product pr (map (fun k => ct_of P i c [f k 0%nat; f k 1%nat]) (seq 0 d)) (map (fun k => rep c Ntt (h k)) (seq 0 d)) ;; decrypt pr sk x)
    = Ok (mkPt P i EncNone (map (fun j => sumn d (fun k => rmul (bp_degree P) (m k) (h k) j) mod bp_t P) (seq 0 (bp_degree P)))).
Proof.
  intros pr P i c sk f h d m E B L Hd SP SK SB Hq HC HN. pose proof (built_params_wf P B) as WB. destruct (level_wf P i c WB L) as [Hi LV].
  destruct (C53_inner_product_lem pr P i c f h d B L Hd) as [g0 [g1 [EI EP]]]. rewrite EI. cbn [bind]. set (n := bp_degree P) in *.
  apply (decrypt_ok pr P i c WB LV sk _ (fun j => sumn d (fun k => rmul n (m k) (h k) j)) (fun j => sumn d (fun k => rmul n (E k) (h k) j))); auto.
  - split; auto.
  - discriminate.
  - eapply (carries_ext P c); [| | |apply (carries_sum _ _ _ d _ _ _ (fun k Hk => carries_mulr _ _ _ _ _ _ (h k) (HC k Hk)))]; intros j Hj; cbv beta; auto; symmetry; apply EP.
Qed.

(** C53: lists of different lengths and empty lists panic. *)
Lemma C53_panics_lem :
  forall pr cts polys, length cts <> length polys \/ cts = [] -> inner_product pr cts polys = Panic.
Proof.
  intros pr cts polys H. unfold inner_product. destruct (Nat.eqb_spec (length cts) (length polys)) as [HL|HL]; cbn [rassert bind]; [|reflexivity].
  destruct H as [H| ->]; [contradiction|]. reflexivity.
Qed.

(*EXAMPLE
(** [1 + 2X, 3] . [5, X] = 5 + 13X; empty lists panic. *)
Example C53_example :
  (P <- test_bfv Release ;; let sk := mkSk P [1; -1; 0; 1; 1; 0; 2; -1] in
   pa <- pt_new Release P [1; 2] 0 EncPoly ;; pb <- pt_new Release P [3] 0 EncPoly ;;
   a <- encrypt Release sk pa (trows bms 4) (tw 5) ;; b <- encrypt Release sk pb (trows bms 6) (tw 7) ;;
   c <- get (bp_q_ctxs P) 0 ;; p <- poly_from_u64 Release c [5] ;; p' <- change_repr Release p Ntt ;;
   r <- poly_from_u64 Release c [0; 1] ;; r' <- change_repr Release r Ntt ;;
   x <- inner_product Release [a; b] [p'; r'] ;; d <- decrypt Release sk x ;; Ok (pt_values d, inner_product Release [] []))
  = Ok ([5; 13; 0; 0; 0; 0; 0; 0], Panic).
Proof. vm_compute. reflexivity. Qed.
EXAMPLE*)
