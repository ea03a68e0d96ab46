(** The functions of the crate other than [Plaintext::new] and [decode] do not
    look at the slot map. *)
From Verif Require Import PBase MModulus MUtils MNtt MRns MRq MBfv MKsk MGalois MRgsw MCirc MFix.

Definition omap {A B} (f : A -> B) (o : outcome A) : outcome B := x <- o ;; Ok (f x).

Section Relabel.
Variable m : list nat.
Variable pr : profile.
Notation im := (fun P => with_index_map P m).
Definition im_ct (c : Ct) : Ct := mkCt (im (ct_params c)) (ct_cts c) (ct_level c).
Definition im_pt (p : Plaintext) : Plaintext := mkPt (im (pt_params p)) (pt_level p) (pt_enc p) (pt_values p).
Definition im_sk (s : SecretKey) : SecretKey := mkSk (im (sk_params s)) (sk_coeffs s).
Definition im_ksk (k : Ksk) : Ksk := mkKsk (im (k_params k)) (k_c0 k) (k_c1 k) (k_ksk_ctx k) (k_ct_ctx k).
Definition im_gk (g : GaliosKey) : GaliosKey := mkGk (im_ksk (gk_ksk g)) (gk_subst g) (gk_level g).
Definition im_rlk (r : RelinKey) : RelinKey := mkRlk (im_ksk (rlk_ksk r)) (im (rlk_params r)).
Definition im_rgsw (r : RgswCt) : RgswCt := mkRgsw (im_ksk (rg_ksk0 r)) (im_ksk (rg_ksk1 r)).
Definition im_keys (K : Keys) : Keys := mkKeys (im_rlk (ks_rlk K)) (map im_gk (ks_gks K)) (map im_rgsw (ks_rgsw K)) (map im_pt (ks_pts K)).

Lemma omap_bind {A B C} (f : B -> C) (o : outcome A) g : omap f (x <- o ;; g x) = (x <- o ;; omap f (g x)).
Proof. destruct o; reflexivity. Qed.
Lemma bind_omap {A B C} (f : A -> B) (o : outcome A) (g : B -> outcome C) : (x <- omap f o ;; g x) = (x <- o ;; g (f x)).
Proof. destruct o; reflexivity. Qed.
Lemma bind_ext {A B} (o : outcome A) (f g : A -> outcome B) : (forall x, f x = g x) -> (x <- o ;; f x) = (x <- o ;; g x).
Proof. intros H. destruct o; cbn [bind]; auto. Qed.
Lemma get_map {A B} (f : A -> B) l k : get (map f l) k = omap f (get l k).
Proof. unfold get, omap. rewrite nth_error_map. destruct (nth_error l k); reflexivity. Qed.

Ltac im := repeat first [reflexivity | rewrite omap_bind; apply bind_ext; intros ? | match goal with |- context [let (_, _) := ?x in _] => destruct x end].

Lemma im_encrypt sk pt rows w : encrypt pr (im_sk sk) (im_pt pt) rows w = omap im_ct (encrypt pr sk pt rows w).
Proof. unfold encrypt, encrypt_poly. im. Qed.
Lemma im_decrypt sk ct : decrypt pr (im_sk sk) (im_ct ct) = omap im_pt (decrypt pr sk ct).
Proof. unfold decrypt. im. Qed.
Lemma im_ksk_new sk f a b rnd : ksk_new pr (im_sk sk) f a b rnd = omap im_ksk (ksk_new pr sk f a b rnd).
Proof. unfold ksk_new. im. Qed.
Lemma im_rlk_new sk i rnd : rlk_new pr (im_sk sk) i rnd = omap im_rlk (rlk_new pr sk i rnd).
Proof. unfold rlk_new. im. rewrite im_ksk_new, bind_omap. im. Qed.
Lemma im_galois_new sk g i rnd : galois_new pr (im_sk sk) g i rnd = omap im_gk (galois_new pr sk g i rnd).
Proof. unfold galois_new. im. rewrite im_ksk_new, bind_omap. im. Qed.
Lemma im_rgsw_encrypt sk p r0 r1 : rgsw_encrypt pr (im_sk sk) (im_pt p) r0 r1 = omap im_rgsw (rgsw_encrypt pr sk p r0 r1).
Proof. unfold rgsw_encrypt. im. rewrite im_ksk_new, bind_omap. im. rewrite im_ksk_new, bind_omap. im. Qed.
Lemma im_ct_add a b : ct_add pr (im_ct a) (im_ct b) = omap im_ct (ct_add pr a b).
Proof. unfold ct_add. im. Qed.
Lemma im_ct_sub a b : ct_sub pr (im_ct a) (im_ct b) = omap im_ct (ct_sub pr a b).
Proof. unfold ct_sub. im. Qed.
Lemma im_ct_mul_pt a p : ct_mul_pt pr (im_ct a) (im_pt p) = omap im_ct (ct_mul_pt pr a p).
Proof. unfold ct_mul_pt. im. Qed.
Lemma im_ct_mul_big a z : ct_mul_big pr (im_ct a) z = omap im_ct (ct_mul_big pr a z).
Proof. unfold ct_mul_big. im. Qed.
Lemma im_relin g ct : galois_relinearize pr (im_gk g) (im_ct ct) = omap im_ct (galois_relinearize pr g ct).
Proof. unfold galois_relinearize. im. Qed.
Lemma im_multiply a b r : multiply_with_strategy pr (im_ct a) (im_ct b) (im_rlk r) = omap im_ct (multiply_with_strategy pr a b r).
Proof. unfold multiply_with_strategy. im. Qed.
Lemma im_external r ct : external_product pr (im_rgsw r) (im_ct ct) = external_product pr r ct.
Proof. reflexivity. Qed.
Lemma im_run K cts e : run_circ pr (im_keys K) (map im_ct cts) e = omap im_ct (run_circ pr K cts e).
Proof.
  induction e; cbn [run_circ].
  - apply get_map.
  - rewrite IHe1, bind_omap. im. rewrite IHe2, bind_omap. im. apply im_ct_add.
  - rewrite IHe1, bind_omap. im. rewrite IHe2, bind_omap. im. apply im_ct_sub.
  - rewrite IHe1, bind_omap. im. rewrite IHe2, bind_omap. im. apply im_multiply.
  - rewrite IHe, bind_omap. im. cbn [im_keys ks_pts]. rewrite get_map, bind_omap. im. apply im_ct_mul_pt.
  - rewrite IHe, bind_omap. im. apply im_ct_mul_big.
  - rewrite IHe, bind_omap. im. cbn [im_keys ks_gks]. rewrite get_map, bind_omap. im. apply im_relin.
  - rewrite IHe, bind_omap. im. cbn [im_keys ks_rgsw]. rewrite get_map, bind_omap. im.
Qed.
End Relabel.

Lemma decrypt_params pr sk ct pt : decrypt pr sk ct = Ok pt -> pt_params pt = sk_params sk.
Proof.
  unfold decrypt. intros H. 
  repeat match type of H with
         | bind ?o _ = _ => destruct o as [?| | |]; cbn [bind] in H; try discriminate
         | (let (_, _) := ?x in _) = _ => destruct x
         end. injection H as <-. reflexivity.
Qed.
Lemma with_map_back P mp : with_index_map (with_index_map P mp) (bp_index_map P) = P.
Proof. destruct P. reflexivity. Qed.
