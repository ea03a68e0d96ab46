(** Claims C27 and C61, concluded: changing the encoding of a plaintext, and
    keys made from plaintexts for polynomials of another level. *)
From Verif Require Import PBase NT Spec PSum MModulus MUtils MNtt MRns MRq MBfv MKsk PModulus PUtils PNttMath PNtt PNttNew PCrt PRns PRnsScale PUtils2 SpecRq SpecBfv SpecKsk PRing PRq PRq2 PRq3 PRq4 PRq5 TestEnv QRq PBfv PBfv2 PBfv3 QBfv PKsk PKsk2 PMix TestBfv QMix.

(** C27: set_encoding changes how a plaintext is decoded and nothing else: its
    values, scaled polynomial and encryptions stay the same, the last call
    counts, and setting the encoding it has changes nothing. *)
Lemma C27_set_encoding_lem :
  forall pr p e,
    pt_values (pt_set_encoding p e) = pt_values p
    /\ pt_enc (pt_set_encoding p e) = e
    /\ pt_to_poly pr (pt_set_encoding p e) = pt_to_poly pr p
    /\ (forall sk rows w, encrypt pr sk (pt_set_encoding p e) rows w = encrypt pr sk p rows w)
    /\ (forall e', pt_set_encoding (pt_set_encoding p e) e' = pt_set_encoding p e')
    /\ pt_set_encoding p (pt_enc p) = p.
Proof. intros pr [P l e0 v] e. repeat split. Qed.

(** C61: the same for a key made from a plaintext of the level of the key:
    [from] is its scaled encoding. *)
Lemma C61_from_plaintext_lem :
  forall pr P i k c C sk pt rnd, built_params P -> level P i c -> level P k C -> (k <= i)%nat -> sk_params sk = P -> sk_ok sk ->
    pt_params pt = P -> pt_level pt = k -> Forall (fun x => 0 <= x < 2 ^ 64) (pt_values pt) -> (length (pt_values pt) <= bp_degree P)%nat ->
    1 <= bp_variance P <= 16 -> rnd_ok C rnd ->
    exists key e u, ksk_new_with_pt pr sk pt i k rnd = Ok key
      /\ (forall j, (j < bp_degree P)%nat -> let x := cx_Q C * nth j (pt_values pt) 0 / bp_t P in u j = x \/ u j = x - 1)
      /\ (forall l j, Z.abs (e l j) <= 2 * bp_variance P)
      /\ forall p, exists c0 c1, key_switch pr key (rep c PowerBasis p) = Ok (rep c Ntt c0, rep c Ntt c1)
           /\ forall j, (j < bp_degree P)%nat ->
                phase (bp_degree P) (sk_fun sk) [c0; c1] j mod cx_Q c = (rmul (bp_degree P) p u j + ks_noise c e p j) mod cx_Q c
                /\ Z.abs (ks_noise c e p j) <= ks_bound c (2 * bp_variance P).
Proof.
  intros pr P i k c C sk pt rnd B L LC Hk SP SO PP PL PV Pl Hv HR.
  destruct (C29_scaled_plaintext_lem pr P k C pt B LC PP PL PV Pl) as [u [EU HU]].
  destruct (C61_cross_level_lem pr P i k c C sk u rnd B L LC Hk SP SO Hv HR) as [key [e [E [He H]]]].
  exists key, e, u. split; [unfold ksk_new_with_pt; rewrite EU; exact E|]. auto.
Qed.

(** C61: the contexts of a key are those asked for, whatever [from] is: one pair
    per modulus of the level of the polynomials, in the context of the level of
    the key, and only polynomials in power basis of the former are accepted. *)
Lemma C61_contexts_lem :
  forall pr sk from cl kl rnd key, ksk_new pr sk from cl kl rnd = Ok key ->
    level (sk_params sk) cl (k_ct_ctx key) /\ level (sk_params sk) kl (k_ksk_ctx key)
    /\ k_params key = sk_params sk
    /\ length (k_c1 key) = length (rns_moduli (rq_rns (k_ct_ctx key)))
    /\ Forall (fun p => p_ctx p = k_ksk_ctx key /\ p_repr p = Ntt) (k_c1 key)
    /\ (forall p x, key_switch pr key p = Ok x -> p_repr p = PowerBasis /\ rq_moduli_64 (p_ctx p) = rq_moduli_64 (k_ct_ctx key)).
Proof.
  intros pr sk from cl kl rnd key E. unfold ksk_new in E.
  destruct (get (bp_q_ctxs (sk_params sk)) kl) as [C| | |] eqn:EC; try discriminate E. cbn [bind] in E.
  destruct (get (bp_q_ctxs (sk_params sk)) cl) as [c| | |] eqn:Ec; try discriminate E. cbn [bind] in E.
  destruct (sk_ntt pr C (sk_coeffs sk)) as [s| | |]; try discriminate E. cbn [bind] in E.
  match type of E with bind ?m _ = _ => destruct m as [c0s| | |]; try discriminate E end. cbn [bind] in E.
  injection E as <-. cbn [k_ct_ctx k_ksk_ctx k_params k_c1]. split; [exact Ec|]. split; [exact EC|]. split; [reflexivity|].
  split; [now rewrite map_length, seq_length|].
  split; [apply Forall_forall; intros p Hp; apply in_map_iff in Hp; destruct Hp as (x & <- & _); split; reflexivity|].
  intros p x Hx. unfold key_switch in Hx. cbn [k_ct_ctx] in Hx.
  destruct (ctx_eqb (p_ctx p) c) eqn:EQ; [|discriminate Hx]. cbn [rassert bind] in Hx.
  destruct (repr_eqb (p_repr p) PowerBasis) eqn:ER; [|discriminate Hx].
  unfold ctx_eqb in EQ. rewrite !andb_true_iff in EQ. destruct EQ as [[[E1 _] _] _]. apply zlist_eqb_eq in E1.
  split; [|exact E1]. destruct (p_repr p); try discriminate ER. reflexivity.
Qed.

(*EXAMPLE
(** A key of level 0 made from a plaintext switches a polynomial of level 1;
    what is left after removing the multiple of the scaled plaintext is small. *)
Example C61_plaintext_example :
  (P <- test_bfv Debug ;; C <- get (bp_q_ctxs P) 0 ;; c <- get (bp_q_ctxs P) 1 ;; sk <- sk_generate Debug P (tw 1) ;;
   pt <- pt_new Debug P [3] 0 EncPoly ;; k <- ksk_new_with_pt Debug sk pt 1 0 (trnd 5) ;;
   p <- poly_from_i64 Debug c [1; 2] ;; '(c0, c1) <- key_switch Debug k p ;;
   s <- sk_ntt Debug c (sk_coeffs sk) ;; x <- poly_mul Debug c1 s ;; y <- poly_add Debug c0 x ;; z <- change_repr Debug y PowerBasis ;;
   v <- poly_to_big z ;;
   let u := cx_Q C * 3 / bp_t P in
   Ok (rq_moduli_64 (k_ct_ctx k), rq_moduli_64 (k_ksk_ctx k), map (fun l => (nth l v 0 - nth l [u; 2 * u] 0) mod cx_Q c) (seq 0 2))
     ) = Ok ([65633], [65633; 65729], [2; 4]).
Proof. vm_compute. reflexivity. Qed.
EXAMPLE*)
