(** Specification vocabulary for the privacy of queries (C86). *)
From Coq Require Export Permutation.
From Verif Require Import Base MModulus MUtils MNtt MRns MRq MBfv MKsk MEval Spec SpecRq SpecBfv SpecKsk.

(** A well-formed polynomial of the context in NTT form. *)
Definition ntt_poly (c : RqContext) (p : Poly) : Prop := wf_poly p /\ p_ctx p = c /\ p_repr p = Ntt.
(** A sample vector: m pairs (b, a) of well-formed NTT polynomials. *)
Definition pair_ok (c : RqContext) (ba : Poly * Poly) : Prop :=
  ntt_poly c (fst ba) /\ ntt_poly c (snd ba).
Definition samples_ok (c : RqContext) (m : nat) (l : list (Poly * Poly)) : Prop := length l = m /\ Forall (pair_ok c) l.
(** [E] lists every sample vector once: the uniform distribution. *)
Definition all_samples (c : RqContext) (m : nat) (E : list (list (Poly * Poly))) : Prop :=
  NoDup E /\ forall l, In l E <-> samples_ok c m l.

(** What the client sends, split into the encodings, which need neither key nor
    randomness, and the encryptions of zero, which do not see the query. *)
Section Split.
Variable pr : profile.
Definition query_msgs (P : BfvParams) (first : nat) (enc : list Z) : outcome (list Poly) :=
  pt <- pt_new pr P enc 0 EncPoly ;;
  p0 <- pt_to_poly pr pt ;;
  ctx <- get (bp_q_ctxs P) 0 ;;
  rassert (first <=? length enc)%nat ;;;
  ps <- mapM (fun g => p <- poly_from_u64 pr ctx (skipn first enc) ;; p' <- change_repr pr p Ntt ;; poly_mul_big pr p' g) (rns_garner (rq_rns ctx)) ;;
  Ok (p0 :: ps).
Definition add_msgs (P : BfvParams) (us : list Poly) (smp : list (Poly * Poly)) : outcome (list Ct) :=
  zipM (fun u ba => c0 <- poly_add pr (fst ba) u ;; Ok (mkCt P [c0; snd ba] 0)) us smp.

(** A world: a secret key, the randomness of one query, and whatever else the
    server has seen (for instance the evaluation keys). *)
Record world (X : Type) := mkWorld { w_aux : X; w_sk : SecretKey; w_rows : list (list Z); w_words : nat -> Z; w_rnd : RndKsk }.
Arguments w_aux {X}. Arguments w_sk {X}. Arguments w_rows {X}. Arguments w_words {X}. Arguments w_rnd {X}.
Definition world_ok {X} (P : BfvParams) (c : RqContext) (w : world X) : Prop :=
  sk_params (w_sk w) = P /\ sk_ok (w_sk w) /\ wf_poly (mkPoly c Ntt (w_rows w)) /\ (forall k, 0 <= w_words w k < 2 ^ 64) /\ rnd_ok c (w_rnd w).
(** The query of a world, and its encryptions of zero. *)
Definition view {X} (P : BfvParams) (first : nat) (enc : list Z) (w : world X) : outcome (list Ct) :=
  client_query pr (w_sk w) P first enc (w_rows w) (w_words w) (w_rnd w).
Definition zero_pair (c : RqContext) (sk : SecretKey) (rows : list (list Z)) (w : nat -> Z) : Poly * Poly :=
  match encrypt_poly pr sk (poly_zero c Ntt) rows w with Ok (mkCt _ [b; a] _) => (b, a) | _ => (poly_zero c Ntt, poly_zero c Ntt) end.
Definition zeros {X} (c : RqContext) (w : world X) : list (Poly * Poly) :=
  zero_pair c (w_sk w) (w_rows w) (w_words w) :: map (fun k => zero_pair c (w_sk w) (rnd_rows (w_rnd w) k) (rnd_words (w_rnd w) k)) (seq 0 (cx_k c)).
End Split.
Arguments w_aux {X}. Arguments w_sk {X}. Arguments w_rows {X}. Arguments w_words {X}. Arguments w_rnd {X}.

(** Number of elements that satisfy p. *)
Definition cnt {A} (p : A -> bool) (l : list A) : Z := Z.of_nat (length (filter p l)).
