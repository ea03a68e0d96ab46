(** How many words the objects sent between client and server hold (claim C92). *)
From Verif Require Import Base MModulus MNtt MRns MRq MBfv MKsk MGalois MRgsw MEval.
Definition poly_words (p : Poly) : list Z := concat (p_rows p).
Definition ct_words (c : Ct) : list Z := concat (map poly_words (ct_cts c)).
Definition ksk_words (k : Ksk) : list Z := concat (map poly_words (k_c0 k ++ k_c1 k)).
Definition rgsw_words (r : RgswCt) : list Z := ksk_words (rg_ksk0 r) ++ ksk_words (rg_ksk1 r).
Definition query_words (cts : list Ct) : list Z := concat (map ct_words cts).
Definition eval_words (ev : Evaluation) : list Z :=
  concat (map (fun x => ksk_words (gk_ksk (snd x))) (ev_gk ev)) ++ rgsw_words (ev_sk_rgsw ev).
(** [m] words, each of less than 62 bits. *)
Definition holds_words (m : nat) (l : list Z) : Prop := length l = m /\ Forall (fun x => 0 <= x < 2 ^ 62) l.
