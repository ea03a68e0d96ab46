(** Inputs of the server that agree in everything but the residues (C99). *)
From Verif Require Import Base MModulus MUtils MNtt MRns MRq MBfv MKsk MGalois MRgsw MEval MTrace SpecTrace2.

Definition ct_like (c c' : Ct) : Prop :=
  ct_params c = ct_params c' /\ ct_level c = ct_level c' /\ Forall2 alike (ct_cts c) (ct_cts c').
Definition ksk_like (k k' : Ksk) : Prop :=
  k_ksk_ctx k = k_ksk_ctx k' /\ k_ct_ctx k = k_ct_ctx k' /\ Forall2 alike (k_c0 k) (k_c0 k') /\ Forall2 alike (k_c1 k) (k_c1 k').
Definition rgsw_like (r r' : RgswCt) : Prop := ksk_like (rg_ksk0 r) (rg_ksk0 r') /\ ksk_like (rg_ksk1 r) (rg_ksk1 r').
Definition gk_like (g g' : GaliosKey) : Prop :=
  gk_subst g = gk_subst g' /\ gk_level g = gk_level g' /\ ksk_like (gk_ksk g) (gk_ksk g').
Definition ev_like (e e' : Evaluation) : Prop :=
  Forall2 (fun x y => fst x = fst y /\ gk_like (snd x) (snd y)) (ev_gk e) (ev_gk e') /\ rgsw_like (ev_sk_rgsw e) (ev_sk_rgsw e').
Definition server_like (s s' : Server) : Prop :=
  sv_first_dim s = sv_first_dim s' /\ sv_dim s = sv_dim s' /\ length (sv_db s) = length (sv_db s') /\
  Forall2 alike (sv_db_scaled s) (sv_db_scaled s').
