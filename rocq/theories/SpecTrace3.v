(** The one secret bit per coefficient the scaling gives away (C96). *)
From Verif Require Import Base MModulus MUtils MNtt MRns MRq MBfv MKsk MGalois MTrace MTrace2 SpecTrace SpecTrace2.

(** [w_sign], the sign of the correction the scaler computes for the residues
    [rests] of a coefficient (src/rns.rs:383); no correction when the factor
    is one. *)
Definition sign_of (s : RnsScaler) (rests : list Z) : bool :=
  match (v <- scale_v Release s rests ;; scale_w Release s rests v) with
  | Ok (sg, _) => sg
  | _ => false
  end.

(** The residues of coefficient [j]. *)
Definition residues (p : Poly) (j : nat) : list Z := map (fun row => nth j row 0) (p_rows p).

(** The signs of all coefficients of two polynomials agree. *)
Definition same_signs (s : RqScaler) (p q : Poly) : Prop :=
  forall j, (j < rq_degree (sc_to s))%nat -> sign_of (sc_rns s) (residues p j) = sign_of (sc_rns s) (residues q j).
