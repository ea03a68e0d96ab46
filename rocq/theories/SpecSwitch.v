(** Specification of programs in stages (C69). *)
From Verif Require Import Base MModulus MUtils MNtt MRns MRq MBfv MKsk MGalois MRgsw MCirc MSwitch Spec SpecRq SpecBfv SpecKsk SpecCirc.

(** Scaled noise after dividing by R: rounding adds at most t(1 + S), S the l1
    norm of the secret. *)
Definition switch_noise (R t S B : Z) : Z := B / R + t * (1 + S).

(** Ciphertext [ct] of level [i] carries the message with scaled noise at most B. *)
Definition holds (P : BfvParams) (i : nat) (c : RqContext) (sk : SecretKey) (B : Z) (l : list Z) (ct : Ct) : Prop :=
  exists f0 f1 E, ct = ct_of P i c [f0; f1]
    /\ carries (bp_degree P) (cx_Q c) (bp_t P) (phase (bp_degree P) (sk_fun sk) [f0; f1]) (coeffs l) E
    /\ forall j, (j < bp_degree P)%nat -> Z.abs (E j) <= B.

(** Values of the circuits of one stage, modulo t, from the values of the last. *)
Definition stage_vals (n : nat) (t : Z) (d : CData) (es : list circ) : list (list Z) :=
  map (fun e => map (fun j => cval n d e j mod t) (seq 0 n)) es.

(** The plain computation: data of a stage without its inputs. *)
Record SData := mkSData { sd_pt : list (list Z); sd_rot : list Z; sd_sel : list (list Z) }.
Definition with_inputs (v : list (list Z)) (s : SData) : CData := mkCData v (sd_pt s) (sd_rot s) (sd_sel s).
Fixpoint stages_val (n : nat) (t : Z) (v : list (list Z)) (l : list (Stage * SData)) : list (list Z) :=
  match l with
  | [] => v
  | (s, d) :: l' => stages_val n t (stage_vals n t (with_inputs v d) (st_out s)) l'
  end.

(** Level and noise bound after the stages, and the conditions on every stage. *)
Definition stage_noise (P : BfvParams) (c : RqContext) (S B : Z) (d : CData) (es : list circ) : Z :=
  fold_right (fun e x => Z.max (cnoise (bp_degree P) (bp_t P) B S (ks_bound c (2 * bp_variance P)) d e) x) 0 es.
Inductive stages_ok (pr : profile) (P : BfvParams) (sk : SecretKey) (S : Z)
  : nat -> RqContext -> Z -> list (list Z) -> list (Stage * SData) -> nat -> RqContext -> Z -> Prop :=
| so_nil i c B v : stages_ok pr P sk S i c B v [] i c B
| so_cons i c B v s d l c' ec i2 c2 B2 :
    (i <= st_level s)%nat -> level P (st_level s) c' ->
    small_basis (rq_moduli_64 c') ->
    get (bp_e_ctxs P) (st_level s) = Ok ec -> small_basis (rq_moduli_64 ec) ->
    2 * Z.of_nat (bp_degree P) * (cx_Q c' * cx_Q c') <= cx_Q ec ->
    good_keys pr P (st_level s) c' sk (with_inputs v d) (st_keys s) ->
    let B' := switch_noise (cx_Q c / cx_Q c') (bp_t P) S B in
    Forall (cfits (bp_degree P) (cx_Q c') (bp_t P) B' S (ks_bound c' (2 * bp_variance P)) (with_inputs v d)) (st_out s) ->
    stages_ok pr P sk S (st_level s) c' (stage_noise P c' S B' (with_inputs v d) (st_out s))
      (stage_vals (bp_degree P) (bp_t P) (with_inputs v d) (st_out s)) l i2 c2 B2 ->
    stages_ok pr P sk S i c B v ((s, d) :: l) i2 c2 B2.
