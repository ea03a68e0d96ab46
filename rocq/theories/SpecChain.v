(** A client program for claim C91: RGSW encryptions of a list of plaintexts are
    applied one after the other to a ciphertext. *)
From Verif Require Import Base Spec SpecProb MModulus MUtils MNtt MRns MRq MBfv MKsk MRgsw SpecRq SpecBfv SpecKsk.

(** One step: the plaintext and the public masks of the two halves of its RGSW encryption. *)
Record step := mkStep { st_pt : Plaintext; st_masks0 : nat -> list (list Z); st_masks1 : nat -> list (list Z) }.

(** The errors of a step are read from the first 2*K blocks of M bits, K blocks for
    each half; the following steps use the bits behind them. *)
Definition step_rgsw (pr : profile) (sk : SecretKey) (K M : nat) (s : step) (bits : list bool) : outcome RgswCt :=
  rgsw_encrypt pr sk (st_pt s) (mkRnd (st_masks0 s) (fun l => words_of (block M l bits)))
                               (mkRnd (st_masks1 s) (fun l => words_of (block M (K + l) bits))).
Fixpoint chain (pr : profile) (sk : SecretKey) (K M : nat) (ss : list step) (bits : list bool) (ct : Ct) : outcome Ct :=
  match ss with
  | [] => Ok ct
  | s :: ss' => r <- step_rgsw pr sk K M s (firstn ((K + K) * M) bits) ;;
                '(c0, c1) <- external_product pr r ct ;;
                chain pr sk K M ss' (skipn ((K + K) * M) bits) (mkCt (ct_params ct) [c0; c1] (ct_level ct))
  end.

Definition st_fun (s : step) (j : nat) : Z := nth j (pt_values (st_pt s)) 0.
(** The product of the message and the plaintexts. *)
Fixpoint chain_val (n : nat) (ss : list step) (m : nat -> Z) : nat -> Z :=
  match ss with [] => m | s :: ss' => chain_val n ss' (rmul n m (st_fun s)) end.
(** The noise when every step adds less than t*B. *)
Fixpoint chain_noise (n : nat) (t B : Z) (ss : list step) (N : Z) : Z :=
  match ss with [] => N | s :: ss' => chain_noise n t B ss' (l1norm n (st_fun s) * N + t * B) end.

Definition step_ok (P : BfvParams) (i : nat) (c : RqContext) (s : step) : Prop :=
  pt_params (st_pt s) = P /\ pt_level (st_pt s) = i /\ Forall (fun x => 0 <= x < 2 ^ 64) (pt_values (st_pt s))
  /\ (length (pt_values (st_pt s)) <= bp_degree P)%nat
  /\ (forall l, (l < cx_k c)%nat -> wf_poly (mkPoly c Ntt (st_masks0 s l)))
  /\ forall l, (l < cx_k c)%nat -> wf_poly (mkPoly c Ntt (st_masks1 s l)).
