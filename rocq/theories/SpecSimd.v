(** Specification of circuits over vectors of slots. *)
From Coq Require Export Permutation.
From Verif Require Import Base MModulus MUtils MNtt MRns MRq MBfv MKsk MGalois MRgsw MCirc MFix Spec SpecRq SpecBfv SpecKsk SpecCirc.

(** The slots form two rows of n/2.  A rotation by [r] moves both rows [r] places
    to the left, with [s] it also swaps them: slot [j] of the result is this slot
    of the operand. *)
Definition slot_source (n : nat) (s : bool) (r j : nat) : nat :=
  let h := (n / 2)%nat in
  let row := (j / h)%nat in
  let row' := if s then (1 - row)%nat else row in
  (row' * h + (j mod h + r) mod h)%nat.
(** The automorphism X -> X^x that does it. *)
Definition slot_galois (n : nat) (s : bool) (r : nat) (x : Z) : Prop :=
  0 <= x /\ x mod (2 * Z.of_nat n) = (if s then - 3 ^ Z.of_nat r else 3 ^ Z.of_nat r) mod (2 * Z.of_nat n).

(** The data of a circuit as vectors of slots, and its value slot by slot. *)
Record SlotData := mkSlotData { sl_in : list (list Z); sl_pt : list (list Z); sl_rot : list (bool * nat); sl_sel : list (list Z) }.
Fixpoint slot_val (n : nat) (d : SlotData) (e : circ) (j : nat) : Z :=
  match e with
  | Input k => coeffs (nth k (sl_in d) []) j
  | Plus a b => slot_val n d a j + slot_val n d b j
  | Minus a b => slot_val n d a j - slot_val n d b j
  | Times a b => slot_val n d a j * slot_val n d b j
  | TimesPt a k => slot_val n d a j * coeffs (nth k (sl_pt d) []) j
  | TimesInt a z => z * slot_val n d a j
  | Rotate a k => let rot := nth k (sl_rot d) (false, 0%nat) in slot_val n d a (slot_source n (fst rot) (snd rot) j)
  | Select a k => slot_val n d a j * coeffs (nth k (sl_sel d) []) j
  end.

(** Bound of the scaled noise; a plaintext has l1 norm at most n*t. *)
Fixpoint slot_noise (n : nat) (t B S K : Z) (e : circ) : Z :=
  match e with
  | Input _ => B
  | Plus a b | Minus a b => slot_noise n t B S K a + slot_noise n t B S K b
  | Times a b => mul_noise n t (Z.max (slot_noise n t B S K a) (slot_noise n t B S K b)) S + t * K
  | TimesPt a _ => Z.of_nat n * t * slot_noise n t B S K a
  | TimesInt a z => Z.abs z * slot_noise n t B S K a
  | Rotate a _ => slot_noise n t B S K a + t * K
  | Select a _ => Z.of_nat n * t * slot_noise n t B S K a + t * (2 * K)
  end.
Fixpoint slot_fits (n : nat) (Q t B S K : Z) (d : SlotData) (e : circ) : Prop :=
  match e with
  | Input k => (k < length (sl_in d))%nat
  | Plus a b | Minus a b => slot_fits n Q t B S K d a /\ slot_fits n Q t B S K d b
  | Times a b => slot_fits n Q t B S K d a /\ slot_fits n Q t B S K d b
                 /\ slot_noise n t B S K a <= Q /\ slot_noise n t B S K b <= Q
  | TimesPt a k => slot_fits n Q t B S K d a /\ (k < length (sl_pt d))%nat
  | TimesInt a _ => slot_fits n Q t B S K d a
  | Rotate a k => slot_fits n Q t B S K d a /\ (k < length (sl_rot d))%nat
  | Select a k => slot_fits n Q t B S K d a /\ (k < length (sl_sel d))%nat
  end.

(** A vector of slots and its encoding; the keys come from their constructors. *)
Definition slot_vec (P : BfvParams) (u : list Z) : Prop := length u = bp_degree P /\ Forall (fun x => 0 <= x < bp_t P) u.
Definition simd_pt (pr : profile) (P : BfvParams) (u : list Z) (p : Plaintext) : Prop :=
  slot_vec P u /\ pt_new pr P u 0 EncSIMD = Ok p.
Definition simd_keys (pr : profile) (P : BfvParams) (c : RqContext) (sk : SecretKey) (d : SlotData) (K : Keys) : Prop :=
  (exists rnd, rnd_ok c rnd /\ rlk_new pr sk 0 rnd = Ok (ks_rlk K))
  /\ Forall2 (fun rot gk => exists x g rnd, slot_galois (bp_degree P) (fst rot) (snd rot) x /\ rnd_ok c rnd
                              /\ subst_new pr c x = Ok g /\ galois_new pr sk g 0 rnd = Ok gk)
             (sl_rot d) (ks_gks K)
  /\ Forall2 (fun u r => exists p rnd0 rnd1, simd_pt pr P u p /\ rnd_ok c rnd0 /\ rnd_ok c rnd1 /\ rgsw_encrypt pr sk p rnd0 rnd1 = Ok r)
             (sl_sel d) (ks_rgsw K)
  /\ Forall2 (simd_pt pr P) (sl_pt d) (ks_pts K).
