(** Specification of circuits: values in Z[X]/(X^n+1) and a noise bound. *)
From Verif Require Import Base MModulus MUtils MNtt MRns MRq MBfv MKsk MGalois MRgsw MCirc Spec SpecRq SpecBfv SpecKsk.

Definition coeffs (l : list Z) (j : nat) : Z := nth j l 0.

(** The plaintext data of a circuit: inputs, plaintext operands, rotation
    exponents, selectors. *)
Record CData := mkCData { cd_in : list (list Z); cd_pt : list (list Z); cd_rot : list Z; cd_sel : list (list Z) }.

(** The circuit over the integers. *)
Fixpoint cval (n : nat) (d : CData) (e : circ) : nat -> Z :=
  match e with
  | Input k => coeffs (nth k (cd_in d) [])
  | Plus a b => fun j => cval n d a j + cval n d b j
  | Minus a b => fun j => cval n d a j - cval n d b j
  | Times a b => rmul n (cval n d a) (cval n d b)
  | TimesPt a k => rmul n (cval n d a) (coeffs (nth k (cd_pt d) []))
  | TimesInt a z => fun j => z * cval n d a j
  | Rotate a k => rsubst n (Z.to_nat (nth k (cd_rot d) 1)) (cval n d a)
  | Select a k => rmul n (cval n d a) (coeffs (nth k (cd_sel d) []))
  end.

(** Bound of the scaled noise: [B] bounds the inputs, [S] the l1 norm of the
    secret, [K] the noise of one key switch. *)
Fixpoint cnoise (n : nat) (t B S K : Z) (d : CData) (e : circ) : Z :=
  match e with
  | Input _ => B
  | Plus a b | Minus a b => cnoise n t B S K d a + cnoise n t B S K d b
  | Times a b => mul_noise n t (Z.max (cnoise n t B S K d a) (cnoise n t B S K d b)) S + t * K
  | TimesPt a k => l1norm n (coeffs (nth k (cd_pt d) [])) * cnoise n t B S K d a
  | TimesInt a z => Z.abs z * cnoise n t B S K d a
  | Rotate a _ => cnoise n t B S K d a + t * K
  | Select a k => l1norm n (coeffs (nth k (cd_sel d) [])) * cnoise n t B S K d a + t * (2 * K)
  end.

(** Every index is in range and the operands of every product have noise at
    most Q. *)
Fixpoint cfits (n : nat) (Q t B S K : Z) (d : CData) (e : circ) : Prop :=
  match e with
  | Input k => (k < length (cd_in d))%nat
  | Plus a b | Minus a b => cfits n Q t B S K d a /\ cfits n Q t B S K d b
  | Times a b => cfits n Q t B S K d a /\ cfits n Q t B S K d b
                 /\ cnoise n t B S K d a <= Q /\ cnoise n t B S K d b <= Q
  | TimesPt a k => cfits n Q t B S K d a /\ (k < length (cd_pt d))%nat
  | TimesInt a _ => cfits n Q t B S K d a
  | Rotate a k => cfits n Q t B S K d a /\ (k < length (cd_rot d))%nat
  | Select a k => cfits n Q t B S K d a /\ (k < length (cd_sel d))%nat
  end.

(** The keys come from their constructors, at level [i]. *)
Definition good_pt (P : BfvParams) (i : nat) (l : list Z) (p : Plaintext) : Prop :=
  pt_params p = P /\ pt_level p = i /\ pt_values p = l
  /\ Forall (fun x => 0 <= x < 2 ^ 64) l /\ (length l <= bp_degree P)%nat.
Definition good_keys (pr : profile) (P : BfvParams) (i : nat) (c : RqContext) (sk : SecretKey) (d : CData) (K : Keys) : Prop :=
  (exists rnd, rnd_ok c rnd /\ rlk_new pr sk i rnd = Ok (ks_rlk K))
  /\ Forall2 (fun x gk => exists g rnd, rnd_ok c rnd /\ 0 <= x /\ x mod 2 = 1 /\ subst_new pr c x = Ok g /\ galois_new pr sk g i rnd = Ok gk)
             (cd_rot d) (ks_gks K)
  /\ Forall2 (fun l r => exists p rnd0 rnd1, good_pt P i l p /\ rnd_ok c rnd0 /\ rnd_ok c rnd1 /\ rgsw_encrypt pr sk p rnd0 rnd1 = Ok r)
             (cd_sel d) (ks_rgsw K)
  /\ Forall2 (good_pt P i) (cd_pt d) (ks_pts K).
