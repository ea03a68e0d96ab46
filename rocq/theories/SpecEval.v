(** Specification vocabulary for query expansion and retrieval
    (src/evaluations.rs). *)
From Verif Require Import Base MModulus MUtils MNtt MRns MRq MBfv MKsk MGalois MRgsw Spec SpecRq SpecBfv SpecKsk.

(** X^(-d) = - X^(n-d) in Z[X]/(X^n+1), for 0 < d < n. *)
Definition xinv (n d : nat) (j : nat) : Z := if (j =? n - d)%nat then -1 else 0.

(** The list of the monomials X^(-2^i), i < log2 n, in any representation other
    than NttShoup: what [gen_x_pows] is documented to return. *)
Definition x_pows_ok (c : RqContext) (xs : list Poly) : Prop :=
  forall i, (i < cx_L c)%nat -> exists r, get xs i = Ok (rep c r (xinv (rq_degree c) (2 ^ i))) /\ r <> NttShoup.

(** Stage i of the expansion, slot j: the coefficients of p at the positions
    congruent to j modulo 2^i, moved to multiples of 2^i and scaled by 2^i. *)
Definition expd (i j : nat) (p : nat -> Z) (l : nat) : Z :=
  if (l mod 2 ^ i =? 0)%nat then 2 ^ Z.of_nat i * p (l + j)%nat else 0.

(** The constant polynomial a. *)
Definition cst (a : Z) (l : nat) : Z := if (l =? 0)%nat then a else 0.

(** The position selected by the queries q1, q2, ... of the further dimensions,
    each of size dim: q1 + dim * (q2 + dim * ...). *)
Definition row_index (dim : nat) (qs : list nat) : nat := fold_right (fun q acc => (q + dim * acc)%nat) 0%nat qs.

(** When rounding logarithms down still counts k further dimensions of size dim:
    floor(log2 (dim^k)) < (k+1) * floor(log2 dim).  True for powers of two and
    for k <= 1. *)
Definition countable (dim k : nat) : Prop :=
  (2 <= dim)%nat /\ Z.log2 (Z.of_nat dim ^ Z.of_nat k) < (Z.of_nat k + 1) * Z.log2 (Z.of_nat dim).

(** [r] multiplies the phase of a ciphertext by u, up to noise B. *)
Definition rgsw_acts (pr : profile) (P : BfvParams) (c : RqContext) (s : nat -> Z) (r : RgswCt) (u : nat -> Z) (B : Z) : Prop :=
  forall f0 f1, exists h0 h1 w, external_product pr r (ct_of P 0 c [f0; f1]) = Ok (rep c Ntt h0, rep c Ntt h1)
    /\ forall j, (j < rq_degree c)%nat ->
         phase (rq_degree c) s [h0; h1] j mod cx_Q c = (rmul (rq_degree c) u (phase (rq_degree c) s [f0; f1]) j + w j) mod cx_Q c
         /\ Z.abs (w j) <= B.

(** Noise added by the expansion, and scaled noise of the answer to a query:
    [k] further dimensions of size [dim], S bounds the l1 norm of the secret and
    M the database entries. *)
Definition expand_noise (P : BfvParams) (c : RqContext) : Z :=
  (Z.of_nat (rq_degree c) - 1) * ks_bound c (2 * bp_variance P).
Definition retrieval_noise (P : BfvParams) (c : RqContext) (first dim k : nat) (S M : Z) : Z :=
  let t := bp_t P in
  let v := bp_variance P in
  let X := expand_noise P c in
  Z.of_nat first * (Z.of_nat (rq_degree c) * ((t * (2 * v + 2) + t * X) * M))
  + t * (Z.of_nat k * (Z.of_nat dim *
         (ks_bound c (2 * v + X) + ks_bound c (S * (2 * v + X) + 2 * ks_bound c (2 * v))))).

(** A plaintext that can be a database entry: at most [n] 64-bit values. *)
Definition entry_ok (n : nat) (p : Plaintext) : Prop :=
  Forall (fun x => 0 <= x < 2 ^ 64) (pt_values p) /\ (length (pt_values p) <= n)%nat.

(** The i-th ciphertext of [cts] has a phase carrying the constant [a i] with
    scaled noise at most B. *)
Definition carries_consts (P : BfvParams) (c : RqContext) (s : nat -> Z) (cts : list Ct) (a : nat -> Z) (B : Z) : Prop :=
  forall k, (k < length cts)%nat -> exists g0 g1 E, get cts k = Ok (ct_of P 0 c [g0; g1])
    /\ carries (rq_degree c) (cx_Q c) (bp_t P) (phase (rq_degree c) s [g0; g1]) (cst (a k)) E
    /\ forall l, (l < rq_degree c)%nat -> Z.abs (E l) <= B.

(** [rgs] are selectors of position q out of [dim]. *)
Definition selectors (pr : profile) (P : BfvParams) (c : RqContext) (s : nat -> Z) (dim q : nat) (rgs : list RgswCt) (B : Z) : Prop :=
  (q < dim)%nat /\ length rgs = dim
  /\ forall k, (k < dim)%nat -> exists r, get rgs k = Ok r /\ rgsw_acts pr P c s r (cst (if (k =? q)%nat then 1 else 0)) B.
