(** What a [Poly] of the model stands for: the abstraction between integer
    polynomials and rows of residues.  Only the context's moduli, degree and
    the root of unity stored in its NTT operators are used. *)
From Coq Require Import Znumtheory.
From Verif Require Import Base MModulus MUtils MNtt MRq Spec.

(** Number of moduli, the i-th modulus, the product of all moduli, log2 n. *)
Definition cx_k (c : RqContext) : nat := length (rq_moduli_64 c).
Definition cx_q (c : RqContext) (i : nat) : Z := nth i (rq_moduli_64 c) 1.
Definition cx_Q (c : RqContext) : Z := zprod (rq_moduli_64 c).
Definition cx_L (c : RqContext) : nat := Nat.log2 (rq_degree c).

(** The 2n-th root of unity of the i-th NTT operator (its table of powers is
    in bit-reversed order, so the first power is entry n/2). *)
Definition cx_psi (c : RqContext) (i : nat) : Z :=
  match nth_error (rq_ntt_ops c) i with
  | Some op => nth (rq_degree c / 2) (nt_omegas op) 0
  | None => 0
  end.

(** Entry (i, j) of the row array that stands for the integer polynomial f:
    the j-th coefficient in PowerBasis, else the value at the j-th odd power
    (bit-reversed) of the root of unity, both modulo the i-th modulus. *)
Definition rep_entry (c : RqContext) (r : repr) (f : nat -> Z) (i j : nat) : Z :=
  match r with
  | PowerBasis => f j mod cx_q c i
  | _ => peval (rq_degree c) f (cx_psi c i ^ Z.of_nat (2 * bitrev (cx_L c) j + 1)) mod cx_q c i
  end.

(** The usize counter of the substitution loops (at most 2 n^2) does not overflow:
    a release build wraps it, which leaves its low bits intact. *)
Definition small_degree (pr : profile) (n : nat) : Prop := pr = Release \/ Z.of_nat n <= 2 ^ 31.

(** The [Poly] of context c that stands for f in representation r. *)
Definition rep (c : RqContext) (r : repr) (f : nat -> Z) : Poly :=
  mkPoly c r (map (fun i => map (fun j => rep_entry c r f i j) (seq 0 (rq_degree c)))
                  (seq 0 (cx_k c))).

(** A [Poly] with the shape and value range every operation of the crate
    produces. *)
Definition wf_poly (p : Poly) : Prop :=
  length (p_rows p) = cx_k (p_ctx p) /\
  forall i, (i < cx_k (p_ctx p))%nat ->
    length (nth i (p_rows p) []) = rq_degree (p_ctx p) /\
    Forall (fun x => 0 <= x < cx_q (p_ctx p) i) (nth i (p_rows p) []).

(** Assumptions on the environment: the external primality test is sound and
    the generator draws below its bound. *)
Definition env_ok (env : Env) : Prop :=
  (forall x, 0 <= x < 2 ^ 64 -> is_prime env x = true -> prime x) /\
  (forall p k, 0 < p -> 0 <= draw env p k < p).

(** Contexts made by [RqContext::new] from u64 moduli. *)
Definition built (c : RqContext) : Prop :=
  exists pr env ms n bd, env_ok env /\ Forall (fun q => 0 <= q) ms /\ rq_new pr env ms n bd = Ok c.

(** The context i steps below c. *)
Fixpoint nth_ctx (c : RqContext) (i : nat) {struct i} : option RqContext :=
  match i with
  | O => Some c
  | S i' => match rq_next c with Some c' => nth_ctx c' i' | None => None end
  end.

(** [to] is the context with the last i moduli of c dropped. *)
Definition below (c to : RqContext) (i : nat) : Prop :=
  (i < cx_k c)%nat /\ rq_moduli_64 to = firstn (cx_k c - i) (rq_moduli_64 c) /\ rq_degree to = rq_degree c /\ rq_bd to = rq_bd c.

(** Rounding division by each of qs in turn. *)
Definition drop_round (qs : list Z) (x : Z) : Z := fold_left (fun x q => (x + q / 2) / q) qs x.

(** What one scaled coefficient is: y is N*x'/D rounded for a representative
    x' of x modulo Q of (almost) least absolute value; L as in [scale_room]. *)
Definition scaled_coeff (L Q N D x y : Z) : Prop :=
  exists x', x' mod Q = x mod Q
    /\ 2 ^ (191 - 2 * L) * (2 * Z.abs x' - Q) <= Q
    /\ 2 * N * x' - 2 * D * y < D
    /\ 2 ^ (125 - L) * (2 * D * y - 2 * N * x' - D) < D
    /\ (N = D -> y = x').


(** When [NttOperator::new] succeeds (C11). *)
Definition ntt_possible (env : Env) (q : Z) (n : nat) : Prop :=
  (exists L, (3 <= L)%nat /\ n = (2 ^ L)%nat) /\ q mod (2 * Z.of_nat n) = 1 /\ is_prime env q = true
  /\ exists k, (k < 100)%nat /\ draw env q k ^ ((q - 1) / 2) mod q = q - 1.
