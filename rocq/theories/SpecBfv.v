(** Specification vocabulary for the BFV layer: parameter sets, ciphertexts as
    lists of integer polynomials, phases and noise. *)
From Coq Require Import Znumtheory.
From Verif Require Import Base MModulus MUtils MNtt MRns MRq MBfv Spec SpecRq.

(** The bound under which the fixed-point arithmetic of the RNS scaler does not
    overflow (at most 64 moduli of 62 bits; see C14 and C56). *)
Definition small_basis (ms : list Z) : Prop := forall q, In q ms -> q * Z.of_nat (length ms) <= 2 ^ 68.

(** A parameter set made by [BfvParameters::new] for a plaintext modulus below
    every ciphertext modulus ([ext] is the extended basis it generated). *)
Definition built_params (P : BfvParams) : Prop :=
  exists pr env ext degree t moduli variance bd,
    env_ok env /\ Forall (fun q => 0 <= q) moduli /\ Forall (fun q => 0 <= q) ext
    /\ 0 <= t /\ (forall q, In q moduli -> t < q)
    /\ bfv_new_from pr env ext degree t moduli variance bd = Ok P.

(** [c] is the ciphertext context of level [i]. *)
Definition level (P : BfvParams) (i : nat) (c : RqContext) : Prop := get (bp_q_ctxs P) i = Ok c.

(** The ciphertext of level [i] whose components are the integer polynomials
    [fs]. *)
Definition ct_of (P : BfvParams) (i : nat) (c : RqContext) (fs : list (nat -> Z)) : Ct :=
  mkCt P (map (rep c Ntt) fs) i.

(** f0 + f1 s + f2 s^2 + ... in Z[X]/(X^n+1). *)
Fixpoint phase (n : nat) (s : nat -> Z) (fs : list (nat -> Z)) : nat -> Z :=
  match fs with
  | [] => fun _ => 0
  | f :: fs' => fun j => f j + rmul n s (phase n s fs') j
  end.

(** The secret polynomial, and secret keys with coefficients in the i64 range. *)
Definition sk_fun (sk : SecretKey) (j : nat) : Z := nth j (sk_coeffs sk) 0.
Definition sk_ok (sk : SecretKey) : Prop :=
  Forall (fun x => - 2 ^ 63 <= x < 2 ^ 63) (sk_coeffs sk)
  /\ (length (sk_coeffs sk) <= bp_degree (sk_params sk))%nat.

(** The phase f carries the message m with scaled noise E: t*f = Q*m + E modulo
    t*Q, that is f = Q*m/t + E/t modulo Q. *)
Definition carries (n : nat) (Q t : Z) (f m E : nat -> Z) : Prop :=
  forall j, (j < n)%nat -> (t * f j) mod (t * Q) = (Q * m j + E j) mod (t * Q).

(** Scaled noise below (almost) Q/2 is removed by decryption. *)
Definition noise_ok (Q E : Z) : Prop := - Q < 2 * E /\ 2 ^ 54 * (2 * E) <= (2 ^ 54 - 1) * Q.

(** A prime of [b] bits that supports the transform of degree n. *)
Definition ntt_prime (b : Z) (n : nat) (x : Z) : Prop :=
  prime x /\ 2 ^ (b - 1) <= x < 2 ^ b /\ x mod (2 * Z.of_nat n) = 1.
