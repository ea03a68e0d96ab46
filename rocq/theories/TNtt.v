(** Property theorems; the proofs are in QNtt.v. *)
From Verif Require Import PBase NT Spec PSum MModulus MUtils MNtt PModulus PNttMath PNtt PNttNew QNtt.

(** C08: forward evaluates at the odd powers of a root of X^n + 1, in
    bit-reversed order.  The two hypotheses on [env] say that the external
    primality test is sound and that the generator draws below p. *)
Theorem C08_forward :
  forall pr env p m n op,
    0 <= p -> modulus_new p = Ok m ->
    (forall x, 0 <= x < 2 ^ 64 -> is_prime env x = true -> prime x) ->
    (forall k, 0 <= draw env p k < p) ->
    ntt_new pr env m n = Ok op ->
    exists L psi, n = (2 ^ L)%nat /\ 0 <= psi < p /\ psi ^ Z.of_nat n mod p = p - 1 /\
      forall a, length a = n -> Forall (fun x => 0 <= x < p) a ->
      exists b, ntt_forward pr op a = Ok b /\ length b = n /\
        forall j, (j < n)%nat ->
          nth j b 0 = peval n (fun k => nth k a 0) (psi ^ Z.of_nat (2 * bitrev L j + 1)) mod p.
Proof. exact C08_forward_lem. Qed.
Print Assumptions C08_forward.

(** C09: forward and backward are mutually inverse. *)
Theorem C09_inverse :
  forall pr env p m n op a,
    0 <= p -> modulus_new p = Ok m ->
    (forall x, 0 <= x < 2 ^ 64 -> is_prime env x = true -> prime x) ->
    (forall k, 0 <= draw env p k < p) ->
    ntt_new pr env m n = Ok op ->
    length a = n -> Forall (fun x => 0 <= x < p) a ->
    (exists b, ntt_forward pr op a = Ok b /\ ntt_backward pr op b = Ok a)
    /\ (exists b, ntt_backward pr op a = Ok b /\ ntt_forward pr op b = Ok a).
Proof. exact C09_inverse_lem. Qed.
Print Assumptions C09_inverse.

(** C09: a vector of the wrong length panics. *)
Theorem C09_length_guard :
  forall pr op a, length a <> nt_size op -> ntt_forward pr op a = Panic /\ ntt_backward pr op a = Panic.
Proof. exact C09_length_guard_lem. Qed.
Print Assumptions C09_length_guard.

(** C10: the pointwise product is the negacyclic product. *)
Theorem C10_negacyclic :
  forall pr env p m n op a b,
    0 <= p -> modulus_new p = Ok m ->
    (forall x, 0 <= x < 2 ^ 64 -> is_prime env x = true -> prime x) ->
    (forall k, 0 <= draw env p k < p) ->
    ntt_new pr env m n = Ok op ->
    length a = n -> Forall (fun x => 0 <= x < p) a ->
    length b = n -> Forall (fun x => 0 <= x < p) b ->
    exists fa fb fc c,
      ntt_forward pr op a = Ok fa /\ ntt_forward pr op b = Ok fb /\
      mul_vec pr m fa fb = Ok fc /\ ntt_backward pr op fc = Ok c /\ length c = n /\
      forall k, (k < n)%nat -> nth k c 0 = rmul n (fun i => nth i a 0) (fun i => nth i b 0) k mod p.
Proof. exact C10_negacyclic_lem. Qed.
Print Assumptions C10_negacyclic.

(** C11: an operator exists only for a prime p = 1 mod 2n with n a power of
    two, n >= 8; whatever is constructed has size n. *)
Theorem C11_guard :
  forall pr env p m n op,
    0 <= p -> modulus_new p = Ok m ->
    ntt_new pr env m n = Ok op ->
    (exists L, (3 <= L)%nat /\ n = (2 ^ L)%nat) /\ p mod (2 * Z.of_nat n) = 1 /\ is_prime env p = true.
Proof. exact C11_guard_lem. Qed.
Print Assumptions C11_guard.

(** C11: for such p and n construction succeeds exactly when one of the 100
    draws is a quadratic non-residue, and otherwise panics. *)
Theorem C11_construct :
  forall pr env p m L,
    modulus_new p = Ok m -> prime p -> is_prime env p = true -> p < 2 ^ 62 ->
    (3 <= L)%nat -> p mod (2 * 2 ^ Z.of_nat L) = 1 ->
    (forall k, 0 <= draw env p k < p) ->
    ((exists k, (k < 100)%nat /\ draw env p k ^ ((p - 1) / 2) mod p = p - 1) ->
       exists op, ntt_new pr env m (2 ^ L) = Ok op /\ nt_size op = (2 ^ L)%nat /\ nt_p op = m)
    /\ ((forall k, (k < 100)%nat -> draw env p k ^ ((p - 1) / 2) mod p <> p - 1) ->
       ntt_new pr env m (2 ^ L) = Panic).
Proof. exact C11_construct_lem. Qed.
Print Assumptions C11_construct.

Definition trial (x : Z) : bool :=
  (2 <=? x) && forallb (fun d => negb (x mod Z.of_nat d =? 0)) (seq 2 (Z.to_nat (Z.sqrt x) - 1)).
Definition env5 : Env := mkEnv trial (fun p k => Z.of_nat k mod p).

(** p = 97, n = 8: the root found is psi = 8 = 5^6. *)
Example C08_C09_example :
  (m <- modulus_new 97 ;; op <- ntt_new Debug env5 m 8 ;;
   b <- ntt_forward Debug op [1; 2; 3; 4; 5; 6; 7; 8] ;;
   c <- ntt_backward Debug op b ;; Ok (b, c))
  = Ok (map (fun j => peval 8 (fun k => Z.of_nat k + 1) (8 ^ (2 * Z.of_nat (bitrev 3 j) + 1)) mod 97) (seq 0 8),
        [1; 2; 3; 4; 5; 6; 7; 8]).
Proof. vm_compute. reflexivity. Qed.

(** X^7 * X = -1. *)
Example C10_example :
  (m <- modulus_new 97 ;; op <- ntt_new Debug env5 m 8 ;;
   fa <- ntt_forward Debug op [0; 0; 0; 0; 0; 0; 0; 1] ;;
   fb <- ntt_forward Debug op [0; 1; 0; 0; 0; 0; 0; 0] ;;
   fc <- mul_vec Debug m fa fb ;; ntt_backward Debug op fc)
  = Ok [96; 0; 0; 0; 0; 0; 0; 0].
Proof. vm_compute. reflexivity. Qed.

Example C11_example :
  let go p env n := (m <- modulus_new p ;; op <- ntt_new Debug env m n ;; Ok (nt_size op)) in
  go 97 env5 8%nat = Ok 8%nat /\ go 97 env5 16%nat = Ok 16%nat /\ go 97 env5 4%nat = Panic
  /\ go 97 env5 12%nat = Panic /\ go 97 env5 64%nat = Panic /\ go 33 env5 8%nat = Panic
  /\ go 97 (mkEnv trial (fun _ _ => 1)) 8%nat = Panic.
Proof. vm_compute. auto 10. Qed.
