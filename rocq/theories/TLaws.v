(** Property theorems; the proofs are in QLaws.v. *)
From Verif Require Import PBase NT Spec PSum MModulus MUtils MNtt MRns MRq MBfv PModulus PNttMath PNtt PCrt PRns SpecRq SpecBfv SpecLaws PRing PRq PRq2 PRq3 PRq4 PRq5 PBfv PBfv2 MKsk MGalois PKsk PGal PMul2 PSimd2 QRq TestEnv QNtt QLaws.

(** C90: addition, subtraction and negation make the polynomials of a context an
    abelian group. *)
Theorem C90_group :
  forall pr c p q r, built c -> in_ctx c Ntt p -> in_ctx c Ntt q -> in_ctx c Ntt r ->
    poly_add pr p q = poly_add pr q p
    /\ (x <- poly_add pr p q ;; poly_add pr x r) = (x <- poly_add pr q r ;; poly_add pr p x)
    /\ poly_add pr p (poly_zero c Ntt) = Ok p
    /\ poly_sub pr p p = Ok (poly_zero c Ntt)
    /\ (x <- poly_add pr p q ;; poly_sub pr x q) = Ok p
    /\ (x <- poly_neg pr q ;; poly_add pr p x) = poly_sub pr p q
    /\ (x <- poly_neg pr p ;; poly_neg pr x) = Ok p
    /\ (exists x y, poly_add pr p q = Ok x /\ poly_sub pr p q = Ok y /\ in_ctx c Ntt x /\ in_ctx c Ntt y).
Proof. exact C90_group_lem. Qed.
Print Assumptions C90_group.

(** C90: multiplication is commutative, associative, distributive, and the
    polynomial made from [1] is its unit. *)
Theorem C90_ring :
  forall pr c p q r, built c -> in_ctx c Ntt p -> in_ctx c Ntt q -> in_ctx c Ntt r ->
    poly_mul pr p q = poly_mul pr q p
    /\ (x <- poly_mul pr p q ;; poly_mul pr x r) = (x <- poly_mul pr q r ;; poly_mul pr p x)
    /\ (x <- poly_add pr q r ;; poly_mul pr p x) = (x <- poly_mul pr p q ;; y <- poly_mul pr p r ;; poly_add pr x y)
    /\ (x <- poly_sub pr q r ;; poly_mul pr p x) = (x <- poly_mul pr p q ;; y <- poly_mul pr p r ;; poly_sub pr x y)
    /\ (x <- poly_neg pr p ;; poly_mul pr x q) = (x <- poly_mul pr p q ;; poly_neg pr x)
    /\ poly_mul pr p (poly_zero c Ntt) = Ok (poly_zero c Ntt)
    /\ (x <- poly_from_u64 pr c [1] ;; y <- change_repr pr x Ntt ;; poly_mul pr p y) = Ok p
    /\ (exists x, poly_mul pr p q = Ok x /\ in_ctx c Ntt x).
Proof. exact C90_ring_lem. Qed.
Print Assumptions C90_ring.

(** C90: multiplication by integers is a module structure over the integers mod Q. *)
Theorem C90_scalar :
  forall pr c p q a b, built c -> in_ctx c Ntt p -> in_ctx c Ntt q ->
    poly_mul_big pr p 1 = Ok p
    /\ poly_mul_big pr p (a mod cx_Q c) = poly_mul_big pr p a
    /\ (x <- poly_mul_big pr p a ;; poly_mul_big pr x b) = poly_mul_big pr p (a * b)
    /\ poly_mul_big pr p (a + b) = (x <- poly_mul_big pr p a ;; y <- poly_mul_big pr p b ;; poly_add pr x y)
    /\ (x <- poly_add pr p q ;; poly_mul_big pr x a) = (x <- poly_mul_big pr p a ;; y <- poly_mul_big pr q a ;; poly_add pr x y)
    /\ (x <- poly_mul_big pr p a ;; poly_mul pr x q) = (x <- poly_mul pr p q ;; poly_mul_big pr x a)
    /\ poly_mul_big pr p 0 = Ok (poly_zero c Ntt).
Proof. exact C90_scalar_lem. Qed.
Print Assumptions C90_scalar.

(** C90: a substitution is a ring automorphism, substitutions compose by multiplying
    exponents, and a pair of inverse exponents gives inverse substitutions. *)
Theorem C90_substitute :
  forall pr c x y, built c -> small_degree pr (rq_degree c) -> 0 <= x -> 0 <= y -> x mod 2 = 1 -> y mod 2 = 1 ->
    exists sx sy sxy, subst_new pr c x = Ok sx /\ subst_new pr c y = Ok sy /\ subst_new pr c (x * y) = Ok sxy
    /\ (forall p q, in_ctx c Ntt p -> in_ctx c Ntt q ->
          (z <- poly_add pr p q ;; poly_substitute pr z sx) = (a <- poly_substitute pr p sx ;; b <- poly_substitute pr q sx ;; poly_add pr a b)
          /\ (z <- poly_mul pr p q ;; poly_substitute pr z sx) = (a <- poly_substitute pr p sx ;; b <- poly_substitute pr q sx ;; poly_mul pr a b)
          /\ (z <- poly_neg pr p ;; poly_substitute pr z sx) = (a <- poly_substitute pr p sx ;; poly_neg pr a))
    /\ (forall r p, in_ctx c r p ->
          (a <- poly_substitute pr p sx ;; poly_substitute pr a sy) = poly_substitute pr p sxy
          /\ (a <- poly_substitute pr p sx ;; poly_substitute pr a sy) = (a <- poly_substitute pr p sy ;; poly_substitute pr a sx)
          /\ ((x * y) mod (2 * Z.of_nat (rq_degree c)) = 1 -> (a <- poly_substitute pr p sx ;; poly_substitute pr a sy) = Ok p)
          /\ (forall r', r <> NttShoup -> r' <> NttShoup ->
                (a <- change_repr pr p r' ;; poly_substitute pr a sx) = (a <- poly_substitute pr p sx ;; change_repr pr a r'))).
Proof. exact C90_substitute_lem. Qed.
Print Assumptions C90_substitute.

(** C90: the same laws for ciphertexts of two components: addition and subtraction
    are a group, polynomials and integers act on it. *)
Theorem C90_ciphertext :
  forall pr P i c a b d p q k l, built_params P -> level P i c -> ct_in P i c a -> ct_in P i c b -> ct_in P i c d -> in_ctx c Ntt p -> in_ctx c Ntt q ->
    ct_add pr a b = ct_add pr b a
    /\ (x <- ct_add pr a b ;; ct_add pr x d) = (x <- ct_add pr b d ;; ct_add pr a x)
    /\ (x <- ct_add pr a b ;; ct_sub pr x b) = Ok a
    /\ (x <- ct_add pr a b ;; ct_mul_poly pr x p) = (x <- ct_mul_poly pr a p ;; y <- ct_mul_poly pr b p ;; ct_add pr x y)
    /\ (x <- ct_mul_poly pr a p ;; ct_mul_poly pr x q) = (pq <- poly_mul pr p q ;; ct_mul_poly pr a pq)
    /\ (pq <- poly_add pr p q ;; ct_mul_poly pr a pq) = (x <- ct_mul_poly pr a p ;; y <- ct_mul_poly pr a q ;; ct_add pr x y)
    /\ (x <- ct_mul_big pr a k ;; ct_mul_big pr x l) = ct_mul_big pr a (k * l)
    /\ ct_mul_big pr a (k + l) = (x <- ct_mul_big pr a k ;; y <- ct_mul_big pr a l ;; ct_add pr x y)
    /\ (x <- ct_add pr a b ;; ct_mul_big pr x k) = (x <- ct_mul_big pr a k ;; y <- ct_mul_big pr b k ;; ct_add pr x y)
    /\ (x <- ct_mul_big pr a k ;; ct_mul_poly pr x p) = (x <- ct_mul_poly pr a p ;; ct_mul_big pr x k)
    /\ ct_mul_big pr a 1 = Ok a /\ ct_mul_big pr a (k mod cx_Q c) = ct_mul_big pr a k
    /\ (exists x, ct_add pr a b = Ok x /\ ct_in P i c x).
Proof. exact C90_ciphertext_lem. Qed.
Print Assumptions C90_ciphertext.

(** C90: the product of two ciphertexts of two components does not depend on their
    order: the same ciphertext, or the same failure, for every relinearisation key. *)
Theorem C90_multiply :
  forall pr P i c a b rlk, built_params P -> level P i c -> small_basis (rq_moduli_64 c) -> ct_in P i c a -> ct_in P i c b ->
    multiply_with_strategy pr a b rlk = multiply_with_strategy pr b a rlk.
Proof. exact C90_multiply_lem. Qed.
Print Assumptions C90_multiply.

(** A context and a polynomial that satisfy the hypotheses. *)
Example C90_example pr : exists c p, built c /\ in_ctx c Ntt p /\ small_degree pr (rq_degree c) /\ rq_degree c = 8%nat /\ p <> poly_zero c Ntt.
Proof. exact (laws_ctx pr). Qed.
(** Exponents 3 and 11 are inverse modulo 16. *)
Example C90_substitute_example pr : exists c p sx sy, built c /\ in_ctx c Ntt p /\ subst_new pr c 3 = Ok sx /\ subst_new pr c 11 = Ok sy
  /\ (a <- poly_substitute pr p sx ;; poly_substitute pr a sy) = Ok p.
Proof.
  destruct (laws_ctx pr) as [c [p [B [I [S [D _]]]]]]. destruct (C90_substitute pr c 3 11 B S ltac:(lia) ltac:(lia) eq_refl eq_refl) as [sx [sy [sz [E1 [E2 [_ [_ H]]]]]]].
  exists c, p, sx, sy. split; auto. split; auto. split; auto. split; auto. apply (H Ntt p I). rewrite D. reflexivity.
Qed.
