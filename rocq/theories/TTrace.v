(** Property theorems; the proofs are in QTrace.v. *)
From Verif Require Import PBase MModulus MUtils MNtt MTrace SpecTrace QTrace.

(** The recorded functions compute, in a Release build, exactly what the
    functions of src/modulus.rs and src/ntt.rs compute, whatever the inputs. *)
Theorem C93_values : forall (m : Modulus) (op : NttOp) (a b s : Z) (v w : list Z),
  snd (t_lazy_reduce_ct m a) = lazy_reduce_ct Release m a /\
  snd (t_lazy_reduce_u128 m a) = lazy_reduce_u128 Release m a /\
  snd (t_reduce_ct a b) = reduce_ct Release a b /\
  snd (t_reduce m a) = mreduce Release m a /\
  snd (t_reduce_u128 m a) = mreduce_u128 Release m a /\
  snd (t_reduce_i64 m a) = reduce_i64 Release m a /\
  snd (t_add m a b) = madd Release m a b /\
  snd (t_sub m a b) = msub Release m a b /\
  snd (t_mul m a b) = mmul Release m a b /\
  snd (t_neg m a) = mneg Release m a /\
  snd (t_pow m a b) = mpow Release m a b /\
  snd (t_inv m a) = minv Release m a /\
  snd (t_shoup m a) = shoup Release m a /\
  snd (t_lazy_mul_shoup m a b s) = lazy_mul_shoup Release m a b s /\
  snd (t_mul_shoup m a b s) = mul_shoup Release m a b s /\
  snd (t_reduce_vec_u64 m v) = reduce_vec_u64 Release m v /\
  snd (t_reduce_vec_i64 m v) = reduce_vec_i64 Release m v /\
  snd (t_add_vec m v w) = add_vec Release m v w /\
  snd (t_sub_vec m v w) = sub_vec Release m v w /\
  snd (t_mul_vec m v w) = mul_vec Release m v w /\
  snd (t_neg_vec m v) = neg_vec Release m v /\
  snd (t_scalar_mul_vec m v a) = scalar_mul_vec Release m v a /\
  snd (t_forward op v) = ntt_forward Release op v /\
  snd (t_backward op v) = ntt_backward Release op v.
Proof. exact C93_values_lem. Qed.
Print Assumptions C93_values.

(** [lazy_reduce_ct], [reduce_ct] and [lazy_mul_shoup], which their comments
    call constant time, and the functions built from them, decide nothing,
    touch no array and divide nothing; and any two runs on any two sets of
    operands and moduli go through the same operations. *)
Theorem C93_words : forall (m m' : Modulus) (a a' b b' s s' : Z),
  (straight (t_lazy_reduce_ct m a) /\ looks_same (t_lazy_reduce_ct m a) (t_lazy_reduce_ct m' a')) /\
  (straight (t_reduce_ct a b) /\ looks_same (t_reduce_ct a b) (t_reduce_ct a' b')) /\
  (straight (t_lazy_mul_shoup m a b s) /\ looks_same (t_lazy_mul_shoup m a b s) (t_lazy_mul_shoup m' a' b' s')) /\
  (straight (t_mul_shoup m a b s) /\ looks_same (t_mul_shoup m a b s) (t_mul_shoup m' a' b' s')) /\
  (straight (t_lazy_reduce_u128 m a) /\ looks_same (t_lazy_reduce_u128 m a) (t_lazy_reduce_u128 m' a')) /\
  (straight (t_reduce m a) /\ looks_same (t_reduce m a) (t_reduce m' a')) /\
  (straight (t_reduce_u128 m a) /\ looks_same (t_reduce_u128 m a) (t_reduce_u128 m' a')) /\
  (straight (t_reduce_i64 m a) /\ looks_same (t_reduce_i64 m a) (t_reduce_i64 m' a')) /\
  (straight (t_add m a b) /\ looks_same (t_add m a b) (t_add m' a' b')) /\
  (straight (t_sub m a b) /\ looks_same (t_sub m a b) (t_sub m' a' b')) /\
  (straight (t_mul m a b) /\ looks_same (t_mul m a b) (t_mul m' a' b')) /\
  (straight (t_neg m a) /\ looks_same (t_neg m a) (t_neg m' a')).
Proof. exact C93_words_lem. Qed.
Print Assumptions C93_words.

(** The vector functions give away only the lengths of the vectors (and
    [scalar_mul_vec], through the division in [shoup], the modulus and the
    scalar it multiplies with). *)
Theorem C93_vectors : forall (m m' : Modulus) (a a' b b' : list Z) (x : Z),
  length a = length a' -> length b = length b' ->
  looks_same (t_reduce_vec_u64 m a) (t_reduce_vec_u64 m' a') /\
  looks_same (t_reduce_vec_i64 m a) (t_reduce_vec_i64 m' a') /\
  looks_same (t_add_vec m a b) (t_add_vec m' a' b') /\
  looks_same (t_sub_vec m a b) (t_sub_vec m' a' b') /\
  looks_same (t_mul_vec m a b) (t_mul_vec m' a' b') /\
  looks_same (t_neg_vec m a) (t_neg_vec m' a') /\
  (mp m = mp m' -> looks_same (t_scalar_mul_vec m a x) (t_scalar_mul_vec m' a' x)).
Proof. exact C93_vectors_lem. Qed.
Print Assumptions C93_vectors.

(** The number-theoretic transforms give away only the sizes: two runs, on
    vectors of the same length and with tables of the same lengths, touch the
    same cells in the same order and take the same decisions, whatever the
    coefficients, the tables and the moduli. *)
Theorem C93_transforms : forall (op op' : NttOp) (a a' : list Z),
  same_shape op op' -> length a = length a' ->
  looks_same (t_forward op a) (t_forward op' a') /\
  looks_same (t_backward op a) (t_backward op' a').
Proof. exact C93_transforms_lem. Qed.
Print Assumptions C93_transforms.

(** [pow] gives away its exponent, all of it and nothing else: two runs with
    the same exponent look the same, and two runs whose steps are the same
    had the same exponent.  [inv] therefore gives away the modulus only. *)
Theorem C93_pow : forall (m m' : Modulus) (a a' r r' : Z),
  looks_same (t_pow m a r) (t_pow m' a' r) /\
  (0 <= r -> 0 <= r' -> fst (t_pow m a r) = fst (t_pow m' a' r') -> r = r') /\
  (mp m = mp m' -> looks_same (t_inv m a) (t_inv m' a')).
Proof. exact C93_pow_lem. Qed.
Print Assumptions C93_pow.

(** Reducing 5 and 60 modulo 37: the run takes eleven operations either way,
    and the values are right. *)
Example C93_reduce_ct_ex :
  t_reduce_ct 5 37 = ([EOp OSub64; EOp OXor64; EOp OXor64; EOp OXor64; EOp OXor64; EOp OShr64; EOp OSub64; EOp OAnd64; EOp ONot64; EOp OAnd64; EOp OOr64], Ok 5) /\
  t_reduce_ct 60 37 = (fst (t_reduce_ct 5 37), Ok 23).
Proof. vm_compute. split; reflexivity. Qed.
(** A reduction with a branch would be told apart: the runs of
    [if x < p then x else x - p] on 5 and on 60 differ. *)
Example C93_branch_ex :
  let naive := fun x p : Z => t_if (x <? p) (ret x) (t_sub64 x p) in
  snd (naive 5 37) = Ok 5 /\ snd (naive 60 37) = Ok 23 /\ ~ looks_same (naive 5 37) (naive 60 37).
Proof. cbv zeta. split; [vm_compute; reflexivity|]. split; [vm_compute; reflexivity|]. intros [H _]. vm_compute in H. discriminate H. Qed.
(** Exponents 5 and 6 are told apart. *)
Example C93_pow_ex :
  let m := mkModulus 17 (W128 / 17 / W64) ((W128 / 17) mod W64) in
  snd (t_pow m 3 5) = Ok 5 /\ snd (t_pow m 3 6) = Ok 15 /\ fst (t_pow m 3 5) <> fst (t_pow m 3 6).
Proof. cbv zeta. split; [vm_compute; reflexivity|]. split; [vm_compute; reflexivity|]. intros H. vm_compute in H. discriminate H. Qed.
