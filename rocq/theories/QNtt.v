(** Claims C08-C11: the number-theoretic transform of src/ntt.rs. *)
From Verif Require Import PBase NT Spec PSum MModulus MUtils MNtt PModulus PNttMath PNtt PNttNew.

(** C08: forward evaluates at the odd powers of a root of X^n + 1, in
    bit-reversed order.  The two hypotheses on [env] say that the external
    primality test is sound and that the generator draws below p. *)
Lemma C08_forward_lem :
  forall pr env p m n op,
    0 <= p -> modulus_new p = Ok m ->
    (forall x, 0 <= x < 2 ^ 64 -> is_prime env x = true -> prime x) ->
    (forall k, 0 <= draw env p k < p) ->
    ntt_new pr env m n = Ok op ->
    exists L psi, n = (2 ^ L)%nat /\ 0 <= psi < p /\ psi ^ Z.of_nat n mod p = p - 1 /\
      forall a, length a = n -> Forall (fun x => 0 <= x < p) a ->
      exists b, ntt_forward pr op a = Ok b /\ length b = n /\
        forall j, (j < n)%nat ->
          nth j b 0 = peval n (fun k => nth k a 0) (psi ^ Z.of_nat (2 * bitrev L j + 1)) mod p.
Proof.
  intros pr env p m n op H0 Hm HP Hd H. destruct (modulus_new_valid p m H0 Hm) as [V Em]. subst p.
  destruct (ntt_new_inv pr env m n op V HP Hd H) as [L [psi [-> [Ep [W [HD [P _]]]]]]].
  pose proof (valid_range m V) as Hq.
  exists L, psi. split; auto. pose proof (wn_psir _ _ _ W) as R. pose proof (wn_psi _ _ _ W) as C. rewrite Ep in R, C.
  split; auto. split.
  { unfold eqm, pw in C. rewrite C. symmetry. apply Z.mod_unique with (-1); lia. }
  intros a La Ra. destruct (ntt_forward_ok pr op L psi W a) as [b [E [[Lb Rb] HE]]].
  { split; auto. intros k Hk. rewrite Ep. rewrite Forall_forall in Ra.
    specialize (Ra (nth k a 0) ltac:(apply nth_In; lia)). lia. }
  exists b. split; auto. split; auto. intros j Hj. specialize (HE j Hj). specialize (Rb j Hj). rewrite Ep in HE, Rb.
  unfold eqm in HE. rewrite Z.mod_small in HE by auto. exact HE.
Qed.

(** C09: forward and backward are mutually inverse. *)
Lemma C09_inverse_lem :
  forall pr env p m n op a,
    0 <= p -> modulus_new p = Ok m ->
    (forall x, 0 <= x < 2 ^ 64 -> is_prime env x = true -> prime x) ->
    (forall k, 0 <= draw env p k < p) ->
    ntt_new pr env m n = Ok op ->
    length a = n -> Forall (fun x => 0 <= x < p) a ->
    (exists b, ntt_forward pr op a = Ok b /\ ntt_backward pr op b = Ok a)
    /\ (exists b, ntt_backward pr op a = Ok b /\ ntt_forward pr op b = Ok a).
Proof.
  intros pr env p m n op a H0 Hm HP Hd H La Ra. destruct (modulus_new_valid p m H0 Hm) as [V Em]. subst p.
  destruct (ntt_new_inv pr env m n op V HP Hd H) as [L [psi [-> [Ep [W _]]]]].
  assert (R : rng L (mp (nt_p op)) a).
  { split; auto. intros k Hk. rewrite Ep. rewrite Forall_forall in Ra. apply Ra, nth_In. lia. }
  split.
  - apply (ntt_backward_forward pr op L psi W a R).
  - destruct (ntt_forward_backward pr op L psi W a R) as [b [E [_ E']]]. eauto.
Qed.

(** C09: a vector of the wrong length panics. *)
Lemma C09_length_guard_lem :
  forall pr op a, length a <> nt_size op -> ntt_forward pr op a = Panic /\ ntt_backward pr op a = Panic.
Proof.
  intros pr op a H. unfold ntt_forward, ntt_backward.
  destruct (length a =? nt_size op)%nat eqn:E; [apply Nat.eqb_eq in E; congruence|]. auto.
Qed.

(** C10: the pointwise product is the negacyclic product. *)
Lemma C10_negacyclic_lem :
  forall pr env p m n op a b,
    0 <= p -> modulus_new p = Ok m ->
    (forall x, 0 <= x < 2 ^ 64 -> is_prime env x = true -> prime x) ->
    (forall k, 0 <= draw env p k < p) ->
    ntt_new pr env m n = Ok op ->
    length a = n -> Forall (fun x => 0 <= x < p) a ->
    length b = n -> Forall (fun x => 0 <= x < p) b ->
    exists fa fb fc c,
      ntt_forward pr op a = Ok fa /\ ntt_forward pr op b = Ok fb /\
      mul_vec pr m fa fb = Ok fc /\ ntt_backward pr op fc = Ok c /\ length c = n /\
      forall k, (k < n)%nat -> nth k c 0 = rmul n (fun i => nth i a 0) (fun i => nth i b 0) k mod p.
Proof.
  intros pr env p m n op a b H0 Hm HP Hd H La Ra Lb Rb. destruct (modulus_new_valid p m H0 Hm) as [V Em]. subst p.
  destruct (ntt_new_inv pr env m n op V HP Hd H) as [L [psi [-> [Ep [W _]]]]].
  pose proof (valid_range m V) as Hq.
  assert (G : forall a, length a = (2 ^ L)%nat -> Forall (fun x => 0 <= x < mp m) a -> rng L (4 * mp (nt_p op)) a).
  { intros x Lx Rx. split; auto. intros k Hk. rewrite Ep. rewrite Forall_forall in Rx.
    specialize (Rx (nth k x 0) ltac:(apply nth_In; lia)). lia. }
  destruct (ntt_forward_ok pr op L psi W a (G a La Ra)) as [fa [Ea [[Lfa Rfa] HEa]]].
  destruct (ntt_forward_ok pr op L psi W b (G b Lb Rb)) as [fb [Eb [[Lfb Rfb] HEb]]].
  rewrite Ep in *.
  assert (F : forall x, length x = (2 ^ L)%nat -> (forall k, (k < 2 ^ L)%nat -> 0 <= nth k x 0 < mp m) -> allr (mp m) x).
  { intros x Lx Rx. apply Forall_forall. intros v Hv. apply In_nth with (d := 0) in Hv.
    destruct Hv as [k [Hk <-]]. apply Rx. lia. }
  exists fa, fb. rewrite mul_vec_ok by (auto; lia).
  set (fc := map (fun p => (fst p * snd p) mod mp m) (combine fa fb)).
  assert (Lc : length fc = (2 ^ L)%nat) by (unfold fc; rewrite map_length, combine_length; lia).
  assert (Nc : forall k, (k < 2 ^ L)%nat -> nth k fc 0 = (nth k fa 0 * nth k fb 0) mod mp m).
  { intros k Hk. unfold fc.
    rewrite nth_indep with (d' := (fun p => (fst p * snd p) mod mp m) (0, 0)) by (fold fc; lia).
    rewrite (map_nth (fun p => (fst p * snd p) mod mp m)), combine_nth by lia. reflexivity. }
  destruct (ntt_backward_eval pr op L psi W (rmul (2 ^ L) (nf a) (nf b)) fc) as [c [Ec [[Lcc Rc] HC]]].
  - split; auto. intros k Hk. rewrite Ep, Nc by auto. pose proof (Z.mod_pos_bound (nth k fa 0 * nth k fb 0) (mp m)). lia.
  - intros j Hj. rewrite Ep, Nc by auto. rewrite eqm_mod.
    rewrite (HEa j Hj), (HEb j Hj). rewrite <- Ep.
    rewrite peval_rmul; [reflexivity|apply pow2_pos|]. apply (point_n op L psi W).
  - rewrite Ep in *. exists fc, c. split; auto. split; auto. split; auto. split; auto. split; auto.
    intros k Hk. specialize (HC k Hk). specialize (Rc k Hk). unfold eqm in HC. rewrite Z.mod_small in HC by auto. exact HC.
Qed.

(** C11: an operator exists only for a prime p = 1 mod 2n with n a power of
    two, n >= 8; whatever is constructed has size n. *)
Lemma C11_guard_lem :
  forall pr env p m n op,
    0 <= p -> modulus_new p = Ok m ->
    ntt_new pr env m n = Ok op ->
    (exists L, (3 <= L)%nat /\ n = (2 ^ L)%nat) /\ p mod (2 * Z.of_nat n) = 1 /\ is_prime env p = true.
Proof.
  intros pr env p m n op H0 Hm H. destruct (modulus_new_valid p m H0 Hm) as [V Em]. subst p.
  pose proof (valid_range m V) as Hq.
  assert (HS : supports_ntt env (mp m) n = true) by (apply (ntt_new_shape pr); eauto).
  destruct (supports_inv env m V n HS) as [L [HL [-> [[c HD] [Hlt Hip]]]]].
  split; [exists L; split; [lia|reflexivity]|]. split; auto.
  symmetry. apply Z.mod_unique with c; lia.
Qed.

(** C11: for such p and n construction succeeds exactly when one of the 100
    draws is a quadratic non-residue, and otherwise panics. *)
Lemma C11_construct_lem :
  forall pr env p m L,
    modulus_new p = Ok m -> prime p -> is_prime env p = true -> p < 2 ^ 62 ->
    (3 <= L)%nat -> p mod (2 * 2 ^ Z.of_nat L) = 1 ->
    (forall k, 0 <= draw env p k < p) ->
    ((exists k, (k < 100)%nat /\ draw env p k ^ ((p - 1) / 2) mod p = p - 1) ->
       exists op, ntt_new pr env m (2 ^ L) = Ok op /\ nt_size op = (2 ^ L)%nat /\ nt_p op = m)
    /\ ((forall k, (k < 100)%nat -> draw env p k ^ ((p - 1) / 2) mod p <> p - 1) ->
       ntt_new pr env m (2 ^ L) = Panic).
Proof.
  intros pr env p m L Hm P Hip Hp62 HL H1 Hd.
  pose proof (prime_ge_2 p P) as Hp2.
  destruct (modulus_new_valid p m ltac:(lia) Hm) as [V Em]. subst p.
  pose proof (valid_range m V) as Hq. rewrite <- pow2_Z in H1.
  assert (Hn : 0 < Z.of_nat (2 ^ L)) by (apply (Nat2Z.inj_lt 0), pow2_pos).
  set (z := Z.of_nat (2 ^ L)) in *.
  assert (HD : (2 * z | mp m - 1)).
  { exists (mp m / (2 * z)). pose proof (Z_div_mod_eq_full (mp m) (2 * z)). lia. }
  assert (Hlt : 2 * z < mp m) by (apply Z.divide_pos_le in HD; lia).
  assert (HL60 : (L <= 60)%nat).
  { destruct (le_lt_dec L 60) as [|C]; auto. exfalso. unfold z in Hlt. rewrite pow2_Z in Hlt.
    assert (2 ^ 61 <= 2 ^ Z.of_nat L) by (apply Z.pow_le_mono_r; lia). change (2 ^ 61) with 2305843009213693952 in H. lia. }
  assert (HS : supports_ntt env (mp m) (2 ^ L) = true) by (apply supports_true; auto).
  assert (GI : forall k, good_draw env m L k = true <-> draw env (mp m) k ^ ((mp m - 1) / 2) mod mp m = mp m - 1).
  { intros k. apply good_draw_iff; auto. }
  split.
  - intros [k [Hk E]]. destruct (find (good_draw env m L) (seq 0 100)) as [j|] eqn:HF.
    + destruct (ntt_new_good pr env m V P L j ltac:(lia) Hd HS HD Hlt HF) as [op [Eo [Ep W]]].
      exists op. split; auto. split; auto. apply (wn_size _ _ _ W).
    + exfalso. apply GI in E. rewrite (find_none _ _ HF k) in E; [discriminate|apply in_seq; lia].
  - intros HN. apply ntt_new_none; auto.
    destruct (find (good_draw env m L) (seq 0 100)) as [j|] eqn:HF; auto. exfalso.
    apply find_some in HF. destruct HF as [Hj HG]. apply in_seq in Hj. apply GI in HG. apply (HN j); auto. lia.
Qed.

(*EXAMPLE
Definition trial (x : Z) : bool :=
  (2 <=? x) && forallb (fun d => negb (x mod Z.of_nat d =? 0)) (seq 2 (Z.to_nat (Z.sqrt x) - 1)).
Definition env5 : Env := mkEnv trial (fun p k => Z.of_nat k mod p).

(** p = 97, n = 8: the root found is psi = 8 = 5^6. *)
Example C08_C09_example :
  (m <- modulus_new 97 ;; op <- ntt_new Debug env5 m 8 ;;
   b <- ntt_forward Debug op [1; 2; 3; 4; 5; 6; 7; 8] ;;
   c <- ntt_backward Debug op b ;; Ok (b, c))
  = Ok (map (fun j => peval 8 (fun k => Z.of_nat k + 1) (8 ^ (2 * Z.of_nat (bitrev 3 j) + 1)) mod 97) (seq 0 8),
        [1; 2; 3; 4; 5; 6; 7; 8]).
Proof. vm_compute. reflexivity. Qed.

(** X^7 * X = -1. *)
Example C10_example :
  (m <- modulus_new 97 ;; op <- ntt_new Debug env5 m 8 ;;
   fa <- ntt_forward Debug op [0; 0; 0; 0; 0; 0; 0; 1] ;;
   fb <- ntt_forward Debug op [0; 1; 0; 0; 0; 0; 0; 0] ;;
   fc <- mul_vec Debug m fa fb ;; ntt_backward Debug op fc)
  = Ok [96; 0; 0; 0; 0; 0; 0; 0].
Proof. vm_compute. reflexivity. Qed.

Example C11_example :
  let go p env n := (m <- modulus_new p ;; op <- ntt_new Debug env m n ;; Ok (nt_size op)) in
  go 97 env5 8%nat = Ok 8%nat /\ go 97 env5 16%nat = Ok 16%nat /\ go 97 env5 4%nat = Panic
  /\ go 97 env5 12%nat = Panic /\ go 97 env5 64%nat = Panic /\ go 33 env5 8%nat = Panic
  /\ go 97 (mkEnv trial (fun _ _ => 1)) 8%nat = Panic.
Proof. vm_compute. auto 10. Qed.
EXAMPLE*)
