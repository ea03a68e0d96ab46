(** A small BFV parameter set used by the examples: degree 8, t = 17, two
    17-bit moduli and two 20-bit extension moduli.  The primality test of its
    environment is membership in the list of the primes involved. *)
From Verif Require Import MKsk PBase NT MModulus MUtils MNtt MRns MRq MBfv SpecRq SpecBfv TestEnv.

Definition bms : list Z := [65633; 65729].
Definition bext : list Z := [524369; 525137].
Definition benv_of (l : list Z) : Env := mkEnv (fun x => zmem x l) (fun p k => (3 + Z.of_nat k) mod p).
Definition benv : Env := benv_of (17 :: bms ++ bext).

Definition tprime (x : Z) : bool := (1 <? x) && tdiv (Z.to_nat 1000) 2 x.
Lemma tprime_sound x : tprime x = true -> prime x.
Proof.
  intros H. unfold tprime in H. apply andb_true_iff in H. destruct H as [H1 H2]. apply Z.ltb_lt in H1.
  apply prime_alt. split; auto. intros n Hn. apply (tdiv_sound (Z.to_nat 1000) 2 x); auto; lia.
Qed.
Lemma bprimes : forallb tprime (17 :: bms ++ bext) = true.
Proof. vm_compute. reflexivity. Qed.
Lemma benv_of_ok l : forallb tprime l = true -> env_ok (benv_of l).
Proof.
  intros B. split; cbn [is_prime draw benv_of].
  - intros x _ H. apply tprime_sound. rewrite forallb_forall in B. apply B.
    unfold zmem in H. apply existsb_exists in H. destruct H as [y [H1 H2]]. apply Z.eqb_eq in H2. subst. auto.
  - intros p k Hp. apply Z.mod_pos_bound. lia.
Qed.

Lemma benv_ok : env_ok benv.
Proof. apply benv_of_ok, bprimes. Qed.

Definition test_bfv (pr : profile) : outcome BfvParams := bfv_new_from pr benv bext 8 17 bms 1 (mkBD 4 8).
(** Deterministic stand-ins for the generator. *)
Definition tw (s : nat) (k : nat) : Z := ((Z.of_nat s + 7) * 11400714819323198485 * (Z.of_nat k + 3) * 1181783497276652981) mod 2 ^ 64.
Definition trows (ms : list Z) (s : nat) : list (list Z) :=
  map (fun q => map (fun j => ((Z.of_nat s + 3) * 987654321 * (Z.of_nat j + 1) * 1234567891) mod q) (seq 0 8)) ms.

Lemma test_bfv_built pr P : test_bfv pr = Ok P -> built_params P.
Proof.
  intros E. exists pr, benv, bext, 8%nat, 17, bms, 1, (mkBD 4 8).
  split; [exact benv_ok|]. split; [repeat constructor; lia|]. split; [repeat constructor; lia|]. split; [lia|]. split; [|exact E].
  intros q H. cbn [bms In] in H. lia.
Qed.
Lemma tw_range s k : 0 <= tw s k < 2 ^ 64.
Proof. unfold tw. apply Z.mod_pos_bound. reflexivity. Qed.
Lemma test_bfv_degree pr P : test_bfv pr = Ok P -> bp_degree P = 8%nat.
Proof.
  intros E. unfold test_bfv, bfv_new_from in E. repeat (apply bind_inv in E; let x := fresh "x" in destruct E as [x [? E]]).
  inversion E. reflexivity.
Qed.

(** The top-level context, and randomness for key-switching keys. *)
Definition tctx (P : BfvParams) : outcome RqContext := get (bp_q_ctxs P) 0.
Definition trnd (s : nat) : RndKsk := mkRnd (fun i => trows bms (s * 10 + i)) (fun i => tw (s * 10 + i)).

(** A larger set for the deeper circuits: three 17-bit moduli. *)
Definition bms3 : list Z := [65633; 65729; 65777].
Definition bext3 : list Z := [524369; 525137; 525377].
Definition test_bfv3 (pr : profile) : outcome BfvParams :=
  bfv_new_from pr (benv_of (17 :: bms3 ++ bext3)) bext3 8 17 bms3 1 (mkBD 4 8).
Definition trnd3 (s : nat) : RndKsk := mkRnd (fun i => trows bms3 (s * 10 + i)) (fun i => tw (s * 10 + i)).
Lemma test_bfv3_built pr P : test_bfv3 pr = Ok P -> built_params P.
Proof.
  intros E. exists pr, (benv_of (17 :: bms3 ++ bext3)), bext3, 8%nat, 17, bms3, 1, (mkBD 4 8).
  split; [apply benv_of_ok; vm_compute; reflexivity|]. split; [repeat constructor; lia|]. split; [repeat constructor; lia|]. split; [lia|]. split; [|exact E].
  intros q H. cbn [bms3 In] in H. lia.
Qed.
