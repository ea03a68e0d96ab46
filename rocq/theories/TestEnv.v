(** An executable environment used by the examples: trial division as the
    primality test and small consecutive draws.  It satisfies the assumptions
    the theorems make, so those are not vacuous. *)
From Verif Require Import PBase NT MUtils MNtt MRq SpecRq.

Fixpoint tdiv (fuel : nat) (d p : Z) : bool :=
  match fuel with
  | O => false
  | S f => if p <? d * d then true else if p mod d =? 0 then false else tdiv f (d + 1) p
  end.
Definition isp (p : Z) : bool := (1 <? p) && tdiv 3000 2 p.
Definition tenv : Env := mkEnv isp (fun p k => (2 + Z.of_nat k) mod p).

Lemma tdiv_sound fuel : forall d p, 2 <= d -> (forall x, 2 <= x < d -> ~ (x | p)) -> tdiv fuel d p = true ->
  forall x, 2 <= x < p -> ~ (x | p).
Proof.
  induction fuel as [|f IH]; intros d p Hd H HT x Hx HD; [discriminate|]. cbn [tdiv] in HT.
  destruct (p <? d * d) eqn:E.
  - destruct HD as [y Hy]. destruct (Z_lt_le_dec x d) as [L|L].
    + apply (H x); [lia|]. exists y. auto.
    + assert (y < d) by nia. apply (H y); [nia|]. exists x. lia.
  - destruct (p mod d =? 0) eqn:E2; [discriminate|]. apply (IH (d + 1) p) with x; auto; try lia.
    intros z Hz Hzd. destruct (Z.eq_dec z d) as [->|]; [|apply (H z); auto; lia].
    apply Z.mod_divide in Hzd; lia.
Qed.
Lemma isp_sound x : isp x = true -> prime x.
Proof.
  intros H. unfold isp in H. apply andb_true_iff in H. destruct H as [H1 H2]. apply Z.ltb_lt in H1.
  apply prime_alt. split; auto. intros n Hn. apply (tdiv_sound 3000 2 x); auto; lia.
Qed.
Lemma tenv_ok : env_ok tenv.
Proof.
  split; cbn [is_prime draw tenv].
  - intros x _. apply isp_sound.
  - intros p k Hp. apply Z.mod_pos_bound. lia.
Qed.

(** Small contexts of degree 8 (primes that are 1 modulo 16). *)
Definition test_ms : list Z := [1048609; 1048721; 1048897].
Definition test_ext : list Z := [1049057; 1049089; 1049137].
Definition test_ctx (pr : profile) (ms : list Z) : outcome RqContext := rq_new pr tenv ms 8 (mkBD 4 5).

(** Rows of a polynomial, for comparing results in examples. *)
Definition rows_of (o : outcome Poly) : outcome (list (list Z)) := p <- o ;; Ok (p_rows p).
