(** Primality certificates (Proth, and Pocklington with one large prime factor). *)
From Coq Require Import Zpow_facts.
From Verif Require Import PBase NT.

Lemma eqm_pow_one p b x y : 1 < p -> rel_prime b p -> 0 <= x -> 0 <= y -> eqm p (b ^ x) 1 -> eqm p (b ^ y) 1 -> eqm p (b ^ (Z.gcd x y)) 1.
Proof.
  intros Hp Hb Hx Hy Ex Ey.
  assert (G : forall n, forall x y, 0 <= x -> 0 <= y -> x + y <= Z.of_nat n -> eqm p (b ^ x) 1 -> eqm p (b ^ y) 1 -> eqm p (b ^ (Z.gcd x y)) 1).
  { clear x y Hx Hy Ex Ey. induction n as [|n IH]; intros x y Hx Hy Hn Ex Ey.
    - assert (x = 0) by lia. assert (y = 0) by lia. subst. reflexivity.
    - destruct (Z.eq_dec x 0) as [->|Nx]; [rewrite Z.gcd_0_l, Z.abs_eq by auto; exact Ey|].
      destruct (Z.eq_dec y 0) as [->|Ny]; [rewrite Z.gcd_0_r, Z.abs_eq by auto; exact Ex|].
      destruct (Z.le_gt_cases x y) as [L|L].
      + replace (Z.gcd x y) with (Z.gcd x (y - x)) by (rewrite Z.gcd_sub_diag_r; reflexivity).
        apply IH; auto; try lia. apply (eqm_cancel p _ _ (b ^ x)); auto.
        * apply rel_prime_sym. apply rel_prime_Zpower_r; auto. apply rel_prime_sym; auto.
        * rewrite <- Z.pow_add_r by lia. replace (x + (y - x)) with y by ring. rewrite Z.mul_1_r. rewrite Ey, Ex. reflexivity.
      + rewrite Z.gcd_comm. replace (Z.gcd y x) with (Z.gcd y (x - y)) by (rewrite Z.gcd_sub_diag_r; reflexivity).
        rewrite Z.gcd_comm.
        apply IH; auto; try lia. apply (eqm_cancel p _ _ (b ^ y)); auto.
        * apply rel_prime_sym. apply rel_prime_Zpower_r; auto. apply rel_prime_sym; auto.
        * rewrite <- Z.pow_add_r by lia. replace (y + (x - y)) with x by ring. rewrite Z.mul_1_r. rewrite Ey, Ex. reflexivity. }
  apply (G (Z.to_nat (x + y))); auto. lia.
Qed.

(** No prime factor up to the square root. *)
Lemma prime_of_factors N F : 1 < N -> N < F * F -> 0 < F -> (forall p, prime p -> (p | N) -> F <= p) -> prime N.
Proof.
  intros H1 HF F0 H. destruct (prime_dec N) as [|NP]; auto. exfalso.
  destruct (not_prime_divide N H1 NP) as [d [Hd Dd]]. destruct Dd as [e He].
  assert (PF : forall x, 1 < x -> (x | N) -> F <= x).
  { intros x Hx Dx. assert (exists p, prime p /\ (p | x)) as [p [Pp Dp]].
    { clear - Hx. assert (G : forall n x, 1 < x -> x < Z.of_nat n -> exists p, prime p /\ (p | x)).
      { clear. induction n as [|n IH]; intros x Hx Hn; [lia|]. destruct (prime_dec x) as [|NP]; [exists x; split; auto; apply Z.divide_refl|].
        destruct (not_prime_divide x Hx NP) as [d [Hd Dd]]. destruct (IH d ltac:(lia) ltac:(lia)) as [p [Pp Dp]]. exists p. split; auto. eapply Z.divide_trans; eauto. }
      apply (G (Z.to_nat (x + 1)) x); lia. }
    eapply Z.le_trans; [apply (H p Pp); eapply Z.divide_trans; eauto|]. apply Z.divide_pos_le; auto. lia. }
  assert (F <= d) by (apply PF; [lia|exists e; auto]).
  assert (F <= e) by (apply PF; [nia|exists d; lia]). nia.
Qed.

Lemma eqm_factor p N a b : 1 < N -> prime p -> (p | N) -> eqm N a b -> eqm p a b.
Proof. intros HN Hp HD. apply eqm_weaken; auto; [lia|]. pose proof (prime_ge_2 p Hp). lia. Qed.

Lemma unit_rel p b x : prime p -> 0 < x -> eqm p (b ^ x) 1 -> rel_prime b p.
Proof.
  intros Hp Hx E. pose proof (prime_ge_2 p Hp). apply rel_prime_sym. apply prime_rel_prime; auto. intros D.
  assert (eqm p (b ^ x) 0).
  { apply eqm_divide; [lia|]. rewrite Z.sub_0_r. replace x with (1 + (x - 1)) by ring. rewrite Z.pow_add_r, Z.pow_1_r by lia. apply Z.divide_mul_l; auto. }
  rewrite H0 in E. unfold eqm in E. rewrite Z.mod_small, Z.mod_small in E by lia. discriminate.
Qed.

Lemma proth_factor p b m : prime p -> p <> 2 -> 0 < m -> eqm p (b ^ (2 ^ (m - 1))) (-1) -> (2 ^ m | p - 1).
Proof.
  intros Hp N2 Hm E. pose proof (prime_ge_2 p Hp) as P2.
  assert (E2 : eqm p (b ^ (2 ^ m)) 1).
  { replace m with (m - 1 + 1) by ring. rewrite Z.pow_add_r, Z.pow_1_r, Z.pow_mul_r by (try apply Z.pow_nonneg; lia).
    rewrite Z.pow_2_r, E. reflexivity. }
  assert (HR : rel_prime b p) by (apply (unit_rel p b (2 ^ m)); auto; apply Z.pow_pos_nonneg; lia).
  assert (EF : eqm p (b ^ (p - 1)) 1).
  { apply fermat; auto. intros D. apply rel_prime_sym in HR. destruct HR as [_ _ G]. specialize (G p (Z.divide_refl p) D).
    apply Z.divide_1_r_nonneg in G; lia. }
  pose proof (eqm_pow_one p b (2 ^ m) (p - 1) ltac:(lia) HR ltac:(apply Z.pow_nonneg; lia) ltac:(lia) E2 EF) as EG.
  set (g := Z.gcd (2 ^ m) (p - 1)) in *. assert (G1 : (g | 2 ^ m)) by apply Z.gcd_divide_l. assert (G2 : (g | p - 1)) by apply Z.gcd_divide_r.
  destruct (Z.eq_dec g (2 ^ m)) as [<-|NE]; auto. exfalso.
  assert (G3 : (g | 2 ^ (m - 1))).
  { destruct G1 as [u Hu]. assert (g0 : 0 <= g) by apply Z.gcd_nonneg. assert (PM : 2 ^ m = 2 * 2 ^ (m - 1)).
    { replace m with (1 + (m - 1)) at 1 by ring. rewrite Z.pow_add_r by lia. reflexivity. }
    destruct (Z.eq_dec u 1) as [->|U1]; [rewrite Z.mul_1_l in Hu; congruence|].
    assert (U : (u | 2 ^ m)) by (exists g; lia).
    assert (U2 : (2 | u)).
    { pose proof (Z.pow_pos_nonneg 2 m ltac:(lia) ltac:(lia)). assert (0 < u) by (clear - H Hu g0; nia).
      destruct (Zdivide_dec 2 u) as [|ND]; auto. exfalso. assert (RP : rel_prime u 2) by (apply rel_prime_sym, prime_rel_prime; [apply prime_2|auto]).
      apply (rel_prime_Zpower_r m) in RP; [|lia]. destruct RP as [_ _ G]. specialize (G u (Z.divide_refl u) U). apply Z.divide_1_r_nonneg in G; lia. }
    destruct U2 as [v Hv]. exists v. subst u. clear - Hu PM. lia. }
  destruct G3 as [v Hv]. assert (0 <= g) by apply Z.gcd_nonneg. pose proof (Z.pow_pos_nonneg 2 (m - 1) ltac:(lia) ltac:(lia)).
  assert (0 <= v) by (clear - H H0 Hv; nia).
  rewrite Hv, Z.mul_comm, Z.pow_mul_r in E by auto. assert (E1 : eqm p ((b ^ g) ^ v) 1).
  { transitivity (1 ^ v); [apply eqm_pow; auto|]. rewrite Z.pow_1_l by auto. reflexivity. }
  rewrite E1 in E. apply eqm_divide in E; [|lia]. replace (1 - -1) with 2 in E by ring. apply Z.divide_pos_le in E; lia.
Qed.

(** Fast modular power. *)
Fixpoint ppowm (a : Z) (e : positive) (n : Z) : Z :=
  match e with
  | xH => a mod n
  | xO e' => let r := ppowm a e' n in (r * r) mod n
  | xI e' => let r := ppowm a e' n in ((r * r) mod n * a) mod n
  end.
Lemma ppowm_ok a e n : eqm n (ppowm a e n) (a ^ Zpos e).
Proof.
  induction e as [e IH|e IH|]; cbn [ppowm].
  - rewrite eqm_mod. rewrite eqm_mod. rewrite IH. rewrite Pos2Z.inj_xI. replace (2 * Z.pos e + 1) with (Z.pos e + Z.pos e + 1) by ring. rewrite !Z.pow_add_r, Z.pow_1_r by lia. reflexivity.
  - rewrite eqm_mod. rewrite IH. rewrite Pos2Z.inj_xO. replace (2 * Z.pos e) with (Z.pos e + Z.pos e) by ring. rewrite Z.pow_add_r by lia. reflexivity.
  - rewrite eqm_mod. rewrite Z.pow_1_r. reflexivity.
Qed.
Definition powm (a e n : Z) : Z := match e with Zpos p => ppowm a p n | _ => 1 mod n end.
Lemma powm_ok a e n : 0 <= e -> eqm n (powm a e n) (a ^ e).
Proof. intros H. destruct e; [apply eqm_mod|apply ppowm_ok|lia]. Qed.

(** Proth: N = k*2^m + 1, k < 2^m, a^((N-1)/2) = -1 mod N. *)
Definition proth_check (k m a N : Z) : bool :=
  (N =? k * 2 ^ m + 1) && (0 <? k) && (0 <? m) && (k <? 2 ^ m) && (powm a (k * 2 ^ (m - 1)) N =? N - 1).
Theorem proth_sound k m a N : proth_check k m a N = true -> prime N.
Proof.
  unfold proth_check. rewrite !andb_true_iff, Z.eqb_eq, !Z.ltb_lt, Z.eqb_eq. intros [[[[EN Hk] Hm] Hkm] EP].
  pose proof (Z.pow_pos_nonneg 2 (m - 1) ltac:(lia) ltac:(lia)) as PM.
  assert (PM2 : 2 ^ m = 2 * 2 ^ (m - 1)) by (replace m with (1 + (m - 1)) at 1 by ring; rewrite Z.pow_add_r by lia; reflexivity).
  assert (HN : 1 < N) by nia.
  apply (prime_of_factors N (2 ^ m + 1)); auto; [nia|lia|]. intros p Hp HD.
  assert (E : eqm p ((a ^ k) ^ (2 ^ (m - 1))) (-1)).
  { apply (eqm_factor p N); auto. rewrite <- Z.pow_mul_r by lia. rewrite <- powm_ok by nia. rewrite EP. apply eqm_divide; [lia|]. exists 1. ring. }
  assert (P2 : p <> 2).
  { intros ->. destruct HD as [z Hz]. nia. }
  pose proof (proth_factor p (a ^ k) m Hp P2 Hm E) as D. apply Z.divide_pos_le in D; [lia|]. pose proof (prime_ge_2 p Hp). lia.
Qed.

(** Pocklington with one prime factor q of N-1, q*q > N. *)
Definition pock_check (q a N : Z) : bool :=
  (1 <? N) && (0 <? q) && ((N - 1) mod q =? 0) && (N <? q * q) && (powm a (N - 1) N =? 1) && (Z.gcd (powm a ((N - 1) / q) N - 1) N =? 1).
Theorem pock_sound q a N : prime q -> pock_check q a N = true -> prime N.
Proof.
  intros Hq. unfold pock_check. rewrite !andb_true_iff, !Z.ltb_lt, !Z.eqb_eq. intros [[[[[HN Hq0] HD] HQ] E1] EG].
  apply (prime_of_factors N q); auto. intros p Hp HDp. pose proof (prime_ge_2 p Hp) as P2.
  destruct (Z.divide_1_r_nonneg 1 ltac:(lia) (Z.divide_refl 1)).
  assert (EM : N - 1 = q * ((N - 1) / q)) by (apply Z_div_exact_2; auto; lia). set (R := (N - 1) / q) in *.
  assert (HR0 : 0 < R) by nia.
  assert (A1 : eqm p (a ^ (N - 1)) 1).
  { apply (eqm_factor p N); auto. rewrite <- powm_ok by lia. rewrite E1. reflexivity. }
  set (b := a ^ R). assert (B1 : eqm p (b ^ q) 1) by (unfold b; rewrite <- Z.pow_mul_r by lia; rewrite (Z.mul_comm R q), <- EM; exact A1).
  assert (RP : rel_prime b p) by (apply (unit_rel p b q); auto).
  assert (EF : eqm p (b ^ (p - 1)) 1).
  { apply fermat; auto. intros D. apply rel_prime_sym in RP. destruct RP as [_ _ G]. specialize (G p (Z.divide_refl p) D). apply Z.divide_1_r_nonneg in G; lia. }
  destruct (Zdivide_dec q (p - 1)) as [D|ND].
  { apply Z.divide_pos_le in D; lia. }
  exfalso. pose proof (eqm_pow_one p b q (p - 1) ltac:(lia) RP ltac:(lia) ltac:(lia) B1 EF) as G.
  assert (RPq : rel_prime q (p - 1)) by (apply prime_rel_prime; auto). apply Zgcd_1_rel_prime in RPq. rewrite RPq, Z.pow_1_r in G.
  assert (D1 : (p | powm a R N - 1)).
  { apply eqm_divide; [lia|]. rewrite <- G. unfold b. apply (eqm_factor p N); auto. apply powm_ok; lia. }
  pose proof (Z.gcd_greatest _ _ _ D1 HDp) as D2. rewrite EG in D2. apply Z.divide_1_r_nonneg in D2; lia.
Qed.
