(** The largest 62-bit NTT primes, and what the parameter generation makes of
    them (C68). *)
From Coq Require Import Zpow_facts Sorted.
From Verif Require Import PBase NT PPrime PDefData TestEnv MUtils MNtt MRq MBfv PUtils2 SpecRq SpecBfv PBfv PBfv3.

(** Pocklington's test with several prime factors of N-1. *)
Lemma pp_divisor q e g : prime q -> 0 < e -> (g | q ^ e) -> 0 <= g -> g <> q ^ e -> (g | q ^ (e - 1)).
Proof.
  intros Hq He [u Hu] Hg NE. pose proof (prime_ge_2 q Hq) as Q2.
  assert (PM : q ^ e = q * q ^ (e - 1)).
  { replace e with (1 + (e - 1)) at 1 by ring. rewrite Z.pow_add_r, Z.pow_1_r by lia. reflexivity. }
  pose proof (Z.pow_pos_nonneg q e ltac:(lia) ltac:(lia)) as P0.
  destruct (Z.eq_dec u 1) as [->|U1]; [rewrite Z.mul_1_l in Hu; congruence|].
  assert (U0 : 0 < u) by (clear - P0 Hu Hg; nia).
  assert (U2 : (q | u)).
  { destruct (Zdivide_dec q u) as [|ND]; auto. exfalso.
    assert (RP : rel_prime u q) by (apply rel_prime_sym, prime_rel_prime; auto).
    apply (rel_prime_Zpower_r e) in RP; [|lia]. destruct RP as [_ _ G].
    assert (D : (u | q ^ e)) by (exists g; lia). specialize (G u (Z.divide_refl u) D). apply Z.divide_1_r_nonneg in G; lia. }
  destruct U2 as [v Hv]. exists v. subst u. rewrite PM in Hu.
  apply (Z.mul_reg_l _ _ q); [lia|]. rewrite Hu. ring.
Qed.

Definition poc1 (N : Z) (f : Z * Z * Z) : bool :=
  let '(q, e, a) := f in
  let r := powm a ((N - 1) / q) N in
  (0 <? q) && (0 <? e) && ((N - 1) mod q ^ e =? 0) && (powm r q N =? 1) && (Z.gcd (r - 1) N =? 1).
Lemma poc1_sound N q e a p : 1 < N -> prime q -> poc1 N (q, e, a) = true -> prime p -> (p | N) -> (q ^ e | p - 1).
Proof.
  intros HN Hq H Hp HDp. unfold poc1 in H. cbv zeta in H. rewrite !andb_true_iff, !Z.ltb_lt, !Z.eqb_eq in H. destruct H as [[[[Hq0 He] HD] E1] EG].
  pose proof (prime_ge_2 p Hp) as P2. pose proof (prime_ge_2 q Hq) as Q2.
  assert (PM : q ^ e = q * q ^ (e - 1)).
  { replace e with (1 + (e - 1)) at 1 by ring. rewrite Z.pow_add_r, Z.pow_1_r by lia. reflexivity. }
  pose proof (Z.pow_pos_nonneg q (e - 1) ltac:(lia) ltac:(lia)) as PQ.
  pose proof (Z.pow_pos_nonneg q e ltac:(lia) ltac:(lia)) as PE.
  assert (EM : N - 1 = q ^ e * ((N - 1) / q ^ e)) by (apply Z_div_exact_2; auto; lia). set (R := (N - 1) / q ^ e) in *.
  assert (HR0 : 0 < R) by (clear - EM PE HN; nia).
  assert (ER : (N - 1) / q = R * q ^ (e - 1)).
  { rewrite EM, PM. replace (q * q ^ (e - 1) * R) with (R * q ^ (e - 1) * q) by ring. apply Z.div_mul. lia. }
  assert (A1 : eqm p (a ^ (N - 1)) 1).
  { apply (eqm_factor p N); auto. rewrite EM, PM. replace (q * q ^ (e - 1) * R) with (R * q ^ (e - 1) * q) by ring. rewrite <- ER.
    rewrite Z.pow_mul_r by (try apply Z.div_pos; lia).
    transitivity (powm a ((N - 1) / q) N ^ q); [apply eqm_pow; [lia|]; apply eqm_sym, powm_ok; apply Z.div_pos; lia|].
    transitivity (powm (powm a ((N - 1) / q) N) q N); [apply eqm_sym, powm_ok; lia|]. rewrite E1. reflexivity. }
  set (b := a ^ R).
  assert (B1 : eqm p (b ^ (q ^ e)) 1) by (unfold b; rewrite <- Z.pow_mul_r by lia; rewrite (Z.mul_comm R), <- EM; exact A1).
  assert (RP : rel_prime b p) by (apply (unit_rel p b (q ^ e)); auto).
  assert (EF : eqm p (b ^ (p - 1)) 1).
  { apply fermat; auto. intros D. apply rel_prime_sym in RP. destruct RP as [_ _ G]. specialize (G p (Z.divide_refl p) D). apply Z.divide_1_r_nonneg in G; lia. }
  pose proof (eqm_pow_one p b (q ^ e) (p - 1) ltac:(lia) RP ltac:(lia) ltac:(lia) B1 EF) as G.
  set (g := Z.gcd (q ^ e) (p - 1)) in *. assert (G1 : (g | q ^ e)) by apply Z.gcd_divide_l. assert (G2 : (g | p - 1)) by apply Z.gcd_divide_r.
  assert (G0 : 0 <= g) by apply Z.gcd_nonneg.
  destruct (Z.eq_dec g (q ^ e)) as [<-|NE]; auto. exfalso.
  destruct (pp_divisor q e g Hq He G1 G0 NE) as [v Hv].
  assert (V0 : 0 <= v) by (clear - Hv PQ G0; nia).
  assert (C : eqm p (a ^ ((N - 1) / q)) 1).
  { rewrite ER, Z.pow_mul_r by lia. fold b. rewrite Hv, Z.mul_comm, Z.pow_mul_r by lia.
    transitivity (1 ^ v); [apply eqm_pow; auto|]. rewrite Z.pow_1_l by auto. reflexivity. }
  assert (D1 : (p | powm a ((N - 1) / q) N - 1)).
  { apply eqm_divide; [lia|]. transitivity (a ^ ((N - 1) / q)); [|exact C]. apply (eqm_factor p N); auto. apply powm_ok. apply Z.div_pos; lia. }
  pose proof (Z.gcd_greatest _ _ _ D1 HDp) as D2. rewrite EG in D2. apply Z.divide_1_r_nonneg in D2; lia.
Qed.

(** The product of the q^e; 0 unless they are pairwise coprime. *)
Fixpoint cprod (fs : list (Z * Z * Z)) : Z :=
  match fs with
  | [] => 1
  | (q, e, _) :: fs' => let r := cprod fs' in if Z.gcd (q ^ e) r =? 1 then q ^ e * r else 0
  end.
Lemma cprod_divide fs x : cprod fs <> 0 -> (forall q e a, In (q, e, a) fs -> (q ^ e | x)) -> (cprod fs | x).
Proof.
  induction fs as [|[[q e] a] fs IH]; cbn [cprod]; intros H0 H; [apply Z.divide_1_l|].
  destruct (Z.gcd (q ^ e) (cprod fs) =? 1) eqn:E; [|congruence]. apply Z.eqb_eq in E.
  assert (C0 : cprod fs <> 0) by (intros C; rewrite C, Z.mul_0_r in H0; congruence).
  pose proof (IH C0 (fun q' e' a' Hi => H q' e' a' (or_intror Hi))) as D2. pose proof (H q e a (or_introl eq_refl)) as [z Hz].
  subst x. rewrite (Z.mul_comm z). apply Z.mul_divide_mono_l. apply (Gauss _ (q ^ e)); [rewrite Z.mul_comm; exact D2|].
  apply rel_prime_sym. apply Zgcd_1_rel_prime. auto.
Qed.

Definition poc (known : list Z) (c : Z * list (Z * Z * Z)) : bool :=
  let '(N, fs) := c in
  (1 <? N) && (0 <? cprod fs) && (N <? cprod fs * cprod fs) && forallb (fun '(q, e, a) => (if zmem q known then true else isp q) && poc1 N (q, e, a)) fs.
Lemma poc_sound known N fs : Forall prime known -> poc known (N, fs) = true -> prime N.
Proof.
  intros HK H. cbn [poc] in H. rewrite !andb_true_iff, !Z.ltb_lt, forallb_forall in H. destruct H as [[[HN HC] HL] HF].
  apply (prime_of_factors N (cprod fs)); auto. intros p Hp HD.
  assert (D : (cprod fs | p - 1)).
  { apply cprod_divide; [lia|]. intros q e a Hi. specialize (HF _ Hi). cbv beta iota in HF. apply andb_true_iff in HF. destruct HF as [H1 H2].
    assert (Pq : prime q).
    { destruct (zmem q known) eqn:M; [|apply isp_sound; auto]. apply zmem_in in M. rewrite Forall_forall in HK. auto. }
    apply (poc1_sound N q e a p); auto. }
  pose proof (prime_ge_2 p Hp). apply Z.divide_pos_le in D; lia.
Qed.
Fixpoint pocs (known : list Z) (cs : list (Z * list (Z * Z * Z))) : bool :=
  match cs with
  | [] => true
  | c :: cs' => poc known c && pocs (fst c :: known) cs'
  end.
Lemma pocs_sound cs : forall known, Forall prime known -> pocs known cs = true -> Forall prime (map fst cs).
Proof.
  induction cs as [|[N fs] cs IH]; intros known HK H; cbn [map]; [constructor|]. cbn [pocs] in H. apply andb_true_iff in H. destruct H as [H1 H2].
  pose proof (poc_sound known N fs HK H1) as PN. constructor; [exact PN|]. apply (IH (N :: known)); auto.
Qed.
Lemma dcerts_ok : Forall prime (map fst dcerts).
Proof. apply (pocs_sound dcerts []); [constructor|]. vm_compute. reflexivity. Qed.

(** Walking down the candidates x, x - m, x - 2m, ... *)
Fixpoint walk (x m : Z) (ds ps : list Z) : bool :=
  match ds with
  | [] => match ps with [] => true | _ => false end
  | d :: ds' => if d =? 0 then match ps with p :: ps' => (p =? x) && walk (x - m) m ds' ps' | [] => false end
                else (1 <? d) && (d <? x) && (x mod d =? 0) && walk (x - m) m ds' ps
  end.
Lemma walk_sound m : 0 < m -> forall ds x ps, walk x m ds ps = true ->
  (forall p, In p ps -> x - m * Z.of_nat (length ds) < p <= x /\ p mod m = x mod m) /\ StronglySorted (fun a b => b < a) ps
  /\ forall y, prime y -> y mod m = x mod m -> x - m * Z.of_nat (length ds) < y <= x -> In y ps.
Proof.
  intros Hm. induction ds as [|d ds IH]; intros x ps H; cbn [walk] in H.
  - destruct ps; [|discriminate]. split; [intros p []|]. split; [constructor|]. intros y _ _ Hy. cbn [length] in Hy. lia.
  - cbn [length]. assert (EX : (x - m) mod m = x mod m) by (rewrite <- (Z.mod_add (x - m) 1 m) by lia; f_equal; ring).
    assert (EL : x - m * Z.of_nat (S (length ds)) = x - m - m * Z.of_nat (length ds)) by lia. rewrite EL.
    assert (YY : forall y, y mod m = x mod m -> y <= x -> y <= x - m \/ y = x).
    { intros y E L. destruct (Z.eq_dec y x) as [->|NE]; auto. left.
      assert (D : (m | x - y)) by (apply Z.mod_divide; [lia|]; rewrite Zminus_mod, E, Z.sub_diag; apply Z.mod_0_l; lia).
      apply Z.divide_pos_le in D; lia. }
    destruct (d =? 0) eqn:D0.
    + destruct ps as [|p ps]; [discriminate|]. apply andb_true_iff in H. destruct H as [EP H]. apply Z.eqb_eq in EP. subst p.
      destruct (IH (x - m) ps H) as [H1 [H2 H3]]. split; [|split].
      * intros p [<-|Hp]; [split; [lia|auto]|]. destruct (H1 p Hp). split; [lia|congruence].
      * constructor; auto. apply Forall_forall. intros p Hp. destruct (H1 p Hp). lia.
      * intros y Py Ey Hy. destruct (YY y Ey ltac:(lia)) as [L| ->]; [|left; auto]. right. apply H3; auto; [congruence|lia].
    + rewrite !andb_true_iff, !Z.ltb_lt, Z.eqb_eq in H. destruct H as [[[D1 D2] D3] H].
      destruct (IH (x - m) ps H) as [H1 [H2 H3]]. split; [|split]; auto.
      * intros p Hp. destruct (H1 p Hp). split; [lia|congruence].
      * intros y Py Ey Hy. destruct (YY y Ey ltac:(lia)) as [L| ->]; [apply H3; auto; [congruence|lia]|].
        exfalso. apply Z.mod_divide in D3; [|lia]. apply (prime_divisors _ Py) in D3. lia.
Qed.

(** The primes for degree n. *)
Definition dprimes (n : nat) : list Z :=
  match n with 8%nat => dprimes8 | 16%nat => dprimes16 | 32%nat => dprimes32 | 64%nat => dprimes64 | _ => [] end.
Definition ddivs (n : nat) : list Z :=
  match n with 8%nat => ddivs8 | 16%nat => ddivs16 | 32%nat => ddivs32 | 64%nat => ddivs64 | _ => [] end.
Definition ddeg (n : nat) : Prop := n = 8%nat \/ n = 16%nat \/ n = 32%nat \/ n = 64%nat.
Lemma dcheck n : ddeg n -> walk (2 ^ 62 - 2 * Z.of_nat n + 1) (2 * Z.of_nat n) (ddivs n) (dprimes n)
  && forallb (fun p => zmem p (map fst dcerts)) (dprimes n) && (length (dprimes n) =? 13)%nat
  && (2 ^ 61 <? 2 ^ 62 - 2 * Z.of_nat n + 1 - 2 * Z.of_nat n * Z.of_nat (length (ddivs n)))
  && (nth 12 (dprimes n) 0 =? 2 ^ 62 - 2 * Z.of_nat n + 1 - 2 * Z.of_nat n * (Z.of_nat (length (ddivs n)) - 1)) = true.
Proof. intros [-> |[-> |[-> | ->]]]; vm_compute; reflexivity. Qed.

(** They are the thirteen largest NTT primes of 62 bits, in decreasing order. *)
Lemma dprimes_ok n : ddeg n -> length (dprimes n) = 13%nat /\ Forall (ntt_prime 62 n) (dprimes n)
  /\ StronglySorted (fun a b => b < a) (dprimes n)
  /\ forall x, ntt_prime 62 n x -> nth 12 (dprimes n) 0 <= x -> In x (dprimes n).
Proof.
  intros Hn. pose proof (dcheck n Hn) as H. rewrite !andb_true_iff in H. destruct H as [[[[H1 H2] H3] H4] H5].
  apply Nat.eqb_eq in H3. apply Z.ltb_lt in H4. apply Z.eqb_eq in H5. rewrite forallb_forall in H2.
  assert (Hm : 2 * Z.of_nat n = 16 \/ 2 * Z.of_nat n = 32 \/ 2 * Z.of_nat n = 64 \/ 2 * Z.of_nat n = 128) by (destruct Hn as [-> |[-> |[-> | ->]]]; lia).
  set (m := 2 * Z.of_nat n) in *. set (k := Z.of_nat (length (ddivs n))) in *.
  assert (EM : (2 ^ 62 - m + 1) mod m = 1) by (destruct Hm as [E|[E|[E|E]]]; rewrite E; reflexivity).
  change (2 ^ 62) with 4611686018427387904 in *. change (2 ^ 61) with 2305843009213693952 in *.
  destruct (walk_sound m ltac:(lia) _ _ _ H1) as [W1 [W2 W3]]. fold k in W1, W3. rewrite EM in *.
  split; auto. split; [|split; auto].
  - apply Forall_forall. intros p Hp. destruct (W1 p Hp) as [B1 B2].
    assert (PP : prime p) by (pose proof dcerts_ok as DC; rewrite Forall_forall in DC; apply DC; apply zmem_in; auto).
    split; auto. change (2 ^ (62 - 1)) with 2305843009213693952. change (2 ^ 62) with 4611686018427387904. split; [clear - B1 H4 Hm; lia|exact B2].
  - intros x [P1 [P2 P3]] HX. change (2 ^ (62 - 1)) with 2305843009213693952 in P2. change (2 ^ 62) with 4611686018427387904 in P2. apply W3; auto.
    assert (M : (x mod m = 1)) by exact P3. split; [rewrite H5 in HX; clear - HX Hm; nia|].
    assert (M0 : m <> 0) by (clear - Hm; lia).
    assert (D : (m | 4611686018427387904 - m + 1 - x)) by (apply Z.mod_divide; [exact M0|]; rewrite Zminus_mod, EM, M; apply Z.mod_0_l; exact M0).
    destruct D as [z Hz]. clear - Hz P2 Hm. nia.
Qed.

Lemma sorted_nth (l : list Z) : StronglySorted (fun a b => b < a) l -> forall i j, (i < j)%nat -> (j < length l)%nat -> nth j l 0 < nth i l 0.
Proof.
  intros H. induction H as [|a l HS IH HF]; intros i j Hij Hj; cbn [length] in Hj; [lia|].
  destruct j as [|j]; [lia|]. destruct i as [|i]; cbn [nth].
  - rewrite Forall_forall in HF. apply HF. apply nth_In. lia.
  - apply IH; lia.
Qed.

Section Gen.
Variables (pr : profile) (env : Env) (n : nat).
Hypothesis PE : forall x, 0 <= x < 2 ^ 64 -> (is_prime env x = true <-> prime x).
Hypothesis N2 : (1 <= n)%nat.
Variables (L : list Z) (N : nat).
Hypothesis LL : length L = N.
Hypothesis F : Forall (ntt_prime 62 n) L.
Hypothesis S : StronglySorted (fun a b => b < a) L.
Hypothesis C : forall x, ntt_prime 62 n x -> nth (N - 1) L 0 <= x -> In x L.

(** The bound below which the i-th prime is found. *)
Definition dub (i : nat) : Z := match i with O => 2 ^ 62 | Datatypes.S j => nth j L 0 end.
Lemma dprime_nth i : (i < N)%nat -> ntt_prime 62 n (nth i L 0).
Proof. intros Hi. pose proof F as F'. rewrite Forall_forall in F'. apply F', nth_In. lia. Qed.
Lemma dub_range i : (i < N)%nat -> 1 <= dub i <= 2 ^ 62.
Proof.
  intros Hi. destruct i as [|i]; cbn [dub]; [lia|]. destruct (dprime_nth i ltac:(lia)) as [_ [[B1 B2] _]].
  change (2 ^ (62 - 1)) with 2305843009213693952 in B1. lia.
Qed.
Lemma generate_next i : (i < N)%nat -> generate_prime pr (is_prime env) 62 (2 * Z.of_nat n) (dub i) = Ok (Some (nth i L 0)).
Proof.
  intros Hi.  assert (N2' : 2 <= 2 * Z.of_nat n) by lia.
  pose proof (dprime_nth i Hi) as [P1 [P2 P3]].
  assert (LT : nth i L 0 < dub i) by (destruct i as [|i]; cbn [dub]; [lia|apply sorted_nth; auto; lia]).
  destruct (generate_prime_spec pr (is_prime env) 62 (2 * Z.of_nat n) (dub i) ltac:(lia) N2' (dub_range i Hi) PE) as [[r [E [[A1 [A2 [A3 A4]]] HM]]]|[_ HN]].
  - rewrite E. do 2 f_equal. assert (G : nth i L 0 <= r) by (apply HM; split; auto).
    assert (I : In r L).
    { apply C; [split; auto|]. destruct (Nat.eq_dec i (N - 1)) as [->|]; [exact G|]. pose proof (sorted_nth L S i (N - 1) ltac:(lia) ltac:(lia)). lia. }
    destruct (In_nth _ _ 0 I) as [k [Hk Ek]]. rewrite <- Ek in *. destruct (Nat.lt_trichotomy k i) as [K|[K|K]]; [|subst; auto|].
    + destruct i as [|i]; [lia|]. cbn [dub] in A4. destruct (Nat.eq_dec k i) as [->|]; [lia|].
      pose proof (sorted_nth L S k i ltac:(lia) ltac:(lia)). lia.
    + pose proof (sorted_nth L S i k ltac:(lia) ltac:(lia)). lia.
  - exfalso. apply (HN (nth i L 0)). split; auto.
Qed.

Lemma firstn_in_nth j i : (i < N)%nat -> (In (nth i L 0) (firstn j L) <-> (i < j)%nat).
Proof.
  intros Hi. split.
  - intros H. destruct (In_nth _ _ 0 H) as [k [Hk Ek]]. rewrite firstn_length in Hk. rewrite firstn_nth in Ek by lia.
    destruct (Nat.lt_trichotomy k i) as [K|[K|K]]; [|lia|].
    + pose proof (sorted_nth L S k i ltac:(lia) ltac:(lia)). lia.
    + pose proof (sorted_nth L S i k ltac:(lia) ltac:(lia)). lia.
  - intros H. rewrite <- (firstn_nth L j i 0) by lia. apply nth_In. rewrite firstn_length. lia.
Qed.

Lemma gen_one_d j : (j < N)%nat -> forall d fuel i, (j - i = d)%nat -> (i <= j)%nat -> (d < fuel)%nat ->
  gen_moduli_one pr env fuel 62 n (firstn j L) (dub i) = Ok (Some (nth j L 0)).
Proof.
  intros Hj. induction d as [|d IH]; intros fuel i Hd Hi Hf; (destruct fuel as [|f]; [lia|]); cbn [gen_moduli_one];
    rewrite generate_next by lia; cbn [bind].
  - assert (i = j) by lia. subst i. assert (Z0 : zmem (nth j L 0) (firstn j L) = false) by (apply zmem_false; rewrite firstn_in_nth by auto; lia).
    rewrite Z0. reflexivity.
  - assert (Z1 : zmem (nth i L 0) (firstn j L) = true) by (apply zmem_in; apply firstn_in_nth; lia).
    rewrite Z1. apply (IH f (Datatypes.S i)); lia.
Qed.
Lemma firstn_S_nth {A} (l : list A) d j : (j < length l)%nat -> firstn (Datatypes.S j) l = firstn j l ++ [nth j l d].
Proof.
  revert j. induction l as [|a l IH]; intros j Hj; cbn [length] in Hj; [lia|]. destruct j as [|j]; [reflexivity|].
  cbn [firstn nth app]. f_equal. apply IH. lia.
Qed.
Lemma gen_loop_d k : forall j, (j + k <= N)%nat -> gen_moduli_loop pr env (repeat 62 k) n (firstn j L) = Ok (Some (firstn (j + k) L)).
Proof.
  induction k as [|k IH]; intros j Hj; cbn [repeat gen_moduli_loop]; [rewrite Nat.add_0_r; reflexivity|].
  rewrite firstn_length_le by lia. cbn [rassert Z.leb Z.compare Pos.compare Pos.compare_cont andb bind].
  change (2 ^ 62) with (dub 0). rewrite (gen_one_d j ltac:(lia) j) by lia. cbn [bind].
  rewrite <- firstn_S_nth by lia. rewrite IH by lia. do 3 f_equal. lia.
Qed.
Lemma generate_moduli_d k : (k <= N)%nat -> generate_moduli pr env (repeat 62 k) n = Ok (Some (firstn k L)).
Proof. intros Hk. unfold generate_moduli. apply (gen_loop_d k 0). lia. Qed.

Lemma skipn_S_nth {A} (l : list A) d k i : (k <= i)%nat -> (i < length l)%nat -> skipn k (firstn (Datatypes.S i) l) = skipn k (firstn i l) ++ [nth i l d].
Proof.
  intros H1 H2. rewrite (firstn_S_nth l d i H2). rewrite skipn_app. f_equal. rewrite firstn_length_le by lia.
  replace (k - i)%nat with 0%nat by lia. reflexivity.
Qed.
Lemma gen_ext_d k : (2 * k + 1 <= N)%nat -> forall d fuel i, (2 * k + 1 - i = d)%nat -> (i <= 2 * k + 1)%nat -> (d < fuel)%nat ->
  gen_ext_loop pr env fuel n (firstn k L) (skipn k (firstn i L)) (dub i) = Ok (skipn k (firstn (2 * k + 1) L)).
Proof.
  intros Hk.  induction d as [|d IH]; intros fuel i Hd Hi Hf; (destruct fuel as [|f]; [lia|]); cbn [gen_ext_loop];
    rewrite skipn_length, !firstn_length_le by lia.
  - assert (i = 2 * k + 1)%nat by lia. subst i. replace (2 * k + 1 - k =? k + 1)%nat with true by (symmetry; apply Nat.eqb_eq; lia). reflexivity.
  - replace (i - k =? k + 1)%nat with false by (symmetry; apply Nat.eqb_neq; lia).
    replace (Z.of_nat (2 * n)) with (2 * Z.of_nat n) by lia. rewrite generate_next by lia. cbn [bind unwrap].
    change (nth i L 0) with (dub (Datatypes.S i)) at 4.
    destruct (Nat.lt_ge_cases i k) as [K|K].
    + assert (Z1 : zmem (nth i L 0) (firstn k L) = true) by (apply zmem_in; apply firstn_in_nth; lia).
      rewrite Z1, andb_false_r. rewrite <- (IH f (Datatypes.S i)) by lia. f_equal.
      rewrite !skipn_all2; auto; rewrite firstn_length; lia.
    + assert (Z0 : zmem (nth i L 0) (firstn k L) = false) by (apply zmem_false; rewrite firstn_in_nth by lia; lia).
      assert (Z2 : zmem (nth i L 0) (skipn k (firstn i L)) = false).
      { apply zmem_false. intros C2. assert (C3 : In (nth i L 0) (firstn i L)).
        { rewrite <- (firstn_skipn k (firstn i L)). apply in_or_app. right. exact C2. }
        apply firstn_in_nth in C3; lia. }
      rewrite Z0, Z2. cbn [negb andb]. rewrite <- skipn_S_nth by lia. apply IH; lia.
Qed.
Lemma gen_ext_d0 k : (2 * k + 1 <= N)%nat -> gen_ext pr env n (firstn k L) = Ok (skipn k (firstn (2 * k + 1) L)).
Proof.
  intros Hk. unfold gen_ext. change (2 ^ 62) with (dub 0).
  replace (@nil Z) with (skipn k (firstn 0 L)) by (cbn [firstn]; destruct k; reflexivity).
  apply (gen_ext_d k Hk (2 * k + 1)); try lia. rewrite firstn_length_le by lia. lia.
Qed.
End Gen.
