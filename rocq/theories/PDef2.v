(** The largest 62-bit NTT primes for the degrees 2^7, ..., 2^12 (C88). *)
From Coq Require Import Zpow_facts Sorted.
From Verif Require Import PBase NT PPrime PDefData PDefData2 TestEnv MUtils MNtt MRq MBfv PUtils2 SpecRq SpecBfv PBfv PBfv3 PDef.

Lemma ecerts_ok : Forall prime (map fst ecerts).
Proof. apply (pocs_sound ecerts []); [constructor|]. vm_compute. reflexivity. Qed.

(** The primes for degree 2^g. *)
Definition eprimes (g : nat) : list Z :=
  match g with 7%nat => eprimes128 | 8%nat => eprimes256 | 9%nat => eprimes512 | 10%nat => eprimes1024 | 11%nat => eprimes2048
  | 12%nat => eprimes4096 | _ => [] end.
Definition edivs (g : nat) : list Z :=
  match g with 7%nat => edivs128 | 8%nat => edivs256 | 9%nat => edivs512 | 10%nat => edivs1024 | 11%nat => edivs2048
  | 12%nat => edivs4096 | _ => [] end.
Lemma echeck g : (7 <= g <= 12)%nat -> let m := 2 ^ (Z.of_nat g + 1) in walk (2 ^ 62 - m + 1) m (edivs g) (eprimes g)
  && forallb (fun p => zmem p (map fst ecerts)) (eprimes g) && (length (eprimes g) =? 9)%nat
  && (2 ^ 61 <? 2 ^ 62 - m + 1 - m * Z.of_nat (length (edivs g)))
  && (nth 8 (eprimes g) 0 =? 2 ^ 62 - m + 1 - m * (Z.of_nat (length (edivs g)) - 1)) && ((2 ^ 62 - m + 1) mod m =? 1) = true.
Proof.
  intros Hg. do 13 (destruct g as [|g]; [first [exfalso; lia|vm_compute; reflexivity]|]). exfalso. lia.
Qed.

Lemma pow_deg g : 2 * Z.of_nat (2 ^ g) = 2 ^ (Z.of_nat g + 1).
Proof. rewrite Nat2Z.inj_pow, Z.pow_add_r by lia. change (Z.of_nat 2) with 2. change (2 ^ 1) with 2. ring. Qed.

(** They are the nine largest NTT primes of 62 bits, in decreasing order. *)
Lemma eprimes_ok g : (7 <= g <= 12)%nat -> let n := (2 ^ g)%nat in length (eprimes g) = 9%nat /\ Forall (ntt_prime 62 n) (eprimes g)
  /\ StronglySorted (fun a b => b < a) (eprimes g)
  /\ forall x, ntt_prime 62 n x -> nth 8 (eprimes g) 0 <= x -> In x (eprimes g).
Proof.
  intros Hg n. pose proof (echeck g Hg) as H. cbv zeta in H. rewrite !andb_true_iff in H. destruct H as [[[[[H1 H2] H3] H4] H5] H6].
  apply Nat.eqb_eq in H3. apply Z.ltb_lt in H4. apply Z.eqb_eq in H5. apply Z.eqb_eq in H6. rewrite forallb_forall in H2.
  assert (EM2 : 2 * Z.of_nat n = 2 ^ (Z.of_nat g + 1)) by apply pow_deg. clearbody n.
  assert (Hm : 2 <= 2 ^ (Z.of_nat g + 1)) by (change 2 with (2 ^ 1) at 1; apply Z.pow_le_mono_r; lia).
  set (m := 2 ^ (Z.of_nat g + 1)) in *. set (k := Z.of_nat (length (edivs g))) in *. clearbody m.
  change (2 ^ 62) with 4611686018427387904 in *. change (2 ^ 61) with 2305843009213693952 in *.
  destruct (walk_sound m ltac:(lia) _ _ _ H1) as [W1 [W2 W3]]. fold k in W1, W3. rewrite H6 in *.
  split; auto. split; [|split; auto].
  - apply Forall_forall. intros p Hp. destruct (W1 p Hp) as [B1 B2].
    assert (PP : prime p) by (pose proof ecerts_ok as DC; rewrite Forall_forall in DC; apply DC; apply zmem_in; auto).
    split; auto. change (2 ^ (62 - 1)) with 2305843009213693952. change (2 ^ 62) with 4611686018427387904. rewrite EM2. split; [clear - B1 H4 Hm; lia|exact B2].
  - intros x [P1 [P2 P3]] HX. change (2 ^ (62 - 1)) with 2305843009213693952 in P2. change (2 ^ 62) with 4611686018427387904 in P2. rewrite EM2 in P3. apply W3; auto.
    split; [rewrite H5 in HX; replace (m * (k - 1)) with (m * k - m) in HX by ring; clear - HX Hm; lia|].
    assert (D : (m | 4611686018427387904 - m + 1 - x)) by (apply Z.mod_divide; [lia|]; rewrite Zminus_mod, H6, P3; apply Z.mod_0_l; lia).
    destruct D as [z Hz]. assert (0 <= z) by (clear - Hz P2 Hm; destruct (Z.lt_ge_cases z 0); [nia|lia]). clear - Hz H Hm. nia.
Qed.
