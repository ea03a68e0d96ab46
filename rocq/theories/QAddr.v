(** Claim C78: every database entry has exactly one query. *)
From Verif Require Import PBase NT Spec PSum MModulus MUtils MNtt MRns MRq MBfv MKsk MGalois MRgsw MEval PModulus PUtils PNttMath PNtt PNttNew PCrt PRns PRnsScale PUtils2 SpecRq SpecBfv SpecKsk SpecEval PRing PRq PRq2 PRq3 PRq4 PRq5 TestEnv QRq PBfv PBfv2 PBfv3 QBfv PKsk PGal PKsk2 PRingT PExpand PEval PEval2 PAsm PFold PFold2 PClient PRetr TestBfv TestEval QEval SpecAddr.

Lemma digits_len d : forall k ix, length (digits d k ix) = k.
Proof. induction k as [|k IH]; intros ix; cbn [digits length]; [reflexivity|]. rewrite IH. reflexivity. Qed.
Lemma digits_ok d : forall k ix, (ix < d ^ k)%nat -> Forall (fun q => (q < d)%nat) (digits d k ix) /\ row_index d (digits d k ix) = ix.
Proof.
  induction k as [|k IH]; intros ix H; cbn [digits].
  - cbn [Nat.pow] in H. split; [constructor|]. cbn. lia.
  - assert (d <> 0)%nat by (intros ->; cbn in H; lia).
    destruct (IH (ix / d)%nat) as [A B]. { apply Nat.div_lt_upper_bound; auto. }
    split; [constructor; [apply Nat.mod_upper_bound; auto|exact A]|].
    unfold row_index in *. cbn [fold_right]. rewrite B. rewrite Nat.add_comm. symmetry. apply Nat.div_mod. auto.
Qed.
Lemma digits_row d : forall qs, Forall (fun q => (q < d)%nat) qs -> digits d (length qs) (row_index d qs) = qs.
Proof.
  induction qs as [|q qs IH]; intros H; [reflexivity|]. inversion H as [|? ? Hq Hqs]; subst. cbn [digits length]. unfold row_index in *. cbn [fold_right].
  rewrite Nat.add_comm, Nat.mul_comm. f_equal.
  - rewrite Nat.add_comm, Nat.mod_add by lia. apply Nat.mod_small. auto.
  - rewrite Nat.div_add_l, Nat.div_small, Nat.add_0_r by lia. apply IH. auto.
Qed.

(** C78: the documented division addresses position ix: its components are in
    range and select ix; and it is the only query vector in range that does. *)
Lemma C78_address_lem :
  forall first dim k ix, (ix < first * dim ^ k)%nat ->
    exists q0 qs, address first dim k ix = q0 :: qs /\ (q0 < first)%nat /\ Forall (fun q => (q < dim)%nat) qs /\ length qs = k
      /\ (q0 + first * row_index dim qs)%nat = ix
      /\ forall q0' qs', (q0' < first)%nat -> Forall (fun q => (q < dim)%nat) qs' -> length qs' = k ->
           (q0' + first * row_index dim qs')%nat = ix -> q0' = q0 /\ qs' = qs.
Proof.
  intros first dim k ix H. assert (F : first <> 0%nat) by (intros ->; cbn in H; lia).
  exists (ix mod first)%nat, (digits dim k (ix / first)). split; [reflexivity|]. split; [apply Nat.mod_upper_bound; auto|].
  destruct (digits_ok dim k (ix / first)) as [A B]. { apply Nat.div_lt_upper_bound; auto. }
  split; [exact A|]. split; [apply digits_len|]. rewrite B. split; [rewrite Nat.add_comm; symmetry; apply Nat.div_mod; auto|].
  intros q0' qs' Hq Hqs <- <-. rewrite (Nat.mul_comm first). rewrite Nat.mod_add, Nat.div_add, (Nat.mod_small q0'), (Nat.div_small q0') by auto.
  rewrite Nat.add_0_l. split; [reflexivity|]. symmetry. apply digits_row. auto.
Qed.

(*EXAMPLE
(** The shape 4 x 2 x 2: position 13 is query [1; 1; 1]; all 16 addresses differ. *)
Example C78_example : address 4 2 2 13 = [1; 1; 1]%nat
  /\ map (address 4 2 2) (seq 0 16) = flat_map (fun c => flat_map (fun b => map (fun a => [a; b; c]) [0; 1; 2; 3]%nat) [0; 1]%nat) [0; 1]%nat.
Proof. split; reflexivity. Qed.
EXAMPLE*)

Lemma one_hot_inj len a b : (a < len)%nat -> one_hot len a = one_hot len b -> a = b.
Proof.
  intros H E. assert (N : nth a (one_hot len a) 0 = nth a (one_hot len b) 0) by (rewrite E; reflexivity).
  unfold one_hot in N. rewrite !nth_map_seq in N by auto. rewrite Nat.eqb_refl in N. destruct (Nat.eqb_spec a b); [auto|discriminate].
Qed.
Lemma one_hot_len len a : length (one_hot len a) = len.
Proof. unfold one_hot. rewrite map_length, seq_length. reflexivity. Qed.
Lemma app_inj {A} (a b c d : list A) : length a = length c -> a ++ b = c ++ d -> a = c /\ b = d.
Proof.
  revert c. induction a as [|x a IH]; intros [|y c] L E; try discriminate; [auto|]. cbn in E, L. injection E as -> E. destruct (IH c ltac:(lia) E) as [-> ->]. auto.
Qed.
Lemma encode_inv pr first dim qs rows enc : client_encode pr (mkClient first dim) qs rows = Ok enc ->
  exists q0 qs', qs = q0 :: qs' /\ (q0 < first)%nat /\ Forall (fun q => (q < dim)%nat) qs' /\ enc = one_hot first q0 ++ concat (map (one_hot dim) qs').
Proof.
  unfold client_encode. cbn [cl_first_dim cl_dim]. destruct qs as [|q0 qs']; [discriminate|]. cbn [get nth_error bind tl length].
  destruct (q0 <? first)%nat eqn:L; cbn [rassert bind]; [|discriminate]. apply Nat.ltb_lt in L.
  destruct (udiv _ _); cbn [bind]; try discriminate. destruct (chk _ _ _); cbn [bind]; try discriminate. destruct (udiv _ _); cbn [bind]; try discriminate.
  destruct (_ =? 1); cbn [rassert bind]; try discriminate.
  destruct (mapM _ qs') as [l| | |] eqn:EM; cbn [bind]; try discriminate. intros E. injection E as <-. exists q0, qs'. split; [reflexivity|]. split; [exact L|].
  assert (G : Forall (fun q => (q < dim)%nat) qs' /\ l = map (one_hot dim) qs').
  { clear - EM. revert l EM. induction qs' as [|q qs IH]; intros l EM; cbn [mapM] in EM.
    - injection EM as <-. split; [constructor|reflexivity].
    - destruct (q <? dim)%nat eqn:L; cbn [rassert bind] in EM; [|discriminate]. apply Nat.ltb_lt in L.
      destruct (mapM _ qs) as [l'| | |] eqn:E'; cbn [bind] in EM; try discriminate. injection EM as <-. destruct (IH l' eq_refl) as [A ->]. split; [constructor; auto|reflexivity]. }
  destruct G as [G ->]. auto.
Qed.

(** C78: two queries with the same encoding are the same query (for one shape;
    the database sizes and profiles may differ). *)
Lemma C78_injective_lem :
  forall pr pr' first dim qs qs' rows rows' enc, client_encode pr (mkClient first dim) qs rows = Ok enc ->
    client_encode pr' (mkClient first dim) qs' rows' = Ok enc -> qs = qs'.
Proof.
  intros pr pr' first dim qs qs' rows rows' enc H H'. apply encode_inv in H, H'.
  destruct H as [q0 [t [-> [Hq [Ht ->]]]]]. destruct H' as [q0' [t' [-> [Hq' [Ht' E]]]]].
  apply app_inj in E; [|rewrite !one_hot_len; reflexivity]. destruct E as [E1 E2]. apply one_hot_inj in E1; auto. subst q0'. f_equal.
  revert t' Ht' E2. induction t as [|q t IH]; intros [|q' t'] Ht' E2; [reflexivity| | |].
  - inversion Ht'; subst. apply (f_equal (@length Z)) in E2. cbn [map concat] in E2. rewrite app_length, one_hot_len in E2. cbn in E2. lia.
  - inversion Ht; subst. apply (f_equal (@length Z)) in E2. cbn [map concat] in E2. rewrite app_length, one_hot_len in E2. cbn in E2. lia.
  - inversion Ht; subst. inversion Ht'; subst. cbn [map concat] in E2. apply app_inj in E2; [|rewrite !one_hot_len; reflexivity]. destruct E2 as [E1 E2].
    apply one_hot_inj in E1; auto. subst q'. f_equal. apply IH; auto.
Qed.

(** C78: with the expansion repaired, the query made for position ix by the
    documented division is answered with entry ix, for every position. *)
Lemma C78_every_entry_lem :
  forall pr P c sk first dim k ix db M S rows0 w0 rndq rnd rnd0 rnd1 xs,
    built_params P -> level P 0 c -> sk_params sk = P -> sk_ok sk -> 1 <= bp_variance P <= 16 -> length (bp_moduli P) <> 1%nat -> small_degree pr (bp_degree P) ->
    small_basis (rq_moduli_64 c) -> 2 * bp_t P <= cx_q c 0 -> l1norm (bp_degree P) (sk_fun sk) <= S ->
    wf_poly (mkPoly c Ntt rows0) -> (forall k, 0 <= w0 k < 2 ^ 64) -> rnd_ok c rndq ->
    (forall i, rnd_ok c (rnd i)) -> rnd_ok c rnd0 -> rnd_ok c rnd1 -> x_pows_ok c xs ->
    countable dim k -> (first + dim * k <= bp_degree P)%nat ->
    length db = (first * dim ^ k)%nat -> Z.of_nat (length db) < 2 ^ 64 -> Z.of_nat dim < 2 ^ 64 -> Forall (entry_ok (bp_degree P)) db ->
    (forall p x, In p db -> In x (pt_values p) -> x <= M) -> 0 <= M ->
    2 ^ 54 * (2 * retrieval_noise P c first dim k S M) <= (2 ^ 54 - 1) * cx_Q c ->
    (ix < length db)%nat ->
    exists p, nth_error db ix = Some p
      /\ (enc <- client_encode pr (mkClient first dim) (address first dim k ix) (length db) ;;
          cts <- client_query pr sk P first enc rows0 w0 rndq ;;
          ev <- eval_build pr sk P rnd rnd0 rnd1 ;;
          srv <- server_new pr first dim db P ;;
          out <- server_decode_with pr (fun ct => unpack_core pr ev ct xs) srv cts ev P ;;
          mapM (decrypt pr sk) out)
         = Ok [mkPt P 0 EncNone (map (fun j => nth j (pt_values p) 0 mod bp_t P) (seq 0 (bp_degree P)))].
Proof.
  intros pr P c sk first dim k ix db M S rows0 w0 rndq rnd rnd0 rnd1 xs. intros. 
  match goal with H : (ix < length db)%nat, L : length db = _ |- _ => rewrite L in H; destruct (C78_address_lem _ _ _ _ H) as [q0 [qs [EA [Hq [Hqs [LK [EI _]]]]]]] end.
  rewrite EA, <- EI. subst k. clear EA EI.
  assert (G : forall j p, get db j = Ok p -> nth_error db j = Some p) by (intros j p; unfold get; destruct (nth_error db j); [intros E; injection E as ->; reflexivity|discriminate]).
  destruct (C45_retrieve_lem pr P c sk first dim q0 qs db M S rows0 w0 rndq rnd rnd0 rnd1 xs) as [p [E1 E2]]; auto.
  exists p. split; [apply G; exact E1|exact E2].
Qed.
