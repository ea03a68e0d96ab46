(** Property theorems; the proofs are in QRoot.v. *)
From Verif Require Import PBase NT Spec SpecProb SpecRand PSum MModulus MUtils MNtt MRq MRand MChaCha SpecChaCha SpecRoot PModulus PUtils PUtils2 PNttMath PNtt PNttNew QNtt QProb QRand QChaCha QRoot.

(** C79: exactly half of the nonzero residues give a root: the values x below p
    with x^((p-1)/2) = -1 are (p-1)/2 in number. *)
Theorem C79_half :
  forall p, prime p -> p mod 2 = 1 -> exists l, NoDup l /\ Z.of_nat (length l) = (p - 1) / 2
    /\ forall x, In x l <-> 0 <= x < p /\ x ^ ((p - 1) / 2) mod p = p - 1.
Proof. exact C79_half_lem. Qed.
Print Assumptions C79_half.

(** C79: of the generator outcomes that are long enough for 100 draws, the
    fraction exactly ((p+1)/(2p))^100 makes [NttOperator::new] panic. *)
Theorem C79_failure :
  forall pr ip p m L N, modulus_new p = Ok m -> prime p -> ip p = true -> p < 2 ^ 62 -> (3 <= L)%nat -> p mod (2 * 2 ^ Z.of_nat L) = 1 ->
    countb (64 * N) (fun bits => completes p (words N bits) && panics (ntt_new pr (word_env ip (words N bits)) m (2 ^ L))) * (2 * p) ^ 100
    = (p + 1) ^ 100 * countb (64 * N) (fun bits => completes p (words N bits))
    /\ (0 < countb (64 * N) (fun bits => completes p (words N bits)) <-> (100 <= N)%nat).
Proof. exact C79_failure_lem. Qed.
Print Assumptions C79_failure.

(* modulo 17 the eight non-residues; a generator that keeps giving 0 fails, one that gives 3 finds the root *)
Example C79_failure_ex :
  filter (fun x => x ^ 8 mod 17 =? 16) (map Z.of_nat (seq 0 17)) = [3; 5; 6; 7; 10; 11; 12; 14]
  /\ completes 17 (repeat 0 100) = true /\ panics (m <- modulus_new 17 ;; ntt_new Debug (word_env (fun _ => true) (repeat 0 100)) m 8) = true
  /\ panics (m <- modulus_new 17 ;; ntt_new Debug (word_env (fun _ => true) (repeat 0 99 ++ [3255307777713450286])) m 8) = false.
Proof. vm_compute. repeat split. Qed.

(** C79: for a modulus of at least 200 that fraction is at most 2^-99. *)
Theorem C79_bound :
  forall pr ip p m L N, modulus_new p = Ok m -> prime p -> ip p = true -> 200 <= p < 2 ^ 62 -> (3 <= L)%nat -> p mod (2 * 2 ^ Z.of_nat L) = 1 ->
    countb (64 * N) (fun bits => completes p (words N bits) && panics (ntt_new pr (word_env ip (words N bits)) m (2 ^ L))) * 2 ^ 99
    <= countb (64 * N) (fun bits => completes p (words N bits)).
Proof. exact C79_bound_lem. Qed.
Print Assumptions C79_bound.

Example C79_bound_ex : (257 + 1) ^ 100 * 2 ^ 99 <= (2 * 257) ^ 100 /\ 257 mod 16 = 1.
Proof. split; [apply Z.leb_le; reflexivity|reflexivity]. Qed.
