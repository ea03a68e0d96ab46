(** Property theorems; the proofs are in QProb.v. *)
From Verif Require Import PBase Spec SpecProb PSum MModulus MUtils PUtils PUtils2 QProb.

(** C65: over all outcomes of the generator (m bits, at least as many as are
    used) the vector xs is returned with frequency exactly the product of
    centred binomial frequencies: the samples are independent and each is
    distributed as B(4v, 1/2) - 2v. *)
Theorem C65_distribution :
  forall pr size v m xs, (1 <= v <= 16)%nat -> (4 * v * size <= m)%nat -> length xs = size ->
    (forall o, returns o xs = true <-> o = Ok xs)
    /\ countb m (fun bits => returns (sample_vec_cbd pr size (Z.of_nat v) (words_of bits)) xs) * 2 ^ (4 * Z.of_nat v * Z.of_nat size)
       = 2 ^ Z.of_nat m * prodl (map (fun x => binom (4 * v) (x + 2 * Z.of_nat v)) xs).
Proof. exact C65_distribution_lem. Qed.
Print Assumptions C65_distribution.

(** C65: every sample has mean 0 and variance v over all generator outcomes. *)
Theorem C65_moments :
  forall pr size v m i, (1 <= v <= 16)%nat -> (4 * v * size <= m)%nat -> (i < size)%nat ->
    let x bits := match sample_vec_cbd pr size (Z.of_nat v) (words_of bits) with Ok l => nth i l 0 | _ => 0 end in
    sumb m x = 0 /\ sumb m (fun bits => x bits * x bits) = Z.of_nat v * 2 ^ Z.of_nat m.
Proof. exact C65_moments_lem. Qed.
Print Assumptions C65_moments.

(** Two samples of variance 1 over the 256 outcomes of 8 bits. *)
Example C65_example :
  map (fun x => countb 8 (fun bits => returns (sample_vec_cbd Debug 2 1 (words_of bits)) [x; 1])) [-3; -2; -1; 0; 1; 2]
  = [0; 4; 16; 24; 16; 4].
Proof. vm_compute. reflexivity. Qed.
