(** Property theorems; the proofs are in QRns.v. *)
From Verif Require Import PBase NT Spec PSum MModulus MUtils MRns PModulus PUtils PCrt PRns PRnsScale PRnsScale2 QRns.

(** A basis can be constructed exactly when its moduli are in [2, 2^62) and pairwise coprime;
    otherwise construction panics. *)
Theorem C12_construct : forall ms : list Z, Forall (fun q => 0 <= q) ms ->
  let good := Forall (fun q => 2 <= q < 2 ^ 62) ms /\
    forall i j, (i < length ms)%nat -> (j < length ms)%nat -> i <> j -> Z.gcd (nth i ms 1) (nth j ms 1) = 1 in
  (good -> exists c, rns_new ms = Ok c /\ rns_product c = zprod ms) /\ (~ good -> rns_new ms = Panic).
Proof. exact C12_construct_lem. Qed.
Print Assumptions C12_construct.

(** Projecting gives the residues and lifting them gives the integer back. *)
Theorem C12_lift_project : forall (ms : list Z) c x, Forall (fun q => 0 <= q) ms -> rns_new ms = Ok c ->
  0 <= x < zprod ms ->
  rns_project c x = Ok (map (fun q => x mod q) ms) /\ rns_lift c (map (fun q => x mod q) ms) = Ok x.
Proof. exact C12_lift_project_lem. Qed.
Print Assumptions C12_lift_project.

(** Every vector of reduced residues is the projection of its lift. *)
Theorem C12_project_lift : forall (ms : list Z) c r, Forall (fun q => 0 <= q) ms -> rns_new ms = Ok c ->
  length r = length ms -> (forall i, (i < length ms)%nat -> 0 <= nth i r 0 < nth i ms 1) ->
  exists x, rns_lift c r = Ok x /\ 0 <= x < zprod ms /\ rns_project c x = Ok r.
Proof. exact C12_project_lift_lem. Qed.
Print Assumptions C12_project_lift.

Example C12_example : (c <- rns_new [7; 9; 10] ;; r <- rns_project c 629 ;; x <- rns_lift c r ;; Ok (r, x)) = Ok ([6; 8; 9], 629).
Proof. vm_compute. reflexivity. Qed.
Example C12_example_panic : rns_new [6; 9] = Panic /\ rns_new [5; 1] = Panic.
Proof. vm_compute. auto. Qed.

(** Scaling by N/D: the output words are the residues of one integer y, which is N*x'/D rounded
    (half rounds up, with a one-sided error of relative size 2^-(125-L) in the rounding), where x' is a
    representative of x of absolute value at most product/2*(1+2^-(191-2L)).  [scale_room L]: every
    source modulus times the number of moduli is at most 2^L.  L = 65 covers every basis of at most 8
    moduli; a larger L (up to 94) is possible when D divides N*product, as it does for base
    extension and for the factors t/product of the scheme.  C56 shows that this condition is needed. *)
Theorem C13_scale : forall pr L (ms mt : list Z) from to N D,
  Forall (fun q => 0 <= q) ms -> Forall (fun q => 0 <= q) mt -> ms <> [] ->
  rns_new ms = Ok from -> rns_new mt = Ok to -> 0 <= N -> 1 <= D -> scale_room L N D ms ->
  exists s, (sf <- sf_new N D ;; rns_scaler_new pr from to sf) = Ok s /\
  forall rests x, length rests = length ms ->
    (forall i, (i < length ms)%nat -> 0 <= nth i rests 0 < nth i ms 1) ->
    (forall i, (i < length ms)%nat -> x mod nth i ms 1 = nth i rests 0) ->
    exists x' y,
      x' mod zprod ms = x mod zprod ms
      /\ 2 ^ (191 - 2 * L) * (2 * Z.abs x' - zprod ms) <= zprod ms
      /\ 2 * N * x' - 2 * D * y < D
      /\ 2 ^ (125 - L) * (2 * D * y - 2 * N * x' - D) < D
      /\ (N = D -> y = x')
      /\ forall out_len start, (out_len <> 0)%nat -> (start + out_len <= length mt)%nat ->
           rns_scale pr s rests out_len start = Ok (map (fun i => y mod nth (start + i) mt 1) (seq 0 out_len)).
Proof. exact C13_scale_lem. Qed.
Print Assumptions C13_scale.

(** When x is not extremely close to product/2 modulo the product and N*xc/D is not extremely
    close below a half integer, the result is exactly floor(N*xc/D + 1/2), xc the centred value. *)
Theorem C13_exact : forall pr L (ms mt : list Z) from to N D,
  Forall (fun q => 0 <= q) ms -> Forall (fun q => 0 <= q) mt -> ms <> [] ->
  rns_new ms = Ok from -> rns_new mt = Ok to -> 0 <= N -> 1 <= D -> scale_room L N D ms ->
  exists s, (sf <- sf_new N D ;; rns_scaler_new pr from to sf) = Ok s /\
  forall rests x, length rests = length ms ->
    (forall i, (i < length ms)%nat -> 0 <= nth i rests 0 < nth i ms 1) ->
    (forall i, (i < length ms)%nat -> x mod nth i ms 1 = nth i rests 0) ->
    let xc := centred (zprod ms) x in
    2 ^ (191 - 2 * L) * (2 * Z.abs xc) < (2 ^ (191 - 2 * L) - 1) * zprod ms ->
    D <= 2 ^ (125 - L) * (2 * D - (2 * N * xc + D) mod (2 * D)) ->
    rns_scale pr s rests (length mt) 0 = Ok (map (fun q => ((2 * N * xc + D) / (2 * D)) mod q) mt)
    \/ mt = [].
Proof. exact C13_exact_lem. Qed.
Print Assumptions C13_exact.

Example C13_example :
  (a <- rns_new [97; 193] ;; b <- rns_new [113; 241] ;; f <- sf_new 2 7 ;;
   s <- rns_scaler_new Debug a b f ;; r <- rns_project a (97 * 193 - 1000) ;; rns_scale Debug s r 2 0)
  = Ok [(-286) mod 113; (-286) mod 241].
Proof. vm_compute. reflexivity. Qed.

(** Factor one: the residues of the centred representative, away from product/2. *)
Theorem C14_extend : forall pr L (ms mt : list Z) from to N,
  Forall (fun q => 0 <= q) ms -> Forall (fun q => 0 <= q) mt -> ms <> [] ->
  rns_new ms = Ok from -> rns_new mt = Ok to -> 1 <= N -> 65 <= L <= 94 ->
  (forall q, In q ms -> q * Z.of_nat (length ms) <= 2 ^ L) ->
  exists s, (sf <- sf_new N N ;; rns_scaler_new pr from to sf) = Ok s /\
  forall x r out_len start, rns_project from x = Ok r -> 0 <= x ->
    let xc := centred (zprod ms) x in
    2 ^ (191 - 2 * L) * (2 * Z.abs xc) < (2 ^ (191 - 2 * L) - 1) * zprod ms ->
    (out_len <> 0)%nat -> (start + out_len <= length mt)%nat ->
    rns_scale pr s r out_len start = Ok (map (fun i => xc mod nth (start + i) mt 1) (seq 0 out_len)).
Proof. exact C14_extend_lem. Qed.
Print Assumptions C14_extend.

Example C14_example :
  (a <- rns_new [97; 193] ;; b <- rns_new [113; 241; 17] ;; f <- sf_new 1 1 ;;
   s <- rns_scaler_new Release a b f ;; r <- rns_project a (97 * 193 - 1000) ;; rns_scale Release s r 2 1)
  = Ok [(-1000) mod 241; (-1000) mod 17].
Proof. vm_compute. reflexivity. Qed.

(** With twelve source moduli the scaled value can be wrong: x = product - 1 stands for -1, and
    -1/3 rounds to 0 (or at worst -1), but the scaler returns the residue of 2.  The carry word
    of v * theta_gamma is dropped once v >= 2^65. *)
Theorem C56_twelve_moduli_refuted : forall pr, exists (ms : list Z) from to s r x q out,
  length ms = 12%nat /\ rns_new ms = Ok from /\ rns_new [q] = Ok to
  /\ (sf <- sf_new 1 3 ;; rns_scaler_new pr from to sf) = Ok s
  /\ 0 <= x < zprod ms /\ rns_project from x = Ok r /\ rns_scale pr s r 1 0 = Ok [out]
  /\ forall x' y, x' mod zprod ms = x mod zprod ms -> 3 * Z.abs x' <= 2 * zprod ms ->
       Z.abs (3 * y - x') <= 3 -> y mod q <> out.
Proof. exact C56_twelve_moduli_refuted_lem. Qed.
Print Assumptions C56_twelve_moduli_refuted.

(** The condition on many moduli in [scale_room] is met by every factor N/D for which N*product/D
    is an integer, so for base extension and for t/product with up to 2^32 moduli of 62 bits:
    the dropped carry is harmless for these. *)
Theorem C56_integral_partial : forall pr L (ms mt : list Z) from to N D,
  Forall (fun q => 0 <= q) ms -> Forall (fun q => 0 <= q) mt -> ms <> [] ->
  rns_new ms = Ok from -> rns_new mt = Ok to -> 0 <= N -> 1 <= D ->
  (N = D \/ D = zprod ms) -> 65 <= L <= 94 -> Z.of_nat (length ms) <= 2 ^ (L - 62) ->
  exists s, (sf <- sf_new N D ;; rns_scaler_new pr from to sf) = Ok s /\
  forall x r out_len start, rns_project from x = Ok r -> 0 <= x ->
    let xc := centred (zprod ms) x in
    2 ^ (191 - 2 * L) * (2 * Z.abs xc) < (2 ^ (191 - 2 * L) - 1) * zprod ms ->
    D <= 2 ^ (125 - L) * (2 * D - (2 * N * xc + D) mod (2 * D)) ->
    (out_len <> 0)%nat -> (start + out_len <= length mt)%nat ->
    rns_scale pr s r out_len start = Ok (map (fun i => ((2 * N * xc + D) / (2 * D)) mod nth (start + i) mt 1) (seq 0 out_len)).
Proof. exact C56_integral_partial_lem. Qed.
Print Assumptions C56_integral_partial.

(** The basis of the counterexample above with factor one: x = product - 1 gives the residue of -1. *)
Example C56_integral_example :
  (a <- rns_new ms12 ;; b <- rns_new [97] ;; f <- sf_new 1 1 ;; s <- rns_scaler_new Debug a b f ;;
     r <- rns_project a (zprod ms12 - 1) ;; rns_scale Debug s r 1 0) = Ok [96]
  /\ Z.of_nat (length ms12) <= 2 ^ (66 - 62)
  /\ 2 ^ (191 - 2 * 66) * (2 * Z.abs (centred (zprod ms12) (zprod ms12 - 1))) < (2 ^ (191 - 2 * 66) - 1) * zprod ms12
  /\ 1 <= 2 ^ (125 - 66) * (2 * 1 - (2 * 1 * centred (zprod ms12) (zprod ms12 - 1) + 1) mod (2 * 1)).
Proof. vm_compute. repeat split; congruence. Qed.
