(** Model of /repo/src/rns.rs *)
From Verif Require Import Base MModulus MUtils.

(** src/rns.rs:13-22 [struct RnsContext] *)
Record RnsContext := mkRns {
  rns_moduli_u64 : list Z;
  rns_moduli : list Modulus;
  rns_q_star : list Z;
  rns_q_tilde : list Z;
  rns_garner : list Z;
  rns_product : Z;
  rns_product_dig : Z }.

(** src/rns.rs:39-71 [RnsContext::new].  The external
    [mod_inverse(...).unwrap()] panics when the moduli are not coprime. *)
Definition rns_new (ms : list Z) : outcome RnsContext :=
  moduli <- mapM modulus_new ms ;;
  let product := fold_left Z.mul ms 1 in
  let product_dig := fold_left Z.mul ms 1 in
  q_star <- mapM (fun qi => udiv product qi) ms ;;
  q_tilde <- mapM (fun qi =>
                     q <- udiv product_dig qi ;;
                     r <- unwrap (mod_inverse_big q qi) ;;
                     unwrap (to_u64 r)) ms ;;
  garner <- zipM (fun qs qt => Ok (qs * qt)) q_star q_tilde ;;
  Ok (mkRns ms moduli q_star q_tilde garner product product_dig).

(** src/rns.rs:73-78 [project] *)
Definition rns_project (c : RnsContext) (a : Z) : outcome (list Z) :=
  mapM (fun q => r <- umod a q ;; unwrap (to_u64 r)) (rns_moduli_u64 c).

(** src/rns.rs:82-84: sum of rests times garner, stopping at the shorter. *)
Fixpoint lift_sum (rests garner : list Z) (acc : Z) : Z :=
  match rests, garner with
  | x :: rs, g :: gs => lift_sum rs gs (acc + g * x)
  | _, _ => acc
  end.

(** src/rns.rs:80-86 [lift] *)
Definition rns_lift (c : RnsContext) (rests : list Z) : outcome Z :=
  umod (lift_sum rests (rns_garner c) 0) (rns_product c).

(** src/rns.rs:95-99, 101-108 [ScalingFactor], [ScalingFactor::new] *)
Record ScalingFactor := mkSF { sf_num : Z; sf_den : Z; sf_is_one : bool }.
Definition sf_new (num den : Z) : outcome ScalingFactor :=
  rassert (negb (den =? 0)) ;;;
  Ok (mkSF num den (num =? den)).

(** src/rns.rs:116-136 [struct RnsScaler] *)
Record RnsScaler := mkRnsScaler {
  rs_from : RnsContext;
  rs_to : RnsContext;
  rs_factor : ScalingFactor;
  rs_gamma : list Z;
  rs_gamma_shoup : list Z;
  rs_theta_gamma_lo : Z;
  rs_theta_gamma_hi : Z;
  rs_theta_gamma_sign : bool;
  rs_omega : list (list Z);
  rs_omega_shoup : list (list Z);
  rs_theta_omega_lo : list Z;
  rs_theta_omega_hi : list Z;
  rs_theta_omega_sign : list bool;
  rs_theta_garner_lo : list Z;
  rs_theta_garner_hi : list Z;
  rs_theta_garner_shift : Z }.

(** src/rns.rs:244-290 [extract_projection_and_theta].  All BigUint. *)
Definition extract_projection_and_theta (ctx : RnsContext)
           (input num den : Z) (round_up : bool)
  : outcome (list Z * Z * Z * bool) :=
  gamma <- udiv (num * input + Z.shiftr den 1) den ;;
  projected <- rns_project ctx gamma ;;
  theta0 <- umod (num * input) den ;;
  let '(theta1, sign) :=
    if 1 <? den then
      if Z.land den 1 =? 1 then
        if Z.shiftr den 1 <? theta0 then (den - theta0, true) else (theta0, false)
      else
        if Z.shiftr den 1 <=? theta0 then (den - theta0, true) else (theta0, false)
    else (theta0, false) in
  theta2 <- (if round_up then
               if (sign : bool) then udiv (Z.shiftl theta1 127) den
               else udiv (Z.shiftl theta1 127 + den - 1) den
             else
               if sign then udiv (Z.shiftl theta1 127 + den - 1) den
               else udiv (Z.shiftl theta1 127) den) ;;
  let theta_hi := Z.shiftr theta2 64 in
  let theta_lo := theta2 - Z.shiftl theta_hi 64 in
  lo <- unwrap (to_u64 theta_lo) ;;
  hi <- unwrap (to_u64 theta_hi) ;;
  Ok (projected, lo, hi, sign).

(** [u128::next_power_of_two] (the arguments here are below 2^127). *)
Definition next_power_of_two (x : Z) : Z := 2 ^ Z.log2_up x.

(** [Iterator::min] over the shifts (src/rns.rs:186-199); None when empty. *)
Fixpoint minlistZ (l : list Z) : option Z :=
  match l with
  | [] => None
  | x :: l' => match minlistZ l' with
               | None => Some x
               | Some y => Some (Z.min x y)
               end
  end.

Section Scaler.
Variable pr : profile.

(** src/rns.rs:142-236 [RnsScaler::new].  The loop over [i] that fills
    [omega[j][i]] column by column is modelled by computing the projections
    first and then the rows [omega[j] = (reduce (omega_i[j]))_i]. *)
Definition rns_scaler_new (from to : RnsContext) (sf : ScalingFactor)
  : outcome RnsScaler :=
  '(gamma, tg_lo, tg_hi, tg_sign) <-
     extract_projection_and_theta to (rns_product from) (sf_num sf) (sf_den sf) false ;;
  gamma_shoup <- zipM (fun wi q => shoup pr q wi) gamma (rns_moduli to) ;;
  exts <- mapM (fun g => extract_projection_and_theta to g (sf_num sf) (sf_den sf) true)
               (rns_garner from) ;;
  omega <- mapM (fun jq : nat * Modulus =>
                   mapM (fun e : list Z * Z * Z * bool =>
                           w <- get (fst (fst (fst e))) (fst jq) ;;
                           mreduce pr (snd jq) w) exts)
                (combine (seq 0 (length (rns_moduli to))) (rns_moduli to)) ;;
  omega_shoup <- zipM (fun row q => mapM (shoup pr q) row) omega (rns_moduli to) ;;
  let theta_omega_lo := map (fun e : list Z * Z * Z * bool => snd (fst (fst e))) exts in
  let theta_omega_hi := map (fun e : list Z * Z * Z * bool => snd (fst e)) exts in
  let theta_omega_sign := map (fun e : list Z * Z * Z * bool => snd e) exts in
  shifts <- mapM (fun qi =>
                    p <- mul128 pr qi (Z.of_nat (length (rns_moduli_u64 from))) ;;
                    l <- ilog2 pr 128 (next_power_of_two p) ;;
                    sub64 pr (192 - 1) l) (rns_moduli_u64 from) ;;
  mn <- unwrap (minlistZ shifts) ;;
  let shift := Z.min mn 127 in
  thetas <- mapM (fun g =>
                    t <- udiv (Z.shiftl g shift + Z.shiftr (rns_product from) 1) (rns_product from) ;;
                    let t_hi := Z.shiftr t 64 in
                    let t_lo := t - Z.shiftl t_hi 64 in
                    lo <- unwrap (to_u64 t_lo) ;;
                    hi <- unwrap (to_u64 t_hi) ;;
                    Ok (lo, hi)) (rns_garner from) ;;
  Ok (mkRnsScaler from to sf gamma gamma_shoup tg_lo tg_hi tg_sign
                  omega omega_shoup theta_omega_lo theta_omega_hi theta_omega_sign
                  (map fst thetas) (map snd thetas) shift).

(** src/rns.rs:309-322: accumulation of [sum_theta_garner], a wrapping U192. *)
Fixpoint sum_theta_garner (los his rests : list Z) (acc : Z) : outcome Z :=
  match los, his, rests with
  | tlo :: los', thi :: his', ri :: rests' =>
      lo <- mul128 pr ri tlo ;;
      h <- mul128 pr ri thi ;;
      hi <- add128 pr h (Z.shiftr lo 64) ;;
      let word := as64 lo + as64 hi * W64 + as64 (Z.shiftr hi 64) * W128 in
      sum_theta_garner los' his' rests' ((acc + word) mod W192)
  | _, _, _ => Ok acc
  end.

(** src/rns.rs:333-357: accumulation of [sum_theta_omega]. *)
Fixpoint sum_theta_omega (los his : list Z) (signs : list bool) (rests : list Z)
         (acc : U256) : outcome U256 :=
  match los, his, signs, rests with
  | tlo :: los', thi :: his', sg :: signs', ri :: rests' =>
      lo <- mul128 pr ri tlo ;;
      h <- mul128 pr ri thi ;;
      hi <- add128 pr h (Z.shiftr lo 64) ;;
      let word := u256_of4 (as64 lo) (as64 hi) (as64 (Z.shiftr hi 64)) 0 in
      sum_theta_omega los' his' signs' rests'
        (if (sg : bool) then u256_sub acc word else u256_add acc word)
  | _, _, _, _ => Ok acc
  end.

(** src/rns.rs:323-326: [v = round(sum / 2^shift)] *)
Definition scale_v (s : RnsScaler) (rests : list Z) : outcome Z :=
  sum <- sum_theta_garner (rs_theta_garner_lo s) (rs_theta_garner_hi s) rests 0 ;;
  sh <- sub64 pr (rs_theta_garner_shift s) 1 ;;
  let sum := Z.shiftr sum sh in
  let v0 := as64 sum in
  let v1 := as64 (Z.shiftr sum 64) in
  div_ceil pr W128 (Z.lor v0 (Z.shiftl v1 64)) 2.

(** src/rns.rs:328-393: the pair [(w_sign, w)] *)
Definition scale_w (s : RnsScaler) (rests : list Z) (v : Z) : outcome (bool * Z) :=
  if sf_is_one (rs_factor s) then Ok (false, 0)
  else
    sto <- sum_theta_omega (rs_theta_omega_lo s) (rs_theta_omega_hi s)
                           (rs_theta_omega_sign s) rests u256_zero ;;
    let vlo := as64 v in
    let vhi := Z.shiftr v 64 in
    vt_lo_lo <- mul128 pr vlo (rs_theta_gamma_lo s) ;;
    vt_lo_hi <- mul128 pr vlo (rs_theta_gamma_hi s) ;;
    vt_hi_lo <- mul128 pr vhi (rs_theta_gamma_lo s) ;;
    vt_hi_hi <- mul128 pr vhi (rs_theta_gamma_hi s) ;;
    mi1 <- add128 pr (Z.shiftr vt_lo_lo 64) (as64 vt_lo_hi) ;;
    vt_mi <- add128 pr mi1 (as64 vt_hi_lo) ;;
    hi1 <- add128 pr (Z.shiftr vt_lo_hi 64) (Z.shiftr vt_mi 64) ;;
    vt_hi <- add128 pr hi1 (as64 vt_hi_hi) ;;
    let word := u256_of4 (as64 vt_lo_lo) (as64 vt_mi) (as64 vt_hi) 0 in
    let sto := if rs_theta_gamma_sign s then u256_add sto word else u256_sub sto word in
    if 0 <? u256_msb sto then
      sh <- u256_shr pr (u256_not sto) 126 ;;
      x <- u256_to_u128 pr sh ;;
      x1 <- add128 pr x 1 ;;
      Ok (true, x1 / 2)
    else
      sh <- u256_shr pr sto 126 ;;
      x <- u256_to_u128 pr sh ;;
      w <- div_ceil pr W128 x 2 ;;
      Ok (false, w).

(** src/rns.rs:420-426: the inner product with [omega_i] ([yi] is a u128);
    [get_unchecked] past the end is UB. *)
Fixpoint scale_inner (q : Modulus) (rests omega omega_shoup : list Z) (yi : Z) : outcome Z :=
  match rests with
  | [] => Ok yi
  | r :: rests' =>
      match omega, omega_shoup with
      | o :: omega', os :: omega_shoup' =>
          t <- lazy_mul_shoup pr q r o os ;;
          yi' <- add128 pr yi t ;;
          scale_inner q rests' omega' omega_shoup' yi'
      | _, _ => UB
      end
  end.

(** src/rns.rs:396-429: one output word *)
Definition scale_out (s : RnsScaler) (rests : list Z) (v : Z) (ws : bool * Z) (i : nat)
  : outcome Z :=
  let '(w_sign, w) := ws in
  qi <- getu (rns_moduli (rs_to s)) i ;;
  omega_i <- getu (rs_omega s) i ;;
  omega_shoup_i <- getu (rs_omega_shoup s) i ;;
  gamma_i <- getu (rs_gamma s) i ;;
  gamma_shoup_i <- getu (rs_gamma_shoup s) i ;;
  q2 <- mul64 pr (mp qi) 2 ;;
  vr <- mreduce_u128 pr qi v ;;
  g <- lazy_mul_shoup pr qi vr gamma_i gamma_shoup_i ;;
  yi0 <- sub64 pr q2 g ;;
  yi1 <- (if sf_is_one (rs_factor s) then Ok yi0
          else
            wi <- lazy_reduce_u128 pr qi w ;;
            t <- (if (w_sign : bool) then sub64 pr q2 wi else Ok wi) ;;
            add128 pr yi0 t) ;;
  dassert pr (length rests <=? length omega_i)%nat ;;;
  dassert pr (length rests <=? length omega_shoup_i)%nat ;;;
  yi <- scale_inner qi rests omega_i omega_shoup_i yi1 ;;
  mreduce_u128 pr qi yi.

(** src/rns.rs:298-431 [scale]; returns the [out_len] words written to [out]. *)
Definition rns_scale (s : RnsScaler) (rests : list Z) (out_len : nat) (starting_index : nat)
  : outcome (list Z) :=
  dassert pr (length rests =? length (rns_moduli_u64 (rs_from s)))%nat ;;;
  dassert pr (negb (out_len =? 0)%nat) ;;;
  dassert pr (starting_index + out_len <=? length (rns_moduli_u64 (rs_to s)))%nat ;;;
  v <- scale_v s rests ;;
  ws <- scale_w s rests v ;;
  mapM (fun i => scale_out s rests v ws (starting_index + i)) (seq 0 out_len).

End Scaler.
