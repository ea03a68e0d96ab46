(** Agreement of the two build profiles: whenever a debug build returns
    normally, a release build returns the same value. *)
From Verif Require Import PBase MModulus MUtils MNtt MRns MRq MBfv MKsk MGalois MRgsw MEval MPvw MOmr.

Definition agree {A} (d r : outcome A) : Prop := forall a, d = Ok a -> r = Ok a.

Lemma agree_refl {A} (x : outcome A) : agree x x.
Proof. intros a H; exact H. Qed.
Lemma agree_panic {A} (r : outcome A) : agree Panic r.
Proof. intros a H; discriminate. Qed.
Lemma agree_ub {A} (r : outcome A) : agree UB r.
Proof. intros a H; discriminate. Qed.
Lemma agree_nofuel {A} (r : outcome A) : agree NoFuel r.
Proof. intros a H; discriminate. Qed.
Lemma agree_bind {A B} (d r : outcome A) (f g : A -> outcome B) :
  agree d r -> (forall a, agree (f a) (g a)) -> agree (bind d f) (bind r g).
Proof.
  intros H1 H2 b H. destruct d as [a| | |]; try discriminate. rewrite (H1 a eq_refl). cbn [bind] in *. apply H2; auto.
Qed.
Lemma agree_skip {A B} (d : outcome A) (f : A -> outcome B) (r : outcome B) :
  (forall a, agree (f a) r) -> agree (bind d f) r.
Proof. intros H b E. destruct d as [a| | |]; try discriminate. cbn [bind] in E. exact (H a b E). Qed.
Lemma agree_chk w x : agree (chk Debug w x) (chk Release w x).
Proof. unfold chk. destruct ((0 <=? x) && (x <? w)); [apply agree_refl|apply agree_panic]. Qed.
Lemma agree_dassert b : agree (dassert Debug b) (dassert Release b).
Proof. unfold dassert, rassert. destruct b; [apply agree_refl|apply agree_panic]. Qed.
Lemma agree_unit (d : outcome unit) : agree d (Ok tt).
Proof. intros [] H. reflexivity. Qed.
Lemma agree_mapM {A B} (f g : A -> outcome B) l : (forall x, agree (f x) (g x)) -> agree (mapM f l) (mapM g l).
Proof.
  intros H. induction l as [|x l IH]; [apply agree_refl|]. cbn [mapM].
  apply agree_bind; [apply H|]. intros y. apply agree_bind; [exact IH|]. intros. apply agree_refl.
Qed.
Lemma agree_foldM {A B} (f g : B -> A -> outcome B) l : (forall b x, agree (f b x) (g b x)) -> forall b, agree (foldM f l b) (foldM g l b).
Proof.
  intros H. induction l as [|x l IH]; intros b; [apply agree_refl|]. cbn [foldM].
  apply agree_bind; [apply H|]. intros y. apply IH.
Qed.
Lemma agree_zipM_upd {A B} (f g : A -> B -> outcome A) : (forall x y, agree (f x y) (g x y)) -> forall a b, agree (zipM_upd f a b) (zipM_upd g a b).
Proof.
  intros H. induction a as [|x a IH]; intros [|y b]; try apply agree_refl. cbn [zipM_upd].
  apply agree_bind; [apply H|]. intros z. apply agree_bind; [apply IH|]. intros. apply agree_refl.
Qed.
Lemma agree_zipM {A B C} (f g : A -> B -> outcome C) : (forall x y, agree (f x y) (g x y)) -> forall a b, agree (zipM f a b) (zipM g a b).
Proof.
  intros H. induction a as [|x a IH]; intros [|y b]; try apply agree_refl. cbn [zipM].
  apply agree_bind; [apply H|]. intros z. apply agree_bind; [apply IH|]. intros. apply agree_refl.
Qed.

Create HintDb ag.
#[export] Hint Resolve agree_chk agree_dassert agree_unit : ag.

(** One step: structural rules first, then the lemmas already proved. *)
Ltac ag1 :=
  match goal with
  | |- agree ?x ?x => apply agree_refl
  | |- agree Panic _ => apply agree_panic
  | |- agree UB _ => apply agree_ub
  | |- agree NoFuel _ => apply agree_nofuel
  | |- agree _ _ => solve [auto 2 with ag nocore]
  | |- agree (bind _ _) (bind _ _) => apply agree_bind; [|intros]
  | |- agree (mapM _ _) (mapM _ _) => apply agree_mapM; intros
  | |- agree (foldM _ _ _) (foldM _ _ _) => apply agree_foldM; intros
  | |- agree (zipM_upd _ _ _) (zipM_upd _ _ _) => apply agree_zipM_upd; intros
  | |- agree (zipM _ _ _) (zipM _ _ _) => apply agree_zipM; intros
  | |- agree (match ?b with _ => _ end) (match ?b with _ => _ end) => destruct b
  | |- agree (bind (match ?b with _ => _ end) _) _ => destruct b
  | p : _ * _ |- _ => destruct p
  end.
Ltac ag := cbv zeta; repeat (ag1; cbv beta iota zeta).
Ltac agu f := intros; unfold f; ag.

(** modulus.rs *)
Lemma ag_add64 a b : agree (add64 Debug a b) (add64 Release a b). Proof. agu @add64. Qed.
Lemma ag_sub64 a b : agree (sub64 Debug a b) (sub64 Release a b). Proof. agu @sub64. Qed.
Lemma ag_mul64 a b : agree (mul64 Debug a b) (mul64 Release a b). Proof. agu @mul64. Qed.
Lemma ag_add128 a b : agree (add128 Debug a b) (add128 Release a b). Proof. agu @add128. Qed.
Lemma ag_sub128 a b : agree (sub128 Debug a b) (sub128 Release a b). Proof. agu @sub128. Qed.
Lemma ag_mul128 a b : agree (mul128 Debug a b) (mul128 Release a b). Proof. agu @mul128. Qed.
#[export] Hint Resolve ag_add64 ag_sub64 ag_mul64 ag_add128 ag_sub128 ag_mul128 : ag.
Lemma ag_lazy_reduce_ct m a : agree (lazy_reduce_ct Debug m a) (lazy_reduce_ct Release m a). Proof. agu lazy_reduce_ct. Qed.
Lemma ag_lazy_reduce_u128 m a : agree (lazy_reduce_u128 Debug m a) (lazy_reduce_u128 Release m a). Proof. agu lazy_reduce_u128. Qed.
Lemma ag_reduce_ct m a : agree (reduce_ct Debug m a) (reduce_ct Release m a). Proof. agu reduce_ct. Qed.
#[export] Hint Resolve ag_lazy_reduce_ct ag_lazy_reduce_u128 ag_reduce_ct : ag.
Lemma ag_mreduce m a : agree (mreduce Debug m a) (mreduce Release m a). Proof. agu mreduce. Qed.
Lemma ag_mreduce_u128 m a : agree (mreduce_u128 Debug m a) (mreduce_u128 Release m a). Proof. agu mreduce_u128. Qed.
#[export] Hint Resolve ag_mreduce ag_mreduce_u128 : ag.
Lemma ag_reduce_i64 m a : agree (reduce_i64 Debug m a) (reduce_i64 Release m a). Proof. agu reduce_i64. Qed.
#[export] Hint Resolve ag_reduce_i64 : ag.
Lemma ag_reduce_vec_u64 m a : agree (reduce_vec_u64 Debug m a) (reduce_vec_u64 Release m a). Proof. agu reduce_vec_u64. Qed.
Lemma ag_reduce_vec_i64 m a : agree (reduce_vec_i64 Debug m a) (reduce_vec_i64 Release m a). Proof. agu reduce_vec_i64. Qed.
Lemma ag_madd m a b : agree (madd Debug m a b) (madd Release m a b). Proof. agu madd. Qed.
Lemma ag_msub m a b : agree (msub Debug m a b) (msub Release m a b). Proof. agu msub. Qed.
Lemma ag_mmul m a b : agree (mmul Debug m a b) (mmul Release m a b). Proof. agu mmul. Qed.
Lemma ag_mneg m a : agree (mneg Debug m a) (mneg Release m a). Proof. agu mneg. Qed.
#[export] Hint Resolve ag_reduce_vec_u64 ag_reduce_vec_i64 ag_madd ag_msub ag_mmul ag_mneg : ag.
Lemma ag_pow_loop m a r k : forall v, agree (pow_loop Debug m a r k v) (pow_loop Release m a r k v).
Proof. induction k as [|k IH]; intros v; cbn [pow_loop]; ag. Qed.
#[export] Hint Resolve ag_pow_loop : ag.
Lemma ag_mpow m a r : agree (mpow Debug m a r) (mpow Release m a r). Proof. agu mpow. Qed.
#[export] Hint Resolve ag_mpow : ag.
Lemma ag_minv m a : agree (minv Debug m a) (minv Release m a). Proof. agu minv. Qed.
#[export] Hint Resolve ag_minv : ag.
Lemma ag_inv_vec m a : agree (inv_vec Debug m a) (inv_vec Release m a). Proof. agu inv_vec. Qed.
Lemma ag_shoup m a : agree (shoup Debug m a) (shoup Release m a). Proof. agu shoup. Qed.
#[export] Hint Resolve ag_inv_vec ag_shoup : ag.
Lemma ag_shoup_vec m a : agree (shoup_vec Debug m a) (shoup_vec Release m a). Proof. agu shoup_vec. Qed.
Lemma ag_lazy_mul_shoup m a b c : agree (lazy_mul_shoup Debug m a b c) (lazy_mul_shoup Release m a b c). Proof. agu lazy_mul_shoup. Qed.
#[export] Hint Resolve ag_shoup_vec ag_lazy_mul_shoup : ag.
Lemma ag_mul_shoup m a b c : agree (mul_shoup Debug m a b c) (mul_shoup Release m a b c). Proof. agu mul_shoup. Qed.
Lemma ag_scalar_mul_vec m a b : agree (scalar_mul_vec Debug m a b) (scalar_mul_vec Release m a b). Proof. agu scalar_mul_vec. Qed.
Lemma ag_add_vec m a b : agree (add_vec Debug m a b) (add_vec Release m a b). Proof. agu add_vec. Qed.
Lemma ag_sub_vec m a b : agree (sub_vec Debug m a b) (sub_vec Release m a b). Proof. agu sub_vec. Qed.
Lemma ag_mul_vec m a b : agree (mul_vec Debug m a b) (mul_vec Release m a b). Proof. agu mul_vec. Qed.
Lemma ag_neg_vec m a : agree (neg_vec Debug m a) (neg_vec Release m a). Proof. agu neg_vec. Qed.
#[export] Hint Resolve ag_mul_shoup ag_scalar_mul_vec ag_add_vec ag_sub_vec ag_mul_vec ag_neg_vec : ag.

(** utils.rs *)
Lemma ag_decompose_bits m p d : agree (decompose_bits Debug m p d) (decompose_bits Release m p d). Proof. agu decompose_bits. Qed.
Lemma ag_cbd_loop nb ma ms w size : forall pool nbits k, agree (cbd_loop Debug nb ma ms w size pool nbits k) (cbd_loop Release nb ma ms w size pool nbits k).
Proof.
  induction size as [|size IH]; intros pool nbits k; cbn [cbd_loop]; [apply agree_refl|].
  destruct (nbits <? nb); cbv beta iota; (apply agree_bind; [apply agree_dassert|]; intros; apply agree_bind; [apply IH|]; intros; apply agree_refl).
Qed.
#[export] Hint Resolve ag_decompose_bits ag_cbd_loop : ag.
Lemma ag_sample_vec_cbd n v w : agree (sample_vec_cbd Debug n v w) (sample_vec_cbd Release n v w). Proof. agu sample_vec_cbd. Qed.
Lemma ag_ilog2 w v : agree (ilog2 Debug w v) (ilog2 Release w v). Proof. agu ilog2. Qed.
Lemma ag_div_ceil w a b : agree (div_ceil Debug w a b) (div_ceil Release w a b). Proof. agu div_ceil. Qed.
Lemma ag_generate_prime ip n m u : agree (generate_prime Debug ip n m u) (generate_prime Release ip n m u). Proof. agu generate_prime. Qed.
Lemma ag_u256_to2 x : agree (u256_to2 Debug x) (u256_to2 Release x). Proof. agu u256_to2. Qed.
Lemma ag_u256_to_u128 x : agree (u256_to_u128 Debug x) (u256_to_u128 Release x). Proof. agu u256_to_u128. Qed.
Lemma ag_u256_shr x s : agree (u256_shr Debug x s) (u256_shr Release x s). Proof. agu u256_shr. Qed.
#[export] Hint Resolve ag_sample_vec_cbd ag_ilog2 ag_div_ceil ag_generate_prime ag_u256_to2 ag_u256_to_u128 ag_u256_shr : ag.

(** ntt.rs *)
Lemma ag_is_primitive_root v n p : agree (is_primitive_root Debug v n p) (is_primitive_root Release v n p). Proof. agu is_primitive_root. Qed.
#[export] Hint Resolve ag_is_primitive_root : ag.
Lemma ag_primitive_root_loop env tries : forall k l n p, agree (primitive_root_loop Debug env tries k l n p) (primitive_root_loop Release env tries k l n p).
Proof. induction tries as [|t IH]; intros; cbn [primitive_root_loop]; ag. Qed.
#[export] Hint Resolve ag_primitive_root_loop : ag.
Lemma ag_primitive_root env n p : agree (primitive_root Debug env n p) (primitive_root Release env n p). Proof. agu primitive_root. Qed.
Lemma ag_powers_loop p w c : forall v, agree (powers_loop Debug p w c v) (powers_loop Release p w c v).
Proof. induction c as [|c IH]; intros; cbn [powers_loop]; ag. Qed.
#[export] Hint Resolve ag_primitive_root ag_powers_loop : ag.
Lemma ag_ntt_new env p n : agree (ntt_new Debug env p n) (ntt_new Release env p n). Proof. agu ntt_new. Qed.
Lemma ag_butterfly op x y w s : agree (butterfly Debug op x y w s) (butterfly Release op x y w s). Proof. agu butterfly. Qed.
Lemma ag_butterfly_inv op x y w s : agree (butterfly_inv Debug op x y w s) (butterfly_inv Release op x y w s). Proof. agu butterfly_inv. Qed.
Lemma ag_reduce_4p a p : agree (reduce_4p Debug a p) (reduce_4p Release a p). Proof. agu reduce_4p. Qed.
#[export] Hint Resolve ag_ntt_new ag_butterfly ag_butterfly_inv ag_reduce_4p : ag.
Lemma ag_bf_at f g a i j : (forall x y, agree (f x y) (g x y)) -> agree (bf_at f a i j) (bf_at g a i j).
Proof. intros H. unfold bf_at. ag; apply H. Qed.
Lemma ag_fwd_block op l st i : agree (fwd_block Debug op l st i) (fwd_block Release op l st i).
Proof. unfold fwd_block. ag; apply ag_bf_at; intros; ag. Qed.
Lemma ag_bwd_block op l st i : agree (bwd_block Debug op l st i) (bwd_block Release op l st i).
Proof. unfold bwd_block. ag; apply ag_bf_at; intros; ag. Qed.
#[export] Hint Resolve ag_fwd_block ag_bwd_block : ag.
Lemma ag_fwd_loop op f : forall l m k a, agree (fwd_loop Debug op f l m k a) (fwd_loop Release op f l m k a).
Proof. induction f as [|f IH]; intros; cbn [fwd_loop]; ag. Qed.
Lemma ag_bwd_loop op f : forall l m k a, agree (bwd_loop Debug op f l m k a) (bwd_loop Release op f l m k a).
Proof. induction f as [|f IH]; intros; cbn [bwd_loop]; ag. Qed.
#[export] Hint Resolve ag_fwd_loop ag_bwd_loop : ag.
Lemma ag_ntt_forward op a : agree (ntt_forward Debug op a) (ntt_forward Release op a). Proof. agu ntt_forward. Qed.
Lemma ag_ntt_backward op a : agree (ntt_backward Debug op a) (ntt_backward Release op a). Proof. agu ntt_backward. Qed.
#[export] Hint Resolve ag_ntt_forward ag_ntt_backward : ag.

(** rns.rs *)
Lemma ag_rns_scaler_new f t s : agree (rns_scaler_new Debug f t s) (rns_scaler_new Release f t s). Proof. agu rns_scaler_new. Qed.
Lemma ag_sum_theta_garner los : forall his rs acc, agree (sum_theta_garner Debug los his rs acc) (sum_theta_garner Release los his rs acc).
Proof. induction los as [|x los IH]; intros [|y his] [|z rs] acc; cbn [sum_theta_garner]; ag. Qed.
Lemma ag_sum_theta_omega los : forall his sg rs acc, agree (sum_theta_omega Debug los his sg rs acc) (sum_theta_omega Release los his sg rs acc).
Proof. induction los as [|x los IH]; intros [|y his] [|b sg] [|z rs] acc; cbn [sum_theta_omega]; ag. Qed.
#[export] Hint Resolve ag_rns_scaler_new ag_sum_theta_garner ag_sum_theta_omega : ag.
Lemma ag_scale_v s r : agree (scale_v Debug s r) (scale_v Release s r). Proof. agu scale_v. Qed.
Lemma ag_scale_w s r v : agree (scale_w Debug s r v) (scale_w Release s r v). Proof. agu scale_w. Qed.
Lemma ag_scale_inner q rs : forall o os y, agree (scale_inner Debug q rs o os y) (scale_inner Release q rs o os y).
Proof. induction rs as [|r rs IH]; intros o os y; cbn [scale_inner]; ag. Qed.
#[export] Hint Resolve ag_scale_v ag_scale_w ag_scale_inner : ag.
Lemma ag_scale_out s r v w i : agree (scale_out Debug s r v w i) (scale_out Release s r v w i). Proof. agu scale_out. Qed.
#[export] Hint Resolve ag_scale_out : ag.
Lemma ag_rns_scale s r o i : agree (rns_scale Debug s r o i) (rns_scale Release s r o i). Proof. agu rns_scale. Qed.
#[export] Hint Resolve ag_rns_scale : ag.

(** rq.rs *)
Lemma ag_rq_new_fuel env f : forall ms d b, agree (rq_new_fuel Debug env f ms d b) (rq_new_fuel Release env f ms d b).
Proof. induction f as [|f IH]; intros; cbn [rq_new_fuel]; ag. Qed.
#[export] Hint Resolve ag_rq_new_fuel : ag.
Lemma ag_rq_new env ms d b : agree (rq_new Debug env ms d b) (rq_new Release env ms d b). Proof. agu rq_new. Qed.
Lemma ag_change_repr p r : agree (change_repr Debug p r) (change_repr Release p r). Proof. agu change_repr. Qed.
Lemma ag_apply_bit_decomposition p : agree (apply_bit_decomposition Debug p) (apply_bit_decomposition Release p). Proof. agu apply_bit_decomposition. Qed.
Lemma ag_subst_loop d m e c : forall pw, agree (subst_loop Debug d m e pw c) (subst_loop Release d m e pw c).
Proof. induction c as [|c IH]; intros; cbn [subst_loop]; ag. Qed.
#[export] Hint Resolve ag_subst_loop : ag.
Lemma ag_subst_new c e : agree (subst_new Debug c e) (subst_new Release c e). Proof. agu subst_new. Qed.
Lemma ag_subst_pb_step d pw j dst q src : agree (subst_pb_step Debug d pw j dst q src) (subst_pb_step Release d pw j dst q src). Proof. agu subst_pb_step. Qed.
#[export] Hint Resolve ag_subst_new ag_subst_pb_step : ag.
Lemma ag_subst_pb_loop d e qs c : forall j pw rows, agree (subst_pb_loop Debug d e qs c j pw rows) (subst_pb_loop Release d e qs c j pw rows).
Proof. induction c as [|c IH]; intros; cbn [subst_pb_loop]; ag. Qed.
#[export] Hint Resolve ag_rq_new ag_change_repr ag_apply_bit_decomposition ag_subst_pb_loop : ag.
Lemma ag_poly_substitute p a : agree (poly_substitute Debug p a) (poly_substitute Release p a). Proof. agu poly_substitute. Qed.
Lemma ag_msd_row q i s h a b : agree (msd_row Debug q i s h a b) (msd_row Release q i s h a b). Proof. agu msd_row. Qed.
#[export] Hint Resolve ag_poly_substitute ag_msd_row : ag.
Lemma ag_mod_switch_down_next p : agree (mod_switch_down_next Debug p) (mod_switch_down_next Release p). Proof. agu mod_switch_down_next. Qed.
#[export] Hint Resolve ag_mod_switch_down_next : ag.
Lemma ag_msd_iter n : forall p, agree (msd_iter Debug n p) (msd_iter Release n p).
Proof. induction n as [|n IH]; intros; cbn [msd_iter]; ag. Qed.
#[export] Hint Resolve ag_msd_iter : ag.
Lemma ag_mod_switch_to p c : agree (mod_switch_to Debug p c) (mod_switch_to Release p c). Proof. agu mod_switch_to. Qed.
Lemma ag_poly_inverse p : agree (poly_inverse Debug p) (poly_inverse Release p). Proof. agu poly_inverse. Qed.
Lemma ag_poly_from_u64 c a : agree (poly_from_u64 Debug c a) (poly_from_u64 Release c a). Proof. agu poly_from_u64. Qed.
Lemma ag_poly_from_i64 c a : agree (poly_from_i64 Debug c a) (poly_from_i64 Release c a). Proof. agu poly_from_i64. Qed.
#[export] Hint Resolve ag_mod_switch_to ag_poly_inverse ag_poly_from_u64 ag_poly_from_i64 : ag.
Lemma ag_poly_random_small c r v w : agree (poly_random_small Debug c r v w) (poly_random_small Release c r v w). Proof. agu poly_random_small. Qed.
Lemma ag_poly_add a b : agree (poly_add Debug a b) (poly_add Release a b). Proof. agu poly_add. Qed.
Lemma ag_poly_sub a b : agree (poly_sub Debug a b) (poly_sub Release a b). Proof. agu poly_sub. Qed.
Lemma ag_poly_mul a b : agree (poly_mul Debug a b) (poly_mul Release a b). Proof. agu poly_mul. Qed.
#[export] Hint Resolve ag_poly_random_small ag_poly_add ag_poly_sub ag_poly_mul : ag.
Lemma ag_poly_mul_big a k : agree (poly_mul_big Debug a k) (poly_mul_big Release a k). Proof. agu poly_mul_big. Qed.
Lemma ag_poly_neg a : agree (poly_neg Debug a) (poly_neg Release a). Proof. agu poly_neg. Qed.
Lemma ag_rq_scaler_new f t s : agree (rq_scaler_new Debug f t s) (rq_scaler_new Release f t s). Proof. agu rq_scaler_new. Qed.
Lemma ag_rq_scale_pb s p : agree (rq_scale_pb Debug s p) (rq_scale_pb Release s p). Proof. agu rq_scale_pb. Qed.
#[export] Hint Resolve ag_poly_mul_big ag_poly_neg ag_rq_scaler_new ag_rq_scale_pb : ag.
Lemma ag_rq_scale s p : agree (rq_scale Debug s p) (rq_scale Release s p). Proof. agu rq_scale. Qed.
#[export] Hint Resolve ag_rq_scale : ag.

(** bfv.rs *)
Lemma ag_gen_ext_loop env f : forall d ms e u, agree (gen_ext_loop Debug env f d ms e u) (gen_ext_loop Release env f d ms e u).
Proof. induction f as [|f IH]; intros; cbn [gen_ext_loop]; ag. Qed.
#[export] Hint Resolve ag_gen_ext_loop : ag.
Lemma ag_mul_params_new f t u d : agree (mul_params_new Debug f t u d) (mul_params_new Release f t u d). Proof. agu mul_params_new. Qed.
#[export] Hint Resolve ag_mul_params_new : ag.
Lemma ag_level_params env d t ms e ti bd pc i : agree (level_params Debug env d t ms e ti bd pc i) (level_params Release env d t ms e ti bd pc i).
Proof. agu level_params. Qed.
#[export] Hint Resolve ag_level_params : ag.
Lemma ag_bfv_new_from env e d t ms v bd : agree (bfv_new_from Debug env e d t ms v bd) (bfv_new_from Release env e d t ms v bd).
Proof. agu bfv_new_from. Qed.
Lemma ag_gen_ext env d ms : agree (gen_ext Debug env d ms) (gen_ext Release env d ms). Proof. agu gen_ext. Qed.
#[export] Hint Resolve ag_bfv_new_from ag_gen_ext : ag.
Lemma ag_bfv_new env d t ms v bd : agree (bfv_new Debug env d t ms v bd) (bfv_new Release env d t ms v bd). Proof. agu bfv_new. Qed.
Lemma ag_gen_moduli_one env f : forall s d ms u, agree (gen_moduli_one Debug env f s d ms u) (gen_moduli_one Release env f s d ms u).
Proof. induction f as [|f IH]; intros; cbn [gen_moduli_one]; ag. Qed.
#[export] Hint Resolve ag_bfv_new ag_gen_moduli_one : ag.
Lemma ag_gen_moduli_loop env sizes : forall d ms, agree (gen_moduli_loop Debug env sizes d ms) (gen_moduli_loop Release env sizes d ms).
Proof. induction sizes as [|s sizes IH]; intros; cbn [gen_moduli_loop]; ag. Qed.
#[export] Hint Resolve ag_gen_moduli_loop : ag.
Lemma ag_generate_moduli env s d : agree (generate_moduli Debug env s d) (generate_moduli Release env s d). Proof. agu generate_moduli. Qed.
#[export] Hint Resolve ag_generate_moduli : ag.
Lemma ag_bfv_default env n d bd : agree (bfv_default Debug env n d bd) (bfv_default Release env n d bd). Proof. agu bfv_default. Qed.
Lemma ag_pt_new P v l e : agree (pt_new Debug P v l e) (pt_new Release P v l e). Proof. agu pt_new. Qed.
Lemma ag_pt_decode p : agree (pt_decode Debug p) (pt_decode Release p). Proof. agu pt_decode. Qed.
Lemma ag_pt_to_poly p : agree (pt_to_poly Debug p) (pt_to_poly Release p). Proof. agu pt_to_poly. Qed.
Lemma ag_sk_generate P w : agree (sk_generate Debug P w) (sk_generate Release P w). Proof. agu sk_generate. Qed.
Lemma ag_sk_ntt c s : agree (sk_ntt Debug c s) (sk_ntt Release c s). Proof. agu sk_ntt. Qed.
#[export] Hint Resolve ag_bfv_default ag_pt_new ag_pt_decode ag_pt_to_poly ag_sk_generate ag_sk_ntt : ag.
Lemma ag_encrypt_poly sk p a w : agree (encrypt_poly Debug sk p a w) (encrypt_poly Release sk p a w). Proof. agu encrypt_poly. Qed.
#[export] Hint Resolve ag_encrypt_poly : ag.
Lemma ag_encrypt sk p a w : agree (encrypt Debug sk p a w) (encrypt Release sk p a w). Proof. agu encrypt. Qed.
Lemma ag_decrypt_trial sk a b : agree (decrypt_trial Debug sk a b) (decrypt_trial Release sk a b). Proof. agu decrypt_trial. Qed.
Lemma ag_phase_loop s cs m k : agree (phase_loop Debug s cs m k) (phase_loop Release s cs m k). Proof. agu phase_loop. Qed.
#[export] Hint Resolve ag_encrypt ag_decrypt_trial ag_phase_loop : ag.
Lemma ag_decrypt sk ct : agree (decrypt Debug sk ct) (decrypt Release sk ct). Proof. agu decrypt. Qed.
#[export] Hint Resolve ag_decrypt : ag.
Lemma ag_measure_noise sk ct : agree (measure_noise Debug sk ct) (measure_noise Release sk ct). Proof. agu measure_noise. Qed.
Lemma ag_ct_add a b : agree (ct_add Debug a b) (ct_add Release a b). Proof. agu ct_add. Qed.
Lemma ag_ct_add_poly a b : agree (ct_add_poly Debug a b) (ct_add_poly Release a b). Proof. agu ct_add_poly. Qed.
Lemma ag_ct_sub a b : agree (ct_sub Debug a b) (ct_sub Release a b). Proof. agu ct_sub. Qed.
Lemma ag_ct_mul a b : agree (ct_mul Debug a b) (ct_mul Release a b). Proof. agu ct_mul. Qed.
Lemma ag_ct_mul_pt a b : agree (ct_mul_pt Debug a b) (ct_mul_pt Release a b). Proof. agu ct_mul_pt. Qed.
Lemma ag_ct_mul_poly a b : agree (ct_mul_poly Debug a b) (ct_mul_poly Release a b). Proof. agu ct_mul_poly. Qed.
Lemma ag_ct_mul_big a b : agree (ct_mul_big Debug a b) (ct_mul_big Release a b). Proof. agu ct_mul_big. Qed.
#[export] Hint Resolve ag_measure_noise ag_ct_add ag_ct_add_poly ag_ct_sub ag_ct_mul ag_ct_mul_pt ag_ct_mul_poly ag_ct_mul_big : ag.

(** ksk.rs, bfv.rs (keys), rgsw.rs *)
Lemma ag_ksk_entry c v s f w a g : agree (ksk_entry Debug c v s f w a g) (ksk_entry Release c v s f w a g). Proof. agu ksk_entry. Qed.
#[export] Hint Resolve ag_ksk_entry : ag.
Lemma ag_ksk_new sk f a b r : agree (ksk_new Debug sk f a b r) (ksk_new Release sk f a b r). Proof. agu ksk_new. Qed.
#[export] Hint Resolve ag_ksk_new : ag.
Lemma ag_ksk_new_with_pt sk f a b r : agree (ksk_new_with_pt Debug sk f a b r) (ksk_new_with_pt Release sk f a b r). Proof. agu ksk_new_with_pt. Qed.
Lemma ag_key_switch_step c st x : agree (key_switch_step Debug c st x) (key_switch_step Release c st x). Proof. agu key_switch_step. Qed.
#[export] Hint Resolve ag_ksk_new_with_pt ag_key_switch_step : ag.
Lemma ag_key_switch k p : agree (key_switch Debug k p) (key_switch Release k p). Proof. agu key_switch. Qed.
#[export] Hint Resolve ag_key_switch : ag.
Lemma ag_galois_new sk i l r : agree (galois_new Debug sk i l r) (galois_new Release sk i l r). Proof. agu galois_new. Qed.
Lemma ag_galois_relinearize g ct : agree (galois_relinearize Debug g ct) (galois_relinearize Release g ct). Proof. agu galois_relinearize. Qed.
Lemma ag_rlk_new sk l r : agree (rlk_new Debug sk l r) (rlk_new Release sk l r). Proof. agu rlk_new. Qed.
Lemma ag_relinearize_poly r p : agree (relinearize_poly Debug r p) (relinearize_poly Release r p). Proof. agu relinearize_poly. Qed.
#[export] Hint Resolve ag_galois_new ag_galois_relinearize ag_rlk_new ag_relinearize_poly : ag.
Lemma ag_multiply a b r : agree (multiply_with_strategy Debug a b r) (multiply_with_strategy Release a b r). Proof. agu multiply_with_strategy. Qed.
Lemma ag_rgsw_encrypt_poly sk m a b : agree (rgsw_encrypt_poly Debug sk m a b) (rgsw_encrypt_poly Release sk m a b). Proof. agu rgsw_encrypt_poly. Qed.
Lemma ag_rgsw_encrypt sk m a b : agree (rgsw_encrypt Debug sk m a b) (rgsw_encrypt Release sk m a b). Proof. agu rgsw_encrypt. Qed.
Lemma ag_external_product r c : agree (external_product Debug r c) (external_product Release r c). Proof. agu external_product. Qed.
#[export] Hint Resolve ag_multiply ag_rgsw_encrypt_poly ag_rgsw_encrypt ag_external_product : ag.

(** evaluations.rs *)
Lemma ag_client_encode c q d : agree (client_encode Debug c q d) (client_encode Release c q d). Proof. agu client_encode. Qed.
Lemma ag_server_new f d db P : agree (server_new Debug f d db P) (server_new Release f d db P). Proof. agu server_new. Qed.
Lemma ag_gen_x_pows n c : agree (gen_x_pows Debug n c) (gen_x_pows Release n c). Proof. agu gen_x_pows. Qed.
Lemma ag_unpack_step g x i b j : agree (unpack_step Debug g x i b j) (unpack_step Release g x i b j). Proof. agu unpack_step. Qed.
#[export] Hint Resolve ag_client_encode ag_server_new ag_gen_x_pows ag_unpack_step : ag.
Lemma ag_unpack_core e c x : agree (unpack_core Debug e c x) (unpack_core Release e c x). Proof. agu unpack_core. Qed.
#[export] Hint Resolve ag_unpack_core : ag.
Lemma ag_unpack e c : agree (unpack Debug e c) (unpack Release e c). Proof. agu unpack. Qed.
Lemma ag_sum_cts P l : agree (sum_cts Debug P l) (sum_cts Release P l). Proof. agu sum_cts. Qed.
#[export] Hint Resolve ag_unpack ag_sum_cts : ag.
Lemma ag_fold_first P f c d : agree (fold_first Debug P f c d) (fold_first Release P f c d). Proof. agu fold_first. Qed.
Lemma ag_fold_dim P f c d : agree (fold_dim Debug P f c d) (fold_dim Release P f c d). Proof. agu fold_dim. Qed.
Lemma ag_build_rgsw P s v i : agree (build_rgsw Debug P s v i) (build_rgsw Release P s v i). Proof. agu build_rgsw. Qed.
Lemma ag_decode_dimensions s : agree (decode_dimensions Debug s) (decode_dimensions Release s). Proof. agu decode_dimensions. Qed.
#[export] Hint Resolve ag_fold_first ag_fold_dim ag_build_rgsw ag_decode_dimensions : ag.
Lemma ag_server_decode s q e P : agree (server_decode Debug s q e P) (server_decode Release s q e P).
Proof. unfold server_decode, server_decode_with. ag. Qed.
Lemma ag_client_query sk P f e r w rnd : agree (client_query Debug sk P f e r w rnd) (client_query Release sk P f e r w rnd). Proof. agu client_query. Qed.
Lemma ag_eval_build sk P r a b : agree (eval_build Debug sk P r a b) (eval_build Release sk P r a b). Proof. agu eval_build. Qed.

(** pvw.rs, omr.rs *)
Lemma ag_pvw_dot q n x y : agree (pvw_dot Debug q n x y) (pvw_dot Release q n x y). Proof. agu pvw_dot. Qed.
#[export] Hint Resolve ag_pvw_dot : ag.
Lemma ag_pvw_pk_entry q n sk a err l p m : agree (pvw_pk_entry Debug q n sk a err l p m) (pvw_pk_entry Release q n sk a err l p m). Proof. agu pvw_pk_entry. Qed.
#[export] Hint Resolve ag_pvw_pk_entry : ag.
Lemma ag_pvw_gen_pk sk P a w : agree (pvw_gen_pk Debug sk P a w) (pvw_gen_pk Release sk P a w). Proof. agu pvw_gen_pk. Qed.
Lemma ag_pvw_decrypt sk P c : agree (pvw_decrypt Debug sk P c) (pvw_decrypt Release sk P c). Proof. agu pvw_decrypt. Qed.
Lemma ag_pvw_acc q e a r : agree (pvw_acc Debug q e a r) (pvw_acc Release q e a r). Proof. agu pvw_acc. Qed.
#[export] Hint Resolve ag_pvw_acc : ag.
Lemma ag_pvw_encrypt pk P m e : agree (pvw_encrypt Debug pk P m e) (pvw_encrypt Release pk P m e). Proof. agu pvw_encrypt. Qed.
Lemma ag_inner_product c p : agree (inner_product Debug c p) (inner_product Release c p). Proof. agu inner_product. Qed.
Lemma ag_encode_column op d c f l : agree (encode_column Debug op d c f l) (encode_column Release op d c f l). Proof. agu encode_column. Qed.
#[export] Hint Resolve ag_encode_column : ag.
Lemma ag_process_clues env P c : agree (process_clues Debug env P c) (process_clues Release env P c). Proof. agu process_clues. Qed.
