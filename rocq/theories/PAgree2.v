(** A run of any program of API calls that succeeds in a debug build gives the
    same values in a release build. *)
From Verif Require Import PBase MModulus MUtils MNtt MRns MRq MBfv MKsk MRgsw MEval MPvw MOmr MApi PAgree.

#[export] Hint Resolve ag_server_decode ag_client_query ag_eval_build ag_pvw_gen_pk ag_pvw_decrypt ag_pvw_encrypt
  ag_inner_product ag_process_clues : ag.

Lemma ag_mod1 o m a : agree (exec_mod1 Debug o m a) (exec_mod1 Release o m a). Proof. destruct o; agu exec_mod1. Qed.
Lemma ag_mod2 o m a b : agree (exec_mod2 Debug o m a b) (exec_mod2 Release o m a b). Proof. destruct o; agu exec_mod2. Qed.
Lemma ag_vec1 o m a : agree (exec_vec1 Debug o m a) (exec_vec1 Release o m a). Proof. destruct o; agu exec_vec1. Qed.
Lemma ag_vec2 o m a b : agree (exec_vec2 Debug o m a b) (exec_vec2 Release o m a b). Proof. destruct o; agu exec_vec2. Qed.
Lemma ag_poly2 o a b : agree (exec_poly2 Debug o a b) (exec_poly2 Release o a b). Proof. destruct o; agu exec_poly2. Qed.
Lemma ag_ct2 o a b : agree (exec_ct2 Debug o a b) (exec_ct2 Release o a b). Proof. destruct o; agu exec_ct2. Qed.
#[export] Hint Resolve ag_mod1 ag_mod2 ag_vec1 ag_vec2 ag_poly2 ag_ct2 : ag.

Lemma ag_exec env st c : agree (exec Debug env st c) (exec Release env st c).
Proof. destruct c; cbn [exec]; unfold ret1, retz; ag. Qed.
#[export] Hint Resolve ag_exec : ag.
Lemma ag_run env prog : agree (run Debug env prog) (run Release env prog).
Proof. agu run. Qed.
