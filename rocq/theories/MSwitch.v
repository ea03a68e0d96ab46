(** Client code over [Poly::mod_switch_to]: moving a ciphertext to a deeper level,
    and programs in stages of decreasing modulus.  (Synthetic: the crate offers
    the operation on polynomials only, the fields of [BfvCipherText],
    /repo/src/bfv.rs:417-422, are public; every operation used is the modelled
    function, cited at its definition.) *)
From Verif Require Import Base MModulus MUtils MNtt MRns MRq MBfv MKsk MGalois MRgsw MCirc.

Section Switch.
Variable pr : profile.

(** to coefficients, /repo/src/rq.rs:427-433 [mod_switch_to], back to Ntt form. *)
Definition ct_switch (ct : Ct) (j : nat) : outcome Ct :=
  ctx <- get (bp_q_ctxs (ct_params ct)) j ;;
  cts <- mapM (fun p => p1 <- change_repr pr p PowerBasis ;; p2 <- mod_switch_to pr p1 ctx ;; change_repr pr p2 Ntt) (ct_cts ct) ;;
  Ok (mkCt (ct_params ct) cts j).

(** A stage: switch all ciphertexts to a level, then evaluate circuits there. *)
Record Stage := mkStage { st_level : nat; st_keys : Keys; st_out : list circ }.
Fixpoint run_stages (cts : list Ct) (l : list Stage) : outcome (list Ct) :=
  match l with
  | [] => Ok cts
  | s :: l' =>
      ins <- mapM (fun ct => ct_switch ct (st_level s)) cts ;;
      outs <- mapM (run_circ pr (st_keys s) ins) (st_out s) ;;
      run_stages outs l'
  end.
End Switch.
