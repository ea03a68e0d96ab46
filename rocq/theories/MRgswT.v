(** Model of the client code in the test module of /repo/src/rgsw.rs: keys made
    from other keys with the external product. *)
From Verif Require Import Base MModulus MUtils MNtt MRns MRq MBfv MKsk MRgsw.

Section RgswT.
Variable pr : profile.

(** src/rgsw.rs:269-286 (test [contruct_ksk_from_rgsw]): every pair of the key
    is multiplied by the RGSW ciphertext *)
Definition ksk_transform (r : RgswCt) (k : Ksk) : outcome Ksk :=
  ps <- mapM (fun bc : Poly * Poly => external_product pr r (mkCt (k_params k) [fst bc; snd bc] 0))
             (combine (k_c0 k) (k_c1 k)) ;;
  Ok (mkKsk (k_params k) (map fst ps) (map snd ps) (k_ksk_ctx k) (k_ct_ctx k)).

(** Both halves of an RGSW ciphertext multiplied by another one.  (Synthetic:
    the crate has no such function; the halves are built as in
    [contruct_ksk_from_rgsw], src/rgsw.rs:269-286, and combined by
    [try_from_ksks], src/rgsw.rs:80-85.) *)
Definition rgsw_product (r1 r2 : RgswCt) : outcome RgswCt :=
  k0 <- ksk_transform r1 (rg_ksk0 r2) ;;
  k1 <- ksk_transform r1 (rg_ksk1 r2) ;;
  Ok (rgsw_from_ksks k0 k1).

(** src/rgsw.rs:207-232 (test [construct_full_from_half]): the upper half is the
    lower one times the encrypted secret key *)
Definition full_from_half (P : BfvParams) (sk_rgsw : RgswCt) (b_ksk : Ksk) : outcome RgswCt :=
  up <- mapM (fun bc : Poly * Poly =>
                '(c0, c1) <- external_product pr sk_rgsw (mkCt P [fst bc; snd bc] 0) ;;
                Ok (mkCt P [c0; c1] 0)) (combine (k_c0 b_ksk) (k_c1 b_ksk)) ;;
  upper <- ksk_from_rlwes P up ;;
  Ok (rgsw_from_ksks upper b_ksk).

End RgswT.
