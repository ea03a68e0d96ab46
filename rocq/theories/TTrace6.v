(** Property theorems; the proofs are in QTrace6.v. *)
From Verif Require Import PBase MModulus MUtils MNtt MRns MRq MBfv MKsk MGalois MRgsw MEval MTrace MTrace2 MTrace4 MTrace6 SpecTrace SpecTrace2 SpecTrace6 QTrace QTrace2 QTrace4 TestEnv TestBfv QTrace6.

(** The recorded runs compute what the model computes in a Release build. *)
Theorem C99_values :
  (forall k p, snd (t_key_switch k p) = key_switch Release k p)
  /\ (forall r c, snd (t_external_product r c) = external_product Release r c)
  /\ (forall g c, snd (t_galois_relinearize g c) = galois_relinearize Release g c)
  /\ (forall ev c, snd (t_unpack ev c) = unpack Release ev c)
  /\ (forall ev c xs, snd (t_unpack_core ev c xs) = unpack_core Release ev c xs)
  /\ (forall s q ev P, snd (t_server_decode s q ev P) = server_decode Release s q ev P)
  /\ (forall xs s q ev P, snd (t_server_decode_with (fun ct => t_unpack_core ev ct xs) s q ev P)
        = server_decode_with Release (fun ct => unpack_core Release ev ct xs) s q ev P).
Proof. exact C99_values_lem. Qed.
Print Assumptions C99_values.

(** Key switching, external products and rotations take the same steps
    whatever the ciphertext and the key. *)
Theorem C99_products :
  (forall k k' p p', ksk_like k k' -> alike p p' -> looks_same (t_key_switch k p) (t_key_switch k' p'))
  /\ (forall r r' c c', rgsw_like r r' -> ct_like c c' -> looks_same (t_external_product r c) (t_external_product r' c'))
  /\ (forall g g' c c', gk_like g g' -> ct_like c c' -> looks_same (t_galois_relinearize g c) (t_galois_relinearize g' c')).
Proof. exact C99_products_lem. Qed.
Print Assumptions C99_products.

(** Expanding a query and answering it take the same steps for all queries,
    evaluation keys and contents of the database; answers have the same number
    and shape.  [unpack] of the code stops in the computation of the powers of
    X (C42), so the statements are given for the code and, with the powers of X
    as an argument, for everything after that computation. *)
Theorem C99_server :
  (forall ev ev' c c', ev_like ev ev' -> ct_like c c' -> looks_same (t_unpack ev c) (t_unpack ev' c'))
  /\ (forall xs ev ev' c c', ev_like ev ev' -> ct_like c c' -> looks_same (t_unpack_core ev c xs) (t_unpack_core ev' c' xs))
  /\ (forall s s' q q' ev ev' P, server_like s s' -> Forall2 ct_like q q' -> ev_like ev ev' ->
        looks_same (t_server_decode s q ev P) (t_server_decode s' q' ev' P))
  /\ (forall xs s s' q q' ev ev' P, server_like s s' -> Forall2 ct_like q q' -> ev_like ev ev' ->
        let run s q ev := t_server_decode_with (fun ct => t_unpack_core ev ct xs) s q ev P in
        let decode s q ev := server_decode_with Release (fun ct => unpack_core Release ev ct xs) s q ev P in
        looks_same (run s q ev) (run s' q' ev')
        /\ forall a a', decode s q ev = Ok a -> decode s' q' ev' = Ok a' -> Forall2 ct_like a a').
Proof. exact C99_server_lem. Qed.
Print Assumptions C99_server.

(** Switching two polynomials with two keys: different results, the same
    number of steps. *)
Example C99_example :
  (c <- test_ctx Release [1048609] ;;
   a <- poly_from_u64 Release c [1; 2; 3; 4; 5; 6; 7; 8] ;; b <- poly_from_u64 Release c [0; 0; 90; 0; 11; 0; 0; 3] ;;
   u <- change_repr Release a Ntt ;; v <- change_repr Release b Ntt ;;
   let key x := mkKsk (mkBfv 8 17 c [1048609] None [c] [] [] [] [] [] [] 1) [x] [x] c c in
   let t := t_key_switch (key u) a in let t' := t_key_switch (key v) b in
   '(x, _) <- snd t ;; '(x', _) <- snd t' ;;
   Ok (zlist_eqb (concat (p_rows x)) (concat (p_rows x')), length (fst t) =? length (fst t'), 100 <? length (fst t))%nat)
  = Ok (false, true, true).
Proof. vm_compute. reflexivity. Qed.
