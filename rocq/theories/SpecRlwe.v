(** Specification of Ring-LWE samples (C70). *)
From Verif Require Import Base MModulus MUtils MNtt MRns MRq MBfv MKsk Spec SpecRq SpecBfv.

(** [(b, a)] is the Ring-LWE sample for the secret, whose mask [a] is the
    uniform draw [rows] and whose error is the output of the sampler (whose
    distribution is the subject of C65) on the words [w]: b + a s = e mod Q. *)
Definition rlwe (pr : profile) (P : BfvParams) (c : RqContext) (sk : SecretKey) (rows : list (list Z)) (w : nat -> Z) (b : nat -> Z) : Prop :=
  exists a e, mkPoly c Ntt rows = rep c Ntt a
    /\ sample_vec_cbd pr (bp_degree P) (bp_variance P) w = Ok e /\ length e = bp_degree P
    /\ forall j, (j < bp_degree P)%nat -> b j + rmul (bp_degree P) a (sk_fun sk) j = nth j e 0.

(** The key-switching key made of the samples [b] and the message [u]: row k is
    sample k plus [u] times the k-th (public) Garner constant. *)
Definition ksk_of (P : BfvParams) (c : RqContext) (rnd : RndKsk) (b : nat -> nat -> Z) (u : nat -> Z) : Ksk :=
  mkKsk P (map (fun k => rep c Ntt (fun j => b k j + nth k (rns_garner (rq_rns c)) 0 * u j)) (seq 0 (cx_k c)))
        (map (fun k => mkPoly c Ntt (rnd_rows rnd k)) (seq 0 (cx_k c))) c c.
Definition rlwes (pr : profile) (P : BfvParams) (c : RqContext) (sk : SecretKey) (rnd : RndKsk) (b : nat -> nat -> Z) : Prop :=
  forall k, (k < cx_k c)%nat -> rlwe pr P c sk (rnd_rows rnd k) (rnd_words rnd k) (b k).
