(** Model of the generators the crate seeds itself: [ChaCha8Rng::seed_from_u64(0)]
    of src/ntt.rs:214 and the generator of src/rq.rs:478-499.
    ChaCha, SHA-256 and the seeding of rand_core 0.6 are external crates whose
    sources are not in /repo; they are transcribed from their published
    definitions and checked against published test vectors (in QChaCha.v). *)
From Verif Require Import Base MModulus MNtt MRq MRand.

(** 32-bit words. *)
Definition as32 (x : Z) : Z := x mod 4294967296.
Definition add32 (a b : Z) : Z := as32 (a + b).
Definition rotl32 (x r : Z) : Z := Z.lor (as32 (Z.shiftl x r)) (Z.shiftr x (32 - r)).
Definition rotr32 (x r : Z) : Z := if r =? 0 then x else Z.lor (Z.shiftr x r) (as32 (Z.shiftl x (32 - r))).

(** ChaCha: the state is 16 words. *)
Definition w32 (st : list Z) (i : nat) : Z := nth i st 0.
Fixpoint put (st : list Z) (i : nat) (x : Z) : list Z :=
  match st, i with
  | [], _ => []
  | _ :: st', O => x :: st'
  | y :: st', S i' => y :: put st' i' x
  end.
Definition quarter (st : list Z) (a b c d : nat) : list Z :=
  let va := add32 (w32 st a) (w32 st b) in
  let vd := rotl32 (Z.lxor (w32 st d) va) 16 in
  let vc := add32 (w32 st c) vd in
  let vb := rotl32 (Z.lxor (w32 st b) vc) 12 in
  let va2 := add32 va vb in
  let vd2 := rotl32 (Z.lxor vd va2) 8 in
  let vc2 := add32 vc vd2 in
  let vb2 := rotl32 (Z.lxor vb vc2) 7 in
  put (put (put (put st a va2) b vb2) c vc2) d vd2.
Definition double_round (st : list Z) : list Z :=
  let st := quarter st 0 4 8 12 in
  let st := quarter st 1 5 9 13 in
  let st := quarter st 2 6 10 14 in
  let st := quarter st 3 7 11 15 in
  let st := quarter st 0 5 10 15 in
  let st := quarter st 1 6 11 12 in
  let st := quarter st 2 7 8 13 in
  quarter st 3 4 9 14.
Fixpoint rounds (n : nat) (st : list Z) : list Z :=
  match n with O => st | S n' => rounds n' (double_round st) end.
(** One block: constants, key of 8 words, 64-bit counter, stream 0. *)
Definition chacha_block (double_rounds : nat) (key : list Z) (counter : Z) : list Z :=
  let st := [1634760805; 857760878; 2036477234; 1797285236] ++ key
            ++ [as32 counter; as32 (Z.shiftr counter 32); 0; 0] in
  map (fun ab => add32 (fst ab) (snd ab)) (combine st (rounds double_rounds st)).

(** [next_u64] of [BlockRng]: two words of the block, the low one first. *)
Fixpoint pair_words (l : list Z) : list Z :=
  match l with
  | a :: b :: l' => (a + Z.shiftl b 32) :: pair_words l'
  | _ => []
  end.
(** The u64 words of the first [blocks] blocks of [ChaCha8Rng]. *)
Definition chacha8_words (key : list Z) (blocks : nat) : list Z :=
  concat (map (fun i => pair_words (chacha_block 4 key (Z.of_nat i))) (seq 0 blocks)).

(** [SeedableRng::seed_from_u64] of rand_core 0.6: eight outputs of PCG32. *)
Definition pcg_step (s : Z) : Z := as64 (s * 6364136223846793005 + 11634580027462260723).
Definition pcg_out (s : Z) : Z :=
  rotr32 (as32 (Z.shiftr (Z.lxor (Z.shiftr s 18) s) 27)) (Z.shiftr s 59).
Fixpoint pcg_seed (n : nat) (s : Z) : list Z :=
  match n with O => [] | S n' => let s' := pcg_step s in pcg_out s' :: pcg_seed n' s' end.
Definition seed_from_u64 (s : Z) : list Z := pcg_seed 8 s.

(** The draws of [primitive_root] (src/ntt.rs:214-217): the k-th [gen_range]. *)
Fixpoint kth_draw (p : Z) (k : nat) (ws : list Z) : outcome Z :=
  '(x, ws') <- gen_range p ws ;;
  match k with O => Ok x | S k' => kth_draw p k' ws' end.
Definition ntt_words (blocks : nat) : list Z := chacha8_words (seed_from_u64 0) blocks.

(** SHA-256 of a message of 32 bytes, which is one block. *)
Definition sha_k : list Z :=
  [1116352408; 1899447441; 3049323471; 3921009573; 961987163; 1508970993; 2453635748; 2870763221;
   3624381080; 310598401; 607225278; 1426881987; 1925078388; 2162078206; 2614888103; 3248222580;
   3835390401; 4022224774; 264347078; 604807628; 770255983; 1249150122; 1555081692; 1996064986;
   2554220882; 2821834349; 2952996808; 3210313671; 3336571891; 3584528711; 113926993; 338241895;
   666307205; 773529912; 1294757372; 1396182291; 1695183700; 1986661051; 2177026350; 2456956037;
   2730485921; 2820302411; 3259730800; 3345764771; 3516065817; 3600352804; 4094571909; 275423344;
   430227734; 506948616; 659060556; 883997877; 958139571; 1322822218; 1537002063; 1747873779;
   1955562222; 2024104815; 2227730452; 2361852424; 2428436474; 2756734187; 3204031479; 3329325298].
Definition sha_h0 : list Z :=
  [1779033703; 3144134277; 1013904242; 2773480762; 1359893119; 2600822924; 528734635; 1541459225].
Definition not32 (x : Z) : Z := 4294967295 - x.
(** The message schedule; [w] holds the words so far, the newest first. *)
Definition sha_next (w : list Z) : Z :=
  let w15 := nth 14 w 0 in
  let w2 := nth 1 w 0 in
  let s0 := Z.lxor (Z.lxor (rotr32 w15 7) (rotr32 w15 18)) (Z.shiftr w15 3) in
  let s1 := Z.lxor (Z.lxor (rotr32 w2 17) (rotr32 w2 19)) (Z.shiftr w2 10) in
  as32 (nth 15 w 0 + s0 + nth 6 w 0 + s1).
Fixpoint sha_schedule (n : nat) (w : list Z) : list Z :=
  match n with O => w | S n' => sha_schedule n' (sha_next w :: w) end.
Definition sha_round (st : list Z) (kw : Z * Z) : list Z :=
  match st with
  | [a; b; c; d; e; f; g; h] =>
      let S1 := Z.lxor (Z.lxor (rotr32 e 6) (rotr32 e 11)) (rotr32 e 25) in
      let ch := Z.lxor (Z.land e f) (Z.land (not32 e) g) in
      let t1 := as32 (h + S1 + ch + fst kw + snd kw) in
      let S0 := Z.lxor (Z.lxor (rotr32 a 2) (rotr32 a 13)) (rotr32 a 22) in
      let maj := Z.lxor (Z.lxor (Z.land a b) (Z.land a c)) (Z.land b c) in
      let t2 := as32 (S0 + maj) in
      [add32 t1 t2; a; b; c; add32 d t1; e; f; g]
  | _ => st
  end.
Definition sha_block (block : list Z) : list Z :=
  let w := rev (sha_schedule 48 (rev block)) in
  map (fun ab => add32 (fst ab) (snd ab)) (combine sha_h0 (fold_left sha_round (combine sha_k w) sha_h0)).

(** Bytes to words: SHA reads big endian, ChaCha reads its key little endian. *)
Definition be4 (a b c d : Z) : Z := a * 16777216 + b * 65536 + c * 256 + d.
Fixpoint be_words (l : list Z) : list Z :=
  match l with a :: b :: c :: d :: l' => be4 a b c d :: be_words l' | _ => [] end.
Definition swap32 (x : Z) : Z :=
  be4 (x mod 256) (x / 256 mod 256) (x / 65536 mod 256) (x / 16777216 mod 256).
(** The key of the generator: the hash of the seed (32 bytes). *)
Definition seed_key (seed : list Z) : list Z :=
  map swap32 (sha_block (be_words seed ++ [2147483648; 0; 0; 0; 0; 0; 0; 256])).

(** src/rq.rs:478-499 [random_from_seed]; [blocks] bounds the blocks used. *)
Definition poly_random_from_seed (ctx : RqContext) (r : repr) (seed : list Z) (blocks : nat) : outcome Poly :=
  rassert (length seed =? 32)%nat ;;;
  '(rows, _) <- random_rows (rq_degree ctx) (zero_rows ctx) (rq_moduli ctx) (chacha8_words (seed_key seed) blocks) ;;
  Ok (mkPoly ctx r rows).
