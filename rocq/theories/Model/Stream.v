(* Model of src/stream.c. uint32_t words are Z in [0, 2^32), arrays are lists.
   The keystream block is kept as its 64 memory bytes: on big-endian hosts the
   code byte-swaps the words (stream.c:173-176, 374-377), on little-endian ones
   memory order is already little endian, so both give le bytes of each word. *)
From Verif.Base Require Import Prelude.
From Verif.Model Require Import Bio Util.

(* ---- ARC4 ---- *)
(* stream.c:27-31 swap(s[i], s[j]) *)
Definition swap (s : list Z) (i j : Z) : list Z :=
  let x := rd s (Z.to_nat i) in
  let s := upd s (Z.to_nat i) (rd s (Z.to_nat j)) in
  upd s (Z.to_nat j) x.

Record arc4 := mkArc4 { a_s : list Z; a_i : Z; a_j : Z }.

(* stream.c:45-49, i from i on, n iterations to go *)
Fixpoint arc4_ksa (n : nat) (i : Z) (j : Z) (s key : list Z) : list Z :=
  match n with
  | O => s
  | S m =>
    let j := Z.land (j + rd s (Z.to_nat i) + rd key (Z.to_nat (i mod Z.of_nat (length key)))) 0xff in
    arc4_ksa m (i + 1) j (swap s i j) key
  end.

(* stream.c:33-53; None is the failed CHECK *)
Definition arc4_init (key : list Z) : option arc4 :=
  let k := length key in
  if negb ((1 <=? k)%nat && (k <=? 256)%nat) then None
  else Some (mkArc4 (arc4_ksa 256 0 0 (zseq 0 256) key) 0 0).

(* stream.c:65-73: one iteration, the keystream byte and the new context *)
Definition arc4_step (c : arc4) : Z * arc4 :=
  let i := Z.land (a_i c + 1) 0xff in
  let j := Z.land (a_j c + rd (a_s c) (Z.to_nat i)) 0xff in
  let s := swap (a_s c) i j in
  (rd s (Z.to_nat (Z.land (rd s (Z.to_nat i) + rd s (Z.to_nat j)) 0xff)), mkArc4 s i j).

(* stream.c:55-76 *)
Fixpoint arc4_crypt (c : arc4) (src : list Z) : list Z * arc4 :=
  match src with
  | [] => ([], c)
  | x :: t =>
    let '(k, c) := arc4_step c in
    let '(o, c) := arc4_crypt c t in
    (Z.lxor x k :: o, c)
  end.

(* ---- the buffered xor shared by chacha20_crypt (182-222) and salsa20_crypt
   (383-423), which differ only in the block function ---- *)
Record sctx := mkS { s_state : list Z; s_stream : list Z; s_pos : nat }.

Section Crypt.
  (* 64 keystream bytes and the state with the counter advanced *)
  Variable blk : list Z -> list Z * list Z.

  (* while (len >= 64); the fuel is an upper bound on the iterations *)
  Fixpoint crypt_blocks (fuel : nat) (st stream src : list Z) : list Z * list Z * list Z * list Z :=
    match fuel with
    | O => ([], st, stream, src)
    | S f =>
      if (64 <=? length src)%nat then
        let '(stream, st) := blk st in
        let dst := torsion_memxor3 (firstn 64 src) stream in
        let '(rest, st, stream, src) := crypt_blocks f st stream (skipn 64 src) in
        (dst ++ rest, st, stream, src)
      else ([], st, stream, src)
    end.

  Definition stream_crypt (c : sctx) (src : list Z) : list Z * sctx :=
    let pos := s_pos c in
    let want := (64 - pos)%nat in
    let '(d1, st, stream, src, pos) :=
      if (want <=? length src)%nat then
        let '(d0, src, pos) :=
          if (0 <? pos)%nat then
            (torsion_memxor3 (firstn want src) (skipn pos (s_stream c)), skipn want src, 0%nat)
          else ([], src, pos) in
        let '(d, st, stream, src) := crypt_blocks (length src) (s_state c) (s_stream c) src in
        (d0 ++ d, st, stream, src, pos)
      else ([], s_state c, s_stream c, src, pos) in
    if (0 <? length src)%nat then
      let '(stream, st) := if (pos =? 0)%nat then blk st else (stream, st) in
      let d2 := torsion_memxor3 src (skipn pos stream) in
      (d1 ++ d2, mkS st stream (pos + length src))
    else (d1, mkS st stream pos).
End Crypt.

(* write32le of each word, in order *)
Definition words_bytes (w : list Z) : list Z := flat_map write32le w.

(* ---- ChaCha20 ---- *)
(* stream.c:91-95 QROUND *)
Definition cc_qround (x : list Z) (a b c d : nat) : list Z :=
  let x := upd x a (add32 (rd x a) (rd x b)) in
  let x := upd x d (rotl32 (Z.lxor (rd x d) (rd x a)) 16) in
  let x := upd x c (add32 (rd x c) (rd x d)) in
  let x := upd x b (rotl32 (Z.lxor (rd x b) (rd x c)) 12) in
  let x := upd x a (add32 (rd x a) (rd x b)) in
  let x := upd x d (rotl32 (Z.lxor (rd x d) (rd x a)) 8) in
  let x := upd x c (add32 (rd x c) (rd x d)) in
  upd x b (rotl32 (Z.lxor (rd x b) (rd x c)) 7).

(* stream.c:160-167, the body of the loop *)
Definition cc_dround (x : list Z) : list Z :=
  let x := cc_qround x 0 4 8 12 in
  let x := cc_qround x 1 5 9 13 in
  let x := cc_qround x 2 6 10 14 in
  let x := cc_qround x 3 7 11 15 in
  let x := cc_qround x 0 5 10 15 in
  let x := cc_qround x 1 6 11 12 in
  let x := cc_qround x 2 7 8 13 in
  cc_qround x 3 4 9 14.

(* for (i = 0; i < n; i++) body *)
Fixpoint times {A} (n : nat) (f : A -> A) (x : A) : A :=
  match n with O => x | S m => times m f (f x) end.

(* key + off % key_len *)
Definition key_at (key : list Z) (off : nat) : Z :=
  read32le (skipn (off mod length key) key).

(* stream.c:234-245 (116-127): the first twelve words *)
Definition cc_head (key : list Z) : list Z :=
  let short := (length key <? 32)%nat in
  [0x61707865;
   if short then 0x3120646e else 0x3320646e;
   if short then 0x79622d36 else 0x79622d32;
   0x6b206574;
   read32le key; read32le (skipn 4 key); read32le (skipn 8 key); read32le (skipn 12 key);
   key_at key 16; key_at key 20; key_at key 24; key_at key 28].

Definition key_ok (key : list Z) : bool := (length key =? 16)%nat || (length key =? 32)%nat.

(* stream.c:224-272 *)
Definition chacha20_derive (key nonce16 : list Z) : option (list Z) :=
  if negb (key_ok key) then None else
  let state := cc_head key ++
    [read32le nonce16; read32le (skipn 4 nonce16); read32le (skipn 8 nonce16); read32le (skipn 12 nonce16)] in
  let state := times 10 cc_dround state in
  Some (words_bytes [rd state 0; rd state 1; rd state 2; rd state 3;
                     rd state 12; rd state 13; rd state 14; rd state 15]).

(* stream.c:128-145: words 12..15 *)
Definition cc_tail (nonce : list Z) (counter : Z) : option (list Z) :=
  if (length nonce =? 8)%nat then
    Some [w32 counter; w32 (shr counter 32); read32le nonce; read32le (skipn 4 nonce)]
  else if (length nonce =? 12)%nat then
    Some [w32 counter; read32le nonce; read32le (skipn 4 nonce); read32le (skipn 8 nonce)]
  else if (length nonce =? 16)%nat then
    Some [read32le nonce; read32le (skipn 4 nonce); read32le (skipn 8 nonce); read32le (skipn 12 nonce)]
  else None.

(* stream.c:97-150; None is a failed CHECK or torsion_abort. The uninitialised
   stream buffer is modelled as 64 zeros (it is never read before being set). *)
Definition chacha20_init (key nonce : list Z) (counter : Z) : option sctx :=
  if negb (key_ok key) then None else
  match (if (24 <=? length nonce)%nat then
           match chacha20_derive key nonce with
           | Some k => Some (k, skipn 16 nonce)
           | None => None
           end
         else Some (key, nonce)) with
  | None => None
  | Some (key, nonce) =>
    match cc_tail nonce counter with
    | None => None
    | Some t => Some (mkS (cc_head key ++ t) (repeat 0 64) 0)
    end
  end.

(* stream.c:178-179 (379-380): state[lo] += 1; state[hi] += (state[lo] < 1) *)
Definition bump (st : list Z) (lo hi : nat) : list Z :=
  let st := upd st lo (add32 (rd st lo) 1) in
  upd st hi (add32 (rd st hi) (if rd st lo <? 1 then 1 else 0)).

(* stream.c:152-180 *)
Definition chacha20_block (st : list Z) : list Z * list Z :=
  let stream := times 10 cc_dround st in
  (words_bytes (map2 add32 stream st), bump st 12 13).

(* stream.c:182-222 *)
Definition chacha20_crypt := stream_crypt chacha20_block.

(* ---- Salsa20 ---- *)
(* stream.c:290-294 QROUND *)
Definition sa_qround (x : list Z) (a b c d : nat) : list Z :=
  let x := upd x b (Z.lxor (rd x b) (rotl32 (add32 (rd x a) (rd x d)) 7)) in
  let x := upd x c (Z.lxor (rd x c) (rotl32 (add32 (rd x b) (rd x a)) 9)) in
  let x := upd x d (Z.lxor (rd x d) (rotl32 (add32 (rd x c) (rd x b)) 13)) in
  upd x a (Z.lxor (rd x a) (rotl32 (add32 (rd x d) (rd x c)) 18)).

(* stream.c:361-368 *)
Definition sa_dround (x : list Z) : list Z :=
  let x := sa_qround x 0 4 8 12 in
  let x := sa_qround x 5 9 13 1 in
  let x := sa_qround x 10 14 2 6 in
  let x := sa_qround x 15 3 7 11 in
  let x := sa_qround x 0 1 2 3 in
  let x := sa_qround x 5 6 7 4 in
  let x := sa_qround x 10 11 8 9 in
  sa_qround x 15 12 13 14.

(* stream.c:315-320, 341-346 around the four input words *)
Definition sa_state (key n4 : list Z) : list Z :=
  let short := (length key <? 32)%nat in
  [0x61707865; read32le key; read32le (skipn 4 key); read32le (skipn 8 key); read32le (skipn 12 key);
   if short then 0x3120646e else 0x3320646e] ++ n4 ++
  [if short then 0x79622d36 else 0x79622d32;
   key_at key 16; key_at key 20; key_at key 24; key_at key 28; 0x6b206574].

(* stream.c:425-474 *)
Definition salsa20_derive (key nonce16 : list Z) : option (list Z) :=
  if negb (key_ok key) then None else
  let state := sa_state key
    [read32le nonce16; read32le (skipn 4 nonce16); read32le (skipn 8 nonce16); read32le (skipn 12 nonce16)] in
  let state := times 10 sa_dround state in
  Some (words_bytes [rd state 0; rd state 5; rd state 10; rd state 15;
                     rd state 6; rd state 7; rd state 8; rd state 9]).

(* stream.c:322-339: words 6..9 *)
Definition sa_mid (nonce : list Z) (counter : Z) : option (list Z) :=
  if (length nonce =? 8)%nat then
    Some [read32le nonce; read32le (skipn 4 nonce); w32 counter; w32 (shr counter 32)]
  else if (length nonce =? 12)%nat then
    Some [read32le nonce; read32le (skipn 4 nonce); read32le (skipn 8 nonce); w32 counter]
  else if (length nonce =? 16)%nat then
    Some [read32le nonce; read32le (skipn 4 nonce); read32le (skipn 8 nonce); read32le (skipn 12 nonce)]
  else None.

(* stream.c:296-351 *)
Definition salsa20_init (key nonce : list Z) (counter : Z) : option sctx :=
  if negb (key_ok key) then None else
  match (if (24 <=? length nonce)%nat then
           match salsa20_derive key nonce with
           | Some k => Some (k, skipn 16 nonce)
           | None => None
           end
         else Some (key, nonce)) with
  | None => None
  | Some (key, nonce) =>
    match sa_mid nonce counter with
    | None => None
    | Some t => Some (mkS (sa_state key t) (repeat 0 64) 0)
    end
  end.

(* stream.c:353-381 *)
Definition salsa20_block (st : list Z) : list Z * list Z :=
  let stream := times 10 sa_dround st in
  (words_bytes (map2 add32 stream st), bump st 8 9).

(* stream.c:383-423 *)
Definition salsa20_crypt := stream_crypt salsa20_block.

(* RFC 8439 2.3.2 and Salsa20 ECRYPT set 1 vector 0, first bytes *)
Example stream_model_ex :
  match chacha20_init (zseq 0 32) [0;0;0;9;0;0;0;0x4a;0;0;0;0] 1 with
  | Some c => firstn 16 (fst (chacha20_crypt c (repeat 0 64))) =
      [0x10;0xf1;0xe7;0xe4;0xd1;0x3b;0x59;0x15;0x50;0x0f;0xdd;0x1f;0xa3;0x20;0x71;0xc4]
  | None => False
  end /\
  match salsa20_init (0x80 :: repeat 0 15) (repeat 0 8) 0 with
  | Some c => firstn 8 (fst (salsa20_crypt c (repeat 0 8))) = [0x4D;0xFA;0x5E;0x48;0x1D;0xA2;0x3E;0xA0]
  | None => False
  end /\
  match arc4_init [1;2;3;4;5] with
  | Some c => fst (arc4_crypt c (repeat 0 4)) = [0xb2;0x39;0x63;0x05]
  | None => False
  end.
Proof. vm_compute. auto. Qed.
