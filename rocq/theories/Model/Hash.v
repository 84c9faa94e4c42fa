(* Model of the hash contexts, the hash_* dispatch and HMAC (src/hash.c, include/torsion/hash.h).
   A context of the C union is the context of the selected algorithm. HASH_NONE, which has no
   backend, is left out. Lengths are nat; a call's length is a size_t. *)
From Verif.Base Require Import Prelude.
From Verif.Model Require Import Bio Block Encoding Sha HashPrims Keccak.

(* ---- contexts with a byte counter: MD4, MD5, RIPEMD160, SHA1, SHA256, SHA512, Whirlpool, GOST94 ---- *)
Record md_t {S : Type} := MkMd { md_state : S; md_size : list Z; md_block : list Z }.
Arguments md_t : clear implicits.
Arguments MkMd {S}.

(* size += c over one 64-bit word (md4 and others: ctx->size += len), two (sha512_increment,
   hash.c:2720-2724) or four words (gost94_increment 644-650, whirlpool_increment 3958-3964) *)
Fixpoint increment (size : list Z) (c : Z) : list Z :=
  match size with
  | [] => []
  | s :: size' => let s := add64 s c in s :: increment size' (if s <? c then 1 else 0)
  end.

Definition md_init {S} (B limbs : nat) (st : S) : md_t S := MkMd st (repeat 0 limbs) (repeat 0xcd B).
(* size_t pos = ctx->size & (B - 1) *)
Definition md_pos {S} (B : nat) (ctx : md_t S) : nat := Z.to_nat (Z.land (nth 0 (md_size ctx) 0) (Z.of_nat B - 1)).

(* the text shared by md4_update 1390-1416, md5_update 1569, ripemd160_update 1921-1947, sha1_update 2158-2186,
   sha256_update 2429-2457, sha512_update 2726-2754, whirlpool_update 3966-3994 and gost94_update 652-680 *)
Definition md_update {S} (B : nat) (tr : S -> list Z -> S) (ctx : md_t S) (raw : list Z) : md_t S :=
  let pos := md_pos B ctx in
  let size := increment (md_size ctx) (Z.of_nat (length raw)) in
  let '(st, block, _) := buf_update B false tr (md_state ctx) (md_block ctx) pos raw in
  MkMd st size block.

(* the words of the bit counter, low word first: size[0] << 3, (size[1] << 3) | (size[0] >> 61), ... *)
Fixpoint bits_hi (prev : Z) (size : list Z) : list Z :=
  match size with
  | [] => []
  | s :: size' => Z.lor (shl64 s 3) (shr prev 61) :: bits_hi s size'
  end.
Definition bits_words (size : list Z) : list Z :=
  match size with [] => [] | s :: size' => shl64 s 3 :: bits_hi s size' end.
Definition len_be (size : list Z) : list Z := concat (map write64be (rev (bits_words size))).
Definition len_le (size : list Z) : list Z := concat (map write64le (bits_words size)).

(* the text shared by md4_final 1418-1445, md5_final, ripemd160_final 1949-1972, sha1_final 2188-2215,
   sha256_final 2459-2486 (lim = 56), sha512_final 2756-2784 (lim = 112) and whirlpool_final 3996-4023
   (lim = 32), up to the last transform *)
Definition md_finish {S} (B lim : nat) (tr : S -> list Z -> S) (lenf : list Z -> list Z) (ctx : md_t S) : S :=
  let pos := md_pos B ctx in
  let block := upd (md_block ctx) pos 0x80 in
  let pos := (pos + 1)%nat in
  let '(st, block, pos) :=
    if (lim <? pos)%nat then
      let block := fill block pos B 0 in
      (tr (md_state ctx) block, block, 0%nat)
    else (md_state ctx, block, pos) in
  let block := fill block pos lim 0 in
  let block := blit block lim (lenf (md_size ctx)) in
  tr st block.

Definition out32be (st : list Z) : list Z := concat (map write32be st).
Definition out32le (st : list Z) : list Z := concat (map write32le st).
Definition out64be (st : list Z) : list Z := concat (map write64be st).

(* hash.c:1288, 1418 *)
Definition md4_init : md_t (list Z) := md_init 64 1 md4_iv.
Definition md4_update := md_update 64 md4_transform.
Definition md4_final (ctx : md_t (list Z)) : list Z := out32le (md_finish 64 56 md4_transform len_le ctx).
(* hash.c:1455, 1569, 1597 *)
Definition md5_init : md_t (list Z) := md_init 64 1 md4_iv.
Definition md5_update := md_update 64 md5_transform.
Definition md5_final (ctx : md_t (list Z)) : list Z := out32le (md_finish 64 56 md5_transform len_le ctx).
(* hash.c:1656, 1921, 1949 *)
Definition ripemd160_init : md_t (list Z) := md_init 64 1 ripemd160_iv.
Definition ripemd160_update := md_update 64 ripemd160_transform.
Definition ripemd160_final (ctx : md_t (list Z)) : list Z := out32le (md_finish 64 56 ripemd160_transform len_le ctx).
(* hash.c:1980, 2158, 2188 *)
Definition sha1_init : md_t (list Z) := md_init 64 1 sha1_iv.
Definition sha1_update := md_update 64 sha1_transform.
Definition sha1_final (ctx : md_t (list Z)) : list Z := out32be (md_finish 64 56 sha1_transform len_be ctx).
(* hash.c:2261, 2429, 2459 *)
Definition sha256_init : md_t (list Z) := md_init 64 1 sha256_iv.
Definition sha256_update := md_update 64 sha256_transform.
Definition sha256_final (ctx : md_t (list Z)) : list Z := out32be (md_finish 64 56 sha256_transform len_be ctx).
(* hash.c:2224-2252 *)
Definition sha224_init : md_t (list Z) := md_init 64 1 sha224_iv.
Definition sha224_final (ctx : md_t (list Z)) : list Z := firstn 28 (sha256_final ctx).
(* hash.c:2534, 2726, 2756 *)
Definition sha512_init : md_t (list Z) := md_init 128 2 sha512_iv.
Definition sha512_update := md_update 128 sha512_transform.
Definition sha512_final (ctx : md_t (list Z)) : list Z := out64be (md_finish 128 112 sha512_transform len_be ctx).
(* hash.c:2495-2525 *)
Definition sha384_init : md_t (list Z) := md_init 128 2 sha384_iv.
Definition sha384_final (ctx : md_t (list Z)) : list Z := firstn 48 (sha512_final ctx).
(* hash.c:3888, 3966, 3996 *)
Definition whirlpool_init : md_t (list Z) := md_init 64 4 (repeat 0 8).
Definition whirlpool_update := md_update 64 whirlpool_transform.
Definition whirlpool_final (ctx : md_t (list Z)) : list Z := out64be (md_finish 64 32 whirlpool_transform len_be ctx).

(* hash.c:633-636, 652-680, 682-705 *)
Definition gost94_init : md_t (list Z * list Z) := MkMd (repeat 0 32, repeat 0 32) (repeat 0 4) (repeat 0 32).
Definition gost94_update := md_update 32 gost94_transform.
Definition gost94_final (ctx : md_t (list Z * list Z)) : list Z :=
  let pos := md_pos 32 ctx in
  let '(st, block) :=
    if (0 <? pos)%nat then
      let block := fill (md_block ctx) pos 32 0 in (gost94_transform (md_state ctx) block, block)
    else (md_state ctx, md_block ctx) in
  let block := blit block 0 (len_le (md_size ctx)) in
  gost94_compress (gost94_compress (fst st) block) (snd st).

(* ---- MD2: hash.c:1151-1279 ---- *)
Record md2_t := MkMd2 { md2_state : list Z * list Z; md2_block : list Z; md2_pos : nat }.
Definition md2_init : md2_t := MkMd2 (repeat 0 48, repeat 0 16) (repeat 0 16) 0.
Definition md2_update (ctx : md2_t) (raw : list Z) : md2_t :=
  let '(st, block, pos) := buf_update 16 false md2_transform (md2_state ctx) (md2_block ctx) (md2_pos ctx) raw in
  MkMd2 st block pos.
(* hash.c:1265-1279: left is stored as a byte *)
Definition md2_final (ctx : md2_t) : list Z :=
  let left := Z.of_nat (16 - md2_pos ctx) in
  let block := fill (md2_block ctx) (md2_pos ctx) 16 left in
  let st := md2_transform (md2_state ctx) block in
  let st := md2_transform st (snd st) in
  firstn 16 (fst st).

(* ---- BLAKE2: hash.c:47-217, 267-430 ---- *)
Record blake2_t := MkBlake2 { b2_state : list Z * list Z; b2_block : list Z; b2_pos : nat; b2_len : nat }.
(* hash.c:47-75 with B = 128, 267-296 with B = 64 *)
Definition blake2_init (B maxlen : nat) (iv : list Z) (len : nat) (key : list Z) : outcome blake2_t :=
  if negb ((1 <=? len) && (len <=? maxlen))%nat then Abort
  else if negb (length key <=? maxlen)%nat then Abort
  else
    let param := Z.lor (Z.lor 0x01010000 (Z.shiftl (Z.of_nat (length key)) 8)) (Z.of_nat len) in
    let h := upd iv 0 (Z.lxor (nth 0 iv 0) param) in
    if (0 <? length key)%nat then Ok (MkBlake2 (h, [0; 0]) (blit (repeat 0 B) 0 key) B len)
    else Ok (MkBlake2 (h, [0; 0]) (repeat 0xcd B) 0 len).
Definition blake2b_init := blake2_init 128 64 blake2b_iv.
Definition blake2s_init := blake2_init 64 32 blake2s_iv.
(* hash.c:178-209, 391-422 *)
Definition blake2_update (B : nat) (tr : list Z * list Z -> list Z -> list Z * list Z) (ctx : blake2_t) (raw : list Z) : blake2_t :=
  let '(st, block, pos) := buf_update B true tr (b2_state ctx) (b2_block ctx) (b2_pos ctx) raw in
  MkBlake2 st block pos (b2_len ctx).
Definition blake2b_update := blake2_update 128 blake2b_transform.
Definition blake2s_update := blake2_update 64 blake2s_transform.
(* hash.c:220-224, 437-441: the output bytes, words of wb bytes *)
Definition blake2_out (wb : nat) (write : Z -> list Z) (h : list Z) (len : nat) : list Z :=
  let count := (len / wb)%nat in
  concat (map (fun i => write (nth i h 0)) (seq 0 count)) ++
  map (fun i => Z.land (shr (nth (i / wb) h 0) (8 * Z.of_nat (i mod wb))) 0xff) (seq (count * wb) (len - count * wb)).
(* hash.c:208-225 *)
Definition blake2b_final (ctx : blake2_t) : list Z :=
  let block := fill (b2_block ctx) (b2_pos ctx) 128 0 in
  let '(h, t) := b2_state ctx in
  let t := blake2_increment w64 t (Z.of_nat (b2_pos ctx)) in
  blake2_out 8 write64le (blake2b_compress h t block (M64 - 1)) (b2_len ctx).
(* hash.c:424-442 *)
Definition blake2s_final (ctx : blake2_t) : list Z :=
  let block := fill (b2_block ctx) (b2_pos ctx) 64 0 in
  let '(h, t) := b2_state ctx in
  let t := blake2_increment w32 t (Z.of_nat (b2_pos ctx)) in
  blake2_out 4 write32le (blake2s_compress h t block (M32 - 1)) (b2_len ctx).

(* ---- Hash160, Hash256, MD5SHA1: hash.c:718-760, 1631-1647 ---- *)
Definition hash160_final (ctx : md_t (list Z)) : list Z :=
  ripemd160_final (ripemd160_update ripemd160_init (sha256_final ctx)).
Definition hash256_final (ctx : md_t (list Z)) : list Z :=
  sha256_final (sha256_update sha256_init (sha256_final ctx)).
Definition md5sha1_update (ctx : md_t (list Z) * md_t (list Z)) (raw : list Z) : md_t (list Z) * md_t (list Z) :=
  (md5_update (fst ctx) raw, sha1_update (snd ctx) raw).
Definition md5sha1_final (ctx : md_t (list Z) * md_t (list Z)) : list Z := md5_final (fst ctx) ++ sha1_final (snd ctx).

(* ---- the dispatch: hash_init, hash_update, hash_final ---- *)
(* hash.h:148-182 *)
Inductive hash_id : Type :=
| BLAKE2B_160 | BLAKE2B_256 | BLAKE2B_384 | BLAKE2B_512 | BLAKE2S_128 | BLAKE2S_160 | BLAKE2S_224 | BLAKE2S_256
| GOST94 | HASH160 | HASH256 | KECCAK224 | KECCAK256 | KECCAK384 | KECCAK512
| MD2 | MD4 | MD5 | MD5SHA1 | RIPEMD160 | SHA1 | SHA224 | SHA256 | SHA384 | SHA512
| SHA3_224 | SHA3_256 | SHA3_384 | SHA3_512 | SHAKE128 | SHAKE256 | WHIRLPOOL.

(* the context union *)
Inductive hash_ctx : Type :=
| Hmd (c : md_t (list Z)) | Hgost (c : md_t (list Z * list Z)) | Hpair (c : md_t (list Z) * md_t (list Z))
| Hmd2 (c : md2_t) | Hblake2 (c : blake2_t) | Hkeccak (c : keccak_t).

Definition okmap {A B} (f : A -> B) (x : outcome A) : outcome B :=
  match x with Ok a => Ok (f a) | Fail => Fail | Abort => Abort end.

(* hash.c:4027-4129 *)
Definition hash_init (id : hash_id) : outcome hash_ctx :=
  match id with
  | BLAKE2B_160 => okmap Hblake2 (blake2b_init 20 [])
  | BLAKE2B_256 => okmap Hblake2 (blake2b_init 32 [])
  | BLAKE2B_384 => okmap Hblake2 (blake2b_init 48 [])
  | BLAKE2B_512 => okmap Hblake2 (blake2b_init 64 [])
  | BLAKE2S_128 => okmap Hblake2 (blake2s_init 16 [])
  | BLAKE2S_160 => okmap Hblake2 (blake2s_init 20 [])
  | BLAKE2S_224 => okmap Hblake2 (blake2s_init 28 [])
  | BLAKE2S_256 => okmap Hblake2 (blake2s_init 32 [])
  | GOST94 => Ok (Hgost gost94_init)
  | HASH160 | HASH256 => Ok (Hmd sha256_init)
  | KECCAK224 | SHA3_224 => okmap Hkeccak (keccak_init 224)
  | KECCAK256 | SHA3_256 | SHAKE256 => okmap Hkeccak (keccak_init 256)
  | KECCAK384 | SHA3_384 => okmap Hkeccak (keccak_init 384)
  | KECCAK512 | SHA3_512 => okmap Hkeccak (keccak_init 512)
  | SHAKE128 => okmap Hkeccak (keccak_init 128)
  | MD2 => Ok (Hmd2 md2_init)
  | MD4 => Ok (Hmd md4_init)
  | MD5 => Ok (Hmd md5_init)
  | MD5SHA1 => Ok (Hpair (md5_init, sha1_init))
  | RIPEMD160 => Ok (Hmd ripemd160_init)
  | SHA1 => Ok (Hmd sha1_init)
  | SHA224 => Ok (Hmd sha224_init)
  | SHA256 => Ok (Hmd sha256_init)
  | SHA384 => Ok (Hmd sha384_init)
  | SHA512 => Ok (Hmd sha512_init)
  | WHIRLPOOL => Ok (Hmd whirlpool_init)
  end.

(* hash.c:4131-4204; a context of another type cannot arise (Abort) *)
Definition hash_update (id : hash_id) (ctx : hash_ctx) (raw : list Z) : outcome hash_ctx :=
  match id, ctx with
  | (BLAKE2B_160 | BLAKE2B_256 | BLAKE2B_384 | BLAKE2B_512), Hblake2 c => Ok (Hblake2 (blake2b_update c raw))
  | (BLAKE2S_128 | BLAKE2S_160 | BLAKE2S_224 | BLAKE2S_256), Hblake2 c => Ok (Hblake2 (blake2s_update c raw))
  | GOST94, Hgost c => Ok (Hgost (gost94_update c raw))
  | (HASH160 | HASH256 | SHA224 | SHA256), Hmd c => Ok (Hmd (sha256_update c raw))
  | (KECCAK224 | KECCAK256 | KECCAK384 | KECCAK512 | SHA3_224 | SHA3_256 | SHA3_384 | SHA3_512 | SHAKE128 | SHAKE256), Hkeccak c =>
      Ok (Hkeccak (keccak_update c raw))
  | MD2, Hmd2 c => Ok (Hmd2 (md2_update c raw))
  | MD4, Hmd c => Ok (Hmd (md4_update c raw))
  | MD5, Hmd c => Ok (Hmd (md5_update c raw))
  | MD5SHA1, Hpair c => Ok (Hpair (md5sha1_update c raw))
  | RIPEMD160, Hmd c => Ok (Hmd (ripemd160_update c raw))
  | SHA1, Hmd c => Ok (Hmd (sha1_update c raw))
  | (SHA384 | SHA512), Hmd c => Ok (Hmd (sha512_update c raw))
  | WHIRLPOOL, Hmd c => Ok (Hmd (whirlpool_update c raw))
  | _, _ => Abort
  end.

(* hash.c:4206-4285; len is only used by SHAKE *)
Definition hash_final (id : hash_id) (ctx : hash_ctx) (len : nat) : outcome (list Z) :=
  match id, ctx with
  | (BLAKE2B_160 | BLAKE2B_256 | BLAKE2B_384 | BLAKE2B_512), Hblake2 c => Ok (blake2b_final c)
  | (BLAKE2S_128 | BLAKE2S_160 | BLAKE2S_224 | BLAKE2S_256), Hblake2 c => Ok (blake2s_final c)
  | GOST94, Hgost c => Ok (gost94_final c)
  | HASH160, Hmd c => Ok (hash160_final c)
  | HASH256, Hmd c => Ok (hash256_final c)
  | (KECCAK224 | KECCAK256 | KECCAK384 | KECCAK512), Hkeccak c => keccak_final c 0x01 0
  | MD2, Hmd2 c => Ok (md2_final c)
  | MD4, Hmd c => Ok (md4_final c)
  | MD5, Hmd c => Ok (md5_final c)
  | MD5SHA1, Hpair c => Ok (md5sha1_final c)
  | RIPEMD160, Hmd c => Ok (ripemd160_final c)
  | SHA1, Hmd c => Ok (sha1_final c)
  | SHA224, Hmd c => Ok (sha224_final c)
  | SHA256, Hmd c => Ok (sha256_final c)
  | SHA384, Hmd c => Ok (sha384_final c)
  | SHA512, Hmd c => Ok (sha512_final c)
  | (SHA3_224 | SHA3_256 | SHA3_384 | SHA3_512), Hkeccak c => keccak_final c 0x06 0
  | (SHAKE128 | SHAKE256), Hkeccak c => keccak_final c 0x1f len
  | WHIRLPOOL, Hmd c => Ok (whirlpool_final c)
  | _, _ => Abort
  end.

(* hash.c:4329-4401 *)
Definition hash_output_size (id : hash_id) : nat :=
  match id with
  | BLAKE2B_160 => 20 | BLAKE2B_256 => 32 | BLAKE2B_384 => 48 | BLAKE2B_512 => 64
  | BLAKE2S_128 => 16 | BLAKE2S_160 => 20 | BLAKE2S_224 => 28 | BLAKE2S_256 => 32
  | GOST94 => 32 | HASH160 => 20 | HASH256 => 32
  | KECCAK224 => 28 | KECCAK256 => 32 | KECCAK384 => 48 | KECCAK512 => 64
  | MD2 => 16 | MD4 => 16 | MD5 => 16 | MD5SHA1 => 36 | RIPEMD160 => 20
  | SHA1 => 20 | SHA224 => 28 | SHA256 => 32 | SHA384 => 48 | SHA512 => 64
  | SHA3_224 => 28 | SHA3_256 => 32 | SHA3_384 => 48 | SHA3_512 => 64
  | SHAKE128 => 16 | SHAKE256 => 32 | WHIRLPOOL => 64
  end.
(* hash.c:4403-4475 *)
Definition hash_block_size (id : hash_id) : nat :=
  match id with
  | BLAKE2B_160 => 128 | BLAKE2B_256 => 128 | BLAKE2B_384 => 128 | BLAKE2B_512 => 128
  | BLAKE2S_128 => 64 | BLAKE2S_160 => 64 | BLAKE2S_224 => 64 | BLAKE2S_256 => 64
  | GOST94 => 32 | HASH160 => 64 | HASH256 => 64
  | KECCAK224 => 144 | KECCAK256 => 136 | KECCAK384 => 104 | KECCAK512 => 72
  | MD2 => 16 | MD4 => 64 | MD5 => 64 | MD5SHA1 => 64 | RIPEMD160 => 64
  | SHA1 => 64 | SHA224 => 64 | SHA256 => 64 | SHA384 => 128 | SHA512 => 128
  | SHA3_224 => 144 | SHA3_256 => 136 | SHA3_384 => 104 | SHA3_512 => 72
  | SHAKE128 => 168 | SHAKE256 => 136 | WHIRLPOOL => 64
  end.

(* ---- HMAC: hash.c:4486-4540 ---- *)
Definition bind {A B} (x : outcome A) (f : A -> outcome B) : outcome B :=
  match x with Ok a => f a | Fail => Fail | Abort => Abort end.

Record hmac_t := MkHmac { hm_type : hash_id; hm_inner : hash_ctx; hm_outer : hash_ctx }.

(* pad[i] = key[i] ^ v, then v; HASH_MAX_BLOCK_SIZE bytes *)
Definition hmac_pad (key : list Z) (v : Z) : list Z := map (fun k => Z.lxor k v) key ++ repeat v (168 - length key).

(* hash.c:4486-4525 *)
Definition hmac_init (id : hash_id) (key : list Z) : outcome hmac_t :=
  let hash_size := hash_output_size id in
  let block_size := hash_block_size id in
  bind (if (block_size <? length key)%nat then
          bind (hash_init id) (fun c => bind (hash_update id c key) (fun c => hash_final id c hash_size))
        else Ok key) (fun key =>
  if negb (length key <=? block_size)%nat then Abort
  else
    bind (hash_init id) (fun inner =>
    bind (hash_update id inner (firstn block_size (hmac_pad key 0x36))) (fun inner =>
    bind (hash_init id) (fun outer =>
    bind (hash_update id outer (firstn block_size (hmac_pad key 0x5c))) (fun outer =>
    Ok (MkHmac id inner outer)))))).
(* hash.c:4527-4530 *)
Definition hmac_update (h : hmac_t) (raw : list Z) : outcome hmac_t :=
  bind (hash_update (hm_type h) (hm_inner h) raw) (fun c => Ok (MkHmac (hm_type h) c (hm_outer h))).
(* hash.c:4532-4539 *)
Definition hmac_final (h : hmac_t) : outcome (list Z) :=
  let hash_size := hash_output_size (hm_type h) in
  bind (hash_final (hm_type h) (hm_inner h) hash_size) (fun out =>
  bind (hash_update (hm_type h) (hm_outer h) (firstn hash_size out)) (fun outer =>
  hash_final (hm_type h) outer hash_size)).
