(* What each hash computes on a whole message. SHA-1/2 and the Keccak family come from the definitions
   of FIPS 180-4 and FIPS 202 (ShaSpec, KeccakSpec). For the others the iteration is written out here
   (RFC 1320, 1321, 1319, 7693, 5831 and the RIPEMD and Whirlpool papers) over the model's compression
   function. *)
From Verif.Base Require Import Prelude.
From Verif.Model Require Import Encoding HashPrims Hash.
From Verif.Spec Require Import BlockSpec ShaSpec KeccakSpec.

Definition words_out_le (nb : nat) (H : list Z) : list Z := concat (map (le_bytes nb) H).

(* RFC 1319 *)
Definition md2_padded (m : list Z) : list Z :=
  let n := (16 - length m mod 16)%nat in m ++ repeat (Z.of_nat n) n.
Definition md2_checksum (m : list Z) : list Z :=
  fold_left (fun C blk => md2_sum C blk (nth 15 C 0)) (blocks 16 m) (repeat 0 16).
Definition md2_value (m : list Z) : list Z :=
  let p := md2_padded m in
  let X := fold_left (fun X blk => md2_rounds (firstn 16 X ++ blk ++ map2 Z.lxor blk (firstn 16 X)))
             (blocks 16 (p ++ md2_checksum p)) (repeat 0 48) in
  firstn 16 X.

(* RFC 5831, section 6: zero padding, length in bits modulo 2^256, sum of the blocks modulo 2^256 *)
Definition gost_padded (m : list Z) : list Z := m ++ repeat 0 ((32 - length m mod 32) mod 32).
Definition gost_value (m : list Z) : list Z :=
  let bl := blocks 32 (gost_padded m) in
  let h := fold_left gost94_compress bl (repeat 0 32) in
  let sum := fold_right Z.add 0 (map le_val bl) in
  gost94_compress (gost94_compress h (le_bytes 32 (8 * Z.of_nat (length m)))) (le_bytes 32 sum).

(* RFC 7693, section 3.3: F(h, t, block, f0), W = 2^w for words of w bits *)
Definition blake2_input (B : nat) (key m : list Z) : list Z :=
  match key with [] => m | _ => key ++ repeat 0 (B - length key) ++ m end.
Definition blake2_h0 (iv : list Z) (kk nn : nat) : list Z :=
  match iv with
  | h :: iv' => Z.lxor h (0x01010000 + 256 * Z.of_nat kk + Z.of_nat nn) :: iv'
  | [] => []
  end.
Definition blake2_value (B wb : nat) (F : list Z -> list Z -> list Z -> Z -> list Z) (iv key m : list Z) (nn : nat) : list Z :=
  let W := 256 ^ Z.of_nat wb in
  let d := blake2_input B key m in
  let q := ((length d - 1) / B * B)%nat in
  let ht := fold_left (fun ht blk => let t := snd ht + Z.of_nat B in (F (fst ht) (digits W 2 t) blk 0, t))
              (blocks B (firstn q d)) (blake2_h0 iv (length key) nn, 0) in
  let h := F (fst ht) (digits W 2 (Z.of_nat (length d))) (skipn q d ++ repeat 0 (B - (length d - q))) (W - 1) in
  firstn nn (words_out_le wb h).
Definition blake2b_value := blake2_value 128 8 blake2b_compress blake2b_iv.
Definition blake2s_value := blake2_value 64 4 blake2s_compress blake2s_iv.

Definition md4_value (m : list Z) : list Z := words_out_le 4 (md_hash 64 56 le_bytes md4_transform md4_iv m).
Definition md5_value (m : list Z) : list Z := words_out_le 4 (md_hash 64 56 le_bytes md5_transform md4_iv m).
Definition rmd_value (m : list Z) : list Z := words_out_le 4 (md_hash 64 56 le_bytes ripemd160_transform ripemd160_iv m).
Definition whirl_value (m : list Z) : list Z := words_out 8 (md_hash 64 32 be_bytes whirlpool_transform (repeat 0 8) m).

(* rate in bytes of the Keccak types *)
Definition rate_of (id : hash_id) : nat :=
  match id with
  | KECCAK224 | SHA3_224 => 144 | KECCAK256 | SHA3_256 | SHAKE256 => 136
  | KECCAK384 | SHA3_384 => 104 | KECCAK512 | SHA3_512 => 72 | SHAKE128 => 168
  | _ => 200
  end.
(* bytes of output: only SHAKE uses the len argument *)
Definition size_of (id : hash_id) (len : nat) : nat :=
  match id with
  | SHAKE128 | SHAKE256 => if (len =? 0)%nat then hash_output_size id else len
  | _ => hash_output_size id
  end.
(* FIPS 202, 6.1 and 6.2: SHA3 appends 01, SHAKE 1111; the original Keccak nothing *)
Definition hash_value (id : hash_id) (m : list Z) (len : nat) : list Z :=
  match id with
  | BLAKE2B_160 => blake2b_value [] m 20 | BLAKE2B_256 => blake2b_value [] m 32
  | BLAKE2B_384 => blake2b_value [] m 48 | BLAKE2B_512 => blake2b_value [] m 64
  | BLAKE2S_128 => blake2s_value [] m 16 | BLAKE2S_160 => blake2s_value [] m 20
  | BLAKE2S_224 => blake2s_value [] m 28 | BLAKE2S_256 => blake2s_value [] m 32
  | GOST94 => gost_value m
  | HASH160 => rmd_value (fips_sha256 m) | HASH256 => fips_sha256 (fips_sha256 m)
  | KECCAK224 | KECCAK256 | KECCAK384 | KECCAK512 => keccak_hash (rate_of id) [] m (size_of id len)
  | SHA3_224 | SHA3_256 | SHA3_384 | SHA3_512 => keccak_hash (rate_of id) [0; 1] m (size_of id len)
  | SHAKE128 | SHAKE256 => keccak_hash (rate_of id) [1; 1; 1; 1] m (size_of id len)
  | MD2 => md2_value m | MD4 => md4_value m | MD5 => md5_value m | MD5SHA1 => md5_value m ++ fips_sha1 m
  | RIPEMD160 => rmd_value m
  | SHA1 => fips_sha1 m | SHA224 => fips_sha224 m | SHA256 => fips_sha256 m | SHA384 => fips_sha384 m | SHA512 => fips_sha512 m
  | WHIRLPOOL => whirl_value m
  end.

(* hash_init, hash_update per chunk, hash_final *)
Definition hash_stream (id : hash_id) (chunks : list (list Z)) (len : nat) : outcome (list Z) :=
  bind (fold_left (fun c x => bind c (fun c => hash_update id c x)) chunks (hash_init id)) (fun c => hash_final id c len).

(* RFC 2104: K' is the key, hashed if longer than a block, zero-padded to a block *)
Definition rfc2104_key (id : hash_id) (key : list Z) : list Z :=
  let k := if (hash_block_size id <? length key)%nat then hash_value id key (hash_output_size id) else key in
  k ++ repeat 0 (hash_block_size id - length k).
Definition rfc2104 (id : hash_id) (key m : list Z) : list Z :=
  let H x := hash_value id x (hash_output_size id) in
  let pad v := map (fun k => Z.lxor k v) (rfc2104_key id key) in
  H (pad 0x5c ++ H (pad 0x36 ++ m)).
Definition hmac_stream (id : hash_id) (key : list Z) (chunks : list (list Z)) : outcome (list Z) :=
  bind (fold_left (fun h x => bind h (fun h => hmac_update h x)) chunks (hmac_init id key)) hmac_final.
