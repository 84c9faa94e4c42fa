(* Model of the modes of operation of src/cipher.c (5433-7157), written over an
   arbitrary block cipher. Pointers dst/src become argument and result lists; the
   block cipher may be called in place (cipher_encrypt(c, x, x)), which is modelled
   as applying the block function. torsion_memzero calls are not modelled. CHECK
   failures are None. The arrays of CIPHER_MAX_BLOCK_SIZE bytes are modelled by the
   first cipher->size bytes, the only ones accessed. *)
From Verif.Base Require Import Prelude.
From Verif.Model Require Import Bio Util Block Encoding.

(* cipher_t (cipher.h): block size, cipher_encrypt and cipher_decrypt under a key
   (cipher.c:5842-5954 dispatch to the individual ciphers) *)
Record cipher := mkCipher { c_size : nat; c_enc : list Z -> list Z; c_dec : list Z -> list Z }.

(* ---- PKCS#7 ---- *)

(* cipher.c:5437-5452; None: CHECK(len <= size) fails *)
Definition pkcs7_pad (src : list Z) (size : nat) : option (list Z) :=
  let len := length src in
  let left := Z.of_nat (size - len) in
  if (len <=? size)%nat then Some (src ++ repeat (w8 left) (size - len)) else None.

(* cipher.c:5476-5480: i, res through the remaining bytes *)
Fixpoint unpad_loop (bend left i res : Z) (src : list Z) : Z :=
  match src with
  | [] => res
  | ch :: t =>
    let res := Z.land res (Z.lor (shr (sub32 i bend) 31) (shr (sub32 (Z.lxor ch left) 1) 31)) in
    unpad_loop bend left (add32 i 1) res t
  end.

(* cipher.c:5454-5488: (return value, *len, dst); size = length src *)
Definition pkcs7_unpad (src : list Z) : Z * Z * list Z :=
  let bsize := w32 (Z.of_nat (length src)) in
  let left := rd src (Z.to_nat (sub32 bsize 1)) in
  let res := 1 in
  let res := Z.land res (Z.lxor (shr (sub32 left 1) 31) 1) in
  let res := Z.land res (shr (sub32 (sub32 left bsize) 1) 31) in
  let left := Z.land left (w32 (- res)) in
  let bend := sub32 bsize left in
  let res := unpad_loop bend left 0 res src in
  (res, Z.land bend (w32 (- res)), src).

(* ---- while (len > 0) { ...; dst += size; src += size; len -= size; } ---- *)
Section Loop.
  Context {St : Type}.
  Variable size : nat.
  (* remaining length, state, block -> output block, state *)
  Variable step : nat -> St -> list Z -> list Z * St.
  Fixpoint block_loop (fuel : nat) (st : St) (src : list Z) : list Z * St :=
    match fuel with
    | O => ([], st)
    | S n =>
      if (0 <? length src)%nat then
        let '(d, st) := step (length src) st (firstn size src) in
        let '(o, st) := block_loop n st (skipn size src) in
        (d ++ o, st)
      else ([], st)
    end.
End Loop.

(* (len & (cipher->size - 1)) == 0 *)
Definition aligned (size len : nat) : bool :=
  Z.land (Z.of_nat len) (Z.of_nat size - 1) =? 0.

(* ---- ECB ---- *)
(* cipher.c:5960-5972 *)
Definition ecb_encrypt (c : cipher) (src : list Z) : option (list Z) :=
  if aligned (c_size c) (length src) then
    Some (fst (block_loop (c_size c) (fun _ (_ : unit) b => (c_enc c b, tt)) (length src) tt src))
  else None.
(* cipher.c:5974-5986 *)
Definition ecb_decrypt (c : cipher) (src : list Z) : option (list Z) :=
  if aligned (c_size c) (length src) then
    Some (fst (block_loop (c_size c) (fun _ (_ : unit) b => (c_dec c b, tt)) (length src) tt src))
  else None.

(* for (i = 0; i < len; i++) swap(block[i], last[i]) *)
Definition swap_prefix (len : nat) (last block : list Z) : list Z * list Z :=
  (firstn len block ++ skipn len last, firstn len last ++ skipn len block).

(* cipher.c:5988-6005: (last, block) *)
Definition ecb_steal (c : cipher) (last block : list Z) (len : nat) : option (list Z * list Z) :=
  if (len <? c_size c)%nat then
    let '(last, block) := swap_prefix len last block in
    Some (c_enc c last, block)
  else None.
(* cipher.c:6007-6024 *)
Definition ecb_unsteal (c : cipher) (last block : list Z) (len : nat) : option (list Z * list Z) :=
  if (len <? c_size c)%nat then
    let '(last, block) := swap_prefix len last block in
    Some (c_dec c last, block)
  else None.

(* ---- CBC: the state is mode->prev ---- *)
(* cipher.c:6030-6033; iv holds cipher->size bytes *)
Definition cbc_init (c : cipher) (iv : list Z) : list Z := firstn (c_size c) iv.
(* cipher.c:6035-6054 *)
Definition cbc_encrypt (c : cipher) (prev src : list Z) : option (list Z * list Z) :=
  if aligned (c_size c) (length src) then
    Some (block_loop (c_size c) (fun _ prev b =>
      let prev := torsion_memxor prev b in
      let dst := c_enc c prev in (dst, dst)) (length src) prev src)
  else None.
(* cipher.c:6056-6080: dst == src *)
Definition cbc_decrypt_inplace (c : cipher) (prev src : list Z) : option (list Z * list Z) :=
  if aligned (c_size c) (length src) then
    Some (block_loop (c_size c) (fun _ prev b =>
      let tmp := c_dec c b in
      let tmp := torsion_memxor tmp prev in (tmp, b)) (length src) prev src)
  else None.
(* cipher.c:6081-6094: dst and src disjoint *)
Definition cbc_decrypt_disjoint (c : cipher) (prev src : list Z) : option (list Z * list Z) :=
  if (0 <? length src)%nat then
    match ecb_decrypt c src with
    | None => None
    | Some dst =>
      let first := torsion_memxor (firstn (c_size c) dst) prev in
      let len := (length src - c_size c)%nat in
      let rest := torsion_memxor (skipn (c_size c) dst) (firstn len src) in
      Some (first ++ rest, firstn (c_size c) (skipn len src))
    end
  else Some ([], prev).
(* cipher.c:6097-6114: (prev, last, block); block holds len bytes *)
Definition cbc_steal (c : cipher) (prev last block : list Z) (len : nat) : option (list Z * list Z * list Z) :=
  if (len <? c_size c)%nat then
    let prev := torsion_memxor (firstn len prev) (firstn len block) ++ skipn len prev in
    let prev := c_enc c prev in
    let block := firstn len last ++ skipn len block in
    let last := prev in
    Some (prev, last, block)
  else None.
(* cipher.c:6116-6147 *)
Definition cbc_unsteal (c : cipher) (prev last block : list Z) (len : nat) : option (list Z * list Z * list Z) :=
  if (len <? c_size c)%nat then
    let prev := c_dec c prev in
    let tmp := torsion_memxor3 last prev in
    let last := firstn len block ++ skipn len prev in
    let block := torsion_memxor (firstn len block) (firstn len prev) ++ skipn len block in
    let last := c_dec c last in
    let last := torsion_memxor last tmp in
    Some (prev, last, block)
  else None.

(* ---- XTS: the state is (mode->tweak, mode->prev) ---- *)
(* cipher.c:43-54 *)
Definition poly_table : list Z :=
  [0x1b; 0x87; 0x425; 0; 0x125; 0; 0; 0; 0x80043].

(* cipher.c:6153-6157 *)
Definition xts_init (c : cipher) (iv : list Z) : list Z * list Z :=
  (firstn (c_size c) iv, repeat 0 (c_size c)).
(* cipher.c:6159-6172; k2 is the cipher keyed with the second half of the key *)
Definition xts_setup (k2 : cipher) (m : list Z * list Z) : list Z * list Z :=
  (c_enc k2 (fst m), snd m).

(* cipher.c:6174-6189 *)
Definition xts_shift (src : list Z) : list Z :=
  let size := length src in
  let poly := nth (size / 16) poly_table 0 in
  let c := shr (rd src (size - 1)) 7 in
  let dst := map (fun i =>
    if (0 <? i)%nat then Z.lor (w8 (Z.shiftl (rd src i) 1)) (shr (rd src (i - 1)) 7)
    else w8 (Z.shiftl (rd src 0) 1)) (seq 0 size) in
  let dst := upd dst 2 (Z.lxor (rd dst 2) (Z.land (w8 (shr poly 16)) (- c))) in
  let dst := upd dst 1 (Z.lxor (rd dst 1) (Z.land (w8 (shr poly 8)) (- c))) in
  upd dst 0 (Z.lxor (rd dst 0) (Z.land (w8 (shr poly 0)) (- c))).

(* cipher.c:6191-6213 *)
Definition xts_encrypt (c : cipher) (m : list Z * list Z) (src : list Z) : option (list Z * (list Z * list Z)) :=
  if aligned (c_size c) (length src) then
    Some (block_loop (c_size c) (fun _ m b =>
      let '(tweak, prev) := m in
      let dst := torsion_memxor3 b tweak in
      let dst := c_enc c dst in
      let dst := torsion_memxor dst tweak in
      (dst, (xts_shift tweak, prev))) (length src) m src)
  else None.
(* cipher.c:6215-6240 *)
Definition xts_decrypt (c : cipher) (m : list Z * list Z) (src : list Z) : option (list Z * (list Z * list Z)) :=
  if aligned (c_size c) (length src) then
    Some (block_loop (c_size c) (fun len m b =>
      let '(tweak, prev) := m in
      let prev := if (len =? c_size c)%nat then tweak else prev in
      let dst := torsion_memxor3 b tweak in
      let dst := c_dec c dst in
      let dst := torsion_memxor dst tweak in
      (dst, (xts_shift tweak, prev))) (length src) m src)
  else None.
(* cipher.c:6242-6269: (last, block) *)
Definition xts_steal (c : cipher) (m : list Z * list Z) (last block : list Z) (len : nat) : option (list Z * list Z) :=
  if (len =? 0)%nat then Some (last, block) else
  if (len <? c_size c)%nat then
    let '(last, block) := swap_prefix len last block in
    let last := torsion_memxor last (fst m) in
    let last := c_enc c last in
    let last := torsion_memxor last (fst m) in
    Some (last, block)
  else None.
(* cipher.c:6271-6321 *)
Definition xts_unsteal (c : cipher) (m : list Z * list Z) (last block : list Z) (len : nat) : option (list Z * list Z) :=
  if (len =? 0)%nat then Some (last, block) else
  if (len <? c_size c)%nat then
    let '(tweak, prev) := m in
    let last := torsion_memxor last prev in
    let last := c_enc c last in
    let last := torsion_memxor last prev in
    let last := torsion_memxor last tweak in
    let last := c_dec c last in
    let last := torsion_memxor last tweak in
    let '(last, block) := swap_prefix len last block in
    let last := torsion_memxor last prev in
    let last := c_dec c last in
    let last := torsion_memxor last prev in
    Some (last, block)
  else None.

(* ---- stream modes ---- *)
(* stream_mode_t *)
Record smode := mkM { m_state : list Z; m_iv : list Z; m_pos : nat }.

Section Stream.
  Variable size : nat.
  Variable stream : smode -> smode.                                    (* stream_f *)
  Variable permute : smode -> nat -> list Z -> list Z * smode.         (* xor_f *)
  (* cipher.c:6357-6365 *)
  Fixpoint stream_blocks (fuel : nat) (m : smode) (src : list Z) : list Z * smode * list Z :=
    match fuel with
    | O => ([], m, src)
    | S n =>
      if (size <=? length src)%nat then
        let m := stream m in
        let '(d, m) := permute m 0 (firstn size src) in
        let '(o, m, src) := stream_blocks n m (skipn size src) in
        (d ++ o, m, src)
      else ([], m, src)
    end.
  (* cipher.c:6335-6378 *)
  Definition stream_update (m : smode) (src : list Z) : list Z * smode :=
    let pos := m_pos m in
    let want := (size - pos)%nat in
    let '(out, m, src, pos) :=
      if (want <=? length src)%nat then
        let '(out, m, src, pos) :=
          if (0 <? pos)%nat then
            let '(d, m) := permute m pos (firstn want src) in
            (d, m, skipn want src, 0%nat)
          else ([], m, src, pos) in
        let '(d, m, src) := stream_blocks (length src) m src in
        (out ++ d, m, src, pos)
      else ([], m, src, pos) in
    let '(d, m, pos) :=
      if (0 <? length src)%nat then
        let m := if (pos =? 0)%nat then stream m else m in
        let '(d, m) := permute m pos src in
        (d, m, (pos + length src)%nat)
      else ([], m, pos) in
    (out ++ d, mkM (m_state m) (m_iv m) pos).
End Stream.

(* cipher.c:6384-6390 *)
Definition ctr_init (c : cipher) (iv : list Z) : smode :=
  mkM (repeat 0 (c_size c)) (firstn (c_size c) iv) 0.
(* cipher.c:6392-6396 *)
Definition ctr_stream (c : cipher) (m : smode) : smode :=
  mkM (c_enc c (m_iv m)) (increment_be_var (m_iv m)) (m_pos m).
(* cipher.c:6398-6402 *)
Definition ctr_xor (m : smode) (pos : nat) (src : list Z) : list Z * smode :=
  (torsion_memxor3 src (skipn pos (m_state m)), m).
(* cipher.c:6404-6408 *)
Definition ctr_crypt (c : cipher) : smode -> list Z -> list Z * smode :=
  stream_update (c_size c) (ctr_stream c) ctr_xor.

(* cipher.c:6414-6420 *)
Definition cfb_init (c : cipher) (iv : list Z) : smode :=
  mkM (repeat 0 (c_size c)) (firstn (c_size c) iv) 0.
(* cipher.c:6422-6425 *)
Definition cfb_stream (c : cipher) (m : smode) : smode :=
  mkM (c_enc c (m_iv m)) (m_iv m) (m_pos m).
(* cipher.c:6427-6432 *)
Definition cfb_xor_enc (m : smode) (pos : nat) (src : list Z) : list Z * smode :=
  let dst := torsion_memxor3 src (skipn pos (m_state m)) in
  (dst, mkM (m_state m) (blit (m_iv m) pos dst) (m_pos m)).
(* cipher.c:6434-6439 *)
Definition cfb_xor_dec (m : smode) (pos : nat) (src : list Z) : list Z * smode :=
  let m := mkM (m_state m) (blit (m_iv m) pos src) (m_pos m) in
  (torsion_memxor3 src (skipn pos (m_state m)), m).
(* cipher.c:6441-6451 *)
Definition cfb_encrypt (c : cipher) : smode -> list Z -> list Z * smode :=
  stream_update (c_size c) (cfb_stream c) cfb_xor_enc.
Definition cfb_decrypt (c : cipher) : smode -> list Z -> list Z * smode :=
  stream_update (c_size c) (cfb_stream c) cfb_xor_dec.

(* cipher.c:6457-6461; iv is left uninitialised by the C code and never used *)
Definition ofb_init (c : cipher) (iv : list Z) : smode :=
  mkM (firstn (c_size c) iv) (repeat 0 (c_size c)) 0.
(* cipher.c:6463-6466 *)
Definition ofb_stream (c : cipher) (m : smode) : smode :=
  mkM (c_enc c (m_state m)) (m_iv m) (m_pos m).
(* cipher.c:6468-6472 *)
Definition ofb_crypt (c : cipher) : smode -> list Z -> list Z * smode :=
  stream_update (c_size c) (ofb_stream c) ctr_xor.

(* ---- GHASH ---- *)
(* gfe_t: (lo, hi) *)
Definition gfe := (Z * Z)%type.

(* cipher.c:6488-6493 *)
Definition ghash_reduction : list Z :=
  [0x0000; 0x1c20; 0x3840; 0x2460;
   0x7080; 0x6ca0; 0x48c0; 0x54e0;
   0xe100; 0xfd20; 0xd940; 0xc560;
   0x9180; 0x8da0; 0xa9c0; 0xb5e0].

(* cipher.c:6495-6500 *)
Definition revbits (x : Z) : Z :=
  let x := Z.lor (Z.land (shl32 x 2) 0x0c) (Z.land (shr x 2) 0x03) in
  Z.lor (Z.land (shl32 x 1) 0x0a) (Z.land (shr x 1) 0x05).

(* cipher.c:6502-6506 *)
Definition gfe_add (x y : gfe) : gfe := (Z.lxor (fst x) (fst y), Z.lxor (snd x) (snd y)).
(* cipher.c:6508-6516 *)
Definition gfe_dbl (x : gfe) : gfe :=
  let '(xlo, xhi) := x in
  let msb := Z.land xhi 1 in
  let hi := shr xhi 1 in
  let hi := Z.lor hi (shl64 xlo 63) in
  let lo := shr xlo 1 in
  let lo := Z.lxor lo (Z.land 0xe100000000000000 (w64 (- msb))) in
  (lo, hi).

(* cipher.c:6533-6545: lo, hi, word *)
Definition mul_step (table : list gfe) (s : Z * Z * Z) : Z * Z * Z :=
  let '(lo, hi, word) := s in
  let msw := Z.land hi 0x0f in
  let hi := shr hi 4 in
  let hi := Z.lor hi (shl64 lo 60) in
  let lo := shr lo 4 in
  let lo := Z.lxor lo (shl64 (nth (Z.to_nat msw) ghash_reduction 0) 48) in
  let t := nth (Z.to_nat (Z.land word 0x0f)) table (0, 0) in
  let lo := Z.lxor lo (fst t) in
  let hi := Z.lxor hi (snd t) in
  (lo, hi, shr word 4).
(* cipher.c:6518-6551 *)
Definition gfe_mul (x : gfe) (table : list gfe) : gfe :=
  let '(lo, hi, _) := Nat.iter 16 (mul_step table) (0, 0, snd x) in
  let '(lo, hi, _) := Nat.iter 16 (mul_step table) (lo, hi, fst x) in
  (lo, hi).

(* ghash_t *)
Record ghash := mkG { g_state : gfe; g_table : list gfe; g_block : list Z; g_adlen : Z; g_ctlen : Z; g_pos : nat }.

(* cipher.c:6553-6559 *)
Definition ghash_transform (table : list gfe) (st : gfe) (block : list Z) : gfe :=
  let '(lo, hi) := st in
  let lo := Z.lxor lo (read64be block) in
  let hi := Z.lxor hi (read64be (skipn 8 block)) in
  gfe_mul (lo, hi) table.

(* cipher.c:6561-6591 *)
Definition ghash_absorb (g : ghash) (data : list Z) : ghash :=
  let '(st, block, pos) := buf_update 16 false (ghash_transform (g_table g)) (g_state g) (g_block g) (g_pos g) data in
  mkG st (g_table g) block (g_adlen g) (g_ctlen g) pos.
(* cipher.c:6593-6603 *)
Definition ghash_pad (g : ghash) : ghash :=
  if (0 <? g_pos g)%nat then
    let block := fill (g_block g) (g_pos g) 16 0 in
    mkG (ghash_transform (g_table g) (g_state g) block) (g_table g) block (g_adlen g) (g_ctlen g) 0
  else g.
(* cipher.c:6619-6624: the table; entries not yet written are (0, 0) here and
   uninitialised in C, and every entry is written before it is read *)
Definition ghash_table (x : gfe) : list gfe :=
  let t := repeat (0, 0) 16 in
  let t := upd t (Z.to_nat (revbits 1)) x in
  fold_left (fun t i =>
    let t := upd t (Z.to_nat (revbits (i + 0))) (gfe_dbl (nth (Z.to_nat (revbits (i / 2))) t (0, 0))) in
    upd t (Z.to_nat (revbits (i + 1))) (gfe_add (nth (Z.to_nat (revbits i)) t (0, 0)) x))
    [2; 4; 6; 8; 10; 12; 14] t.
(* cipher.c:6605-6632 *)
Definition ghash_init (key : list Z) : ghash :=
  mkG (0, 0) (ghash_table (read64be key, read64be (skipn 8 key))) (repeat 0 16) 0 0 0.
(* cipher.c:6634-6638 *)
Definition ghash_aad (g : ghash) (data : list Z) : ghash :=
  ghash_absorb (mkG (g_state g) (g_table g) (g_block g) (add64 (g_adlen g) (Z.of_nat (length data))) (g_ctlen g) (g_pos g)) data.
(* cipher.c:6640-6648 *)
Definition ghash_update (g : ghash) (data : list Z) : ghash :=
  let g := if g_ctlen g =? 0 then ghash_pad g else g in
  ghash_absorb (mkG (g_state g) (g_table g) (g_block g) (g_adlen g) (add64 (g_ctlen g) (Z.of_nat (length data))) (g_pos g)) data.
(* cipher.c:6650-6661 *)
Definition ghash_final (g : ghash) : list Z :=
  let g := ghash_pad g in
  let '(lo, hi) := g_state g in
  let lo := Z.lxor lo (shl64 (g_adlen g) 3) in
  let hi := Z.lxor hi (shl64 (g_ctlen g) 3) in
  let '(lo, hi) := gfe_mul (lo, hi) (g_table g) in
  write64be lo ++ write64be hi.

(* ---- GCM ---- *)
Record gcm := mkGcm { gcm_ctr : smode; gcm_hash : ghash; gcm_mask : list Z }.

(* cipher.c:6667-6671 *)
Definition gcm_stream (c : cipher) (m : smode) : smode :=
  mkM (c_enc c (m_iv m)) (firstn 12 (m_iv m) ++ increment_be (skipn 12 (m_iv m))) (m_pos m).
(* cipher.c:6673-6680 *)
Definition gcm_crypt (c : cipher) : smode -> list Z -> list Z * smode :=
  stream_update (c_size c) (gcm_stream c) ctr_xor.
(* cipher.c:6682-6716 *)
Definition gcm_init (c : cipher) (iv : list Z) : option gcm :=
  if (c_size c =? 16)%nat then
    let ctr := mkM (repeat 0 16) (repeat 0 16) 0 in
    let '(key, ctr) := gcm_crypt c ctr (repeat 0 16) in
    let civ :=
      if (length iv =? 12)%nat then iv ++ [0; 0; 0; 1]
      else ghash_final (ghash_update (ghash_init key) iv) in
    let ctr := mkM (m_state ctr) civ (m_pos ctr) in
    let '(mask, ctr) := gcm_crypt c ctr (repeat 0 16) in
    Some (mkGcm ctr (ghash_init key) mask)
  else None.
(* cipher.c:6718-6721 *)
Definition gcm_aad (g : gcm) (aad : list Z) : gcm :=
  mkGcm (gcm_ctr g) (ghash_aad (gcm_hash g) aad) (gcm_mask g).
(* cipher.c:6723-6728 *)
Definition gcm_encrypt (c : cipher) (g : gcm) (src : list Z) : list Z * gcm :=
  let '(dst, ctr) := gcm_crypt c (gcm_ctr g) src in
  (dst, mkGcm ctr (ghash_update (gcm_hash g) dst) (gcm_mask g)).
(* cipher.c:6730-6735 *)
Definition gcm_decrypt (c : cipher) (g : gcm) (src : list Z) : list Z * gcm :=
  let h := ghash_update (gcm_hash g) src in
  let '(dst, ctr) := gcm_crypt c (gcm_ctr g) src in
  (dst, mkGcm ctr h (gcm_mask g)).
(* cipher.c:6737-6745 *)
Definition gcm_digest (g : gcm) : list Z :=
  torsion_memxor (ghash_final (gcm_hash g)) (gcm_mask g).

(* ---- CBC-MAC and CMAC: cmac_s ---- *)
Record cmac := mkCm { cm_mac : list Z; cm_pos : nat }.

(* torsion_memxor(mac + pos, raw, len) *)
Definition xor_at (mac : list Z) (pos : nat) (raw : list Z) : list Z :=
  blit mac pos (torsion_memxor (firstn (length raw) (skipn pos mac)) raw).

Section XorMac.
  Variable c : cipher.
  Variable lazy : bool.   (* true: the comparisons are > (cmac), false: >= (cbcmac) *)
  (* cipher.c:6777-6784, 7041-7048 *)
  Fixpoint mac_blocks (fuel : nat) (mac raw : list Z) : list Z * list Z :=
    match fuel with
    | O => (mac, raw)
    | S n =>
      if enough lazy (length raw) (c_size c) then
        mac_blocks n (c_enc c (xor_at mac 0 (firstn (c_size c) raw))) (skipn (c_size c) raw)
      else (mac, raw)
    end.
  (* cipher.c:6759-6793 and 7023-7057, which differ only in the comparisons *)
  Definition mac_update (h : cmac) (raw : list Z) : cmac :=
    let mac := cm_mac h in
    let pos := cm_pos h in
    let want := (c_size c - pos)%nat in
    let '(mac, pos, raw) :=
      if enough lazy (length raw) want then
        let '(mac, pos, raw) :=
          if (0 <? pos)%nat then
            (c_enc c (xor_at mac pos (firstn want raw)), 0%nat, skipn want raw)
          else (mac, pos, raw) in
        let '(mac, raw) := mac_blocks (length raw) mac raw in
        (mac, pos, raw)
      else (mac, pos, raw) in
    if (0 <? length raw)%nat then mkCm (xor_at mac pos raw) (pos + length raw)
    else mkCm mac pos.
End XorMac.

(* cipher.c:6753-6757 *)
Definition cbcmac_init (c : cipher) : cmac := mkCm (repeat 0 (c_size c)) 0.
(* cipher.c:6759-6793 *)
Definition cbcmac_update (c : cipher) : cmac -> list Z -> cmac := mac_update c false.
(* cipher.c:6795-6801 *)
Definition cbcmac_pad (c : cipher) (h : cmac) : cmac :=
  if (0 <? cm_pos h)%nat then mkCm (c_enc c (cm_mac h)) 0 else h.
(* cipher.c:6803-6807 *)
Definition cbcmac_final (c : cipher) (h : cmac) : list Z := cm_mac (cbcmac_pad c h).

(* cipher.c:6994-7004; flag = -1 is None *)
Definition cmac_init (c : cipher) (flag : option Z) : cmac :=
  let mac := repeat 0 (c_size c) in
  match flag with
  | None => mkCm mac 0
  | Some f => mkCm (upd mac (c_size c - 1) (Z.lxor (rd mac (c_size c - 1)) (Z.land f 0xff))) (c_size c)
  end.
(* cipher.c:7006-7021 *)
Definition cmac_shift (src : list Z) : list Z :=
  let size := length src in
  let poly := nth (size / 16) poly_table 0 in
  let c := shr (rd src 0) 7 in
  let dst := map (fun i =>
    if (i <? size - 1)%nat then Z.lor (w8 (Z.shiftl (rd src i) 1)) (shr (rd src (i + 1)) 7)
    else w8 (Z.shiftl (rd src (size - 1)) 1)) (seq 0 size) in
  let dst := upd dst (size - 3) (Z.lxor (rd dst (size - 3)) (Z.land (w8 (shr poly 16)) (- c))) in
  let dst := upd dst (size - 2) (Z.lxor (rd dst (size - 2)) (Z.land (w8 (shr poly 8)) (- c))) in
  upd dst (size - 1) (Z.lxor (rd dst (size - 1)) (Z.land (w8 (shr poly 0)) (- c))).
(* cipher.c:7023-7057 *)
Definition cmac_update (c : cipher) : cmac -> list Z -> cmac := mac_update c true.
(* cipher.c:7059-7078 *)
Definition cmac_final (c : cipher) (h : cmac) : list Z :=
  let k := c_enc c (repeat 0 (c_size c)) in
  let k := cmac_shift k in
  let '(mac, k) :=
    if (cm_pos h <? c_size c)%nat then
      (upd (cm_mac h) (cm_pos h) (Z.lxor (rd (cm_mac h) (cm_pos h)) 0x80), cmac_shift k)
    else (cm_mac h, k) in
  c_enc c (torsion_memxor mac k).

(* ---- CCM ---- *)
Record ccm := mkCcm { ccm_ctr : smode; ccm_hash : cmac }.

(* cipher.c:6814-6847; None: return 0 *)
Definition ccm_init (c : cipher) (iv : list Z) : option ccm :=
  if (c_size c =? 16)%nat then
    if (length iv <? 7)%nat then None else
    let iv_len := if (13 <? length iv)%nat then 13%nat else length iv in
    Some (mkCcm (mkM (blit (repeat 0 16) 0 (firstn iv_len iv)) (repeat 0 16) iv_len) (cbcmac_init c))
  else None.

(* cipher.c:6853-6856; x is a size_t, so 64 iterations suffice *)
Fixpoint bit_count (fuel : nat) (x z : Z) : Z :=
  match fuel with
  | O => z
  | S n => if 0 <? x then bit_count n (shr x 1) (z + 1) else z
  end.
(* cipher.c:6849-6864 *)
Definition ccm_log256 (x : Z) : Z :=
  let z := bit_count 64 x 0 in
  let z := (z + 7) / 8 in
  if z <? 2 then 2 else z.

(* cipher.c:6906-6909: block[i], i from 15 down to 1 + iv_len, and what is left of lm *)
Fixpoint lm_loop (fuel : nat) (i stop : nat) (block : list Z) (lm : Z) : list Z * Z :=
  match fuel with
  | O => (block, lm)
  | S n =>
    if (stop <=? i)%nat then lm_loop n (i - 1) stop (upd block i (Z.land lm 0xff)) (shr lm 8)
    else (block, lm)
  end.

(* cipher.c:6866-6949; block is uninitialised in C, zero here (every byte is written) *)
Definition ccm_setup (c : cipher) (m : ccm) (msg_len tag_len : Z) (aad : list Z) : outcome ccm :=
  let ctr := ccm_ctr m in
  let iv := m_state ctr in
  let iv_len := m_pos ctr in
  let aad_len := Z.of_nat (length aad) in
  let Adata := if 0 <? aad_len then 1 else 0 in
  let L := ccm_log256 msg_len in
  let N := 15 - L in
  if negb (c_size c =? 16)%nat then Fail else
  if ((iv_len <? 7) || (13 <? iv_len))%nat then Fail else
  if (N <? 7) || (13 <? N) then Fail else
  if (tag_len <? 4) || (16 <? tag_len) || negb (Z.land tag_len 1 =? 0) then Fail else
  let iv_len := if N <? Z.of_nat iv_len then Z.to_nat N else iv_len in
  let block := repeat 0 16 in
  let block := upd block 0 (w8 (64 * Adata + 8 * ((tag_len - 2) / 2) + (L - 1))) in
  let block := blit block 1 (firstn iv_len iv) in
  let '(block, lm) := lm_loop 16 15 (1 + iv_len) block msg_len in
  if negb (lm =? 0) then Abort else
  let h := cbcmac_update c (ccm_hash m) block in
  let h :=
    if Adata =? 1 then
      let h :=
        if aad_len <? 0xff00 then cbcmac_update c h (write16be aad_len)
        else if aad_len - 1 <? 0xffffffff then
          cbcmac_update c h (write16be 0xfffe ++ write32be (w32 aad_len))
        else cbcmac_update c h (write16be 0xffff ++ write64be aad_len) in
      cbcmac_pad c (cbcmac_update c h aad)
    else h in
  let block := upd block 0 (Z.land (rd block 0) 7) in
  let block := upd block 15 1 in
  let block := fst (lm_loop 16 14 (1 + Z.to_nat N) block 0) in
  Ok (mkCcm (mkM iv block 0) h).

(* cipher.c:6951-6955 *)
Definition ccm_crypt (c : cipher) (m : ccm) (src : list Z) : list Z * smode := ctr_crypt c (ccm_ctr m) src.
(* cipher.c:6957-6962 *)
Definition ccm_encrypt (c : cipher) (m : ccm) (src : list Z) : list Z * ccm :=
  let h := cbcmac_update c (ccm_hash m) src in
  let '(dst, ctr) := ccm_crypt c m src in
  (dst, mkCcm ctr h).
(* cipher.c:6964-6969 *)
Definition ccm_decrypt (c : cipher) (m : ccm) (src : list Z) : list Z * ccm :=
  let '(dst, ctr) := ccm_crypt c m src in
  (dst, mkCcm ctr (cbcmac_update c (ccm_hash m) dst)).
(* cipher.c:6971-6985 *)
Definition ccm_digest (c : cipher) (m : ccm) : list Z :=
  let ctr := ccm_ctr m in
  let i := Z.to_nat (16 - (Z.land (rd (m_iv ctr) 0) 7 + 1)) in
  let mac := cbcmac_final c (ccm_hash m) in
  let ctr := mkM (m_state ctr) (fill (m_iv ctr) i 16 0) 0 in
  fst (ctr_crypt c ctr mac).

(* ---- EAX ---- *)
Record eax := mkEax { eax_ctr : smode; eax_hash1 : cmac; eax_hash2 : cmac; eax_mask : list Z }.

(* cipher.c:7084-7109 *)
Definition eax_init (c : cipher) (iv : list Z) : option eax :=
  if (length iv =? 0)%nat then None else
  let h := cmac_update c (cmac_init c (Some 0)) iv in
  let mask := cmac_final c h in
  Some (mkEax (mkM (repeat 0 (c_size c)) mask 0) (cmac_init c (Some 1)) (cmac_init c (Some 2)) mask).
(* cipher.c:7111-7115 *)
Definition eax_aad (c : cipher) (m : eax) (aad : list Z) : eax :=
  mkEax (eax_ctr m) (cmac_update c (eax_hash1 m) aad) (eax_hash2 m) (eax_mask m).
(* cipher.c:7117-7121 *)
Definition eax_stream (c : cipher) (m : smode) : smode :=
  mkM (c_enc c (m_iv m)) (increment_be (m_iv m)) (m_pos m).
(* cipher.c:7123-7130 *)
Definition eax_crypt (c : cipher) : smode -> list Z -> list Z * smode :=
  stream_update (c_size c) (eax_stream c) ctr_xor.
(* cipher.c:7132-7137 *)
Definition eax_encrypt (c : cipher) (m : eax) (src : list Z) : list Z * eax :=
  let '(dst, ctr) := eax_crypt c (eax_ctr m) src in
  (dst, mkEax ctr (eax_hash1 m) (cmac_update c (eax_hash2 m) dst) (eax_mask m)).
(* cipher.c:7139-7144 *)
Definition eax_decrypt (c : cipher) (m : eax) (src : list Z) : list Z * eax :=
  let h := cmac_update c (eax_hash2 m) src in
  let '(dst, ctr) := eax_crypt c (eax_ctr m) src in
  (dst, mkEax ctr (eax_hash1 m) h (eax_mask m)).
(* cipher.c:7146-7157 *)
Definition eax_digest (c : cipher) (m : eax) : list Z :=
  let mac1 := cmac_final c (eax_hash1 m) in
  let mac2 := cmac_final c (eax_hash2 m) in
  torsion_memxor3 (torsion_memxor3 mac1 mac2) (eax_mask m).
