(* Model of the cipher_mode_t and cipher_stream_t layers of src/cipher.c (7160-7938).
   cipher_init is a parameter: a function from the key to a keyed block cipher, or
   None when the key size is wrong. torsion_abort, CHECK and ASSERT failures are
   Abort. Output pointers: every function returns the bytes it writes at output and
   the value it stores in *output_len separately. *)
From Verif.Base Require Import Prelude.
From Verif.Model Require Import Bio Util Block Encoding Modes.

(* cipher.h:172-184 *)
Inductive mode_id := RAW | ECB | CBC | CTS | XTS | CTR | CFB | OFB | GCM | CCM | EAX.

(* cipher_mode_s.mode: the union, tagged (type says which member is live);
   block_mode_t for CBC/CTS holds only prev, for XTS (tweak, prev) *)
Inductive mstate :=
| MNone
| MCbc (prev : list Z)
| MXts (m : list Z * list Z)
| MStream (m : smode)
| MGcm (m : gcm)
| MCcm (m : ccm)
| MEax (m : eax).

(* cipher.c:7165-7241 *)
Definition cipher_mode_init (c : cipher) (type : mode_id) (iv : list Z) : option mstate :=
  let sized (m : mstate) := if (length iv =? c_size c)%nat then Some m else None in
  match type with
  | RAW | ECB => if (length iv =? 0)%nat then Some MNone else None
  | CBC | CTS => sized (MCbc (cbc_init c iv))
  | XTS => sized (MXts (xts_init c iv))
  | CTR => sized (MStream (ctr_init c iv))
  | CFB => sized (MStream (cfb_init c iv))
  | OFB => sized (MStream (ofb_init c iv))
  | GCM => option_map MGcm (gcm_init c iv)
  | CCM => option_map MCcm (ccm_init c iv)
  | EAX => option_map MEax (eax_init c iv)
  end.

Definition some_out {S} (k : S -> mstate) (r : option (list Z * S)) : outcome (list Z * mstate) :=
  match r with Some (o, s) => Ok (o, k s) | None => Abort end.
Definition tot_out {S} (k : S -> mstate) (r : list Z * S) : outcome (list Z * mstate) :=
  let '(o, s) := r in Ok (o, k s).

(* cipher.c:7284-7324 *)
Definition cipher_mode_encrypt (c : cipher) (type : mode_id) (m : mstate) (src : list Z) : outcome (list Z * mstate) :=
  match type, m with
  | RAW, _ | ECB, _ => match ecb_encrypt c src with Some o => Ok (o, m) | None => Abort end
  | CBC, MCbc p | CTS, MCbc p => some_out MCbc (cbc_encrypt c p src)
  | XTS, MXts s => some_out MXts (xts_encrypt c s src)
  | CTR, MStream s => tot_out MStream (ctr_crypt c s src)
  | CFB, MStream s => tot_out MStream (cfb_encrypt c s src)
  | OFB, MStream s => tot_out MStream (ofb_crypt c s src)
  | GCM, MGcm s => tot_out MGcm (gcm_encrypt c s src)
  | CCM, MCcm s => tot_out MCcm (ccm_encrypt c s src)
  | EAX, MEax s => tot_out MEax (eax_encrypt c s src)
  | _, _ => Abort
  end.
(* cipher.c:7326-7366; CBC decryption is the branch for disjoint buffers *)
Definition cipher_mode_decrypt (c : cipher) (type : mode_id) (m : mstate) (src : list Z) : outcome (list Z * mstate) :=
  match type, m with
  | RAW, _ | ECB, _ => match ecb_decrypt c src with Some o => Ok (o, m) | None => Abort end
  | CBC, MCbc p | CTS, MCbc p => some_out MCbc (cbc_decrypt_disjoint c p src)
  | XTS, MXts s => some_out MXts (xts_decrypt c s src)
  | CTR, MStream s => tot_out MStream (ctr_crypt c s src)
  | CFB, MStream s => tot_out MStream (cfb_decrypt c s src)
  | OFB, MStream s => tot_out MStream (ofb_crypt c s src)
  | GCM, MGcm s => tot_out MGcm (gcm_decrypt c s src)
  | CCM, MCcm s => tot_out MCcm (ccm_decrypt c s src)
  | EAX, MEax s => tot_out MEax (eax_decrypt c s src)
  | _, _ => Abort
  end.
(* cipher.c:7368-7404: (mode, last, block) *)
Definition cipher_mode_steal (c : cipher) (type : mode_id) (m : mstate) (last block : list Z) (len : nat) : outcome (mstate * list Z * list Z) :=
  match type, m with
  | CTS, MCbc p => match cbc_steal c p last block len with Some (p, last, block) => Ok (MCbc p, last, block) | None => Abort end
  | XTS, MXts s => match xts_steal c s last block len with Some (last, block) => Ok (m, last, block) | None => Abort end
  | _, _ => Abort
  end.
Definition cipher_mode_unsteal (c : cipher) (type : mode_id) (m : mstate) (last block : list Z) (len : nat) : outcome (mstate * list Z * list Z) :=
  match type, m with
  | CTS, MCbc p => match cbc_unsteal c p last block len with Some (p, last, block) => Ok (MCbc p, last, block) | None => Abort end
  | XTS, MXts s => match xts_unsteal c s last block len with Some (last, block) => Ok (m, last, block) | None => Abort end
  | _, _ => Abort
  end.
(* cipher.c:7406-7424; the mode is not used after its digest *)
Definition cipher_mode_digest (c : cipher) (type : mode_id) (m : mstate) : outcome (list Z) :=
  match type, m with
  | GCM, MGcm s => Ok (gcm_digest s)
  | CCM, MCcm s => Ok (ccm_digest c s)
  | EAX, MEax s => Ok (eax_digest c s)
  | _, _ => Abort
  end.
(* cipher.c:7426-7442: mac is a zeroed 16-byte array of which digest writes a prefix *)
Definition cipher_mode_verify (c : cipher) (type : mode_id) (m : mstate) (tag : list Z) : outcome Z :=
  let tag_len := length tag in
  if (tag_len =? 0)%nat || (16 <? tag_len)%nat then Ok 0 else
  match cipher_mode_digest c type m with
  | Ok d => Ok (torsion_memequal (firstn tag_len (blit (repeat 0 16) 0 d)) tag)
  | Fail => Fail
  | Abort => Abort
  end.

(* cipher_stream_t (cipher.h:330-344); block and last hold block_size bytes, tag its
   first tag_len bytes *)
Record cstream := mkS {
  s_encrypt : bool; s_padding : bool; s_unpad : bool;
  s_block : list Z; s_pos : nat;          (* block, block_pos *)
  s_last : list Z; s_lsize : nat;         (* last, last_size *)
  s_tag : list Z; s_ccm_len : Z;
  s_cipher : cipher; s_type : mode_id; s_mode : mstate }.
Definition s_bsize (s : cstream) : nat := c_size (s_cipher s).

Definition is_pad (m : mode_id) : bool := match m with ECB | CBC => true | _ => false end.
Definition is_cts (m : mode_id) : bool := match m with CTS | XTS => true | _ => false end.
(* mode > CIPHER_MODE_XTS *)
Definition is_stream (m : mode_id) : bool := match m with RAW | ECB | CBC | CTS | XTS => false | _ => true end.
(* mode >= CIPHER_MODE_GCM *)
Definition is_aead (m : mode_id) : bool := match m with GCM | CCM | EAX => true | _ => false end.

(* cipher.c:7448-7497; None: return 0 *)
Definition cipher_stream_init (ci : list Z -> option cipher) (mode : mode_id) (encrypt : bool) (key iv : list Z) : option cstream :=
  let mk c m := Some (mkS encrypt true ((is_pad mode && negb encrypt) || is_cts mode)
    (repeat 0 (c_size c)) 0 (repeat 0 (c_size c)) 0 [] 0 c mode m) in
  match mode with
  | XTS =>
    if (length key =? 0)%nat || negb (Z.land (Z.of_nat (length key)) 1 =? 0) then None else
    let n := (length key / 2)%nat in
    let k1 := firstn n key in
    let k2 := skipn n key in
    if negb (torsion_memequal k1 k2 =? 0) then None else
    match ci k1 with
    | None => None
    | Some c =>
      match cipher_mode_init c XTS iv with
      | Some (MXts m) =>
        match ci k2 with
        | None => None
        | Some c2 => mk c (MXts (xts_setup c2 m))
        end
      | _ => None
      end
    end
  | _ =>
    match ci key with
    | None => None
    | Some c =>
      match cipher_mode_init c mode iv with
      | Some m => mk c m
      | None => None
      end
    end
  end.

(* cipher.c:7499-7521; None: return 0, context unchanged *)
Definition cipher_stream_set_padding (s : cstream) (padding : bool) : option cstream :=
  let t := s_type s in
  if negb (is_pad t) && negb (is_cts t) then None else
  if (negb (s_encrypt s) || is_cts t) && (negb (s_lsize s =? 0)%nat || negb (s_pos s =? 0)%nat) then None else
  Some (mkS (s_encrypt s) padding (padding && (negb (s_encrypt s) || is_cts t))
    (s_block s) (s_pos s) (s_last s) (s_lsize s) (s_tag s) (s_ccm_len s) (s_cipher s) t (s_mode s)).

Definition with_mode (s : cstream) (m : mstate) : cstream :=
  mkS (s_encrypt s) (s_padding s) (s_unpad s) (s_block s) (s_pos s) (s_last s) (s_lsize s) (s_tag s) (s_ccm_len s) (s_cipher s) (s_type s) m.

(* cipher.c:7523-7534 with cipher_mode_aad (7268-7283) *)
Definition cipher_stream_set_aad (s : cstream) (aad : list Z) : outcome cstream :=
  match s_type s, s_mode s with
  | GCM, MGcm g => Ok (with_mode s (MGcm (gcm_aad g aad)))
  | EAX, MEax g => Ok (with_mode s (MEax (eax_aad (s_cipher s) g aad)))
  | GCM, _ | EAX, _ => Abort
  | _, _ => Fail
  end.
(* cipher.c:7536-7549 with cipher_mode_ccm_setup (7253-7266) *)
Definition cipher_stream_set_ccm (s : cstream) (msg_len tag_len : Z) (aad : list Z) : outcome cstream :=
  match s_type s, s_mode s with
  | CCM, MCcm m =>
    match ccm_setup (s_cipher s) m msg_len tag_len aad with
    | Ok m => Ok (mkS (s_encrypt s) (s_padding s) (s_unpad s) (s_block s) (s_pos s) (s_last s) (s_lsize s) (s_tag s) tag_len (s_cipher s) CCM (MCcm m))
    | Fail => Fail
    | Abort => Abort
    end
  | CCM, _ => Abort
  | _, _ => Fail
  end.
(* cipher.c:7551-7581 *)
Definition cipher_stream_set_tag (s : cstream) (tag : list Z) : outcome cstream :=
  let len := length tag in
  if s_encrypt s then Fail else
  let ok :=
    match s_type s with
    | GCM => (len =? 4) || (len =? 8) || ((12 <=? len) && (len <=? 16))
    | CCM => negb (s_ccm_len s =? 0)%Z && (Z.of_nat len =? s_ccm_len s)%Z
    | EAX => negb ((len =? 0) || (s_bsize s <? len))
    | _ => false
    end%nat in
  if ok then
    if (len <=? s_bsize s)%nat then
      Ok (mkS (s_encrypt s) (s_padding s) (s_unpad s) (s_block s) (s_pos s) (s_last s) (s_lsize s) tag (s_ccm_len s) (s_cipher s) (s_type s) (s_mode s))
    else Abort
  else Fail.
(* cipher.c:7583-7598; None: return 0, *len = 0 *)
Definition cipher_stream_get_tag (s : cstream) : option (list Z) :=
  if negb (is_aead (s_type s)) || negb (s_encrypt s) then None else
  if (length (s_tag s) =? 0)%nat then None else Some (s_tag s).

(* cipher.c:7600-7609 *)
Definition encipher (s : cstream) (m : mstate) (src : list Z) : outcome (list Z * mstate) :=
  if s_encrypt s then cipher_mode_encrypt (s_cipher s) (s_type s) m src
  else cipher_mode_decrypt (s_cipher s) (s_type s) m src.

(* input_len & -block_size; the mask is taken in unbounded two's complement, which
   agrees with the size_t mask on every size_t length *)
Definition align_down (size len : nat) : nat :=
  Z.to_nat (Z.land (Z.of_nat len) (- Z.of_nat size)).

(* cipher.c:7611-7678: bytes written at output, *output_len, context *)
Definition cipher_stream_update (s : cstream) (input : list Z) : outcome (list Z * nat * cstream) :=
  let B := s_bsize s in
  if is_stream (s_type s) then
    match encipher s (s_mode s) input with
    | Ok (o, m) => Ok (o, length input, with_mode s m)
    | Fail => Fail
    | Abort => Abort
    end
  else if (s_pos s + length input <? B)%nat then
    let block := if (0 <? length input)%nat then blit (s_block s) (s_pos s) input else s_block s in
    Ok ([], 0%nat, mkS (s_encrypt s) (s_padding s) (s_unpad s) block (s_pos s + length input) (s_last s) (s_lsize s) (s_tag s) (s_ccm_len s) (s_cipher s) (s_type s) (s_mode s))
  else
    let out := if s_unpad s then firstn (s_lsize s) (s_last s) else [] in
    let step1 :=
      if (0 <? s_pos s)%nat then
        let want := (B - s_pos s)%nat in
        let block := blit (s_block s) (s_pos s) (firstn want input) in
        match encipher s (s_mode s) block with
        | Ok (o, m) => Ok (out ++ o, block, 0%nat, m, skipn want input)
        | Fail => Fail
        | Abort => Abort
        end
      else Ok (out, s_block s, s_pos s, s_mode s, input) in
    match step1 with
    | Ok (out, block, pos, m, input) =>
      let step2 :=
        if (B <=? length input)%nat then
          let al := align_down B (length input) in
          match encipher s m (firstn al input) with
          | Ok (o, m) => Ok (out ++ o, m, skipn al input)
          | Fail => Fail
          | Abort => Abort
          end
        else Ok (out, m, input) in
      match step2 with
      | Ok (out, m, input) =>
        let '(block, pos) := if (0 <? length input)%nat then (blit block 0 input, length input) else (block, pos) in
        if (length out <? B)%nat then Abort else
        if s_unpad s then
          Ok (out, (length out - B)%nat,
            mkS (s_encrypt s) (s_padding s) (s_unpad s) block pos (skipn (length out - B) out) B (s_tag s) (s_ccm_len s) (s_cipher s) (s_type s) m)
        else
          Ok (out, length out,
            mkS (s_encrypt s) (s_padding s) (s_unpad s) block pos (s_last s) (s_lsize s) (s_tag s) (s_ccm_len s) (s_cipher s) (s_type s) m)
      | Fail => Fail
      | Abort => Abort
      end
    | Fail => Fail
    | Abort => Abort
    end.

(* cipher.c:7680-7706; Abort: the ASSERT *)
Definition cipher_stream_update_size (s : cstream) (input_len : nat) : outcome nat :=
  let B := s_bsize s in
  if is_stream (s_type s) then Ok input_len
  else if (s_pos s + input_len <? B)%nat then Ok 0%nat
  else
    let out := if s_unpad s then s_lsize s else 0%nat in
    let '(input_len, out) := if (0 <? s_pos s)%nat then ((input_len - (B - s_pos s))%nat, (out + B)%nat) else (input_len, out) in
    let out := if (B <=? input_len)%nat then (out + align_down B input_len)%nat else out in
    if (out <? B)%nat then Abort else Ok out.

(* cipher.c:7708-7727; Fail: return 0 *)
Definition cipher_stream_crypt (s : cstream) (src : list Z) : outcome (list Z * cstream) :=
  let run :=
    match encipher s (s_mode s) src with
    | Ok (o, m) => Ok (o, with_mode s m)
    | Fail => Fail
    | Abort => Abort
    end in
  if is_stream (s_type s) then run
  else if s_unpad s || negb (s_pos s =? 0)%nat then Fail
  else if negb (aligned (s_bsize s) (length src)) then Fail
  else run.

(* result of final: (return value, bytes written at output, *output_len, context) *)
Definition fin := (Z * list Z * nat * cstream)%type.
Definition with_tag (s : cstream) (tag : list Z) : cstream :=
  mkS (s_encrypt s) (s_padding s) (s_unpad s) (s_block s) (s_pos s) (s_last s) (s_lsize s) tag (s_ccm_len s) (s_cipher s) (s_type s) (s_mode s).
Definition aead_final (s : cstream) (tag_len : nat) : outcome fin :=
  if s_encrypt s then
    match cipher_mode_digest (s_cipher s) (s_type s) (s_mode s) with
    | Ok d => Ok (1, [], 0%nat, with_tag s (firstn tag_len d))
    | Fail => Fail
    | Abort => Abort
    end
  else
    match cipher_mode_verify (s_cipher s) (s_type s) (s_mode s) (s_tag s) with
    | Ok r => Ok (r, [], 0%nat, s)
    | Fail => Fail
    | Abort => Abort
    end.
(* cipher.c:7729-7835 *)
Definition cipher_stream_final (s : cstream) : outcome fin :=
  let B := s_bsize s in
  let ret (r : Z) : outcome fin := Ok (r, [], 0%nat, s) in
  match s_type s with
  | RAW => if negb (s_pos s =? 0)%nat then ret 0 else ret 1
  | ECB | CBC =>
    if negb (s_padding s) then
      if negb (s_pos s =? 0)%nat then ret 0 else ret 1
    else if negb (s_encrypt s) then
      if negb (s_pos s =? 0)%nat then ret 0
      else if (s_lsize s =? 0)%nat then ret 0
      else let '(r, len, dst) := pkcs7_unpad (s_last s) in Ok (r, dst, Z.to_nat len, s)
    else
      match pkcs7_pad (firstn (s_pos s) (s_block s)) B with
      | None => Abort
      | Some b =>
        match encipher s (s_mode s) b with
        | Ok (o, m) => Ok (1, o, B, with_mode s m)
        | Fail => Fail
        | Abort => Abort
        end
      end
  | CTS | XTS =>
    if negb (s_padding s) then
      if negb (s_pos s =? 0)%nat then ret 0 else ret 1
    else if (s_lsize s =? 0)%nat then ret 0
    else
      match (if s_encrypt s then cipher_mode_steal else cipher_mode_unsteal) (s_cipher s) (s_type s) (s_mode s) (s_last s) (s_block s) (s_pos s) with
      | Ok (m, last, block) =>
        Ok (1, last ++ firstn (s_pos s) block, (B + s_pos s)%nat,
          mkS (s_encrypt s) (s_padding s) (s_unpad s) block (s_pos s) last (s_lsize s) (s_tag s) (s_ccm_len s) (s_cipher s) (s_type s) m)
      | Fail => Fail
      | Abort => Abort
      end
  | GCM | EAX => aead_final s B
  | CCM => if s_ccm_len s =? 0 then ret 0 else aead_final s (Z.to_nat (s_ccm_len s))
  | _ => ret 1
  end.

(* cipher.c:7837-7862 *)
Definition cipher_stream_final_size (s : cstream) : nat :=
  match s_type s with
  | ECB | CBC => if negb (s_padding s) then 0%nat else s_bsize s
  | CTS | XTS => if negb (s_padding s) then 0%nat else (s_bsize s + s_pos s)%nat
  | _ => 0%nat
  end.

(* cipher.c:7868-7902: cipher_static_crypt; cipher_static_encrypt/decrypt set encrypt.
   Fail: return 0 *)
Definition cipher_static_crypt (ci : list Z -> option cipher) (mode : mode_id) (encrypt : bool) (key iv input : list Z) : outcome (list Z) :=
  if is_aead mode then Fail else
  match cipher_stream_init ci mode encrypt key iv with
  | None => Fail
  | Some s =>
    match cipher_stream_update s input with
    | Ok (o1, len1, s) =>
      match cipher_stream_final s with
      | Ok (r, o2, len2, _) => if r =? 0 then Fail else Ok (firstn len1 o1 ++ firstn len2 o2)
      | Fail => Fail
      | Abort => Abort
      end
    | Fail => Fail
    | Abort => Abort
    end
  end.
