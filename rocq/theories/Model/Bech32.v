(* Model of the bech32 and cash32 codecs of src/encoding.c (lines 1202-1888).
   NUL-terminated strings are lists of nonzero character codes; reading
   str[i] at or past the end of the list gives the terminator 0 (rdz). An
   integer result 0 of the C function is None; the bytes written to output
   buffers before a failure are not represented. *)
From Coq Require Import String Ascii.
From Verif.Base Require Import Prelude.
From Verif.Model Require Import Encoding.

(* s[i] with the terminator visible; the codecs read the character after the
   last one scanned (encoding.c:1269, 1341, 1579, 1665, 1688) *)
Definition rdz (s : list Z) (i : nat) : Z := nth i s 0.

(* encoding.c:1211 and 1524 *)
Definition bech32_charset : list Z := Eval vm_compute in str "qpzry9x8gf2tvdw0s3jn54khce6mua7l".

(* encoding.c:1213-1230; cash32_table (1526-1543) is the same table *)
Definition bech32_table : list Z := [
  -1; -1; -1; -1; -1; -1; -1; -1; -1; -1; -1; -1; -1; -1; -1; -1;
  -1; -1; -1; -1; -1; -1; -1; -1; -1; -1; -1; -1; -1; -1; -1; -1;
  -1; -1; -1; -1; -1; -1; -1; -1; -1; -1; -1; -1; -1; -1; -1; -1;
  15; -1; 10; 17; 21; 20; 26; 30; 7; 5; -1; -1; -1; -1; -1; -1;
  -1; 29; -1; 24; 13; 25; 9; 8; 23; -1; 18; 22; 31; 27; 19; -1;
  1; 0; 3; 16; 11; 28; 12; 14; 6; 4; 2; -1; -1; -1; -1; -1;
  -1; 29; -1; 24; 13; 25; 9; 8; 23; -1; 18; 22; 31; 27; 19; -1;
  1; 0; 3; 16; 11; 28; 12; 14; 6; 4; 2; -1; -1; -1; -1; -1].

(* encoding.c:1232-1242 bech32_polymod (uint32_t) *)
Definition bech32_polymod (c : Z) : Z :=
  let b := shr c 25 in
  let m i := w32 (- (Z.land (shr b i) 1)) in
  Z.lxor (Z.lxor (Z.lxor (Z.lxor (Z.lxor
    (shl32 (Z.land c 0x1ffffff) 5)
    (Z.land 0x3b6a57b2 (m 0)))
    (Z.land 0x26508e6d (m 1)))
    (Z.land 0x1ea119fa (m 2)))
    (Z.land 0x3d4233dd (m 3)))
    (Z.land 0x2a1462b3 (m 4)).

(* encoding.c:1298-1299 (1605-1606 for cash32) *)
Fixpoint iter_polymod (p : Z -> Z) (n : nat) (c : Z) : Z :=
  match n with O => c | S m => iter_polymod p m (p c) end.

(* encoding.c:1254-1267: first loop over hrp; n is the remaining bound.
   None is "return 0", otherwise hlen and chk. *)
Fixpoint bech32_hrp_loop (n : nat) (s : list Z) (hlen : nat) (chk : Z) : option (nat * Z) :=
  match n with
  | O => Some (hlen, chk)
  | S m =>
    match s with
    | [] => Some (hlen, chk)
    | c :: t =>
      let ch := torsion_ascii c in
      if ch =? 0 then Some (hlen, chk) else
      if (ch <? 33) || (126 <? ch) then None else
      if (65 <=? ch) && (ch <=? 90) then None else
      bech32_hrp_loop m t (S hlen) (Z.lxor (bech32_polymod chk) (shr ch 5))
    end
  end.

(* encoding.c:1287-1296 (1594-1603 for cash32): loop over the data symbols *)
Fixpoint bech32_data_loop (poly : Z -> Z) (chk : Z) (data : list Z) : option (Z * list Z) :=
  match data with
  | [] => Some (chk, [])
  | ch :: t =>
    if negb (shr ch 5 =? 0) then None else
    match bech32_data_loop poly (Z.lxor (poly chk) ch) t with
    | None => None
    | Some (c, o) => Some (c, tab bech32_charset ch :: o)
    end
  end.

(* encoding.c:1244-1309 bech32_serialize *)
Definition bech32_serialize (hrp data : list Z) (checksum : Z) : option (list Z) :=
  match bech32_hrp_loop 83 hrp 0 1 with
  | None => None
  | Some (hlen, chk) =>
    if (hlen =? 0)%nat || negb (rdz hrp hlen =? 0) then None else
    if 90 <? Z.of_nat hlen + 1 + Z.of_nat (length data) + 6 then None else
    let chk := bech32_polymod chk in
    let chk := fold_left (fun chk c => Z.lxor (bech32_polymod chk) (Z.land (torsion_ascii c) 0x1f))
                 (firstn hlen hrp) chk in
    match bech32_data_loop bech32_polymod chk data with
    | None => None
    | Some (chk, o) =>
      let chk := iter_polymod bech32_polymod 6 chk in
      let chk := Z.lxor chk checksum in
      Some (firstn hlen hrp ++ [49] ++ o ++
        map (fun i => tab bech32_charset (Z.land (shr chk ((5 - i) * 5)) 0x1f)) [0; 1; 2; 3; 4; 5])
    end
  end.

(* encoding.c:1324-1339: scan of the whole string *)
Fixpoint bech32_scan (n : nat) (s : list Z) (slen hlen : nat) (lower upper : bool)
  : option (nat * nat * bool * bool) :=
  match n with
  | O => Some (slen, hlen, lower, upper)
  | S m =>
    match s with
    | [] => Some (slen, hlen, lower, upper)
    | c :: t =>
      let ch := torsion_ascii c in
      if ch =? 0 then Some (slen, hlen, lower, upper) else
      if (ch <? 33) || (126 <? ch) then None else
      if (97 <=? ch) && (ch <=? 122) then bech32_scan m t (S slen) hlen true upper
      else if (65 <=? ch) && (ch <=? 90) then bech32_scan m t (S slen) hlen lower true
      else if ch =? 49 then bech32_scan m t (S slen) slen lower upper
      else bech32_scan m t (S slen) hlen lower upper
    end
  end.

(* encoding.c:1371-1381 (1714-1724 for cash32): data symbols including the checksum symbols; the
   caller keeps all but the last 6 (8 for cash32) *)
Fixpoint bech32_vals (poly : Z -> Z) (chk : Z) (s : list Z) : option (Z * list Z) :=
  match s with
  | [] => Some (chk, [])
  | c :: t =>
    let val := tabval bech32_table c in
    if high_bit val then None else
    match bech32_vals poly (Z.lxor (poly chk) val) t with
    | None => None
    | Some (chk, vs) => Some (chk, val :: vs)
    end
  end.

(* encoding.c:1356-1357 *)
Definition to_lower (ch : Z) : Z := if (65 <=? ch) && (ch <=? 90) then ch + 32 else ch.

(* encoding.c:1311-1389 bech32_deserialize: (hrp, data) *)
Definition bech32_deserialize (s : list Z) (checksum : Z) : option (list Z * list Z) :=
  match bech32_scan 90 s 0 0 false false with
  | None => None
  | Some (slen, hlen, lower, upper) =>
    if (slen <? 8)%nat || negb (rdz s slen =? 0) then None else
    if (hlen =? 0)%nat then None else
    if (slen - (hlen + 1) <? 6)%nat then None else
    if lower && upper then None else
    let pre := firstn hlen s in
    let chk := fold_left (fun chk c => Z.lxor (bech32_polymod chk) (shr (to_lower (torsion_ascii c)) 5)) pre 1 in
    let hrp := map (fun c => to_lower (torsion_ascii c)) pre in
    let chk := bech32_polymod chk in
    let chk := fold_left (fun chk c => Z.lxor (bech32_polymod chk) (Z.land (torsion_ascii c) 0x1f)) pre chk in
    match bech32_vals bech32_polymod chk (skipn (hlen + 1) (firstn slen s)) with
    | None => None
    | Some (chk, vs) =>
      if negb (chk =? checksum) then None
      else Some (hrp, firstn (length vs - 6) vs)
    end
  end.
(* encoding.c:1391-1398 *)
Definition bech32_is (s : list Z) (checksum : Z) : bool :=
  match bech32_deserialize s checksum with Some _ => true | None => false end.

(* encoding.c:1418-1421 (1762-1765 for cash32): while (bits >= dstbits); the
   fuel is an upper bound on the iterations for dstbits > 0 *)
Fixpoint cb_while (fuel : nat) (dstbits mask acc bits : Z) : list Z * Z :=
  match fuel with
  | O => ([], bits)
  | S f =>
    if dstbits <=? bits then
      let bits := bits - dstbits in
      let '(o, b) := cb_while f dstbits mask acc bits in
      (w8 (Z.land (shr acc bits) mask) :: o, b)
    else ([], bits)
  end.
(* encoding.c:1414-1422: acc is uint32_t (accmask = 2^32 - 1);
   1758-1766: cash32 masks acc with maxacc instead *)
Fixpoint cb_loop (dstbits srcbits mask accmask acc bits : Z) (src : list Z) : list Z * Z * Z :=
  match src with
  | [] => ([], acc, bits)
  | x :: t =>
    let acc := Z.land (Z.lor (Z.shiftl acc srcbits) x) accmask in
    let bits := bits + srcbits in
    let '(o, bits) := cb_while (Z.to_nat bits) dstbits mask acc bits in
    let '(o', acc', bits') := cb_loop dstbits srcbits mask accmask acc bits t in
    (o ++ o', acc', bits')
  end.
Definition convert_bits (accmask dstbits : Z) (src : list Z) (srcbits : Z) (pad : bool) : option (list Z) :=
  let mask := Z.shiftl 1 dstbits - 1 in
  let '(o, acc, bits) := cb_loop dstbits srcbits mask accmask 0 0 src in
  let lft := dstbits - bits in
  let last := w8 (Z.land (Z.shiftl acc lft) mask) in
  if pad then
    Some (if bits =? 0 then o else o ++ [last])
  else if negb (Z.land (Z.shiftl acc lft) mask =? 0) || (srcbits <=? bits) then None
  else Some o.
(* encoding.c:1400-1438 bech32_convert_bits. In C the final shift acc << left is
   also reduced mod 2^32, which cannot affect the low dstbits < 32 bits kept. *)
Definition bech32_convert_bits := convert_bits 0xffffffff.

(* encoding.c:1440-1468 bech32_encode *)
Definition bech32_encode (hrp : list Z) (version : Z) (hash : list Z) (checksum : Z) : option (list Z) :=
  if 31 <? version then None else
  if (Z.of_nat (length hash) <? 2) || (40 <? Z.of_nat (length hash)) then None else
  match bech32_convert_bits 5 hash 8 true with
  | None => None
  | Some d => bech32_serialize hrp (version :: d) checksum
  end.

(* encoding.c:1470-1502 bech32_decode *)
Definition bech32_decode (addr : list Z) (checksum : Z) : option (list Z * Z * list Z) :=
  match bech32_deserialize addr checksum with
  | None => None
  | Some (hrp, data) =>
    if (length data =? 0)%nat || (65 <? length data)%nat then None else
    if 31 <? nth 0 data 0 then None else
    match bech32_convert_bits 8 (tl data) 5 false with
    | None => None
    | Some hash =>
      if (Z.of_nat (length hash) <? 2) || (40 <? Z.of_nat (length hash)) then None
      else Some (hrp, nth 0 data 0, hash)
    end
  end.
(* encoding.c:1504-1512 *)
Definition bech32_test (addr : list Z) (checksum : Z) : bool :=
  match bech32_decode addr checksum with Some _ => true | None => false end.

(* encoding.c:1545-1555 cash32_polymod (uint64_t) *)
Definition cash32_polymod (c : Z) : Z :=
  let b := shr c 35 in
  let m i := w64 (- (Z.land (shr b i) 1)) in
  Z.lxor (Z.lxor (Z.lxor (Z.lxor (Z.lxor
    (shl64 (Z.land c 0x07ffffffff) 5)
    (Z.land 0x98f2bc8e61 (m 0)))
    (Z.land 0x79b76d99e2 (m 1)))
    (Z.land 0xf33e5fb3c4 (m 2)))
    (Z.land 0xae2eabe2a8 (m 3)))
    (Z.land 0x1e4f43e470 (m 4)).

(* encoding.c:1569-1577: prefix scan *)
Fixpoint cash32_prefix_loop (n : nat) (s : list Z) (plen : nat) : option nat :=
  match n with
  | O => Some plen
  | S m =>
    match s with
    | [] => Some plen
    | c :: t =>
      let ch := torsion_ascii c in
      if ch =? 0 then Some plen else
      if (ch <? 97) || (122 <? ch) then None else cash32_prefix_loop m t (S plen)
    end
  end.

(* encoding.c:1557-1616 cash32_serialize *)
Definition cash32_serialize (prefix data : list Z) : option (list Z) :=
  if (104 <? length data)%nat then None else
  match cash32_prefix_loop 83 prefix 0 with
  | None => None
  | Some plen =>
    if (plen =? 0)%nat || negb (rdz prefix plen =? 0) then None else
    let chk := fold_left (fun chk c => Z.lxor (cash32_polymod chk) (Z.land (torsion_ascii c) 0x1f))
                 (firstn plen prefix) 1 in
    let chk := cash32_polymod chk in
    match bech32_data_loop cash32_polymod chk data with
    | None => None
    | Some (chk, o) =>
      let chk := iter_polymod cash32_polymod 8 chk in
      let chk := Z.lxor chk 1 in
      Some (firstn plen prefix ++ [58] ++ o ++
        map (fun i => tab bech32_charset (Z.land (shr chk ((7 - i) * 5)) 0x1f)) [0; 1; 2; 3; 4; 5; 6; 7])
    end
  end.

(* encoding.c:1632-1663: scan of the whole string *)
Fixpoint cash32_scan (n : nat) (s : list Z) (slen plen : nat) (number lower upper : bool)
  : option (nat * nat * bool * bool) :=
  match n with
  | O => Some (slen, plen, lower, upper)
  | S m =>
    match s with
    | [] => Some (slen, plen, lower, upper)
    | c :: t =>
      let ch := torsion_ascii c in
      if ch =? 0 then Some (slen, plen, lower, upper) else
      if (97 <=? ch) && (ch <=? 122) then cash32_scan m t (S slen) plen number true upper
      else if (65 <=? ch) && (ch <=? 90) then cash32_scan m t (S slen) plen number lower true
      else if (48 <=? ch) && (ch <=? 57) then cash32_scan m t (S slen) plen true lower upper
      else if ch =? 58 then
        if number || (slen =? 0)%nat || negb (plen =? 0)%nat then None
        else cash32_scan m t (S slen) slen number lower upper
      else None
    end
  end.

(* encoding.c:1671-1691 (prefix absent): the fallback prefix *)
Definition cash32_fallback (fallback : list Z) : option (list Z * Z) :=
  match cash32_prefix_loop 83 fallback 0 with
  | None => None
  | Some i =>
    if (i =? 0)%nat || negb (rdz fallback i =? 0) then None else
    Some (firstn i fallback,
          fold_left (fun chk c => Z.lxor (cash32_polymod chk) (Z.land (torsion_ascii c) 0x1f))
            (firstn i fallback) 1)
  end.

(* encoding.c:1618-1732 cash32_deserialize: (prefix, data) *)
Definition cash32_deserialize (s fallback : list Z) : option (list Z * list Z) :=
  match cash32_scan 196 s 0 0 false false false with
  | None => None
  | Some (slen, plen, lower, upper) =>
    if (slen <? 8)%nat || negb (rdz s slen =? 0) then None else
    if lower && upper then None else
    let start :=
      if (plen =? 0)%nat then
        match cash32_fallback fallback with
        | None => None
        | Some (prefix, chk) => Some (prefix, chk, slen)
        end
      else if (83 <? plen)%nat then None
      else
        let pre := map (fun c => Z.lor (torsion_ascii c) 32) (firstn plen s) in
        Some (pre,
              fold_left (fun chk ch => Z.lxor (cash32_polymod chk) (Z.land ch 0x1f)) pre 1,
              (slen - (plen + 1))%nat) in
    match start with
    | None => None
    | Some (prefix, chk, dlen) =>
      if (dlen <? 8)%nat || (112 <? dlen)%nat then None else
      let chk := cash32_polymod chk in
      match bech32_vals cash32_polymod chk (skipn (slen - dlen) (firstn slen s)) with
      | None => None
      | Some (chk, vs) =>
        if negb (chk =? 1) then None
        else Some (prefix, firstn (length vs - 8) vs)
      end
    end
  end.
(* encoding.c:1734-1741 *)
Definition cash32_is (s fallback : list Z) : bool :=
  match cash32_deserialize s fallback with Some _ => true | None => false end.

(* encoding.c:1743-1782 cash32_convert_bits: maxacc = 2^(srcbits+dstbits-1) - 1 *)
Definition cash32_convert_bits (dstbits : Z) (src : list Z) (srcbits : Z) (pad : bool) : option (list Z) :=
  convert_bits (Z.shiftl 1 (srcbits + dstbits - 1) - 1) dstbits src srcbits pad.

(* encoding.c:1797-1824: switch on hash_len * 8 *)
Definition cash32_size_code (hash_len : Z) : option Z :=
  let bits := hash_len * 8 in
  if bits =? 160 then Some 0 else if bits =? 192 then Some 1 else
  if bits =? 224 then Some 2 else if bits =? 256 then Some 3 else
  if bits =? 320 then Some 4 else if bits =? 384 then Some 5 else
  if bits =? 448 then Some 6 else if bits =? 512 then Some 7 else None.

(* encoding.c:1784-1834 cash32_encode *)
Definition cash32_encode (prefix : list Z) (type : Z) (hash : list Z) : option (list Z) :=
  if 15 <? type then None else
  match cash32_size_code (Z.of_nat (length hash)) with
  | None => None
  | Some size =>
    let data := w8 (Z.lor (Z.shiftl type 3) size) :: hash in
    match cash32_convert_bits 5 data 8 true with
    | None => None
    | Some conv => cash32_serialize prefix conv
    end
  end.

(* encoding.c:1836-1879 cash32_decode; strcmp(prefix, expect) on NUL-free strings *)
Definition cash32_decode (addr expect : list Z) : option (Z * list Z) :=
  match cash32_deserialize addr expect with
  | None => None
  | Some (prefix, conv) =>
    if negb (if list_eq_dec Z.eq_dec prefix expect then true else false) then None else
    if (length conv =? 0)%nat || (104 <? length conv)%nat then None else
    match cash32_convert_bits 8 conv 5 false with
    | None => None
    | Some data =>
      if (length data =? 0)%nat || (65 <? length data)%nat then None else
      let d0 := nth 0 data 0 in
      let type := Z.land (shr d0 3) 31 in
      let hash := tl data in
      let size := 20 + 4 * Z.land d0 3 in
      let size := if negb (Z.land d0 4 =? 0) then size * 2 else size in
      if 15 <? type then None else
      if negb (size =? Z.of_nat (length hash)) then None else
      Some (type, hash)
    end
  end.
(* encoding.c:1881-1888 *)
Definition cash32_test (addr expect : list Z) : bool :=
  match cash32_decode addr expect with Some _ => true | None => false end.

(* The BIP 173 example and a CashAddr specification example *)
Example bech32_model_ex :
  bech32_decode (str "BC1QW508D6QEJXTDG4Y5R3ZARVARY0C5XW7KV8F3T4") 1 =
  Some (str "bc", 0, [0x75; 0x1e; 0x76; 0xe8; 0x19; 0x91; 0x96; 0xd4; 0x54; 0x94; 0x1c; 0x45; 0xd1; 0xb3; 0xa3; 0x23; 0xf1; 0x43; 0x3b; 0xd6]).
Proof. vm_compute. reflexivity. Qed.
Example cash32_model_ex :
  cash32_decode (str "qr6m7j9njldwwzlg9v7v53unlr4jkmx6eylep8ekg2") (str "bchtest") = None /\
  cash32_decode (str "bitcoincash:qr6m7j9njldwwzlg9v7v53unlr4jkmx6eylep8ekg2") (str "bitcoincash") =
  Some (0, [0xf5; 0xbf; 0x48; 0xb3; 0x97; 0xda; 0xe7; 0x0b; 0xe8; 0x2b; 0x3c; 0xca; 0x47; 0x93; 0xf8; 0xeb; 0x2b; 0x6c; 0xda; 0xc9]).
Proof. vm_compute. split; reflexivity. Qed.
