(* Model of the base16/32/58/64 codecs of src/encoding.c.
   Character strings are lists of unsigned char codes (torsion_ascii(c) is
   c & 0xff on ASCII targets, internal.h:562). A codec returns the characters or
   bytes written to dst; the terminating NUL and dstlen (= length of the list)
   are lft implicit, and so are the bytes written to dst before a failure. *)
From Coq Require Import String Ascii.
From Verif.Base Require Import Prelude.

(* codes of a C string literal *)
Definition str (s : string) : list Z :=
  map (fun c => Z.of_N (N_of_ascii c)) (list_ascii_of_string s).

(* internal.h:562 torsion_ascii *)
Definition torsion_ascii (c : Z) : Z := Z.land c 0xff.

(* a[i] for a constant table *)
Definition tab (t : list Z) (i : Z) : Z := nth (Z.to_nat i) t 0.

(* uint8_t val = table[torsion_ascii(c)] *)
Definition tabval (t : list Z) (c : Z) : Z := w8 (tab t (torsion_ascii c)).

Definition high_bit (x : Z) : bool := negb (Z.land x 0x80 =? 0).

(* Outcome of a function that may also abort on a failed ASSERT. *)
Inductive outcome (A : Type) :=
| Ok (a : A)
| Fail
| Abort.
Arguments Ok {A} a.
Arguments Fail {A}.
Arguments Abort {A}.

(* encoding.c:34 *)
Definition base16_charset : list Z := Eval vm_compute in str "0123456789abcdef".

(* encoding.c:36-69 *)
Definition base16_table : list Z := [
  -1; -1; -1; -1; -1; -1; -1; -1; -1; -1; -1; -1; -1; -1; -1; -1;
  -1; -1; -1; -1; -1; -1; -1; -1; -1; -1; -1; -1; -1; -1; -1; -1;
  -1; -1; -1; -1; -1; -1; -1; -1; -1; -1; -1; -1; -1; -1; -1; -1;
  0; 1; 2; 3; 4; 5; 6; 7; 8; 9; -1; -1; -1; -1; -1; -1;
  -1; 10; 11; 12; 13; 14; 15; -1; -1; -1; -1; -1; -1; -1; -1; -1;
  -1; -1; -1; -1; -1; -1; -1; -1; -1; -1; -1; -1; -1; -1; -1; -1;
  -1; 10; 11; 12; 13; 14; 15; -1; -1; -1; -1; -1; -1; -1; -1; -1;
  -1; -1; -1; -1; -1; -1; -1; -1; -1; -1; -1; -1; -1; -1; -1; -1;
  -1; -1; -1; -1; -1; -1; -1; -1; -1; -1; -1; -1; -1; -1; -1; -1;
  -1; -1; -1; -1; -1; -1; -1; -1; -1; -1; -1; -1; -1; -1; -1; -1;
  -1; -1; -1; -1; -1; -1; -1; -1; -1; -1; -1; -1; -1; -1; -1; -1;
  -1; -1; -1; -1; -1; -1; -1; -1; -1; -1; -1; -1; -1; -1; -1; -1;
  -1; -1; -1; -1; -1; -1; -1; -1; -1; -1; -1; -1; -1; -1; -1; -1;
  -1; -1; -1; -1; -1; -1; -1; -1; -1; -1; -1; -1; -1; -1; -1; -1;
  -1; -1; -1; -1; -1; -1; -1; -1; -1; -1; -1; -1; -1; -1; -1; -1;
  -1; -1; -1; -1; -1; -1; -1; -1; -1; -1; -1; -1; -1; -1; -1; -1].

(* encoding.c:81-92 base16_test0 *)
Fixpoint base16_test_loop (s : list Z) : bool :=
  match s with
  | [] => true
  | c :: t => if tab base16_table (torsion_ascii c) =? -1 then false else base16_test_loop t
  end.
(* the C loop scans from the end; a conjunction, so order is immaterial *)
Definition base16_test (s : list Z) : bool :=
  if Nat.odd (length s) then false else base16_test_loop (rev s).

(* encoding.c:71-79 *)
Definition base16_encode_size (len : Z) : Z := len * 2.
Definition base16_decode_size (len : Z) : Z := len / 2.

(* encoding.c:103-120 base16_encode *)
Fixpoint base16_encode (src : list Z) : list Z :=
  match src with
  | [] => []
  | ch :: t =>
    tab base16_charset (shr ch 4) :: tab base16_charset (Z.land ch 15) :: base16_encode t
  end.

(* encoding.c:138-147: decoding loop, accumulating z and the output *)
Fixpoint base16_decode_loop (z : Z) (src : list Z) : Z * list Z :=
  match src with
  | c1 :: c2 :: t =>
    let hi := tabval base16_table c1 in
    let lo := tabval base16_table c2 in
    let z := Z.lor z (Z.lor hi lo) in
    let '(zf, out) := base16_decode_loop z t in
    (zf, w8 (Z.lor (Z.shiftl hi 4) lo) :: out)
  | _ => (z, [])
  end.
(* encoding.c:127-157 base16_decode *)
Definition base16_decode (src : list Z) : option (list Z) :=
  if Nat.odd (length src) then None else
  let '(z, out) := base16_decode_loop 0 src in
  if high_bit z then None else Some out.

(* encoding.c:172-189 base16le_encode: reads src from the end *)
Definition base16le_encode (src : list Z) : list Z := base16_encode (rev src).

(* encoding.c:207-216: the same loop reading characters from the end, low
   nibble first *)
Fixpoint base16le_decode_loop (z : Z) (rsrc : list Z) : Z * list Z :=
  match rsrc with
  | c1 :: c2 :: t =>
    let lo := tabval base16_table c1 in
    let hi := tabval base16_table c2 in
    let z := Z.lor z (Z.lor hi lo) in
    let '(zf, out) := base16le_decode_loop z t in
    (zf, w8 (Z.lor (Z.shiftl hi 4) lo) :: out)
  | _ => (z, [])
  end.
(* encoding.c:196-226 base16le_decode *)
Definition base16le_decode (src : list Z) : option (list Z) :=
  if Nat.odd (length src) then None else
  let '(z, out) := base16le_decode_loop 0 (rev src) in
  if high_bit z then None else Some out.
(* encoding.c:228-230 *)
Definition base16le_test (s : list Z) : bool := base16_test s.

(* encoding.c:240-241 *)
Definition base32_charset : list Z := Eval vm_compute in str "abcdefghijklmnopqrstuvwxyz234567".
Definition base32hex_charset : list Z := Eval vm_compute in str "0123456789abcdefghijklmnopqrstuv".

(* encoding.c:243-276 *)
Definition base32_table : list Z := [
  -1; -1; -1; -1; -1; -1; -1; -1; -1; -1; -1; -1; -1; -1; -1; -1;
  -1; -1; -1; -1; -1; -1; -1; -1; -1; -1; -1; -1; -1; -1; -1; -1;
  -1; -1; -1; -1; -1; -1; -1; -1; -1; -1; -1; -1; -1; -1; -1; -1;
  -1; -1; 26; 27; 28; 29; 30; 31; -1; -1; -1; -1; -1; -1; -1; -1;
  -1; 0; 1; 2; 3; 4; 5; 6; 7; 8; 9; 10; 11; 12; 13; 14;
  15; 16; 17; 18; 19; 20; 21; 22; 23; 24; 25; -1; -1; -1; -1; -1;
  -1; 0; 1; 2; 3; 4; 5; 6; 7; 8; 9; 10; 11; 12; 13; 14;
  15; 16; 17; 18; 19; 20; 21; 22; 23; 24; 25; -1; -1; -1; -1; -1;
  -1; -1; -1; -1; -1; -1; -1; -1; -1; -1; -1; -1; -1; -1; -1; -1;
  -1; -1; -1; -1; -1; -1; -1; -1; -1; -1; -1; -1; -1; -1; -1; -1;
  -1; -1; -1; -1; -1; -1; -1; -1; -1; -1; -1; -1; -1; -1; -1; -1;
  -1; -1; -1; -1; -1; -1; -1; -1; -1; -1; -1; -1; -1; -1; -1; -1;
  -1; -1; -1; -1; -1; -1; -1; -1; -1; -1; -1; -1; -1; -1; -1; -1;
  -1; -1; -1; -1; -1; -1; -1; -1; -1; -1; -1; -1; -1; -1; -1; -1;
  -1; -1; -1; -1; -1; -1; -1; -1; -1; -1; -1; -1; -1; -1; -1; -1;
  -1; -1; -1; -1; -1; -1; -1; -1; -1; -1; -1; -1; -1; -1; -1; -1].

(* encoding.c:278-311 *)
Definition base32hex_table : list Z := [
  -1; -1; -1; -1; -1; -1; -1; -1; -1; -1; -1; -1; -1; -1; -1; -1;
  -1; -1; -1; -1; -1; -1; -1; -1; -1; -1; -1; -1; -1; -1; -1; -1;
  -1; -1; -1; -1; -1; -1; -1; -1; -1; -1; -1; -1; -1; -1; -1; -1;
  0; 1; 2; 3; 4; 5; 6; 7; 8; 9; -1; -1; -1; -1; -1; -1;
  -1; 10; 11; 12; 13; 14; 15; 16; 17; 18; 19; 20; 21; 22; 23; 24;
  25; 26; 27; 28; 29; 30; 31; -1; -1; -1; -1; -1; -1; -1; -1; -1;
  -1; 10; 11; 12; 13; 14; 15; 16; 17; 18; 19; 20; 21; 22; 23; 24;
  25; 26; 27; 28; 29; 30; 31; -1; -1; -1; -1; -1; -1; -1; -1; -1;
  -1; -1; -1; -1; -1; -1; -1; -1; -1; -1; -1; -1; -1; -1; -1; -1;
  -1; -1; -1; -1; -1; -1; -1; -1; -1; -1; -1; -1; -1; -1; -1; -1;
  -1; -1; -1; -1; -1; -1; -1; -1; -1; -1; -1; -1; -1; -1; -1; -1;
  -1; -1; -1; -1; -1; -1; -1; -1; -1; -1; -1; -1; -1; -1; -1; -1;
  -1; -1; -1; -1; -1; -1; -1; -1; -1; -1; -1; -1; -1; -1; -1; -1;
  -1; -1; -1; -1; -1; -1; -1; -1; -1; -1; -1; -1; -1; -1; -1; -1;
  -1; -1; -1; -1; -1; -1; -1; -1; -1; -1; -1; -1; -1; -1; -1; -1;
  -1; -1; -1; -1; -1; -1; -1; -1; -1; -1; -1; -1; -1; -1; -1; -1].

(* encoding.c:313 *)
Definition base32_padding (mode : Z) : Z := tab [0; 6; 4; 3; 1] mode.

(* encoding.c:315-338 base32_encode_size0 (switch falls through) *)
Definition base32_encode_size (len : Z) (pad : bool) : Z :=
  let size := (len / 5) * 8 in
  let mode := len mod 5 in
  let size := if mode =? 4 then size + 2 else size in
  let size := if (3 <=? mode) && (mode <=? 4) then size + 1 else size in
  let size := if (2 <=? mode) && (mode <=? 4) then size + 2 else size in
  let size := if (1 <=? mode) && (mode <=? 4) then size + 1 else size in
  if 0 <? mode
  then size + 1 + (if pad then base32_padding mode else 0)
  else size.

(* encoding.c:350-388: one iteration of the encoding loop; state (mode, lft) *)
Definition base32_enc_step (cs : list Z) (mode lft ch : Z) : list Z * Z * Z :=
  if mode =? 0 then
    ([tab cs (shr ch 3)], 1, w8 (Z.shiftl (Z.land ch 7) 2))
  else if mode =? 1 then
    ([tab cs (Z.lor lft (shr ch 6)); tab cs (Z.land (shr ch 1) 31)], 2,
     w8 (Z.shiftl (Z.land ch 1) 4))
  else if mode =? 2 then
    ([tab cs (Z.lor lft (shr ch 4))], 3, w8 (Z.shiftl (Z.land ch 15) 1))
  else if mode =? 3 then
    ([tab cs (Z.lor lft (shr ch 7)); tab cs (Z.land (shr ch 2) 31)], 4,
     w8 (Z.shiftl (Z.land ch 3) 3))
  else
    ([tab cs (Z.lor lft (shr ch 5)); tab cs (Z.land ch 31)], 0, lft).

Fixpoint base32_enc_loop (cs : list Z) (mode lft : Z) (src : list Z) : list Z * Z * Z :=
  match src with
  | [] => ([], mode, lft)
  | ch :: t =>
    let '(o, mode, lft) := base32_enc_step cs mode lft ch in
    let '(o', mode', lft') := base32_enc_loop cs mode lft t in
    (o ++ o', mode', lft')
  end.

(* encoding.c:341-402 base32_encode0; 61 is '=' *)
Definition base32_encode0 (cs : list Z) (src : list Z) (pad : bool) : list Z :=
  let '(o, mode, lft) := base32_enc_loop cs 0 0 src in
  if 0 <? mode
  then o ++ [tab cs lft] ++
       (if pad then repeat 61 (Z.to_nat (base32_padding mode)) else [])
  else o.

(* encoding.c:407-412: for (i = 0; i < 6 && len > 0; i++) strip one trailing '=';
   the string is given reversed *)
Fixpoint strip_eq (n : nat) (rs : list Z) : list Z :=
  match n with
  | O => rs
  | S m =>
    match rs with
    | [] => []
    | c :: t => if c =? 61 then strip_eq m t else strip_eq m rs
    end
  end.
(* encoding.c:404-425 base32_decode_size0 *)
Definition base32_decode_size (s : list Z) : Z :=
  let len := Z.of_nat (length (strip_eq 6 (rev s))) in
  let size := (len / 8) * 5 in
  let mode := len mod 8 in
  let size := if mode =? 7 then size + 1 else size in
  let size := if (5 <=? mode) && (mode <=? 7) then size + 1 else size in
  let size := if (4 <=? mode) && (mode <=? 7) then size + 1 else size in
  if (2 <=? mode) && (mode <=? 7) then size + 1 else size.

(* encoding.c:442-483: switch on mode; state (mode, lft) *)
Definition base32_dec_step (mode lft val : Z) : list Z * Z * Z :=
  if mode =? 0 then ([], 1, val)
  else if mode =? 1 then
    ([w8 (Z.lor (Z.shiftl lft 3) (shr val 2))], 2, Z.land val 3)
  else if mode =? 2 then ([], 3, w8 (Z.lor (Z.shiftl lft 5) val))
  else if mode =? 3 then
    ([w8 (Z.lor (Z.shiftl lft 1) (shr val 4))], 4, Z.land val 15)
  else if mode =? 4 then
    ([w8 (Z.lor (Z.shiftl lft 4) (shr val 1))], 5, Z.land val 1)
  else if mode =? 5 then ([], 6, w8 (Z.lor (Z.shiftl lft 5) val))
  else if mode =? 6 then
    ([w8 (Z.lor (Z.shiftl lft 2) (shr val 3))], 7, Z.land val 7)
  else
    ([w8 (Z.lor (Z.shiftl lft 5) val)], 0, 0).

(* encoding.c:436-484: loop with break; returns output, mode, lft and the
   unread characters src[i..] *)
Fixpoint base32_dec_loop (tb : list Z) (mode lft : Z) (src : list Z)
  : list Z * Z * Z * list Z :=
  match src with
  | [] => ([], mode, lft, [])
  | c :: t =>
    let val := tabval tb c in
    if high_bit val then ([], mode, lft, src) else
    let '(o, mode, lft) := base32_dec_step mode lft val in
    let '(o', mode', lft', rest) := base32_dec_loop tb mode lft t in
    (o ++ o', mode', lft', rest)
  end.

(* encoding.c:427-504 base32_decode0; unpad is the caller's int.
   srclen != i + (-mode & 7) * unpad is computed in size_t (mod 2^64). *)
Definition base32_decode0 (tb : list Z) (src : list Z) (unpad : Z) : option (list Z) :=
  let '(o, mode, lft, rest) := base32_dec_loop tb 0 0 src in
  if (mode =? 1) || (mode =? 3) || (mode =? 6) then None
  else if 0 <? lft then None
  else
    let i := Z.of_nat (length src - length rest) in
    if negb (Z.of_nat (length src) =? w64 (i + (Z.land (- mode) 7) * unpad)) then None
    else if forallb (fun c => c =? 61) rest then Some o else None.

(* encoding.c:508-512: index i where the scan of base32_test0 stops, as the
   list of characters before it and after it *)
Fixpoint table_span (tb : list Z) (s : list Z) : list Z * list Z :=
  match s with
  | [] => ([], [])
  | c :: t =>
    if tab tb (torsion_ascii c) =? -1 then ([], s)
    else let '(a, b) := table_span tb t in (c :: a, b)
  end.
(* encoding.c:504-551 base32_test0 *)
Definition base32_test0 (tb : list Z) (src : list Z) (unpad : Z) : bool :=
  let '(pre, rest) := table_span tb src in
  let i := Z.of_nat (length pre) in
  let mode := i mod 8 in
  let lastv := tab tb (torsion_ascii (last pre 0)) in
  let bad :=
    if mode =? 1 then true
    else if mode =? 2 then negb (Z.land lastv 3 =? 0)
    else if mode =? 3 then true
    else if mode =? 4 then negb (Z.land lastv 15 =? 0)
    else if mode =? 5 then negb (Z.land lastv 1 =? 0)
    else if mode =? 6 then true
    else if mode =? 7 then negb (Z.land lastv 7 =? 0)
    else false in
  if bad then false
  else if negb (Z.of_nat (length src) =? w64 (i + (Z.land (- mode) 7) * unpad)) then false
  else forallb (fun c => c =? 61) rest.

(* encoding.c:560-611: the public wrappers *)
Definition base32_encode := base32_encode0 base32_charset.
Definition base32_decode := base32_decode0 base32_table.
Definition base32_test := base32_test0 base32_table.
Definition base32hex_encode := base32_encode0 base32hex_charset.
Definition base32hex_decode := base32_decode0 base32hex_table.
Definition base32hex_test := base32_test0 base32hex_table.

(* encoding.c:620-621 *)
Definition base58_charset : list Z := Eval vm_compute in
  str "123456789ABCDEFGHJKLMNPQRSTUVWXYZabcdefghijkmnopqrstuvwxyz".

(* encoding.c:623-656 *)
Definition base58_table : list Z := [
  -1; -1; -1; -1; -1; -1; -1; -1; -1; -1; -1; -1; -1; -1; -1; -1;
  -1; -1; -1; -1; -1; -1; -1; -1; -1; -1; -1; -1; -1; -1; -1; -1;
  -1; -1; -1; -1; -1; -1; -1; -1; -1; -1; -1; -1; -1; -1; -1; -1;
  -1; 0; 1; 2; 3; 4; 5; 6; 7; 8; -1; -1; -1; -1; -1; -1;
  -1; 9; 10; 11; 12; 13; 14; 15; 16; -1; 17; 18; 19; 20; 21; -1;
  22; 23; 24; 25; 26; 27; 28; 29; 30; 31; 32; -1; -1; -1; -1; -1;
  -1; 33; 34; 35; 36; 37; 38; 39; 40; 41; 42; 43; -1; 44; 45; 46;
  47; 48; 49; 50; 51; 52; 53; 54; 55; 56; 57; -1; -1; -1; -1; -1;
  -1; -1; -1; -1; -1; -1; -1; -1; -1; -1; -1; -1; -1; -1; -1; -1;
  -1; -1; -1; -1; -1; -1; -1; -1; -1; -1; -1; -1; -1; -1; -1; -1;
  -1; -1; -1; -1; -1; -1; -1; -1; -1; -1; -1; -1; -1; -1; -1; -1;
  -1; -1; -1; -1; -1; -1; -1; -1; -1; -1; -1; -1; -1; -1; -1; -1;
  -1; -1; -1; -1; -1; -1; -1; -1; -1; -1; -1; -1; -1; -1; -1; -1;
  -1; -1; -1; -1; -1; -1; -1; -1; -1; -1; -1; -1; -1; -1; -1; -1;
  -1; -1; -1; -1; -1; -1; -1; -1; -1; -1; -1; -1; -1; -1; -1; -1;
  -1; -1; -1; -1; -1; -1; -1; -1; -1; -1; -1; -1; -1; -1; -1; -1].

(* encoding.c:672-677 and 742-747: split off the leading bytes equal to z *)
Fixpoint span_eq (z : Z) (s : list Z) : nat * list Z :=
  match s with
  | [] => (O, [])
  | c :: t => if c =? z then let '(n, r) := span_eq z t in (S n, r) else (O, s)
  end.

(* encoding.c:690-697 inner loop. The work buffer is kept with b58[size-1]
   first, so the C index k = size-1-j is position j. carry is unsigned long
   (at least 32 bits). Returns buffer, final carry and final j. *)
Fixpoint base58_enc_inner (length_ j : nat) (carry : Z) (b : list Z) : list Z * Z * nat :=
  match b with
  | [] => ([], carry, j)
  | d :: t =>
    if (carry =? 0) && (length_ <=? j)%nat then (b, carry, j) else
    let carry := w32 (carry + shl32 d 8) in
    let '(t', c', j') := base58_enc_inner length_ (S j) (carry / 58) t in
    (w8 (carry mod 58) :: t', c', j')
  end.
(* encoding.c:687-702 outer loop; None is the failed ASSERT(carry == 0) *)
Fixpoint base58_enc_loop (length_ : nat) (b : list Z) (src : list Z) : option (list Z * nat) :=
  match src with
  | [] => Some (b, length_)
  | s :: t =>
    let '(b', carry, j) := base58_enc_inner length_ 0 s b in
    if carry =? 0 then base58_enc_loop j b' t else None
  end.
(* encoding.c:704-707: skip leading zero digits *)
Fixpoint drop_zero (l : list Z) : list Z :=
  match l with
  | [] => []
  | d :: t => if d =? 0 then drop_zero t else l
  end.
(* encoding.c:658-722 base58_encode. malloc is assumed to succeed. *)
Definition base58_encode (src : list Z) : outcome (list Z) :=
  if 0x7fffffff <? Z.of_nat (length src) then Fail else
  let '(zeroes, rest) := span_eq 0 src in
  let size := Z.of_nat (length src - zeroes) * 138 / 100 + 1 in
  match base58_enc_loop 0 (repeat 0 (Z.to_nat size)) rest with
  | None => Abort
  | Some (b, length_) =>
    (* digits b58[size - length .. size), most significant first *)
    let ds := drop_zero (rev (firstn length_ b)) in
    Ok (repeat 49 zeroes ++ map (tab base58_charset) ds)
  end.

(* encoding.c:765-773 inner loop of base58_decode, same buffer order *)
Fixpoint base58_dec_inner (length_ j : nat) (carry : Z) (b : list Z) : list Z * Z * nat :=
  match b with
  | [] => ([], carry, j)
  | d :: t =>
    if (carry =? 0) && (length_ <=? j)%nat then (b, carry, j) else
    let carry := w32 (carry + mul32 d 58) in
    let '(t', c', j') := base58_dec_inner length_ (S j) (shr carry 8) t in
    (w8 carry :: t', c', j')
  end.
(* encoding.c:756-778 outer loop *)
Fixpoint base58_dec_loop (length_ : nat) (b : list Z) (src : list Z) : outcome (list Z * nat) :=
  match src with
  | [] => Ok (b, length_)
  | s :: t =>
    let val := tabval base58_table s in
    if high_bit val then Fail else
    let '(b', carry, j) := base58_dec_inner length_ 0 val b in
    if carry =? 0 then base58_dec_loop j b' t else Abort
  end.
(* encoding.c:724-795 base58_decode *)
Definition base58_decode (src : list Z) : outcome (list Z) :=
  if 0xffffffff <? Z.of_nat (length src) then Fail else
  let '(zeroes, rest) := span_eq 49 src in
  let size := Z.of_nat (length src) * 733 / 1000 + 1 in
  match base58_dec_loop 0 (repeat 0 (Z.to_nat size)) rest with
  | Ok (b, length_) => Ok (repeat 0 zeroes ++ rev (firstn length_ b))
  | Fail => Fail
  | Abort => Abort
  end.
(* encoding.c:797-805 base58_test (scan from the end; a conjunction) *)
Definition base58_test (s : list Z) : bool :=
  forallb (fun c => negb (tab base58_table (torsion_ascii c) =? -1)) (rev s).

(* encoding.c:814-818 *)
Definition base64_charset : list Z := Eval vm_compute in
  str "ABCDEFGHIJKLMNOPQRSTUVWXYZabcdefghijklmnopqrstuvwxyz0123456789+/".
Definition base64url_charset : list Z := Eval vm_compute in
  str "ABCDEFGHIJKLMNOPQRSTUVWXYZabcdefghijklmnopqrstuvwxyz0123456789-_".

(* encoding.c:819-852 *)
Definition base64_table : list Z := [
  -1; -1; -1; -1; -1; -1; -1; -1; -1; -1; -1; -1; -1; -1; -1; -1;
  -1; -1; -1; -1; -1; -1; -1; -1; -1; -1; -1; -1; -1; -1; -1; -1;
  -1; -1; -1; -1; -1; -1; -1; -1; -1; -1; -1; 62; -1; -1; -1; 63;
  52; 53; 54; 55; 56; 57; 58; 59; 60; 61; -1; -1; -1; -1; -1; -1;
  -1; 0; 1; 2; 3; 4; 5; 6; 7; 8; 9; 10; 11; 12; 13; 14;
  15; 16; 17; 18; 19; 20; 21; 22; 23; 24; 25; -1; -1; -1; -1; -1;
  -1; 26; 27; 28; 29; 30; 31; 32; 33; 34; 35; 36; 37; 38; 39; 40;
  41; 42; 43; 44; 45; 46; 47; 48; 49; 50; 51; -1; -1; -1; -1; -1;
  -1; -1; -1; -1; -1; -1; -1; -1; -1; -1; -1; -1; -1; -1; -1; -1;
  -1; -1; -1; -1; -1; -1; -1; -1; -1; -1; -1; -1; -1; -1; -1; -1;
  -1; -1; -1; -1; -1; -1; -1; -1; -1; -1; -1; -1; -1; -1; -1; -1;
  -1; -1; -1; -1; -1; -1; -1; -1; -1; -1; -1; -1; -1; -1; -1; -1;
  -1; -1; -1; -1; -1; -1; -1; -1; -1; -1; -1; -1; -1; -1; -1; -1;
  -1; -1; -1; -1; -1; -1; -1; -1; -1; -1; -1; -1; -1; -1; -1; -1;
  -1; -1; -1; -1; -1; -1; -1; -1; -1; -1; -1; -1; -1; -1; -1; -1;
  -1; -1; -1; -1; -1; -1; -1; -1; -1; -1; -1; -1; -1; -1; -1; -1].

(* encoding.c:854-887 *)
Definition base64url_table : list Z := [
  -1; -1; -1; -1; -1; -1; -1; -1; -1; -1; -1; -1; -1; -1; -1; -1;
  -1; -1; -1; -1; -1; -1; -1; -1; -1; -1; -1; -1; -1; -1; -1; -1;
  -1; -1; -1; -1; -1; -1; -1; -1; -1; -1; -1; -1; -1; 62; -1; -1;
  52; 53; 54; 55; 56; 57; 58; 59; 60; 61; -1; -1; -1; -1; -1; -1;
  -1; 0; 1; 2; 3; 4; 5; 6; 7; 8; 9; 10; 11; 12; 13; 14;
  15; 16; 17; 18; 19; 20; 21; 22; 23; 24; 25; -1; -1; -1; -1; 63;
  -1; 26; 27; 28; 29; 30; 31; 32; 33; 34; 35; 36; 37; 38; 39; 40;
  41; 42; 43; 44; 45; 46; 47; 48; 49; 50; 51; -1; -1; -1; -1; -1;
  -1; -1; -1; -1; -1; -1; -1; -1; -1; -1; -1; -1; -1; -1; -1; -1;
  -1; -1; -1; -1; -1; -1; -1; -1; -1; -1; -1; -1; -1; -1; -1; -1;
  -1; -1; -1; -1; -1; -1; -1; -1; -1; -1; -1; -1; -1; -1; -1; -1;
  -1; -1; -1; -1; -1; -1; -1; -1; -1; -1; -1; -1; -1; -1; -1; -1;
  -1; -1; -1; -1; -1; -1; -1; -1; -1; -1; -1; -1; -1; -1; -1; -1;
  -1; -1; -1; -1; -1; -1; -1; -1; -1; -1; -1; -1; -1; -1; -1; -1;
  -1; -1; -1; -1; -1; -1; -1; -1; -1; -1; -1; -1; -1; -1; -1; -1;
  -1; -1; -1; -1; -1; -1; -1; -1; -1; -1; -1; -1; -1; -1; -1; -1].

(* encoding.c:889-907 base64_encode_size0 *)
Definition base64_encode_size0 (len : Z) (pad : bool) : Z :=
  let size := (len / 3) * 4 in
  if len mod 3 =? 1 then size + 2 + (if pad then 2 else 0)
  else if len mod 3 =? 2 then size + 3 + (if pad then 1 else 0)
  else size.

(* encoding.c:909-965 base64_encode0 *)
Fixpoint base64_encode0 (cs : list Z) (pad : bool) (src : list Z) : list Z :=
  match src with
  | c1 :: c2 :: c3 :: t =>
    tab cs (shr c1 2) ::
    tab cs (Z.lor (Z.shiftl (Z.land c1 3) 4) (shr c2 4)) ::
    tab cs (Z.lor (Z.shiftl (Z.land c2 15) 2) (shr c3 6)) ::
    tab cs (Z.land c3 63) :: base64_encode0 cs pad t
  | [c1] =>
    [tab cs (shr c1 2); tab cs (Z.shiftl (Z.land c1 3) 4)] ++
    (if pad then [61; 61] else [])
  | [c1; c2] =>
    [tab cs (shr c1 2); tab cs (Z.lor (Z.shiftl (Z.land c1 3) 4) (shr c2 4));
     tab cs (Z.shiftl (Z.land c2 15) 2)] ++
    (if pad then [61] else [])
  | [] => []
  end.

(* "if (len > 0 && str[len - 1] == '=') len -= 1;", string reversed *)
Definition strip1 (rs : list Z) : list Z :=
  match rs with
  | c :: t => if c =? 61 then t else rs
  | [] => []
  end.
(* encoding.c:967-983 base64_decode_size0 *)
Definition base64_decode_size0 (s : list Z) : Z :=
  let len := Z.of_nat (length (strip1 (strip1 (rev s)))) in
  let size := (len / 4) * 3 in
  let rem := Z.land len 3 in
  if rem =? 0 then size else size + (rem - 1).

(* encoding.c:1003-1056: main loop and final switch on the stripped string *)
Fixpoint base64_dec_loop (tb : list Z) (src : list Z) : option (list Z) :=
  match src with
  | a :: b :: c :: d :: t =>
    let t1 := tabval tb a in let t2 := tabval tb b in
    let t3 := tabval tb c in let t4 := tabval tb d in
    if high_bit (Z.lor (Z.lor (Z.lor t1 t2) t3) t4) then None else
    match base64_dec_loop tb t with
    | None => None
    | Some o =>
      Some (w8 (Z.lor (Z.shiftl t1 2) (shr t2 4)) ::
            w8 (Z.lor (Z.shiftl t2 4) (shr t3 2)) ::
            w8 (Z.lor (Z.shiftl t3 6) (shr t4 0)) :: o)
    end
  | [] => Some []
  | [_] => None
  | [a; b] =>
    let t1 := tabval tb a in let t2 := tabval tb b in
    if high_bit (Z.lor t1 t2) then None
    else if negb (Z.land t2 15 =? 0) then None
    else Some [w8 (Z.lor (Z.shiftl t1 2) (shr t2 4))]
  | [a; b; c] =>
    let t1 := tabval tb a in let t2 := tabval tb b in let t3 := tabval tb c in
    if high_bit (Z.lor (Z.lor t1 t2) t3) then None
    else if negb (Z.land t3 3 =? 0) then None
    else Some [w8 (Z.lor (Z.shiftl t1 2) (shr t2 4));
               w8 (Z.lor (Z.shiftl t2 4) (shr t3 2))]
  end.

(* encoding.c:985-1062 base64_decode0 *)
Definition base64_decode0 (tb : list Z) (src : list Z) : option (list Z) :=
  let s := rev (strip1 (strip1 (rev src))) in
  if Z.land (Z.of_nat (length s)) 3 =? 1 then None else base64_dec_loop tb s.

(* encoding.c:1064-1092 base64_test0 *)
Definition base64_test0 (tb : list Z) (src : list Z) : bool :=
  let s := rev (strip1 (strip1 (rev src))) in
  let m := Z.land (Z.of_nat (length s)) 3 in
  if m =? 1 then false
  else if negb (forallb (fun c => negb (tab tb (torsion_ascii c) =? -1)) s) then false
  else if m =? 2 then Z.land (tab tb (torsion_ascii (last s 0))) 15 =? 0
  else if m =? 3 then Z.land (tab tb (torsion_ascii (last s 0))) 3 =? 0
  else true.

(* encoding.c:1094-1124 base64_check_padding *)
Definition base64_check_padding (s : list Z) (size : Z) : bool :=
  let len := length s in
  let c2 := nth (len - 2) s 0 in
  let c1 := nth (len - 1) s 0 in
  if size mod 3 =? 0 then
    if (len =? 0)%nat then true
    else if (len =? 1)%nat then negb (nth 0 s 0 =? 61)
    else negb (c2 =? 61) && negb (c1 =? 61)
  else if size mod 3 =? 1 then
    (4 <=? len)%nat && (c2 =? 61) && (c1 =? 61)
  else
    (4 <=? len)%nat && negb (c2 =? 61) && (c1 =? 61).

(* encoding.c:1129-1165 *)
Definition base64_encode (src : list Z) := base64_encode0 base64_charset true src.
Definition base64_encode_size (len : Z) := base64_encode_size0 len true.
Definition base64_decode (src : list Z) : option (list Z) :=
  if negb (base64_check_padding src (base64_decode_size0 src)) then None
  else base64_decode0 base64_table src.
Definition base64_test (src : list Z) : bool :=
  if negb (base64_check_padding src (base64_decode_size0 src)) then false
  else base64_test0 base64_table src.

(* encoding.c:1170-1200 *)
Definition base64url_encode (src : list Z) := base64_encode0 base64url_charset false src.
Definition base64url_encode_size (len : Z) := base64_encode_size0 len false.
Definition base64url_decode (src : list Z) : option (list Z) :=
  if negb (base64_check_padding src 0) then None
  else base64_decode0 base64url_table src.
Definition base64url_test (src : list Z) : bool :=
  if negb (base64_check_padding src 0) then false
  else base64_test0 base64url_table src.
