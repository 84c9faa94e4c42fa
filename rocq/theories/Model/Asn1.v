(* Model of src/asn1.c. The cursor data, len is the list of remaining bytes.
   A read of a byte that is not there is the distinct result ROob (it would be
   an out-of-bounds access in C). mpz_t is a mathematical integer; mpz_import is
   be_val, mpz_export(.., size, 1) is be_bytes of the absolute value and aborts
   when it does not fit (mpi.c:9076-9107). Writers return the bytes they store
   at data[pos..]; None is a failed CHECK (abort). *)
From Verif.Base Require Import Prelude.
From Verif.Model Require Import Bio.

Inductive rres (A : Type) : Type :=
| ROk (a : A) (rest : list Z)    (* return 1 *)
| RFail                          (* return 0 *)
| ROob.                          (* read past the end of the buffer *)
Arguments ROk {A} a rest.
Arguments RFail {A}.
Arguments ROob {A}.

(* asn1.c:47-63: the long form loop, n bytes to go *)
Fixpoint read_size_loop (n : nat) (size : Z) (data : list Z) (strict : bool) : rres Z :=
  match n with
  | O => ROk size data
  | S m =>
    if (length data =? 0)%nat then RFail else
    match data with
    | [] => ROob
    | ch :: data =>
      if Z.shiftl 1 24 <=? size then RFail else
      let size := Z.lor (w64 (Z.shiftl size 8)) ch in
      if strict && (size =? 0) then RFail else
      read_size_loop m size data strict
    end
  end.

(* asn1.c:18-74 asn1_read_size *)
Definition asn1_read_size (data : list Z) (strict : bool) : rres Z :=
  if (length data =? 0)%nat then RFail else
  match data with
  | [] => ROob
  | ch :: data =>
    if Z.land ch 0x80 =? 0 then ROk ch data else
    let bytes := Z.land ch 0x7f in
    if strict && (bytes =? 0) then RFail else
    match read_size_loop (Z.to_nat bytes) 0 data strict with
    | ROk size data => if strict && (size <? 0x80) then RFail else ROk size data
    | RFail => RFail
    | ROob => ROob
    end
  end.

(* if len == 0 || *data != tag then return 0; *data += 1; *len -= 1 *)
Definition read_tag (tag : Z) (data : list Z) : rres unit :=
  if (length data =? 0)%nat then RFail else
  match data with
  | [] => ROob
  | ch :: data => if negb (ch =? tag) then RFail else ROk tt data
  end.

(* asn1.c:76-93 asn1_read_seq *)
Definition asn1_read_seq (data : list Z) (strict : bool) : rres unit :=
  match read_tag 0x30 data with
  | ROk _ data =>
    match asn1_read_size data strict with
    | ROk size data =>
      if strict && negb (size =? Z.of_nat (length data)) then RFail else ROk tt data
    | RFail => RFail
    | ROob => ROob
    end
  | RFail => RFail
  | ROob => ROob
  end.

(* num[i], i within the remaining bytes or out of bounds *)
Definition peek (data : list Z) (i : nat) : option Z := nth_error data i.

(* asn1.c:113-129 (165-181): the strict checks on size bytes at num.
   Some true: passed; Some false: goto fail; None: out of bounds *)
Definition strict_int (size : Z) (num : list Z) : option bool :=
  if size =? 0 then Some false else
  match peek num 0 with
  | None => None
  | Some n0 =>
    if negb (Z.land n0 0x80 =? 0) then Some false else
    if (1 <? size) && (n0 =? 0) then
      match peek num 1 with
      | None => None
      | Some n1 => if Z.land n1 0x80 =? 0 then Some false else Some true
      end
    else Some true
  end.

(* asn1.c:131-136 (183-188): while size > 0 and the next byte is zero; the fuel is
   one more than size *)
Fixpoint eat_zeros (fuel : nat) (size : Z) (data : list Z) : rres Z :=
  match fuel with
  | O => ROk size data
  | S f =>
    if 0 <? size then
      match data with
      | [] => ROob
      | ch :: t => if ch =? 0 then eat_zeros f (size - 1) t else ROk size data
      end
    else ROk size data
  end.

(* memcpy / mpz_import of size bytes at *data, then advance *)
Definition take (size : Z) (data : list Z) : rres (list Z) :=
  if Z.of_nat (length data) <? size then ROob
  else ROk (firstn (Z.to_nat size) data) (skipn (Z.to_nat size) data).

(* the part shared by asn1_read_int (95-152) and asn1_read_mpz (154-209):
   size_strict is the flag given to asn1_read_size and limit the largest number
   of significant bytes *)
Definition read_int_bytes (data : list Z) (size_strict strict : bool) (limit : Z) : rres (list Z) :=
  match read_tag 0x02 data with
  | ROk _ data =>
    match asn1_read_size data size_strict with
    | ROk size data =>
      if Z.of_nat (length data) <? size then RFail else
      match (if strict then strict_int size data else Some true) with
      | None => ROob
      | Some false => RFail
      | Some true =>
        match eat_zeros (S (Z.to_nat size)) size data with
        | ROk size data => if limit <? size then RFail else take size data
        | RFail => RFail
        | ROob => ROob
        end
      end
    | RFail => RFail
    | ROob => ROob
    end
  | RFail => RFail
  | ROob => ROob
  end.

(* asn1.c:95-152 asn1_read_int: out_len bytes, big endian, zero padded *)
Definition asn1_read_int (out_len : nat) (data : list Z) (strict : bool) : rres (list Z) :=
  match read_int_bytes data strict strict (Z.of_nat out_len) with
  | ROk num rest => ROk (repeat 0 (out_len - length num) ++ num) rest
  | RFail => RFail
  | ROob => ROob
  end.

(* asn1.c:154-209 asn1_read_mpz; the size is always read strictly (line 165) *)
Definition asn1_read_mpz (data : list Z) (strict : bool) : rres Z :=
  match read_int_bytes data true strict 2048 with
  | ROk num rest => ROk (be_val num) rest
  | RFail => RFail
  | ROob => ROob
  end.

(* asn1.c:211-240 asn1_read_version *)
Definition asn1_read_version (data : list Z) (version : Z) (strict : bool) : rres unit :=
  if strict then
    if (length data <? 3)%nat then RFail else
    match peek data 0, peek data 1, peek data 2 with
    | Some n0, Some n1, Some n2 =>
      if negb (n0 =? 0x02) || negb (n1 =? 0x01) || negb (n2 =? version) then RFail
      else ROk tt (skipn 3 data)
    | _, _, _ => ROob
    end
  else
    match asn1_read_mpz data false with
    | ROk n rest => if n =? version then ROk tt rest else RFail
    | RFail => RFail
    | ROob => ROob
    end.

(* asn1.c:242-267 asn1_read_dumb *)
Definition asn1_read_dumb (data : list Z) : rres Z :=
  if (length data <? 2)%nat then RFail else
  match peek data 0, peek data 1 with
  | Some b0, Some b1 =>
    let size := Z.lor (Z.shiftl b0 8) b1 in
    let data := skipn 2 data in
    if Z.of_nat (length data) <? size then RFail else
    match take size data with
    | ROk num rest => ROk (be_val num) rest
    | RFail => RFail
    | ROob => ROob
    end
  | _, _ => ROob
  end.

(* mpi.c:8966-8979 mpz_bitlen, mpz_bytelen, as values *)
Definition mpz_bitlen (n : Z) : Z := if n =? 0 then 0 else Z.log2 (Z.abs n) + 1.
Definition mpz_bytelen (n : Z) : Z := (mpz_bitlen n + 7) / 8.
(* mpi.c:9096-9107 mpz_export(raw, n, size, 1) *)
Definition mpz_export (n size : Z) : option (list Z) :=
  if size <? mpz_bytelen n then None else Some (be_bytes (Z.to_nat size) (Z.abs n)).

(* asn1.c:269-278 *)
Definition asn1_size_size (size : Z) : Z :=
  if size <=? 0x7f then 1 else if size <=? 0xff then 2 else 3.

(* while (len > 0 && num[0] == 0x00) *)
Fixpoint strip0 (num : list Z) : list Z :=
  match num with
  | [] => []
  | d :: t => if d =? 0 then strip0 t else num
  end.

(* asn1.c:280-294 *)
Definition asn1_size_int (num : list Z) : Z :=
  let num := strip0 num in
  let len := Z.of_nat (length num) in
  if len =? 0 then 3 else
  let len := len + shr (rd num 0) 7 in
  1 + asn1_size_size len + len.

(* asn1.c:296-309 *)
Definition asn1_size_mpz (n : Z) : Z :=
  let bits := mpz_bitlen n in
  let size := (bits + 7) / 8 in
  let size := if (0 <? bits) && (Z.land bits 7 =? 0)
              then size + Z.b2z (Z.testbit n (bits - 1)) else size in
  let size := if bits =? 0 then 1 else size in
  1 + asn1_size_size size + size.

(* asn1.c:311-315 *)
Definition asn1_size_version (version : Z) : Z := 3.

(* asn1.c:317-336 *)
Definition asn1_write_size (size : Z) : option (list Z) :=
  if size <=? 0x7f then Some [w8 size]
  else if size <=? 0xff then Some [0x81; w8 size]
  else if size <=? 0xffff then Some [0x82; w8 (shr size 8); Z.land size 0xff]
  else None.

(* asn1.c:338-342 *)
Definition asn1_write_seq (size : Z) : option (list Z) :=
  match asn1_write_size size with Some s => Some (0x30 :: s) | None => None end.

(* asn1.c:344-376 *)
Definition asn1_write_int (num : list Z) : option (list Z) :=
  let num := strip0 num in
  if (length num =? 0)%nat then Some [0x02; 0x01; 0x00] else
  let pad := shr (rd num 0) 7 in
  match asn1_write_size (pad + Z.of_nat (length num)) with
  | None => None
  | Some s => Some ([0x02] ++ s ++ (if pad =? 0 then [] else [0x00]) ++ num)
  end.

(* asn1.c:378-403 *)
Definition asn1_write_mpz (n : Z) : option (list Z) :=
  let bits := mpz_bitlen n in
  let size := (bits + 7) / 8 in
  let pad := if (0 <? bits) && (Z.land bits 7 =? 0)
             then Z.b2z (Z.testbit n (bits - 1)) else 0 in
  let size := if bits =? 0 then 1 else size in
  match asn1_write_size (pad + size), mpz_export n size with
  | Some s, Some e => Some ([0x02] ++ s ++ (if pad =? 0 then [] else [0x00]) ++ e)
  | _, _ => None
  end.

(* asn1.c:405-414 *)
Definition asn1_write_version (version : Z) : option (list Z) :=
  if version <=? 0xff then Some [0x02; 0x01; w8 version] else None.

(* asn1.c:416-430 *)
Definition asn1_write_dumb (n : Z) : option (list Z) :=
  let size := mpz_bytelen n in
  if 0xffff <? size then None else
  match mpz_export n size with
  | Some e => Some ([w8 (shr size 8); Z.land size 0xff] ++ e)
  | None => None
  end.

Example asn1_model_ex :
  asn1_write_mpz 0x80 = Some [2; 2; 0; 0x80] /\
  asn1_read_mpz [2; 2; 0; 0x80; 7] true = ROk 0x80 [7] /\
  asn1_read_mpz [2; 2; 0; 0x7f; 7] true = RFail /\
  asn1_read_mpz [2; 2; 0; 0x7f; 7] false = ROk 0x7f [7].
Proof. vm_compute. auto. Qed.
