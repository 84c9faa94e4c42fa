(* Model of src/kdf.c without bcrypt (Bcrypt.v): EB2K, HKDF, PBKDF2, PGPDF and scrypt.
   Output buffers are the lists of bytes written, in order. Lengths are nat, converted to Z where the
   code's size_t arithmetic can wrap. hash_has_backend (hash.c:4288) holds for every hash_id.
   While loops take fuel and return None when it runs out, so that non-termination can be stated. *)
From Verif.Base Require Import Prelude.
From Verif.Model Require Import Encoding Bio Hash Stream.

(* ---- the output loop of hkdf_expand (kdf.c:695-713), pbkdf2_derive (777-802) ----
   n iterations; body computes the next block from the loop index, the state and hash_size;
   then "if (hash_size > len) hash_size = len; memcpy(out, block, hash_size); len -= hash_size" *)
Fixpoint emit {A} (body : nat -> A -> nat -> outcome (list Z * A)) (n i : nat) (st : A) (hs len : nat) (out : list Z) : outcome (list Z) :=
  match n with
  | O => Ok out
  | S n => bind (body i st hs) (fun r =>
             let hs := if (len <? hs)%nat then len else hs in
             emit body n (S i) (snd r) hs (len - hs) (out ++ firstn hs (fst r)))
  end.

(* the same under while (len > 0): pgpdf_derive_salted (796-815), pgpdf_derive_iterated (852-887) *)
Fixpoint emit_while {A} (body : nat -> A -> nat -> option (outcome (list Z * A))) (fuel i : nat) (st : A) (hs len : nat) (out : list Z) : option (outcome (list Z)) :=
  if (0 <? len)%nat then
    match fuel with
    | O => None
    | S fuel =>
      match body i st hs with
      | None => None
      | Some (Ok r) =>
        let hs := if (len <? hs)%nat then len else hs in
        emit_while body fuel (S i) (snd r) hs (len - hs) (out ++ firstn hs (fst r))
      | Some Fail => Some Fail
      | Some Abort => Some Abort
      end
    end
  else Some (Ok out).

(* kdf.c:646-660 *)
Definition hkdf_extract (id : hash_id) (ikm salt : list Z) : outcome (list Z) :=
  bind (hmac_init id salt) (fun h => bind (hmac_update h ikm) hmac_final).

(* kdf.c:662-720; prk is read for hash_size bytes. prev starts with prev_len = 0 *)
Definition hkdf_body (pmac : hmac_t) (info : list Z) (i : nat) (st : list Z * Z) (hs : nat) : outcome (list Z * (list Z * Z)) :=
  let '(prev, ctr) := st in
  let ctr := w8 (ctr + 1) in
  bind (hmac_update pmac prev) (fun h =>
  bind (hmac_update h info) (fun h =>
  bind (hmac_update h [ctr]) (fun h =>
  bind (hmac_final h) (fun prev => Ok (prev, (firstn hs prev, ctr)))))).
Definition hkdf_expand (id : hash_id) (prk info : list Z) (len : nat) : outcome (list Z) :=
  let hs := hash_output_size id in
  if w64 (w64 (Z.of_nat len + Z.of_nat hs) - 1) <? Z.of_nat len then Fail
  else
    let blocks := w64 (w64 (Z.of_nat len + Z.of_nat hs) - 1) / Z.of_nat hs in
    if 255 <? blocks then Fail
    else if (len =? 0)%nat then Ok []
    else bind (hmac_init id (firstn hs prk)) (fun pmac => emit (hkdf_body pmac info) (Z.to_nat blocks) 0 ([], 0) hs len []).

(* kdf.c:786-793: n further iterations; block ^= mac each time *)
Fixpoint pbkdf2_iter (n : nat) (pmac : hmac_t) (mac block : list Z) : outcome (list Z) :=
  match n with
  | O => Ok block
  | S n => bind (hmac_update pmac mac) (fun h => bind (hmac_final h) (fun mac => pbkdf2_iter n pmac mac (map2 Z.lxor block mac)))
  end.
(* kdf.c:734-811. HASH_MAX_OUTPUT_SIZE is 64; mac is read for hash_size bytes. i + 1 is converted to uint32_t *)
Definition pbkdf2_body (pmac smac : hmac_t) (iter : Z) (i : nat) (st : unit) (hs : nat) : outcome (list Z * unit) :=
  bind (hmac_update smac (write32be (w32 (Z.of_nat i + 1)))) (fun h =>
  bind (hmac_final h) (fun block =>
  bind (pbkdf2_iter (Z.to_nat (iter - 1)) pmac (firstn hs block) block) (fun block => Ok (block, tt)))).
Definition pbkdf2_derive (id : hash_id) (pass salt : list Z) (iter : Z) (len : nat) : outcome (list Z) :=
  let hs := hash_output_size id in
  if w64 (w64 (Z.of_nat len + Z.of_nat hs) - 1) <? Z.of_nat len then Fail
  else
    let blocks := w64 (w64 (Z.of_nat len + Z.of_nat hs) - 1) / Z.of_nat hs in
    if 0xffffffff <? blocks then Fail
    else if (len =? 0)%nat then Ok []
    else
      bind (hmac_init id pass) (fun pmac => bind (hmac_update pmac salt) (fun smac =>
      emit (pbkdf2_body pmac smac iter) (Z.to_nat blocks) 0 tt hs len [])).

(* kdf.c:592-630: the loop; prev is the previous digest ([] before the first) *)
Fixpoint eb2k_loop (fuel : nat) (id : hash_id) (passwd salt prev : list Z) (key_len iv_len : nat) (key iv : list Z) : option (outcome (list Z * list Z)) :=
  if ((0 <? key_len) || (0 <? iv_len))%nat then
    match fuel with
    | O => None
    | S fuel =>
      match bind (hash_init id) (fun c => bind (hash_update id c prev) (fun c => bind (hash_update id c passwd) (fun c =>
            bind (hash_update id c salt) (fun c => hash_final id c (hash_output_size id))))) with
      | Ok prev =>
        let block := firstn (hash_output_size id) prev in
        let block_len := hash_output_size id in
        let '(key, key_len, block, block_len) :=
          if (0 <? key_len)%nat then
            let want := if (key_len <? block_len)%nat then key_len else block_len in
            (key ++ firstn want block, key_len - want, skipn want block, block_len - want)%nat
          else (key, key_len, block, block_len) in
        let '(iv, iv_len) :=
          if (0 <? iv_len)%nat then
            let want := if (iv_len <? block_len)%nat then iv_len else block_len in
            (iv ++ firstn want block, iv_len - want)%nat
          else (iv, iv_len) in
        eb2k_loop fuel id passwd salt (firstn (hash_output_size id) prev) key_len iv_len key iv
      | Fail => Some Fail
      | Abort => Some Abort
      end
    end
  else Some (Ok (key, iv)).
(* kdf.c:566-636 *)
Definition eb2k_derive (fuel : nat) (id : hash_id) (passwd salt : list Z) (key_len iv_len : nat) : option (outcome (list Z * list Z)) :=
  let salt_len := if (8 <? length salt)%nat then 8%nat else length salt in
  if negb (salt_len =? 0)%nat && negb (salt_len =? 8)%nat then Some Fail
  else eb2k_loop fuel id passwd (firstn salt_len salt) [] key_len iv_len [] [].

(* kdf.c:851-852, 855-856: i one-byte updates with zero *)
Fixpoint feed_zeros (n : nat) (id : hash_id) (c : hash_ctx) : outcome hash_ctx :=
  match n with O => Ok c | S n => bind (hash_update id c [0]) (feed_zeros n id) end.

(* kdf.c:829-872 *)
Definition pgpdf_salted_body (id : hash_id) (pass salt : list Z) (i : nat) (st : unit) (hs : nat) : option (outcome (list Z * unit)) :=
  Some (bind (hash_init id) (fun c => bind (feed_zeros i id c) (fun c => bind (hash_update id c salt) (fun c =>
        bind (hash_update id c pass) (fun c => bind (hash_final id c hs) (fun buf => Ok (buf, tt))))))).
Definition pgpdf_derive_salted (fuel : nat) (id : hash_id) (pass salt : list Z) (len : nat) : option (outcome (list Z)) :=
  emit_while (pgpdf_salted_body id pass salt) fuel 0 tt (hash_output_size id) len [].
(* kdf.c:820-827 *)
Definition pgpdf_derive_simple (fuel : nat) (id : hash_id) (pass : list Z) (len : nat) : option (outcome (list Z)) :=
  pgpdf_derive_salted fuel id pass [] len.

(* kdf.c:910-915: while (left >= total) *)
Fixpoint feed_repeat (fuel : nat) (id : hash_id) (pass salt : list Z) (total rem : Z) (c : hash_ctx) : option (outcome (hash_ctx * Z)) :=
  if total <=? rem then
    match fuel with
    | O => None
    | S fuel =>
      match bind (hash_update id c salt) (fun c => hash_update id c pass) with
      | Ok c => feed_repeat fuel id pass salt total (rem - total) c
      | Fail => Some Fail
      | Abort => Some Abort
      end
    end
  else Some (Ok (c, rem)).
(* kdf.c:874-942 *)
Definition pgpdf_iterated_body (fuel : nat) (id : hash_id) (pass salt : list Z) (count total : Z) (i : nat) (st : unit) (hs : nat) : option (outcome (list Z * unit)) :=
  match bind (hash_init id) (feed_zeros i id) with
  | Ok c =>
    match feed_repeat fuel id pass salt total count c with
    | Some (Ok (c, rem)) =>
      Some (bind (if 0 <? rem then
                    if Z.of_nat (length salt) <? rem then
                      bind (hash_update id c salt) (fun c => hash_update id c (firstn (Z.to_nat (rem - Z.of_nat (length salt))) pass))
                    else hash_update id c (firstn (Z.to_nat rem) salt)
                  else Ok c) (fun c => bind (hash_final id c hs) (fun buf => Ok (buf, tt))))
    | Some Fail => Some Fail
    | Some Abort => Some Abort
    | None => None
    end
  | Fail => Some Fail
  | Abort => Some Abort
  end.
Definition pgpdf_derive_iterated (fuel : nat) (id : hash_id) (pass salt : list Z) (count : Z) (len : nat) : option (outcome (list Z)) :=
  let total := w64 (Z.of_nat (length salt) + Z.of_nat (length pass)) in
  if total <? Z.of_nat (length salt) then Some Fail
  else
    let count := if count <? total then total else count in
    emit_while (pgpdf_iterated_body fuel id pass salt count total) fuel 0 tt (hash_output_size id) len [].

(* ---- scrypt ---- *)
(* kdf.c:1068: x[a] ^= R(x[b] + x[c], n) *)
Definition sx (x : list Z) (a b c : nat) (n : Z) : list Z := upd x a (Z.lxor (rd x a) (rotl32 (add32 (rd x b) (rd x c)) n)).
(* kdf.c:1072-1116, one pass of the loop body *)
Definition salsa8_round (x : list Z) : list Z :=
  let x := sx x 4 0 12 7 in let x := sx x 8 4 0 9 in let x := sx x 12 8 4 13 in let x := sx x 0 12 8 18 in
  let x := sx x 9 5 1 7 in let x := sx x 13 9 5 9 in let x := sx x 1 13 9 13 in let x := sx x 5 1 13 18 in
  let x := sx x 14 10 6 7 in let x := sx x 2 14 10 9 in let x := sx x 6 2 14 13 in let x := sx x 10 6 2 18 in
  let x := sx x 3 15 11 7 in let x := sx x 7 3 15 9 in let x := sx x 11 7 3 13 in let x := sx x 15 11 7 18 in
  let x := sx x 1 0 3 7 in let x := sx x 2 1 0 9 in let x := sx x 3 2 1 13 in let x := sx x 0 3 2 18 in
  let x := sx x 6 5 4 7 in let x := sx x 7 6 5 9 in let x := sx x 4 7 6 13 in let x := sx x 5 4 7 18 in
  let x := sx x 11 10 9 7 in let x := sx x 8 11 10 9 in let x := sx x 9 8 11 13 in let x := sx x 10 9 8 18 in
  let x := sx x 12 15 14 7 in let x := sx x 13 12 15 9 in let x := sx x 14 13 12 13 in sx x 15 14 13 18.
(* kdf.c:1058-1125 *)
Definition salsa20_8 (B : list Z) : list Z :=
  let B32 := map (fun i => read32le (skipn (i * 4) B)) (seq 0 16) in
  let x := times 4 salsa8_round B32 in
  flat_map write32le (map2 add32 B32 x).

(* &B[i * 64], 64 bytes *)
Definition blk64 (B : list Z) (i : nat) : list Z := firstn 64 (skipn (i * 64) B).
(* kdf.c:1127-1151. Returns the new B; Y is only scratch *)
Fixpoint mix_loop (n i : nat) (B X Y : list Z) : list Z :=
  match n with
  | O => Y
  | S n => let X := salsa20_8 (map2 Z.lxor X (blk64 B i)) in mix_loop n (S i) B X (Y ++ X)
  end.
Definition blockmix_salsa8 (B : list Z) (r : nat) : list Z :=
  let Y := mix_loop (2 * r) 0 B (blk64 B (2 * r - 1)) [] in
  flat_map (fun i => blk64 Y (i * 2)) (seq 0 r) ++ flat_map (fun i => blk64 Y (i * 2 + 1)) (seq 0 r).
(* kdf.c:1153-1158 *)
Definition integerify (B : list Z) (r : nat) : Z := read64le (skipn ((2 * r - 1) * 64) B).
(* kdf.c:1170-1177: V is the list of the values stored so far *)
Fixpoint smix1 (n : nat) (r : nat) (X : list Z) (V : list (list Z)) : list Z * list (list Z) :=
  match n with O => (X, V) | S n => smix1 n r (blockmix_salsa8 X r) (V ++ [X]) end.
(* kdf.c:1179-1187 *)
Fixpoint smix2 (n : nat) (r : nat) (N : Z) (V : list (list Z)) (X : list Z) : list Z :=
  match n with
  | O => X
  | S n => let j := Z.land (integerify X r) (N - 1) in
           smix2 n r N V (blockmix_salsa8 (map2 Z.lxor X (nth (Z.to_nat j) V [])) r)
  end.
(* kdf.c:1160-1191 *)
Definition smix (B : list Z) (r : nat) (N : Z) : list Z :=
  let '(X, V) := smix1 (Z.to_nat N) r B [] in smix2 (Z.to_nat N) r N V X.

(* kdf.c:961-1040; SIZE_MAX = 2^64 - 1. The allocations are assumed to succeed *)
Definition scrypt_derive (pass salt : list Z) (N : Z) (r p : nat) (len : nat) : outcome (list Z) :=
  let R := Z.of_nat r in let P := Z.of_nat p in
  if (N =? 0) || (R =? 0) || (P =? 0) then Fail
  else if (2 ^ 32 - 1) * 32 <? Z.of_nat len then Fail
  else if 2 ^ 30 <=? R * P then Fail
  else if (M64 - 1) / 128 / P <? R then Fail
  else if (M64 - 1) / 256 <? R then Fail
  else if (M64 - 1) / 128 / R <? N then Fail
  else if negb (Z.land N (N - 1) =? 0) then Fail
  else if (len =? 0)%nat then Ok []
  else
    bind (pbkdf2_derive SHA256 pass salt 1 (p * 128 * r)) (fun B =>
    let B := flat_map (fun i => smix (firstn (128 * r) (skipn (i * 128 * r) B)) r N) (seq 0 p) in
    pbkdf2_derive SHA256 pass B 1 len).
