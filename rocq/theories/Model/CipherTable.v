(* Model of the cipher_t dispatch of src/cipher.c (5490-5954): cipher_key_size, cipher_block_size, cipher_init, cipher_encrypt and
   cipher_decrypt over the block ciphers. An enumerator outside cipher_id_t (the default cases) is not represented. *)
From Verif.Base Require Import Prelude.
From Verif.Model Require Import Encoding Hash Blowfish Ciphers64 Ciphers128 Modes.
From Verif.Model Require Aes.
(* cipher_id_t (cipher.h:141-166) *)
Inductive cipher_id := AES128 | AES192 | AES256 | ARC2 | ARC2_GUTMANN | ARC2_40 | ARC2_64 | ARC2_128 | ARC2_128_GUTMANN | BLOWFISH
| CAMELLIA128 | CAMELLIA192 | CAMELLIA256 | CAST5 | DES | DES_EDE | DES_EDE3 | IDEA | SERPENT128 | SERPENT192 | SERPENT256 | TWOFISH128 | TWOFISH192 | TWOFISH256.
(* cipher.c:5494-5548 *)
Definition cipher_key_size (type : cipher_id) : nat :=
  match type with
  | AES128 => 16 | AES192 => 24 | AES256 => 32
  | ARC2 => 8 | ARC2_GUTMANN => 8 | ARC2_40 => 5 | ARC2_64 => 8 | ARC2_128 => 16 | ARC2_128_GUTMANN => 16
  | BLOWFISH => 16
  | CAMELLIA128 => 16 | CAMELLIA192 => 24 | CAMELLIA256 => 32
  | CAST5 => 16 | DES => 8 | DES_EDE => 16 | DES_EDE3 => 24 | IDEA => 16
  | SERPENT128 => 16 | SERPENT192 => 24 | SERPENT256 => 32
  | TWOFISH128 => 16 | TWOFISH192 => 24 | TWOFISH256 => 32
  end.
(* cipher.c:5550-5604 *)
Definition cipher_block_size (type : cipher_id) : nat :=
  match type with
  | AES128 => 16 | AES192 => 16 | AES256 => 16
  | ARC2 => 8 | ARC2_GUTMANN => 8 | ARC2_40 => 8 | ARC2_64 => 8 | ARC2_128 => 8 | ARC2_128_GUTMANN => 8
  | BLOWFISH => 8
  | CAMELLIA128 => 16 | CAMELLIA192 => 16 | CAMELLIA256 => 16
  | CAST5 => 8 | DES => 8 | DES_EDE => 8 | DES_EDE3 => 8 | IDEA => 8
  | SERPENT128 => 16 | SERPENT192 => 16 | SERPENT256 => 16
  | TWOFISH128 => 16 | TWOFISH192 => 16 | TWOFISH256 => 16
  end.
(* cipher_t (cipher.h): the union with the member that was written, the type and the block size *)
Inductive cctx := XAes (c : Aes.aes_t) | XArc2 (c : list Z) | XBlowfish (c : blowfish_t) | XCamellia (c : camellia_t) | XCast5 (c : list Z * list Z)
| XDes (c : list Z) | XEde (c : list Z * list Z) | XEde3 (c : list Z * list Z * list Z) | XIdea (c : idea_t) | XSerpent (c : list Z) | XTwofish (c : twofish_t).
Record cipher_t := mkT { t_type : cipher_id; t_size : nat; t_ctx : cctx }.
(* cipher.c:5606-5840; Fail: return 0 with the context zeroed. Abort: a CHECK of the cipher's own setup *)
Definition cipher_init (type : cipher_id) (key : list Z) : outcome cipher_t :=
  let len := length key in
  let mk x := Ok (mkT type (cipher_block_size type) x) in
  let aes bits n := if negb (len =? n)%nat then Fail else match Aes.aes_init bits key with Some c => mk (XAes c) | None => Abort end in
  let arc2 ekb := bind (arc2_init key ekb) (fun c => mk (XArc2 c)) in
  let camellia bits n := if negb (len =? n)%nat then Fail else bind (camellia_init bits key) (fun c => mk (XCamellia c)) in
  let serpent bits n := if negb (len =? n)%nat then Fail else bind (serpent_init bits key) (fun c => mk (XSerpent c)) in
  let twofish bits n := if negb (len =? n)%nat then Fail else bind (twofish_init bits key) (fun c => mk (XTwofish c)) in
  match type with
  | AES128 => aes 128 16%nat
  | AES192 => aes 192 24%nat
  | AES256 => aes 256 32%nat
  | ARC2 => if (len <? 1)%nat || (128 <? len)%nat then Fail else arc2 (Z.of_nat len * 8)
  | ARC2_GUTMANN => if (len <? 1)%nat || (128 <? len)%nat then Fail else arc2 0
  | ARC2_40 => if negb (len =? 5)%nat then Fail else arc2 40
  | ARC2_64 => if negb (len =? 8)%nat then Fail else arc2 64
  | ARC2_128 => if negb (len =? 16)%nat then Fail else arc2 128
  | ARC2_128_GUTMANN => if negb (len =? 16)%nat then Fail else arc2 1024
  | BLOWFISH => if (len <? 1)%nat || (72 <? len)%nat then Fail else mk (XBlowfish (blowfish_init key []))
  | CAMELLIA128 => camellia 128 16%nat
  | CAMELLIA192 => camellia 192 24%nat
  | CAMELLIA256 => camellia 256 32%nat
  | CAST5 => if negb (len =? 16)%nat then Fail else mk (XCast5 (cast5_init key))
  | DES => if negb (len =? 8)%nat then Fail else mk (XDes (des_init key))
  | DES_EDE => if negb (len =? 16)%nat then Fail else mk (XEde (des_ede_init key))
  | DES_EDE3 => if negb (len =? 24)%nat then Fail else mk (XEde3 (des_ede3_init key))
  | IDEA => if negb (len =? 16)%nat then Fail else mk (XIdea (idea_init key))
  | SERPENT128 => serpent 128 16%nat
  | SERPENT192 => serpent 192 24%nat
  | SERPENT256 => serpent 256 32%nat
  | TWOFISH128 => twofish 128 16%nat
  | TWOFISH192 => twofish 192 24%nat
  | TWOFISH256 => twofish 256 32%nat
  end.
(* cipher.c:5842-5897; reading another member of the union than the one written is an Abort here (undefined in C) *)
Definition cipher_encrypt (ctx : cipher_t) (src : list Z) : outcome (list Z) :=
  match t_type ctx, t_ctx ctx with
  | (AES128 | AES192 | AES256), XAes c => Ok (Aes.aes_encrypt c src)
  | (ARC2 | ARC2_GUTMANN | ARC2_40 | ARC2_64 | ARC2_128 | ARC2_128_GUTMANN), XArc2 c => Ok (arc2_encrypt c src)
  | BLOWFISH, XBlowfish c => Ok (blowfish_encrypt c src)
  | (CAMELLIA128 | CAMELLIA192 | CAMELLIA256), XCamellia c => Ok (camellia_encrypt c src)
  | CAST5, XCast5 c => Ok (cast5_encrypt c src)
  | DES, XDes c => Ok (des_encrypt c src)
  | DES_EDE, XEde c => Ok (des_ede_encrypt c src)
  | DES_EDE3, XEde3 c => Ok (des_ede3_encrypt c src)
  | IDEA, XIdea c => Ok (idea_encrypt c src)
  | (SERPENT128 | SERPENT192 | SERPENT256), XSerpent c => Ok (serpent_encrypt c src)
  | (TWOFISH128 | TWOFISH192 | TWOFISH256), XTwofish c => Ok (twofish_encrypt c src)
  | _, _ => Abort
  end.
(* cipher.c:5899-5954 *)
Definition cipher_decrypt (ctx : cipher_t) (src : list Z) : outcome (list Z) :=
  match t_type ctx, t_ctx ctx with
  | (AES128 | AES192 | AES256), XAes c => Ok (Aes.aes_decrypt c src)
  | (ARC2 | ARC2_GUTMANN | ARC2_40 | ARC2_64 | ARC2_128 | ARC2_128_GUTMANN), XArc2 c => Ok (arc2_decrypt c src)
  | BLOWFISH, XBlowfish c => Ok (blowfish_decrypt c src)
  | (CAMELLIA128 | CAMELLIA192 | CAMELLIA256), XCamellia c => Ok (camellia_decrypt c src)
  | CAST5, XCast5 c => Ok (cast5_decrypt c src)
  | DES, XDes c => Ok (des_decrypt c src)
  | DES_EDE, XEde c => Ok (des_ede_decrypt c src)
  | DES_EDE3, XEde3 c => Ok (des_ede3_decrypt c src)
  | IDEA, XIdea c => Ok (idea_decrypt c src)
  | (SERPENT128 | SERPENT192 | SERPENT256), XSerpent c => Ok (serpent_decrypt c src)
  | (TWOFISH128 | TWOFISH192 | TWOFISH256), XTwofish c => Ok (twofish_decrypt c src)
  | _, _ => Abort
  end.
(* the cipher_t that cipher_stream_init sets up, in the form the modes use; keys are octets *)
Definition octets (key : list Z) : bool := forallb (fun x => (0 <=? x) && (x <? 256)) key.
Definition cipher_of (type : cipher_id) (key : list Z) : option cipher :=
  if negb (octets key) then None else
  match cipher_init type key with
  | Ok t => Some (mkCipher (t_size t) (fun b => match cipher_encrypt t b with Ok x => x | _ => [] end) (fun b => match cipher_decrypt t b with Ok x => x | _ => [] end))
  | _ => None
  end.
