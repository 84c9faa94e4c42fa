(* Models of src/aead.c (ChaCha20-Poly1305) and src/ies.c (secretbox). Both are
   written once over a Poly1305 implementation (its block function, tag function
   and initial state) and instantiated with the 64- and 32-bit ones of mac.c.
   torsion_memzero calls are not modelled. *)
From Verif.Base Require Import Prelude.
From Verif.Model Require Import Bio Util Block Stream Mac.

(* chachapoly_t; the lengths are uint64_t *)
Record aead (S : Type) := mkAead { ae_chacha : sctx; ae_poly : poly S; ae_adlen : Z; ae_ctlen : Z }.
Arguments mkAead {S}. Arguments ae_chacha {S}. Arguments ae_poly {S}. Arguments ae_adlen {S}. Arguments ae_ctlen {S}.

Section Aead.
  Context {S : Type}.
  Variable pinit : list Z -> poly S.
  Variable blk : S -> list Z -> bool -> S.
  Variable tag : S -> list Z.

  (* aead.c:25-42; poly1305_init reads the first 32 bytes of polykey *)
  Definition chachapoly_init (key iv : list Z) : option (aead S) :=
    match chacha20_init key iv 0 with
    | None => None
    | Some c =>
      let '(polykey, c) := chacha20_crypt c (repeat 0 64) in
      Some (mkAead c (pinit (firstn 32 polykey)) 0 0)
    end.

  (* aead.c:44-48 *)
  Definition chachapoly_aad (a : aead S) (aad : list Z) : aead S :=
    mkAead (ae_chacha a) (poly_update blk (ae_poly a) aad) (add64 (ae_adlen a) (Z.of_nat (length aad))) (ae_ctlen a).

  (* if (aead->ctlen == 0) poly1305_pad(&aead->poly) *)
  Definition pad_first (a : aead S) : poly S :=
    if ae_ctlen a =? 0 then poly_pad blk (ae_poly a) else ae_poly a.

  (* aead.c:50-62 *)
  Definition chachapoly_encrypt (a : aead S) (src : list Z) : list Z * aead S :=
    let p := pad_first a in
    let ctlen := add64 (ae_ctlen a) (Z.of_nat (length src)) in
    let '(dst, c) := chacha20_crypt (ae_chacha a) src in
    (dst, mkAead c (poly_update blk p dst) (ae_adlen a) ctlen).

  (* aead.c:64-76 *)
  Definition chachapoly_decrypt (a : aead S) (src : list Z) : list Z * aead S :=
    let p := pad_first a in
    let ctlen := add64 (ae_ctlen a) (Z.of_nat (length src)) in
    let p := poly_update blk p src in
    let '(dst, c) := chacha20_crypt (ae_chacha a) src in
    (dst, mkAead c p (ae_adlen a) ctlen).

  (* aead.c:78-86 *)
  Definition chachapoly_auth (a : aead S) (data : list Z) : aead S :=
    mkAead (ae_chacha a) (poly_update blk (pad_first a) data) (ae_adlen a)
           (add64 (ae_ctlen a) (Z.of_nat (length data))).

  (* aead.c:88-98 *)
  Definition chachapoly_final (a : aead S) : list Z :=
    let len := write64le (ae_adlen a) ++ write64le (ae_ctlen a) in
    poly_final blk tag (poly_update blk (poly_pad blk (ae_poly a)) len).

  (* ies.c:26-47: sealed; None is a failed CHECK in salsa20_init *)
  Definition secretbox_seal (msg key nonce : list Z) : option (list Z) :=
    match salsa20_init key nonce 0 with
    | None => None
    | Some c =>
      let '(polykey, c) := salsa20_crypt c (repeat 0 32) in
      let '(ct, c) := salsa20_crypt c msg in
      let p := poly_update blk (pinit polykey) ct in
      Some (poly_final blk tag p ++ ct)
    end.

  (* ies.c:49-84: the return value and the contents of msg (unwritten when the
     box is too short) *)
  Definition secretbox_open (sealed key nonce : list Z) : option (Z * list Z) :=
    if (length sealed <? 16)%nat then Some (0, []) else
    let t := firstn 16 sealed in
    let ct := skipn 16 sealed in
    match salsa20_init key nonce 0 with
    | None => None
    | Some c =>
      let '(polykey, c) := salsa20_crypt c (repeat 0 32) in
      let p := poly_update blk (pinit polykey) ct in
      let mac := poly_final blk tag p in
      let ret := torsion_memequal mac t in
      let '(msg, c) := salsa20_crypt c ct in
      Some (ret, msg)
    end.
End Aead.

(* ies.c:86-89: salsa20_derive reads 16 of the 32 zeros *)
Definition secretbox_derive (secret : list Z) : option (list Z) := salsa20_derive secret (repeat 0 32).

Definition chachapoly64_init := chachapoly_init poly64_init.
Definition chachapoly64_aad := chachapoly_aad p64_block.
Definition chachapoly64_encrypt := chachapoly_encrypt p64_block.
Definition chachapoly64_decrypt := chachapoly_decrypt p64_block.
Definition chachapoly64_auth := chachapoly_auth p64_block.
Definition chachapoly64_final := chachapoly_final p64_block p64_tag.
Definition chachapoly32_init := chachapoly_init poly32_init.
Definition chachapoly32_aad := chachapoly_aad p32_block.
Definition chachapoly32_encrypt := chachapoly_encrypt p32_block.
Definition chachapoly32_decrypt := chachapoly_decrypt p32_block.
Definition chachapoly32_auth := chachapoly_auth p32_block.
Definition chachapoly32_final := chachapoly_final p32_block p32_tag.
Definition secretbox64_seal := secretbox_seal poly64_init p64_block p64_tag.
Definition secretbox64_open := secretbox_open poly64_init p64_block p64_tag.
Definition secretbox32_seal := secretbox_seal poly32_init p32_block p32_tag.
Definition secretbox32_open := secretbox_open poly32_init p32_block p32_tag.
