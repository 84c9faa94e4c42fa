(* RFC 8439 2.8 and NaCl's secretbox over a keystream given by its blocks *)
From Verif.Base Require Import Prelude.
From Verif.Spec Require Import BlockSpec StreamSpec MacSpec.

(* the string Poly1305 authenticates *)
Definition aead_data (aad ct : list Z) : list Z :=
  aad ++ pad16 aad ++ ct ++ pad16 ct ++ le_bytes 8 (Z.of_nat (length aad)) ++ le_bytes 8 (Z.of_nat (length ct)).
(* one-time key from block 0, text from block 1 *)
Definition aead_cipher (B : nat -> list Z) (m : list Z) : list Z := xorl m (ks_seg B 64 (length m)).
Definition aead_tag (B : nat -> list Z) (aad ct : list Z) : list Z :=
  poly1305 (firstn 32 (B 0%nat)) (aead_data aad ct).
(* the RFC 8439 and the original (64-bit nonce) keystreams *)
Definition rfc8439 (key nonce : list Z) (i : nat) : list Z := cha_block32 key nonce (Z.of_nat i).
Definition djb_chacha (key nonce : list Z) (i : nat) : list Z := cha_block64 key nonce (Z.of_nat i).
Definition xsalsa (key nonce : list Z) (i : nat) : list Z :=
  sal_block64 (hsalsa key (firstn 16 nonce)) (skipn 16 nonce) (Z.of_nat i).
(* one-time key and text both start in block 0 *)
Definition box_cipher (B : nat -> list Z) (m : list Z) : list Z := xorl m (ks_seg B 32 (length m)).
Definition box (B : nat -> list Z) (m : list Z) : list Z :=
  poly1305 (firstn 32 (B 0%nat)) (box_cipher B m) ++ box_cipher B m.
