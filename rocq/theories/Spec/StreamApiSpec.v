(* What the streaming cipher API must compute, stated on whole messages.
   E, E2: the forward permutations under the key and (XTS only) the second key. *)
From Verif.Base Require Import Prelude.
From Verif.Model Require Import CipherStream.
From Verif.Spec Require Import BlockSpec ModesSpec.

(* PKCS#7: 1..B bytes, each the number of bytes added *)
Definition pkcs7 (B : nat) (m : list Z) : list Z :=
  m ++ repeat (Z.of_nat (B - length m mod B)) (B - length m mod B).
(* which messages a mode can encrypt, and to what; None: rejected *)
Definition stream_spec (B : nat) (E E2 : list Z -> list Z) (mode : mode_id) (padding : bool) (iv m : list Z) : option (list Z) :=
  let whole (x : list Z) := if (length m mod B =? 0)%nat then Some x else None in
  let one (x : list Z) := if (B <=? length m)%nat then Some x else None in
  let bs := blocks B m in
  let r := leftover B m in
  match mode, padding with
  | RAW, _ => whole (concat (map E bs))
  | ECB, true => Some (concat (map E (blocks B (pkcs7 B m))))
  | ECB, false => whole (concat (map E bs))
  | CBC, true => Some (concat (cbc_chain E iv (blocks B (pkcs7 B m))))
  | CBC, false | CTS, false => whole (concat (cbc_chain E iv bs))
  | CTS, true => one (cbc_cts B E iv bs r)
  | XTS, true => one (xts_spec B E (E2 iv) bs r)
  | XTS, false => whole (concat (xts_chain B E (E2 iv) 0 bs))
  | CTR, _ => Some (xor_stream (ctr_block B E B iv) m)
  | OFB, _ => Some (xor_stream (ofb_block E iv) m)
  | CFB, _ => Some (cfb_spec B E iv m)
  | _, _ => None
  end.
