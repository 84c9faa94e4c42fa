(* EdDSA as in RFC 8032: point encoding, clamping, domain separation, digests as scalars and the two verification equations. *)
From Verif.Base Require Import Prelude.
From Verif.Model Require Import Hash.
From Verif.Spec Require Import HashSpec DsaSpec.
(* b / 8: the octets of an encoded point, one bit more than the field needs *)
Definition ed_octs (P : Z) : nat := Z.to_nat (blen P / 8 + 1).
(* y, little endian, with the parity of x in the top bit *)
Definition ed_enc (P x y : Z) : list Z := le_bytes (ed_octs P) (y + x mod 2 * 2 ^ (8 * Z.of_nat (ed_octs P) - 1)).
(* a multiple of h with the top bit of b bits set *)
Definition ed_clamp (b h v : Z) : Z := 2 ^ (b - 1) + (v - v mod h) mod 2 ^ (b - 1).
(* dom2 and dom4: ph is -1 for pure Ed25519; contexts of at most 255 octets *)
Definition ed_dom (always : bool) (name : list Z) (ph : Z) (ctx : list Z) : list Z :=
  if negb always && (ph =? -1) && (match ctx with [] => true | _ => false end) then []
  else name ++ [if ph =? 1 then 1 else 0] ++ [Z.of_nat (length ctx)] ++ ctx.
(* a digest of twice the octets of a point, mod n *)
Definition ed_int (id : hash_id) (P n : Z) (m : list Z) : Z :=
  le_val (firstn (2 * ed_octs P) (hash_value id m (2 * ed_octs P))) mod n.
Section S.
Variable T : Type.
Variables (add : T -> T -> T) (mul : Z -> T -> T).
Variables (G : T) (h : Z).
Definition ed_equation (R A : T) (s e : Z) : Prop := mul s G = add R (mul e A).
Definition ed_cofactored (R A : T) (s e : Z) : Prop := mul h (mul s G) = mul h (add R (mul e A)).
End S.
