(* Schnorr signatures over a curve group: the verification equation shared by BIP-Schnorr and BIP340, and the tagged hashes of
   BIP340. Hash functions other than SHA256 whose digest is not half a block use SHAKE256 for the tag. *)
From Verif.Base Require Import Prelude.
From Coq Require Import String Ascii.
From Verif.Model Require Import Hash.
From Verif.Spec Require Import HashSpec EcSpec DsaSpec EcdsaSpec.
Definition ascii (s : string) : list Z := List.map (fun c => Z.of_nat (nat_of_ascii c)) (list_ascii_of_string s).
(* the integer of a digest: its leading octets, cut to the bit length of n, mod n *)
Definition hash_int (n : Z) (out : list Z) : Z := (be_val (firstn (octs n) out) mod 2 ^ blen n) mod n.
Definition tag_digest (id : hash_id) (tag : list Z) : list Z :=
  let half := (hash_block_size id / 2)%nat in hash_value (if (hash_output_size id =? half)%nat then id else SHAKE256) tag half.
Definition tagged (id : hash_id) (tag : string) (m : list Z) (len : nat) : list Z :=
  hash_value id (tag_digest id (ascii tag) ++ tag_digest id (ascii tag) ++ m) len.
Definition bip340_e (id : hash_id) (n : Z) (R A m : list Z) : Z := hash_int n (tagged id "BIP0340/challenge" (R ++ A ++ m) (octs n)).
Definition bip340_k (id : hash_id) (n : Z) (d x m : list Z) (aux : option (list Z)) : Z :=
  let t := match aux with None => d | Some z => xorl d (firstn (octs n) (tagged id "BIP0340/aux" z (octs n))) end in
  hash_int n (tagged id "BIP0340/nonce" (t ++ x ++ m) (octs n)).
(* BIP-Schnorr: no tags, compressed key *)
Definition bips_e (id : hash_id) (n : Z) (R A m : list Z) : Z := hash_int n (hash_value id (R ++ A ++ m) (octs n)).
Definition bips_k (id : hash_id) (n : Z) (d m : list Z) : Z := hash_int n (hash_value id (d ++ m) (octs n)).
Section S.
Variable F : Type.
Variables (add : point F -> point F -> point F) (mul : Z -> point F -> point F).
Variable G : point F.
(* R = s G - e A is the affine point X, Y *)
Definition schnorr_point (A : point F) (s e : Z) (X Y : F) : Prop := add (mul s G) (mul (- e) A) = Aff X Y.
End S.
