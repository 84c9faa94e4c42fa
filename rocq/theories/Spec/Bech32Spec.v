(* BIP 173 and CashAddr, stated without the model. *)
From Coq Require Import String Ascii.
From Verif.Base Require Import Prelude.
From Verif.Spec Require Import EncodingSpec.

Definition ascii_codes (s : string) : list Z :=
  map (fun a => Z.of_nat (nat_of_ascii a)) (list_ascii_of_string s).

(* the 32-symbol alphabet of both formats *)
Definition alphabech : list Z := ascii_codes "qpzry9x8gf2tvdw0s3jn54khce6mua7l".

(* One step of the checksum: chk is a polynomial over GF(32) with coefficients
   packed 5 bits each, n bits below the top coefficient; gen lists the
   reduction constants for bits 0..4 of the top coefficient. *)
Definition gen_xor (gen : list Z) (top : Z) : Z :=
  fold_left Z.lxor
    (map (fun '(i, g) => if Z.testbit top i then g else 0) (combine [0; 1; 2; 3; 4] gen)) 0.
Definition pm_step (n : Z) (gen : list Z) (chk v : Z) : Z :=
  Z.lxor (Z.lxor (chk mod 2 ^ n * 32) v) (gen_xor gen (chk / 2 ^ n)).

(* BIP 173 *)
Definition bip173_gen := [0x3b6a57b2; 0x26508e6d; 0x1ea119fa; 0x3d4233dd; 0x2a1462b3].
Definition bip173_polymod (vs : list Z) : Z := fold_left (pm_step 25 bip173_gen) vs 1.
Definition hrp_expand (hrp : list Z) : list Z :=
  map (fun c => c / 32) hrp ++ [0] ++ map (fun c => c mod 32) hrp.

Definition is_upper (c : Z) : Prop := 65 <= c <= 90.
Definition is_lower (c : Z) : Prop := 97 <= c <= 122.
Definition hrp_char (c : Z) : Prop := 33 <= c <= 126 /\ ~ is_upper c.
Definition single_case (s : list Z) : Prop := ~ (Exists is_upper s /\ Exists is_lower s).

(* s is the (lower case) bech32 string with human-readable part hrp, 5-bit
   data d and checksum constant k *)
Definition is_bech32 (k : Z) (hrp d s : list Z) : Prop :=
  hrp <> [] /\ Forall hrp_char hrp /\ Forall (below 32) d /\
  exists c, length c = 6%nat /\ Forall (below 32) c /\
    bip173_polymod (hrp_expand hrp ++ d ++ c) = k /\
    s = hrp ++ [49] ++ map (sym alphabech) (d ++ c) /\
    (length s <= 90)%nat.

(* CashAddr *)
Definition cash_gen := [0x98f2bc8e61; 0x79b76d99e2; 0xf33e5fb3c4; 0xae2eabe2a8; 0x1e4f43e470].
Definition cash_polymod (vs : list Z) : Z := fold_left (pm_step 35 cash_gen) vs 1.

(* pl is the checksummed payload (data and 8 checksum symbols, as text) *)
Definition is_cash32_payload (prefix d pl : list Z) : Prop :=
  prefix <> [] /\ Forall is_lower prefix /\ (length prefix <= 83)%nat /\
  Forall (below 32) d /\ (length d <= 104)%nat /\
  exists c, length c = 8%nat /\ Forall (below 32) c /\
    cash_polymod (map (fun c => c mod 32) prefix ++ [0] ++ d ++ c) = 1 /\
    pl = map (sym alphabech) (d ++ c).
Definition is_cash32 (prefix d s : list Z) : Prop :=
  exists pl, is_cash32_payload prefix d pl /\ s = prefix ++ [58] ++ pl.

(* CashAddr hash sizes in bytes by size code *)
Definition cash_sizes : list Z := [20; 24; 28; 32; 40; 48; 56; 64].

(* Witness-program addresses: version and hash bytes regrouped into 5-bit
   digits (zero padded). The code allows every 5-bit version; BIP 173 stops
   at 16. *)
Definition is_segwit (k : Z) (hrp : list Z) (v : Z) (h s : list Z) : Prop :=
  0 <= v <= 31 /\ bytes h /\ (2 <= length h <= 40)%nat /\
  is_bech32 k hrp (v :: rfc4648_digits 5 h) s.

(* the 5-bit digits of a CashAddr version byte and hash *)
Definition cash_data (t : Z) (h ds : list Z) : Prop :=
  0 <= t <= 15 /\ bytes h /\
  exists i, nth_error cash_sizes (Z.to_nat i) = Some (Z.of_nat (length h)) /\ 0 <= i < 8 /\
    ds = rfc4648_digits 5 (t * 8 + i :: h).

(* What cash32_deserialize may accept: the full form, or the bare payload
   under the fallback prefix fb. *)
Definition cash_accept (s fb prefix d : list Z) : Prop :=
  exists pl, is_cash32_payload prefix d pl /\
    (map lower s = prefix ++ [58] ++ pl \/ (prefix = fb /\ map lower s = pl)).
(* characters of a NUL-terminated string *)
Definition cstring (s : list Z) : Prop := Forall (fun c => 1 <= c < 256) s.
(* number of positions at which two strings differ *)
Fixpoint hamming (a b : list Z) : nat :=
  match a, b with
  | x :: a, y :: b => ((if Z.eq_dec x y then 0 else 1) + hamming a b)%nat
  | _, _ => 0%nat
  end.
