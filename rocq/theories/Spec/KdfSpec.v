(* HKDF (RFC 5869), PBKDF2 (RFC 8018), EVP_BytesToKey, OpenPGP string-to-key (RFC 4880) and scrypt
   (RFC 7914), written from the standards over HMAC (rfc2104) and the hash functions (hash_value). *)
From Verif.Base Require Import Prelude.
From Verif.Model Require Import Hash.
From Verif.Spec Require Import BlockSpec HashSpec StreamSpec.

(* the number of hs-byte blocks that cover len bytes *)
Definition cover (hs len : nat) : nat := ((len + hs - 1) / hs)%nat.
Definition H (id : hash_id) (m : list Z) : list Z := hash_value id m (hash_output_size id).

(* RFC 5869, 2.3: T(0) = "", T(i) = HMAC(PRK, T(i-1) | info | i), OKM = first L octets of T(1) | ... | T(N) *)
Fixpoint hkdf_T (id : hash_id) (prk info : list Z) (i : nat) : list Z :=
  match i with O => [] | S j => rfc2104 id prk (hkdf_T id prk info j ++ info ++ [Z.of_nat i]) end.
Definition hkdf_okm (id : hash_id) (prk info : list Z) (L : nat) : list Z :=
  firstn L (concat (map (hkdf_T id prk info) (seq 1 (cover (hash_output_size id) L)))).

(* RFC 8018, 5.2: U_1 = PRF(P, S | INT(i)), U_c = PRF(P, U_(c-1)), F = U_1 ^ ... ^ U_c *)
Fixpoint pbkdf2_U (id : hash_id) (P S : list Z) (i : Z) (c : nat) : list Z :=
  match c with O => rfc2104 id P (S ++ be_bytes 4 i) | Datatypes.S c => rfc2104 id P (pbkdf2_U id P S i c) end.
Fixpoint pbkdf2_F (id : hash_id) (P S : list Z) (i : Z) (c : nat) : list Z :=
  match c with O => pbkdf2_U id P S i 0 | Datatypes.S c' => map2 Z.lxor (pbkdf2_F id P S i c') (pbkdf2_U id P S i c) end.
(* c >= 1 iterations: U_1 .. U_c are pbkdf2_U 0 .. c-1 *)
Definition pbkdf2_dk (id : hash_id) (P S : list Z) (c : nat) (L : nat) : list Z :=
  firstn L (concat (map (fun i => pbkdf2_F id P S (Z.of_nat i) (c - 1)) (seq 1 (cover (hash_output_size id) L)))).

(* EVP_BytesToKey with one iteration: D_i = H(D_(i-1) | passwd | salt); the key and then the iv are taken off the front *)
Fixpoint eb2k_D (id : hash_id) (passwd salt : list Z) (i : nat) : list Z :=
  match i with O => [] | S j => H id (eb2k_D id passwd salt j ++ passwd ++ salt) end.
Definition eb2k_stream (id : hash_id) (passwd salt : list Z) (n : nat) : list Z := concat (map (eb2k_D id passwd salt) (seq 1 n)).

(* RFC 4880, 3.7.1: the i-th hash context is preloaded with i zero octets *)
Definition s2k (id : hash_id) (m : list Z) (L : nat) : list Z :=
  firstn L (concat (map (fun i => H id (repeat 0 i ++ m)) (seq 0 (cover (hash_output_size id) L)))).
(* 3.7.1.3: salt | passphrase repeated, max(count, whole) octets of it *)
Definition s2k_iterated (id : hash_id) (pass salt : list Z) (count L : nat) : list Z :=
  let n := Nat.max count (length (salt ++ pass)) in
  s2k id (firstn n (concat (repeat (salt ++ pass) n))) L.

(* RFC 7914 *)
Definition salsa20_8_core (b : list Z) : list Z :=
  let x := le_words 16 b in unwords (vadd x (of_rows (Nat.iter 4 sal_double (to_rows x)))).
Fixpoint mixes (X : list Z) (B : list (list Z)) : list (list Z) :=
  match B with [] => [] | b :: B => let X := salsa20_8_core (map2 Z.lxor X b) in X :: mixes X B end.
Fixpoint evens {A} (l : list A) : list A := match l with a :: _ :: l => a :: evens l | l => l end.
Definition odds {A} (l : list A) : list A := evens (tl l).
(* section 4: B is 2r blocks of 64 octets *)
Definition scryptBlockMix (B : list Z) : list Z :=
  let bl := blocks 64 B in
  let Y := mixes (last bl []) bl in concat (evens Y ++ odds Y).
(* section 5: Integerify is the little-endian value of the last 64-octet block *)
Definition Integerify (B : list Z) : Z := le_val (last (blocks 64 B) []).
Definition scryptROMix (B : list Z) (N : nat) : list Z :=
  let V j := Nat.iter j scryptBlockMix B in
  Nat.iter N (fun X => scryptBlockMix (map2 Z.lxor X (V (Z.to_nat (Integerify X mod Z.of_nat N))))) (V N).
(* section 6 *)
Definition scrypt (P S : list Z) (N r p dkLen : nat) : list Z :=
  let B := pbkdf2_dk SHA256 P S 1 (p * 128 * r) in
  pbkdf2_dk SHA256 P (concat (map (fun b => scryptROMix b N) (blocks (128 * r) B))) 1 dkLen.
