(* Poly1305 (RFC 8439 2.5) and SipHash-2-4 (Aumasson, Bernstein 2012) *)
From Verif.Base Require Import Prelude.
From Verif.Spec Require Import BlockSpec.

(* ---- Poly1305 ---- *)
Definition p1305 : Z := 2 ^ 130 - 5.
(* r is the low half of the key with the clamped bits cleared *)
Definition clamp (key : list Z) : Z :=
  Z.land (le_val (firstn 16 key)) 0x0ffffffc0ffffffc0ffffffc0fffffff.
(* one block, with a 1 byte appended *)
Definition poly_step (r acc : Z) (b : list Z) : Z := ((acc + le_val (b ++ [1])) * r) mod p1305.
(* the 16-byte blocks of m, the last one possibly shorter *)
Definition poly_pieces (m : list Z) : list (list Z) :=
  blocks 16 m ++ (match leftover 16 m with [] => [] | t => [t] end).
Definition poly_acc (r : Z) (m : list Z) : Z := fold_left (poly_step r) (poly_pieces m) 0.
(* zeros up to a multiple of 16 *)
Definition pad16 (m : list Z) : list Z := repeat 0 ((16 - length m mod 16) mod 16).
Definition poly1305 (key m : list Z) : list Z :=
  le_bytes 16 (poly_acc (clamp key) m + le_val (firstn 16 (skipn 16 key))).

(* ---- SipHash-2-4 ---- *)
(* rotation of a 64-bit word *)
Definition rol (x n : Z) : Z := (x * 2 ^ n) mod 2 ^ 64 + x / 2 ^ (64 - n).
(* the round drawn as two half rounds, figure 2.1 of the paper *)
Definition sip_half (a b c d s t : Z) : Z * Z * Z * Z :=
  let a' := (a + b) mod 2 ^ 64 in
  let c' := (c + d) mod 2 ^ 64 in
  (rol a' 32, Z.lxor (rol b s) a', c', Z.lxor (rol d t) c').
Definition sip_rnd (v : Z * Z * Z * Z) : Z * Z * Z * Z :=
  let '(v0, v1, v2, v3) := v in
  let '(v0, v1, v2, v3) := sip_half v0 v1 v2 v3 13 16 in
  let '(v2, v1, v0, v3) := sip_half v2 v1 v0 v3 17 21 in
  (v0, v1, v2, v3).
Definition sip_compress (v : Z * Z * Z * Z) (m : Z) : Z * Z * Z * Z :=
  let '(v0, v1, v2, v3) := v in
  let '(v0, v1, v2, v3) := Nat.iter 2 sip_rnd (v0, v1, v2, Z.lxor v3 m) in
  (Z.lxor v0 m, v1, v2, v3).
Definition sip_finish (v : Z * Z * Z * Z) : Z :=
  let '(v0, v1, v2, v3) := v in
  let '(v0, v1, v2, v3) := Nat.iter 4 sip_rnd (v0, v1, Z.lxor v2 255, v3) in
  Z.lxor (Z.lxor v0 v1) (Z.lxor v2 v3).
(* "somepseudorandomlygeneratedbytes" *)
Definition sip_start (k0 k1 : Z) : Z * Z * Z * Z :=
  (Z.lxor k0 0x736f6d6570736575, Z.lxor k1 0x646f72616e646f6d,
   Z.lxor k0 0x6c7967656e657261, Z.lxor k1 0x7465646279746573).
(* pad with zeros to 8k - 1 bytes, then the length mod 256 *)
Definition sip_padded (m : list Z) : list Z :=
  m ++ repeat 0 (7 - length m mod 8) ++ [Z.of_nat (length m) mod 256].
Definition siphash24 (key m : list Z) : Z :=
  sip_finish (fold_left (fun v b => sip_compress v (le_val b)) (blocks 8 (sip_padded m))
    (sip_start (le_val (firstn 8 key)) (le_val (firstn 8 (skipn 8 key))))).
Example sip_spec_ex : siphash24 (zseq 0 16) (zseq 0 15) = 0xa129ca6149be45e5.
Proof. vm_compute. reflexivity. Qed.
