(* FIPS 180-4: SHA-1, SHA-224/256, SHA-384/512. Sections refer to that document. The constants
   are computed from their definitions (fractional parts of roots of primes). *)
From Verif.Base Require Import Prelude.
From Verif.Spec Require Import BlockSpec.

(* 4.1: the functions *)
Definition fch (x y z : Z) : Z := Z.lxor (Z.land x y) (Z.land (Z.lnot x) z).
Definition fparity (x y z : Z) : Z := Z.lxor (Z.lxor x y) z.
Definition fmaj (x y z : Z) : Z := Z.lxor (Z.lxor (Z.land x y) (Z.land x z)) (Z.land y z).
(* 3.2: ROTR^n and SHR^n on words of w bits *)
Definition rotr (w x n : Z) : Z := x / 2 ^ n + (x mod 2 ^ n) * 2 ^ (w - n).
Definition rotl (w x n : Z) : Z := rotr w x (w - n).
Definition sh (x n : Z) : Z := x / 2 ^ n.
(* the word size and the rotation amounts of one member of the SHA-2 family *)
Record sha2 := MkSha2 {
  s2_w : Z;                     (* bits per word *)
  s2_rounds : nat;
  s2_K : nat -> Z;
  s2_S0 : Z -> Z; s2_S1 : Z -> Z; s2_s0 : Z -> Z; s2_s1 : Z -> Z
}.
Definition xor3 (a b c : Z) : Z := Z.lxor (Z.lxor a b) c.

(* 4.2: constants *)
Definition is_prime (n : nat) : bool := forallb (fun d => negb (n mod d =? 0)%nat) (seq 2 (n - 2)).
Definition primes : list Z := Eval vm_compute in map Z.of_nat (filter is_prime (seq 2 408)).   (* the first eighty *)
(* floor of the cube root, for n < 2^(3 * k) *)
Fixpoint icbrt (k : nat) (n r : Z) : Z :=
  match k with
  | O => r
  | S k' => let r' := r + 2 ^ Z.of_nat k' in icbrt k' n (if r' ^ 3 <=? n then r' else r)
  end.
(* the first w bits of the fractional parts of the cube and square roots *)
Definition cbrt_frac (w : Z) (p : Z) : Z := icbrt 70 (p * 2 ^ (3 * w)) 0 mod 2 ^ w.
Definition sqrt_frac (w : Z) (p : Z) : Z := Z.sqrt (p * 2 ^ (2 * w)) mod 2 ^ w.
Definition K256_tab : list Z := Eval vm_compute in map (cbrt_frac 32) (firstn 64 primes).
Definition K512_tab : list Z := Eval vm_compute in map (cbrt_frac 64) (firstn 80 primes).
Definition fips256 : sha2 := MkSha2 32 64 (fun t => nth t K256_tab 0)
  (fun x => xor3 (rotr 32 x 2) (rotr 32 x 13) (rotr 32 x 22))
  (fun x => xor3 (rotr 32 x 6) (rotr 32 x 11) (rotr 32 x 25))
  (fun x => xor3 (rotr 32 x 7) (rotr 32 x 18) (sh x 3))
  (fun x => xor3 (rotr 32 x 17) (rotr 32 x 19) (sh x 10)).
Definition fips512 : sha2 := MkSha2 64 80 (fun t => nth t K512_tab 0)
  (fun x => xor3 (rotr 64 x 28) (rotr 64 x 34) (rotr 64 x 39))
  (fun x => xor3 (rotr 64 x 14) (rotr 64 x 18) (rotr 64 x 41))
  (fun x => xor3 (rotr 64 x 1) (rotr 64 x 8) (sh x 7))
  (fun x => xor3 (rotr 64 x 19) (rotr 64 x 61) (sh x 6)).

(* 5.3: initial hash values *)
Definition H256 : list Z := Eval vm_compute in map (sqrt_frac 32) (firstn 8 primes).
Definition H512 : list Z := Eval vm_compute in map (sqrt_frac 64) (firstn 8 primes).
Definition H384 : list Z := Eval vm_compute in map (sqrt_frac 64) (firstn 8 (skipn 8 primes)).
Definition H224 : list Z := Eval vm_compute in map (fun p => sqrt_frac 64 p mod 2 ^ 32) (firstn 8 (skipn 8 primes)).
Definition H1 : list Z := [0x67452301; 0xefcdab89; 0x98badcfe; 0x10325476; 0xc3d2e1f0].
(* 4.2.1: floor(2^30 sqrt n) *)
Definition K1_tab : list Z := Eval vm_compute in map (fun n => Z.sqrt (n * 2 ^ 60)) [2; 3; 5; 10].

(* 5.2: word i of a block, nb bytes per word *)
Definition bword (nb : nat) (M : list Z) (i : nat) : Z := be_val (firstn nb (skipn (i * nb) M)).

(* 6.2.2, 6.4.2 step 1: W_(t-1), ..., W_0 *)
Fixpoint sched2 (F : sha2) (M : list Z) (t : nat) : list Z :=
  match t with
  | O => []
  | S t' =>
    let W := sched2 F M t' in
    let wt :=
      if (t' <? 16)%nat then bword (Z.to_nat (s2_w F / 8)) M t'
      else (s2_s1 F (nth 1 W 0) + nth 6 W 0 + s2_s0 F (nth 14 W 0) + nth 15 W 0) mod 2 ^ s2_w F in
    wt :: W
  end.
(* steps 2 and 3: working variables a..h after t rounds *)
Definition vars2 : Type := Z * Z * Z * Z * Z * Z * Z * Z.
Definition round2 (F : sha2) (Kt Wt : Z) (v : vars2) : vars2 :=
  let '(a, b, c, d, e, f, g, h) := v in
  let T1 := h + s2_S1 F e + fch e f g + Kt + Wt in
  let T2 := s2_S0 F a + fmaj a b c in
  ((T1 + T2) mod 2 ^ s2_w F, a, b, c, (d + T1) mod 2 ^ s2_w F, e, f, g).
Fixpoint rounds2 (F : sha2) (M : list Z) (v : vars2) (t : nat) : vars2 :=
  match t with
  | O => v
  | S t' => round2 F (s2_K F t') (hd 0 (sched2 F M t)) (rounds2 F M v t')
  end.
Definition vars_of (H : list Z) : vars2 :=
  (nth 0 H 0, nth 1 H 0, nth 2 H 0, nth 3 H 0, nth 4 H 0, nth 5 H 0, nth 6 H 0, nth 7 H 0).
(* step 4 *)
Definition compress2 (F : sha2) (H M : list Z) : list Z :=
  let '(a, b, c, d, e, f, g, h) := rounds2 F M (vars_of H) (s2_rounds F) in
  map2 (fun x y => (x + y) mod 2 ^ s2_w F) [a; b; c; d; e; f; g; h] H.

(* 6.1.2: SHA-1 *)
Definition f1 (t : nat) : Z -> Z -> Z -> Z :=
  if (t <? 20)%nat then fch else if (t <? 40)%nat then fparity else if (t <? 60)%nat then fmaj else fparity.
Definition k1 (t : nat) : Z := nth (t / 20) K1_tab 0.
Fixpoint sched1 (M : list Z) (t : nat) : list Z :=
  match t with
  | O => []
  | S t' =>
    let W := sched1 M t' in
    let wt :=
      if (t' <? 16)%nat then bword 4 M t'
      else rotl 32 (Z.lxor (Z.lxor (Z.lxor (nth 2 W 0) (nth 7 W 0)) (nth 13 W 0)) (nth 15 W 0)) 1 in
    wt :: W
  end.
Definition vars1 : Type := Z * Z * Z * Z * Z.
Definition round1 (t : nat) (Wt : Z) (v : vars1) : vars1 :=
  let '(a, b, c, d, e) := v in
  ((rotl 32 a 5 + f1 t b c d + e + k1 t + Wt) mod 2 ^ 32, a, rotl 32 b 30, c, d).
Fixpoint rounds1 (M : list Z) (v : vars1) (t : nat) : vars1 :=
  match t with
  | O => v
  | S t' => round1 t' (hd 0 (sched1 M t)) (rounds1 M v t')
  end.
Definition compress1 (H M : list Z) : list Z :=
  let '(a, b, c, d, e) := rounds1 M (nth 0 H 0, nth 1 H 0, nth 2 H 0, nth 3 H 0, nth 4 H 0) 80 in
  map2 (fun x y => (x + y) mod 2 ^ 32) [a; b; c; d; e] H.

(* 5.1, 6.x: padding and iteration; L = bytes of a block before the length field *)
Definition md_zeros (B L n : nat) : nat := ((L + B - (n + 1) mod B) mod B)%nat.
Definition md_pad (B L : nat) (enc : nat -> Z -> list Z) (m : list Z) : list Z :=
  m ++ [0x80] ++ repeat 0 (md_zeros B L (length m)) ++ enc (B - L)%nat (8 * Z.of_nat (length m)).
Definition md_hash {S} (B L : nat) (enc : nat -> Z -> list Z) (tr : S -> list Z -> S) (iv : S) (m : list Z) : S :=
  fold_left tr (blocks B (md_pad B L enc m)) iv.
Definition words_out (nb : nat) (H : list Z) : list Z := concat (map (be_bytes nb) H).
Definition fips_sha1 (m : list Z) : list Z := words_out 4 (md_hash 64 56 be_bytes compress1 H1 m).
Definition fips_sha256 (m : list Z) : list Z := words_out 4 (md_hash 64 56 be_bytes (compress2 fips256) H256 m).
Definition fips_sha224 (m : list Z) : list Z := firstn 28 (words_out 4 (md_hash 64 56 be_bytes (compress2 fips256) H224 m)).
Definition fips_sha512 (m : list Z) : list Z := words_out 8 (md_hash 128 112 be_bytes (compress2 fips512) H512 m).
Definition fips_sha384 (m : list Z) : list Z := firstn 48 (words_out 8 (md_hash 128 112 be_bytes (compress2 fips512) H384 m)).
