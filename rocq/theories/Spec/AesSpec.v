(* FIPS-197: the Advanced Encryption Standard on lists of bytes. The state is the
   sixteen bytes of the block in order, so byte r + 4c is row r of column c. *)
From Verif.Base Require Import Prelude.

(* 4.2: GF(2^8) modulo x^8 + x^4 + x^3 + x + 1 *)
Definition xtime (x : Z) : Z := if x <? 128 then 2 * x else Z.lxor (2 * x) 0x11b.
Fixpoint gmul_fuel (n : nat) (c x : Z) : Z :=
  match n with
  | O => 0
  | S m => Z.lxor (if Z.odd c then x else 0) (gmul_fuel m (c / 2) (xtime x))
  end.
Definition gmul (c x : Z) : Z := gmul_fuel 8 c x.
(* x^254, which is the inverse of x, or 0 for 0 *)
Definition gsq (x : Z) : Z := gmul x x.
Definition ginv (x : Z) : Z :=
  let x2 := gsq x in let x4 := gsq x2 in let x8 := gsq x4 in let x16 := gsq x8 in
  let x32 := gsq x16 in let x64 := gsq x32 in let x128 := gsq x64 in
  gmul x2 (gmul x4 (gmul x8 (gmul x16 (gmul x32 (gmul x64 x128))))).
(* 5.1.1: the affine transformation b_i + b_(i+4) + b_(i+5) + b_(i+6) + b_(i+7) + c_i *)
Definition rol8 (x n : Z) : Z := (x * 2 ^ n) mod 256 + x / 2 ^ (8 - n).
Definition sbox (x : Z) : Z :=
  let b := ginv x in
  Z.lxor (Z.lxor (Z.lxor (Z.lxor (Z.lxor b (rol8 b 1)) (rol8 b 2)) (rol8 b 3)) (rol8 b 4)) 0x63.
(* 5.3.2: the inverse substitution: b_(i+2) + b_(i+5) + b_(i+7) + d_i, then the inverse *)
Definition inv_sbox (y : Z) : Z := ginv (Z.lxor (Z.lxor (Z.lxor (rol8 y 1) (rol8 y 3)) (rol8 y 6)) 0x05).

(* 5.1 *)
Definition sub_bytes (s : list Z) : list Z := map sbox s.
Definition shift_rows (s : list Z) : list Z := map (fun i => nth (i mod 4 + 4 * ((i / 4 + i mod 4) mod 4)) s 0) (seq 0 16).
Definition mix_column (c : list Z) : list Z :=
  let '(a, b, c, d) := (nth 0 c 0, nth 1 c 0, nth 2 c 0, nth 3 c 0) in
  let m4 x y z t := Z.lxor (Z.lxor (Z.lxor x y) z) t in
  [m4 (gmul 2 a) (gmul 3 b) c d; m4 a (gmul 2 b) (gmul 3 c) d;
   m4 a b (gmul 2 c) (gmul 3 d); m4 (gmul 3 a) b c (gmul 2 d)].
Definition columns (f : list Z -> list Z) (s : list Z) : list Z :=
  concat (map (fun c => f (firstn 4 (skipn (4 * c) s))) (seq 0 4)).
Definition mix_columns := columns mix_column.
Definition add_round_key (s k : list Z) : list Z := xorl s k.

(* 5.2: a word is a list of four bytes *)
Definition sub_word (w : list Z) : list Z := map sbox w.
Definition rot_word (w : list Z) : list Z := skipn 1 w ++ firstn 1 w.
Definition rcon (i : nat) : list Z := [Nat.iter (i - 1) xtime 1; 0; 0; 0].
Definition key_step (nk : nat) (w : list (list Z)) (i : nat) : list (list Z) :=
  let prev := nth (i - 1) w [] in
  let temp := if (i mod nk =? 0)%nat then xorl (sub_word (rot_word prev)) (rcon (i / nk))
              else if (6 <? nk)%nat && (i mod nk =? 4)%nat then sub_word prev else prev in
  w ++ [xorl (nth (i - nk) w []) temp].
Definition key_words (nk : nat) (key : list Z) : list (list Z) := map (fun i => firstn 4 (skipn (4 * i) key)) (seq 0 nk).
Definition key_expansion (nk nr : nat) (key : list Z) : list (list Z) :=
  fold_left (key_step nk) (seq nk (4 * (nr + 1) - nk)) (key_words nk key).
Definition round_key (w : list (list Z)) (r : nat) : list Z := concat (firstn 4 (skipn (4 * r) w)).

(* 5.1 Cipher *)
Definition fips_round (w : list (list Z)) (s : list Z) (r : nat) : list Z :=
  add_round_key (mix_columns (shift_rows (sub_bytes s))) (round_key w r).
Definition fips_cipher (nr : nat) (w : list (list Z)) (inp : list Z) : list Z :=
  let s := add_round_key inp (round_key w 0) in
  let s := fold_left (fips_round w) (seq 1 (nr - 1)) s in
  add_round_key (shift_rows (sub_bytes s)) (round_key w nr).

(* 5.3 InvCipher *)
Definition inv_sub_bytes (s : list Z) : list Z := map inv_sbox s.
Definition inv_shift_rows (s : list Z) : list Z := map (fun i => nth (i mod 4 + 4 * ((i / 4 + 4 - i mod 4) mod 4)) s 0) (seq 0 16).
Definition inv_mix_column (c : list Z) : list Z :=
  let '(a, b, c, d) := (nth 0 c 0, nth 1 c 0, nth 2 c 0, nth 3 c 0) in
  let m4 x y z t := Z.lxor (Z.lxor (Z.lxor x y) z) t in
  [m4 (gmul 14 a) (gmul 11 b) (gmul 13 c) (gmul 9 d); m4 (gmul 9 a) (gmul 14 b) (gmul 11 c) (gmul 13 d);
   m4 (gmul 13 a) (gmul 9 b) (gmul 14 c) (gmul 11 d); m4 (gmul 11 a) (gmul 13 b) (gmul 9 c) (gmul 14 d)].
Definition inv_mix_columns := columns inv_mix_column.
Definition fips_inv_round (w : list (list Z)) (s : list Z) (r : nat) : list Z :=
  inv_mix_columns (add_round_key (inv_sub_bytes (inv_shift_rows s)) (round_key w r)).
Definition fips_inv_cipher (nr : nat) (w : list (list Z)) (inp : list Z) : list Z :=
  let s := add_round_key inp (round_key w nr) in
  let s := fold_left (fips_inv_round w) (rev (seq 1 (nr - 1))) s in
  add_round_key (inv_sub_bytes (inv_shift_rows s)) (round_key w 0).

(* the rounds for a key of nk words (table of section 5) *)
Definition nr_of (nk : nat) : nat := nk + 6.

(* appendix A.1, first and last derived words *)
Example key_expansion_ex :
  let w := key_expansion 4 10 [0x2b;0x7e;0x15;0x16;0x28;0xae;0xd2;0xa6;0xab;0xf7;0x15;0x88;0x09;0xcf;0x4f;0x3c] in
  length w = 44%nat /\ nth 4 w [] = [0xa0;0xfa;0xfe;0x17] /\ nth 43 w [] = [0xb6;0x63;0x0c;0xa6].
Proof. vm_compute. auto. Qed.
