(* Stream cipher specifications: ARC4, ChaCha20 (RFC 8439 2.1-2.4, in row-vector
   form) and Salsa20 (Bernstein's matrix form), and keystreams by byte index. *)
From Verif.Base Require Import Prelude.

(* A keystream made of 64-byte blocks, and a segment of it *)
Definition ks_byte (block : nat -> list Z) (t : nat) : Z := nth (t mod 64) (block (t / 64)%nat) 0.
Definition ks_seg (block : nat -> list Z) (t n : nat) : list Z := map (fun i => ks_byte block (t + i)) (seq 0 n).

(* a sequence of calls on one context: the outputs, concatenated *)
Fixpoint calls {C : Type} (f : C -> list Z -> list Z * C) (c : C) (chunks : list (list Z)) : list Z * C :=
  match chunks with
  | [] => ([], c)
  | m :: t => let '(o, c) := f c m in let '(o', c) := calls f c t in (o ++ o', c)
  end.

(* little-endian words of a byte string, and back *)
Fixpoint le_words (n : nat) (s : list Z) : list Z :=
  match n with
  | O => []
  | S m => le_val (firstn 4 s) :: le_words m (skipn 4 s)
  end.
Definition unwords (w : list Z) : list Z := concat (map (le_bytes 4) w).

(* ---- ChaCha20 on four rows of four words ---- *)
Definition vadd := map2 add32.
Definition vxor := map2 Z.lxor.
Definition vrot (n : Z) := map (fun x => rotl32 x n).
Definition lrot (i : nat) (l : list Z) := skipn i l ++ firstn i l.

Definition rows := (list Z * list Z * list Z * list Z)%type.
Definition cha_round '((a, b, c, d) : rows) : rows :=
  let a := vadd a b in let d := vrot 16 (vxor d a) in
  let c := vadd c d in let b := vrot 12 (vxor b c) in
  let a := vadd a b in let d := vrot 8 (vxor d a) in
  let c := vadd c d in let b := vrot 7 (vxor b c) in
  (a, b, c, d).
Definition cha_diag '((a, b, c, d) : rows) : rows := (a, lrot 1 b, lrot 2 c, lrot 3 d).
Definition cha_undiag '((a, b, c, d) : rows) : rows := (a, lrot 3 b, lrot 2 c, lrot 1 d).
Definition cha_double (r : rows) : rows := cha_undiag (cha_round (cha_diag (cha_round r))).
Definition to_rows (x : list Z) : rows :=
  (firstn 4 x, firstn 4 (skipn 4 x), firstn 4 (skipn 8 x), skipn 12 x).
Definition of_rows '((a, b, c, d) : rows) : list Z := a ++ b ++ c ++ d.
Definition cha_perm (x : list Z) : list Z := of_rows (Nat.iter 10 cha_double (to_rows x)).
Definition cha_core (x : list Z) : list Z := unwords (vadd (cha_perm x) x).

(* "expand 32-byte k" / "expand 16-byte k" *)
Definition sigma : list Z := [0x61707865; 0x3320646e; 0x79622d32; 0x6b206574].
Definition tau : list Z := [0x61707865; 0x3120646e; 0x79622d36; 0x6b206574].
Definition key_words (key : list Z) : list Z :=
  if (length key =? 16)%nat then le_words 4 key ++ le_words 4 key else le_words 8 key.
Definition consts (key : list Z) : list Z := if (length key =? 16)%nat then tau else sigma.
Definition split64 (n : Z) : list Z := [n mod M32; n / M32 mod M32].

(* the block for a 64-bit counter and an 8-byte nonce (original ChaCha) *)
Definition cha_block64 (key nonce : list Z) (n : Z) : list Z :=
  cha_core (consts key ++ key_words key ++ split64 n ++ le_words 2 nonce).
(* the block for a 32-bit counter and a 12-byte nonce (RFC 8439) *)
Definition cha_block32 (key nonce : list Z) (n : Z) : list Z :=
  cha_core (consts key ++ key_words key ++ [n] ++ le_words 3 nonce).
(* HChaCha20 *)
Definition hchacha (key nonce16 : list Z) : list Z :=
  let x := cha_perm (consts key ++ key_words key ++ le_words 4 nonce16) in
  unwords (firstn 4 x ++ skipn 12 x).

(* ---- Salsa20 on a 4x4 matrix ---- *)
Definition sal_quarter (y : list Z) : list Z :=
  match y with
  | [y0; y1; y2; y3] =>
    let z1 := Z.lxor y1 (rotl32 (add32 y0 y3) 7) in
    let z2 := Z.lxor y2 (rotl32 (add32 z1 y0) 9) in
    let z3 := Z.lxor y3 (rotl32 (add32 z2 z1) 13) in
    let z0 := Z.lxor y0 (rotl32 (add32 z3 z2) 18) in
    [z0; z1; z2; z3]
  | _ => []
  end.
Definition transpose '((a, b, c, d) : rows) : rows :=
  let col i := [nth i a 0; nth i b 0; nth i c 0; nth i d 0] in (col 0, col 1, col 2, col 3)%nat.
Definition sal_row '((a, b, c, d) : rows) : rows :=
  (sal_quarter a, lrot 3 (sal_quarter (lrot 1 b)), lrot 2 (sal_quarter (lrot 2 c)), lrot 1 (sal_quarter (lrot 3 d))).
Definition sal_double (r : rows) : rows := sal_row (transpose (sal_row (transpose r))).
Definition sal_perm (x : list Z) : list Z := of_rows (Nat.iter 10 sal_double (to_rows x)).
Definition sal_core (x : list Z) : list Z := unwords (vadd (sal_perm x) x).
Definition sal_expand (key n4 : list Z) : list Z :=
  let k := key_words key in let c := consts key in
  [nth 0 c 0] ++ firstn 4 k ++ [nth 1 c 0] ++ n4 ++ [nth 2 c 0] ++ skipn 4 k ++ [nth 3 c 0].
Definition sal_block64 (key nonce : list Z) (n : Z) : list Z :=
  sal_core (sal_expand key (le_words 2 nonce ++ split64 n)).
Definition hsalsa (key nonce16 : list Z) : list Z :=
  let x := sal_perm (sal_expand key (le_words 4 nonce16)) in
  unwords [nth 0 x 0; nth 5 x 0; nth 10 x 0; nth 15 x 0; nth 6 x 0; nth 7 x 0; nth 8 x 0; nth 9 x 0].
