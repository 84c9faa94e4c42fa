(* RFC 4648 and base58, stated arithmetically and without the model. *)
From Verif.Base Require Import Prelude.

(* n base-B digits of x, most significant first *)
Definition bedig (B : Z) (n : nat) (x : Z) : list Z := rev (digits B n x).

(* The bytes, read as one big-endian number, are extended with zero bits to a
   multiple of k bits and written as base-2^k digits. *)
Definition rfc4648_digits (k : Z) (b : list Z) : list Z :=
  let bits := 8 * Z.of_nat (length b) in
  let n := (bits + k - 1) / k in
  bedig (2 ^ k) (Z.to_nat n) (be_val b * 2 ^ (k * n - bits)).

(* '=' (61) until the length is a multiple of blk *)
Definition pad_eq (blk : nat) (s : list Z) : list Z :=
  s ++ repeat 61 ((blk - length s mod blk) mod blk)%nat.

(* alphabets *)
Definition alpha16 := zseq 48 10 ++ zseq 97 6.
Definition alpha32 := zseq 97 26 ++ zseq 50 6.
Definition alpha32hex := zseq 48 10 ++ zseq 97 22.
Definition alpha64 := zseq 65 26 ++ zseq 97 26 ++ zseq 48 10 ++ [43; 47].
Definition alpha64url := zseq 65 26 ++ zseq 97 26 ++ zseq 48 10 ++ [45; 95].
(* 1-9 A-H J-N P-Z a-k m-z *)
Definition alpha58 := zseq 49 9 ++ zseq 65 8 ++ zseq 74 5 ++ zseq 80 11 ++ zseq 97 11 ++ zseq 109 14.

Definition sym (alpha : list Z) (d : Z) : Z := nth (Z.to_nat d) alpha 0.

Definition rfc4648 (k : Z) (alpha : list Z) (b : list Z) : list Z :=
  map (sym alpha) (rfc4648_digits k b).

(* ASCII lower case *)
Definition lower (c : Z) : Z := if (65 <=? c) && (c <=? 90) then c + 32 else c.

(* base58: z zero bytes become z ones, the rest is the same number written in
   base 58 and in base 256, both without leading zeros. *)
Definition no_lead0 (l : list Z) : Prop := match l with [] => True | d :: _ => d <> 0 end.

Definition is_base58 (b s : list Z) : Prop :=
  exists (z : nat) (rest ds : list Z),
    b = repeat 0 z ++ rest /\ s = repeat 49 z ++ map (sym alpha58) ds /\
    bytes rest /\ no_lead0 rest /\
    Forall (below 58) ds /\ no_lead0 ds /\
    dval 256 (rev rest) = dval 58 (rev ds).
