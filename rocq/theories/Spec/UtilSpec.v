(* Specifications for util.c, stated without the model. *)
From Verif.Base Require Import Prelude.

(* Lexicographic comparison of byte strings. *)
Fixpoint lex (x y : list Z) : comparison :=
  match x, y with
  | a :: x', b :: y' =>
      match a ?= b with Eq => lex x' y' | c => c end
  | [], [] => Eq
  | [], _ => Lt
  | _, [] => Gt
  end.

(* MurmurHash3_x86_32 as published: rotation as arithmetic on 32-bit values,
   blocks read little-endian, the tail mixed only when non-empty. *)
Definition rol (x n : Z) : Z := (x * 2 ^ n) mod 2 ^ 32 + x / 2 ^ (32 - n).

Definition mur_k (k : Z) : Z :=
  (rol ((k * 0xcc9e2d51) mod 2 ^ 32) 15 * 0x1b873593) mod 2 ^ 32.

Inductive mur_body : Z -> list Z -> Z -> Prop :=
| mur_block h b0 b1 b2 b3 rest h' :
    mur_body ((rol (Z.lxor h (mur_k (le_val [b0; b1; b2; b3]))) 13 * 5 + 0xe6546b64) mod 2 ^ 32)
             rest h' ->
    mur_body h (b0 :: b1 :: b2 :: b3 :: rest) h'
| mur_tail h t : (0 < length t < 4)%nat ->
    mur_body h t (Z.lxor h (mur_k (le_val t)))
| mur_nil h : mur_body h [] h.

Definition fmix32 (h : Z) : Z :=
  let h := Z.lxor h (h / 2 ^ 16) in
  let h := (h * 0x85ebca6b) mod 2 ^ 32 in
  let h := Z.lxor h (h / 2 ^ 13) in
  let h := (h * 0xc2b2ae35) mod 2 ^ 32 in
  Z.lxor h (h / 2 ^ 16).

Definition is_murmur3 (data : list Z) (seed r : Z) : Prop :=
  exists h, mur_body seed data h /\
    r = fmix32 (Z.lxor h (Z.of_nat (length data) mod 2 ^ 32)).
