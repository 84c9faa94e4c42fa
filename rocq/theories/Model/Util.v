(* Model of src/util.c. *)
From Verif.Base Require Import Prelude.
From Verif.Model Require Import Bio.

(* util.c:63-68: the loop body over one pair of bytes *)
Definition memcmp_step (st : Z * Z) (a b : Z) : Z * Z :=
  let '(eq, lt) := st in
  let lt := Z.lor lt (Z.land eq (shr (sub32 a b) 31)) in
  let eq := Z.land eq (shr (sub32 (Z.lxor a b) 1) 31) in
  (eq, lt).

Fixpoint memcmp_loop (st : Z * Z) (x y : list Z) : Z * Z :=
  match x, y with
  | a :: x', b :: y' => memcmp_loop (memcmp_step st a b) x' y'
  | _, _ => st
  end.

(* util.c:54-71 torsion_memcmp; both buffers have n bytes *)
Definition torsion_memcmp (x y : list Z) : Z :=
  let '(eq, lt) := memcmp_loop (1, 0) x y in
  (1 - 2 * lt) * (1 - eq).

(* util.c:73-94 torsion_memcmp_var *)
Fixpoint torsion_memcmp_var (x y : list Z) : Z :=
  match x, y with
  | a :: x', b :: y' => if negb (a =? b) then a - b else torsion_memcmp_var x' y'
  | _, _ => 0
  end.

(* util.c:106-107 loop of torsion_memequal *)
Fixpoint memequal_loop (z : Z) (x y : list Z) : Z :=
  match x, y with
  | a :: x', b :: y' => memequal_loop (Z.lor z (Z.lxor a b)) x' y'
  | _, _ => z
  end.
(* util.c:100-110 torsion_memequal *)
Definition torsion_memequal (x y : list Z) : Z :=
  shr (sub32 (memequal_loop 0 x y) 1) 31.

(* util.c:116-123 torsion_memxor: returns the new contents of z (n bytes) *)
Fixpoint torsion_memxor (z x : list Z) : list Z :=
  match z, x with
  | a :: z', b :: x' => Z.lxor a b :: torsion_memxor z' x'
  | _, _ => []
  end.
(* util.c:125-133 torsion_memxor3: returns z *)
Fixpoint torsion_memxor3 (x y : list Z) : list Z :=
  match x, y with
  | a :: x', b :: y' => Z.lxor a b :: torsion_memxor3 x' y'
  | _, _ => []
  end.

Definition mur_c1 : Z := 0xcc9e2d51.
Definition mur_c2 : Z := 0x1b873593.

(* util.c:155-163: one 4-byte block *)
Definition murmur3_block (h1 : Z) (data : list Z) : Z :=
  let k1 := read32le data in
  let k1 := mul32 k1 mur_c1 in
  let k1 := rotl32 k1 15 in
  let k1 := mul32 k1 mur_c2 in
  let h1 := Z.lxor h1 k1 in
  let h1 := rotl32 h1 13 in
  add32 (mul32 h1 5) 0xe6546b64.

(* util.c:154-167: while (left >= 4); returns h1 and the remaining data *)
Fixpoint murmur3_loop (fuel : nat) (h1 : Z) (data : list Z) : Z * list Z :=
  match fuel with
  | O => (h1, data)
  | S f =>
    if (4 <=? length data)%nat
    then murmur3_loop f (murmur3_block h1 data) (skipn 4 data)
    else (h1, data)
  end.

(* util.c:171-182: switch with fall-through *)
Definition murmur3_tail (h1 : Z) (data : list Z) : Z :=
  let left := length data in
  let k1 := 0 in
  let k1 := if (left =? 3)%nat then Z.lxor k1 (shl32 (rd data 2) 16) else k1 in
  let k1 := if (2 <=? left)%nat then Z.lxor k1 (shl32 (rd data 1) 8) else k1 in
  if (1 <=? left)%nat then
    let k1 := Z.lxor k1 (shl32 (rd data 0) 0) in
    let k1 := mul32 k1 mur_c1 in
    let k1 := rotl32 k1 15 in
    let k1 := mul32 k1 mur_c2 in
    Z.lxor h1 k1
  else h1.

(* util.c:186-193: length mix and avalanche; h1 ^= len truncates to 32 bits *)
Definition murmur3_fin (h1 len : Z) : Z :=
  let h1 := w32 (Z.lxor h1 len) in
  let h1 := Z.lxor h1 (shr h1 16) in
  let h1 := mul32 h1 0x85ebca6b in
  let h1 := Z.lxor h1 (shr h1 13) in
  let h1 := mul32 h1 0xc2b2ae35 in
  Z.lxor h1 (shr h1 16).

(* util.c:143-194 murmur3_sum; the fuel length data is always enough *)
Definition murmur3_sum (data : list Z) (seed : Z) : Z :=
  let '(h1, rest) := murmur3_loop (length data) seed data in
  murmur3_fin (murmur3_tail h1 rest) (Z.of_nat (length data)).

(* util.c:196-201 murmur3_tweak *)
Definition murmur3_tweak (data : list Z) (n tweak : Z) : Z :=
  murmur3_sum data (add32 (mul32 n 0xfba4c795) tweak).
