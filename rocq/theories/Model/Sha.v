(* Model of sha1_transform, sha256_transform and sha512_transform (src/hash.c:1990-2156,
   2274-2427, 2549-2718). The local variables A, B, ... are a register file; each line
   R(...) of the source is one row of a table: the names in the order written, the round
   number and the constant. W is the array of sixteen words. *)
From Verif.Base Require Import Prelude.
From Verif.Model Require Import Bio.

(* the registers, by position in the register file *)
Definition rA := 0%nat. Definition rB := 1%nat. Definition rC := 2%nat. Definition rD := 3%nat.
Definition rE := 4%nat. Definition rF := 5%nat. Definition rG := 6%nat. Definition rH := 7%nat.
Definition get (r : list Z) (i : nat) : Z := nth i r 0.
(* W[(i - k) & 15] *)
Definition wref (W : list Z) (i k : Z) : Z := nth (Z.to_nat (Z.land (i - k) 15)) W 0.
Definition wset (W : list Z) (i w : Z) : list Z := upd W (Z.to_nat (Z.land i 15)) w.

(* ---- SHA-1 ---- *)
(* hash.c:2013-2016 *)
Definition F1 (x y z : Z) : Z := Z.lxor (Z.land x (Z.lxor y z)) z.
Definition F2 (x y z : Z) : Z := Z.lxor (Z.lxor x y) z.
Definition F3 (x y z : Z) : Z := Z.lor (Z.land x (Z.lor y z)) (Z.land y z).
Definition F4 (x y z : Z) : Z := Z.lxor (Z.lxor x y) z.
(* hash.c:2000-2003 *)
Definition K1 := 0x5a827999. Definition K2 := 0x6ed9eba1. Definition K3 := 0x8f1bbcdc. Definition K4 := 0xca62c1d6.
(* hash.c:2020-2021 *)
Definition sha1_WORD (W : list Z) (i : Z) : Z :=
  Z.lxor (Z.lxor (Z.lxor (wref W i 3) (wref W i 8)) (wref W i 14)) (wref W i 16).
(* hash.c:2043-2055 *)
Definition sha1_R (chunk : list Z) (row : (Z -> Z -> Z -> Z) * list nat * Z * Z) (s : list Z * list Z) : list Z * list Z :=
  let '(F, regs, i, k) := row in
  let '(r, W) := s in
  let a := nth 0 regs 0%nat in let b := nth 1 regs 0%nat in let c := nth 2 regs 0%nat in
  let d := nth 3 regs 0%nat in let e := nth 4 regs 0%nat in
  let w := if i <? 16 then read32be (skipn (Z.to_nat (i * 4)) chunk) else rotl32 (sha1_WORD W i) 1 in
  let W := wset W i w in
  let r := upd r e (add32 (get r e) (add32 (add32 (add32 (rotl32 (get r a) 5) (F (get r b) (get r c) (get r d))) w) k)) in
  let r := upd r b (rotl32 (get r b) 30) in
  (r, W).
(* hash.c:2057-2139 *)
Definition sha1_rows : list ((Z -> Z -> Z -> Z) * list nat * Z * Z) := [
  (F1, [rA; rB; rC; rD; rE], 0, K1);
  (F1, [rE; rA; rB; rC; rD], 1, K1);
  (F1, [rD; rE; rA; rB; rC], 2, K1);
  (F1, [rC; rD; rE; rA; rB], 3, K1);
  (F1, [rB; rC; rD; rE; rA], 4, K1);
  (F1, [rA; rB; rC; rD; rE], 5, K1);
  (F1, [rE; rA; rB; rC; rD], 6, K1);
  (F1, [rD; rE; rA; rB; rC], 7, K1);
  (F1, [rC; rD; rE; rA; rB], 8, K1);
  (F1, [rB; rC; rD; rE; rA], 9, K1);
  (F1, [rA; rB; rC; rD; rE], 10, K1);
  (F1, [rE; rA; rB; rC; rD], 11, K1);
  (F1, [rD; rE; rA; rB; rC], 12, K1);
  (F1, [rC; rD; rE; rA; rB], 13, K1);
  (F1, [rB; rC; rD; rE; rA], 14, K1);
  (F1, [rA; rB; rC; rD; rE], 15, K1);
  (F1, [rE; rA; rB; rC; rD], 16, K1);
  (F1, [rD; rE; rA; rB; rC], 17, K1);
  (F1, [rC; rD; rE; rA; rB], 18, K1);
  (F1, [rB; rC; rD; rE; rA], 19, K1);
  (F2, [rA; rB; rC; rD; rE], 20, K2);
  (F2, [rE; rA; rB; rC; rD], 21, K2);
  (F2, [rD; rE; rA; rB; rC], 22, K2);
  (F2, [rC; rD; rE; rA; rB], 23, K2);
  (F2, [rB; rC; rD; rE; rA], 24, K2);
  (F2, [rA; rB; rC; rD; rE], 25, K2);
  (F2, [rE; rA; rB; rC; rD], 26, K2);
  (F2, [rD; rE; rA; rB; rC], 27, K2);
  (F2, [rC; rD; rE; rA; rB], 28, K2);
  (F2, [rB; rC; rD; rE; rA], 29, K2);
  (F2, [rA; rB; rC; rD; rE], 30, K2);
  (F2, [rE; rA; rB; rC; rD], 31, K2);
  (F2, [rD; rE; rA; rB; rC], 32, K2);
  (F2, [rC; rD; rE; rA; rB], 33, K2);
  (F2, [rB; rC; rD; rE; rA], 34, K2);
  (F2, [rA; rB; rC; rD; rE], 35, K2);
  (F2, [rE; rA; rB; rC; rD], 36, K2);
  (F2, [rD; rE; rA; rB; rC], 37, K2);
  (F2, [rC; rD; rE; rA; rB], 38, K2);
  (F2, [rB; rC; rD; rE; rA], 39, K2);
  (F3, [rA; rB; rC; rD; rE], 40, K3);
  (F3, [rE; rA; rB; rC; rD], 41, K3);
  (F3, [rD; rE; rA; rB; rC], 42, K3);
  (F3, [rC; rD; rE; rA; rB], 43, K3);
  (F3, [rB; rC; rD; rE; rA], 44, K3);
  (F3, [rA; rB; rC; rD; rE], 45, K3);
  (F3, [rE; rA; rB; rC; rD], 46, K3);
  (F3, [rD; rE; rA; rB; rC], 47, K3);
  (F3, [rC; rD; rE; rA; rB], 48, K3);
  (F3, [rB; rC; rD; rE; rA], 49, K3);
  (F3, [rA; rB; rC; rD; rE], 50, K3);
  (F3, [rE; rA; rB; rC; rD], 51, K3);
  (F3, [rD; rE; rA; rB; rC], 52, K3);
  (F3, [rC; rD; rE; rA; rB], 53, K3);
  (F3, [rB; rC; rD; rE; rA], 54, K3);
  (F3, [rA; rB; rC; rD; rE], 55, K3);
  (F3, [rE; rA; rB; rC; rD], 56, K3);
  (F3, [rD; rE; rA; rB; rC], 57, K3);
  (F3, [rC; rD; rE; rA; rB], 58, K3);
  (F3, [rB; rC; rD; rE; rA], 59, K3);
  (F4, [rA; rB; rC; rD; rE], 60, K4);
  (F4, [rE; rA; rB; rC; rD], 61, K4);
  (F4, [rD; rE; rA; rB; rC], 62, K4);
  (F4, [rC; rD; rE; rA; rB], 63, K4);
  (F4, [rB; rC; rD; rE; rA], 64, K4);
  (F4, [rA; rB; rC; rD; rE], 65, K4);
  (F4, [rE; rA; rB; rC; rD], 66, K4);
  (F4, [rD; rE; rA; rB; rC], 67, K4);
  (F4, [rC; rD; rE; rA; rB], 68, K4);
  (F4, [rB; rC; rD; rE; rA], 69, K4);
  (F4, [rA; rB; rC; rD; rE], 70, K4);
  (F4, [rE; rA; rB; rC; rD], 71, K4);
  (F4, [rD; rE; rA; rB; rC], 72, K4);
  (F4, [rC; rD; rE; rA; rB], 73, K4);
  (F4, [rB; rC; rD; rE; rA], 74, K4);
  (F4, [rA; rB; rC; rD; rE], 75, K4);
  (F4, [rE; rA; rB; rC; rD], 76, K4);
  (F4, [rD; rE; rA; rB; rC], 77, K4);
  (F4, [rC; rD; rE; rA; rB], 78, K4);
  (F4, [rB; rC; rD; rE; rA], 79, K4)].
(* hash.c:1990-2156; W is not initialised by the code: every slot is written before it is read *)
Definition sha1_transform (st : list Z) (chunk : list Z) : list Z :=
  let '(r, _) := fold_left (fun s row => sha1_R chunk row s) sha1_rows (st, repeat 0 16) in
  map2 add32 st r.
(* hash.c:1980-1988 *)
Definition sha1_iv : list Z := [0x67452301; 0xefcdab89; 0x98badcfe; 0x10325476; 0xc3d2e1f0].

(* ---- SHA-256 ---- *)
(* hash.c:2295-2300 *)
Definition Ch (x y z : Z) : Z := Z.lxor (Z.land x (Z.lxor y z)) z.
Definition Maj (x y z : Z) : Z := Z.lor (Z.land x (Z.lor y z)) (Z.land y z).
Definition Sigma0_32 (x : Z) : Z := Z.lxor (Z.lxor (rotr32 x 2) (rotr32 x 13)) (rotr32 x 22).
Definition Sigma1_32 (x : Z) : Z := Z.lxor (Z.lxor (rotr32 x 6) (rotr32 x 11)) (rotr32 x 25).
Definition sigma0_32 (x : Z) : Z := Z.lxor (Z.lxor (rotr32 x 7) (rotr32 x 18)) (shr x 3).
Definition sigma1_32 (x : Z) : Z := Z.lxor (Z.lxor (rotr32 x 17) (rotr32 x 19)) (shr x 10).
(* hash.c:2304-2305 *)
Definition sha256_WORD (W : list Z) (i : Z) : Z :=
  add32 (add32 (add32 (sigma1_32 (wref W i 2)) (wref W i 7)) (sigma0_32 (wref W i 15))) (wref W i 16).
(* hash.c:2333-2344 *)
Definition sha256_R (chunk : list Z) (row : list nat * Z * Z) (s : list Z * list Z) : list Z * list Z :=
  let '(regs, i, k) := row in
  let '(r, W) := s in
  let a := nth 0 regs 0%nat in let b := nth 1 regs 0%nat in let c := nth 2 regs 0%nat in let d := nth 3 regs 0%nat in
  let e := nth 4 regs 0%nat in let f := nth 5 regs 0%nat in let g := nth 6 regs 0%nat in let h := nth 7 regs 0%nat in
  let w := if i <? 16 then read32be (skipn (Z.to_nat (i * 4)) chunk) else sha256_WORD W i in
  let W := wset W i w in
  let r := upd r h (add32 (get r h) (add32 (add32 (add32 (Sigma1_32 (get r e)) (Ch (get r e) (get r f) (get r g))) k) w)) in
  let r := upd r d (add32 (get r d) (get r h)) in
  let r := upd r h (add32 (get r h) (add32 (Sigma0_32 (get r a)) (Maj (get r a) (get r b) (get r c)))) in
  (r, W).
(* hash.c:2348-2411 *)
Definition sha256_rows : list (list nat * Z * Z) := [
  ([rA; rB; rC; rD; rE; rF; rG; rH], 0, 0x428a2f98);
  ([rH; rA; rB; rC; rD; rE; rF; rG], 1, 0x71374491);
  ([rG; rH; rA; rB; rC; rD; rE; rF], 2, 0xb5c0fbcf);
  ([rF; rG; rH; rA; rB; rC; rD; rE], 3, 0xe9b5dba5);
  ([rE; rF; rG; rH; rA; rB; rC; rD], 4, 0x3956c25b);
  ([rD; rE; rF; rG; rH; rA; rB; rC], 5, 0x59f111f1);
  ([rC; rD; rE; rF; rG; rH; rA; rB], 6, 0x923f82a4);
  ([rB; rC; rD; rE; rF; rG; rH; rA], 7, 0xab1c5ed5);
  ([rA; rB; rC; rD; rE; rF; rG; rH], 8, 0xd807aa98);
  ([rH; rA; rB; rC; rD; rE; rF; rG], 9, 0x12835b01);
  ([rG; rH; rA; rB; rC; rD; rE; rF], 10, 0x243185be);
  ([rF; rG; rH; rA; rB; rC; rD; rE], 11, 0x550c7dc3);
  ([rE; rF; rG; rH; rA; rB; rC; rD], 12, 0x72be5d74);
  ([rD; rE; rF; rG; rH; rA; rB; rC], 13, 0x80deb1fe);
  ([rC; rD; rE; rF; rG; rH; rA; rB], 14, 0x9bdc06a7);
  ([rB; rC; rD; rE; rF; rG; rH; rA], 15, 0xc19bf174);
  ([rA; rB; rC; rD; rE; rF; rG; rH], 16, 0xe49b69c1);
  ([rH; rA; rB; rC; rD; rE; rF; rG], 17, 0xefbe4786);
  ([rG; rH; rA; rB; rC; rD; rE; rF], 18, 0x0fc19dc6);
  ([rF; rG; rH; rA; rB; rC; rD; rE], 19, 0x240ca1cc);
  ([rE; rF; rG; rH; rA; rB; rC; rD], 20, 0x2de92c6f);
  ([rD; rE; rF; rG; rH; rA; rB; rC], 21, 0x4a7484aa);
  ([rC; rD; rE; rF; rG; rH; rA; rB], 22, 0x5cb0a9dc);
  ([rB; rC; rD; rE; rF; rG; rH; rA], 23, 0x76f988da);
  ([rA; rB; rC; rD; rE; rF; rG; rH], 24, 0x983e5152);
  ([rH; rA; rB; rC; rD; rE; rF; rG], 25, 0xa831c66d);
  ([rG; rH; rA; rB; rC; rD; rE; rF], 26, 0xb00327c8);
  ([rF; rG; rH; rA; rB; rC; rD; rE], 27, 0xbf597fc7);
  ([rE; rF; rG; rH; rA; rB; rC; rD], 28, 0xc6e00bf3);
  ([rD; rE; rF; rG; rH; rA; rB; rC], 29, 0xd5a79147);
  ([rC; rD; rE; rF; rG; rH; rA; rB], 30, 0x06ca6351);
  ([rB; rC; rD; rE; rF; rG; rH; rA], 31, 0x14292967);
  ([rA; rB; rC; rD; rE; rF; rG; rH], 32, 0x27b70a85);
  ([rH; rA; rB; rC; rD; rE; rF; rG], 33, 0x2e1b2138);
  ([rG; rH; rA; rB; rC; rD; rE; rF], 34, 0x4d2c6dfc);
  ([rF; rG; rH; rA; rB; rC; rD; rE], 35, 0x53380d13);
  ([rE; rF; rG; rH; rA; rB; rC; rD], 36, 0x650a7354);
  ([rD; rE; rF; rG; rH; rA; rB; rC], 37, 0x766a0abb);
  ([rC; rD; rE; rF; rG; rH; rA; rB], 38, 0x81c2c92e);
  ([rB; rC; rD; rE; rF; rG; rH; rA], 39, 0x92722c85);
  ([rA; rB; rC; rD; rE; rF; rG; rH], 40, 0xa2bfe8a1);
  ([rH; rA; rB; rC; rD; rE; rF; rG], 41, 0xa81a664b);
  ([rG; rH; rA; rB; rC; rD; rE; rF], 42, 0xc24b8b70);
  ([rF; rG; rH; rA; rB; rC; rD; rE], 43, 0xc76c51a3);
  ([rE; rF; rG; rH; rA; rB; rC; rD], 44, 0xd192e819);
  ([rD; rE; rF; rG; rH; rA; rB; rC], 45, 0xd6990624);
  ([rC; rD; rE; rF; rG; rH; rA; rB], 46, 0xf40e3585);
  ([rB; rC; rD; rE; rF; rG; rH; rA], 47, 0x106aa070);
  ([rA; rB; rC; rD; rE; rF; rG; rH], 48, 0x19a4c116);
  ([rH; rA; rB; rC; rD; rE; rF; rG], 49, 0x1e376c08);
  ([rG; rH; rA; rB; rC; rD; rE; rF], 50, 0x2748774c);
  ([rF; rG; rH; rA; rB; rC; rD; rE], 51, 0x34b0bcb5);
  ([rE; rF; rG; rH; rA; rB; rC; rD], 52, 0x391c0cb3);
  ([rD; rE; rF; rG; rH; rA; rB; rC], 53, 0x4ed8aa4a);
  ([rC; rD; rE; rF; rG; rH; rA; rB], 54, 0x5b9cca4f);
  ([rB; rC; rD; rE; rF; rG; rH; rA], 55, 0x682e6ff3);
  ([rA; rB; rC; rD; rE; rF; rG; rH], 56, 0x748f82ee);
  ([rH; rA; rB; rC; rD; rE; rF; rG], 57, 0x78a5636f);
  ([rG; rH; rA; rB; rC; rD; rE; rF], 58, 0x84c87814);
  ([rF; rG; rH; rA; rB; rC; rD; rE], 59, 0x8cc70208);
  ([rE; rF; rG; rH; rA; rB; rC; rD], 60, 0x90befffa);
  ([rD; rE; rF; rG; rH; rA; rB; rC], 61, 0xa4506ceb);
  ([rC; rD; rE; rF; rG; rH; rA; rB], 62, 0xbef9a3f7);
  ([rB; rC; rD; rE; rF; rG; rH; rA], 63, 0xc67178f2)].
(* hash.c:2274-2427 *)
Definition sha256_transform (st : list Z) (chunk : list Z) : list Z :=
  let '(r, _) := fold_left (fun s row => sha256_R chunk row s) sha256_rows (st, repeat 0 16) in
  map2 add32 st r.
(* hash.c:2261-2272 *)
Definition sha256_iv : list Z :=
  [0x6a09e667; 0xbb67ae85; 0x3c6ef372; 0xa54ff53a; 0x510e527f; 0x9b05688c; 0x1f83d9ab; 0x5be0cd19].
(* hash.c:2224-2235 *)
Definition sha224_iv : list Z :=
  [0xc1059ed8; 0x367cd507; 0x3070dd17; 0xf70e5939; 0xffc00b31; 0x68581511; 0x64f98fa7; 0xbefa4fa4].

(* ---- SHA-512 ---- *)
(* hash.c:2572-2575 *)
Definition Sigma0_64 (x : Z) : Z := Z.lxor (Z.lxor (rotr64 x 28) (rotr64 x 34)) (rotr64 x 39).
Definition Sigma1_64 (x : Z) : Z := Z.lxor (Z.lxor (rotr64 x 14) (rotr64 x 18)) (rotr64 x 41).
Definition sigma0_64 (x : Z) : Z := Z.lxor (Z.lxor (rotr64 x 1) (rotr64 x 8)) (shr x 7).
Definition sigma1_64 (x : Z) : Z := Z.lxor (Z.lxor (rotr64 x 19) (rotr64 x 61)) (shr x 6).
(* hash.c:2579-2580 *)
Definition sha512_WORD (W : list Z) (i : Z) : Z :=
  add64 (add64 (add64 (sigma1_64 (wref W i 2)) (wref W i 7)) (sigma0_64 (wref W i 15))) (wref W i 16).
(* hash.c:2608-2619 *)
Definition sha512_R (chunk : list Z) (row : list nat * Z * Z) (s : list Z * list Z) : list Z * list Z :=
  let '(regs, i, k) := row in
  let '(r, W) := s in
  let a := nth 0 regs 0%nat in let b := nth 1 regs 0%nat in let c := nth 2 regs 0%nat in let d := nth 3 regs 0%nat in
  let e := nth 4 regs 0%nat in let f := nth 5 regs 0%nat in let g := nth 6 regs 0%nat in let h := nth 7 regs 0%nat in
  let w := if i <? 16 then read64be (skipn (Z.to_nat (i * 8)) chunk) else sha512_WORD W i in
  let W := wset W i w in
  let r := upd r h (add64 (get r h) (add64 (add64 (add64 (Sigma1_64 (get r e)) (Ch (get r e) (get r f) (get r g))) k) w)) in
  let r := upd r d (add64 (get r d) (get r h)) in
  let r := upd r h (add64 (get r h) (add64 (Sigma0_64 (get r a)) (Maj (get r a) (get r b) (get r c)))) in
  (r, W).
(* hash.c:2623-2702 *)
Definition sha512_rows : list (list nat * Z * Z) := [
  ([rA; rB; rC; rD; rE; rF; rG; rH], 0, 0x428a2f98d728ae22);
  ([rH; rA; rB; rC; rD; rE; rF; rG], 1, 0x7137449123ef65cd);
  ([rG; rH; rA; rB; rC; rD; rE; rF], 2, 0xb5c0fbcfec4d3b2f);
  ([rF; rG; rH; rA; rB; rC; rD; rE], 3, 0xe9b5dba58189dbbc);
  ([rE; rF; rG; rH; rA; rB; rC; rD], 4, 0x3956c25bf348b538);
  ([rD; rE; rF; rG; rH; rA; rB; rC], 5, 0x59f111f1b605d019);
  ([rC; rD; rE; rF; rG; rH; rA; rB], 6, 0x923f82a4af194f9b);
  ([rB; rC; rD; rE; rF; rG; rH; rA], 7, 0xab1c5ed5da6d8118);
  ([rA; rB; rC; rD; rE; rF; rG; rH], 8, 0xd807aa98a3030242);
  ([rH; rA; rB; rC; rD; rE; rF; rG], 9, 0x12835b0145706fbe);
  ([rG; rH; rA; rB; rC; rD; rE; rF], 10, 0x243185be4ee4b28c);
  ([rF; rG; rH; rA; rB; rC; rD; rE], 11, 0x550c7dc3d5ffb4e2);
  ([rE; rF; rG; rH; rA; rB; rC; rD], 12, 0x72be5d74f27b896f);
  ([rD; rE; rF; rG; rH; rA; rB; rC], 13, 0x80deb1fe3b1696b1);
  ([rC; rD; rE; rF; rG; rH; rA; rB], 14, 0x9bdc06a725c71235);
  ([rB; rC; rD; rE; rF; rG; rH; rA], 15, 0xc19bf174cf692694);
  ([rA; rB; rC; rD; rE; rF; rG; rH], 16, 0xe49b69c19ef14ad2);
  ([rH; rA; rB; rC; rD; rE; rF; rG], 17, 0xefbe4786384f25e3);
  ([rG; rH; rA; rB; rC; rD; rE; rF], 18, 0x0fc19dc68b8cd5b5);
  ([rF; rG; rH; rA; rB; rC; rD; rE], 19, 0x240ca1cc77ac9c65);
  ([rE; rF; rG; rH; rA; rB; rC; rD], 20, 0x2de92c6f592b0275);
  ([rD; rE; rF; rG; rH; rA; rB; rC], 21, 0x4a7484aa6ea6e483);
  ([rC; rD; rE; rF; rG; rH; rA; rB], 22, 0x5cb0a9dcbd41fbd4);
  ([rB; rC; rD; rE; rF; rG; rH; rA], 23, 0x76f988da831153b5);
  ([rA; rB; rC; rD; rE; rF; rG; rH], 24, 0x983e5152ee66dfab);
  ([rH; rA; rB; rC; rD; rE; rF; rG], 25, 0xa831c66d2db43210);
  ([rG; rH; rA; rB; rC; rD; rE; rF], 26, 0xb00327c898fb213f);
  ([rF; rG; rH; rA; rB; rC; rD; rE], 27, 0xbf597fc7beef0ee4);
  ([rE; rF; rG; rH; rA; rB; rC; rD], 28, 0xc6e00bf33da88fc2);
  ([rD; rE; rF; rG; rH; rA; rB; rC], 29, 0xd5a79147930aa725);
  ([rC; rD; rE; rF; rG; rH; rA; rB], 30, 0x06ca6351e003826f);
  ([rB; rC; rD; rE; rF; rG; rH; rA], 31, 0x142929670a0e6e70);
  ([rA; rB; rC; rD; rE; rF; rG; rH], 32, 0x27b70a8546d22ffc);
  ([rH; rA; rB; rC; rD; rE; rF; rG], 33, 0x2e1b21385c26c926);
  ([rG; rH; rA; rB; rC; rD; rE; rF], 34, 0x4d2c6dfc5ac42aed);
  ([rF; rG; rH; rA; rB; rC; rD; rE], 35, 0x53380d139d95b3df);
  ([rE; rF; rG; rH; rA; rB; rC; rD], 36, 0x650a73548baf63de);
  ([rD; rE; rF; rG; rH; rA; rB; rC], 37, 0x766a0abb3c77b2a8);
  ([rC; rD; rE; rF; rG; rH; rA; rB], 38, 0x81c2c92e47edaee6);
  ([rB; rC; rD; rE; rF; rG; rH; rA], 39, 0x92722c851482353b);
  ([rA; rB; rC; rD; rE; rF; rG; rH], 40, 0xa2bfe8a14cf10364);
  ([rH; rA; rB; rC; rD; rE; rF; rG], 41, 0xa81a664bbc423001);
  ([rG; rH; rA; rB; rC; rD; rE; rF], 42, 0xc24b8b70d0f89791);
  ([rF; rG; rH; rA; rB; rC; rD; rE], 43, 0xc76c51a30654be30);
  ([rE; rF; rG; rH; rA; rB; rC; rD], 44, 0xd192e819d6ef5218);
  ([rD; rE; rF; rG; rH; rA; rB; rC], 45, 0xd69906245565a910);
  ([rC; rD; rE; rF; rG; rH; rA; rB], 46, 0xf40e35855771202a);
  ([rB; rC; rD; rE; rF; rG; rH; rA], 47, 0x106aa07032bbd1b8);
  ([rA; rB; rC; rD; rE; rF; rG; rH], 48, 0x19a4c116b8d2d0c8);
  ([rH; rA; rB; rC; rD; rE; rF; rG], 49, 0x1e376c085141ab53);
  ([rG; rH; rA; rB; rC; rD; rE; rF], 50, 0x2748774cdf8eeb99);
  ([rF; rG; rH; rA; rB; rC; rD; rE], 51, 0x34b0bcb5e19b48a8);
  ([rE; rF; rG; rH; rA; rB; rC; rD], 52, 0x391c0cb3c5c95a63);
  ([rD; rE; rF; rG; rH; rA; rB; rC], 53, 0x4ed8aa4ae3418acb);
  ([rC; rD; rE; rF; rG; rH; rA; rB], 54, 0x5b9cca4f7763e373);
  ([rB; rC; rD; rE; rF; rG; rH; rA], 55, 0x682e6ff3d6b2b8a3);
  ([rA; rB; rC; rD; rE; rF; rG; rH], 56, 0x748f82ee5defb2fc);
  ([rH; rA; rB; rC; rD; rE; rF; rG], 57, 0x78a5636f43172f60);
  ([rG; rH; rA; rB; rC; rD; rE; rF], 58, 0x84c87814a1f0ab72);
  ([rF; rG; rH; rA; rB; rC; rD; rE], 59, 0x8cc702081a6439ec);
  ([rE; rF; rG; rH; rA; rB; rC; rD], 60, 0x90befffa23631e28);
  ([rD; rE; rF; rG; rH; rA; rB; rC], 61, 0xa4506cebde82bde9);
  ([rC; rD; rE; rF; rG; rH; rA; rB], 62, 0xbef9a3f7b2c67915);
  ([rB; rC; rD; rE; rF; rG; rH; rA], 63, 0xc67178f2e372532b);
  ([rA; rB; rC; rD; rE; rF; rG; rH], 64, 0xca273eceea26619c);
  ([rH; rA; rB; rC; rD; rE; rF; rG], 65, 0xd186b8c721c0c207);
  ([rG; rH; rA; rB; rC; rD; rE; rF], 66, 0xeada7dd6cde0eb1e);
  ([rF; rG; rH; rA; rB; rC; rD; rE], 67, 0xf57d4f7fee6ed178);
  ([rE; rF; rG; rH; rA; rB; rC; rD], 68, 0x06f067aa72176fba);
  ([rD; rE; rF; rG; rH; rA; rB; rC], 69, 0x0a637dc5a2c898a6);
  ([rC; rD; rE; rF; rG; rH; rA; rB], 70, 0x113f9804bef90dae);
  ([rB; rC; rD; rE; rF; rG; rH; rA], 71, 0x1b710b35131c471b);
  ([rA; rB; rC; rD; rE; rF; rG; rH], 72, 0x28db77f523047d84);
  ([rH; rA; rB; rC; rD; rE; rF; rG], 73, 0x32caab7b40c72493);
  ([rG; rH; rA; rB; rC; rD; rE; rF], 74, 0x3c9ebe0a15c9bebc);
  ([rF; rG; rH; rA; rB; rC; rD; rE], 75, 0x431d67c49c100d4c);
  ([rE; rF; rG; rH; rA; rB; rC; rD], 76, 0x4cc5d4becb3e42b6);
  ([rD; rE; rF; rG; rH; rA; rB; rC], 77, 0x597f299cfc657e2a);
  ([rC; rD; rE; rF; rG; rH; rA; rB], 78, 0x5fcb6fab3ad6faec);
  ([rB; rC; rD; rE; rF; rG; rH; rA], 79, 0x6c44198c4a475817)].
(* hash.c:2549-2718 *)
Definition sha512_transform (st : list Z) (chunk : list Z) : list Z :=
  let '(r, _) := fold_left (fun s row => sha512_R chunk row s) sha512_rows (st, repeat 0 16) in
  map2 add64 st r.
(* hash.c:2534-2547 *)
Definition sha512_iv : list Z :=
  [0x6a09e667f3bcc908; 0xbb67ae8584caa73b; 0x3c6ef372fe94f82b; 0xa54ff53a5f1d36f1;
   0x510e527fade682d1; 0x9b05688c2b3e6c1f; 0x1f83d9abfb41bd6b; 0x5be0cd19137e2179].
(* hash.c:2495-2508 *)
Definition sha384_iv : list Z :=
  [0xcbbb9d5dc1059ed8; 0x629a292a367cd507; 0x9159015a3070dd17; 0x152fecd8f70e5939;
   0x67332667ffc00b31; 0x8eb44a8768581511; 0xdb0c2e0d64f98fa7; 0x47b5481dbefa4fa4].
