(* Model of Keccak: keccak_init, keccak_compress, keccak_transform, keccak_update and
   keccak_final (src/hash.c:770-1117). The unrolled assignments are tables, in source order. *)
From Verif.Base Require Import Prelude.
From Verif.Model Require Import Bio Block Encoding.

Definition kget (A : list Z) (i : nat) : Z := nth i A 0.

(* hash.c:793-806 *)
Definition keccak_RC : list Z :=
  [0x0000000000000001; 0x0000000000008082; 0x800000000000808a; 0x8000000080008000;
   0x000000000000808b; 0x0000000080000001; 0x8000000080008081; 0x8000000000008009;
   0x000000000000008a; 0x0000000000000088; 0x0000000080008009; 0x000000008000000a;
   0x000000008000808b; 0x800000000000008b; 0x8000000000008089; 0x8000000000008003;
   0x8000000000008002; 0x8000000000000080; 0x000000000000800a; 0x800000008000000a;
   0x8000000080008081; 0x8000000000008080; 0x0000000080000001; 0x8000000080008008].
(* Theta steps 1 and 2, hash.c:814-826 *)
Definition theta_C (A : list Z) : list Z :=
  map (fun x => Z.lxor (Z.lxor (Z.lxor (Z.lxor (kget A x) (kget A (x + 5))) (kget A (x + 10))) (kget A (x + 15))) (kget A (x + 20)))
    [0; 1; 2; 3; 4]%nat.
Definition theta_D (C : list Z) : list Z :=
  map (fun ij => Z.lxor (kget C (fst ij)) (rotl64 (kget C (snd ij)) 1)) [(4, 1); (0, 2); (1, 3); (2, 4); (3, 0)]%nat.
(* Theta step 3: A[i] ^= D[j], hash.c:829-853 *)
Definition theta_tab : list (nat * nat) :=
  [(0, 0); (1, 1); (2, 2); (3, 3); (4, 4); (5, 0); (6, 1); (7, 2); (8, 3); (9, 4); (10, 0); (11, 1); (12, 2); (13, 3); (14, 4); (15, 0); (16, 1); (17, 2); (18, 3); (19, 4); (20, 0); (21, 1); (22, 2); (23, 3); (24, 4)]%nat.
Definition k_theta (A : list Z) : list Z :=
  let D := theta_D (theta_C A) in
  fold_left (fun A ij => upd A (fst ij) (Z.lxor (kget A (fst ij)) (kget D (snd ij)))) theta_tab A.
(* Rho: A[i] = ROTL64(A[i], n), hash.c:856-879 *)
Definition rho_tab : list (nat * Z) :=
  [(1%nat, 1); (10%nat, 3); (7%nat, 6); (11%nat, 10); (17%nat, 15); (18%nat, 21); (3%nat, 28); (5%nat, 36); (16%nat, 45); (8%nat, 55); (21%nat, 2); (24%nat, 14); (4%nat, 27); (15%nat, 41); (23%nat, 56); (19%nat, 8); (13%nat, 25); (12%nat, 43); (2%nat, 62); (20%nat, 18); (14%nat, 39); (22%nat, 61); (9%nat, 20); (6%nat, 44)].
Definition k_rho (A : list Z) : list Z :=
  fold_left (fun A ir => upd A (fst ir) (rotl64 (kget A (fst ir)) (snd ir))) rho_tab A.
(* Pi: C[0] = A[1]; A[i] = A[j] ...; A[10] = C[0], hash.c:882-906 *)
Definition pi_tab : list (nat * nat) :=
  [(1, 6); (6, 9); (9, 22); (22, 14); (14, 20); (20, 2); (2, 12); (12, 13); (13, 19); (19, 23); (23, 15); (15, 4); (4, 24); (24, 21); (21, 8); (8, 16); (16, 5); (5, 3); (3, 18); (18, 17); (17, 11); (11, 7); (7, 10)]%nat.
Definition k_pi (A : list Z) : list Z :=
  let c0 := kget A 1 in
  upd (fold_left (fun A ij => upd A (fst ij) (kget A (snd ij))) pi_tab A) 10 c0.
(* Chi: for each row, C[x] = ~A[i] & A[j], then A[k] ^= C[x], hash.c:909-967 *)
Definition chi_tab : list (list (nat * nat * nat)) :=
  [[(0, 1, 2); (1, 2, 3); (2, 3, 4); (3, 4, 0); (4, 0, 1)];
   [(5, 6, 7); (6, 7, 8); (7, 8, 9); (8, 9, 5); (9, 5, 6)];
   [(10, 11, 12); (11, 12, 13); (12, 13, 14); (13, 14, 10); (14, 10, 11)];
   [(15, 16, 17); (16, 17, 18); (17, 18, 19); (18, 19, 15); (19, 15, 16)];
   [(20, 21, 22); (21, 22, 23); (22, 23, 24); (23, 24, 20); (24, 20, 21)]]%nat.
Definition k_chi_row (A : list Z) (row : list (nat * nat * nat)) : list Z :=
  let C := map (fun t => let '(_, i, j) := t in Z.land (not64 (kget A i)) (kget A j)) row in
  fold_left (fun A tc => let '(k, _, _) := fst tc in upd A k (Z.lxor (kget A k) (snd tc))) (combine row C) A.
Definition k_chi (A : list Z) : list Z := fold_left k_chi_row chi_tab A.
(* Iota, hash.c:970 *)
Definition k_iota (rc : Z) (A : list Z) : list Z := upd A 0 (Z.lxor (kget A 0) rc).
(* hash.c:791-974 *)
Definition keccak_round (A : list Z) (rc : Z) : list Z := k_iota rc (k_chi (k_pi (k_rho (k_theta A)))).
Definition keccak_compress (A : list Z) : list Z := fold_left keccak_round keccak_RC A.

(* keccak_t; bs in bytes. block is modelled with bs entries instead of 192 *)
Record keccak_t := MkKeccak { k_bs : nat; k_state : list Z; k_block : list Z; k_pos : nat; k_std : bool }.

(* hash.c:770-788; block is not initialised by the code: the model puts 0xcd there *)
Definition keccak_init (bits : Z) : outcome keccak_t :=
  let rate := w32 (1600 - w32 (bits * 2)) in
  if negb (32 <=? bits) then Abort
  else if negb (bits <=? 768) then Abort
  else if negb (Z.land rate 63 =? 0) then Abort
  else
    let bs := Z.to_nat (shr rate 3) in
    Ok (MkKeccak bs (repeat 0 25) (repeat 0xcd bs) 0
         ((bits =? 128) || (bits =? 160) || (bits =? 192) || (bits =? 224) || (bits =? 256) || (bits =? 384) || (bits =? 512))).

(* state[i] ^= read64le(chunk + 8 * i) for i < n *)
Definition keccak_xor (n : nat) (A chunk : list Z) : list Z :=
  fold_left (fun A i => upd A i (Z.lxor (kget A i) (read64le (skipn (i * 8) chunk)))) (seq 0 n) A.
(* hash.c:976-1033: lanes absorbed by the unrolled version *)
Definition keccak_lanes0 (bs : nat) : nat :=
  (if bs <? 104 then 9 else if bs <? 136 then 13 else if bs <? 144 then 17 else if bs <? 152 then 18
   else if bs <? 160 then 19 else if bs <? 168 then 20 else 21)%nat.
(* hash.c:1047-1054, 1035-1044 *)
Definition keccak_transform (bs : nat) (std : bool) (A chunk : list Z) : list Z :=
  keccak_compress (keccak_xor (if std then keccak_lanes0 bs else (bs / 8)%nat) A chunk).

(* hash.c:1056-1086 *)
Definition keccak_update (ctx : keccak_t) (raw : list Z) : keccak_t :=
  let '(st, block, pos) := buf_update (k_bs ctx) false (keccak_transform (k_bs ctx) (k_std ctx)) (k_state ctx) (k_block ctx) (k_pos ctx) raw in
  MkKeccak (k_bs ctx) st block pos (k_std ctx).

(* hash.c:1110-1116 *)
Definition keccak_out (A : list Z) (len : nat) : list Z :=
  let count := (len / 8)%nat in
  concat (map (fun i => write64le (kget A i)) (seq 0 count)) ++
  map (fun i => Z.land (shr (kget A (i / 8)) (8 * Z.of_nat (i mod 8))) 0xff) (seq (count * 8) (len - count * 8)).

(* hash.c:1088-1117 *)
Definition keccak_final (ctx : keccak_t) (pad : Z) (len : nat) : outcome (list Z) :=
  let pad := if pad =? 0 then 0x01 else pad in
  let len := if (len =? 0)%nat then (100 - k_bs ctx / 2)%nat else len in
  if negb (len <=? 200)%nat then Abort
  else
    let block := upd (k_block ctx) (k_pos ctx) (Z.land pad 0xff) in
    let block := fill block (k_pos ctx + 1) (k_bs ctx) 0 in
    let block := upd block (k_bs ctx - 1) (Z.lor (nth (k_bs ctx - 1) block 0) 0x80) in
    let st := keccak_transform (k_bs ctx) (k_std ctx) (k_state ctx) block in
    Ok (keccak_out st len).
