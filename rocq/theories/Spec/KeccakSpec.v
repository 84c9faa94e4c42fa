(* FIPS 202: the permutation KECCAK-p[1600, 24], pad10*1 and the sponge. Section numbers refer to
   that document. A state is its 25 lanes, lane (x, y) at position x + 5 y; bits are 0 or 1. *)
From Verif.Base Require Import Prelude.
From Verif.Spec Require Import BlockSpec.

Definition lane (A : list Z) (x y : nat) : Z := nth (x mod 5 + 5 * (y mod 5)) A 0.
Definition from_lanes (f : nat -> nat -> Z) : list Z := map (fun i => f (i mod 5)%nat (i / 5)%nat) (seq 0 25).
(* rotation of a lane towards higher positions *)
Definition lrot (v n : Z) : Z := (v * 2 ^ n) mod 2 ^ 64 + v / 2 ^ (64 - n).

(* 3.2.1 *)
Definition column (A : list Z) (x : nat) : Z := fold_right Z.lxor 0 (map (lane A x) [0; 1; 2; 3; 4]%nat).
Definition theta (A : list Z) : list Z :=
  from_lanes (fun x y => Z.lxor (lane A x y) (Z.lxor (column A (x + 4)) (lrot (column A (x + 1)) 1))).
(* 3.2.2: the walk (x, y) := (y, 2x + 3y) from (1, 0); offset (t+1)(t+2)/2 at step t *)
Definition rho_walk : list (nat * nat) :=
  map (fun t => Nat.iter t (fun p => (snd p, (2 * fst p + 3 * snd p) mod 5)%nat) (1, 0)%nat) (seq 0 24).
Fixpoint rho_find (x y : nat) (t : Z) (w : list (nat * nat)) : Z :=
  match w with
  | [] => 0
  | p :: w' => if ((fst p =? x) && (snd p =? y))%nat then ((t + 1) * (t + 2) / 2) mod 64 else rho_find x y (t + 1) w'
  end.
Definition rho_offset (x y : nat) : Z := rho_find x y 0 rho_walk.
Definition rho (A : list Z) : list Z := from_lanes (fun x y => lrot (lane A x y) (rho_offset x y)).
(* 3.2.3 *)
Definition pi (A : list Z) : list Z := from_lanes (fun x y => lane A (x + 3 * y) x).
(* 3.2.4 *)
Definition chi (A : list Z) : list Z :=
  from_lanes (fun x y => Z.lxor (lane A x y) (Z.land (Z.lnot (lane A (x + 1) y)) (lane A (x + 2) y))).
(* 3.2.5: rc(t) from the shift register, RC[ir] *)
Definition lfsr_step (R : list Z) : list Z :=     (* R = [R0..R7] *)
  let R := 0 :: R in
  let r8 := nth 8 R 0 in
  firstn 8 (upd (upd (upd (upd R 0 (Z.lxor (nth 0 R 0) r8)) 4 (Z.lxor (nth 4 R 0) r8)) 5 (Z.lxor (nth 5 R 0) r8)) 6 (Z.lxor (nth 6 R 0) r8)).
Definition rc_bit (t : nat) : Z := nth 0 (Nat.iter (t mod 255) lfsr_step [1; 0; 0; 0; 0; 0; 0; 0]) 0.
Definition RC (ir : nat) : Z := fold_right Z.add 0 (map (fun j => rc_bit (j + 7 * ir) * 2 ^ (2 ^ Z.of_nat j - 1)) (seq 0 7)).
Definition iota (ir : nat) (A : list Z) : list Z :=
  from_lanes (fun x y => if ((x =? 0) && (y =? 0))%nat then Z.lxor (lane A x y) (RC ir) else lane A x y).
(* 3.3 *)
Definition rnd (A : list Z) (ir : nat) : list Z := iota ir (chi (pi (rho (theta A)))).
Definition keccak_f (A : list Z) : list Z := fold_left rnd (seq 0 24) A.

(* B.1: bit strings and bytes *)
Definition bits_of_bytes (m : list Z) : list Z := concat (map (digits 2 8) m).
Definition bytes_of_bits (l : list Z) : list Z := map (dval 2) (blocks 8 l).
(* 5.1: pad10*1(x, m) *)
Definition pad101 (x m : Z) : list Z := [1] ++ repeat 0 (Z.to_nat ((- m - 2) mod x)) ++ [1].
(* 4: SPONGE[keccak_f, pad10*1, r](N, d) with r = 8 R bits, d = 8 d' bits *)
Definition lanes_of (bs : list Z) : list Z := map (fun i => le_val (firstn 8 (skipn (8 * i) bs))) (seq 0 25).
Definition absorb_block (R : nat) (A blk : list Z) : list Z :=
  keccak_f (map2 Z.lxor A (lanes_of (blk ++ repeat 0 (200 - R)))).
Fixpoint squeeze (n : nat) (R : nat) (A : list Z) : list Z :=
  match n with
  | O => []
  | S n' => firstn R (concat (map (le_bytes 8) A)) ++ squeeze n' R (keccak_f A)
  end.
Definition sponge (R : nat) (N : list Z) (d : nat) : list Z :=
  let P := bytes_of_bits (N ++ pad101 (8 * Z.of_nat R) (Z.of_nat (length N))) in
  let A := fold_left (absorb_block R) (blocks R P) (repeat 0 25) in
  firstn d (squeeze (d / R + 1) R A).
(* 6: KECCAK[c](M || suffix, d), for M a byte string *)
Definition keccak_hash (R : nat) (suffix : list Z) (m : list Z) (d : nat) : list Z := sponge R (bits_of_bytes m ++ suffix) d.
