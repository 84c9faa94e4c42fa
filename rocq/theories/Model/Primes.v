(* Square roots modulo primes, primality tests and combinatorial functions (src/mpi.c), on integer values;
   see Model/NumTheory.v for the representation. mpz_powm is represented by Zpow_mod, which
   Props/MpnModProps.v (C54_powm) shows to be what it computes for a positive odd modulus. *)
From Coq Require Import Zpow_facts.
From Verif.Base Require Import Prelude.
From Verif.Model Require Import Encoding MpnMod NumTheory.

(* mpi.c:7883-7915 *)
Definition sqrtm_3mod4 (x p : Z) : option Z :=
  let b := Zpow_mod x (Z.shiftr (p + 1) 2) p in
  if (b * b) mod p =? x then Some b else None.
(* mpi.c:7917-7967 *)
Definition sqrtm_5mod8 (x p : Z) : option Z :=
  let t := (2 * x) mod p in
  let a := Zpow_mod t (Z.shiftr p 3) p in
  let b := (a * a) mod p in
  let b := (b * t) mod p - 1 in
  let b := (b * x) mod p in
  let b := (b * a) mod p in
  if (b * b) mod p =? x then Some b else None.
Definition jac (x p : Z) : option Z := match mpz_jacobi x p with Ok r => r | _ => None end.
(* mpi.c:8006-8010: the first n from 2 on with jacobi -1 *)
Definition nonres_step (p : Z) (n : Z) : Z + option Z :=
  match jac n p with Some j => if j =? -1 then inr (Some n) else inl (n + 1) | None => inr None end.
(* mpi.c:8033-8038: square t until it is 1; (t, m) *)
Definition order_step (p : Z) (tm : Z * Z) : Z * Z + Z :=
  let '(t, m) := tm in if t =? 1 then inr m else inl ((t * t) mod p, m + 1).
(* mpi.c:8051-8054 *)
Definition sqrs (p : Z) (n : Z) (t : Z) : Z := Nat.iter (Z.to_nat n) (fun t => (t * t) mod p) t.
(* mpi.c:8026-8069: state (y, b, g, k); the inner option is the return value. ob bounds the inner loop. *)
Definition ts_step (p : Z) (ob : positive) (s : Z * Z * Z * Z) : Z * Z * Z * Z + option (option Z) :=
  let '(y, b, g, k) := s in
  match until ob (order_step p) (b, 0) with
  | inl _ => inr None
  | inr m =>
    if m =? 0 then inr (Some (Some y))
    else if k <=? m then inr (Some None)
    else
      let t := sqrs p (k - m - 1) g in
      let g := (t * t) mod p in
      inl ((y * t) mod p, (b * g) mod p, g, m)
  end.
(* mpi.c:7969-8088; None is "still looping", after the given numbers of steps *)
Definition sqrtm_0 (nb ob : positive) (x p : Z) : option (option Z) :=
  if p =? 1 then Some None
  else match jac x p with
  | None => None
  | Some j =>
    if j =? -1 then Some None
    else if j =? 0 then Some (Some 0)
    else
      let s := p - 1 in
      let e := ctz s in
      let s := Z.shiftr s e in
      match until nb (nonres_step p) 2 with
      | inr (Some n) =>
        let y := Zpow_mod x (Z.shiftr (s + 1) 1) p in
        let b := Zpow_mod x s p in
        let g := Zpow_mod n s p in
        match until (Z.to_pos (e + 1)) (ts_step p ob) (y, b, g, e) with
        | inr r => r
        | inl _ => None
        end
      | _ => None
      end
  end.
(* mpi.c:8090-8117 *)
Definition mpz_sqrtm (nb ob : positive) (x p : Z) : option (option Z) :=
  if (p <=? 0) || Z.even p then Some None
  else
    let t := x mod p in
    if p mod 4 =? 3 then Some (sqrtm_3mod4 t p)
    else if p mod 8 =? 5 then Some (sqrtm_5mod8 t p)
    else sqrtm_0 nb ob t p.
(* mpi.c:8119-8175 *)
Definition mpz_sqrtpq (nb ob : positive) (x p q : Z) : option (option Z) :=
  match mpz_sqrtm nb ob x p with
  | None => None
  | Some None => Some None
  | Some (Some sp) =>
    match mpz_sqrtm nb ob x q with
    | None => None
    | Some None => Some None
    | Some (Some sq) =>
      match mpz_gcdext p q with
      | None => None
      | Some (_, mp, mq) =>
        let n := p * q in
        let u := (sq * mp) mod n in
        let u := (u * p) mod n in
        let v := (sp * mq) mod n in
        let v := (v * q) mod n in
        Some (Some ((u + v) mod n))
      end
    end
  end.

(* mpi.c:8545-8561: j counts the remaining squarings *)
Fixpoint mr_loop (n : Z) (j : nat) (y : Z) : bool :=
  match j with
  | O => false
  | S j =>
    let y := (y * y) mod n in
    if y =? n - 1 then true else if y =? 1 then false else mr_loop n j y
  end.
(* mpi.c:8529-8563: one round for the base x *)
Definition mr_round (n k q x : Z) : bool :=
  let y := Zpow_mod x q n in
  if (y =? 1) || (y =? n - 1) then true else mr_loop n (Z.to_nat (k - 1)) y.
(* mpi.c:8486-8577; rng i is the value mpz_urandomm returns below n - 3 in round i *)
Definition mr_prime (n : Z) (reps : nat) (force2 : bool) (rng : nat -> Z) : bool :=
  if n <? 2 then false
  else if Z.even n then n =? 2
  else if n <=? 7 then true
  else
    let k := ctz (n - 1) in
    let q := Z.shiftr (n - 1) k in
    forallb (fun i => mr_round n k q (if Nat.eqb i (reps - 1) && force2 then 2 else rng i + 2)) (seq 0 reps).

(* mpi.c:8630-8669: the parameter search; inr None is "fail", inr (Some None) "succeed" *)
Definition lucas_param (n limit : Z) (p : Z) : Z + option (option Z) :=
  if 10000 <? p then inr None
  else if negb (limit =? 0) && (limit <? p) then inr None
  else match jac (p * p - 4) n with
  | None => inr None
  | Some j =>
    if j =? -1 then inr (Some (Some p))
    else if j =? 0 then inr (if n =? p + 2 then Some None else None)
    else if (p =? 40) && match mpz_perfect_square_p n with Some b => b | None => true end then inr None
    else inl (p + 1)
  end.
(* mpi.c:8689-8711 *)
Definition lucas_bit (n p s : Z) (v : Z * Z) (i : Z) : Z * Z :=
  let '(vk, vk1) := v in
  if Z.testbit s i then ((vk * vk1 - p) mod n, (vk1 * vk1 - 2) mod n)
  else ((vk * vk - 2) mod n, (vk1 * vk - p) mod n).
(* mpi.c:8727-8737 *)
Fixpoint lucas_tail (n : Z) (t : nat) (vk : Z) : bool :=
  match t with
  | O => false
  | S t => if vk =? 0 then true else if vk =? 2 then false else lucas_tail n t ((vk * vk - 2) mod n)
  end.
(* mpi.c:8579-8737 *)
Definition lucas_prime (n limit : Z) : bool :=
  if n <? 2 then false
  else if Z.even n then n =? 2
  else if n <=? 7 then true
  else match until 10001 (lucas_param n limit) 3 with
  | inl _ | inr None => false
  | inr (Some None) => true
  | inr (Some (Some p)) =>
    let r := ctz (n + 1) in
    let s := Z.shiftr (n + 1) r in
    let '(vk, vk1) := fold_left (lucas_bit n p s) (rev (zseq 0 (S (Z.to_nat (bitlen s))))) (2, p) in
    if ((vk =? 2) || (vk =? n - 2)) && ((vk * p - vk1 * 2) mod n =? 0) then true
    else lucas_tail n (Z.to_nat (r - 1)) vk
  end.

(* mpi.c:4372-4409, 64-bit limbs *)
Definition mp_primes : list Z :=
  [0x28208a20a08a28ac; 0x800228a202088288; 0x8028208820a00a08; 0x08028228800800a2; 0x228800200a20a082; 0x8820808228020800;
   0x0882802802022020; 0x208808808008a202; 0x0a08200820000a00; 0x00800a2082820802; 0x200808220028208a; 0x0220808820808020;
   0x28a00a0020080022; 0x008a20008a200080; 0x0208220200808800; 0x2822002080820880].
(* the 32-bit variant, mpi.c:4373-4389 *)
Definition mp_primes32 : list Z :=
  [0xa08a28ac; 0x28208a20; 0x02088288; 0x800228a2; 0x20a00a08; 0x80282088; 0x800800a2; 0x08028228; 0x0a20a082; 0x22880020; 0x28020800; 0x88208082;
   0x02022020; 0x08828028; 0x8008a202; 0x20880880; 0x20000a00; 0x0a082008; 0x82820802; 0x00800a20; 0x0028208a; 0x20080822; 0x20808020; 0x02208088;
   0x20080022; 0x28a00a00; 0x8a200080; 0x008a2000; 0x00808800; 0x02082202; 0x80820880; 0x28220020].
Definition tst (w : Z) (l : list Z) (i : Z) : bool := Z.testbit (nth (Z.to_nat (i / w)) l 0) (i mod w).
Definition small_prime (w : Z) (i : Z) : bool := tst w (if w =? 32 then mp_primes32 else mp_primes) i.
(* mpi.c:8739-8772 *)
Definition mod_primorial (w x : Z) : Z * Z :=
  if w =? 64 then let r := x mod 16294579238595022365 in (r mod 4127218095, r mod 3948078067)
  else (x mod 4127218095, x mod 3948078067).
Definition trial (ra rb : Z) : bool :=
  existsb (fun p => ra mod p =? 0) [3; 5; 7; 11; 13; 17; 19; 23; 37] || existsb (fun p => rb mod p =? 0) [29; 31; 41; 43; 47; 53].
(* mpi.c:8774-8824 *)
Definition probab_prime (w x : Z) (rounds : nat) (rng : nat -> Z) : bool :=
  if x <=? 0 then false
  else if x <? 1024 then small_prime w x
  else if Z.even x then false
  else let '(ra, rb) := mod_primorial w x in
    if trial ra rb then false
    else if negb (mr_prime x (rounds + 1) true rng) then false
    else lucas_prime x 0.

(* mpi.c:8251-8267; steps bounds the loop by n *)
Fixpoint mfac_loop (fuel : nat) (n m z : Z) : Z :=
  match fuel with
  | O => z
  | S fuel => if m <? n then mfac_loop fuel (n - m) m (z * (n - m)) else z
  end.
Definition mpz_mfac (n m : Z) : Z := if n =? 0 then 1 else if m =? 0 then n else mfac_loop (Z.to_nat n) n m n.
(* mpi.c:8295-8340, on nonnegative m: the loop *)
Fixpoint bin_loop (k : nat) (i m z : Z) : Z :=
  match k with
  | O => z
  | S k => bin_loop k (i + 1) (m - 1) (Z.quot (z * m) (i + 1))
  end.
Definition mpz_bin (n k : Z) : Z :=
  let '(m, neg) := if n <? 0 then (- n + k - 1, Z.odd k) else (n, false) in
  if m <? k then 0
  else
    let k := if m - k <? k then m - k else k in
    let z := bin_loop (Z.to_nat k) 0 m 1 in
    if neg then - z else z.
(* mpi.c:8411-8427 *)
Definition fib_step (n : Z) (ab : Z * Z) (i : Z) : Z * Z :=
  let '(a, b) := ab in
  let c := a * (b + b - a) in
  let d := a * a + b * b in
  if Z.testbit n i then (d, c + d) else (c, d).
(* mpi.c:8390-8443: (fn, fn1) *)
Definition mpz_fib2 (n : Z) : Z * Z :=
  if n =? 0 then (0, 0)
  else let '(a, b) := fold_left (fib_step (n - 1)) (rev (zseq 0 (Z.to_nat (bitlen (n - 1))))) (0, 1) in (b, a).
(* mpi.c:8450-8480: (ln, ln1) *)
Definition mpz_lucnum2 (n : Z) : Z * Z :=
  if n =? 0 then (2, 0) else let '(fn, fn1) := mpz_fib2 n in (2 * fn1 + fn, 2 * fn - fn1).

Example primes_ex :
  mpz_sqrtm 100 100 5 11 = Some (Some 4) /\ mpz_sqrtm 100 100 6 29 = Some (Some 8) /\ mpz_sqrtm 100 100 2 17 = Some (Some 6) /\ mpz_sqrtm 100 100 3 17 = Some None /\
  mr_prime 1000003 5 true (fun i => 17 * Z.of_nat i) = true /\ mr_prime 1000001 5 true (fun i => 17 * Z.of_nat i) = false /\
  probab_prime 64 (2 ^ 89 - 1) 3 (fun i => 17 * Z.of_nat i) = true /\ probab_prime 64 (2 ^ 83 - 1) 3 (fun i => 17 * Z.of_nat i) = false /\
  mpz_mfac 9 2 = 945 /\ mpz_bin 10 3 = 120 /\ mpz_bin (-3) 3 = -10 /\ mpz_fib2 10 = (55, 34) /\ mpz_lucnum2 10 = (123, 76).
Proof. vm_compute. repeat split. Qed.
