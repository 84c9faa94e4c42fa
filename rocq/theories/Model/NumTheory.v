(* Number theory on integers (src/mpi.c): gcd, extended gcd, inverses, Jacobi symbols, integer roots and
   square roots modulo a prime. Limb arrays and mpz_t values are represented by the integers they hold
   (Props/MpnProps.v and Props/MpzProps.v prove the operations on them exact), shifting out zero bits and
   stripping zero limbs being operations on that integer. Loops run for at most p steps; the step bound
   is part of the model only, and None (or inl) stands for reaching it. *)
From Verif.Base Require Import Prelude.
From Verif.Model Require Import Encoding MpnMod.

(* at most p iterations of f; inl is "still running" *)
Fixpoint until {S R : Type} (p : positive) (f : S -> S + R) (s : S) : S + R :=
  match p with
  | xH => f s
  | xO q => match until q f s with inl s => until q f s | r => r end
  | xI q => match f s with
            | inl s => match until q f s with inl s => until q f s | r => r end
            | r => r
            end
  end.
Definition fin {S R : Type} (x : S + R) : option R := match x with inl _ => None | inr r => Some r end.

(* MPN_SHIFT_ZEROES, mpi.c:805-826 *)
Definition oddp (u : Z) : Z := Z.shiftr u (ctz u).

(* mpi.c:3765-3777 *)
Definition gcd_step (uv : Z * Z) : Z * Z + Z :=
  let '(u, v) := uv in
  if u =? 0 then inr v
  else
    let u := oddp u in
    let v := oddp v in
    if v <=? u then inl (u - v, v) else inl (u, v - u).
(* mpi.c:3719-3796; the operands are nonzero *)
Definition mpn_gcd (x y : Z) : option Z :=
  let r := ctz (Z.lor x y) in
  match until (Z.to_pos (x + y + 1)) gcd_step (Z.shiftr x r, Z.shiftr y r) with
  | inr v => Some (Z.shiftl v r)
  | inl _ => None
  end.
(* mpi.c:7375-7409 *)
Definition mpz_gcd (x y : Z) : option Z :=
  if x =? 0 then Some (Z.abs y) else if y =? 0 then Some (Z.abs x) else mpn_gcd (Z.abs x) (Z.abs y).
(* mpi.c:7411-7447 with mpn_gcd_1, mpi.c:3798-3837, whose loop takes the same steps on a one-limb v; the
   value stored in z and the value returned, which is zero when |x| = gcd(x, 0) does not fit a limb *)
Definition mpz_gcd_ui (w x y : Z) : option (Z * Z) :=
  if x =? 0 then Some (y, y)
  else if y =? 0 then Some (Z.abs x, if Z.abs x <? 2 ^ w then Z.abs x else 0)
  else match mpn_gcd (Z.abs x) y with Some g => Some (g, g) | None => None end.
(* mpi.c:7449-7466 *)
Definition mpz_lcm (x y : Z) : option Z :=
  if (x =? 0) || (y =? 0) then Some 0
  else match mpz_gcd x y with Some g => Some (Z.abs (y * Z.quot x g)) | None => None end.
(* mpi.c:7468-7477 *)
Definition mpz_lcm_ui (w x y : Z) : option Z :=
  if (x =? 0) || (y =? 0) then Some 0
  else match mpz_gcd_ui w x y with Some (_, g) => Some (Z.abs (x * (y / g))) | None => None end.

(* mpi.c:7553-7561, 7563-7571: one halving of a pair of coefficients *)
Definition halve (up vp : Z) (ab : Z * Z) : Z * Z :=
  let '(a, b) := ab in
  let '(a, b) := if Z.odd a || Z.odd b then (a + vp, b - up) else (a, b) in
  (Z.quot a 2, Z.quot b 2).
Definition halves (up vp : Z) (k : Z) (ab : Z * Z) : Z * Z := Nat.iter (Z.to_nat k) (halve up vp) ab.
(* mpi.c:7546-7582 *)
Definition egcd_step (up vp : Z) (s : Z * Z * (Z * Z) * (Z * Z)) : Z * Z * (Z * Z) * (Z * Z) + Z * (Z * Z) :=
  let '(u, v, ab, cd) := s in
  if u =? 0 then inr (v, cd)
  else
    let uz := ctz u in
    let vz := ctz v in
    let u := Z.shiftr u uz in
    let v := Z.shiftr v vz in
    let '(a, b) := halves up vp uz ab in
    let '(c, d) := halves up vp vz cd in
    if v <=? u then inl (u - v, v, (a - c, b - d), (c, d)) else inl (u, v - u, (a, b), (c - a, d - b)).
(* mpi.c:7479-7606: (g, s, t) *)
Definition mpz_gcdext (x y : Z) : option (Z * Z * Z) :=
  if x =? 0 then Some (Z.abs y, 0, Z.sgn y)
  else if y =? 0 then Some (Z.abs x, Z.sgn x, 0)
  else
    let u := Z.abs x in
    let v := Z.abs y in
    let shift := Z.min (ctz u) (ctz v) in
    let up := Z.shiftr u shift in
    let vp := Z.shiftr v shift in
    match until (Z.to_pos (u + v + 1)) (egcd_step up vp) (up, vp, (1, 0), (0, 1)) with
    | inr (v, (c, d)) => Some (Z.shiftl v shift, if x <? 0 then - c else c, if y <? 0 then - d else d)
    | inl _ => None
    end.

(* mpi.c:3928-3940: halving modulo the odd number y *)
Definition mhalve (y a : Z) : Z := Z.shiftr (if Z.odd a then a + y else a) 1.
Definition sub_mod (a b y : Z) : Z := if a <? b then a - b + y else a - b.
(* mpi.c:3924-3953 *)
Definition inv_step (y : Z) (s : Z * Z * Z * Z) : Z * Z * Z * Z + Z * Z :=
  let '(u, v, a, b) := s in
  if u =? 0 then inr (v, b)
  else
    let uz := ctz u in
    let vz := ctz v in
    let u := Z.shiftr u uz in
    let v := Z.shiftr v vz in
    let a := Nat.iter (Z.to_nat uz) (mhalve y) a in
    let b := Nat.iter (Z.to_nat vz) (mhalve y) b in
    if v <=? u then inl (u - v, v, sub_mod a b y, b) else inl (u, v - u, a, sub_mod b a y).
(* mpi.c:3885-3962; the inner option is the return value *)
Definition mpn_invert (x y : Z) : option (option Z) :=
  if y =? 1 then Some None
  else match until (Z.to_pos (x + y + 1)) (inv_step y) (x, y, 1, 0) with
  | inr (v, b) => Some (if v =? 1 then Some b else None)
  | inl _ => None
  end.
(* mpi.c:7628-7674 with 7608-7626 *)
Definition mpz_invert (x y : Z) : option (option Z) :=
  if (x =? 0) || (y =? 0) then Some None
  else if Z.abs y =? 1 then Some None
  else if Z.odd y then mpn_invert (if (x <? 0) || (Z.abs y <=? Z.abs x) then x mod Z.abs y else x) (Z.abs y)
  else match mpz_gcdext x y with
       | Some (g, s, _) => Some (if g =? 1 then Some (s mod Z.abs y) else None)
       | None => None
       end.

(* mpi.c:4034-4063 *)
Definition flip8 (v : Z) : bool := (v mod 8 =? 3) || (v mod 8 =? 5).
Definition neg_if (b : bool) (j : Z) : Z := if b then - j else j.
Definition jac_step (s : Z * Z * Z) : Z * Z * Z + Z * Z :=
  let '(u, v, j) := s in
  if u =? 0 then inr (v, j)
  else
    let bits := ctz u in
    let u := Z.shiftr u bits in
    let j := neg_if (Z.odd bits && flip8 v) j in
    let '(u, v, j) := if u <? v then (v, u, neg_if ((v mod 4 =? 3) && (u mod 4 =? 3)) j) else (u, v, j) in
    let u := u - v in
    inl (Z.shiftr u 1, v, neg_if (flip8 v) j).
(* mpi.c:4008-4069 *)
Definition mpn_jacobi (x y : Z) : option Z :=
  match until (Z.to_pos (x + y + 1)) jac_step (x, y, 1) with
  | inr (v, j) => Some (if v =? 1 then j else 0)
  | inl _ => None
  end.
(* mpi.c:7699-7722, 7684-7697 *)
Definition mpz_jacobi (x y : Z) : outcome (option Z) :=
  if negb (Z.odd y) then Abort
  else
    let t := if (x <? 0) || (Z.abs y <=? Z.abs x) then x mod Z.abs y else x in
    Ok match mpn_jacobi t (Z.abs y) with Some j => Some (neg_if ((x <? 0) && (y <? 0)) j) | None => None end.

(* mpi.c:6402-6412: repeated squaring while y > 0 *)
Fixpoint sq_pos (p : positive) (z : Z) : Z := match p with xH => z * z | xO q | xI q => sq_pos q (z * z) end.
(* mpi.c:6416-6430 *)
Fixpoint pow_pos (p : positive) (z u : Z) : Z :=
  match p with
  | xH => z * u
  | xO q => pow_pos q z (u * u)
  | xI q => pow_pos q (z * u) (u * u)
  end.
(* mpi.c:6385-6439 *)
Definition mpz_pow_ui (x y : Z) : Z :=
  if y =? 0 then 1 else if y =? 1 then x else if x =? 0 then 0
  else if Z.land y (y - 1) =? 0 then match y - 1 with Zpos p => sq_pos p x | _ => x end
  else match y with Zpos p => pow_pos p 1 x | _ => 1 end.
Definition bitlen (x : Z) : Z := if x =? 0 then 0 else Z.log2 (Z.abs x) + 1.
(* mpi.c:6494-6501: state s, u *)
Definition root_step (x k : Z) (u : Z) : Z + Z :=
  let s := u in
  let t := mpz_pow_ui s (k - 1) in
  let u := Z.quot x t in
  let t := s * (k - 1) in
  let u := Z.quot (t + u) k in
  if Z.abs u <? Z.abs s then inl u else inr s.
(* mpi.c:6451-6516; bitlen(x) + k - 1 is taken not to wrap *)
Definition mpz_rootrem (x k : Z) : outcome (option (Z * Z)) :=
  if k =? 0 then Abort
  else if (x <? 0) && Z.even k then Abort
  else if x =? 0 then Ok (Some (0, 0))
  else
    let u := 2 ^ ((bitlen x + k - 1) / k + 1) in
    let u := if x <? 0 then - u else u in
    Ok match until (Z.to_pos (Z.abs u + 1)) (root_step x k) u with
       | inr s => Some (s, x - mpz_pow_ui s k)
       | inl _ => None
       end.
(* mpi.c:6518-6539 with z not NULL *)
Definition mpz_root (x k : Z) : outcome (option (Z * bool)) :=
  match mpz_rootrem x k with
  | Ok (Some (s, r)) => Ok (Some (s, r =? 0))
  | Ok None => Ok None
  | Fail => Fail
  | Abort => Abort
  end.
(* mpi.c:6613-6618 *)
Definition sqrt_step (x : Z) (u : Z) : Z + Z :=
  let s := u in
  let t := Z.quot x s in
  let t := s + t in
  let u := Z.shiftr t 1 in
  if Z.abs u <? Z.abs s then inl u else inr s.
(* mpi.c:6574-6631 *)
Definition mpz_sqrtrem (x : Z) : outcome (option (Z * Z)) :=
  if x <? 0 then Abort
  else if x =? 0 then Ok (Some (0, 0))
  else
    let u := 2 ^ ((bitlen x + 1) / 2 + 1) in
    Ok match until (Z.to_pos (u + 1)) (sqrt_step x) u with
       | inr s => Some (s, x - s * s)
       | inl _ => None
       end.
(* mpi.c:6638-6654 *)
Definition mpz_perfect_square_p (x : Z) : option bool :=
  if x <? 0 then Some false
  else match mpz_sqrtrem x with Ok (Some (_, r)) => Some (r =? 0) | _ => None end.

Example numtheory_ex : mpz_gcd (-12) 18 = Some 6 /\ mpz_gcdext 240 (-46) = Some (2, 14, 73) /\ mpz_invert 3 7 = Some (Some 5) /\ mpz_invert 3 8 = Some (Some 3) /\
  mpz_jacobi 1001 9907 = Ok (Some (-1)) /\ mpz_sqrtrem (10 ^ 40 + 7) = Ok (Some (10 ^ 20, 7)) /\ mpz_rootrem (-1030) 3 = Ok (Some (-10, -30)) /\ mpz_pow_ui 3 13 = 3 ^ 13 /\ mpz_pow_ui (-3) 8 = 3 ^ 8.
Proof. vm_compute. repeat split. Qed.
