(* Model of the prime field layer of src/ecc.c (lines 1346-1926) for a modulus p.
   A field element is its canonical value in [0, p): the fiat-generated limb arithmetic behind the per-field function
   pointers (the files under fields), Montgomery form and lazy carries (the nc variants) are represented by the residue they
   stand for and are not modelled. fe_pow is Zpow_mod (its exponents are public constants; the 4-bit window walk is the
   one of C51); per-field addition chains (fe->invert, fe->sqrt, fe->isqrt, fe->legendre) are represented by the exponent
   that the generic branch of the same function uses. *)
From Verif.Base Require Import Prelude.
From Verif.Model Require Import Rsa NumTheory.
Section Fe.
Variable p : positive.
Record fe := MkFe { fv : Z; fv_ok : ((0 <=? fv) && (fv <? Zpos p)) = true }.
Lemma mod_ok z : ((0 <=? z mod Zpos p) && (z mod Zpos p <? Zpos p)) = true.
Proof. pose proof (Z.mod_pos_bound z (Zpos p) eq_refl). apply andb_true_intro. split; [apply Z.leb_le|apply Z.ltb_lt]; lia. Qed.
Definition fe_of (z : Z) : fe := MkFe (z mod Zpos p) (mod_ok z).
(* fe_zero, fe->one, two, ... (1351-1357, 2050-2055), fe_set_word (1515-1528), fe_set_int (1530-1541) *)
Definition f0 := fe_of 0.
Definition f1 := fe_of 1.
Definition fe_set_int (z : Z) : fe := fe_of z.
(* fe_add, fe_sub, fe_mul, fe_sqr, fe_neg, fe_mul3, fe_mul4, fe_mul8 (1619-1693) *)
Definition fe_add (x y : fe) : fe := fe_of (fv x + fv y).
Definition fe_sub (x y : fe) : fe := fe_of (fv x - fv y).
Definition fe_mul (x y : fe) : fe := fe_of (fv x * fv y).
Definition fe_sqr (x : fe) : fe := fe_mul x x.
Definition fe_neg (x : fe) : fe := fe_of (- fv x).
Definition fe_mul3 (x : fe) : fe := fe_of (3 * fv x).
Definition fe_mul4 (x : fe) : fe := fe_of (4 * fv x).
Definition fe_mul8 (x : fe) : fe := fe_of (8 * fv x).
(* fe_is_zero (1543-1562), fe_equal (1564-1588), fe_is_odd (1590-1609) *)
Definition fe_equal (x y : fe) : bool := fv x =? fv y.
Definition fe_is_zero (x : fe) : bool := fv x =? 0.
Definition fe_is_odd (x : fe) : bool := Z.odd (fv x).
(* fe_select (1445-1452): flag picks the second *)
Definition fe_select (x y : fe) (flag : bool) : fe := if flag then y else x.
(* fe_neg_cond (1632-1637), fe_set_odd (1639-1642) *)
Definition fe_neg_cond (x : fe) (flag : bool) : fe := fe_select x (fe_neg x) flag.
Definition fe_set_odd (x : fe) (odd : bool) : fe := fe_neg_cond x (xorb (fe_is_odd x) odd).
(* fe_pow (1695-1725) *)
Definition fe_pow (x : fe) (e : Z) : fe := fe_of (powm (fv x) e (Zpos p)).
(* fe_invert (1742-1759): x^(p-2), and whether the result is nonzero *)
Definition fe_inv (x : fe) : fe := fe_pow x (Zpos p - 2).
Definition fe_invert (x : fe) : fe * bool := (fe_inv x, negb (fe_is_zero (fe_inv x))).
(* fe_invert_var (1727-1740): by the extended euclidean algorithm; z = 0 when there is no inverse *)
Definition fe_invert_var (x : fe) : option (fe * bool) :=
  match mpn_invert (fv x) (Zpos p) with
  | Some (Some r) => Some (fe_of r, true)
  | Some None => Some (f0, false)
  | None => None
  end.
(* fe_sqrt (1761-1812); None is the torsion_abort *)
Definition fe_sqrt (x : fe) : option (fe * bool) :=
  let fin b := Some (b, fe_equal (fe_sqr b) x) in
  if Zpos p mod 4 =? 3 then fin (fe_pow x ((Zpos p + 1) / 4))
  else if Zpos p mod 8 =? 5 then
    let x2 := fe_add x x in
    let a := fe_pow x2 ((Zpos p - 5) / 8) in
    fin (fe_mul (fe_mul (fe_sub (fe_mul (fe_sqr a) x2) f1) x) a)
  else None.
(* fe_is_square (1824-1852): Euler's criterion branch; fe_is_square_var (1814-1822): the Jacobi symbol *)
Definition fe_is_square (x : fe) : bool := negb (fe_equal (fe_pow x ((Zpos p - 1) / 2)) (fe_neg f1)).
Definition fe_is_square_var (x : fe) : option bool :=
  match mpn_jacobi (fv x) (Zpos p) with Some j => Some (0 <=? j) | None => None end.
End Fe.
Arguments fv {p} _.
Arguments fe_add {p} x y.
Arguments fe_sub {p} x y.
Arguments fe_mul {p} x y.
Arguments fe_sqr {p} x.
Arguments fe_neg {p} x.
Arguments fe_mul3 {p} x.
Arguments fe_mul4 {p} x.
Arguments fe_mul8 {p} x.
Arguments fe_equal {p} x y.
Arguments fe_is_zero {p} x.
Arguments fe_is_odd {p} x.
Arguments fe_select {p} x y flag.
Arguments fe_neg_cond {p} x flag.
Arguments fe_set_odd {p} x odd.
Arguments fe_pow {p} x e.
Arguments fe_inv {p} x.
Arguments fe_invert {p} x.
Arguments fe_invert_var {p} x.
Arguments fe_sqrt {p} x.
Arguments fe_is_square {p} x.
Arguments fe_is_square_var {p} x.
Arguments f0 {p}.
Arguments f1 {p}.
