(* The group law of a short Weierstrass curve y^2 = x^3 + a x + b, by chords and tangents, over any field. *)
From Coq Require Import ZArith List.
(* multiples in a group *)
Section Mul.
Variable G : Type.
Variables (op : G -> G -> G) (e : G) (inv : G -> G).
Definition nmul (k : nat) (P : G) : G := Nat.iter k (op P) e.
Definition zmul (k : Z) (P : G) : G :=
  match k with Z0 => e | Zpos n => nmul (Pos.to_nat n) P | Zneg n => inv (nmul (Pos.to_nat n) P) end.
End Mul.
Section Law.
Variable F : Type.
Variables (O I : F) (add mul sub div : F -> F -> F) (opp : F -> F).
Variable eq_dec : forall x y : F, {x = y} + {x <> y}.
Variables a b : F.
Inductive point := Inf | Aff (x y : F).
Definition on_curve (P : point) : Prop :=
  match P with Inf => True | Aff x y => mul y y = add (add (mul (mul x x) x) (mul a x)) b end.
(* the third intersection of the line through P1 of slope l, mirrored *)
Definition third (l x1 y1 x2 : F) : point :=
  let x3 := sub (sub (mul l l) x1) x2 in Aff x3 (sub (mul l (sub x1 x3)) y1).
Definition pneg (P : point) : point := match P with Inf => Inf | Aff x y => Aff x (opp y) end.
Definition padd (P Q : point) : point :=
  match P, Q with
  | Inf, _ => Q
  | _, Inf => P
  | Aff x1 y1, Aff x2 y2 =>
    if eq_dec x1 x2 then
      if eq_dec y1 y2 then
        if eq_dec y1 O then Inf
        else third (div (add (mul (add (add I I) I) (mul x1 x1)) a) (mul (add I I) y1)) x1 y1 x2
      else Inf
    else third (div (sub y1 y2) (sub x1 x2)) x1 y1 x2
  end.
(* the curve is not singular *)
Definition nonsingular : Prop :=
  add (mul (mul (add I I) (add I I)) (mul (mul a a) a)) (mul (mul (mul (add (add I I) I) (add (add I I) I)) (add (add I I) I)) (mul b b)) <> O.
End Law.
Arguments Inf {F}.
Arguments Aff {F} x y.
