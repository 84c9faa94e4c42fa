(* The maps between a Montgomery curve B v^2 = u^3 + A u^2 + u and a twisted Edwards curve a x^2 + y^2 = 1 + d x^2 y^2 over any
   field, written as in RFC 7748 section 4.1 with the exceptional points spelt out, and the 4-isogenies of section 4.2. *)
From Verif.Spec Require Import EcSpec.
Section Maps.
Variable F : Type.
Variables (O I : F) (add mul sub div : F -> F -> F) (opp : F -> F).
Variable eq_dec : forall x y : F, {x = y} + {x <> y}.
Local Infix "+" := add.
Local Infix "*" := mul.
Local Infix "-" := sub.
Local Infix "/" := div.
Section Iso.
Variables (a d A B c : F) (invert : bool).
(* the curves correspond: A = 2 (a + d) / (a - d) and c^2 = (A + 2) / (B a), or the same for (- A, - B) *)
Definition linked : Prop :=
  if invert then A * (d - a) = (I + I) * (d + a) /\ B * (a * (c * c)) = A - (I + I)
  else A * (a - d) = (I + I) * (a + d) /\ B * (a * (c * c)) = A + (I + I).
Definition to_ed (P : point F) : F * F :=
  match P with
  | Inf => (O, I)
  | Aff u v => if eq_dec u O then (O, opp I) else (c * u / v, if invert then (u + I) / (u - I) else (u - I) / (u + I))
  end.
Definition to_mont (Q : F * F) : point F :=
  let '(x, y) := Q in
  if eq_dec x O then if eq_dec y I then Inf else Aff O O
  else let u := if invert then (y + I) / (y - I) else (I + y) / (I - y) in Aff u (c * u / x).
End Iso.
Definition pow2 (x : F) := x * x.
Definition pow3 (x : F) := x * x * x.
Definition pow4 (x : F) := x * x * x * x.
Definition pow5 (x : F) := x * x * x * x * x.
Definition two : F := I + I.
Definition four : F := two + two.
(* RFC 7748 section 4.2 *)
Definition iso4_to_ed (P : point F) : F * F :=
  match P with
  | Inf => (O, I)
  | Aff u v => if eq_dec u O then (O, I) else
    (four * v * (pow2 u - I) / (pow4 u - two * pow2 u + four * pow2 v + I),
     opp (pow5 u - two * pow3 u - four * u * pow2 v + u) / (pow5 u - two * pow2 u * pow2 v - two * pow3 u - two * pow2 v + u))
  end.
Definition iso4_to_mont (Q : F * F) : point F :=
  let '(x, y) := Q in
  if eq_dec x O then if eq_dec y I then Inf else Aff O O else Aff (pow2 y / pow2 x) ((two - pow2 x - pow2 y) * y / pow3 x).
End Maps.
