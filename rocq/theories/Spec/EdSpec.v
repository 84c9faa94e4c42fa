(* The group law of a twisted Edwards curve a x^2 + y^2 = 1 + d x^2 y^2 over any field. *)
From Coq Require Import ZArith.
Section Law.
Variable F : Type.
Variables (O I : F) (add mul sub div : F -> F -> F) (opp : F -> F).
Variables a d : F.
Definition epoint := (F * F)%type.
Definition on_ed (P : epoint) : Prop :=
  let '(x, y) := P in
  add (mul a (mul x x)) (mul y y) = add I (mul d (mul (mul x x) (mul y y))).
Definition ed_zero : epoint := (O, I).
Definition ed_neg (P : epoint) : epoint := (opp (fst P), snd P).
Definition ed_add (P Q : epoint) : epoint :=
  let '(x1, y1) := P in
  let '(x2, y2) := Q in
  let m := mul d (mul (mul x1 x2) (mul y1 y2)) in
  (div (add (mul x1 y2) (mul y1 x2)) (add I m), div (sub (mul y1 y2) (mul a (mul x1 x2))) (sub I m)).
(* the law is complete: a is a nonzero square, d is none, two is not zero *)
Definition complete : Prop :=
  (exists s, mul s s = a) /\ a <> O /\ (forall s, mul s s <> d) /\ add I I <> O.
End Law.
