(* Maps from field elements to curves, as relations: Elligator 2 (Bernstein, Hamburg, Krasnova, Lange, section 5.2) on
   y^2 = x^3 + a x^2 + b x, the simplified Shallue-van de Woestijne-Ulas map on y^2 = x^3 + a x + b and the Shallue-van de
   Woestijne map on y^2 = x^3 + b (RFC 9380, section 6.6), without divisions. *)
Section Maps.
Variable F : Type.
Variables (O I : F) (add mul sub : F -> F -> F) (opp : F -> F).
Local Infix "+" := add.
Local Infix "*" := mul.
Local Infix "-" := sub.
Definition square (y : F) : Prop := exists s, s * s = y.
(* x is the first of the list at which g is a square, and the last if none is *)
Fixpoint first_square (g : F -> F) (x1 : F) (l : list F) (x : F) : Prop :=
  match l with
  | nil => x = x1
  | cons x2 l => (square (g x1) /\ x = x1) \/ (~ square (g x1) /\ first_square g x2 l x)
  end.
Definition g_mont (a b x : F) : F := x * x * x + a * (x * x) + b * x.
Definition g_wei (a b x : F) : F := x * x * x + a * x + b.
Definition ell2 (a b z u x : F) : Prop :=
  let t := I + z * (u * u) in
  exists x1, (t <> O -> x1 * t = opp a) /\ (t = O -> x1 = opp a) /\ first_square (g_mont a b) x1 (cons (opp x1 - a) nil) x.
Definition sswu (a b z u x : F) : Prop :=
  let w := z * (u * u) in
  let t := w * w + w in
  exists x1, (t <> O -> a * x1 * t = opp b * (t + I)) /\ (t = O -> z * a * x1 = b) /\ first_square (g_wei a b) x1 (cons (w * x1) nil) x.
(* c is a root of - 3 z^2 *)
Definition svdw (b z c u x : F) : Prop :=
  let t := u * u + g_wei O b z in
  exists x1 x3, (u * u * t <> O -> (x1 + x1 + z - c) * t = opp (u * u * c + u * u * c) /\ (z * z + z * z + z * z) * (u * u) * (z - x3) = t * t) /\
    (u * u * t = O -> x1 + x1 = c - z /\ x3 = z) /\ first_square (g_wei O b) x1 (cons (opp x1 - z) (cons x3 nil)) x.
End Maps.
