(* The group law of a Montgomery curve B y^2 = x^3 + A x^2 + x, by chords and tangents, over any field, and X25519 / X448 as functions of it. *)
From Verif.Base Require Import Prelude.
From Verif.Spec Require Import EcSpec DsaSpec.
Section Law.
Variable F : Type.
Variables (O I : F) (add mul sub div : F -> F -> F).
Variable eq_dec : forall x y : F, {x = y} + {x <> y}.
Variables A B : F.
Definition on_mont (P : point F) : Prop :=
  match P with Inf => True | Aff x y => mul B (mul y y) = add (add (mul (mul x x) x) (mul A (mul x x))) x end.
(* the third intersection of the line through P1 of slope l, mirrored *)
Definition mthird (l x1 y1 x2 : F) : point F :=
  let x3 := sub (sub (sub (mul B (mul l l)) A) x1) x2 in Aff x3 (sub (mul l (sub x1 x3)) y1).
Definition madd (P Q : point F) : point F :=
  match P, Q with
  | Inf, _ => Q
  | _, Inf => P
  | Aff x1 y1, Aff x2 y2 =>
    if eq_dec x1 x2 then
      if eq_dec y1 y2 then
        if eq_dec y1 O then Inf
        else mthird (div (add (add (mul (add (add I I) I) (mul x1 x1)) (mul (add I I) (mul A x1))) I) (mul (add I I) (mul B y1))) x1 y1 x2
      else Inf
    else mthird (div (sub y1 y2) (sub x1 x2)) x1 y1 x2
  end.
(* B nonzero and A^2 <> 4 *)
Definition mont_ok : Prop := B <> O /\ mul A A <> mul (add I I) (add I I).
End Law.
(* a multiple of h of exactly b bits: RFC 7748, decodeScalar25519 and decodeScalar448 *)
Definition mont_clamp_spec (b h v : Z) : Z := 2 ^ (b - 1) + (v - v mod h) mod 2 ^ (b - 1).
