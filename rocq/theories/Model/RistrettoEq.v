(* Model of the comparisons of ristretto elements in src/ecc.c: rge_equal (8533-8568) and rge_is_zero (8570-8595). Elements are
   extended Edwards points (rge_t is xge_t). *)
From Verif.Base Require Import Prelude.
From Verif.Model Require Import Field Edwards Eddsa.
Section P.
Variable p : positive.
Definition rge_equal (c : edw p) (q r : xge p) : bool :=
  fe_equal (fe_mul (xx p q) (xy p r)) (fe_mul (xy p q) (xx p r)) ||
  ((x_h p c =? 8) && fe_equal (fe_mul (xy p q) (xy p r)) (fe_mul (xx p q) (xx p r))).
Definition rge_is_zero (c : edw p) (q : xge p) : bool := fe_is_zero (xx p q) || ((x_h p c =? 8) && fe_is_zero (xy p q)).
End P.
