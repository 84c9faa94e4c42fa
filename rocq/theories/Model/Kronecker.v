(* Model of mpz_legendre and mpz_kronecker of src/mpi.c (7677-7682, 7725-7757), over the values of the integers as in
   Model.NumTheory. The versions with a machine word on one side (7760-7803) build an integer from the word and call these. *)
From Verif.Base Require Import Prelude.
From Verif.Model Require Import Encoding MpnMod NumTheory.
(* mpi.c:7677-7682 *)
Definition mpz_legendre (x p : Z) : outcome (option Z) := if p <? 0 then Abort else mpz_jacobi x p.
(* mpi.c:7726 *)
Definition kron_table (i : Z) : Z := nth (Z.to_nat i) [0; 1; 0; -1; 0; -1; 0; 1] 0.
(* mpi.c:7725-7757. x->limbs[0] is the low limb of |x|; mpz_quo_2exp is the quotient rounded to zero *)
Definition mpz_kronecker (x y : Z) : outcome (option Z) :=
  if x =? 0 then Ok (Some (Z.b2z (Z.abs y =? 1)))
  else if y =? 0 then Ok (Some (Z.b2z (Z.abs x =? 1)))
  else if Z.even (Z.lor (Z.abs x) (Z.abs y)) then Ok (Some 0)
  else
    let bits := ctz (Z.abs y) in
    if 0 <? bits then
      match mpz_jacobi x (Z.quot y (2 ^ bits)) with
      | Ok (Some k) => Ok (Some (if Z.odd bits then k * kron_table (Z.abs x mod 8) else k))
      | r => r
      end
    else mpz_jacobi x y.
