(* Serpent's S-boxes as published (Anderson, Biham, Knudsen, "Serpent: A Proposal for the Advanced Encryption Standard", appendix A.5),
   and the nibble read across the four words of a state *)
From Verif.Base Require Import Prelude.
From Verif.Model Require Import Encoding Bio.
Definition sbox0 : list Z := [3; 8; 15; 1; 10; 6; 5; 11; 14; 13; 4; 2; 7; 0; 9; 12].
Definition sbox1 : list Z := [15; 12; 2; 7; 9; 0; 5; 10; 1; 11; 14; 8; 6; 13; 3; 4].
Definition sbox2 : list Z := [8; 6; 7; 9; 3; 12; 10; 15; 13; 1; 14; 4; 0; 11; 5; 2].
Definition sbox3 : list Z := [0; 15; 11; 8; 12; 9; 6; 3; 13; 1; 2; 4; 10; 7; 5; 14].
Definition sbox4 : list Z := [1; 15; 8; 3; 12; 0; 11; 6; 2; 5; 4; 10; 9; 14; 7; 13].
Definition sbox5 : list Z := [15; 5; 2; 11; 4; 10; 9; 12; 0; 3; 14; 8; 13; 6; 7; 1].
Definition sbox6 : list Z := [7; 2; 12; 5; 8; 4; 6; 11; 14; 9; 1; 15; 13; 3; 10; 0].
Definition sbox7 : list Z := [1; 13; 15; 0; 14; 8; 2; 11; 7; 4; 12; 10; 9; 3; 5; 6].
Definition nibble (x : Z * Z * Z * Z) (i : Z) : Z :=
  let '(a, b, c, d) := x in Z.b2z (Z.testbit a i) + 2 * Z.b2z (Z.testbit b i) + 4 * Z.b2z (Z.testbit c i) + 8 * Z.b2z (Z.testbit d i).
