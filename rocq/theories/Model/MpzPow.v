(* Modular exponentiation of signed integers (src/mpi.c). *)
From Verif.Base Require Import Prelude.
From Verif.Model Require Import Encoding Hash Mpn Mpz MpnMod.

Section w.
Variable w : Z.
(* mpi.c:6078-6081: the remainder of mpz_divmod *)
Definition mpz_mod (n d : mpz) : outcome mpz := bind (mpz_divmod w n d) (fun qr => Ok (snd qr)).
(* mpi.c:7795-7812 *)
Definition mpz_powm_inner (x y m : mpz) : outcome mpz :=
  bind (mpn_powm w (lm x) (lm y) (lm m)) (fun z => Ok (mkz false (stripped z))).
(* mpi.c:7814-7837; inv is mpz_invert, None standing for its failure *)
Definition mpz_powm (inv : mpz -> mpz -> option mpz) (x y m : mpz) : outcome mpz :=
  if size m =? 0 then Abort
  else if size y <? 0 then match inv x m with None => Abort | Some t => mpz_powm_inner t y m end
  else if (size x <? 0) || (0 <=? mpz_cmpabs x m) then bind (mpz_mod x m) (fun t => mpz_powm_inner t y m)
  else mpz_powm_inner x y m.
(* mpi.c:7847-7864 *)
Definition mpz_powm_sec_inner (x y m : mpz) : outcome mpz :=
  bind (mpn_sec_powm w (lm x) (lm y) (lm m)) (fun z => Ok (mkz false (stripped z))).
(* mpi.c:7866-7881 *)
Definition mpz_powm_sec (x y m : mpz) : outcome mpz :=
  if (size y <? 0) || (size m =? 0) || negb (Z.odd (nth 0 (lm m) 0)) then Abort
  else if (size x <? 0) || (0 <=? mpz_cmpabs x m) then bind (mpz_mod x m) (fun t => mpz_powm_sec_inner t y m)
  else mpz_powm_sec_inner x y m.
End w.
