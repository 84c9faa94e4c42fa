(* Model of mpn_randomm, mpz_urandomb and mpz_urandomm of src/mpi.c (5087-5113, 9201-9238). Every call of the generator is a
   draw: the limbs it writes. The loop runs over a list of draws; None means that all of them were rejected. *)
From Verif.Base Require Import Prelude.
From Verif.Model Require Import Encoding Hash Mpn Mpz.
Section Rand.
Variable w : Z.
(* mpi.c:5106-5108: the draw with its top limb shifted *)
Definition shift_top (n : nat) (s : Z) (d : list Z) : list Z := firstn (n - 1) d ++ [Z.shiftr (nth (n - 1) d 0) s].
(* mpi.c:5105-5109 *)
Fixpoint randomm_loop (n : nat) (s : Z) (xs : list Z) (draws : list (list Z)) : option (list Z) :=
  match draws with
  | [] => None
  | d :: draws => let z := shift_top n s d in if 0 <=? mpn_cmp z xs n then randomm_loop n s xs draws else Some z
  end.
(* mpi.c:5092-5113; the abort on zp == xp is left out *)
Definition mpn_randomm (xs : list Z) (draws : list (list Z)) : option (list Z) :=
  let n := mpn_strip xs (length xs) in
  if (0 <? n)%nat then
    match randomm_loop n (mp_clz w (nth (n - 1) xs 0)) xs draws with
    | Some z => Some (z ++ repeat 0 (length xs - n))
    | None => None
    end
  else Some (repeat 0 (length xs)).
(* mpi.c:9201-9213; MP_MASK(lo) is 2^lo - 1 *)
Definition mpz_urandomb (bits : Z) (d : list Z) : mpz :=
  let zn := Z.to_nat ((bits + w - 1) / w) in
  let lo := bits mod w in
  mkz false (stripped (if lo =? 0 then d else firstn (zn - 1) d ++ [Z.land (nth (zn - 1) d 0) (2 ^ lo - 1)])).
(* mpi.c:9215-9238 *)
Definition mpz_urandomm (x : mpz) (draws : list (list Z)) : option mpz :=
  if size x =? 0 then Some (mkz false [])
  else match mpn_randomm (lm x) draws with Some z => Some (mkz (size x <? 0) (stripped z)) | None => None end.
End Rand.
