(* mpi.c: signed integers. z->size carries the sign and the number of limbs in use; the record
   keeps that size and exactly the limbs in use (z->limbs[0 .. |size| - 1]). Allocation (mpz_grow)
   and the case of an output that is also an input are not modelled: every function returns a new
   value. Where an argument pattern selects a path (x == y in mpz_mul, the scratch limit in
   mpz_sqr) both paths appear. *)
From Verif.Base Require Import Prelude.
From Verif.Model Require Import Encoding Hash Mpn.

Record mpz := MkMpz { size : Z; lm : list Z }.

Section Mpz.
Variable w : Z.
Notation b2n b := (Nat.b2n b).

(* z->size = neg ? -zn : zn, with zn = the number of limbs kept *)
Definition mkz (neg : bool) (l : list Z) : mpz := MkMpz (if neg then - Z.of_nat (length l) else Z.of_nat (length l)) l.
Definition neg_p (x : mpz) : bool := size x <? 0.
(* zn - (zp[zn - 1] == 0) *)
Definition drop_top (z : list Z) : list Z := firstn (length z - b2n (nth (length z - 1) z 0 =? 0)) z.
Definition stripped (z : list Z) : list Z := firstn (mpn_strip z (length z)) z.

(* mpi.c:5322-5334 (mpz_set_ui, mpz_set_si), 1089-1095 (mp_limb_cast) *)
Definition mpz_set_ui (x : Z) : mpz := mkz false (if x =? 0 then [] else [x]).
Definition mp_limb_cast (x : Z) : Z := if x =? - 2 ^ (w - 1) then 2 ^ (w - 1) else Z.abs x.
Definition mpz_set_si (x : Z) : mpz := mkz (x <? 0) (if x =? 0 then [] else [mp_limb_cast x]).
(* mpi.c:5380-5386 *)
Definition mpz_get_ui (x : mpz) : Z := if size x =? 0 then 0 else nth 0 (lm x) 0.
(* mpi.c:7359-7369 *)
Definition mpz_abs (x : mpz) : mpz := MkMpz (Z.abs (size x)) (lm x).
Definition mpz_neg (x : mpz) : mpz := MkMpz (- size x) (lm x).

(* mpi.c:5437-5443 *)
Definition mpz_sgn (x : mpz) : Z := if size x =? 0 then 0 else if size x <? 0 then -1 else 1.
(* mpi.c:5445-5454 *)
Definition mpz_cmp (x y : mpz) : Z :=
  if negb (size x =? size y) then (if size x <? size y then -1 else 1)
  else if size x <? 0 then - mpn_cmp (lm x) (lm y) (length (lm x))
  else mpn_cmp (lm x) (lm y) (length (lm x)).
(* mpi.c:5456-5462 *)
Definition mpz_cmp_ui (x : mpz) (y : Z) : Z := if size x <? 0 then -1 else mpn_cmp_1 (lm x) y.
(* mpi.c:5480-5494 *)
Definition mpz_cmpabs (x y : mpz) : Z := mpn_cmp2 (lm x) (lm y).
Definition mpz_cmpabs_ui (x : mpz) (y : Z) : Z := mpn_cmp_1 (lm x) y.
Definition mpz_cmpabs_si (x : mpz) (y : Z) : Z := mpz_cmpabs_ui x (mp_limb_cast y).
(* mpi.c:5464-5474 *)
Definition mpz_cmp_si (x : mpz) (y : Z) : Z :=
  if y <? 0 then (if size x <? 0 then - mpz_cmpabs_si x y else 1) else mpz_cmp_ui x y.

(* mpi.c:5500-5514: the limbs of |x| + |y| *)
Definition mpz_addabs (x y : mpz) : outcome (list Z) :=
  let '(xl, yl) := if (length (lm x) <? length (lm y))%nat then (lm y, lm x) else (lm x, lm y) in
  bind (mpn_add w xl yl) (fun '(z, c) =>
  Ok (firstn (length xl + b2n (negb (c =? 0))) (z ++ [c]))).
(* mpi.c:5516-5524 *)
Definition mpz_addabs_ui (x : mpz) (y : Z) : list Z :=
  let '(z, c) := mpn_add_1 w (lm x) y in firstn (length (lm x) + b2n (negb (c =? 0))) (z ++ [c]).
(* mpi.c:5526-5535 *)
Definition mpz_subabs (x y : mpz) : outcome (list Z) :=
  bind (mpn_sub w (lm x) (lm y)) (fun '(z, c) => if c =? 0 then Ok (stripped z) else Abort).
(* mpi.c:5537-5548 *)
Definition mpz_subabs_ui (x : mpz) (y : Z) : outcome (list Z) :=
  let '(z, c) := mpn_sub_1 w (lm x) y in
  if negb (c =? 0) then Abort else if (length (lm x) =? 0)%nat then Ok [] else Ok (drop_top z).

(* mpi.c:5554-5581. A negative zn below is a magnitude whose sign differs from x. *)
Definition mpz_add (x y : mpz) : outcome mpz :=
  if 0 <=? Z.lxor (size x) (size y) then bind (mpz_addabs x y) (fun z => Ok (mkz (neg_p x) z))
  else
    let cmp := mpz_cmpabs x y in
    if cmp =? 0 then Ok (mkz (neg_p x) [])
    else if cmp <? 0 then bind (mpz_subabs y x) (fun z => Ok (mkz (negb (neg_p x)) z))
    else bind (mpz_subabs x y) (fun z => Ok (mkz (neg_p x) z)).
(* mpi.c:5583-5602 *)
Definition mpz_add_ui (x : mpz) (y : Z) : outcome mpz :=
  if 0 <=? size x then Ok (mkz false (mpz_addabs_ui x y))
  else if mpz_cmpabs_ui x y <? 0 then Ok (mkz false [tr w (y - nth 0 (lm x) 0)])
  else bind (mpz_subabs_ui x y) (fun z => Ok (mkz true z)).
(* mpi.c:5619-5646 *)
Definition mpz_sub (x y : mpz) : outcome mpz :=
  if Z.lxor (size x) (size y) <? 0 then bind (mpz_addabs x y) (fun z => Ok (mkz (neg_p x) z))
  else
    let cmp := mpz_cmpabs x y in
    if cmp =? 0 then Ok (mkz (neg_p x) [])
    else if cmp <? 0 then bind (mpz_subabs y x) (fun z => Ok (mkz (negb (neg_p x)) z))
    else bind (mpz_subabs x y) (fun z => Ok (mkz (neg_p x) z)).
(* mpi.c:5648-5671 *)
Definition mpz_sub_ui (x : mpz) (y : Z) : outcome mpz :=
  if size x <? 0 then Ok (mkz true (mpz_addabs_ui x y))
  else if size x =? 0 then Ok (mkz true (if y =? 0 then [] else [y]))
  else if mpz_cmpabs_ui x y <? 0 then Ok (mkz true [tr w (y - nth 0 (lm x) 0)])
  else bind (mpz_subabs_ui x y) (fun z => Ok (mkz false z)).
(* mpi.c:5604-5613, 5673-5682 *)
Definition mpz_add_si (x : mpz) (y : Z) : outcome mpz := if y <? 0 then mpz_sub_ui x (mp_limb_cast y) else mpz_add_ui x y.
Definition mpz_sub_si (x : mpz) (y : Z) : outcome mpz := if y <? 0 then mpz_add_ui x (mp_limb_cast y) else mpz_sub_ui x y.
(* mpi.c:5684-5696 *)
Definition mpz_ui_sub (x : Z) (y : mpz) : outcome mpz := bind (mpz_sub_ui y x) (fun z => Ok (mpz_neg z)).
Definition mpz_si_sub (x : Z) (y : mpz) : outcome mpz := bind (mpz_sub_si y x) (fun z => Ok (mpz_neg z)).

(* mpi.c:5776-5816; scratch says zn <= mp_alloca_max *)
Definition mpz_sqr (scratch : bool) (x : mpz) : outcome mpz :=
  if size x =? 0 then Ok (mkz false [])
  else
    bind (if (length (lm x) =? 1)%nat then let '(hi, lo) := mp_mul w (nth 0 (lm x) 0) (nth 0 (lm x) 0) in Ok [lo; hi]
          else if scratch then mpn_sqr w (lm x) else Ok (mpn_mul w (lm x) (lm x)))
    (fun z => Ok (mkz false (drop_top z))).
(* mpi.c:5702-5745, for two different objects; mpz_mul(z, x, x) is mpz_sqr *)
Definition mpz_mul (x y : mpz) : outcome mpz :=
  if (size x =? 0) || (size y =? 0) then Ok (mkz false [])
  else
    let '(xl, yl) := if (length (lm x) <? length (lm y))%nat then (lm y, lm x) else (lm x, lm y) in
    let z := if (length yl =? 1)%nat then (let '(r, c) := mpn_mul_1 w xl (nth 0 yl 0) in r ++ [c]) else mpn_mul w xl yl in
    Ok (mkz (Z.lxor (size x) (size y) <? 0) (drop_top z)).
(* mpi.c:5747-5774 *)
Definition mpz_mul_ui (x : mpz) (y : Z) : mpz :=
  if (size x =? 0) || (y =? 0) then mkz false []
  else let '(r, c) := mpn_mul_1 w (lm x) y in mkz (neg_p x) (drop_top (r ++ [c])).
Definition mpz_mul_si (x : mpz) (y : Z) : mpz := let z := mpz_mul_ui x (mp_limb_cast y) in if y <? 0 then mpz_neg z else z.
(* mpi.c:5818-5884 *)
Definition mpz_addmul (z x y : mpz) : outcome mpz :=
  if (size x =? 0) || (size y =? 0) then Ok z else bind (mpz_mul x y) (fun xy => mpz_add z xy).
Definition mpz_submul (z x y : mpz) : outcome mpz :=
  if (size x =? 0) || (size y =? 0) then Ok z else bind (mpz_mul x y) (fun xy => mpz_sub z xy).
Definition mpz_addmul_ui (z x : mpz) (y : Z) : outcome mpz :=
  if (size x =? 0) || (y =? 0) then Ok z else mpz_add z (mpz_mul_ui x y).
Definition mpz_submul_ui (z x : mpz) (y : Z) : outcome mpz :=
  if (size x =? 0) || (y =? 0) then Ok z else mpz_sub z (mpz_mul_ui x y).
Definition mpz_addmul_si (z x : mpz) (y : Z) : outcome mpz :=
  if y <? 0 then mpz_submul_ui z x (mp_limb_cast y) else mpz_addmul_ui z x y.
Definition mpz_submul_si (z x : mpz) (y : Z) : outcome mpz :=
  if y <? 0 then mpz_addmul_ui z x (mp_limb_cast y) else mpz_submul_ui z x y.

(* mpi.c:5914-5955: truncating division, (q, r) *)
Definition mpz_quorem (n d : mpz) : outcome (mpz * mpz) :=
  if (length (lm d) =? 0)%nat then Abort
  else if mpn_cmp2 (lm n) (lm d) <? 0 then Ok (mkz false [], n)
  else bind (mpn_divmod w (lm n) (lm d)) (fun '(q, r) =>
       Ok (mkz (Z.lxor (size n) (size d) <? 0) (drop_top q), mkz (neg_p n) (stripped r))).
(* mpi.c:5967-6001: q and the remainder of |n| *)
Definition mpz_quo_ui (n : mpz) (d : Z) : outcome (mpz * Z) :=
  if d =? 0 then Abort
  else if (length (lm n) =? 0)%nat then Ok (mkz false [], 0)
  else if (length (lm n) =? 1)%nat && (nth 0 (lm n) 0 <? d) then Ok (mkz false [], nth 0 (lm n) 0)
  else bind (mpn_divmod_1 w (lm n) d) (fun '(q, r) => Ok (mkz (neg_p n) (drop_top q), r)).
(* mpi.c:6008-6020 *)
Definition mpz_quo_si (n : mpz) (d : Z) : outcome (mpz * Z) :=
  bind (mpz_quo_ui n (mp_limb_cast d)) (fun '(q, r) =>
  Ok (if d <? 0 then mpz_neg q else q, if size n <? 0 then - r else r)).
(* mpi.c:6031-6071: Euclidean division *)
Definition mpz_divmod (n d : mpz) : outcome (mpz * mpz) :=
  if size n <? 0 then
    bind (mpz_quorem n d) (fun '(q, r) =>
    if size r <? 0 then
      bind (if size d <? 0 then mpz_add_ui q 1 else mpz_sub_ui q 1) (fun q =>
      bind (if size d <? 0 then mpz_sub r d else mpz_add r d) (fun r => Ok (q, r)))
    else Ok (q, r))
  else mpz_quorem n d.
(* mpi.c:6083-6096 *)
Definition mpz_div_ui (n : mpz) (d : Z) : outcome (mpz * Z) :=
  bind (mpz_quo_ui n d) (fun '(q, r) =>
  if (size n <? 0) && negb (r =? 0) then bind (mpz_sub_ui q 1) (fun q => Ok (q, tr w (d - r))) else Ok (q, r)).
(* mpi.c:6103-6122 *)
Definition mpz_div_si (n : mpz) (d : Z) : outcome (mpz * Z) :=
  bind (mpz_quo_si n d) (fun '(q, r) =>
  if r <? 0 then bind (if d <? 0 then mpz_add_ui q 1 else mpz_sub_ui q 1) (fun q => Ok (q, if d <? 0 then r - d else r + d))
  else Ok (q, r)).

(* mpi.c:6999-7035 *)
Definition mpz_mul_2exp (x : mpz) (bits : Z) : mpz :=
  if size x =? 0 then mkz false []
  else if bits =? 0 then x
  else
    let s := Z.to_nat (bits / w) in let r := bits mod w in
    if negb (r =? 0) then
      let '(z, c) := mpn_lshift w (lm x) r in
      mkz (neg_p x) (repeat 0 s ++ z ++ (if negb (c =? 0) then [c] else []))
    else mkz (neg_p x) (repeat 0 s ++ lm x).
(* mpi.c:7041-7080 *)
Definition mpz_quo_2exp (x : mpz) (bits : Z) : mpz :=
  if size x =? 0 then mkz false []
  else if bits =? 0 then x
  else
    let s := Z.to_nat (bits / w) in let r := bits mod w in
    if (length (lm x) <=? s)%nat then mkz false []
    else if negb (r =? 0) then mkz (neg_p x) (drop_top (fst (mpn_rshift w (skipn s (lm x)) r)))
    else mkz (neg_p x) (skipn s (lm x)).
(* zp[zn - 1] &= MP_MASK(lo) unless lo = 0 *)
Definition mask_top (z : list Z) (lo : Z) : list Z :=
  if negb (lo =? 0) then upd z (length z - 1) (Z.land (nth (length z - 1) z 0) (2 ^ lo - 1)) else z.
(* mpi.c:7082-7119 *)
Definition mpz_rem_2exp (x : mpz) (bits : Z) : mpz :=
  if (size x =? 0) || (bits =? 0) then mkz false []
  else
    let zn := Z.to_nat ((bits + w - 1) / w) in let lo := bits mod w in
    let '(zn, lo) := if (length (lm x) <? zn)%nat then (length (lm x), 0) else (zn, lo) in
    mkz (neg_p x) (stripped (mask_top (firstn zn (lm x)) lo)).
(* mpi.c:7125-7141 *)
Definition mpz_div_2exp (x : mpz) (bits : Z) : outcome mpz :=
  if size x <? 0 then
    bind (mpz_sub_ui (mpz_neg x) 1) (fun z =>
    bind (mpz_add_ui (mpz_quo_2exp z bits) 1) (fun z => Ok (mpz_neg z)))
  else Ok (mpz_quo_2exp x bits).
(* mpi.c:7143-7192 *)
Definition mpz_mod_2exp (x : mpz) (bits : Z) : mpz :=
  if (size x =? 0) || (bits =? 0) then mkz false []
  else
    let xn := length (lm x) in
    let zn := Z.to_nat ((bits + w - 1) / w) in let lo := bits mod w in
    if size x <? 0 then
      let z := if (xn <? zn)%nat then fst (mpn_sub_1 w (lm x) 1) ++ repeat 0 (zn - xn)
               else fst (mpn_sub_1 w (firstn zn (lm x)) 1) in
      let z := map (fun a => LB w - 1 - a) z in
      mkz false (stripped (mask_top z lo))
    else
      let '(zn, lo) := if (xn <? zn)%nat then (xn, 0) else (zn, lo) in
      mkz false (stripped (mask_top (firstn zn (lm x)) lo)).

(* mpi.c:6296-6318 *)
Definition mpz_divisible_2exp_p (n : mpz) (bits : Z) : bool :=
  let s := Z.to_nat (bits / w) in
  if size n =? 0 then true
  else if (length (lm n) <=? s)%nat then false
  else if negb (Z.land (nth s (lm n) 0) (2 ^ (bits mod w) - 1) =? 0) then false
  else mpn_zero_p (firstn s (lm n)).
(* mpi.c:7198-7212 *)
Definition mpz_tstbit (x : mpz) (pos : Z) : bool :=
  let s := Z.to_nat (pos / w) in
  if (length (lm x) <=? s)%nat then size x <? 0
  else
    let b := Z.odd (Z.shiftr (nth s (lm x) 0) (pos mod w)) in
    if size x <? 0 then xorb b (negb (mpz_divisible_2exp_p x pos)) else b.
(* mpi.c:7214-7247 *)
Definition mpz_setbit_abs (z : mpz) (pos : Z) : mpz :=
  let s := Z.to_nat (pos / w) in
  let l := if (length (lm z) <? s + 1)%nat then lm z ++ repeat 0 (s + 1 - length (lm z)) else lm z in
  mkz (neg_p z) (upd l s (Z.lor (nth s l 0) (2 ^ (pos mod w)))).
Definition mpz_clrbit_abs (z : mpz) (pos : Z) : mpz :=
  let s := Z.to_nat (pos / w) in
  if (s <? length (lm z))%nat then mkz (neg_p z) (stripped (upd (lm z) s (Z.land (nth s (lm z) 0) (LB w - 1 - 2 ^ (pos mod w)))))
  else z.
(* mpi.c:7249-7271 *)
Definition mpz_setbit (z : mpz) (pos : Z) : mpz :=
  if (size z <? 0) && negb (mpz_divisible_2exp_p z pos) then mpz_clrbit_abs z pos else mpz_setbit_abs z pos.
Definition mpz_clrbit (z : mpz) (pos : Z) : mpz :=
  if (size z <? 0) && negb (mpz_divisible_2exp_p z pos) then mpz_setbit_abs z pos else mpz_clrbit_abs z pos.
Definition mpz_combit (z : mpz) (pos : Z) : mpz :=
  if negb (mpz_tstbit z pos) then mpz_setbit z pos else mpz_clrbit z pos.

(* mpi.c:6660-6735, 6766-6836, 6888-6947: the limb loops share one shape. Each pass subtracts the
   borrows cx, cy, combines the limbs with f (below yn) or g (from yn on), and adds the carry cz. *)
Fixpoint bit_loop (f : Z -> Z -> Z) (g : Z -> Z) (cx cy cz : Z) (xs ys : list Z) : list Z * Z :=
  match xs with
  | [] => ([], cz)
  | x :: xs =>
    let '(zx, cx) := mp_sub w x cx in
    match ys with
    | y :: ys =>
      let '(zy, cy) := mp_sub w y cy in
      let '(z, cz) := mp_add w (f zx zy) cz in
      let '(zs, cz) := bit_loop f g cx cy cz xs ys in (z :: zs, cz)
    | [] =>
      let '(z, cz) := mp_add w (g zx) cz in
      let '(zs, cz) := bit_loop f g cx cy cz xs [] in (z :: zs, cz)
    end
  end.
Definition cswap (x y : mpz) : mpz * mpz := if (length (lm x) <? length (lm y))%nat then (y, x) else (x, y).
Definition lmask (b : bool) : Z := if b then LB w - 1 else 0.
(* mpi.c:6660-6735 *)
Definition mpz_and (x y : mpz) : mpz :=
  let '(x, y) := cswap x y in
  let neg := Z.land (size x) (size y) <? 0 in
  let z :=
    if neg then let '(z, c) := bit_loop Z.lor (fun a => a) 1 1 1 (lm x) (lm y) in z ++ [c]
    else if Z.lor (size x) (size y) <? 0 then
      let fx := lmask (neg_p x) in let fy := lmask (neg_p y) in
      fst (bit_loop (fun a b => Z.land (Z.lxor a fx) (Z.lxor b fy)) (fun a => Z.land (Z.lxor a fx) fy)
                    (Z.b2z (neg_p x)) (Z.b2z (neg_p y)) 0 (lm x) (lm y))
    else map2 Z.land (firstn (length (lm y)) (lm x)) (lm y) in
  mkz neg (stripped z).
(* mpi.c:6766-6836 *)
Definition mpz_ior (x y : mpz) : mpz :=
  let '(x, y) := cswap x y in
  let neg := Z.lor (size x) (size y) <? 0 in
  let z :=
    if neg then
      let mixed := xorb (neg_p x) (neg_p y) in
      let fx := lmask (negb (neg_p x) && mixed) in let fy := lmask (negb (neg_p y) && mixed) in
      let '(z, c) := bit_loop (fun a b => Z.land (Z.lxor a fx) (Z.lxor b fy)) (fun a => Z.land (Z.lxor a fx) fy)
                       (Z.b2z (neg_p x)) (Z.b2z (neg_p y)) 1 (lm x) (lm y) in z ++ [c]
    else map2 Z.lor (firstn (length (lm y)) (lm x)) (lm y) ++ skipn (length (lm y)) (lm x) in
  mkz neg (stripped z).
(* mpi.c:6888-6947 *)
Definition mpz_xor (x y : mpz) : mpz :=
  let '(x, y) := cswap x y in
  let z :=
    if Z.lor (size x) (size y) <? 0 then
      let '(z, c) := bit_loop Z.lxor (fun a => a) (Z.b2z (neg_p x)) (Z.b2z (neg_p y)) (Z.b2z (xorb (neg_p x) (neg_p y))) (lm x) (lm y) in z ++ [c]
    else map2 Z.lxor (firstn (length (lm y)) (lm x)) (lm y) ++ skipn (length (lm y)) (lm x) in
  mkz (Z.lxor (size x) (size y) <? 0) (stripped z).
(* mpi.c:6982-6993 *)
Definition mpz_com (x : mpz) : outcome mpz :=
  if size x <? 0 then mpz_sub_ui (mpz_neg x) 1 else bind (mpz_add_ui x 1) (fun z => Ok (mpz_neg z)).
(* mpi.c:6737-6760 *)
Definition mpz_and_ui (x : mpz) (y : Z) : Z :=
  if size x <? 0 then Z.land y (LB w - 1 - tr w (nth 0 (lm x) 0 - 1))
  else if size x =? 0 then 0 else Z.land (nth 0 (lm x) 0) y.
Definition mpz_and_si (x : mpz) (y : Z) : mpz := if y <? 0 then mpz_and x (mpz_set_si y) else mpz_set_ui (mpz_and_ui x y).
(* mpi.c:6838-6882 *)
Definition mpz_ior_ui (x : mpz) (y : Z) : mpz :=
  if size x <? 0 then mpz_ior x (mpz_set_ui y)
  else if size x =? 0 then mpz_set_ui y
  else MkMpz (size x) (upd (lm x) 0 (Z.lor (nth 0 (lm x) 0) y)).
Definition mpz_ior_si (x : mpz) (y : Z) : mpz :=
  if y <? 0 then
    let v := mp_limb_cast y in
    let r := if size x <? 0 then tr w (Z.land (tr w (nth 0 (lm x) 0 - 1)) (tr w (v - 1)) + 1)
             else if 0 <? size x then tr w (Z.land (tr w (v - 1)) (LB w - 1 - nth 0 (lm x) 0) + 1)
             else v in
    mpz_neg (mpz_set_ui r)
  else mpz_ior_ui x y.
(* mpi.c:6949-6976 *)
Definition mpz_xor_ui (x : mpz) (y : Z) : mpz :=
  if size x <? 0 then mpz_xor x (mpz_set_ui y)
  else if size x =? 0 then mpz_set_ui y
  else mkz false (drop_top (upd (lm x) 0 (Z.lxor (nth 0 (lm x) 0) y))).
Definition mpz_xor_si (x : mpz) (y : Z) : mpz := if y <? 0 then mpz_xor x (mpz_set_si y) else mpz_xor_ui x y.
(* mpi.c:8966-8974 *)
Definition mpz_bitlen (x : mpz) : Z :=
  if (length (lm x) =? 0)%nat then 0 else Z.of_nat (length (lm x)) * w - mp_clz w (nth (length (lm x) - 1) (lm x) 0).
End Mpz.

Example mpz_ex : let x := MkMpz (-2) [0; 1] in
  mpz_divmod 64 x (MkMpz 1 [10]) = Ok (MkMpz (-1) [1844674407370955162], MkMpz 1 [4]) /\
  mpz_and 64 x (MkMpz 2 [7; 3]) = MkMpz 2 [0; 3] /\ mpz_setbit 64 (MkMpz (-1) [2]) 0 = MkMpz (-1) [3].
Proof. vm_compute. repeat split. Qed.
