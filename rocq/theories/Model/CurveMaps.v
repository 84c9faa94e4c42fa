(* Model of the maps between field elements and curve points of src/ecc.c: simplified Shallue-Woestijne-Ulas and Shallue-van
   de Woestijne on Weierstrass curves (4795-5288), Elligator 2 on Montgomery and Edwards curves (6152-6411, 7605-7865).
   None is a failed ASSERT. The constants 1/2, 1/3, 1/z, 1/a, 1/B, A/B and 1/B^2, which the contexts store (4042-4045,
   5938-5948, 7277-7283), are arguments or are computed in place; the torsion point selected by the hint is an argument.
   Constant time selects are ifs, the _nc additions (without carry) are additions, cleansing is left out. *)
From Verif.Base Require Import Prelude.
From Verif.Model Require Import Encoding NumTheory Field EcScalar Wei Ecdsa Edwards Eddsa Mont Convert.
Section Maps.
Variable p : positive.
Local Notation fe := (fe p).
Local Notation f2 := (fe_add f1 f1).
(* the ends of all maps: the root, with the parity of u *)
Definition map_finish (x y2 u : fe) : option (fe * fe) :=
  match fe_sqrt y2 with Some (y, true) => Some (x, fe_set_odd y (fe_is_odd u)) | _ => None end.
(* ---- Elligator 2: mont_elligator2 (6171-6252) and edwards_elligator2 (7620-7704), up to the scaling by B ---- *)
Definition elligator2 (solve : fe -> fe) (a0 z u : fe) : option (fe * fe) :=
  let lhs := fe_neg a0 in
  let rhs := fe_add (fe_mul (fe_sqr u) z) f1 in
  let rhs := if fe_is_zero rhs then f1 else rhs in
  let rhs := fe_inv rhs in
  let x1 := fe_mul lhs rhs in
  let x2 := fe_sub (fe_neg x1) a0 in
  let y1 := solve x1 in
  let y2 := solve x2 in
  let alpha := fe_is_square y1 in
  map_finish (if alpha then x1 else x2) (if alpha then y1 else y2) u.
(* mont_invert2 (6287-6301) and edwards_invert2 (7745-7757) after the division by B *)
Definition invert2 (a0 z x0 y0 : fe) (hint : Z) : option (fe * bool) :=
  let n := fe_add x0 a0 in
  let d := x0 in
  let '(n, d) := if Z.odd hint then (d, n) else (n, d) in
  match fe_isqrt p (fe_neg n) (fe_mul d z) with
  | Some (u, ret) => Some (fe_set_odd u (fe_is_odd y0), ret)
  | None => None
  end.
(* the bits of the hint above those of the field (5224, 6349, 7805) *)
Definition hint_bits (hint : Z) : Z :=
  let mask := if (fbits p mod 8 =? 0)%nat then 0xff else 2 ^ Z.of_nat (fbits p mod 8) - 1 in
  Z.land (Z.land (Z.shiftr hint 8) (Z.lnot mask)) 0xff.
Definition le_or (l : list Z) (b : Z) : list Z := firstn (fsize p - 1) l ++ [Z.lor (nth (fsize p - 1) l 0) b].
Section Mont.
Variables a b bi z : fe.
(* mont_solve_y0 (6152-6169), with a0 = a / b and b0 = 1 / b^2 (5945-5948) *)
Definition mont_a0 : fe := fe_mul a bi.
Definition mont_solve_y0 (x : fe) : fe :=
  let x2 := fe_sqr x in
  let x3 := fe_mul x2 x in
  let x2 := fe_mul x2 mont_a0 in
  let bx := if fe_equal b f1 then x else fe_mul x (fe_sqr bi) in
  fe_add (fe_add x3 x2) bx.
(* mont_elligator2 (6171-6260), mont_invert2 (6262-6306) *)
Definition mont_elligator2 (u : fe) : option (mge p) :=
  match elligator2 mont_solve_y0 mont_a0 z u with
  | Some (x, y) => Some (MkM (mont_mul_b p b x) (mont_mul_b p b y) false)
  | None => None
  end.
Definition mont_invert2 (q : mge p) (hint : Z) : option (fe * bool) :=
  match invert2 mont_a0 z (mont_div_b p b bi (mx p q)) (mont_div_b p b bi (my p q)) hint with
  | Some (u, ret) => Some (u, ret && negb (minf p q))
  | None => None
  end.
(* mont_point_from_uniform (6308-6319), mont_point_to_uniform (6321-6355), mont_point_from_hash (6357-6372) *)
Definition mont_point_from_uniform (raw : list Z) : option (mge p) := mont_elligator2 (fst (xfe_import p raw)).
Definition mont_point_to_uniform (T q : mge p) (hint : Z) : option (list Z * bool) :=
  match mont_invert2 (mge_add p a b q T) hint with
  | Some (u, ret) => Some (le_or (xfe_export p u) (hint_bits hint), ret)
  | None => None
  end.
Definition mont_point_from_hash (raw : list Z) : option (mge p) :=
  match mont_point_from_uniform (firstn (fsize p) raw), mont_point_from_uniform (firstn (fsize p) (skipn (fsize p) raw)) with
  | Some p1, Some p2 => Some (mge_add p a b p1 p2)
  | _, _ => None
  end.
End Mont.
Section Edwards.
Variables a d A B Bi c z : fe.
Variable invert : bool.
(* edwards_solve_y0 (7605-7618), with A0 = A / B and B0 = 1 / B^2 (7279-7283) *)
Definition edwards_A0 : fe := fe_mul A Bi.
Definition edwards_solve_y0 (x : fe) : fe :=
  let x2 := fe_sqr x in
  let x3 := fe_mul x2 x in
  let x2 := fe_mul x2 edwards_A0 in
  let bx := fe_mul x (fe_sqr Bi) in
  fe_add (fe_add x3 x2) bx.
(* edwards_elligator2 (7620-7712), edwards_invert2 (7714-7762) *)
Definition edwards_elligator2 (u : fe) : option (xge p) :=
  match elligator2 edwards_solve_y0 edwards_A0 z u with
  | Some (x, y) => Some (mont_to_edwards p c invert false (MkM (fe_mul x B) (fe_mul y B) false))
  | None => None
  end.
Definition edwards_invert2 (q : xge p) (hint : Z) : option (fe * bool) :=
  let m := edwards_to_mont p c invert false q in
  match invert2 edwards_A0 z (fe_mul (mx p m) Bi) (fe_mul (my p m) Bi) hint with
  | Some (u, ret) => Some (u, ret && negb (minf p m))
  | None => None
  end.
(* edwards_point_from_uniform (7764-7775), edwards_point_to_uniform (7777-7811), edwards_point_from_hash (7813-7829) *)
Definition edwards_point_from_uniform (raw : list Z) : option (xge p) := edwards_elligator2 (fst (xfe_import p raw)).
Definition edwards_point_to_uniform (T q : xge p) (hint : Z) : option (list Z * bool) :=
  match edwards_invert2 (xge_mixed_add p a d q T) hint with
  | Some (u, ret) => Some (le_or (xfe_export p u) (hint_bits hint), ret)
  | None => None
  end.
Definition edwards_point_from_hash (raw : list Z) : option (xge p) :=
  match edwards_point_from_uniform (firstn (fsize p) raw), edwards_point_from_uniform (firstn (fsize p) (skipn (fsize p) raw)) with
  | Some p1, Some p2 => Some (xge_add p a d p1 p2)
  | _, _ => None
  end.
End Edwards.
Section Wei.
Variables a b z ai zi i2 i3 c : fe.
Variable h : Z.
Local Notation solve := (wei_solve_y2 p a b).
(* wei_sswu (4795-4869) *)
Definition wei_sswu (u : fe) : option (wge p) :=
  let z2 := fe_sqr z in
  let ba := fe_mul (fe_neg b) ai in
  let bza := fe_mul (fe_mul b zi) ai in
  let u2 := fe_sqr u in
  let u4 := fe_sqr u2 in
  let t1 := fe_add (fe_mul z2 u4) (fe_mul z u2) in
  let '(t1, nz) := fe_invert t1 in
  let x1 := fe_mul ba (fe_add t1 f1) in
  let x1 := if nz then x1 else bza in
  let x2 := fe_mul (fe_mul z u2) x1 in
  let y1 := solve x1 in
  let y2 := solve x2 in
  let alpha := fe_is_square y1 in
  match map_finish (if alpha then x1 else x2) (if alpha then y1 else y2) u with
  | Some (x, y) => Some (MkW x y false)
  | None => None
  end.
(* wei_sswui (4871-4950) *)
Definition wei_sswui (q : wge p) (hint : Z) : option (fe * bool) :=
  let r := hint mod 4 in
  let a2x2 := fe_mul (fe_sqr a) (fe_sqr (wx q)) in
  let abx2 := wei_mul_a p a b in
  let abx2 := fe_mul (fe_add abx2 abx2) (wx q) in
  let b23 := fe_mul3 (fe_sqr b) in
  let axb := fe_add (wei_mul_a p a (wx q)) b in
  match fe_sqrt (fe_sub (fe_sub a2x2 abx2) b23) with
  | Some (c, ret) =>
    let n0 := fe_neg (fe_sub axb c) in
    let n1 := fe_neg (fe_add axb c) in
    let d0 := fe_mul (fe_add axb axb) z in
    let d1 := fe_mul (fe_add b b) z in
    match fe_isqrt p (if Z.odd r then n1 else n0) (if 2 <=? r then d1 else d0) with
    | Some (u, ret') => Some (fe_set_odd u (fe_is_odd (wy q)), ret && ret' && negb (winf q))
    | None => None
    end
  | None => None
  end.
(* wei_svdwf (4952-5036) *)
Definition wei_svdwf (u : fe) : fe * fe :=
  let gz := solve z in
  let z3 := fe_mul (fe_sqr zi) i3 in
  let u2 := fe_sqr u in
  let u4 := fe_sqr u2 in
  let t1 := fe_add u2 gz in
  let t2 := fe_inv (fe_mul u2 t1) in
  let t3 := fe_mul (fe_mul u4 t2) c in
  let t4 := fe_mul (fe_sqr t1) t1 in
  let x1 := fe_sub (fe_mul (fe_sub c z) i2) t3 in
  let x2 := fe_sub t3 (fe_mul (fe_add c z) i2) in
  let x3 := fe_sub z (fe_mul (fe_mul t4 t2) z3) in
  let y1 := solve x1 in
  let y2 := solve x2 in
  let y3 := solve x3 in
  let alpha := fe_is_square y1 in
  let beta := fe_is_square y2 in
  if alpha then (x1, y1) else if beta then (x2, y2) else (x3, y3).
(* wei_svdw (5038-5053) *)
Definition wei_svdw (u : fe) : option (wge p) :=
  let '(x, y) := wei_svdwf u in
  match map_finish x y u with Some (x, y) => Some (MkW x y false) | None => None end.
(* wei_svdwi (5055-5172) *)
Definition wei_svdwi (q : wge p) (hint : Z) : option (fe * bool) :=
  let x := wx q in
  let r := hint mod 4 in
  let z2 := fe_sqr z in
  let z3 := fe_mul z2 z in
  let z4 := fe_sqr z2 in
  let gz := fe_add z3 b in
  let n0 := fe_mul3 (fe_mul3 (fe_add (fe_mul (fe_sqr x) z2) z4)) in
  let n1 := fe_mul x z3 in
  let n1 := fe_mul3 (fe_mul3 (fe_add n1 n1)) in
  let n2 := fe_mul4 (fe_mul3 (fe_mul (fe_sub x z) gz)) in
  match fe_sqrt (fe_add (fe_sub n0 n1) n2) with
  | Some (t4, sqr) =>
    let t4 := fe_mul t4 z in
    let t5 := fe_sub (fe_mul3 (fe_sub z3 (fe_mul x z2))) (fe_add gz gz) in
    let n0 := fe_add (fe_add x x) z in
    let c0 := fe_sub c n0 in
    let c1 := fe_add c n0 in
    let n := if r =? 0 then fe_mul gz c0 else if r =? 1 then fe_mul gz c1 else if r =? 2 then fe_add t5 t4 else fe_sub t5 t4 in
    let d0 := if r =? 0 then c1 else if r =? 1 then c0 else f2 in
    match fe_isqrt p n d0 with
    | Some (u, ret) =>
      let '(n0, _) := wei_svdwf u in
      Some (fe_set_odd u (fe_is_odd (wy q)), ((r <? 2) || sqr) && ret && fe_equal n0 x && negb (winf q))
    | None => None
    end
  | None => None
  end.
(* wei_point_from_uniform (5174-5187), wei_point_to_uniform (5189-5230), wei_point_from_hash (5232-5247) *)
Definition wei_point_from_uniform (raw : list Z) : option (wge p) :=
  let u := fst (fe_import p raw) in if zero_a p a then wei_svdw u else wei_sswu u.
Definition wei_point_to_uniform (T q : wge p) (hint : Z) : option (list Z * bool) :=
  let q := if 1 <? h then wge_add p a q T else q in
  match (if zero_a p a then wei_svdwi q hint else wei_sswui q hint) with
  | Some (u, ret) => let l := fe_export p u in Some (Z.lor (nth 0 l 0) (hint_bits hint) :: skipn 1 l, ret)
  | None => None
  end.
Definition wei_point_from_hash (raw : list Z) : option (wge p) :=
  match wei_point_from_uniform (firstn (fsize p) raw), wei_point_from_uniform (firstn (fsize p) (skipn (fsize p) raw)) with
  | Some p1, Some p2 => Some (wge_add p a p1 p2)
  | _, _ => None
  end.
End Wei.
End Maps.
(* wei_point_to_hash (5249-5288), mont_point_to_hash (6374-6411), edwards_point_to_hash (7831-7865): the same loop over
   the three kinds of points. Each draw is what the DRBG gives in one round: the octets u1 and the hint, already masked and
   with the subgroup in it. p2 starts as whatever is on the stack. A round whose first point has order two `continue`s: in a
   do loop this goes to the condition, which reads p2 and the hint of the round before (the draw of the hint is then not made).
   None is a failed ASSERT, Some None that the draws are used up. *)
Section ToHash.
Variable G : Type.
Variables (from : list Z -> option G) (skip : G -> bool) (sub : G -> G -> G) (to_u : G -> Z -> option (list Z * bool)).
Fixpoint point_to_hash (P p2 : G) (hint : Z) (draws : list (list Z * Z)) : option (option (list Z)) :=
  match draws with
  | [] => Some None
  | (u1, hint') :: draws =>
    match from u1 with
    | None => None
    | Some p1 =>
      let '(p2, hint) := if skip p1 then (p2, hint) else (sub P p1, hint') in
      match to_u p2 hint with
      | None => None
      | Some (u2, true) => Some (Some (u1 ++ u2))
      | Some (u2, false) => point_to_hash P p2 hint draws
      end
    end
  end.
End ToHash.
