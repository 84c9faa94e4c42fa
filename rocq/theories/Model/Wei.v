(* Model of the short Weierstrass points of src/ecc.c: affine (wge, 2108-2808), Jacobian (jge, 2814-4006) and the
   multiplication algorithms (4123-4793). Field elements are those of Model.Field. In-place updates are written as
   functions of the old value (aliasing of outputs with inputs is not modelled); constant time selects are ifs; cleansing
   is left out. None is a failed ASSERT. *)
From Verif.Base Require Import Prelude.
From Verif.Model Require Import Field NumTheory EcScalar.
Section Points.
Variable p : positive.
Local Notation fe := (fe p).
(* wge_t, jge_t (lines 371-386) *)
Record wge := MkW { wx : fe; wy : fe; winf : bool }.
Record jge := MkJ { jx : fe; jy : fe; jz : fe; jinf : bool; jaff : bool }.
(* ec->a, ec->b, ec->h *)
Variables a b : fe.
Variable h : Z.
(* ec->zero_a, ec->three_a (4047-4050) *)
Definition zero_a : bool := fe_is_zero a.
Definition three_a : bool := fe_equal a (fe_neg (fe_set_int p 3)).
(* wei_mul_a (4124-4135), wei_solve_y2 (4138-4150), wei_validate_xy (4153-4162) *)
Definition wei_mul_a (x : fe) : fe :=
  if zero_a then f0 else if three_a then fe_mul3 (fe_neg x) else fe_mul x a.
Definition wei_solve_y2 (x : fe) : fe := fe_add (fe_add (wei_mul_a x) (fe_mul (fe_sqr x) x)) b.
Definition wei_validate_xy (x y : fe) : bool := fe_equal (fe_sqr y) (wei_solve_y2 x).
(* wge_zero (2109-2116), wge_validate (2129-2131) *)
Definition wge_zero : wge := MkW f0 f0 true.
Definition wge_validate (q : wge) : bool := wei_validate_xy (wx q) (wy q) || winf q.
(* wge_set_x (2134-2156): sign is -1, 0 or 1 *)
Definition wge_set_x (x : fe) (sign : Z) : option (wge * bool) :=
  match fe_sqrt (wei_solve_y2 x) with
  | None => None
  | Some (y, ret) =>
    let '(y, ret) :=
      if sign =? -1 then (y, ret)
      else let y := fe_set_odd y (sign =? 1) in
           (y, if 1 <? h then ret && negb (fe_is_zero y && negb (sign =? 0)) else ret) in
    Some (MkW (fe_select x f0 (negb ret)) (fe_select y f0 (negb ret)) (negb ret), ret)
  end.
(* wge_set_xy (2159-2169) *)
Definition wge_set_xy (x y : fe) : wge * bool :=
  let ret := wei_validate_xy x y in
  (MkW (fe_select x f0 (negb ret)) (fe_select y f0 (negb ret)) (negb ret), ret).
(* wge_select (2283-2295), wge_equal (2308-2322), wge_is_even (2344-2346), wge_equal_x (2349-2351) *)
Definition wge_select (p1 p2 : wge) (flag : bool) : wge :=
  MkW (fe_select (wx p1) (wx p2) flag) (fe_select (wy p1) (wy p2) flag) (if flag then winf p2 else winf p1).
Definition wge_equal (p1 p2 : wge) : bool :=
  (negb (winf p1 || winf p2) && fe_equal (wx p1) (wx p2) && fe_equal (wy p1) (wy p2)) || (winf p1 && winf p2).
Definition wge_is_square (q : wge) : bool := fe_is_square (wy q) && negb (winf q).
Definition wge_is_even (q : wge) : bool := negb (fe_is_odd (wy q)) && negb (winf q).
Definition wge_equal_x (q : wge) (x : fe) : bool := fe_equal (wx q) x && negb (winf q).
(* wge_neg (2354-2361), wge_neg_cond (2364-2371) *)
Definition wge_neg (q : wge) : wge := MkW (wx q) (fe_neg (wy q)) (winf q).
Definition wge_neg_cond (q : wge) (flag : bool) : wge := MkW (wx q) (fe_neg_cond (wy q) flag) (winf q).
(* the end of each affine formula: x3 = l^2 - x1 - x2, y3 = l (x1 - x3) - y1 *)
Definition wge_finish (l x1 y1 x2 : fe) : fe * fe :=
  let x3 := fe_sub (fe_sub (fe_sqr l) x1) x2 in
  (x3, fe_sub (fe_mul (fe_sub x1 x3) l) y1).
(* wge_dbl_var (2374-2422) *)
Definition wge_dbl_var (q : wge) : option wge :=
  if winf q then Some wge_zero
  else if (1 <? h) && fe_is_zero (wy q) then Some wge_zero
  else match fe_invert_var (fe_add (wy q) (wy q)) with
  | Some (z, true) =>
    let l := fe_mul (fe_add (fe_mul3 (fe_sqr (wx q))) a) z in
    let '(x3, y3) := wge_finish l (wx q) (wy q) (wx q) in
    Some (MkW x3 y3 false)
  | _ => None
  end.
(* wge_add_var (2425-2501) *)
Definition wge_add_var (p1 p2 : wge) : option wge :=
  if winf p1 then Some p2
  else if winf p2 then Some p1
  else if fe_equal (wx p1) (wx p2) then
    if fe_equal (wy p1) (wy p2) then wge_dbl_var p1 else Some wge_zero
  else if fe_equal (wy p1) (wy p2) then
    Some (MkW (fe_sub (fe_neg (wx p1)) (wx p2)) (fe_neg (wy p1)) false)
  else match fe_invert_var (fe_sub (wx p1) (wx p2)) with
  | Some (z, true) =>
    let l := fe_mul (fe_sub (wy p1) (wy p2)) z in
    let '(x3, y3) := wge_finish l (wx p1) (wy p1) (wx p2) in
    Some (MkW x3 y3 false)
  | _ => None
  end.
Definition wge_sub_var (p1 p2 : wge) : option wge := wge_add_var p1 (wge_neg p2).
(* wge_dbl (2511-2549) *)
Definition wge_dbl (q : wge) : wge :=
  let inf := winf q || ((1 <? h) && fe_is_zero (wy q)) in
  let z := fst (fe_invert (fe_add (wy q) (wy q))) in
  let l := fe_mul (fe_add (fe_mul3 (fe_sqr (wx q))) a) z in
  let '(x3, y3) := wge_finish l (wx q) (wy q) (wx q) in
  MkW (fe_select x3 f0 inf) (fe_select y3 f0 inf) inf.
(* wge_add (2552-2637): Brier and Joye's unified slope with the degenerate case patched *)
Definition wge_add (p1 p2 : wge) : wge :=
  let m := fe_add (wy p1) (wy p2) in
  let r := fe_add (fe_sub (fe_sqr (fe_add (wx p1) (wx p2))) (fe_mul (wx p1) (wx p2))) a in
  let degenerate := fe_is_zero m && fe_is_zero r in
  let m := fe_select m (fe_sub (wx p1) (wx p2)) degenerate in
  let r := fe_select r (fe_add (wy p1) (wy p1)) degenerate in
  let '(mi, ok) := fe_invert m in
  let l := fe_mul r mi in
  let neg := negb ok && negb (winf p1 || winf p2) in
  let '(x3, y3) := wge_finish l (wx p1) (wy p1) (wx p2) in
  let inf := neg || (winf p1 && winf p2) in
  let x3 := fe_select x3 (wx p2) (winf p1) in
  let y3 := fe_select y3 (wy p2) (winf p1) in
  let x3 := fe_select x3 (wx p1) (winf p2) in
  let y3 := fe_select y3 (wy p1) (winf p2) in
  MkW (fe_select x3 f0 inf) (fe_select y3 f0 inf) inf.
(* wge_sub (2640-2644) *)
Definition wge_sub (p1 p2 : wge) : wge := wge_add p1 (wge_neg p2).
(* wge_set_jge (2647-2668), wge_set_jge_var (2671-2706) *)
Definition wge_set_jge (q : jge) : wge :=
  let i := fst (fe_invert (jz q)) in
  let ii := fe_sqr i in
  MkW (fe_mul (jx q) ii) (fe_mul (fe_mul (jy q) ii) i) (jinf q).
Definition wge_set_jge_var (q : jge) : option wge :=
  if jinf q then Some wge_zero
  else if jaff q then Some (MkW (jx q) (jy q) false)
  else match fe_invert_var (jz q) with
  | Some (i, true) => let ii := fe_sqr i in Some (MkW (fe_mul (jx q) ii) (fe_mul (fe_mul (jy q) ii) i) false)
  | _ => None
  end.
(* wge_set_jge_all_var (2709-2749): the first loop's prefix products, then the two others run backwards with acc *)
Fixpoint all_prefix (acc : fe) (l : list jge) : list fe * fe :=
  match l with
  | [] => ([], acc)
  | q :: t => if jinf q then let '(o, r) := all_prefix acc t in (f0 :: o, r)
              else let '(o, r) := all_prefix (fe_mul acc (jz q)) t in (acc :: o, r)
  end.
Fixpoint all_back (acc : fe) (l : list jge) (o : list fe) : list wge * fe :=
  match l, o with
  | q :: t, x :: o' =>
    let '(out, acc) := all_back acc t o' in
    if jinf q then (wge_zero :: out, acc)
    else
      let i := fe_mul x acc in
      let z2 := fe_sqr i in
      let z3 := fe_mul z2 i in
      (MkW (fe_mul (jx q) z2) (fe_mul (jy q) z3) false :: out, fe_mul acc (jz q))
  | _, _ => ([], acc)
  end.
Definition wge_set_jge_all_var (l : list jge) : option (list wge) :=
  let '(o, acc) := all_prefix f1 l in
  match fe_invert_var acc with
  | Some (acc, true) => Some (fst (all_back acc l o))
  | _ => None
  end.
(* wge_endo_beta (2801-2808) *)
Definition wge_endo_beta (beta : fe) (q : wge) : wge := MkW (fe_mul (wx q) beta) (wy q) (winf q).
(* ---- Jacobian ---- *)
(* jge_zero (2815-2824), jge_select (2839-2853) *)
Definition jge_zero : jge := MkJ f1 f1 f0 true false.
Definition jge_select (p1 p2 : jge) (flag : bool) : jge :=
  MkJ (fe_select (jx p1) (jx p2) flag) (fe_select (jy p1) (jy p2) flag) (fe_select (jz p1) (jz p2) flag)
      (if flag then jinf p2 else jinf p1) (if flag then jaff p2 else jaff p1).
(* jge_equal (2874-2899) *)
Definition jge_equal (p1 p2 : jge) : bool :=
  let z1 := fe_sqr (jz p1) in
  let z2 := fe_sqr (jz p2) in
  (negb (jinf p1 || jinf p2) && fe_equal (fe_mul (jx p1) z2) (fe_mul (jx p2) z1)
    && fe_equal (fe_mul (jy p1) (fe_mul z2 (jz p2))) (fe_mul (jy p2) (fe_mul z1 (jz p1)))) || (jinf p1 && jinf p2).
(* jge_is_square (2902-2910), jge_is_square_var (2913-2924) *)
Definition jge_is_square (q : jge) : bool := fe_is_square (fe_mul (jy q) (jz q)) && negb (jinf q).
Definition jge_is_square_var (q : jge) : option bool :=
  if jinf q then Some false else fe_is_square_var (fe_mul (jy q) (jz q)).
(* jge_equal_x (2927-2936) *)
Definition jge_equal_x (q : jge) (x : fe) : bool := fe_equal (jx q) (fe_mul (fe_sqr (jz q)) x) && negb (jinf q).
(* fe_set_sc (1495-1512): the scalar as a field element, and whether it was below p (sizes compared through values) *)
Definition fe_set_sc (x : Z) : fe * bool := (fe_of p (if x <? Zpos p then x else 0), x <? Zpos p).
(* jge_equal_r_var (2939-2990), with wei_has_small_gap (4104-4121) and wei_has_high_order (4090-4101);
   ec->sc_p = p mod n, ec->fe_n = n mod p *)
Definition wei_has_high_order (n : Z) : bool := Zpos p <=? n.
Definition wei_has_small_gap (n : Z) : bool := (Zpos p <=? n) || (Zpos p / n =? 1).
Definition jge_equal_r_var (n : Z) (q : jge) (x : Z) : option bool :=
  if wei_has_small_gap n then
    if jinf q then Some false
    else let '(rx, ok) := fe_set_sc x in
      if negb ok then Some false
      else
        let zz := fe_sqr (jz q) in
        let rx := fe_mul rx zz in
        if fe_equal (jx q) rx then Some true
        else if wei_has_high_order n then Some false
        else if Zpos p mod n <=? x then Some false
        else Some (fe_equal (jx q) (fe_add rx (fe_mul (fe_of p n) zz)))
  else None.
(* jge_neg (2993-3005), jge_neg_cond (3008-3020) *)
Definition jge_neg (q : jge) : jge := MkJ (jx q) (fe_select (fe_neg (jy q)) f1 (jinf q)) (jz q) (jinf q) (jaff q).
Definition jge_neg_cond (q : jge) (flag : bool) : jge :=
  MkJ (jx q) (fe_select (fe_neg_cond (jy q) flag) f1 (jinf q)) (jz q) (jinf q) (jaff q).
(* jge_dblj (3023-3067), jge_dbl0 (3070-3113), jge_dbl3 (3116-3157) *)
Definition jge_dblj (q : jge) : fe * fe * fe :=
  let xx := fe_sqr (jx q) in
  let yy := fe_sqr (jy q) in
  let zz := fe_sqr (jz q) in
  let s := fe_mul (fe_mul4 (jx q)) yy in
  let m := fe_add (fe_mul3 xx) (fe_mul (fe_sqr zz) a) in
  let t := fe_sub (fe_sub (fe_sqr m) s) s in
  (t, fe_sub (fe_mul m (fe_sub s t)) (fe_mul8 (fe_sqr yy)), fe_mul (jz q) (fe_add (jy q) (jy q))).
Definition jge_dbl0 (q : jge) : fe * fe * fe :=
  let A := fe_sqr (jx q) in
  let B := fe_sqr (jy q) in
  let C := fe_sqr B in
  let d := fe_sub (fe_sub (fe_sqr (fe_add (jx q) B)) A) C in
  let d := fe_add d d in
  let e := fe_mul3 A in
  let f := fe_sqr e in
  let x3 := fe_sub (fe_sub f d) d in
  (x3, fe_sub (fe_mul e (fe_sub d x3)) (fe_mul8 C), fe_mul (jz q) (fe_add (jy q) (jy q))).
Definition jge_dbl3 (q : jge) : fe * fe * fe :=
  let delta := fe_sqr (jz q) in
  let gamma := fe_sqr (jy q) in
  let beta := fe_mul (jx q) gamma in
  let alpha := fe_mul (fe_mul3 (fe_sub (jx q) delta)) (fe_add (jx q) delta) in
  let z3 := fe_sub (fe_sub (fe_sqr (fe_add (jy q) (jz q))) gamma) delta in
  let theta := fe_mul4 beta in
  let x3 := fe_sub (fe_sub (fe_sqr alpha) theta) theta in
  (x3, fe_sub (fe_mul alpha (fe_sub theta x3)) (fe_mul8 (fe_sqr gamma)), z3).
Definition jge_dbl_xyz (q : jge) : fe * fe * fe :=
  if zero_a then jge_dbl0 q else if three_a then jge_dbl3 q else jge_dblj q.
(* jge_dbl_var (3160-3184) *)
Definition jge_dbl_var (q : jge) : jge :=
  if jinf q then jge_zero
  else if (1 <? h) && fe_is_zero (jy q) then jge_zero
  else let '(x3, y3, z3) := jge_dbl_xyz q in MkJ x3 y3 z3 false false.
(* jge_addsub_var (3187-3292): sign true adds, false subtracts *)
Definition jge_addsub_var (p1 p2 : jge) (sign : bool) : jge :=
  let z1z1 := fe_sqr (jz p1) in
  let z2z2 := fe_sqr (jz p2) in
  let u1 := fe_mul (jx p1) z2z2 in
  let u2 := fe_mul (jx p2) z1z1 in
  let s1 := fe_mul (fe_mul (jy p1) (jz p2)) z2z2 in
  let s2 := fe_mul (fe_mul (jy p2) (jz p1)) z1z1 in
  let H := fe_sub u2 u1 in
  let r := if sign then fe_sub s2 s1 else fe_add s2 s1 in
  if fe_is_zero H then (if fe_is_zero r then jge_dbl_var p1 else jge_zero)
  else
    let hh := fe_sqr H in
    let hhh := fe_mul H hh in
    let v := fe_mul u1 hh in
    let x3 := fe_sub (fe_sub (fe_sub (fe_sqr r) hhh) v) v in
    let v := if sign then fe_sub v x3 else fe_sub x3 v in
    MkJ x3 (fe_sub (fe_mul r v) (fe_mul s1 hhh)) (fe_mul (fe_mul (jz p1) (jz p2)) H) false false.
(* jge_mixed_addsub_var (3341-3432) *)
Definition jge_mixed_addsub_var (p1 : jge) (x2 y2 : fe) (sign : bool) : jge :=
  let z1z1 := fe_sqr (jz p1) in
  let u2 := fe_mul x2 z1z1 in
  let s2 := fe_mul (fe_mul y2 (jz p1)) z1z1 in
  let H := fe_sub u2 (jx p1) in
  let r := if sign then fe_sub s2 (jy p1) else fe_add s2 (jy p1) in
  if fe_is_zero H then (if fe_is_zero r then jge_dbl_var p1 else jge_zero)
  else
    let r := fe_add r r in
    let i := fe_add H H in
    let z3 := fe_mul (jz p1) i in
    let i := fe_sqr i in
    let j := fe_mul H i in
    let v := fe_mul i (jx p1) in
    let x3 := fe_sub (fe_sub (fe_sub (fe_sqr r) j) v) v in
    let v := if sign then fe_sub v x3 else fe_sub x3 v in
    let j := fe_mul j (jy p1) in
    MkJ x3 (fe_sub (fe_sub (fe_mul r v) j) j) z3 false false.
(* jge_add_var (3295-3315), jge_sub_var (3318-3338) *)
Definition jge_add_var (p1 p2 : jge) : jge :=
  if jinf p1 then p2 else if jinf p2 then p1
  else if jaff p2 then jge_mixed_addsub_var p1 (jx p2) (jy p2) true
  else jge_addsub_var p1 p2 true.
Definition jge_sub_var (p1 p2 : jge) : jge :=
  if jinf p1 then jge_neg p2 else if jinf p2 then p1
  else if jaff p2 then jge_mixed_addsub_var p1 (jx p2) (jy p2) false
  else jge_addsub_var p1 p2 false.
(* jge_set_wge (3918-3927) *)
Definition jge_set_wge (q : wge) : jge :=
  MkJ (fe_select (wx q) f1 (winf q)) (fe_select (wy q) f1 (winf q)) (fe_select f1 f0 (winf q)) (winf q) (negb (winf q)).
(* jge_mixed_add_var (3435-3450), jge_mixed_sub_var (3453-3469) *)
Definition jge_mixed_add_var (p1 : jge) (p2 : wge) : jge :=
  if jinf p1 then jge_set_wge p2 else if winf p2 then p1 else jge_mixed_addsub_var p1 (wx p2) (wy p2) true.
Definition jge_mixed_sub_var (p1 : jge) (p2 : wge) : jge :=
  if jinf p1 then jge_neg (jge_set_wge p2) else if winf p2 then p1 else jge_mixed_addsub_var p1 (wx p2) (wy p2) false.
(* jge_dbl (3472-3502) *)
Definition jge_dbl (q : jge) : jge :=
  let inf := jinf q || ((1 <? h) && fe_is_zero (jy q)) in
  let '(x3, y3, z3) := jge_dbl_xyz q in
  if 1 <? h then MkJ (fe_select x3 f1 inf) (fe_select y3 f1 inf) (fe_select z3 f0 inf) inf false
  else MkJ x3 y3 z3 inf false.
(* the common part of jge_add and jge_mixed_add: u1, u2, s1, s2 and z0, z4a = a z0^4 *)
Definition jge_unified (u1 u2 s1 s2 z0 z4a : fe) : fe * fe * fe :=
  let t := fe_add u1 u2 in
  let m := fe_add s1 s2 in
  let r := fe_sub (fe_sqr t) (fe_mul u1 u2) in
  let r := if zero_a then r else fe_add r z4a in
  let degenerate := fe_is_zero m && fe_is_zero r in
  let m := fe_select m (fe_sub u1 u2) degenerate in
  let r := fe_select r (fe_add s1 s1) degenerate in
  let f := fe_mul z0 m in
  let l := fe_sqr m in
  let g := fe_mul t l in
  let w := fe_sub (fe_sqr r) g in
  let ll := fe_select (fe_sqr l) f0 degenerate in
  (fe_mul4 w, fe_mul4 (fe_sub (fe_mul (fe_sub (fe_sub g w) w) r) ll), fe_add f f).
(* jge_add (3505-3731) *)
Definition jge_add (p1 p2 : jge) : jge :=
  let z1z1 := fe_sqr (jz p1) in
  let z2z2 := fe_sqr (jz p2) in
  let z0 := fe_mul (jz p1) (jz p2) in
  let '(x3, y3, z3) :=
    jge_unified (fe_mul (jx p1) z2z2) (fe_mul (jx p2) z1z1) (fe_mul (fe_mul (jy p1) z2z2) (jz p2))
                (fe_mul (fe_mul (jy p2) z1z1) (jz p1)) z0 (wei_mul_a (fe_sqr (fe_sqr z0))) in
  let inf := fe_is_zero z3 && negb (jinf p1 || jinf p2) in
  let sel (v v1 v2 z : fe) := fe_select (fe_select (fe_select v v2 (jinf p1)) v1 (jinf p2)) z inf in
  MkJ (sel x3 (jx p1) (jx p2) f1) (sel y3 (jy p1) (jy p2) f1) (sel z3 (jz p1) (jz p2) f0) (inf || (jinf p1 && jinf p2)) false.
(* jge_sub (3734-3738) *)
Definition jge_sub (p1 p2 : jge) : jge := jge_add p1 (jge_neg p2).
(* jge_mixed_add (3741-3908) *)
Definition jge_mixed_add (p1 : jge) (p2 : wge) : jge :=
  let z1z1 := fe_sqr (jz p1) in
  let '(x3, y3, z3) :=
    jge_unified (jx p1) (fe_mul (wx p2) z1z1) (jy p1) (fe_mul (fe_mul (wy p2) z1z1) (jz p1)) (jz p1) (wei_mul_a (fe_sqr z1z1)) in
  let inf := fe_is_zero z3 && negb (jinf p1 || winf p2) in
  let sel (v v1 v2 z : fe) := fe_select (fe_select (fe_select v v2 (jinf p1)) v1 (winf p2)) z inf in
  MkJ (sel x3 (jx p1) (wx p2) f1) (sel y3 (jy p1) (wy p2) f1) (sel z3 (jz p1) f1 f0) (inf || (jinf p1 && winf p2)) false.
Definition jge_mixed_sub (p1 : jge) (p2 : wge) : jge := jge_mixed_add p1 (wge_neg p2).
(* jge_validate (3930-3951) *)
Definition jge_validate (q : jge) : bool :=
  let z2 := fe_sqr (jz q) in
  let z4 := fe_sqr z2 in
  let z6 := fe_mul (fe_mul z4 z2) b in
  fe_equal (fe_sqr (jy q)) (fe_add (fe_add (fe_mul (wei_mul_a (jx q)) z4) (fe_mul (fe_sqr (jx q)) (jx q))) z6).
(* jge_endo_beta (3994-4006) *)
Definition jge_endo_beta (beta : fe) (q : jge) : jge :=
  MkJ (fe_select (fe_mul (jx q) beta) f1 (jinf q)) (jy q) (jz q) (jinf q) (jaff q).
(* ---- tables ---- *)
(* x, x + d, x + 2d, ... *)
Fixpoint steps_from (x d : jge) (cnt : nat) : list jge :=
  match cnt with O => [] | S c => x :: steps_from (jge_add_var x d) d c end.
(* jge_naf_points_var (3954-3964): 2^(width-2) odd multiples *)
Definition jge_naf_points_var (q : wge) (width : nat) : list jge :=
  let o := jge_set_wge q in steps_from o (jge_dbl_var o) (2 ^ (width - 2)).
(* wge_naf_points_var (2781-2798) *)
Definition wge_naf_points_var (q : wge) (width : nat) : option (list wge) :=
  wge_set_jge_all_var (jge_naf_points_var q width).
(* wge_fixed_points_var (2752-2778): steps windows of 16 multiples of g, 16 g, 256 g, ... *)
Fixpoint fixed_windows (g : jge) (steps : nat) : list jge :=
  match steps with
  | O => []
  | S s => steps_from jge_zero g 16 ++ fixed_windows (Nat.iter 4 jge_dbl_var g) s
  end.
Definition nsteps (bits : nat) : nat := ((bits + 3) / 4)%nat.
Definition wge_fixed_points_var (sbits : nat) (q : wge) : option (list wge) :=
  wge_set_jge_all_var (fixed_windows (jge_set_wge q) (nsteps sbits)).
(* jge_jsf_points_var (3967-3974), jge_jsf_points_endo_var (3977-3991) *)
Definition jge_jsf_points_var (p1 p2 : wge) : list jge :=
  let o0 := jge_set_wge p1 in
  [o0; jge_mixed_add_var o0 p2; jge_mixed_sub_var o0 p2; jge_set_wge p2].
Definition jge_jsf_points_endo_var (beta : fe) (p1 : wge) : option (list jge) :=
  let p2 := wge_endo_beta beta p1 in
  match wge_add_var p1 p2 with
  | None => None
  | Some p3 => let o0 := jge_set_wge p1 in Some [o0; jge_set_wge p3; jge_mixed_sub_var o0 p2; jge_set_wge p2]
  end.
(* the constant time lookup loops: t keeps its old value unless some j equals b *)
Fixpoint wge_lookup (t : wge) (wnd : list wge) (j b : Z) : wge :=
  match wnd with [] => t | q :: r => wge_lookup (wge_select t q (j =? b)) r (j + 1) b end.
Fixpoint jge_lookup (t : jge) (wnd : list jge) (j b : Z) : jge :=
  match wnd with [] => t | q :: r => jge_lookup (jge_select t q (j =? b)) r (j + 1) b end.
(* wei_jmul_normal (4295-4337): the window *)
Fixpoint wnd_pairs (wnd : list jge) (q : wge) (i cnt : nat) : list jge :=
  match cnt with
  | O => wnd
  | S c => let d := jge_dbl (nth (i / 2) wnd jge_zero) in wnd_pairs (wnd ++ [d; jge_mixed_add d q]) q (i + 2) c
  end.
Definition wei_window (q : wge) : list jge := wnd_pairs [jge_zero; jge_set_wge q] q 2 7.
Fixpoint jmul_loop (wnd : list jge) (k : Z) (r t : jge) (first : bool) (i : nat) : jge :=
  match i with
  | O => r
  | S i' =>
    let t := jge_lookup t wnd 0 (sc_get_bits k (i' * 4) 4) in
    let r := if first then t else jge_add (Nat.iter 4 jge_dbl r) t in
    jmul_loop wnd k r t false i'
  end.
Definition wei_jmul_normal (sbits : nat) (q : wge) (k : Z) : jge :=
  jmul_loop (wei_window q) k jge_zero jge_zero true (nsteps sbits).
(* wei_jmul_endo (4340-4423) after the split: k1, k2 with signs *)
Fixpoint jmul_endo_loop (wnd1 wnd2 : list jge) (k1 k2 : Z) (r t1 t2 : jge) (first : bool) (i : nat) : jge :=
  match i with
  | O => r
  | S i' =>
    let t1 := jge_lookup t1 wnd1 0 (sc_get_bits k1 (i' * 4) 4) in
    let t2 := jge_lookup t2 wnd2 0 (sc_get_bits k2 (i' * 4) 4) in
    let r := if first then jge_add t1 t2 else jge_add (jge_add (Nat.iter 4 jge_dbl r) t1) t2 in
    jmul_endo_loop wnd1 wnd2 k1 k2 r t1 t2 false i'
  end.
Definition wei_jmul_endo (n : Z) (endo_bits : nat) (beta : fe) (split : Z -> Z * Z) (q : wge) (k : Z) : jge :=
  let '(k1, k2) := split k in
  let '(k1, s1) := sc_minimize n k1 in
  let '(k2, s2) := sc_minimize n k2 in
  let wnd1 := wei_window q in
  let wnd2 := jge_zero :: map (jge_endo_beta beta) (tl wnd1) in
  let wnd1 := jge_zero :: map (fun j => jge_neg_cond j s1) (tl wnd1) in
  let wnd2 := jge_zero :: map (fun j => jge_neg_cond j s2) (tl wnd2) in
  jmul_endo_loop wnd1 wnd2 k1 k2 jge_zero jge_zero jge_zero true (nsteps endo_bits).
(* the signed digit steps of the variable time loops *)
Definition naf_mixed (r : jge) (wnd : list wge) (z : Z) : jge :=
  if 0 <? z then jge_mixed_add_var r (nth (Z.to_nat ((z - 1) / 2)) wnd wge_zero)
  else if z <? 0 then jge_mixed_sub_var r (nth (Z.to_nat ((- z - 1) / 2)) wnd wge_zero)
  else r.
Definition naf_full (r : jge) (wnd : list jge) (z : Z) : jge :=
  if 0 <? z then jge_add_var r (nth (Z.to_nat ((z - 1) / 2)) wnd jge_zero)
  else if z <? 0 then jge_sub_var r (nth (Z.to_nat ((- z - 1) / 2)) wnd jge_zero)
  else r.
(* the interleaved loop shared by the double and multi multiplications (4472-4488, 4529-4551, 4638-4663, 4717-4742):
   affine tables first, Jacobian tables after *)
Fixpoint shamir (ws : list (list wge * list Z)) (js : list (list jge * list Z)) (r : jge) (first : bool) (i : nat) : jge :=
  match i with
  | O => r
  | S i' =>
    let r := if first then r else jge_dbl_var r in
    let r := fold_left (fun r wn => naf_mixed r (fst wn) (nth i' (snd wn) 0)) ws r in
    let r := fold_left (fun r wn => naf_full r (fst wn) (nth i' (snd wn) 0)) js r in
    shamir ws js r false i'
  end.
Definition NAF_WIDTH := 5%nat.
Definition NAF_WIDTH_PRE := 12%nat.
(* wei_jmul_double_normal_var (4443-4489) *)
Definition wei_jmul_double_normal_var (sbits : nat) (wnd_naf : list wge) (k1 : Z) (p2 : wge) (k2 : Z) : option jge :=
  match sc_naf_var sbits k1 NAF_WIDTH_PRE, sc_naf_var sbits k2 NAF_WIDTH with
  | Some (naf1, max1), Some (naf2, max2) =>
    Some (shamir [(wnd_naf, naf1)] [(jge_naf_points_var p2 NAF_WIDTH, naf2)] jge_zero true (Nat.max max1 max2))
  | _, _ => None
  end.
(* wei_jmul_double_endo_var (4492-4552) *)
Definition wei_jmul_double_endo_var (n : Z) (endo_bits : nat) (beta : fe) (split : Z -> Z * Z) (wnd_naf wnd_endo : list wge)
    (k1 : Z) (p2 : wge) (k2 : Z) : option jge :=
  let '(c1, c2) := split k1 in
  let '(c3, c4) := split k2 in
  match sc_naf_endo_var n endo_bits c1 c2 NAF_WIDTH_PRE, sc_jsf_endo_var n endo_bits c3 c4, jge_jsf_points_endo_var beta p2 with
  | Some (naf1, naf2, max1), Some (naf3, max2), Some wnd3 =>
    Some (shamir [(wnd_naf, naf1); (wnd_endo, naf2)] [(wnd3, naf3)] jge_zero true (Nat.max max1 max2))
  | _, _, _ => None
  end.
(* wei_jmul_multi_normal_var (4580-4664): pairs by joint sparse form, a last odd one by NAF *)
Fixpoint multi_pairs (sbits : nat) (l : list (wge * Z)) : option (list (list jge * list Z) * nat) :=
  match l with
  | [] => Some ([], O)
  | [(q, c)] =>
    match sc_naf_var sbits c NAF_WIDTH with
    | Some (naf, size) => Some ([(jge_naf_points_var q NAF_WIDTH, naf)], size)
    | None => None
    end
  | (q1, c1) :: (q2, c2) :: t =>
    match sc_jsf_var sbits c1 c2, multi_pairs sbits t with
    | Some (naf, size), Some (r, max) => Some ((jge_jsf_points_var q1 q2, naf) :: r, Nat.max size max)
    | _, _ => None
    end
  end.
Definition wei_jmul_multi_normal_var (sbits : nat) (wnd_naf : list wge) (k0 : Z) (l : list (wge * Z)) : option jge :=
  match sc_naf_var sbits k0 NAF_WIDTH_PRE, multi_pairs sbits l with
  | Some (naf0, max0), Some (js, max) => Some (shamir [(wnd_naf, naf0)] js jge_zero true (Nat.max max0 max))
  | _, _ => None
  end.
(* wei_jmul_multi_endo_var (4667-4743) *)
Fixpoint multi_endo (n : Z) (endo_bits : nat) (beta : fe) (split : Z -> Z * Z) (l : list (wge * Z)) : option (list (list jge * list Z) * nat) :=
  match l with
  | [] => Some ([], O)
  | (q, c) :: t =>
    let '(k1, k2) := split c in
    match sc_jsf_endo_var n endo_bits k1 k2, jge_jsf_points_endo_var beta q, multi_endo n endo_bits beta split t with
    | Some (naf, size), Some wnd, Some (r, max) => Some ((wnd, naf) :: r, Nat.max size max)
    | _, _, _ => None
    end
  end.
Definition wei_jmul_multi_endo_var (n : Z) (endo_bits : nat) (beta : fe) (split : Z -> Z * Z) (wnd_naf wnd_endo : list wge)
    (k0 : Z) (l : list (wge * Z)) : option jge :=
  let '(k1, k2) := split k0 in
  match sc_naf_endo_var n endo_bits k1 k2 NAF_WIDTH_PRE, multi_endo n endo_bits beta split l with
  | Some (naf0, naf1, max0), Some (js, max) => Some (shamir [(wnd_naf, naf0); (wnd_endo, naf1)] js jge_zero true (Nat.max max0 max))
  | _, _ => None
  end.
(* wei_jmul_g (4246-4283): fixed base windows, blinded *)
Fixpoint jmul_g_loop (wnds : list wge) (k0 : Z) (r : jge) (t : wge) (i cnt : nat) : jge :=
  match cnt with
  | O => r
  | S c =>
    let t := wge_lookup t (firstn 16 (skipn (i * 16) wnds)) 0 (sc_get_bits k0 (i * 4) 4) in
    jmul_g_loop wnds k0 (jge_mixed_add r t) t (S i) c
  end.
Definition wei_jmul_g (n : Z) (sbits : nat) (wnds : list wge) (blind : Z) (unblind : jge) (k : Z) : jge :=
  jmul_g_loop wnds ((k + blind) mod n) unblind wge_zero 0 (nsteps sbits).
End Points.
Arguments MkW {p} wx wy winf.
Arguments MkJ {p} jx jy jz jinf jaff.
Arguments wx {p} _.
Arguments wy {p} _.
Arguments winf {p} _.
Arguments jx {p} _.
Arguments jy {p} _.
Arguments jz {p} _.
Arguments jinf {p} _.
Arguments jaff {p} _.
(* wei_endo_split (4165-4243): lambda, b1, b2 are stored negated (-lambda, -b1, -b2 mod n); mpn_mulshift (mpi.c 1796-1835)
   rounds (x y) / 2^prec to nearest *)
Definition mulshift (x y prec : Z) : Z := x * y / 2 ^ prec + (x * y / 2 ^ (prec - 1)) mod 2.
Definition wei_endo_split (n g1 g2 b1 b2 lambda prec k : Z) : Z * Z :=
  let c1 := mulshift k g1 prec in
  let c2 := mulshift k g2 prec in
  let k2 := ((c1 * b1) mod n + (c2 * b2) mod n) mod n in
  ((k2 * lambda mod n + k) mod n, k2).
