(* Model of the twisted Edwards points of src/ecc.c (xge, 6440-7165) and of their multiplication algorithms (7319-7604).
   Field elements are those of Model.Field. In-place updates are written as functions of the old value; constant time
   selects are ifs; cleansing is left out. None is a failed ASSERT. fe->scmul_d (a multiplication by the small constant
   d, 7335-7336) is represented by the generic branch, as is fe->isqrt (1854-1899); the zero denominator check is the same. *)
From Verif.Base Require Import Prelude.
From Verif.Model Require Import Field NumTheory EcScalar.
Section Points.
Variable p : positive.
Local Notation fe := (fe p).
(* fe_isqrt (1854-1899): a square root of u / v *)
Definition fe_isqrt (u v : fe) : option (fe * bool) :=
  let '(t, ok) := fe_invert v in
  match fe_sqrt (fe_mul t u) with
  | Some (z, sq) => Some (z, ok && sq)
  | None => None
  end.
(* xge_t (539-545) *)
Record xge := MkX { xx : fe; xy : fe; xz : fe; xt : fe }.
(* ec->a, ec->d *)
Variables a d : fe.
(* ec->mone_a, ec->one_a, ec->k (7201-7207) *)
Definition mone_a : bool := fe_equal a (fe_neg f1).
Definition one_a : bool := fe_equal a f1.
Definition ed_k : fe := fe_add d d.
(* edwards_mul_a (7319-7329), edwards_mul_d (7331-7339), edwards_validate_xy (7341-7360) *)
Definition edwards_mul_a (x : fe) : fe := if mone_a then fe_neg x else if one_a then x else fe_mul x a.
Definition edwards_mul_d (x : fe) : fe := fe_mul x d.
Definition edwards_validate_xy (x y : fe) : bool :=
  let x2 := fe_sqr x in
  let y2 := fe_sqr y in
  fe_equal (fe_add (edwards_mul_a x2) y2) (fe_add (fe_mul (edwards_mul_d x2) y2) f1).
(* xge_zero (6440-6448) *)
Definition xge_zero : xge := MkX f0 f1 f1 f0.
(* xge_validate (6460-6495) *)
Definition xge_validate (q : xge) : bool :=
  let x2 := fe_sqr (xx q) in
  let y2 := fe_sqr (xy q) in
  let z2 := fe_sqr (xz q) in
  let z4 := fe_sqr z2 in
  fe_equal (fe_mul (fe_add (edwards_mul_a x2) y2) z2) (fe_add (fe_mul (edwards_mul_d x2) y2) z4)
  && fe_equal (fe_mul (xt q) (xz q)) (fe_mul (xx q) (xy q)) && negb (fe_is_zero (xz q)).
(* the end of the setters: the neutral point when ret is not set *)
Definition xge_finish (x y : fe) (ret : bool) : xge :=
  let x := fe_select x f0 (negb ret) in
  let y := fe_select y f1 (negb ret) in
  MkX x y f1 (fe_mul x y).
(* xge_set_xy (6497-6508) *)
Definition xge_set_xy (x y : fe) : xge * bool :=
  let ret := edwards_validate_xy x y in (xge_finish x y ret, ret).
(* the sign of a decompressed coordinate: sign is -1, 0 or 1 *)
Definition ed_sign (x : fe) (ret : bool) (sign : Z) : fe * bool :=
  if sign =? -1 then (x, ret)
  else let x := fe_set_odd x (sign =? 1) in (x, ret && negb (fe_is_zero x && negb (sign =? 0))).
(* xge_set_x (6510-6539) *)
Definition xge_set_x (x : fe) (sign : Z) : option (xge * bool) :=
  let x2 := fe_sqr x in
  match fe_isqrt (fe_sub (edwards_mul_a x2) f1) (fe_sub (edwards_mul_d x2) f1) with
  | None => None
  | Some (y, ret) => let '(y, ret) := ed_sign y ret sign in Some (xge_finish x y ret, ret)
  end.
(* xge_set_y (6541-6570) *)
Definition xge_set_y (y : fe) (sign : Z) : option (xge * bool) :=
  let y2 := fe_sqr y in
  match fe_isqrt (fe_sub y2 f1) (fe_sub (edwards_mul_d y2) a) with
  | None => None
  | Some (x, ret) => let '(x, ret) := ed_sign x ret sign in Some (xge_finish x y ret, ret)
  end.
(* xge_select (6629-6641), xge_is_zero (6653-6666), xge_equal (6668-6692), xge_neg (6694-6702), xge_neg_cond (6704-6712) *)
Definition xge_select (p1 p2 : xge) (flag : bool) : xge :=
  MkX (fe_select (xx p1) (xx p2) flag) (fe_select (xy p1) (xy p2) flag) (fe_select (xz p1) (xz p2) flag) (fe_select (xt p1) (xt p2) flag).
Definition xge_is_zero (q : xge) : bool := fe_is_zero (xx q) && fe_equal (xy q) (xz q).
Definition xge_equal (p1 p2 : xge) : bool :=
  fe_equal (fe_mul (xx p1) (xz p2)) (fe_mul (xx p2) (xz p1)) && fe_equal (fe_mul (xy p1) (xz p2)) (fe_mul (xy p2) (xz p1)).
Definition xge_neg (q : xge) : xge := MkX (fe_neg (xx q)) (xy q) (xz q) (fe_neg (xt q)).
Definition xge_neg_cond (q : xge) (flag : bool) : xge := MkX (fe_neg_cond (xx q) flag) (xy q) (xz q) (fe_neg_cond (xt q) flag).
(* the end of every formula: X = E F, Y = G H, T = E H, Z = F G *)
Definition xge_out (e f g h : fe) : xge := MkX (fe_mul e f) (fe_mul g h) (fe_mul f g) (fe_mul e h).
(* xge_dbl (6714-6761) *)
Definition xge_dbl (q : xge) : xge :=
  let a := fe_sqr (xx q) in
  let b := fe_sqr (xy q) in
  let c := fe_sqr (xz q) in
  let c := fe_add c c in
  let d := edwards_mul_a a in
  let e := fe_sub (fe_sub (fe_sqr (fe_add (xx q) (xy q))) a) b in
  let g := fe_add d b in
  let f := fe_sub g c in
  let h := fe_sub d b in
  xge_out e f g h.
(* xge_add_a (6763-6819), xge_sub_a (6821-6877) *)
Definition xge_add_a (p1 p2 : xge) (affine : bool) : xge :=
  let a := fe_mul (xx p1) (xx p2) in
  let b := fe_mul (xy p1) (xy p2) in
  let c := edwards_mul_d (fe_mul (xt p1) (xt p2)) in
  let d := if affine then xz p1 else fe_mul (xz p1) (xz p2) in
  let e := fe_sub (fe_sub (fe_mul (fe_add (xx p1) (xy p1)) (fe_add (xx p2) (xy p2))) a) b in
  xge_out e (fe_sub d c) (fe_add d c) (fe_sub b (edwards_mul_a a)).
Definition xge_sub_a (p1 p2 : xge) (affine : bool) : xge :=
  let a := fe_mul (xx p1) (xx p2) in
  let b := fe_mul (xy p1) (xy p2) in
  let c := edwards_mul_d (fe_mul (xt p1) (xt p2)) in
  let d := if affine then xz p1 else fe_mul (xz p1) (xz p2) in
  let e := fe_sub (fe_add (fe_mul (fe_add (xy p1) (xx p1)) (fe_sub (xy p2) (xx p2))) a) b in
  xge_out e (fe_add d c) (fe_sub d c) (fe_add b (edwards_mul_a a)).
(* xge_add_m1 (6879-6938), xge_sub_m1 (6940-6999): for a = -1 *)
Definition xge_add_m1 (p1 p2 : xge) (affine : bool) : xge :=
  let a := fe_mul (fe_sub (xy p1) (xx p1)) (fe_sub (xy p2) (xx p2)) in
  let b := fe_mul (fe_add (xy p1) (xx p1)) (fe_add (xy p2) (xx p2)) in
  let c := fe_mul (fe_mul (xt p1) (xt p2)) ed_k in
  let d := fe_add (xz p1) (xz p1) in
  let d := if affine then d else fe_mul d (xz p2) in
  xge_out (fe_sub b a) (fe_sub d c) (fe_add d c) (fe_add b a).
Definition xge_sub_m1 (p1 p2 : xge) (affine : bool) : xge :=
  let a := fe_mul (fe_sub (xy p1) (xx p1)) (fe_add (xy p2) (xx p2)) in
  let b := fe_mul (fe_add (xy p1) (xx p1)) (fe_sub (xy p2) (xx p2)) in
  let c := fe_mul (fe_mul (xt p1) (xt p2)) ed_k in
  let d := fe_add (xz p1) (xz p1) in
  let d := if affine then d else fe_mul d (xz p2) in
  xge_out (fe_sub b a) (fe_add d c) (fe_sub d c) (fe_add b a).
(* xge_add, xge_sub, xge_mixed_add, xge_mixed_sub (7001-7033) *)
Definition xge_add (p1 p2 : xge) : xge := if mone_a then xge_add_m1 p1 p2 false else xge_add_a p1 p2 false.
Definition xge_sub (p1 p2 : xge) : xge := if mone_a then xge_sub_m1 p1 p2 false else xge_sub_a p1 p2 false.
Definition xge_mixed_add (p1 p2 : xge) : xge := if mone_a then xge_add_m1 p1 p2 true else xge_add_a p1 p2 true.
Definition xge_mixed_sub (p1 p2 : xge) : xge := if mone_a then xge_sub_m1 p1 p2 true else xge_sub_a p1 p2 true.
(* xge_mulh (7035-7049): h must be a power of two *)
Definition xge_mulh (h : Z) (q : xge) : option xge :=
  if negb (h =? 0) && (Z.land h (h - 1) =? 0) then Some (Nat.iter (Z.to_nat (Z.log2 h)) xge_dbl q) else None.
(* xge_is_small (7051-7062) *)
Definition xge_is_small (h : Z) (q : xge) : option bool :=
  match xge_mulh h q with Some r => Some (xge_is_zero r && negb (xge_is_zero q)) | None => None end.
(* xge_normalize_all_var (7074-7105): Montgomery's trick; None is the failed inversion *)
Fixpoint norm_prefix (acc : fe) (l : list xge) : list fe * fe :=
  match l with
  | [] => ([], acc)
  | q :: r => let '(invs, out) := norm_prefix (fe_mul acc (xz q)) r in (acc :: invs, out)
  end.
Fixpoint norm_back (acc : fe) (l : list (fe * xge)) : list fe * fe :=
  match l with
  | [] => ([], acc)
  | (inv, q) :: r => let '(out, acc) := norm_back acc r in (fe_mul inv acc :: out, fe_mul acc (xz q))
  end.
Definition xge_scale (q : xge) (i : fe) : xge := MkX (fe_mul (xx q) i) (fe_mul (xy q) i) f1 (fe_mul (xt q) i).
Definition xge_normalize_all_var (l : list xge) : option (list xge) :=
  let '(invs, acc) := norm_prefix f1 l in
  match fe_invert_var acc with
  | Some (acc, true) => let '(invs, _) := norm_back acc (combine invs l) in Some (map (fun qi => xge_scale (fst qi) (snd qi)) (combine l invs))
  | _ => None
  end.
(* count elements x, x + g, x + 2 g, ... *)
Fixpoint xsteps_from (x g : xge) (count : nat) : list xge :=
  match count with O => [] | S c => x :: xsteps_from (xge_add x g) g c end.
(* xge_fixed_points (7107-7130) *)
Fixpoint xfixed_windows (g : xge) (steps : nat) : list xge :=
  match steps with
  | O => []
  | S s => xsteps_from xge_zero g 16 ++ xfixed_windows (Nat.iter 4 xge_dbl g) s
  end.
Definition xnsteps (bits : nat) : nat := ((bits + 3) / 4)%nat.
Definition xge_fixed_points (sbits : nat) (q : xge) : option (list xge) := xge_normalize_all_var (xfixed_windows q (xnsteps sbits)).
(* xge_naf_points (7132-7143), xge_fixed_naf_points (7145-7152), xge_jsf_points (7154-7162) *)
Definition xge_naf_points (q : xge) (width : nat) : list xge := xsteps_from q (xge_dbl q) (2 ^ (width - 2)).
Definition xge_fixed_naf_points (q : xge) (width : nat) : option (list xge) := xge_normalize_all_var (xge_naf_points q width).
Definition xge_jsf_points (p1 p2 : xge) : list xge := [p1; xge_add p1 p2; xge_sub p1 p2; p2].
(* the constant time lookup loops *)
Fixpoint xge_lookup (t : xge) (wnd : list xge) (j b : Z) : xge :=
  match wnd with [] => t | q :: r => xge_lookup (xge_select t q (j =? b)) r (j + 1) b end.
(* edwards_mul_g (7362-7400): fixed base windows, blinded *)
Fixpoint edwards_mul_g_loop (wnds : list xge) (k0 : Z) (r t : xge) (i cnt : nat) : xge :=
  match cnt with
  | O => r
  | S c =>
    let t := xge_lookup t (firstn 16 (skipn (i * 16) wnds)) 0 (sc_get_bits k0 (i * 4) 4) in
    edwards_mul_g_loop wnds k0 (xge_mixed_add r t) t (S i) c
  end.
Definition edwards_mul_g (n : Z) (sbits : nat) (wnds : list xge) (blind : Z) (unblind : xge) (k : Z) : xge :=
  edwards_mul_g_loop wnds ((k + blind) mod n) unblind xge_zero 0 (xnsteps sbits).
(* edwards_mul (7402-7446): the window and the loop; fbits is fe->bits *)
Fixpoint xwnd_pairs (wnd : list xge) (q : xge) (i cnt : nat) : list xge :=
  match cnt with
  | O => wnd
  | S c => let d := xge_dbl (nth (i / 2) wnd xge_zero) in xwnd_pairs (wnd ++ [d; xge_add d q]) q (i + 2) c
  end.
Definition edwards_window (q : xge) : list xge := xwnd_pairs [xge_zero; q] q 2 7.
Fixpoint edwards_mul_loop (wnd : list xge) (k : Z) (r t : xge) (first : bool) (i : nat) : xge :=
  match i with
  | O => r
  | S i' =>
    let t := xge_lookup t wnd 0 (sc_get_bits k (i' * 4) 4) in
    let r := if first then t else xge_add (Nat.iter 4 xge_dbl r) t in
    edwards_mul_loop wnd k r t false i'
  end.
Definition edwards_mul (fbits : nat) (q : xge) (k : Z) : xge :=
  edwards_mul_loop (edwards_window q) k xge_zero xge_zero true (xnsteps fbits).
(* xge_has_torsion (7064-7072) *)
Definition xge_has_torsion (fbits : nat) (n : Z) (q : xge) : bool := negb (xge_is_zero (edwards_mul fbits q n)).
(* the signed digit steps of the variable time loops *)
Definition xnaf_mixed (r : xge) (wnd : list xge) (z : Z) : xge :=
  if 0 <? z then xge_mixed_add r (nth (Z.to_nat ((z - 1) / 2)) wnd xge_zero)
  else if z <? 0 then xge_mixed_sub r (nth (Z.to_nat ((- z - 1) / 2)) wnd xge_zero)
  else r.
Definition xnaf_full (r : xge) (wnd : list xge) (z : Z) : xge :=
  if 0 <? z then xge_add r (nth (Z.to_nat ((z - 1) / 2)) wnd xge_zero)
  else if z <? 0 then xge_sub r (nth (Z.to_nat ((- z - 1) / 2)) wnd xge_zero)
  else r.
(* the interleaved loop of the double and multi multiplications: normalised tables first, the others after *)
Fixpoint xshamir (ws js : list (list xge * list Z)) (r : xge) (first : bool) (i : nat) : xge :=
  match i with
  | O => r
  | S i' =>
    let r := if first then r else xge_dbl r in
    let r := fold_left (fun r wn => xnaf_mixed r (fst wn) (nth i' (snd wn) 0)) ws r in
    let r := fold_left (fun r wn => xnaf_full r (fst wn) (nth i' (snd wn) 0)) js r in
    xshamir ws js r false i'
  end.
Definition XNAF_WIDTH := 5%nat.
Definition XNAF_WIDTH_PRE := 12%nat.
(* edwards_mul_double_var (7448-7495) *)
Definition edwards_mul_double_var (sbits : nat) (wnd_naf : list xge) (k1 : Z) (p2 : xge) (k2 : Z) : option xge :=
  match sc_naf_var sbits k1 XNAF_WIDTH_PRE, sc_naf_var sbits k2 XNAF_WIDTH with
  | Some (naf1, max1), Some (naf2, max2) =>
    Some (xshamir [(wnd_naf, naf1)] [(xge_naf_points p2 XNAF_WIDTH, naf2)] xge_zero true (Nat.max max1 max2))
  | _, _ => None
  end.
(* edwards_mul_multi_var (7497-7582): pairs by joint sparse form, a last odd one by NAF; the scratch capacity is not modelled *)
Fixpoint xmulti_pairs (sbits : nat) (l : list (xge * Z)) : option (list (list xge * list Z) * nat) :=
  match l with
  | [] => Some ([], O)
  | [(q, c)] =>
    match sc_naf_var sbits c XNAF_WIDTH with
    | Some (naf, size) => Some ([(xge_naf_points q XNAF_WIDTH, naf)], size)
    | None => None
    end
  | (q1, c1) :: (q2, c2) :: t =>
    match sc_jsf_var sbits c1 c2, xmulti_pairs sbits t with
    | Some (naf, size), Some (r, max) => Some ((xge_jsf_points q1 q2, naf) :: r, Nat.max size max)
    | _, _ => None
    end
  end.
Definition edwards_mul_multi_var (sbits : nat) (wnd_naf : list xge) (k0 : Z) (l : list (xge * Z)) : option xge :=
  match sc_naf_var sbits k0 XNAF_WIDTH_PRE, xmulti_pairs sbits l with
  | Some (naf0, max0), Some (js, max) => Some (xshamir [(wnd_naf, naf0)] js xge_zero true (Nat.max max0 max))
  | _, _ => None
  end.
End Points.
Arguments MkX {p} xx xy xz xt.
