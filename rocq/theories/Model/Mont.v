(* Model of the Montgomery points of src/ecc.c (mge, pge: 5324-5906), of the ladder (6096-6150) and of ecdh (12997-13233).
   Field elements are those of Model.Field. Constant time selects and swaps are ifs; cleansing is left out. None is a failed
   ASSERT. fe->scmul_a24 (a multiplication by the small constant a24, 6051-6052) is represented by the generic branch. The
   torsion table and ecdh_privkey_generate
   / grind are not modelled; the isomorphism to Edwards curves is in Model.Convert, the maps to uniform bytes in Model.CurveMaps. *)
From Verif.Base Require Import Prelude.
From Verif.Model Require Import Encoding Bio NumTheory Field EcScalar Wei Ecdsa Eddsa.
Section Points.
Variable p : positive.
Local Notation fe := (fe p).
Local Notation f2 := (fe_add f1 f1).
Local Notation f4 := (fe_add (fe_add f1 f1) (fe_add f1 f1)).
(* mge_t (456-461), pge_t (464-468) *)
Record mge := MkM { mx : fe; my : fe; minf : bool }.
Record pge := MkP { px : fe; pz : fe }.
(* ec->a, ec->b *)
Variables a b : fe.
(* mont_init (5938-5943): bi = 1 / b, a24 = (a + 2) / 4 *)
Definition mont_bi : option fe := match fe_invert_var b with Some (z, _) => Some z | None => None end.
Definition mont_a24 : option fe := match fe_invert_var (f4 : fe) with Some (i4, _) => Some (fe_mul (fe_add a f2) i4) | None => None end.
(* the values of those two fields *)
Variables bi a24 : fe.
(* mont_mul_b (6027-6035), mont_div_b (6037-6045), mont_mul_a24 (6047-6055) *)
Definition mont_mul_b (x : fe) : fe := if fe_equal b f1 then x else fe_mul x b.
Definition mont_div_b (x : fe) : fe := if fe_equal b f1 then x else fe_mul x bi.
Definition mont_mul_a24 (x : fe) : fe := fe_mul x a24.
(* mont_solve_y2 (6057-6072), mont_validate_xy (6074-6084), mont_validate_x (6086-6094) *)
Definition mont_solve_y2 (x : fe) : fe :=
  let x2 := fe_mul x x in
  let x3 := fe_mul x2 x in
  let x2 := fe_mul x2 a in
  mont_div_b (fe_add (fe_add x x2) x3).
Definition mont_validate_xy (x y : fe) : bool := fe_equal (fe_mul y y) (mont_solve_y2 x).
Definition mont_validate_x (x : fe) : bool := fe_is_square (mont_solve_y2 x).
(* mge_zero (5324-5332), mge_validate (5344-5347) *)
Definition mge_zero : mge := MkM f0 f0 true.
Definition mge_validate (q : mge) : bool := mont_validate_xy (mx q) (my q) || minf q.
(* mge_set_x (5349-5371) *)
Definition mge_set_x (x : fe) (sign : Z) : option (mge * bool) :=
  match fe_sqrt (mont_solve_y2 x) with
  | Some (y, ret) =>
    let '(y, ret) := if sign =? -1 then (y, ret)
      else let y := fe_set_odd y (sign =? 1) in (y, ret && negb (fe_is_zero y && negb (sign =? 0))) in
    Some (MkM (if ret then x else f0) (if ret then y else f0) (negb ret), ret)
  | None => None
  end.
(* mge_set_xy (5373-5384) *)
Definition mge_set_xy (x y : fe) : mge * bool :=
  let ret := mont_validate_xy x y in (MkM (if ret then x else f0) (if ret then y else f0) (negb ret), ret).
(* mge_export (5396-5407) *)
Definition mge_export (q : mge) : list Z * bool * bool := (xfe_export p (mx q), fe_is_odd (my q), negb (minf q)).
(* mge_equal (5419-5434), mge_is_zero (5436-5440), mge_neg (5442-5450) *)
Definition mge_equal (q r : mge) : bool :=
  negb (minf q || minf r) && fe_equal (mx q) (mx r) && fe_equal (my q) (my r) || minf q && minf r.
Definition mge_is_zero (q : mge) : bool := minf q.
Definition mge_neg (q : mge) : mge := MkM (mx q) (fe_neg (my q)) (minf q).
(* mge_dbl (5452-5496) *)
Definition mge_dbl (q : mge) : mge :=
  let inf := minf q || fe_is_zero (my q) in
  let z := fe_inv (mont_mul_b (fe_add (my q) (my q))) in
  let x3 := fe_mul3 (fe_mul (mx q) (mx q)) in
  let y3 := fe_mul (fe_add (mx q) (mx q)) a in
  let l := fe_mul (fe_add (fe_add x3 y3) f1) z in
  let x3 := fe_sub (fe_sub (fe_sub (mont_mul_b (fe_mul l l)) a) (mx q)) (mx q) in
  let y3 := fe_sub (fe_mul (fe_sub (mx q) x3) l) (my q) in
  MkM (if inf then f0 else x3) (if inf then f0 else y3) inf.
(* mge_add (5498-5584) *)
Definition mge_add (q r : mge) : mge :=
  let h := fe_sub (mx r) (mx q) in
  let rr := fe_sub (my r) (my q) in
  let x3 := fe_mul3 (fe_mul (mx q) (mx q)) in
  let y3 := fe_mul (fe_add (mx q) (mx q)) a in
  let m := fe_add (fe_add x3 y3) f1 in
  let z := mont_mul_b (fe_add (my q) (my q)) in
  let dbl := fe_is_zero h && fe_is_zero rr in
  let rr := if dbl then m else rr in
  let h := if dbl then z else h in
  let '(h, ok) := fe_invert h in
  let l := fe_mul rr h in
  let neg := negb ok && negb (minf q || minf r) in
  let x3 := fe_sub (fe_sub (fe_sub (mont_mul_b (fe_mul l l)) a) (mx q)) (mx r) in
  let y3 := fe_sub (fe_mul (fe_sub (mx q) x3) l) (my q) in
  let inf := neg || minf q && minf r in
  let '(x3, y3) := if minf q then (mx r, my r) else (x3, y3) in
  let '(x3, y3) := if minf r then (mx q, my q) else (x3, y3) in
  let '(x3, y3) := if inf then (f0, f0) else (x3, y3) in
  MkM x3 y3 inf.
(* mge_sub (5586-5591) *)
Definition mge_sub (q r : mge) : mge := mge_add q (mge_neg r).
(* pge_zero (5627-5633), pge_set_x (5665-5674), pge_set_mge (5856-5862), pge_is_zero (5729-5734), pge_equal (5736-5754) *)
Definition pge_zero : pge := MkP f1 f0.
Definition pge_set_x (x : fe) : pge * bool := let ret := mont_validate_x x in (MkP (if ret then x else f1) (if ret then f1 else f0), ret).
Definition pge_set_mge (q : mge) : pge := MkP (if minf q then f1 else mx q) (if minf q then f0 else f1).
Definition pge_is_zero (q : pge) : bool := fe_is_zero (pz q).
Definition pge_equal (q r : pge) : bool :=
  negb (pge_is_zero q || pge_is_zero r) && fe_equal (fe_mul (px q) (pz r)) (fe_mul (px r) (pz q)) || pge_is_zero q && pge_is_zero r.
(* pge_dbl (5756-5789) *)
Definition pge_dbl (q : pge) : pge :=
  let u := fe_add (px q) (pz q) in
  let aa := fe_mul u u in
  let v := fe_sub (px q) (pz q) in
  let bb := fe_mul v v in
  let c := fe_sub aa bb in
  let x3 := fe_mul aa bb in
  let z3 := fe_mul (fe_add (mont_mul_a24 c) bb) c in
  MkP (if fe_is_zero z3 then f1 else x3) z3.
(* pge_ladder (5791-5854): (p4, p5) from p1 = p3 - p2, p2 and p3 *)
Definition pge_ladder (p1 p2 p3 : pge) (affine : bool) : pge * pge :=
  let u := fe_add (px p2) (pz p2) in
  let aa := fe_mul u u in
  let v := fe_sub (px p2) (pz p2) in
  let bb := fe_mul v v in
  let e := fe_sub aa bb in
  let c := fe_add (px p3) (pz p3) in
  let d := fe_sub (px p3) (pz p3) in
  let da := fe_mul d u in
  let cb := fe_mul c v in
  let x5 := fe_add da cb in
  let x5 := fe_mul x5 x5 in
  let x5 := if affine then x5 else fe_mul x5 (pz p1) in
  let z5 := fe_sub da cb in
  let z5 := fe_mul z5 z5 in
  let z5 := fe_mul z5 (px p1) in
  let x4 := fe_mul aa bb in
  let z4 := fe_mul (fe_add (mont_mul_a24 e) bb) e in
  (MkP x4 z4, MkP x5 z5).
(* pge_swap (5713-5719) *)
Definition pge_swap (q r : pge) (flag : bool) : pge * pge := if flag then (r, q) else (q, r).
(* mont_mul (6096-6141) *)
Fixpoint mont_climb (p1 : pge) (affine : bool) (k : Z) (u v : pge) (swap : bool) (i : nat) : pge * pge * bool :=
  match i with
  | O => (u, v, swap)
  | S i' =>
    let bit := Z.testbit k (Z.of_nat i') in
    let '(u, v) := pge_swap u v (xorb swap bit) in
    let '(u, v) := pge_ladder p1 u v affine in
    mont_climb p1 affine k u v bit i'
  end.
Definition mont_mul (q : pge) (k : Z) (affine : bool) : pge :=
  let '(u, v, swap) := mont_climb q affine k pge_zero q false (fbits p) in
  let '(u, _) := pge_swap u v swap in
  MkP (if fe_is_zero (pz u) then f1 else px u) (pz u).
(* pge_export (5687-5702) *)
Definition pge_export (q : pge) : list Z * bool :=
  let '(z, ok) := fe_invert (pz q) in (xfe_export p (fe_mul (px q) z), ok).
(* pge_validate (5643-5663) *)
Definition pge_validate (q : pge) : bool :=
  let x2 := fe_mul (px q) (px q) in
  let x3 := fe_mul x2 (px q) in
  let z2 := fe_mul (pz q) (pz q) in
  let ax2 := fe_mul (fe_mul a x2) (pz q) in
  let xz2 := fe_mul (px q) z2 in
  fe_is_square (fe_mul (mont_div_b (fe_add (fe_add x3 ax2) xz2)) (pz q)).
(* mge_set_pge (5593-5616): inf is set whatever mge_set_x did *)
Definition mge_set_pge (q : pge) (sign : Z) : option (mge * bool) :=
  let '(i, ok) := fe_invert (pz q) in
  match mge_set_x (fe_mul (px q) i) sign with Some (r, ret) => Some (MkM (mx r) (my r) (negb ok), ret) | None => None end.
(* pge_mulh (5864-5878): the loop halves h *)
Definition pge_mulh (h : Z) (q : pge) : option pge :=
  if (h =? 0) || negb (Z.land h (h - 1) =? 0) then None else Some (Nat.iter (Z.to_nat (Z.log2 h)) pge_dbl q).
(* pge_is_small (5880-5891), pge_has_torsion (5893-5906) *)
Definition pge_is_small (h : Z) (q : pge) : option bool :=
  match pge_mulh h q with Some r => Some (pge_is_zero r && negb (pge_is_zero q)) | None => None end.
Definition pge_has_torsion (n : Z) (q : pge) : bool := negb (pge_is_zero (mont_mul q n false)) || fe_is_zero (px q).
End Points.
Arguments MkM {p}.
Arguments MkP {p}.
(* mont_t (470-488) without the isomorphism; mont_def_t *)
Section Ecdh.
Variable p : positive.
Local Notation fe := (fe p).
Record mont := MkMont { m_a : fe; m_b : fe; m_h : Z; m_n : Z; m_bi : fe; m_a24 : fe; m_g : mge p }.
Record mont_def := MkMontDef { w_a : fe; w_b : fe; w_h : Z; w_n : Z; w_x : fe; w_y : fe }.
(* mont_init (5915-5960) *)
Definition mont_init (d : mont_def) : option mont :=
  match mont_bi p (w_b d), mont_a24 p (w_a d) with
  | Some bi, Some a24 => Some (MkMont (w_a d) (w_b d) (w_h d) (w_n d) bi a24 (MkM (w_x d) (w_y d) false))
  | _, _ => None
  end.
Definition mssize (c : mont) : nat := ((sc_bitlen (m_n c) + 7) / 8)%nat.
(* mont_clamp (5996-6025); out[0] &= -h for h up to 256 *)
Definition mont_clamp (c : mont) (scalar : list Z) : option (list Z) :=
  if (fsize p <? mssize c)%nat then None else
  let top := if (mssize c <? fsize p)%nat || (fbits p mod 8 =? 0)%nat then 8 else Z.of_nat (fbits p mod 8) in
  let out := firstn (mssize c) scalar in
  let out := Z.land (hd 0 out) (256 - m_h c) :: tl out in
  let k := (mssize c - 1)%nat in
  Some (firstn k out ++ [Z.lor (Z.land (nth k out 0) (Z.shiftl 1 top - 1)) (Z.shiftl 1 (top - 1))]).
(* sc_import_raw (942-945) *)
Definition msc_raw (c : mont) (raw : list Z) : Z := le_val (firstn (mssize c) raw).
Definition cmul (c : mont) (q : pge p) (k : Z) (affine : bool) : pge p := mont_mul p (m_a24 c) q k affine.
(* mont_mul_g (6143-6150) *)
Definition cmul_g (c : mont) (k : Z) : pge p := cmul c (pge_set_mge p (m_g c)) k true.
(* pge_import (5676-5685), pge_import_unsafe (5704-5711): the import flag is dropped *)
Definition pge_import (c : mont) (raw : list Z) : pge p * bool :=
  pge_set_x p (m_a c) (m_b c) (m_bi c) (fst (xfe_import p (firstn (fsize p) raw))).
Definition pge_import_unsafe (raw : list Z) : pge p := MkP (fst (xfe_import p (firstn (fsize p) raw))) f1.
(* ecdh_pubkey_create (12997-13019): the ASSERT on the export *)
Definition ecdh_pubkey_create (c : mont) (priv : list Z) : outcome (list Z) :=
  match mont_clamp c priv with
  | Some k => let '(raw, ok) := pge_export p (cmul_g c (msc_raw c k)) in if ok then Ok raw else Abort
  | None => Abort
  end.
(* ecdh_derive (13204-13233) *)
Definition ecdh_derive (c : mont) (pub priv : list Z) : outcome (list Z * bool) :=
  match mont_clamp c priv with
  | Some k => Ok (pge_export p (cmul c (pge_import_unsafe pub) (msc_raw c k) true))
  | None => Abort
  end.
(* ecdh_pubkey_verify (13129-13134), ecdh_pubkey_is_small (13182-13191), ecdh_pubkey_has_torsion (13193-13202) *)
Definition ecdh_pubkey_verify (c : mont) (pub : list Z) : bool := snd (pge_import c pub).
Definition ecdh_pubkey_is_small (c : mont) (pub : list Z) : option bool :=
  let '(q, ok) := pge_import c pub in
  match pge_is_small p (m_a24 c) (m_h c) q with Some r => Some (ok && r) | None => None end.
Definition ecdh_pubkey_has_torsion (c : mont) (pub : list Z) : bool :=
  let '(q, ok) := pge_import c pub in ok && pge_has_torsion p (m_a24 c) (m_n c) q.
(* mge_import (5386-5394), ecdh_pubkey_export (13136-13152) *)
Definition mge_import (c : mont) (raw : list Z) (sign : Z) : option (mge p * bool) :=
  mge_set_x p (m_a c) (m_b c) (m_bi c) (fst (xfe_import p (firstn (fsize p) raw))) sign.
Definition ecdh_pubkey_export (c : mont) (pub : list Z) (sign : Z) : option (list Z * list Z * bool) :=
  match mge_import c pub sign with Some (q, ret) => Some (xfe_export p (mx p q), xfe_export p (my p q), ret) | None => None end.
End Ecdh.
