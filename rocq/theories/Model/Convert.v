(* Model of the maps between Montgomery and Edwards curves of src/ecc.c (8835-9044), of the parameters of those maps
   (5970-5994, 7231-7284) and of the public key conversions (13021-13068, 13546-13564). Field elements are those of
   Model.Field; the _nc additions (without carry) are additions; constant time selects are ifs. *)
From Verif.Base Require Import Prelude.
From Verif.Model Require Import Encoding NumTheory Field EcScalar Wei Ecdsa Edwards Eddsa Mont.
Section Maps.
Variable p : positive.
Local Notation fe := (fe p).
Local Notation f2 := (fe_add f1 f1).
Local Notation f4 := (fe_add f2 f2).
(* ec->c (5990-5993, 7251-7254): the scaling factor, one when the definition has zero *)
Definition conv_c (c : fe) : fe := if fe_is_zero c then f1 else c.
(* edwards_init_isomorphism (7231-7284): A and B; Bi, A0 and B0, used by the maps to uniform bytes only, are left out *)
Definition edwards_init_isomorphism (a d c : fe) (invert : bool) : option (fe * fe) :=
  let c := conv_c c in
  let u := if invert then fe_add d a else fe_add a d in
  let v := if invert then fe_sub d a else fe_sub a d in
  let u := fe_add u u in
  match fe_invert_var v with
  | Some (v, true) =>
    let A := fe_mul u v in
    let u := if invert then fe_sub A f2 else fe_add A f2 in
    match fe_invert_var (fe_mul (fe_sqr c) a) with
    | Some (v, true) =>
      let B := fe_mul u v in
      match fe_invert_var B with Some (_, true) => Some (A, B) | _ => None end
    | _ => None
    end
  | _ => None
  end.
(* mont_to_edwards (8834-8959) *)
Definition mont_to_edwards (c : fe) (invert isogeny : bool) (q : mge p) : xge p :=
  let u := mx p q in
  let v := my p q in
  let inf := minf p q in
  let tor := fe_is_zero u && negb inf in
  let '(xx, xz, yy, yz, inf) :=
    if isogeny && (fbits p =? 448)%nat then
      let u2 := fe_sqr u in
      let u3 := fe_mul u2 u in
      let u4 := fe_mul u3 u in
      let u5 := fe_mul u4 u in
      let v2 := fe_sqr v in
      let a := fe_mul f4 v in
      let b := fe_sub u2 f1 in
      let d := fe_add u2 u2 in
      let e := fe_mul f4 v2 in
      let f := fe_add u3 u3 in
      let g := fe_mul f4 (fe_mul u v2) in
      let h := fe_mul u2 v2 in
      let h := fe_add h h in
      let i := fe_add v2 v2 in
      (fe_mul a b, fe_add (fe_add (fe_sub u4 d) e) f1, fe_neg (fe_add (fe_sub (fe_sub u5 f) g) u),
       fe_add (fe_sub (fe_sub (fe_sub u5 h) f) i) u, inf || tor)
    else if invert then (fe_mul c u, if tor then f1 else v, fe_add u f1, fe_sub u f1, inf)
    else (fe_mul c u, if tor then f1 else v, fe_sub u f1, fe_add u f1, inf) in
  if inf then MkX f0 f1 f1 f0 else MkX (fe_mul xx yz) (fe_mul yy xz) (fe_mul xz yz) (fe_mul xx yy).
(* edwards_to_mont (8961-9040) *)
Definition edwards_to_mont (c : fe) (invert isogeny : bool) (q : xge p) : mge p :=
  let x := xx p q in
  let y := xy p q in
  let z := xz p q in
  let zero := fe_is_zero x in
  let inf := zero && fe_equal y z in
  let tor := zero && negb inf in
  let '(uu, uz, vv, vz) :=
    if isogeny && (fbits p =? 448)%nat then
      let two := fe_sqr z in
      let two := fe_add two two in
      let uu := fe_sqr y in
      let uz := fe_sqr x in
      (uu, uz, fe_mul (fe_sub (fe_sub two uz) uu) y, fe_mul uz x)
    else if invert then
      let uu := fe_add y z in
      let uz := fe_sub y z in
      (uu, uz, fe_mul (fe_mul c z) uu, fe_mul x uz)
    else
      let uu := fe_add z y in
      let uz := fe_sub z y in
      (uu, uz, fe_mul (fe_mul c z) uu, fe_mul x uz) in
  let rx := fe_mul uu vz in
  let ry := fe_mul vv uz in
  let i := fe_inv (fe_mul uz vz) in
  MkM (if tor then f0 else fe_mul rx i) (if tor then f0 else fe_mul ry i) inf.
(* mge_export_xge (5618-5621), xge_export_mge (7164-7167) *)
Definition mge_export_xge (c : fe) (invert : bool) (q : mge p) : xge p := mont_to_edwards c invert true q.
Definition xge_export_mge (c : fe) (invert : bool) (q : xge p) : mge p := edwards_to_mont c invert true q.
(* eddsa_pubkey_convert (13546-13564) *)
Definition eddsa_pubkey_convert (ec : edw p) (c : fe) (invert : bool) (pub : list Z) : option (list Z * bool) :=
  match xge_import p ec pub with
  | Some (A, ret) => let q := xge_export_mge c invert A in Some (xfe_export p (mx p q), ret && negb (minf p q))
  | None => None
  end.
(* ecdh_pubkey_convert (13021-13068); i16 (5951-5955) is given. Abort is a failed ASSERT *)
Definition ecdh_pubkey_convert (ec : mont p) (c : fe) (invert : bool) (i16 : Z) (pub : list Z) (sign : Z) : option (list Z * bool) :=
  let point :=
    if (fbits p =? 448)%nat then
      let '(P, ret) := pge_import p ec pub in
      match pge_mulh p (m_a24 p ec) (m_h p ec) P with
      | None => None
      | Some P => match mge_set_pge p (m_a p ec) (m_b p ec) (m_bi p ec) (cmul p ec P i16 false) (-1) with Some (A, true) => Some (A, ret) | _ => None end
      end
    else mge_import p ec pub (-1) in
  match point with
  | None => None
  | Some (A, ret) =>
    let e := mge_export_xge c invert A in
    let '(z, ok) := fe_invert (xz p e) in
    if negb ok then None else
    let x := fe_mul (xx p e) z in
    let y := fe_mul (xy p e) z in
    let x := if sign =? -1 then x else fe_set_odd x (negb (sign =? 0)) in
    let out := xfe_export p y in
    let s := Z.shiftl (if fe_is_odd x then 1 else 0) 7 in
    Some (if (fbits p mod 8 =? 0)%nat then out ++ [s] else firstn (fsize p - 1) out ++ [Z.lor (nth (fsize p - 1) out 0) s], ret)
  end.
End Maps.
