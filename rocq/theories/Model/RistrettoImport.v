(* Model of the decoding of ristretto elements in src/ecc.c: fe_rsqrt (1900-1909) and rge_import (8161-8250). The fields of edwards_t read
   are a, d and h. None is a field in which fe_sqrt computes no roots. *)
From Verif.Base Require Import Prelude.
From Verif.Model Require Import NumTheory Field EcScalar Edwards Eddsa.
Section P.
Variable p : positive.
Local Notation fe := (fe p).
Definition fe_rsqrt (u v : fe) : option (fe * bool) :=
  match fe_isqrt p u v with Some (z, ret) => Some (fe_set_odd z false, ret) | None => None end.
Definition rge_import (c : edw p) (raw : list Z) : option (xge p * bool) :=
  let '(s, canon) := xfe_import p raw in
  let as2 := edwards_mul_a p (x_a p c) (fe_sqr s) in
  let u1 := fe_add f1 as2 in
  let u2 := fe_sub f1 as2 in
  let u2u2 := fe_sqr u2 in
  let v := fe_sub (edwards_mul_a p (x_a p c) (edwards_mul_d p (x_d p c) (fe_sqr u1))) u2u2 in
  match fe_rsqrt f1 (fe_mul v u2u2) with
  | None => None
  | Some (i, sq) =>
    let dx := fe_mul i u2 in
    let dy := fe_mul (fe_mul i dx) v in
    let x := fe_set_odd (fe_mul (fe_add s s) dx) false in
    let y := fe_mul u1 dy in
    let t := fe_mul x y in
    let ret := canon && negb (fe_is_odd s) && sq in
    let ret := if x_h p c =? 8 then ret && negb (fe_is_odd t) && negb (fe_is_zero y) else ret in
    Some (MkX x y f1 t, ret)
  end.
End P.
