(* Model of the import of Montgomery and Edwards keys by coordinates of src/ecc.c: byte_pad_le (674-691), fe_import_pad (1402-1414)
   for the little-endian fields, ecdh_pubkey_import (13154-13180), eddsa_pubkey_import (13646-13675). As elsewhere None stands
   for a square root that is not modelled or a failed assertion, and the octets are those written whatever the flag. *)
From Verif.Base Require Import Prelude.
From Verif.Model Require Import Encoding Field Wei Ecdsa Edwards Eddsa Mont PubKeys.
Section P.
Variable p : positive.
Local Notation fe := (fe p).
(* byte_pad_le: trailing zeros of an oversized string are dropped, a short string gets trailing zeros *)
Definition byte_pad_le (zn : nat) (raw : list Z) : list Z * bool :=
  let raw := rev (drop_pad zn (rev raw)) in
  if (zn <? length raw)%nat then (repeat 0 zn, false) else (raw ++ repeat 0 (zn - length raw), true).
Definition xfe_import_pad (raw : list Z) : fe * bool :=
  let '(tmp, ok) := byte_pad_le (fsize p) raw in
  let '(x, ok') := xfe_import p tmp in (x, ok && ok').
Definition ecdh_pubkey_import (c : mont p) (xr yr : list Z) : option (list Z * bool) :=
  let '(x, okx) := xfe_import_pad xr in
  let '(y, oky) := xfe_import_pad yr in
  let ok := has xr && okx && oky in
  let fin (r : mge p * bool) := let '(q, ret) := r in let '(out, _, ok') := mge_export p q in (out, ok && ret && ok') in
  if has xr && has yr then Some (fin (mge_set_xy p (m_a p c) (m_b p c) (m_bi p c) x y))
  else match mge_set_x p (m_a p c) (m_b p c) (m_bi p c) x (-1) with Some r => Some (fin r) | None => None end.
Definition eddsa_pubkey_import (c : edw p) (xr yr : list Z) (sign : Z) : option (list Z * bool) :=
  let '(x, okx) := xfe_import_pad xr in
  let '(y, oky) := xfe_import_pad yr in
  let ok := (has xr || has yr) && okx && oky in
  let r := if has xr && has yr then Some (xge_set_xy p (x_a p c) (x_d p c) x y)
    else if has xr then xge_set_x p (x_a p c) (x_d p c) x sign
    else xge_set_y p (x_a p c) (x_d p c) y sign in
  match r with
  | None => None
  | Some (q, ret) => match xge_export p q with Some out => Some (out, ok && ret) | None => None end
  end.
End P.
