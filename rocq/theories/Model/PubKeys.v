(* Model of the import and export of public keys by coordinates and of the sums of x-only keys of src/ecc.c: byte_pad_be (653-672),
   fe_import_pad (1402-1414), ecdsa_pubkey_export and ecdsa_pubkey_import (10866-10913), bip340_pubkey_export and
   bip340_pubkey_import (12204-12247), bip340_pubkey_add and bip340_pubkey_combine (12342-12389). As in Model.Ecdsa, None stands
   for a square root that is not modelled, and the flag is the return value; the octets are those written whatever the flag. *)
From Verif.Base Require Import Prelude.
From Verif.Model Require Import Encoding Field Wei Ecdsa Schnorr.
Section P.
Variable p : positive.
Local Notation fe := (fe p).
Local Notation wei := (wei p).
Local Notation wge := (wge p).
Local Notation jge := (jge p).
(* byte_pad_be: leading zeros of an oversized string are dropped, a short string gets leading zeros *)
Definition byte_pad_be (zn : nat) (raw : list Z) : list Z * bool :=
  let raw := drop_pad zn raw in
  if (zn <? length raw)%nat then (repeat 0 zn, false) else (repeat 0 (zn - length raw) ++ raw, true).
(* fe_import_pad, for the big-endian fields of short Weierstrass curves *)
Definition fe_import_pad (raw : list Z) : fe * bool :=
  let '(tmp, ok) := byte_pad_be (fsize p) raw in
  let '(x, ok') := fe_import p tmp in (x, ok && ok').
Definition has (raw : list Z) : bool := (0 <? length raw)%nat.
(* the part shared by both imports, up to the export *)
Definition coords_import (c : wei) (xr yr : list Z) (sign : Z) : option (wge * bool) :=
  let '(x, okx) := fe_import_pad xr in
  let '(y, oky) := fe_import_pad yr in
  let ok := has xr && okx && oky in
  if has xr && has yr then let '(q, ret) := wge_set_xy p (e_a p c) (e_b p c) x y in Some (q, ok && ret)
  else match wge_set_x p (e_a p c) (e_b p c) (e_h p c) x sign with Some (q, ret) => Some (q, ok && ret) | None => None end.
(* ecdsa_pubkey_import, bip340_pubkey_import *)
Definition ecdsa_pubkey_import (c : wei) (xr yr : list Z) (sign : Z) (compact : bool) : option (list Z * bool) :=
  match coords_import c xr yr sign with
  | None => None
  | Some (q, ok) => let '(out, ok') := wge_export p q compact in Some (out, ok && ok')
  end.
Definition bip340_pubkey_import (c : wei) (xr yr : list Z) : option (list Z * bool) :=
  match coords_import c xr yr (-1) with
  | None => None
  | Some (q, ok) => let '(out, ok') := wge_export_x p q in Some (out, ok && ok')
  end.
(* ecdsa_pubkey_export, bip340_pubkey_export *)
Definition ecdsa_pubkey_export (c : wei) (pub : list Z) : option (list Z * list Z * bool) :=
  match wge_import p c pub with None => None | Some (q, ok) => Some (fe_export p (wx q), fe_export p (wy q), ok) end.
Definition bip340_pubkey_export (c : wei) (pub : list Z) : option (list Z * list Z * bool) :=
  match wge_import_even p c pub with None => None | Some (q, ok) => Some (fe_export p (wx q), fe_export p (wy q), ok) end.
(* bip340_pubkey_add, bip340_pubkey_combine *)
Definition bip340_pubkey_add (c : wei) (pub1 pub2 : list Z) : option (list Z * bool) :=
  match wge_import_even p c pub1, wge_import_even p c pub2 with
  | Some (q1, ok1), Some (q2, ok2) => let '(out, ok) := wge_export_x p (wge_add p (e_a p c) q1 q2) in Some (out, ok1 && ok2 && ok)
  | _, _ => None
  end.
Fixpoint combine340_loop (c : wei) (J : jge) (ok : bool) (pubs : list (list Z)) : option (jge * bool) :=
  match pubs with
  | [] => Some (J, ok)
  | pub :: t =>
    match wge_import_even p c pub with
    | None => None
    | Some (q, ok') => combine340_loop c (jge_mixed_add p (e_a p c) J q) (ok && ok') t
    end
  end.
Definition bip340_pubkey_combine (c : wei) (pubs : list (list Z)) : option (list Z * bool) :=
  let fin r := match r with
    | None => None
    | Some (J, ok) => let '(out, ok') := wge_export_x p (wge_set_jge p J) in Some (out, ok && ok')
    end in
  match pubs with
  | [] => fin (Some (jge_zero p, true))
  | pub :: t =>
    match wge_import_even p c pub with
    | None => None
    | Some (q, ok) => fin (combine340_loop c (jge_set_wge p q) ok t)
    end
  end.
End P.
