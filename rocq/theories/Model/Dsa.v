(* Model of src/dsa.c. mpz_t is a mathematical integer; mpz_powm and mpz_powm_sec are powm (C51), mpz_invert is invert (C54),
   mpz_import is be_val, mpz_export is Asn1.mpz_export. Random numbers are lists of the values drawn; running out of them is Abort.
   The nonces of dsa_sign come from the modelled HMAC-DRBG. Structs are records; init, clear, cleanse and roset have no value content. *)
From Verif.Base Require Import Prelude.
From Verif.Model Require Import Encoding Bio Asn1 Hash Drbg NumTheory Rsa.

(* dsa.h:52-60 *)
Definition DSA_MIN_BITS : Z := 512.
Definition DSA_MAX_BITS : Z := 10000.
Definition DSA_MAX_QSIZE : Z := 32.

(* dsa.c:42-65 *)
Record dsa_group := MkGroup { gp : Z; gq : Z; gg : Z }.
Record dsa_pub := MkDPub { pg : dsa_group; py : Z }.
Record dsa_priv := MkDPriv { xg : dsa_group; xy : Z; xx : Z }.
Definition dsa_pub_roset_priv (k : dsa_priv) : dsa_pub := MkDPub (xg k) (xy k).

(* ---- encodings ---- *)
(* consecutive asn1_read_mpz(.., 1) *)
Fixpoint read_mpzs (cnt : nat) (data : list Z) : option (list Z * list Z) :=
  match cnt with
  | O => Some ([], data)
  | S cnt => rbind (asn1_read_mpz data true) (fun n data => obind (read_mpzs cnt data) (fun '(l, data) => Some (n :: l, data)))
  end.
Fixpoint read_dumbs (cnt : nat) (data : list Z) : option (list Z * list Z) :=
  match cnt with
  | O => Some ([], data)
  | S cnt => rbind (asn1_read_dumb data) (fun n data => obind (read_dumbs cnt data) (fun '(l, data) => Some (n :: l, data)))
  end.
(* the common shape of dsa_group_import, dsa_pub_import, dsa_sig_import_der and, with a version, dsa_priv_import *)
Definition read_fields (version : bool) (cnt : nat) (data : list Z) : option (list Z) :=
  rbind (asn1_read_seq data true) (fun _ data =>
  obind (if version then rbind (asn1_read_version data 0 true) (fun _ data => Some data) else Some data) (fun data =>
  obind (read_mpzs cnt data) (fun '(l, data) => if empty data then Some l else None))).
Definition write_fields (version : bool) (l : list Z) : option (list Z) :=
  let size := (if version then asn1_size_version 0 else 0) + sumz (map asn1_size_mpz l) in
  ocat (asn1_write_seq size :: (if version then [asn1_write_version 0] else []) ++ map asn1_write_mpz l).

Definition group_fields (g : dsa_group) : list Z := [gp g; gq g; gg g].
(* dsa.c:99-117 *)
Definition dsa_group_import (data : list Z) : option dsa_group :=
  obind (read_fields false 3 data) (fun l => match l with [p; q; g] => Some (MkGroup p q g) | _ => None end).
(* dsa.c:119-136 *)
Definition dsa_group_export (g : dsa_group) : option (list Z) := write_fields false (group_fields g).
(* dsa.c:138-152 *)
Definition dsa_group_import_dumb (data : list Z) : option dsa_group :=
  obind (read_dumbs 3 data) (fun '(l, _) => match l with [p; q; g] => Some (MkGroup p q g) | _ => None end).
(* dsa.c:154-165 *)
Definition dsa_group_export_dumb (g : dsa_group) : option (list Z) := ocat (map asn1_write_dumb (group_fields g)).

(* dsa.c:342-363: y first *)
Definition dsa_pub_import (data : list Z) : option dsa_pub :=
  obind (read_fields false 4 data) (fun l => match l with [y; p; q; g] => Some (MkDPub (MkGroup p q g) y) | _ => None end).
(* dsa.c:365-382 *)
Definition dsa_pub_export (k : dsa_pub) : option (list Z) := write_fields false [py k; gp (pg k); gq (pg k); gg (pg k)].
(* dsa.c:384-399: y last *)
Definition dsa_pub_import_dumb (data : list Z) : option dsa_pub :=
  obind (read_dumbs 4 data) (fun '(l, _) => match l with [p; q; g; y] => Some (MkDPub (MkGroup p q g) y) | _ => None end).
(* dsa.c:401-411 *)
Definition dsa_pub_export_dumb (k : dsa_pub) : option (list Z) := ocat (map asn1_write_dumb [gp (pg k); gq (pg k); gg (pg k); py k]).

(* dsa.c:482-509 *)
Definition dsa_priv_import (data : list Z) : option dsa_priv :=
  obind (read_fields true 5 data) (fun l => match l with [p; q; g; y; x] => Some (MkDPriv (MkGroup p q g) y x) | _ => None end).
(* dsa.c:511-532 *)
Definition dpriv_fields (k : dsa_priv) : list Z := [gp (xg k); gq (xg k); gg (xg k); xy k; xx k].
Definition dsa_priv_export (k : dsa_priv) : option (list Z) := write_fields true (dpriv_fields k).
(* dsa.c:534-552 *)
Definition dsa_priv_import_dumb (data : list Z) : option dsa_priv :=
  obind (read_dumbs 5 data) (fun '(l, _) => match l with [p; q; g; y; x] => Some (MkDPriv (MkGroup p q g) y x) | _ => None end).
(* dsa.c:554-565 *)
Definition dsa_priv_export_dumb (k : dsa_priv) : option (list Z) := ocat (map asn1_write_dumb (dpriv_fields k)).

(* ---- checks ---- *)
(* dsa.c:261-294 *)
Definition dsa_group_is_sane (g : dsa_group) : bool :=
  let pbits := mpz_bitlen (gp g) in
  let qbits := mpz_bitlen (gq g) in
  negb ((pbits <? DSA_MIN_BITS) || (DSA_MAX_BITS <? pbits)) &&
  negb (negb (qbits =? 160) && negb (qbits =? 224) && negb (qbits =? 256)) &&
  negb ((gg g <? 2) || (gp g <=? gg g)) &&
  Z.odd (gp g) && Z.odd (gq g) &&
  negb (gp g - 1 <=? gg g).
(* dsa.c:296-312 *)
Definition dsa_group_verify (g : dsa_group) : bool := dsa_group_is_sane g && (powm (gg g) (gq g) (gp g) =? 1).
(* dsa.c:413-434 *)
Definition dsa_pub_is_sane (k : dsa_pub) : bool :=
  dsa_group_is_sane (pg k) && negb ((py k <? 2) || (gp (pg k) - 1 <=? py k)).
(* dsa.c:436-458 *)
Definition dsa_pub_verify (k : dsa_pub) : bool :=
  dsa_group_verify (pg k) && dsa_pub_is_sane k && (powm (py k) (gq (pg k)) (gp (pg k)) =? 1).
(* dsa.c:567-580 *)
Definition dsa_priv_is_sane (k : dsa_priv) : bool :=
  dsa_pub_is_sane (dsa_pub_roset_priv k) && negb (xx k =? 0) && (xx k <? gq (xg k)).
(* dsa.c:582-604 *)
Definition dsa_priv_verify (k : dsa_priv) : bool :=
  dsa_priv_is_sane k && dsa_pub_verify (dsa_pub_roset_priv k) && (powm (gg (xg k)) (xx k) (gp (xg k)) =? xy k).

(* ---- generation ---- *)
Section Generate.
(* mpz_probab_prime_p(.., 64, ..) with whatever bases it draws *)
Variable isprime : Z -> bool.
(* dsa.c:204-224: the candidates for p under one q *)
Fixpoint find_p (L q : Z) (raw : list Z) : option Z :=
  match raw with
  | [] => None
  | p :: raw =>
    let p := Z.lor (Z.lor p 1) (2 ^ (L - 1)) in
    let t := p mod q - 1 in
    let p := p - t in
    let b := mpz_bitlen p in
    if (b <? L) || (DSA_MAX_BITS <? b) then find_p L q raw else
    if negb (isprime p) then find_p L q raw else Some p
  end.
(* dsa.c:194-225; each q comes with the (at most 4L) values drawn for p *)
Fixpoint find_pq (L N : Z) (raw : list (Z * list Z)) : option (Z * Z) :=
  match raw with
  | [] => None
  | (q, ps) :: raw =>
    let q := Z.lor (Z.lor q 1) (2 ^ (N - 1)) in
    if negb (isprime q) then find_pq L N raw else
    match find_p L q (firstn (Z.to_nat (4 * L)) ps) with Some p => Some (q, p) | None => find_pq L N raw end
  end.
(* dsa.c:232-241; fuel bounds the search for h *)
Fixpoint find_g (fuel : nat) (h e p : Z) : option Z :=
  match fuel with
  | O => None
  | S fuel => let g := powm h e p in if g =? 1 then find_g fuel (h + 1) e p else Some g
  end.
(* dsa.c:167-259; None: out of draws or fuel *)
Definition dsa_group_generate (bits : Z) (raw : list (Z * list Z)) (fuel : nat) : outcome dsa_group :=
  let L := bits in
  let N := if bits <? 2048 then 160 else 256 in
  if negb ((L =? 1024) && (N =? 160)) && negb ((L =? 2048) && (N =? 224)) && negb ((L =? 2048) && (N =? 256)) && negb ((L =? 3072) && (N =? 256)) then Fail else
  match find_pq L N raw with
  | None => Abort
  | Some (q, p) =>
    match find_g fuel 2 ((p - 1) / q) p with None => Abort | Some g => Ok (MkGroup p q g) end
  end.
End Generate.
(* dsa.c:606-625: draws are the results of mpz_urandomm(.., q, ..) *)
Fixpoint first_nonzero (draws : list Z) : option Z := match draws with [] => None | x :: draws => if x =? 0 then first_nonzero draws else Some x end.
Definition dsa_priv_create (g : dsa_group) (draws : list Z) : outcome dsa_priv :=
  match first_nonzero draws with None => Abort | Some x => Ok (MkDPriv g (powm (gg g) x (gp g)) x) end.
(* dsa.c:653-671 *)
Definition dsa_priv_recover (k : dsa_priv) : option dsa_priv :=
  if negb (dsa_group_is_sane (xg k)) then None else
  if xx k =? 0 then None else
  if gq (xg k) <=? xx k then None else
  Some (MkDPriv (xg k) (powm (gg (xg k)) (xx k) (gp (xg k))) (xx k)).
(* dsa.c:1018-1042 dsa_privkey_import *)
Definition dsa_privkey_import (key : list Z) : option (list Z) :=
  obind (dsa_priv_import_dumb key) (fun k =>
  obind (if xy k =? 0 then dsa_priv_recover k else if dsa_priv_is_sane k then Some k else None) dsa_priv_export).
(* dsa.c:1065-1086 dsa_pubkey_create *)
Definition dsa_pubkey_create (key : list Z) : option (list Z) :=
  obind (dsa_priv_import key) (fun k => if negb (dsa_priv_is_sane k) then None else dsa_pub_export (dsa_pub_roset_priv k)).

(* ---- signatures ---- *)
(* dsa.c:727-742 dsa_sig_import_rs *)
Definition dsa_sig_import_rs (data : list Z) (qsize : nat) : option (Z * Z) :=
  let qsize := if (qsize =? 0)%nat then (length data / 2)%nat else qsize in
  if negb (length data =? qsize * 2)%nat then None else Some (be_val (firstn qsize data), be_val (firstn qsize (skipn qsize data))).
(* dsa.c:744-758 dsa_sig_export_rs *)
Definition dsa_sig_export_rs (r s : Z) (qsize : nat) : option (list Z) :=
  let q := Z.of_nat qsize in
  if (q <? mpz_bytelen r) || (q <? mpz_bytelen s) then None else
  obind (mpz_export r q) (fun a => obind (mpz_export s q) (fun b => Some (a ++ b))).
(* dsa.c:689-693 dsa_sig_is_sane *)
Definition dsa_sig_is_sane (r s : Z) : bool := (mpz_bytelen r <=? DSA_MAX_QSIZE) && (mpz_bytelen s <=? DSA_MAX_QSIZE).
(* dsa.c:1184-1212 dsa_sig_export: fixed size to DER *)
Definition dsa_sig_export (sig : list Z) (qsize : nat) : option (list Z) :=
  if DSA_MAX_QSIZE * 2 <? Z.of_nat (length sig) then None else
  if negb (qsize =? 0)%nat && (DSA_MAX_QSIZE <? Z.of_nat qsize) then None else
  obind (dsa_sig_import_rs sig qsize) (fun '(r, s) => if negb (dsa_sig_is_sane r s) then None else write_fields false [r; s]).
(* dsa.c:1214-1235 dsa_sig_import: DER to fixed size *)
Definition dsa_sig_import (sig : list Z) (qsize : nat) : option (list Z) :=
  obind (read_fields false 2 sig) (fun l =>
  match l with [r; s] => if negb (dsa_sig_is_sane r s) then None else dsa_sig_export_rs r s qsize | _ => None end).

(* dsa.c:1237-1273 dsa_reduce: the value and whether it was below q; Abort is the ASSERT *)
Definition dsa_reduce (msg : list Z) (q : Z) : outcome (Z * bool) :=
  let bits := mpz_bitlen q in
  let bytes := (bits + 7) / 8 in
  let msg := if bytes <? Z.of_nat (length msg) then firstn (Z.to_nat bytes) msg else msg in
  let len := Z.of_nat (length msg) in
  let m := be_val msg in
  let m := if bits <? len * 8 then Z.shiftr m (len * 8 - bits) else m in
  let '(m, ret) := if q <=? m then (m - q, false) else (m, true) in
  if q <=? m then Abort else Ok (m, ret).

(* dsa.c:1353-1407: one entry of blinds per iteration *)
Fixpoint sign_loop (blinds : list Z) (d : hmac_drbg_t) (k0 : dsa_priv) (m : Z) (qsize : nat) : outcome (list Z) :=
  match blinds with
  | [] => Abort
  | b :: blinds =>
    let p := gp (xg k0) in let q := gq (xg k0) in
    if b =? 0 then sign_loop blinds d k0 m qsize else
    match hmac_drbg_generate qsize d qsize [] with
    | Some (Ok (bytes, d)) =>
      match dsa_reduce bytes q with
      | Ok (k, ok) =>
        if negb ok then sign_loop blinds d k0 m qsize else
        if k =? 0 then sign_loop blinds d k0 m qsize else
        let r := powm (gg (xg k0)) k p mod q in
        if r =? 0 then sign_loop blinds d k0 m qsize else
        let k := (k * b) mod q in
        let bx := (xx k0 * b) mod q in
        let bm := (m * b) mod q in
        match invert k q with
        | None => Fail
        | Some k =>
          let s := (((r * bx + bm) mod q) * k) mod q in
          if s =? 0 then sign_loop blinds d k0 m qsize else
          match dsa_sig_export_rs r s qsize with Some sig => Ok sig | None => Fail end
        end
      | _ => Abort
      end
    | _ => Abort
    end
  end.
(* dsa.c:1275-1426 dsa_sign; blinds are the results of mpz_urandomm(b, q, ..) *)
Definition dsa_sign (msg key blinds : list Z) : outcome (list Z) :=
  match dsa_priv_import key with
  | None => Fail
  | Some k =>
    if negb (dsa_priv_is_sane k) then Fail else
    let q := gq (xg k) in
    let qsize := mpz_bytelen q in
    match dsa_reduce msg q with
    | Ok (m, _) =>
      match mpz_export (xx k) qsize, mpz_export m qsize with
      | Some a, Some b =>
        match hmac_drbg_init SHA256 (a ++ b) with
        | Ok d => sign_loop blinds d k m (Z.to_nat qsize)
        | _ => Abort
        end
      | _, _ => Abort
      end
    | _ => Abort
    end
  end.

(* dsa.c:1428-1519 dsa_verify; an ASSERT failure of dsa_reduce would be Abort, excluded by C63 *)
Definition dsa_verify (msg sig key : list Z) : bool :=
  match dsa_pub_import key with
  | None => false
  | Some k =>
    if negb (dsa_pub_is_sane k) then false else
    let p := gp (pg k) in let q := gq (pg k) in
    let qsize := mpz_bytelen q in
    match dsa_sig_import_rs sig (Z.to_nat qsize) with
    | None => false
    | Some (r, s) =>
      if negb (dsa_sig_is_sane r s) then false else
      if (r =? 0) || (q <=? r) then false else
      if (s =? 0) || (q <=? s) then false else
      match dsa_reduce msg q with
      | Ok (m, _) =>
        match invert s q with
        | None => false
        | Some si =>
          let u1 := (m * si) mod q in
          let u2 := (r * si) mod q in
          let e1 := powm (gg (pg k)) u1 p in
          let e2 := powm (py k) u2 p in
          let re := ((e1 * e2) mod p) mod q in
          re =? r
        end
      | _ => false
      end
    end
  end.

(* dsa.c:1521-1563 dsa_derive *)
Definition dsa_derive (pub priv : list Z) : option (list Z) :=
  obind (dsa_pub_import pub) (fun k1 =>
  obind (dsa_priv_import priv) (fun k2 =>
  if negb (gp (pg k1) =? gp (xg k2)) || negb (gq (pg k1) =? gq (xg k2)) || negb (gg (pg k1) =? gg (xg k2)) then None else
  if negb (dsa_priv_is_sane k2) then None else
  if negb (dsa_pub_verify k1) then None else
  let e := powm (py k1) (xx k2) (gp (pg k1)) in
  mpz_export e (mpz_bytelen (gp (pg k1))))).
