(* Model of the Weierstrass curve context of src/ecc.c (wei_t: 4018-4087, 4425-4440, 4554-4577, 4745-4793), point
   encodings (2171-2280) and ECDSA (10532-11560). Scalars are integers in [0, n); the limb arithmetic behind sc_add, sc_mul,
   sc_reduce_weak and sc_import is represented by its value. Scalars and field elements of these curves are big endian
   (endian 1). Outputs written through pointers are returned; cleansing is left out; the redefine hook is NULL. None (or
   Abort) is a failed ASSERT or torsion_abort. *)
From Verif.Base Require Import Prelude.
From Verif.Model Require Import Encoding Bio Asn1 Hash Drbg NumTheory Rsa Field EcScalar Wei.
Section E.
Variable p : positive.
Local Notation fe := (fe p).
Local Notation wge := (wge p).
Local Notation jge := (jge p).
(* endo_def_t and wei_t (ecc.c 400-470): the members that carry data *)
Record endo := MkEndo { en_beta : fe; en_lambda : Z; en_b1 : Z; en_b2 : Z; en_g1 : Z; en_g2 : Z; en_prec : Z; en_wnd : list wge }.
Record wei := MkWei { e_a : fe; e_b : fe; e_h : Z; e_n : Z; e_hash : hash_id; e_xof : hash_id; e_g : wge;
  e_fixed : list wge; e_naf : list wge; e_blind : Z; e_unblind : jge; e_endo : option endo }.
(* scalar_field_init (1935-1997): bits, size, endo_bits; prime_field_init (2003-2061) *)
Definition sbits (c : wei) : nat := sc_bitlen (e_n c).
Definition ssize (c : wei) : nat := ((sbits c + 7) / 8)%nat.
Definition endo_bits (c : wei) : nat := ((sbits c + 1) / 2 + 1)%nat.
Definition fbits : nat := sc_bitlen (Zpos p).
Definition fsize : nat := ((fbits + 7) / 8)%nat.
(* the curve constants of wei_def_t *)
Record wei_def := MkWeiDef { d_a : fe; d_b : fe; d_h : Z; d_n : Z; d_hash : hash_id; d_xof : hash_id; d_x : fe; d_y : fe;
  d_endo : option (fe * Z * Z * Z * Z * Z * Z) }.
(* wei_init (4018-4087) *)
Definition wei_init (d : wei_def) : option wei :=
  let g := MkW (d_x d) (d_y d) false in
  match wge_fixed_points_var p (d_a d) (d_h d) (sc_bitlen (d_n d)) g, wge_naf_points_var p (d_a d) (d_h d) g NAF_WIDTH_PRE with
  | Some fixed, Some naf =>
    Some (MkWei (d_a d) (d_b d) (d_h d) (d_n d) (d_hash d) (d_xof d) g fixed naf 0 (jge_zero p)
      (match d_endo d with
       | None => None
       | Some (beta, lambda, b1, b2, g1, g2, prec) => Some (MkEndo beta lambda b1 b2 g1 g2 prec (map (wge_endo_beta p beta) naf))
       end))
  | _, _ => None
  end.
Definition en_split (c : wei) (e : endo) (k : Z) : Z * Z :=
  wei_endo_split (e_n c) (en_g1 e) (en_g2 e) (en_b1 e) (en_b2 e) (en_lambda e) (en_prec e) k.
(* wei_jmul_g (4246-4283), wei_mul_g (4286-4292) *)
Definition jmul_g (c : wei) (k : Z) : jge := wei_jmul_g p (e_a c) (e_n c) (sbits c) (e_fixed c) (e_blind c) (e_unblind c) k.
Definition mul_g (c : wei) (k : Z) : wge := wge_set_jge p (jmul_g c k).
(* wei_jmul (4425-4431), wei_mul (4433-4440) *)
Definition jmul (c : wei) (q : wge) (k : Z) : jge :=
  match e_endo c with
  | Some e => wei_jmul_endo p (e_a c) (e_h c) (e_n c) (endo_bits c) (en_beta e) (en_split c e) q k
  | None => wei_jmul_normal p (e_a c) (e_h c) (sbits c) q k
  end.
Definition mul (c : wei) (q : wge) (k : Z) : wge := wge_set_jge p (jmul c q k).
(* wei_jmul_double_var (4554-4564), wei_mul_double_var (4566-4577) *)
Definition jmul_double (c : wei) (k1 : Z) (q : wge) (k2 : Z) : option jge :=
  match e_endo c with
  | Some e => wei_jmul_double_endo_var p (e_a c) (e_h c) (e_n c) (endo_bits c) (en_beta e) (en_split c e) (e_naf c) (en_wnd e) k1 q k2
  | None => wei_jmul_double_normal_var p (e_a c) (e_h c) (sbits c) (e_naf c) k1 q k2
  end.
Definition mul_double (c : wei) (k1 : Z) (q : wge) (k2 : Z) : option wge :=
  match jmul_double c k1 q k2 with Some j => wge_set_jge_var p j | None => None end.
(* wei_jmul_multi_var (4745-4757) *)
Definition jmul_multi (c : wei) (k0 : Z) (l : list (wge * Z)) : option jge :=
  match e_endo c with
  | Some e => wei_jmul_multi_endo_var p (e_a c) (e_h c) (e_n c) (endo_bits c) (en_beta e) (en_split c e) (e_naf c) (en_wnd e) k0 l
  | None => wei_jmul_multi_normal_var p (e_a c) (e_h c) (sbits c) (e_naf c) k0 l
  end.
(* ---- scalars ---- *)
(* sc_reduce_weak (803-808) of a value below 2n: the value and whether it was already reduced *)
Definition sc_weak (n v : Z) : Z * bool := if n <=? v then (v - n, false) else (v, true).
(* sc_import (947-959), sc_export (1039-1042) *)
Definition sc_import (c : wei) (raw : list Z) : Z * bool :=
  let v := be_val raw in if v <? e_n c then (v, true) else (0, false).
Definition sc_export (c : wei) (x : Z) : list Z := be_bytes (ssize c) x.
(* sc_import_pad (1026-1037): leading zeros of an oversized string are dropped *)
Fixpoint drop_pad (size : nat) (raw : list Z) : list Z :=
  match raw with
  | x :: t => if (size <? length raw)%nat && (x =? 0) then drop_pad size t else raw
  | [] => raw
  end.
Definition sc_import_pad (c : wei) (raw : list Z) : Z * bool :=
  let raw := drop_pad (ssize c) raw in
  if (ssize c <? length raw)%nat then (0, false) else sc_import c raw.
(* sc_set_fe (1044-1061): reduce a field element; whether it was below n. The three cases by size agree in value. *)
Definition sc_set_fe (c : wei) (x : fe) : Z * bool := (fv x mod e_n c, fv x <? e_n c).
(* sc_add, sc_mul (810-815, 864-874) *)
Definition sc_add (n x y : Z) : Z := (x + y) mod n.
Definition sc_mul (n x y : Z) : Z := (x * y) mod n.
(* sc_invert (1103-1120): x^(n-2) and whether it is nonzero; sc_invert_var (1096-1101): the euclidean inverse *)
Definition sc_invert (n x : Z) : Z * bool := let z := powm x (n - 2) n in (z, negb (z =? 0)).
Definition sc_invert_var (n x : Z) : option Z :=
  match mpn_invert x n with Some (Some r) => Some r | _ => None end.
(* sc_random (1326-1344): draws limbs * 8 bytes, read as little endian limbs, masked; rejected unless in [1, n).
   fuel bounds the draws; None when it runs out *)
Fixpoint sc_random (fuel : nat) (n : Z) (bits : nat) (d : hmac_drbg_t) : option (Z * hmac_drbg_t) :=
  match fuel with
  | O => None
  | S fuel =>
    let len := ((bits + 63) / 64 * 8)%nat in
    match hmac_drbg_generate len d len [] with
    | Some (Ok (raw, d)) =>
      let z := le_val raw mod 2 ^ Z.of_nat bits in
      if (z <? n) && negb (z =? 0) then Some (z, d) else sc_random fuel n bits d
    | _ => None
    end
  end.
(* wei_randomize (4774-4793) with the drawn blinding value *)
Definition wei_randomize (c : wei) (blind : Z) : wei :=
  MkWei (e_a c) (e_b c) (e_h c) (e_n c) (e_hash c) (e_xof c) (e_g c) (e_fixed c) (e_naf c) (sc_neg (e_n c) blind) (jmul_g c blind) (e_endo c).
(* ---- encodings ---- *)
(* fe_import (1363-1388): the high bits are masked off after the range check; fe_export (1416-1428) *)
Definition fe_import (raw : list Z) : fe * bool := (fe_of p (be_val raw mod 2 ^ Z.of_nat fbits), be_val raw <? Zpos p).
Definition fe_export (x : fe) : list Z := be_bytes fsize (fv x).
(* wge_import (2171-2214) *)
Definition wge_import (c : wei) (raw : list Z) : option (wge * bool) :=
  match raw with
  | [] => Some (wge_zero p, false)
  | form :: t =>
    if (form =? 2) || (form =? 3) then
      if negb (length raw =? 1 + fsize)%nat then Some (wge_zero p, false) else
      let '(x, ok) := fe_import t in
      match wge_set_x p (e_a c) (e_b c) (e_h c) x (form mod 2) with
      | Some (q, ret) => Some (q, ok && ret)
      | None => None
      end
    else if (form =? 4) || (form =? 6) || (form =? 7) then
      if negb (length raw =? 1 + fsize * 2)%nat then Some (wge_zero p, false) else
      let '(x, okx) := fe_import (firstn fsize t) in
      let '(y, oky) := fe_import (skipn fsize t) in
      let okf := (form =? 4) || (form =? (if fe_is_odd y then 7 else 6)) in
      let '(q, ret) := wge_set_xy p (e_a c) (e_b c) x y in
      Some (q, okx && oky && okf && ret)
    else Some (wge_zero p, false)
  end.
(* wge_export (2216-2243) *)
Definition wge_export (q : wge) (compact : bool) : list Z * bool :=
  ((if compact then (if fe_is_odd (wy q) then 3 else 2) :: fe_export (wx q)
    else 4 :: fe_export (wx q) ++ fe_export (wy q)), negb (winf q)).
(* wge_import_even, wge_import_square (2245-2269), wge_export_x (2271-2280) *)
Definition wge_import_even (c : wei) (raw : list Z) : option (wge * bool) :=
  let '(x, ok) := fe_import raw in
  match wge_set_x p (e_a c) (e_b c) (e_h c) x 0 with Some (q, ret) => Some (q, ok && ret) | None => None end.
Definition wge_import_square (c : wei) (raw : list Z) : option (wge * bool) :=
  let '(x, ok) := fe_import raw in
  match wge_set_x p (e_a c) (e_b c) (e_h c) x (-1) with Some (q, ret) => Some (q, ok && ret) | None => None end.
Definition wge_export_x (q : wge) : list Z * bool := (fe_export (wx q), negb (winf q)).
(* ---- private keys (10546-10713) ---- *)
Definition priv_read (c : wei) (priv : list Z) : Z * bool := let '(a, ok) := sc_import c priv in (a, ok && negb (a =? 0)).
Definition ecdsa_privkey_verify (c : wei) (priv : list Z) : bool := snd (priv_read c priv).
Definition ecdsa_privkey_export (c : wei) (priv : list Z) : list Z * bool := let '(a, ok) := priv_read c priv in (sc_export c a, ok).
Definition ecdsa_privkey_import (c : wei) (raw : list Z) : list Z * bool :=
  let '(a, ok) := sc_import_pad c raw in (sc_export c a, ok && negb (a =? 0)).
Definition ecdsa_privkey_tweak_add (c : wei) (priv tweak : list Z) : list Z * bool :=
  let '(a, ok) := priv_read c priv in
  let '(t, ok') := sc_import c tweak in
  let a := sc_add (e_n c) a t in (sc_export c a, ok && ok' && negb (a =? 0)).
Definition ecdsa_privkey_tweak_mul (c : wei) (priv tweak : list Z) : list Z * bool :=
  let '(a, ok) := priv_read c priv in
  let '(t, ok') := sc_import c tweak in
  let a := sc_mul (e_n c) a t in (sc_export c a, ok && ok' && negb (a =? 0)).
Definition ecdsa_privkey_negate (c : wei) (priv : list Z) : list Z * bool :=
  let '(a, ok) := priv_read c priv in (sc_export c (sc_neg (e_n c) a), ok).
Definition ecdsa_privkey_invert (c : wei) (priv : list Z) : list Z * bool :=
  let '(a, ok) := sc_import c priv in let '(i, ok') := sc_invert (e_n c) a in (sc_export c i, ok && ok').
(* ---- public keys (10715-11043) ---- *)
Definition ecdsa_pubkey_create (c : wei) (priv : list Z) (compact : bool) : list Z * bool :=
  let '(a, ok) := priv_read c priv in
  let '(out, ok') := wge_export (mul_g c a) compact in (out, ok && ok').
(* import a key, apply f, export *)
Definition with_pub (c : wei) (pub : list Z) (compact : bool) (f : wge -> wge) (extra : bool) : option (list Z * bool) :=
  match wge_import c pub with
  | None => None
  | Some (q, ok) => let '(out, ok') := wge_export (f q) compact in Some (out, ok && extra && ok')
  end.
Definition ecdsa_pubkey_convert (c : wei) (pub : list Z) (compact : bool) := with_pub c pub compact (fun q => q) true.
Definition ecdsa_pubkey_negate (c : wei) (pub : list Z) (compact : bool) := with_pub c pub compact (wge_neg p) true.
Definition ecdsa_pubkey_verify (c : wei) (pub : list Z) : option bool :=
  match wge_import c pub with Some (_, ok) => Some ok | None => None end.
Definition ecdsa_pubkey_tweak_add (c : wei) (pub tweak : list Z) (compact : bool) : option (list Z * bool) :=
  let '(t, ok) := sc_import c tweak in
  with_pub c pub compact (fun q => wge_set_jge p (jge_mixed_add p (e_a c) (jmul_g c t) q)) ok.
Definition ecdsa_pubkey_tweak_mul (c : wei) (pub tweak : list Z) (compact : bool) : option (list Z * bool) :=
  let '(t, ok) := sc_import c tweak in with_pub c pub compact (fun q => mul c q t) ok.
Definition ecdsa_pubkey_add (c : wei) (pub1 pub2 : list Z) (compact : bool) : option (list Z * bool) :=
  match wge_import c pub2 with
  | None => None
  | Some (q2, ok2) => with_pub c pub1 compact (fun q => wge_add p (e_a c) q q2) ok2
  end.
Fixpoint combine_loop (c : wei) (P : jge) (ok : bool) (pubs : list (list Z)) : option (jge * bool) :=
  match pubs with
  | [] => Some (P, ok)
  | pub :: t =>
    match wge_import c pub with
    | None => None
    | Some (q, ok') => combine_loop c (jge_mixed_add p (e_a c) P q) (ok && ok') t
    end
  end.
Definition ecdsa_pubkey_combine (c : wei) (pubs : list (list Z)) (compact : bool) : option (list Z * bool) :=
  let fin r := match r with
    | None => None
    | Some (P, ok) => let '(out, ok') := wge_export (wge_set_jge p P) compact in Some (out, ok && ok')
    end in
  match pubs with
  | [] => fin (Some (jge_zero p, true))
  | pub :: t =>
    match wge_import c pub with
    | None => None
    | Some (q, ok) => fin (combine_loop c (jge_set_wge p q) ok t)
    end
  end.
(* ---- signatures ---- *)
(* ecdsa_encode_der (11045-11068), ecdsa_decode_der (11070-11104): failure leaves zeros *)
Definition ecdsa_encode_der (c : wei) (r s : Z) : option (list Z) :=
  let rp := sc_export c r in let sp := sc_export c s in
  match asn1_write_seq (asn1_size_int rp + asn1_size_int sp), asn1_write_int rp, asn1_write_int sp with
  | Some h, Some a, Some b => Some (h ++ a ++ b)
  | _, _, _ => None
  end.
(* rres has a third outcome for reads past the end of the input *)
Definition ecdsa_decode_der (c : wei) (der : list Z) (strict : bool) : rres (Z * Z) :=
  match asn1_read_seq der strict with
  | ROk _ d =>
    match asn1_read_int (ssize c) d strict with
    | ROk rp d =>
      match asn1_read_int (ssize c) d strict with
      | ROk sp d =>
        if strict && negb (length d =? 0)%nat then RFail else
        let '(r, ok1) := sc_import c rp in
        let '(s, ok2) := sc_import c sp in
        if ok1 && ok2 then ROk (r, s) [] else RFail
      | RFail => RFail
      | ROob => ROob
      end
    | RFail => RFail
    | ROob => ROob
    end
  | RFail => RFail
  | ROob => ROob
  end.
(* ecdsa_reduce (11106-11142) *)
Definition ecdsa_reduce (c : wei) (msg : list Z) : Z * bool :=
  let msg := if (ssize c <? length msg)%nat then firstn (ssize c) msg else msg in
  let r := be_val msg in
  let r := if Z.of_nat (sbits c) <? Z.of_nat (length msg) * 8 then Z.shiftr r (Z.of_nat (length msg) * 8 - Z.of_nat (sbits c)) else r in
  sc_weak (e_n c) r.
Definition sig_r (c : wei) (sig : list Z) : list Z := firstn (ssize c) sig.
Definition sig_s (c : wei) (sig : list Z) : list Z := firstn (ssize c) (skipn (ssize c) sig).
(* ecdsa_sig_export (11144-11164), ecdsa_sig_import, ecdsa_sig_import_lax (11166-11198) *)
Definition ecdsa_sig_export (c : wei) (sig : list Z) : option (list Z * bool) :=
  let '(r, ok1) := sc_import c (sig_r c sig) in
  let '(s, ok2) := sc_import c (sig_s c sig) in
  let '(r, s) := if ok1 && ok2 then (r, s) else (0, 0) in
  match ecdsa_encode_der c r s with Some out => Some (out, ok1 && ok2) | None => None end.
Definition sig_import (c : wei) (der : list Z) (strict : bool) : rres (list Z * bool) :=
  match ecdsa_decode_der c der strict with
  | ROk (r, s) _ => ROk (sc_export c r ++ sc_export c s, true) []
  | RFail => ROk (sc_export c 0 ++ sc_export c 0, false) []
  | ROob => ROob
  end.
Definition ecdsa_sig_import (c : wei) (der : list Z) := sig_import c der true.
Definition ecdsa_sig_import_lax (c : wei) (der : list Z) := sig_import c der false.
(* ecdsa_sig_normalize (11200-11217), ecdsa_is_low_s (11219-11230) *)
Definition ecdsa_sig_normalize (c : wei) (sig : list Z) : list Z * bool :=
  let '(r, ok1) := sc_import c (sig_r c sig) in
  let '(s, ok2) := sc_import c (sig_s c sig) in
  (sc_export c r ++ sc_export c (fst (sc_minimize (e_n c) s)), ok1 && ok2).
Definition ecdsa_is_low_s (c : wei) (sig : list Z) : bool :=
  let '(r, ok1) := sc_import c (sig_r c sig) in
  let '(s, ok2) := sc_import c (sig_s c sig) in ok1 && ok2 && negb (sc_is_high (e_n c) s).
(* the nonce loop of ecdsa_sign_internal (11313-11337); fuel bounds the iterations, Abort when it runs out *)
Fixpoint sign_loop (fuel : nat) (c : wei) (d : hmac_drbg_t) : outcome (Z * wge) :=
  match fuel with
  | O => Abort
  | S fuel =>
    match hmac_drbg_generate (ssize c) d (ssize c) [] with
    | Some (Ok (raw, d)) =>
      let '(k, ok) := ecdsa_reduce c raw in
      let R := mul_g c k in
      let r := fst (sc_set_fe c (wx R)) in
      if ok && negb (k =? 0) && negb (winf R) && negb (r =? 0) then Ok (k, R) else sign_loop fuel c d
    | _ => Abort
    end
  end.
(* ecdsa_sign, ecdsa_sign_internal (11232-11358): signature, param, return value *)
Definition ecdsa_sign (fuel : nat) (c : wei) (msg priv : list Z) : outcome (list Z * Z * bool) :=
  let '(a, ret) := priv_read c priv in
  let m := fst (ecdsa_reduce c msg) in
  match hmac_drbg_init (e_hash c) (sc_export c a ++ sc_export c m) with
  | Ok d =>
    match sign_loop fuel c d with
    | Ok (k, R) =>
      let sign := fe_is_odd (wy R) in
      let '(r, low) := sc_set_fe c (wx R) in
      let '(ki, ok) := sc_invert (e_n c) k in
      if negb ok then Abort else
      let s := sc_mul (e_n c) (sc_add (e_n c) (sc_mul (e_n c) r a) m) ki in
      let '(s, neg) := sc_minimize (e_n c) s in
      Ok (sc_export c r ++ sc_export c s, (if low then 0 else 2) + (if xorb sign neg then 1 else 0), ret)
    | Fail => Fail
    | Abort => Abort
    end
  | _ => Abort
  end.
(* ecdsa_verify (11360-11440) *)
Definition ecdsa_verify (c : wei) (msg sig pub : list Z) : option bool :=
  let n := e_n c in
  let '(r, ok1) := sc_import c (sig_r c sig) in
  let '(s, ok2) := sc_import c (sig_s c sig) in
  if negb ok1 then Some false else if negb ok2 then Some false
  else if (r =? 0) || (s =? 0) then Some false
  else if sc_is_high n s then Some false
  else match wge_import c pub with
  | None => None
  | Some (A, ok) =>
    if negb ok then Some false else
    let m := fst (ecdsa_reduce c msg) in
    match sc_invert_var n s with
    | None => None
    | Some si =>
      let u1 := sc_mul n m si in
      let u2 := sc_mul n r si in
      if wei_has_small_gap p n then
        match jmul_double c u1 A u2 with None => None | Some J => jge_equal_r_var p n J r end
      else match mul_double c u1 A u2 with
      | None => None
      | Some R => if winf R then Some false else Some (fst (sc_set_fe c (wx R)) =? r)
      end
    end
  end.
(* ecdsa_recover (11442-11530) *)
Definition recover_point (c : wei) (msg sig : list Z) (param : Z) : option wge :=
  let n := e_n c in
  let fail := Some (wge_zero p) in
  let '(r, ok1) := sc_import c (sig_r c sig) in
  let '(s, ok2) := sc_import c (sig_s c sig) in
  if negb ok1 then fail else if negb ok2 then fail
  else if (r =? 0) || (s =? 0) then fail
  else if sc_is_high n s then fail
  else let '(x, okx) := fe_set_sc p r in
  if negb okx then fail
  else if negb (param / 2 =? 0) && (wei_has_high_order p n || (Zpos p mod n <=? r)) then fail
  else let x := if negb (param / 2 =? 0) then fe_add x (fe_of p n) else x in
  match wge_set_x p (e_a c) (e_b c) (e_h c) x (param mod 2) with
  | None => None
  | Some (R, ok) =>
    if negb ok then fail else
    let m := fst (ecdsa_reduce c msg) in
    match sc_invert_var n r with
    | None => None
    | Some ri => mul_double c (sc_neg n (sc_mul n m ri)) R (sc_mul n s ri)
    end
  end.
Definition ecdsa_recover (c : wei) (msg sig : list Z) (param : Z) (compact : bool) : option (list Z * bool) :=
  match recover_point c msg sig param with Some A => Some (wge_export A compact) | None => None end.
(* ecdsa_derive (11532-11559) *)
Definition ecdsa_derive (c : wei) (pub priv : list Z) (compact : bool) : option (list Z * bool) :=
  let '(a, ok) := priv_read c priv in with_pub c pub compact (fun q => mul c q a) ok.
End E.
Arguments MkEndo {p}.
Arguments MkWei {p}.
Arguments MkWeiDef {p}.
