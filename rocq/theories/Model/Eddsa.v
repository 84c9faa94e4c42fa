(* Model of the Edwards curve context (edwards_t: ecc.c 7179-7228, 7584-7603), point encodings (6572-6627) and EdDSA
   (13254-14388). Scalars are integers in [0, n); the limb arithmetic behind sc_add, sc_mul, sc_mul_word and the reductions is
   represented by its value. Scalars and field elements of these curves are little endian (endian -1). Outputs written through
   pointers are returned; cleansing is left out. None (or Abort) is a failed ASSERT, CHECK or torsion_abort. Key generation,
   grinding and the uniform/hash maps are not modelled. *)
From Verif.Base Require Import Prelude.
From Verif.Model Require Import Encoding Bio Hash Drbg NumTheory Field EcScalar Wei Ecdsa Schnorr Edwards.
Section E.
Variable p : positive.
Local Notation fe := (fe p).
Local Notation xge := (xge p).
(* edwards_t and edwards_def_t (547-593): the members that carry data used here. The isomorphism to the Montgomery form
   (7231-7284), the torsion table and ristretto are not part of this record *)
Record edw := MkEdw { x_a : fe; x_d : fe; x_h : Z; x_n : Z; x_hash : hash_id; x_context : bool; x_prefix : list Z; x_g : xge;
  x_fixed : list xge; x_naf : list xge; x_blind : Z; x_unblind : xge }.
Record edw_def := MkEdwDef { k_a : fe; k_d : fe; k_h : Z; k_n : Z; k_hash : hash_id; k_context : bool; k_prefix : list Z; k_x : fe; k_y : fe }.
(* scalar_field_init (1935-1997), prime_field_init (2003-2061): bits, size, adj_size *)
Definition xsbits (c : edw) : nat := sc_bitlen (x_n c).
Definition xssize (c : edw) : nat := ((xsbits c + 7) / 8)%nat.
Definition adj_size : nat := if (fbits p mod 8 =? 0)%nat then S (fsize p) else fsize p.
(* edwards_init (7179-7228) *)
Definition edwards_init (d : edw_def) : option edw :=
  let g := MkX (k_x d) (k_y d) f1 (fe_mul (k_x d) (k_y d)) in
  match xge_fixed_points p (k_a d) (k_d d) (sc_bitlen (k_n d)) g, xge_fixed_naf_points p (k_a d) (k_d d) g XNAF_WIDTH_PRE with
  | Some fixed, Some naf =>
    Some (MkEdw (k_a d) (k_d d) (k_h d) (k_n d) (k_hash d) (k_context d) (k_prefix d) g fixed naf 0 (xge_zero p))
  | _, _ => None
  end.
(* the multiplications of Edwards.v over a context *)
Definition xmul_g (c : edw) (k : Z) : xge := edwards_mul_g p (x_a c) (x_d c) (x_n c) (xsbits c) (x_fixed c) (x_blind c) (x_unblind c) k.
Definition xmul (c : edw) (q : xge) (k : Z) : xge := edwards_mul p (x_a c) (x_d c) (fbits p) q k.
Definition xmul_double (c : edw) (k1 : Z) (q : xge) (k2 : Z) : option xge := edwards_mul_double_var p (x_a c) (x_d c) (xsbits c) (x_naf c) k1 q k2.
Definition xmul_multi (c : edw) (k0 : Z) (l : list (xge * Z)) : option xge := edwards_mul_multi_var p (x_a c) (x_d c) (xsbits c) (x_naf c) k0 l.
Definition xadd (c : edw) (q r : xge) : xge := xge_add p (x_a c) (x_d c) q r.
Definition xmadd (c : edw) (q r : xge) : xge := xge_mixed_add p (x_a c) (x_d c) q r.
Definition xmulh (c : edw) (q : xge) : option xge := xge_mulh p (x_a c) (x_h c) q.
(* edwards_randomize (7584-7603) with the drawn blinding value *)
Definition edwards_randomize (c : edw) (blind : Z) : edw :=
  MkEdw (x_a c) (x_d c) (x_h c) (x_n c) (x_hash c) (x_context c) (x_prefix c) (x_g c) (x_fixed c) (x_naf c) (sc_neg (x_n c) blind) (xmul_g c blind).
(* ---- scalars ---- *)
(* sc_import_raw (942-945), sc_import (947-959), sc_export (1039-1042): sc->size octets *)
Definition xsc_raw (c : edw) (raw : list Z) : Z := le_val (firstn (xssize c) raw).
Definition xsc_import (c : edw) (raw : list Z) : Z * bool := let v := xsc_raw c raw in if v <? x_n c then (v, true) else (0, false).
Definition xsc_export (c : edw) (x : Z) : list Z := le_bytes (xssize c) x.
(* sc_import_reduce (995-1001): sc_import_weak (984-988) when n fills its octets, else sc_import_strong (990-993); the flag is unused *)
Definition xsc_reduce (c : edw) (raw : list Z) : Z :=
  if (xsbits c mod 8 =? 0)%nat then fst (sc_weak (x_n c) (xsc_raw c raw)) else xsc_raw c raw mod x_n c.
(* sc_import_wide (961-982), with shift = 2 limbs + 2 (1948) *)
Definition xsc_wide (c : edw) (raw : list Z) : option Z :=
  if (length raw * 8 <=? ((xsbits c + 63) / 64 * 2 + 2) * 64)%nat then Some (le_val raw mod x_n c) else None.
(* ---- encodings ---- *)
(* fe_import (1363-1388), fe_export (1416-1428) *)
Definition xfe_import (raw : list Z) : fe * bool := (fe_of p (le_val raw mod 2 ^ Z.of_nat (fbits p)), le_val raw <? Zpos p).
Definition xfe_export (x : fe) : list Z := le_bytes (fsize p) (fv x).
(* xge_import (6572-6599) *)
Definition xge_import (c : edw) (raw : list Z) : option (xge * bool) :=
  let '(y, ok, last) :=
    if (fbits p mod 8 =? 0)%nat then
      let last := nth (fsize p) raw 0 in
      let '(y, ok) := xfe_import (firstn (fsize p) raw) in (y, (Z.land last 0x7f =? 0) && ok, last)
    else
      let last := nth (fsize p - 1) raw 0 in
      let '(y, ok) := xfe_import (firstn (fsize p - 1) raw ++ [Z.land last 0x7f]) in (y, ok, last)
  in
  match xge_set_y p (x_a c) (x_d c) y (Z.shiftr last 7) with
  | Some (q, ret) => Some (q, ok && ret)
  | None => None
  end.
(* xge_export (6601-6627) *)
Definition xge_export (q : xge) : option (list Z) :=
  let '(a, ok) := fe_invert (xz p q) in
  if negb ok then None else
  let x := fe_mul (xx p q) a in
  let raw := xfe_export (fe_mul (xy p q) a) in
  let top := Z.shiftl (if fe_is_odd x then 1 else 0) 7 in
  Some (if (fbits p mod 8 =? 0)%nat then raw ++ [top]
        else firstn (fsize p - 1) raw ++ [Z.lor (nth (fsize p - 1) raw 0) top]).
(* edwards_clamp (7286-7317); out[0] &= -h for h up to 256 *)
Definition edwards_clamp (c : edw) (scalar : list Z) : option (list Z) :=
  if (fsize p <? xssize c)%nat then None else
  let top := if (xssize c <? fsize p)%nat || (fbits p mod 8 =? 0)%nat then 8 else Z.of_nat (fbits p mod 8) in
  let out := firstn (xssize c) scalar in
  let out := Z.land (hd 0 out) (256 - x_h c) :: tl out in
  let k := (xssize c - 1)%nat in
  Some (firstn k out ++ [Z.lor (Z.land (nth k out 0) (Z.shiftl 1 top - 1)) (Z.shiftl 1 (top - 1))]).
(* ---- keys ---- *)
(* eddsa_privkey_hash (13254-13266), eddsa_privkey_expand (13343-13361), eddsa_privkey_convert (13363-13376): the clamp is in
   place, so only the first sc->size octets change; the digest is cut to the octets that are read *)
Definition privkey_digest (c : edw) (priv : list Z) : outcome (list Z) :=
  bind (feed (x_hash c) (hash_init (x_hash c)) [firstn adj_size priv]) (fun x => hash_final (x_hash c) x (adj_size * 2)).
Definition eddsa_privkey_expand (c : edw) (priv : list Z) : outcome (list Z * list Z) :=
  if (adj_size <? xssize c)%nat then Abort else
  bind (privkey_digest c priv) (fun bytes =>
  bind (of_opt (edwards_clamp c bytes)) (fun scalar => Ok (scalar, firstn adj_size (skipn adj_size bytes)))).
Definition eddsa_privkey_convert (c : edw) (priv : list Z) : outcome (list Z) :=
  bind (privkey_digest c priv) (fun bytes => of_opt (edwards_clamp c bytes)).
(* eddsa_scalar_is_zero, _tweak_add, _tweak_mul, _reduce, _negate, _invert (13424-13512) *)
Definition eddsa_scalar_is_zero (c : edw) (scalar : list Z) : bool := xsc_reduce c scalar =? 0.
Definition eddsa_scalar_tweak_add (c : edw) (scalar tweak : list Z) : list Z := xsc_export c (sc_add (x_n c) (xsc_reduce c scalar) (xsc_reduce c tweak)).
Definition eddsa_scalar_tweak_mul (c : edw) (scalar tweak : list Z) : list Z := xsc_export c (sc_mul (x_n c) (xsc_reduce c scalar) (xsc_reduce c tweak)).
Definition eddsa_scalar_reduce (c : edw) (scalar : list Z) : list Z := xsc_export c (xsc_reduce c scalar).
Definition eddsa_scalar_negate (c : edw) (scalar : list Z) : list Z := xsc_export c (sc_neg (x_n c) (xsc_reduce c scalar)).
Definition eddsa_scalar_invert (c : edw) (scalar : list Z) : list Z := xsc_export c (fst (sc_invert (x_n c) (xsc_reduce c scalar))).
(* eddsa_pubkey_from_scalar (13514-13531), eddsa_pubkey_create (13533-13544) *)
Definition eddsa_pubkey_from_scalar (c : edw) (scalar : list Z) : option (list Z) := xge_export (xmul_g c (xsc_reduce c scalar)).
Definition eddsa_pubkey_create (c : edw) (priv : list Z) : outcome (list Z) :=
  bind (eddsa_privkey_convert c priv) (fun s => of_opt (eddsa_pubkey_from_scalar c s)).
(* the shape of the public key functions: import, compute, export; the flag of the import is returned *)
Definition pub_map (c : edw) (pub : list Z) (f : xge -> xge) : option (list Z * bool) :=
  match xge_import c pub with
  | None => None
  | Some (A, ok) => match xge_export (f A) with Some out => Some (out, ok) | None => None end
  end.
(* eddsa_pubkey_verify (13622-13627), eddsa_pubkey_export (13629-13644), eddsa_pubkey_is_infinity (13677-13683),
   eddsa_pubkey_is_small (13685-13694), eddsa_pubkey_has_torsion (13696-13705) *)
Definition eddsa_pubkey_verify (c : edw) (pub : list Z) : option bool := match xge_import c pub with Some (_, ok) => Some ok | None => None end.
Definition eddsa_pubkey_export (c : edw) (pub : list Z) : option (list Z * list Z * bool) :=
  match xge_import c pub with Some (A, ok) => Some (xfe_export (xx p A), xfe_export (xy p A), ok) | None => None end.
Definition eddsa_pubkey_is_infinity (c : edw) (pub : list Z) : bool :=
  if list_eq_dec Z.eq_dec (firstn adj_size pub) (1 :: repeat 0 (adj_size - 1)) then true else false.
Definition eddsa_pubkey_is_small (c : edw) (pub : list Z) : option bool :=
  match xge_import c pub with
  | Some (A, ok) => match xge_is_small p (x_a c) (x_h c) A with Some s => Some (ok && s) | None => None end
  | None => None
  end.
Definition eddsa_pubkey_has_torsion (c : edw) (pub : list Z) : option bool :=
  match xge_import c pub with Some (A, ok) => Some (ok && xge_has_torsion p (x_a c) (x_d c) (fbits p) (x_n c) A) | None => None end.
(* eddsa_pubkey_tweak_add (13707-13729), eddsa_pubkey_tweak_mul (13731-13752), eddsa_pubkey_negate (13797-13810) *)
Definition eddsa_pubkey_tweak_add (c : edw) (pub tweak : list Z) : option (list Z * bool) :=
  pub_map c pub (fun A => xadd c A (xmul_g c (xsc_reduce c tweak))).
Definition eddsa_pubkey_tweak_mul (c : edw) (pub tweak : list Z) : option (list Z * bool) :=
  pub_map c pub (fun A => xmul c A (xsc_raw c tweak)).
Definition eddsa_pubkey_negate (c : edw) (pub : list Z) : option (list Z * bool) := pub_map c pub (xge_neg p).
(* eddsa_pubkey_add (13754-13770), eddsa_pubkey_combine (13772-13795) *)
Definition eddsa_pubkey_add (c : edw) (pub1 pub2 : list Z) : option (list Z * bool) :=
  match xge_import c pub1, xge_import c pub2 with
  | Some (P, ok1), Some (Q, ok2) => match xge_export (xmadd c P Q) with Some out => Some (out, ok1 && ok2) | None => None end
  | _, _ => None
  end.
Fixpoint combine_loop (c : edw) (acc : xge) (ret : bool) (pubs : list (list Z)) : option (list Z * bool) :=
  match pubs with
  | [] => match xge_export acc with Some out => Some (out, ret) | None => None end
  | pub :: t => match xge_import c pub with Some (A, ok) => combine_loop c (xmadd c acc A) (ret && ok) t | None => None end
  end.
Definition eddsa_pubkey_combine (c : edw) (pubs : list (list Z)) : option (list Z * bool) :=
  match pubs with
  | [] => combine_loop c (xge_zero p) true []
  | pub :: t => match xge_import c pub with Some (P, ok) => combine_loop c P ok t | None => None end
  end.
(* ---- signatures ---- *)
(* eddsa_hash_init (13812-13832): ph is -1, 0 or 1; the context is cut to 255 octets *)
Definition eddsa_dom (c : edw) (ph : Z) (ctx : list Z) : list (list Z) :=
  let ctx := firstn 255 ctx in
  if x_context c || negb (ph =? -1) || (0 <? length ctx)%nat
  then [x_prefix c; [if 0 <? ph then 1 else 0]; [Z.of_nat (length ctx)]; ctx] else [].
(* eddsa_hash_final (13841-13852), eddsa_hash_nonce (13854-13870), eddsa_hash_challenge (13872-13890) *)
Definition eddsa_hash (c : edw) (ph : Z) (ctx : list Z) (chunks : list (list Z)) : outcome Z :=
  bind (bind (feed (x_hash c) (hash_init (x_hash c)) (eddsa_dom c ph ctx ++ chunks)) (fun x => hash_final (x_hash c) x (adj_size * 2)))
    (fun out => of_opt (xsc_wide c (firstn (adj_size * 2) out))).
Definition eddsa_nonce (c : edw) (prefix msg : list Z) (ph : Z) (ctx : list Z) : outcome Z := eddsa_hash c ph ctx [firstn adj_size prefix; msg].
Definition eddsa_challenge (c : edw) (R A msg : list Z) (ph : Z) (ctx : list Z) : outcome Z :=
  eddsa_hash c ph ctx [firstn adj_size R; firstn adj_size A; msg].
(* eddsa_sign_with_scalar (13892-13967): sraw[fe->size] = 0 when the field fills its octets *)
Definition eddsa_sign_with_scalar (c : edw) (msg scalar prefix : list Z) (ph : Z) (ctx : list Z) : outcome (list Z) :=
  bind (eddsa_nonce c prefix msg ph ctx) (fun k =>
  let a := xsc_reduce c scalar in
  bind (of_opt (xge_export (xmul_g c k))) (fun Rraw =>
  bind (of_opt (xge_export (xmul_g c a))) (fun Araw =>
  bind (eddsa_challenge c Rraw Araw msg ph ctx) (fun e =>
  let s := sc_add (x_n c) (sc_mul (x_n c) e a) k in
  Ok (Rraw ++ xsc_export c s ++ (if (fbits p mod 8 =? 0)%nat then [0] else [])))))).
(* eddsa_sign (13969-13991) *)
Definition eddsa_sign (c : edw) (msg priv : list Z) (ph : Z) (ctx : list Z) : outcome (list Z) :=
  bind (eddsa_privkey_expand c priv) (fun sp => eddsa_sign_with_scalar c msg (fst sp) (snd sp) ph ctx).
(* eddsa_sign_tweak_add (13993-14024), eddsa_sign_tweak_mul (14026-14057): prefix = H(prefix, tweak) *)
Definition eddsa_sign_tweak (f : edw -> list Z -> list Z -> list Z) (c : edw) (msg priv tweak : list Z) (ph : Z) (ctx : list Z) : outcome (list Z) :=
  bind (eddsa_privkey_expand c priv) (fun sp =>
  bind (bind (feed (x_hash c) (hash_init (x_hash c)) [snd sp; firstn (xssize c) tweak]) (fun x => hash_final (x_hash c) x adj_size)) (fun prefix =>
  eddsa_sign_with_scalar c msg (f c (fst sp) tweak) prefix ph ctx)).
Definition eddsa_sign_tweak_add := eddsa_sign_tweak eddsa_scalar_tweak_add.
Definition eddsa_sign_tweak_mul := eddsa_sign_tweak eddsa_scalar_tweak_mul.
(* the reading of a signature and key shared by the three verifiers (14099-14114, 14163-14176, 14259-14273): Ok None is `return 0` *)
Definition eddsa_read (c : edw) (msg sig pub : list Z) (ph : Z) (ctx : list Z) : outcome (option (Z * xge * xge * Z)) :=
  let Rraw := firstn adj_size sig in
  let sraw := skipn adj_size sig in
  bind (of_opt (xge_import c Rraw)) (fun Rok => let '(R, okR) := Rok in
  if negb okR then Ok None else
  bind (of_opt (xge_import c pub)) (fun Aok => let '(A, okA) := Aok in
  if negb okA then Ok None else
  let '(s, oks) := xsc_import c sraw in
  if negb oks then Ok None else
  if (fbits p mod 8 =? 0)%nat && negb (nth (fsize p) sraw 0 =? 0) then Ok None else
  bind (eddsa_challenge c Rraw pub msg ph ctx) (fun e => Ok (Some (s, R, A, e))))).
(* eddsa_verify (14059-14121): R = s G - e A *)
Definition eddsa_verify (c : edw) (msg sig pub : list Z) (ph : Z) (ctx : list Z) : outcome bool :=
  bind (eddsa_read c msg sig pub ph ctx) (fun o =>
  match o with
  | None => Ok false
  | Some (s, R, A, e) => bind (of_opt (xmul_double c s (xge_neg p A) e)) (fun Re => Ok (xge_equal p R Re))
  end).
(* eddsa_verify_single (14123-14190): h R = (s h) G - e (h A) *)
Definition eddsa_verify_single (c : edw) (msg sig pub : list Z) (ph : Z) (ctx : list Z) : outcome bool :=
  bind (eddsa_read c msg sig pub ph ctx) (fun o =>
  match o with
  | None => Ok false
  | Some (s, R, A, e) =>
    let s := sc_mul (x_n c) s (x_h c) in
    bind (of_opt (xmulh c A)) (fun A =>
    bind (of_opt (xmulh c R)) (fun R =>
    bind (of_opt (xmul_double c s (xge_neg p A) e)) (fun Re => Ok (xge_equal p R Re))))
  end).
(* eddsa_verify_batch (14192-14337): seed, loop and flush as in Schnorr.v, with the cofactor *)
Definition ed_flush (c : edw) (sum : Z) (pts : list (xge * Z)) : outcome bool :=
  bind (of_opt (xmul_multi c (sc_neg (x_n c) (sc_mul (x_n c) sum (x_h c))) pts)) (fun r => Ok (xge_is_zero p r)).
Fixpoint ed_batch_loop (rf : nat) (c : edw) (ph : Z) (ctx : list Z) (limit : nat) (items : list (list Z * list Z * list Z)) (rng : hmac_drbg_t)
    (sum : Z) (pts : list (xge * Z)) : outcome bool :=
  match items with
  | [] => if (0 <? length pts)%nat then ed_flush c sum pts else Ok true
  | (msg, sig, pub) :: t =>
    bind (eddsa_read c msg sig pub ph ctx) (fun o =>
    match o with
    | None => Ok false
    | Some (s, R, A, e) =>
      bind (if (length pts =? 0)%nat then Ok (1, rng) else match sc_random rf (x_n c) (xsbits c) rng with Some x => Ok x | None => Fail end) (fun ar =>
      let '(a, rng) := ar in
      let n := x_n c in
      let e := sc_mul n e a in
      let sum := sc_add n sum (sc_mul n s a) in
      bind (of_opt (xmulh c R)) (fun R =>
      bind (of_opt (xmulh c A)) (fun A =>
      let pts := pts ++ [(R, a); (A, e)] in
      if (length pts =? limit)%nat then
        bind (ed_flush c sum pts) (fun z => if negb z then Ok false else ed_batch_loop rf c ph ctx limit t rng 0 [])
      else ed_batch_loop rf c ph ctx limit t rng sum pts)))
    end)
  end.
Definition eddsa_key (it : list Z * list Z * list Z) : list Z * list Z * list Z :=
  let '(msg, sig, pub) := it in (msg, firstn (adj_size * 2) sig, firstn adj_size pub).
Definition eddsa_verify_batch (rf : nat) (c : edw) (size : nat) (items : list (list Z * list Z * list Z)) (ph : Z) (ctx : list Z) : outcome bool :=
  if (size <? 2)%nat then Abort else
  bind (batch_rng (map eddsa_key items)) (fun rng => ed_batch_loop rf c ph ctx (size - size mod 2) items rng 0 []).
(* eddsa_derive_with_scalar (14339-14370), eddsa_derive (14372-14388) *)
Definition eddsa_derive_with_scalar (c : edw) (pub scalar : list Z) : outcome (list Z * bool) :=
  bind (of_opt (edwards_clamp c scalar)) (fun clamped =>
  bind (of_opt (xge_import c pub)) (fun Aok => let '(A, ok) := Aok in
  let P := xmul c A (xsc_raw c clamped) in
  bind (of_opt (xge_export P)) (fun out => Ok (out, ok && negb (xge_is_zero p P))))).
Definition eddsa_derive (c : edw) (pub priv : list Z) : outcome (list Z * bool) :=
  bind (eddsa_privkey_convert c priv) (fun s => eddsa_derive_with_scalar c pub s).
End E.
