(* Model of the two Schnorr schemes of src/ecc.c over a Weierstrass curve: BIP-Schnorr (11572-11941) and BIP340 (11947-12901).
   Conventions as in Ecdsa.v: scalars are integers in [0, n), buffers written through pointers are returned with the result
   flag, cleansing is left out, Abort is a failed ASSERT or CHECK. Key generation, grinding and the uniform/hash maps are not
   modelled. *)
From Verif.Base Require Import Prelude.
From Verif.Model Require Import Encoding Bio Hash Drbg NumTheory Field EcScalar Wei Ecdsa.
(* hash_update over a list of buffers, then hash_final *)
Definition feed (id : hash_id) (c : outcome hash_ctx) (chunks : list (list Z)) : outcome hash_ctx :=
  fold_left (fun c x => bind c (fun c => hash_update id c x)) chunks c.
Section S.
Variable p : positive.
Local Notation fe := (fe p).
Local Notation wge := (wge p).
Local Notation jge := (jge p).
Local Notation wei := (wei p).
(* scalar_field_init (1949-1953): the mask of the top byte *)
Definition sc_mask (c : wei) : Z := if (sbits p c mod 8 =? 0)%nat then 0xff else 2 ^ Z.of_nat (sbits p c mod 8) - 1.
(* the end of the nonce and challenge functions: bytes[0] &= sc->mask; sc_import_weak (984-988). The digest may be longer than
   a scalar; only the first sc->size bytes are read *)
Definition hash_scalar (c : wei) (out : list Z) : Z :=
  let raw := firstn (ssize p c) out in
  fst (sc_weak (e_n p c) (be_val (Z.land (hd 0 raw) (sc_mask c) :: tl raw))).
Definition hash_end (c : wei) (ctx : outcome hash_ctx) : outcome Z :=
  bind (bind ctx (fun x => hash_final (e_xof p c) x (ssize p c))) (fun out => Ok (hash_scalar c out)).
Definition sc_neg_cond (n x : Z) (flag : bool) : Z := if flag then sc_neg n x else x.
(* sig and sig + fe->size *)
Definition sig_R (sig : list Z) : list Z := firstn (fsize p) sig.
Definition sig_S (c : wei) (sig : list Z) : list Z := firstn (ssize p c) (skipn (fsize p) sig).
Definition of_opt {A} (x : option A) : outcome A := match x with Some a => Ok a | None => Abort end.
(* ---- BIP-Schnorr ---- *)
(* bipschnorr_hash_nonce (11577-11599), bipschnorr_hash_challenge (11601-11626) *)
Definition bipschnorr_nonce (c : wei) (scalar msg : list Z) : outcome Z :=
  hash_end c (feed (e_xof p c) (hash_init (e_xof p c)) [firstn (ssize p c) scalar; msg]).
Definition bipschnorr_challenge (c : wei) (R A msg : list Z) : outcome Z :=
  hash_end c (feed (e_xof p c) (hash_init (e_xof p c)) [R; A; msg]).
(* bipschnorr_sign (11628-11705) *)
Definition bipschnorr_sign (c : wei) (msg priv : list Z) : outcome (list Z * bool) :=
  let n := e_n p c in
  let '(a, ok) := priv_read p c priv in
  let A := mul_g p c a in
  bind (bipschnorr_nonce c priv msg) (fun k =>
  let okk := negb (k =? 0) in
  let R := mul_g p c k in
  let k := sc_neg_cond n k (negb (wge_is_square p R)) in
  let '(Rraw, okR) := wge_export_x p R in
  let '(Araw, okA) := wge_export p A true in
  bind (bipschnorr_challenge c Rraw Araw msg) (fun e =>
  let s := sc_add n (sc_mul n e a) k in
  Ok (Rraw ++ sc_export p c s, ok && okk && okR && okA))).
(* bipschnorr_verify (11707-11786) *)
Definition bipschnorr_verify (c : wei) (msg sig pub : list Z) : outcome bool :=
  let n := e_n p c in
  let '(r, okr) := fe_import p (sig_R sig) in
  if negb okr then Ok false else
  let '(s, oks) := sc_import p c (sig_S c sig) in
  if negb oks then Ok false else
  bind (of_opt (wge_import p c pub)) (fun Aok =>
  let '(A, okA) := Aok in
  if negb okA then Ok false else
  let '(Araw, okx) := wge_export p A true in
  if negb okx then Abort else
  bind (bipschnorr_challenge c (sig_R sig) Araw msg) (fun e =>
  bind (of_opt (jmul_double p c s A (sc_neg n e))) (fun R =>
  bind (of_opt (jge_is_square_var p R)) (fun sq =>
  if negb sq then Ok false else
  if negb (jge_equal_x p R r) then Ok false else Ok true)))).
(* ---- batches: bipschnorr_verify_batch (11788-11941), bip340_verify_batch (12735-12875) ---- *)
(* the seed of the generator (11836-11872 and 12784-12809): each item contributes SHA256(msg), the signature and the key *)
Definition sha256_of (chunks : list (list Z)) : outcome (list Z) := bind (feed SHA256 (hash_init SHA256) chunks) (fun x => hash_final SHA256 x 32).
Fixpoint batch_seed (items : list (list Z * list Z * list Z)) (outer : outcome hash_ctx) : outcome hash_ctx :=
  match items with
  | [] => outer
  | (msg, sig, key) :: t => bind (sha256_of [msg]) (fun h => batch_seed t (feed SHA256 outer [h; sig; key]))
  end.
Definition batch_rng (items : list (list Z * list Z * list Z)) : outcome hmac_drbg_t :=
  bind (bind (batch_seed items (hash_init SHA256)) (fun x => hash_final SHA256 x 32)) (fun seed => hmac_drbg_init SHA256 seed).
(* the flush of a chunk (11917-11928): sum = -sum; the combination must vanish (jge_is_zero, 2867-2871) *)
Definition batch_flush (c : wei) (sum : Z) (pts : list (wge * Z)) : outcome bool :=
  bind (of_opt (jmul_multi p c (sc_neg (e_n p c) sum) pts)) (fun r => Ok (jinf r)).
(* the loop (11877-11937 and 12814-12868). dec reads item i: Ok None is `return 0`. pts holds the first j points and
   coefficients, latest last; rf bounds the draws of sc_random, whose exhaustion is Fail *)
Fixpoint batch_loop {T} (rf : nat) (c : wei) (dec : T -> outcome (option (Z * wge * wge * Z))) (limit : nat)
    (items : list T) (rng : hmac_drbg_t) (sum : Z) (pts : list (wge * Z)) : outcome bool :=
  match items with
  | [] => if (0 <? length pts)%nat then batch_flush c sum pts else Ok true
  | it :: t =>
    bind (dec it) (fun o =>
    match o with
    | None => Ok false
    | Some (s, R, A, e) =>
      bind (if (length pts =? 0)%nat then Ok (1, rng) else match sc_random rf (e_n p c) (sbits p c) rng with Some x => Ok x | None => Fail end) (fun ar =>
      let '(a, rng) := ar in
      let n := e_n p c in
      let e := sc_mul n e a in
      let sum := sc_add n sum (sc_mul n s a) in
      let pts := pts ++ [(R, a); (A, e)] in
      if (length pts =? limit)%nat then
        bind (batch_flush c sum pts) (fun z => if negb z then Ok false else batch_loop rf c dec limit t rng 0 [])
      else batch_loop rf c dec limit t rng sum pts)
    end)
  end.
Definition verify_batch {T} (rf : nat) (c : wei) (dec : T -> outcome (option (Z * wge * wge * Z))) (key : T -> list Z * list Z * list Z)
    (size : nat) (items : list T) : outcome bool :=
  if (size <? 2)%nat then Abort else
  bind (batch_rng (map key items)) (fun rng => batch_loop rf c dec (size - size mod 2) items rng 0 []).
(* 11883-11898: one item (msg, sig, pub) *)
Definition bipschnorr_item (c : wei) (it : list Z * list Z * list Z) : outcome (option (Z * wge * wge * Z)) :=
  let '(msg, sig, pub) := it in
  let '(s, oks) := sc_import p c (sig_S c sig) in
  if negb oks then Ok None else
  bind (of_opt (wge_import_square p c (sig_R sig))) (fun Rok => let '(R, okR) := Rok in
  if negb okR then Ok None else
  bind (of_opt (wge_import p c pub)) (fun Aok => let '(A, okA) := Aok in
  if negb okA then Ok None else
  let '(Araw, okx) := wge_export p A true in
  if negb okx then Abort else
  bind (bipschnorr_challenge c (sig_R sig) Araw msg) (fun e => Ok (Some (s, R, A, e))))).
(* 11851-11859: quick key reserialization *)
Definition bipschnorr_key (c : wei) (it : list Z * list Z * list Z) : list Z * list Z * list Z :=
  let '(msg, sig, pub) := it in
  (msg, firstn (fsize p + ssize p c) sig,
   if (length pub =? fsize p + 1)%nat then pub
   else if (length pub =? fsize p * 2 + 1)%nat then Z.lor 2 (Z.land (last pub 0) 1) :: firstn (fsize p) (tl pub)
   else repeat 0 (fsize p + 1)).
Definition bipschnorr_verify_batch (rf : nat) (c : wei) (size : nat) (items : list (list Z * list Z * list Z)) : outcome bool :=
  verify_batch rf c (bipschnorr_item c) (bipschnorr_key c) size items.
(* ---- BIP340 ---- *)
(* bip340_privkey_export (11991-12024): d, x, y *)
Definition bip340_privkey_export (c : wei) (priv : list Z) : (list Z * list Z * list Z) * bool :=
  let '(a, ok) := priv_read p c priv in
  let A := mul_g p c a in
  let odd := negb (wge_is_even p A) in
  let d := sc_neg_cond (e_n p c) a odd in
  let A' := wge_neg_cond p A odd in
  ((sc_export p c d, fe_export p (wx A'), fe_export p (wy A')), ok && negb (winf A)).
(* bip340_privkey_tweak_add (12034-12063) *)
Definition bip340_privkey_tweak_add (c : wei) (priv tweak : list Z) : list Z * bool :=
  let '(a, ok) := priv_read p c priv in
  let '(t, ok') := sc_import p c tweak in
  let A := mul_g p c a in
  let a := sc_neg_cond (e_n p c) a (negb (wge_is_even p A)) in
  let a := sc_add (e_n p c) a t in (sc_export p c a, ok && ok' && negb (a =? 0)).
(* bip340_privkey_tweak_mul (12065-12071) *)
Definition bip340_privkey_tweak_mul := ecdsa_privkey_tweak_mul p.
(* bip340_pubkey_create (12080-12101) *)
Definition bip340_pubkey_create (c : wei) (priv : list Z) : list Z * bool :=
  let '(a, ok) := priv_read p c priv in
  let '(out, ok') := wge_export_x p (mul_g p c a) in (out, ok && ok').
(* bip340_pubkey_verify (12197-12202) *)
Definition bip340_pubkey_verify (c : wei) (pub : list Z) : option bool :=
  match wge_import_even p c pub with Some (_, ok) => Some ok | None => None end.
(* the shape shared by tweak_add and tweak_mul: x coordinate, whether it was negated, and the flag *)
Definition bip340_pub_map (c : wei) (pub : list Z) (f : wge -> wge) (extra : bool) : option (list Z * bool * bool) :=
  match wge_import_even p c pub with
  | None => None
  | Some (A, ok) => let B := f A in let '(out, ok') := wge_export_x p B in Some (out, negb (wge_is_even p B), ok && extra && ok')
  end.
(* bip340_pubkey_tweak_add (12249-12278), bip340_pubkey_tweak_mul (12298-12322) *)
Definition bip340_pubkey_tweak_add (c : wei) (pub tweak : list Z) : option (list Z * bool * bool) :=
  let '(t, ok) := sc_import p c tweak in
  bip340_pub_map c pub (fun A => wge_set_jge p (jge_mixed_add p (e_a p c) (jmul_g p c t) A)) ok.
Definition bip340_pubkey_tweak_mul (c : wei) (pub tweak : list Z) : option (list Z * bool * bool) :=
  let '(t, ok) := sc_import p c tweak in bip340_pub_map c pub (fun A => mul p c A t) ok.
(* bip340_pubkey_tweak_add_check (12280-12296), bip340_pubkey_tweak_mul_check (12324-12340) *)
Definition bip340_check (r : option (list Z * bool * bool)) (expect : list Z) (negated : bool) : option bool :=
  match r with
  | None => None
  | Some (raw, sign, ok) => Some (ok && (if list_eq_dec Z.eq_dec raw expect then true else false) && Bool.eqb sign negated)
  end.
Definition bip340_pubkey_tweak_add_check (c : wei) (pub tweak expect : list Z) (negated : bool) := bip340_check (bip340_pubkey_tweak_add c pub tweak) expect negated.
Definition bip340_pubkey_tweak_mul_check (c : wei) (pub tweak expect : list Z) (negated : bool) := bip340_check (bip340_pubkey_tweak_mul c pub tweak) expect negated.
(* bip340_hash_init (12391-12414) *)
Definition bip340_hash_init (id : hash_id) (tag : list Z) : outcome hash_ctx :=
  let half := (hash_block_size id / 2)%nat in
  let t := if (hash_output_size id =? half)%nat then id else SHAKE256 in
  bind (bind (feed t (hash_init t) [tag]) (fun x => hash_final t x half)) (fun d => feed id (hash_init id) [firstn half d; firstn half d]).
(* "BIP0340/aux", "BIP0340/nonce", "BIP0340/challenge" *)
Definition tag_prefix : list Z := [0x42; 0x49; 0x50; 0x30; 0x33; 0x34; 0x30; 0x2f].
Definition tag_aux : list Z := tag_prefix ++ [0x61; 0x75; 0x78].
Definition tag_nonce : list Z := tag_prefix ++ [0x6e; 0x6f; 0x6e; 0x63; 0x65].
Definition tag_challenge : list Z := tag_prefix ++ [0x63; 0x68; 0x61; 0x6c; 0x6c; 0x65; 0x6e; 0x67; 0x65].
(* the precomputed SHA256 states (12431-12439, 12486-12494, 12539-12547): size = 64, the block buffer is uninitialised *)
Definition mid_ctx (st : list Z) : hash_ctx := Hmd (MkMd st [64] (repeat 0xcd 64)).
Definition mid_aux : list Z := [0x24dd3219; 0x4eba7e70; 0xca0fabb9; 0x0fa3166d; 0x3afbe4b1; 0x4c44df97; 0x4aac2739; 0x249e850a].
Definition mid_nonce : list Z := [0x46615b35; 0xf4bfbff7; 0x9f8dc671; 0x83627ab3; 0x60217180; 0x57358661; 0x21a29e54; 0x68b07b4c].
Definition mid_challenge : list Z := [0x9cecba11; 0x23925381; 0x11679112; 0xd1627e0f; 0x97c87550; 0x003cc765; 0x90f61164; 0x33e9b66a].
Definition bip340_start (id : hash_id) (mid tag : list Z) : outcome hash_ctx :=
  match id with SHA256 => Ok (mid_ctx mid) | _ => bip340_hash_init id tag end.
(* bip340_hash_aux (12416-12461), bip340_hash_nonce (12463-12521), bip340_hash_challenge (12523-12574) *)
Definition bip340_hash_aux (c : wei) (scalar aux : list Z) : outcome (list Z) :=
  bind (bind (feed (e_xof p c) (bip340_start (e_xof p c) mid_aux tag_aux) [aux]) (fun x => hash_final (e_xof p c) x (ssize p c)))
    (fun h => Ok (xorl scalar (firstn (ssize p c) h))).
Definition bip340_nonce (c : wei) (scalar point msg : list Z) (aux : option (list Z)) : outcome Z :=
  bind (match aux with Some x => bip340_hash_aux c scalar x | None => Ok scalar end) (fun secret =>
  hash_end c (feed (e_xof p c) (bip340_start (e_xof p c) mid_nonce tag_nonce) [secret; point; msg])).
Definition bip340_challenge (c : wei) (R A msg : list Z) : outcome Z :=
  hash_end c (feed (e_xof p c) (bip340_start (e_xof p c) mid_challenge tag_challenge) [R; A; msg]).
(* bip340_sign (12576-12663) *)
Definition bip340_sign (c : wei) (msg priv : list Z) (aux : option (list Z)) : outcome (list Z * bool) :=
  let n := e_n p c in
  let '(a, ok) := priv_read p c priv in
  let A := mul_g p c a in
  let a := sc_neg_cond n a (negb (wge_is_even p A)) in
  let '(Araw, okA) := wge_export_x p A in
  bind (bip340_nonce c (sc_export p c a) Araw msg aux) (fun k =>
  let okk := negb (k =? 0) in
  let R := mul_g p c k in
  let k := sc_neg_cond n k (negb (wge_is_even p R)) in
  let '(Rraw, okR) := wge_export_x p R in
  bind (bip340_challenge c Rraw Araw msg) (fun e =>
  let s := sc_add n (sc_mul n e a) k in
  Ok (Rraw ++ sc_export p c s, ok && okA && okk && okR))).
(* bip340_verify (12665-12733) *)
Definition bip340_verify (c : wei) (msg sig pub : list Z) : outcome bool :=
  let n := e_n p c in
  let '(r, okr) := fe_import p (sig_R sig) in
  if negb okr then Ok false else
  let '(s, oks) := sc_import p c (sig_S c sig) in
  if negb oks then Ok false else
  bind (of_opt (wge_import_even p c pub)) (fun Aok => let '(A, okA) := Aok in
  if negb okA then Ok false else
  bind (bip340_challenge c (sig_R sig) pub msg) (fun e =>
  bind (of_opt (mul_double p c s A (sc_neg n e))) (fun R =>
  if negb (wge_is_even p R) then Ok false else
  if negb (wge_equal_x p R r) then Ok false else Ok true))).
(* 12820-12836: one item (msg, sig, pub) *)
Definition bip340_item (c : wei) (it : list Z * list Z * list Z) : outcome (option (Z * wge * wge * Z)) :=
  let '(msg, sig, pub) := it in
  let '(s, oks) := sc_import p c (sig_S c sig) in
  if negb oks then Ok None else
  bind (of_opt (wge_import_even p c (sig_R sig))) (fun Rok => let '(R, okR) := Rok in
  if negb okR then Ok None else
  bind (of_opt (wge_import_even p c pub)) (fun Aok => let '(A, okA) := Aok in
  if negb okA then Ok None else
  bind (bip340_challenge c (sig_R sig) pub msg) (fun e => Ok (Some (s, R, A, e))))).
Definition bip340_key (c : wei) (it : list Z * list Z * list Z) : list Z * list Z * list Z :=
  let '(msg, sig, pub) := it in (msg, firstn (fsize p + ssize p c) sig, firstn (fsize p) pub).
Definition bip340_verify_batch (rf : nat) (c : wei) (size : nat) (items : list (list Z * list Z * list Z)) : outcome bool :=
  verify_batch rf c (bip340_item c) (bip340_key c) size items.
(* bip340_derive (12877-12901) *)
Definition bip340_derive (c : wei) (pub priv : list Z) : option (list Z * bool) :=
  let '(a, ok) := priv_read p c priv in
  match wge_import_even p c pub with
  | None => None
  | Some (A, ok') => let '(out, ok'') := wge_export_x p (mul p c A a) in Some (out, ok && ok' && ok'')
  end.
End S.
