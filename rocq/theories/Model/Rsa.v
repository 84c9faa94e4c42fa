(* Model of src/rsa.c. mpz_t is a mathematical integer (Props/MpzProps.v, MpnModProps.v, NumTheoryProps.v show that the
   integer functions compute these values); mpz_powm and mpz_powm_sec are Zpow_mod (C54). Keys are passed as the bytes the
   API takes. A hash type is given by H (message to digest, Props/HashProps.v) and its output size hlen. Values drawn from the
   generator are arguments: candidate blinding factors (draws), salts, seeds and padding strings; Abort stands for a failed
   assertion, or for running out of candidates. Buffer clearing is not modelled. *)
From Coq Require Import Zpow_facts.
From Verif.Base Require Import Prelude.
From Verif.Model Require Import Encoding Bio Util Asn1 Hash NumTheory.

Definition powm (x e n : Z) : Z := Zpow_mod x e n.

(* rsa.c:237-241 cnd_select *)
Definition cnd_select (x y c : Z) : Z :=
  let m := if c =? 0 then 0 else 0xffffffff in
  Z.lor (Z.land x (Z.lxor m 0xffffffff)) (Z.land y m).
(* rsa.c:243-250 cnd_memcpy: the new contents of z; m is truncated to a byte by the store *)
Definition cnd_memcpy (z x : list Z) (c : Z) : list Z :=
  let m := if c =? 0 then 0 else 0xffffffff in
  map2 (fun z x => w8 (Z.lor (Z.land z (Z.lxor m 0xffffffff)) (Z.land x m))) z x.
(* rsa.c:252-255 sec_equal *)
Definition sec_equal (x y : Z) : Z := Z.shiftr (w32 (Z.lxor x y - 1)) 31.
(* rsa.c:257-260 sec_lte *)
Definition sec_lte (x y : Z) : Z := Z.shiftr (w32 (x - y - 1)) 31.

(* rsa.h:30-34, rsa.c:28-35 *)
Definition MIN_MOD_BITS : Z := 512.
Definition MAX_MOD_BITS : Z := 16384.
Definition MIN_EXP : Z := 3.
Definition MAX_EXP : Z := 0x1ffffffff.
Definition MAX_EXP_BITS : Z := 33.
Definition MAX_MOD_SIZE : Z := 2048.

(* rsa.c:215-229 *)
Record rsa_pub := MkPub { un : Z; ue : Z }.
Record rsa_priv := MkPriv { kn : Z; ke : Z; kd : Z; kp : Z; kq : Z; kdp : Z; kdq : Z; kqi : Z }.

(* ---- encodings of keys ---- *)
Definition rbind {A B} (x : rres A) (f : A -> list Z -> option B) : option B :=
  match x with ROk a rest => f a rest | RFail => None | ROob => None end.
Definition empty (l : list Z) : bool := match l with [] => true | _ => false end.

(* rsa.c:307-343 rsa_priv_import (None: return 0; the readers never leave the buffer, C16) *)
Definition rsa_priv_import (data : list Z) : option rsa_priv :=
  rbind (asn1_read_seq data true) (fun _ data =>
  rbind (asn1_read_version data 0 true) (fun _ data =>
  rbind (asn1_read_mpz data true) (fun n data =>
  rbind (asn1_read_mpz data true) (fun e data =>
  rbind (asn1_read_mpz data true) (fun d data =>
  rbind (asn1_read_mpz data true) (fun p data =>
  rbind (asn1_read_mpz data true) (fun q data =>
  rbind (asn1_read_mpz data true) (fun dp data =>
  rbind (asn1_read_mpz data true) (fun dq data =>
  rbind (asn1_read_mpz data true) (fun qi data =>
  if empty data then Some (MkPriv n e d p q dp dq qi) else None)))))))))).

Definition obind {A B} (x : option A) (f : A -> option B) : option B := match x with Some a => f a | None => None end.
(* writers called in sequence; None is a failed CHECK *)
Fixpoint ocat (l : list (option (list Z))) : option (list Z) :=
  match l with
  | [] => Some []
  | x :: l => obind x (fun a => obind (ocat l) (fun b => Some (a ++ b)))
  end.
Definition sumz (l : list Z) : Z := fold_right Z.add 0 l.
Definition priv_fields (k : rsa_priv) : list Z := [kn k; ke k; kd k; kp k; kq k; kdp k; kdq k; kqi k].

(* rsa.c:345-372 rsa_priv_export *)
Definition rsa_priv_export (k : rsa_priv) : option (list Z) :=
  let size := asn1_size_version 0 + sumz (map asn1_size_mpz (priv_fields k)) in
  ocat (asn1_write_seq size :: asn1_write_version 0 :: map asn1_write_mpz (priv_fields k)).

(* rsa.c:374-401 rsa_priv_import_dumb; trailing bytes are ignored *)
Definition rsa_priv_import_dumb (data : list Z) : option rsa_priv :=
  rbind (asn1_read_dumb data) (fun n data =>
  rbind (asn1_read_dumb data) (fun e data =>
  rbind (asn1_read_dumb data) (fun d data =>
  rbind (asn1_read_dumb data) (fun p data =>
  rbind (asn1_read_dumb data) (fun q data =>
  rbind (asn1_read_dumb data) (fun dp data =>
  rbind (asn1_read_dumb data) (fun dq data =>
  rbind (asn1_read_dumb data) (fun qi data => Some (MkPriv n e d p q dp dq qi))))))))).
(* rsa.c:403-417 rsa_priv_export_dumb *)
Definition rsa_priv_export_dumb (k : rsa_priv) : option (list Z) := ocat (map asn1_write_dumb (priv_fields k)).

(* rsa.c:1035-1050 rsa_pub_import *)
Definition rsa_pub_import (data : list Z) : option rsa_pub :=
  rbind (asn1_read_seq data true) (fun _ data =>
  rbind (asn1_read_mpz data true) (fun n data =>
  rbind (asn1_read_mpz data true) (fun e data =>
  if empty data then Some (MkPub n e) else None))).
(* rsa.c:1052-1066 rsa_pub_export *)
Definition rsa_pub_export (k : rsa_pub) : option (list Z) :=
  let size := asn1_size_mpz (un k) + asn1_size_mpz (ue k) in
  ocat [asn1_write_seq size; asn1_write_mpz (un k); asn1_write_mpz (ue k)].

(* ---- key checks ---- *)
(* rsa.c:535-554 rsa_priv_is_sane *)
Definition rsa_priv_is_sane (k : rsa_priv) : bool :=
  forallb (fun x => 0 <? x) (priv_fields k) &&
  forallb (fun x => mpz_bitlen x <=? MAX_MOD_BITS) [kn k; kd k; kp k; kq k; kdp k; kdq k; kqi k] &&
  (mpz_bitlen (ke k) <=? MAX_EXP_BITS).

(* flattening "the loop did not end" (excluded by C53) with "no inverse" *)
Definition invert (x y : Z) : option Z := match mpz_invert x y with Some r => r | None => None end.
Definition gcdz (x y : Z) : Z := match mpz_gcd x y with Some g => g | None => 0 end.
Definition lcmz (x y : Z) : Z := match mpz_lcm x y with Some g => g | None => 0 end.

(* rsa.c:556-656 rsa_priv_verify *)
Definition rsa_priv_verify (k : rsa_priv) : bool :=
  if negb (rsa_priv_is_sane k) then false else
  if (mpz_bitlen (kn k) <? MIN_MOD_BITS) || negb (Z.odd (kn k)) then false else
  if (ke k <? MIN_EXP) || negb (Z.odd (ke k)) then false else
  if (kp k <? 3) || negb (Z.odd (kp k)) then false else
  if (kq k <? 3) || negb (Z.odd (kq k)) then false else
  let pm1 := kp k - 1 in
  let qm1 := kq k - 1 in
  let phi := pm1 * qm1 in
  if (kd k <? 2) || (phi <=? kd k) then false else
  if (kdp k =? 0) || (pm1 <=? kdp k) then false else
  if (kdq k =? 0) || (qm1 <=? kdq k) then false else
  if (kqi k <? 2) || (kp k <=? kqi k) then false else
  if kp k =? kq k then false else
  if negb (kp k * kq k =? kn k) then false else
  let lam := Z.quot phi (gcdz pm1 qm1) in
  if negb ((ke k * kd k) mod lam =? 1) then false else
  if negb (kd k mod pm1 =? kdp k) then false else
  if negb (kd k mod qm1 =? kdq k) then false else
  if negb ((kq k * kqi k) mod kp k =? 1) then false else true.

(* rsa.c:1088-1111 rsa_pub_verify *)
Definition rsa_pub_verify (k : rsa_pub) : bool :=
  let bits := mpz_bitlen (un k) in
  if un k <? 0 then false else
  if (bits <? MIN_MOD_BITS) || (MAX_MOD_BITS <? bits) then false else
  if ue k <? MIN_EXP then false else
  if MAX_EXP_BITS <? mpz_bitlen (ue k) then false else
  if negb (Z.odd (un k)) then false else
  if negb (Z.odd (ue k)) then false else true.

(* ---- key recovery ---- *)
(* rsa.c:658-736 rsa_priv_set_pqe *)
Definition rsa_priv_set_pqe (p0 q0 e : Z) : option rsa_priv :=
  let '(p, q) := if p0 <? q0 then (q0, p0) else (p0, q0) in
  if p =? q then None else
  if (p <? 3) || (MAX_MOD_BITS <? mpz_bitlen p) then None else
  if (q <? 3) || (MAX_MOD_BITS <? mpz_bitlen q) then None else
  if (e <? MIN_EXP) || (MAX_EXP_BITS <? mpz_bitlen e) then None else
  if negb (Z.odd p) || negb (Z.odd q) || negb (Z.odd e) then None else
  let n := p * q in
  if (mpz_bitlen n <? MIN_MOD_BITS) || (MAX_MOD_BITS <? mpz_bitlen n) then None else
  let pm1 := p - 1 in
  let qm1 := q - 1 in
  obind (invert e (lcmz pm1 qm1)) (fun d =>
  obind (invert q p) (fun qi =>
  Some (MkPriv n e d p q (d mod pm1) (d mod qm1) qi))).

(* rsa.c:738-783 rsa_priv_set_pqd *)
Definition rsa_priv_set_pqd (p q d : Z) : option rsa_priv :=
  if (p <? 3) || (MAX_MOD_BITS <? mpz_bitlen p) then None else
  if (q <? 3) || (MAX_MOD_BITS <? mpz_bitlen q) then None else
  if negb (Z.odd p) || negb (Z.odd q) then None else
  let pm1 := p - 1 in
  let qm1 := q - 1 in
  let phi := pm1 * qm1 in
  if (d <? 2) || (phi <=? d) then None else
  obind (invert d (Z.quot phi (gcdz pm1 qm1))) (fun e => rsa_priv_set_pqe p q e).

(* rsa.c:858-887: the loop j = 1 .. s-1 from b; inl is the goto done with the result, inr () falls to the next base *)
Fixpoint ned_inner (cnt : nat) (n e b : Z) : option rsa_priv + unit :=
  match cnt with
  | O => inr tt
  | S cnt =>
    let c := (b * b) mod n in
    if c =? 1 then inl (rsa_priv_set_pqe (gcdz n (b - 1)) (gcdz n (b + 1)) e) else
    if c =? n - 1 then inr tt else
    ned_inner cnt n e c
  end.
(* rsa.c:847-888: the bases tried, at most 128; each is a draw in [0, n-4] plus 2 *)
Fixpoint ned_outer (bases : list Z) (n e g : Z) (s : Z) : option rsa_priv :=
  match bases with
  | [] => None
  | a0 :: bases =>
    let b := powm (a0 + 2) g n in
    if (b =? 1) || (b =? n - 1) then ned_outer bases n e g s else
    match ned_inner (Z.to_nat (s - 1)) n e b with
    | inl r => r
    | inr _ => ned_outer bases n e g s
    end
  end.
(* number of trailing zero bits: mpz_ctz (mpi.c:8981), for a nonzero value *)
Definition tz (f : Z) : Z := Z.log2 (Z.land f (- f)).
(* rsa.c:785-907 rsa_priv_set_ned; draws are the values of mpz_urandomm(a, n - 3) *)
Definition rsa_priv_set_ned (n e d : Z) (draws : list Z) : option rsa_priv :=
  if n <? 0 then None else
  if (mpz_bitlen n <? MIN_MOD_BITS) || (MAX_MOD_BITS <? mpz_bitlen n) then None else
  if (e <? MIN_EXP) || (MAX_EXP_BITS <? mpz_bitlen e) then None else
  if (d <? 2) || (MAX_MOD_BITS <? mpz_bitlen d) then None else
  if negb (Z.odd n) || negb (Z.odd e) then None else
  let f := e * d - 1 in
  let s := tz f in
  ned_outer (firstn 128 draws) n e (Z.shiftr f s) s.

(* rsa.c:476-520: one candidate pair of the generation loop; None: continue, Some Abort: failed ASSERT *)
Definition rsa_generate_step (bits exp p0 q0 : Z) : option (outcome rsa_priv) :=
  if p0 =? q0 then None else
  let '(p, q) := if p0 <? q0 then (q0, p0) else (p0, q0) in
  if mpz_bitlen (p - q) <=? Z.shiftr bits 1 - 99 then None else
  let n := p * q in
  if negb (mpz_bitlen n =? bits) then None else
  let pm1 := p - 1 in
  let qm1 := q - 1 in
  let phi := pm1 * qm1 in
  if negb (gcdz exp phi =? 1) then None else
  let lam := Z.quot phi (gcdz pm1 qm1) in
  obind (invert exp lam) (fun d =>
  if mpz_bitlen d <=? Z.shiftr (bits + 1) 1 then None else
  Some (match invert q p with
        | None => Abort
        | Some qi => Ok (MkPriv n exp d p q (d mod pm1) (d mod qm1) qi)
        end)).
(* the loop over candidate pairs *)
Fixpoint rsa_generate_loop (bits exp : Z) (pairs : list (Z * Z)) : outcome rsa_priv :=
  match pairs with
  | [] => Abort
  | (p, q) :: pairs => match rsa_generate_step bits exp p q with Some r => r | None => rsa_generate_loop bits exp pairs end
  end.
(* rsa.c:419-533 rsa_priv_generate; pairs are the primes drawn *)
Definition rsa_priv_generate (bits exp : Z) (pairs : list (Z * Z)) : outcome rsa_priv :=
  if (bits <? MIN_MOD_BITS) || (MAX_MOD_BITS <? bits) || (exp <? MIN_EXP) || (MAX_EXP <? exp) || negb (Z.odd exp) then Fail
  else rsa_generate_loop bits exp pairs.

(* ---- the primitives ---- *)
Definition exported (n m : Z) : outcome (list Z) := match mpz_export m (mpz_bytelen n) with Some b => Ok b | None => Abort end.

(* rsa.c:946-951: the first invertible candidate and its inverse *)
Fixpoint blinding (draws : list Z) (n : Z) : option (Z * Z) :=
  match draws with
  | [] => None
  | s :: draws => match invert s n with Some bi => Some (s, bi) | None => blinding draws n end
  end.

(* rsa.c:958-988, from the blinded c *)
Definition rsa_crt (k : rsa_priv) (c : Z) : Z :=
  let mp := powm c (kdp k) (kp k) in
  let mq := powm c (kdq k) (kq k) in
  let md := ((mp - mq) * kqi k) mod kp k in
  (md * kq k + mq) mod kn k.

(* rsa.c:909-1011 rsa_priv_decrypt *)
Definition rsa_priv_decrypt (k : rsa_priv) (msg : list Z) (use_crt : bool) (draws : list Z) : outcome (list Z) :=
  if (kn k <=? 0) || (kd k <=? 0) then Fail else
  if (kd k <=? 0) || negb (Z.odd (kn k)) then Fail else
  if (kdp k <=? 0) || negb (Z.odd (kp k)) then Fail else
  if (kdq k <=? 0) || negb (Z.odd (kq k)) then Fail else
  let c := be_val msg in
  if kn k <=? c then Fail else
  match blinding draws (kn k) with
  | None => Abort
  | Some (s, bi) =>
    let b := powm s (ke k) (kn k) in
    let c := (c * b) mod kn k in
    let m := if use_crt then rsa_crt k c else powm c (kd k) (kn k) in
    if use_crt && negb (powm m (ke k) (kn k) =? c) then Fail else
    exported (kn k) ((m * bi) mod kn k)
  end.

(* rsa.c:1113-1142 rsa_pub_encrypt *)
Definition rsa_pub_encrypt (k : rsa_pub) (msg : list Z) : outcome (list Z) :=
  if (un k <=? 0) || (ue k <=? 0) then Fail else
  let m := be_val msg in
  if un k <=? m then Fail else
  exported (un k) (powm m (ue k) (un k)).

(* ---- PKCS#1 v1.5 ---- *)
(* rsa.c:41-207 *)
Definition digest_info : list (list Z) := [
  (* NONE *) [0; 0; 0; 0; 0; 0; 0; 0; 0; 0; 0; 0; 0; 0; 0; 0; 0; 0; 0; 0; 0; 0; 0; 0];
  (* BLAKE2B160 *) [21; 48; 39; 48; 15; 6; 11; 43; 6; 1; 4; 1; 141; 58; 12; 2; 1; 5; 5; 0; 4; 20; 0; 0];
  (* BLAKE2B256 *) [21; 48; 51; 48; 15; 6; 11; 43; 6; 1; 4; 1; 141; 58; 12; 2; 1; 8; 5; 0; 4; 32; 0; 0];
  (* BLAKE2B384 *) [21; 48; 67; 48; 15; 6; 11; 43; 6; 1; 4; 1; 141; 58; 12; 2; 1; 12; 5; 0; 4; 48; 0; 0];
  (* BLAKE2B512 *) [21; 48; 83; 48; 15; 6; 11; 43; 6; 1; 4; 1; 141; 58; 12; 2; 1; 16; 5; 0; 4; 64; 0; 0];
  (* BLAKE2S128 *) [21; 48; 35; 48; 15; 6; 11; 43; 6; 1; 4; 1; 141; 58; 12; 2; 2; 4; 5; 0; 4; 16; 0; 0];
  (* BLAKE2S160 *) [21; 48; 39; 48; 15; 6; 11; 43; 6; 1; 4; 1; 141; 58; 12; 2; 2; 5; 5; 0; 4; 20; 0; 0];
  (* BLAKE2S224 *) [21; 48; 47; 48; 15; 6; 11; 43; 6; 1; 4; 1; 141; 58; 12; 2; 2; 7; 5; 0; 4; 28; 0; 0];
  (* BLAKE2S256 *) [21; 48; 51; 48; 15; 6; 11; 43; 6; 1; 4; 1; 141; 58; 12; 2; 2; 8; 5; 0; 4; 32; 0; 0];
  (* GOST94 *) [16; 48; 46; 48; 10; 6; 6; 42; 133; 3; 2; 2; 20; 5; 0; 4; 32; 0; 0; 0; 0; 0; 0; 0];
  (* HASH160 *) [0; 0; 0; 0; 0; 0; 0; 0; 0; 0; 0; 0; 0; 0; 0; 0; 0; 0; 0; 0; 0; 0; 0; 0];
  (* HASH256 *) [0; 0; 0; 0; 0; 0; 0; 0; 0; 0; 0; 0; 0; 0; 0; 0; 0; 0; 0; 0; 0; 0; 0; 0];
  (* KECCAK224 *) [0; 0; 0; 0; 0; 0; 0; 0; 0; 0; 0; 0; 0; 0; 0; 0; 0; 0; 0; 0; 0; 0; 0; 0];
  (* KECCAK256 *) [0; 0; 0; 0; 0; 0; 0; 0; 0; 0; 0; 0; 0; 0; 0; 0; 0; 0; 0; 0; 0; 0; 0; 0];
  (* KECCAK384 *) [0; 0; 0; 0; 0; 0; 0; 0; 0; 0; 0; 0; 0; 0; 0; 0; 0; 0; 0; 0; 0; 0; 0; 0];
  (* KECCAK512 *) [0; 0; 0; 0; 0; 0; 0; 0; 0; 0; 0; 0; 0; 0; 0; 0; 0; 0; 0; 0; 0; 0; 0; 0];
  (* MD2 *) [18; 48; 32; 48; 12; 6; 8; 42; 134; 72; 134; 247; 13; 2; 2; 5; 0; 4; 16; 0; 0; 0; 0; 0];
  (* MD4 *) [18; 48; 32; 48; 12; 6; 8; 42; 134; 72; 134; 247; 13; 2; 4; 5; 0; 4; 16; 0; 0; 0; 0; 0];
  (* MD5 *) [18; 48; 32; 48; 12; 6; 8; 42; 134; 72; 134; 247; 13; 2; 5; 5; 0; 4; 16; 0; 0; 0; 0; 0];
  (* MD5SHA1 *) [0; 0; 0; 0; 0; 0; 0; 0; 0; 0; 0; 0; 0; 0; 0; 0; 0; 0; 0; 0; 0; 0; 0; 0];
  (* RIPEMD160 (RFC4880) *) [15; 48; 33; 48; 9; 6; 5; 43; 36; 3; 2; 1; 5; 0; 4; 20; 0; 0; 0; 0; 0; 0; 0; 0];
  (* SHA1 *) [15; 48; 33; 48; 9; 6; 5; 43; 14; 3; 2; 26; 5; 0; 4; 20; 0; 0; 0; 0; 0; 0; 0; 0];
  (* SHA224 *) [19; 48; 45; 48; 13; 6; 9; 96; 134; 72; 1; 101; 3; 4; 2; 4; 5; 0; 4; 28; 0; 0; 0; 0];
  (* SHA256 *) [19; 48; 49; 48; 13; 6; 9; 96; 134; 72; 1; 101; 3; 4; 2; 1; 5; 0; 4; 32; 0; 0; 0; 0];
  (* SHA384 *) [19; 48; 65; 48; 13; 6; 9; 96; 134; 72; 1; 101; 3; 4; 2; 2; 5; 0; 4; 48; 0; 0; 0; 0];
  (* SHA512 *) [19; 48; 81; 48; 13; 6; 9; 96; 134; 72; 1; 101; 3; 4; 2; 3; 5; 0; 4; 64; 0; 0; 0; 0];
  (* SHA3_224 *) [19; 48; 45; 48; 13; 6; 9; 96; 134; 72; 1; 101; 3; 4; 2; 7; 5; 0; 4; 28; 0; 0; 0; 0];
  (* SHA3_256 *) [19; 48; 49; 48; 13; 6; 9; 96; 134; 72; 1; 101; 3; 4; 2; 8; 5; 0; 4; 32; 0; 0; 0; 0];
  (* SHA3_384 *) [19; 48; 65; 48; 13; 6; 9; 96; 134; 72; 1; 101; 3; 4; 2; 9; 5; 0; 4; 48; 0; 0; 0; 0];
  (* SHA3_512 *) [19; 48; 81; 48; 13; 6; 9; 96; 134; 72; 1; 101; 3; 4; 2; 10; 5; 0; 4; 64; 0; 0; 0; 0];
  (* SHAKE128 *) [19; 48; 33; 48; 13; 6; 9; 96; 134; 72; 1; 101; 3; 4; 2; 11; 5; 0; 4; 16; 0; 0; 0; 0];
  (* SHAKE256 *) [19; 48; 49; 48; 13; 6; 9; 96; 134; 72; 1; 101; 3; 4; 2; 12; 5; 0; 4; 32; 0; 0; 0; 0];
  (* WHIRLPOOL *) [16; 48; 78; 48; 10; 6; 6; 40; 207; 6; 3; 0; 55; 5; 0; 4; 64; 0; 0; 0; 0; 0; 0; 0]].
(* hash.h:148-182: HASH_NONE is None *)
Definition hash_index (t : option hash_id) : nat :=
  match t with
  | None => 0
  | Some id =>
    match id with
    | BLAKE2B_160 => 1 | BLAKE2B_256 => 2 | BLAKE2B_384 => 3 | BLAKE2B_512 => 4 | BLAKE2S_128 => 5 | BLAKE2S_160 => 6 | BLAKE2S_224 => 7
    | BLAKE2S_256 => 8 | GOST94 => 9 | HASH160 => 10 | HASH256 => 11 | KECCAK224 => 12 | KECCAK256 => 13 | KECCAK384 => 14 | KECCAK512 => 15
    | MD2 => 16 | MD4 => 17 | MD5 => 18 | MD5SHA1 => 19 | RIPEMD160 => 20 | SHA1 => 21 | SHA224 => 22 | SHA256 => 23 | SHA384 => 24
    | SHA512 => 25 | SHA3_224 => 26 | SHA3_256 => 27 | SHA3_384 => 28 | SHA3_512 => 29 | SHAKE128 => 30 | SHAKE256 => 31 | WHIRLPOOL => 32
    end
  end.
(* rsa.c:1240-1253 get_digest_info, for the types there are *)
Definition get_digest_info (t : option hash_id) : list Z :=
  let info := nth (hash_index t) digest_info [] in firstn (Z.to_nat (hd 0 info)) (tl info).

Definition klen_of (n : Z) : nat := Z.to_nat (mpz_bytelen n).
(* rsa.c:1705-1719: EM *)
Definition v15_block (klen : nat) (prefix msg : list Z) : list Z :=
  let tlen := (length prefix + length msg)%nat in
  [0x00; 0x01] ++ repeat 0xff (klen - tlen - 3) ++ [0x00] ++ prefix ++ msg.

(* rsa.c:1670-1734 rsa_sign *)
Definition rsa_sign (t : option hash_id) (msg key draws : list Z) : outcome (list Z) :=
  let prefix := get_digest_info t in
  let hlen := match t with None => length msg | Some id => hash_output_size id end in
  if negb (length msg =? hlen)%nat then Fail else
  match rsa_priv_import key with
  | None => Fail
  | Some k =>
    if negb (rsa_priv_verify k) then Fail else
    let tlen := (length prefix + hlen)%nat in
    let klen := klen_of (kn k) in
    if (klen <? tlen + 11)%nat then Fail else
    rsa_priv_decrypt k (v15_block klen prefix msg) true draws
  end.

(* ok &= sec_equal(em[i], v) for i = lo .. hi-1 *)
Definition all_equal (em : list Z) (lo hi : nat) (v ok : Z) : Z :=
  fold_left (fun ok i => Z.land ok (sec_equal (nth i em 0) v)) (seq lo (hi - lo)) ok.
(* rsa.c:1737-1806 rsa_verify *)
Definition rsa_verify (t : option hash_id) (msg sig key : list Z) : bool :=
  let prefix := get_digest_info t in
  let hlen := match t with None => length msg | Some id => hash_output_size id end in
  if negb (length msg =? hlen)%nat then false else
  match rsa_pub_import key with
  | None => false
  | Some k =>
    if negb (rsa_pub_verify k) then false else
    let tlen := (length prefix + hlen)%nat in
    let klen := klen_of (un k) in
    if negb (length sig =? klen)%nat then false else
    if (klen <? tlen + 11)%nat then false else
    match rsa_pub_encrypt k sig with
    | Ok em =>
      let ok := 1 in
      let ok := Z.land ok (sec_equal (nth 0 em 0) 0x00) in
      let ok := Z.land ok (sec_equal (nth 1 em 0) 0x01) in
      let ok := all_equal em 2 (klen - tlen - 1) 0xff ok in
      let ok := Z.land ok (sec_equal (nth (klen - tlen - 1) em 0) 0x00) in
      let ok := Z.land ok (torsion_memequal (firstn (length prefix) (skipn (klen - tlen) em)) prefix) in
      let ok := Z.land ok (torsion_memequal (firstn (length msg) (skipn (klen - hlen) em)) msg) in
      ok =? 1
    | _ => false
    end
  end.

(* rsa.c:1809-1871 rsa_encrypt; ps is the padding after every zero has been redrawn (plen bytes) *)
Definition rsa_encrypt (msg key ps : list Z) : outcome (list Z) :=
  match rsa_pub_import key with
  | None => Fail
  | Some k =>
    if negb (rsa_pub_verify k) then Fail else
    let klen := klen_of (un k) in
    if (klen <? 11)%nat then Fail else
    if (klen - 11 <? length msg)%nat then Fail else
    rsa_pub_encrypt k ([0x00; 0x02] ++ ps ++ [0x00] ++ msg)
  end.

(* rsa.c:1887-1891: i runs over the indices of em from 2 *)
Fixpoint unpad_loop (em : list Z) (i offset looking : Z) : Z * Z :=
  match em with
  | [] => (offset, looking)
  | x :: em =>
    let equals0 := sec_equal x 0x00 in
    let offset := cnd_select offset i (Z.land looking equals0) in
    let looking := cnd_select looking 0 equals0 in
    unpad_loop em (i + 1) offset looking
  end.
(* rsa.c:1873-1899 pkcs1v15_unpad: (ok, *off) *)
Definition pkcs1v15_unpad (em : list Z) : Z * Z :=
  let ok := 1 in
  let ok := Z.land ok (sec_equal (nth 0 em 0) 0x00) in
  let ok := Z.land ok (sec_equal (nth 1 em 0) 0x02) in
  let '(offset, looking) := unpad_loop (skipn 2 em) 2 0 1 in
  let ok := Z.land ok (Z.lxor looking 1) in
  let ok := Z.land ok (sec_lte (2 + 8) offset) in
  (ok, cnd_select 0 (w32 (offset + 1)) ok).

(* rsa.c:1902-1946 rsa_decrypt *)
Definition rsa_decrypt (msg key draws : list Z) : outcome (list Z) :=
  match rsa_priv_import key with
  | None => Fail
  | Some k =>
    if negb (rsa_priv_verify k) then Fail else
    let klen := klen_of (kn k) in
    if negb (length msg =? klen)%nat then Fail else
    if (klen <? 11)%nat then Fail else
    bind (rsa_priv_decrypt k msg true draws) (fun em =>
    let '(ok, offset) := pkcs1v15_unpad em in
    if ok =? 0 then Fail else Ok (skipn (Z.to_nat offset) em))
  end.

(* rsa.c:1949-2022 rsa_decrypt_key; out is the random value drawn first *)
Definition rsa_decrypt_key (out msg key draws : list Z) : outcome (list Z) :=
  let out_len := length out in
  if (MAX_MOD_SIZE - 11 <? Z.of_nat out_len) then Fail else
  match rsa_priv_import key with
  | None => Fail
  | Some k =>
    if negb (rsa_priv_verify k) then Fail else
    let klen := klen_of (kn k) in
    if negb (length msg =? klen)%nat then Fail else
    if (klen <? out_len + 11)%nat then Fail else
    bind (rsa_priv_decrypt k msg true draws) (fun em =>
    let '(ok, offset) := pkcs1v15_unpad em in
    let ok := Z.land ok (sec_equal (w32 (Z.of_nat klen - offset)) (w32 (Z.of_nat out_len))) in
    Ok (cnd_memcpy out (skipn (klen - out_len) em) ok))
  end.

(* ---- MGF1, PSS, OAEP ---- *)
Section WithHash.
  Variable H : list Z -> list Z.
  Variable hlen : nat.

  (* rsa.c:1280-1290: the while loop, from counter ctr; one turn per digest *)
  Fixpoint mgf1_loop (fuel : nat) (ctr out seed : list Z) : list Z :=
    match fuel with
    | O => out
    | S fuel =>
      match out with
      | [] => []
      | _ => xorl (firstn hlen out) (firstn hlen (H (seed ++ ctr))) ++ mgf1_loop fuel (increment_be_var ctr) (skipn hlen out) seed
      end
    end.
  (* rsa.c:1259-1296 mgf1xor: the new contents of out *)
  Definition mgf1xor (out seed : list Z) : list Z := mgf1_loop (length out) [0; 0; 0; 0] out seed.

  (* db[0] &= mask *)
  Definition mask0 (mask : Z) (db : list Z) : list Z := match db with [] => [] | x :: t => Z.land x mask :: t end.

  (* rsa.c:1302-1356 pss_encode *)
  Definition pss_encode (msg : list Z) (embits : Z) (salt : list Z) : option (list Z) :=
    let slen := length salt in
    let emlen := Z.to_nat (Z.shiftr (embits + 7) 3) in
    let mask := Z.shiftr 0xff (8 * Z.of_nat emlen - embits) in
    if negb (length msg =? hlen)%nat then None else
    if (emlen <? hlen + slen + 2)%nat then None else
    let h0 := H (repeat 0 8 ++ msg ++ salt) in
    let db := repeat 0 (emlen - slen - hlen - 2) ++ [0x01] ++ salt in
    let db := mgf1xor db h0 in
    Some (mask0 mask db ++ h0 ++ [0xbc]).

  (* rsa.c:1398-1407: index of the first nonzero byte, which must be 1 *)
  Fixpoint pss_auto (db : list Z) : option nat :=
    match db with
    | [] => None
    | x :: db => if x =? 0 then option_map S (pss_auto db) else if x =? 1 then Some O else None
    end.

  (* rsa.c:1358-1432 pss_verify *)
  Definition pss_verify (msg em : list Z) (embits : Z) (salt_len : nat) : bool :=
    let slen := salt_len in
    let emlen := Z.to_nat (Z.shiftr (embits + 7) 3) in
    let dlen := (emlen - hlen - 1)%nat in
    let mask := Z.shiftr 0xff (8 * Z.of_nat emlen - embits) in
    if negb (length msg =? hlen)%nat then false else
    if (emlen <? hlen + slen + 2)%nat then false else
    if negb (nth (emlen - 1) em 0 =? 0xbc) then false else
    let db := firstn dlen em in
    let h := firstn hlen (skipn (emlen - hlen - 1) em) in
    if negb (Z.land (nth 0 em 0) (Z.lnot mask) =? 0) then false else
    let db := mask0 mask (mgf1xor db h) in
    let slen :=
      if (slen =? 0)%nat then
        match pss_auto db with Some i => Some (dlen - (i + 1))%nat | None => None end
      else
        let len := (dlen - slen - 1)%nat in
        if negb (forallb (fun x => x =? 0) (firstn len db)) then None else
        if negb (nth len db 0 =? 1) then None else Some slen in
    match slen with
    | None => false
    | Some slen =>
      let salt := skipn (dlen - slen) db in
      torsion_memequal (H (repeat 0 8 ++ msg ++ salt)) h =? 1
    end.

  (* salt_len: RSA_SALT_LENGTH_AUTO is 0, RSA_SALT_LENGTH_HASH is (size_t)-1 *)
  Definition SALT_HASH : Z := 2 ^ 64 - 1.

  (* rsa.c:2062-2075: the salt length used by rsa_sign_pss *)
  Definition pss_salt_len (n salt_len : Z) : option nat :=
    let emlen := Z.to_nat ((mpz_bitlen n + 6) / 8) in
    let klen := klen_of n in
    obind (if salt_len =? 0 then (if (emlen <? 2 + hlen)%nat then None else Some (Z.of_nat (emlen - 2 - hlen)))
           else if salt_len =? SALT_HASH then Some (Z.of_nat hlen) else Some salt_len) (fun salt_len =>
    if Z.of_nat klen <? salt_len then None else Some (Z.to_nat salt_len)).

  (* rsa.c:2025-2108 rsa_sign_pss; salts gives the random salt of each length *)
  Definition rsa_sign_pss (msg key : list Z) (salt_len : Z) (salts : nat -> list Z) (draws : list Z) : outcome (list Z) :=
    if negb (length msg =? hlen)%nat then Fail else
    match rsa_priv_import key with
    | None => Fail
    | Some k =>
      if negb (rsa_priv_verify k) then Fail else
      match pss_salt_len (kn k) salt_len with
      | None => Fail
      | Some slen =>
        match pss_encode msg (mpz_bitlen (kn k) - 1) (salts slen) with
        | None => Fail
        | Some em => rsa_priv_decrypt k em true draws
        end
      end
    end.

  (* rsa.c:2111-2185 rsa_verify_pss *)
  Definition rsa_verify_pss (msg sig key : list Z) (salt_len : Z) : bool :=
    if negb (length msg =? hlen)%nat then false else
    match rsa_pub_import key with
    | None => false
    | Some k =>
      if negb (rsa_pub_verify k) then false else
      let bits := mpz_bitlen (un k) in
      let klen := Z.to_nat ((bits + 7) / 8) in
      if negb (length sig =? klen)%nat then false else
      let salt_len := if salt_len =? 0 then 0 else if salt_len =? SALT_HASH then Z.of_nat hlen else salt_len in
      if Z.of_nat klen <? salt_len then false else
      match rsa_pub_encrypt k sig with
      | Ok em =>
        if Z.land (bits - 1) 7 =? 0 then
          if negb (nth 0 em 0 =? 0) then false else pss_verify msg (skipn 1 em) (bits - 1) (Z.to_nat salt_len)
        else pss_verify msg em (bits - 1) (Z.to_nat salt_len)
      | _ => false
      end
    end.

  (* rsa.c:2226-2253: EM *)
  Definition oaep_encode (klen : nat) (label msg seed : list Z) : list Z :=
    let dlen := (klen - (1 + hlen))%nat in
    let db := H label ++ repeat 0 (dlen - length msg - 1 - hlen) ++ [0x01] ++ msg in
    let db := mgf1xor db seed in
    let seed := mgf1xor seed db in
    [0x00] ++ seed ++ db.

  (* rsa.c:2188-2267 rsa_encrypt_oaep; seed: hlen random bytes *)
  Definition rsa_encrypt_oaep (msg key label seed : list Z) : outcome (list Z) :=
    match rsa_pub_import key with
    | None => Fail
    | Some k =>
      if negb (rsa_pub_verify k) then Fail else
      let klen := klen_of (un k) in
      if (klen <? 2 * hlen + 2)%nat then Fail else
      if (klen - 2 * hlen - 2 <? length msg)%nat then Fail else
      rsa_pub_encrypt k (oaep_encode klen label msg seed)
    end.

  (* rsa.c:2334-2340: (offset, looking, invalid) *)
  Fixpoint oaep_loop (rest : list Z) (i offset looking invalid : Z) : Z * Z * Z :=
    match rest with
    | [] => (offset, looking, invalid)
    | x :: rest =>
      let equals0 := sec_equal x 0x00 in
      let equals1 := sec_equal x 0x01 in
      let offset := cnd_select offset i (Z.land looking equals1) in
      let looking := cnd_select looking 0 equals1 in
      let invalid := cnd_select invalid 1 (Z.land looking (Z.lxor equals0 1)) in
      oaep_loop rest (i + 1) offset looking invalid
    end.

  (* rsa.c:2312-2352: from the decrypted EM *)
  Definition oaep_decode (em label : list Z) : option (list Z) :=
    let zero := sec_equal (nth 0 em 0) 0x00 in
    let seed := firstn hlen (skipn 1 em) in
    let db := skipn (hlen + 1) em in
    let seed := mgf1xor seed db in
    let db := mgf1xor db seed in
    let lvalid := torsion_memequal (firstn hlen db) (H label) in
    let rest := skipn hlen db in
    let '(offset, looking, invalid) := oaep_loop rest 0 0 1 0 in
    let valid := Z.land (Z.land (Z.land zero lvalid) (Z.lxor invalid 1)) (Z.lxor looking 1) in
    if valid =? 0 then None else Some (skipn (Z.to_nat (offset + 1)) rest).

  (* rsa.c:2270-2362 rsa_decrypt_oaep *)
  Definition rsa_decrypt_oaep (msg key label draws : list Z) : outcome (list Z) :=
    match rsa_priv_import key with
    | None => Fail
    | Some k =>
      if negb (rsa_priv_verify k) then Fail else
      let klen := klen_of (kn k) in
      if negb (length msg =? klen)%nat then Fail else
      if (klen <? hlen * 2 + 2)%nat then Fail else
      bind (rsa_priv_decrypt k msg true draws) (fun em =>
      match oaep_decode em label with Some m => Ok m | None => Fail end)
    end.
End WithHash.

(* ---- veil ---- *)
(* rsa.c:1188-1194: the first candidate below vmax *)
Fixpoint veil_loop (draws : list Z) (c n vmax : Z) : option Z :=
  match draws with
  | [] => None
  | r :: draws => let v := c + r * n in if vmax <=? v then veil_loop draws c n vmax else Some v
  end.
(* rsa.c:1144-1209 rsa_pub_veil; draws are the values of mpz_urandomm(r, rmax) *)
Definition veil_rmax (n c bits : Z) : Z := Z.quot (2 ^ bits - c + n - 1) n.
Definition rsa_pub_veil (k : rsa_pub) (msg : list Z) (bits : Z) (draws : list Z) : outcome (list Z) :=
  if bits <? mpz_bitlen (un k) then Fail else
  let c := be_val msg in
  if un k <=? c then Fail else
  let vmax := 2 ^ bits in
  if negb (0 <? veil_rmax (un k) c bits) then Abort else
  match veil_loop draws c (un k) vmax with
  | None => Abort
  | Some v =>
    if negb (v mod un k =? c) then Abort else
    if negb (mpz_bitlen v <=? bits) then Abort else
    match mpz_export v ((bits + 7) / 8) with Some b => Ok b | None => Abort end
  end.
(* rsa.c:1211-1234 rsa_pub_unveil *)
Definition rsa_pub_unveil (k : rsa_pub) (msg : list Z) (bits : Z) : outcome (list Z) :=
  let v := be_val msg in
  if negb (bits =? 0) && (bits <? mpz_bitlen v) then Fail else exported (un k) (v mod un k).

(* rsa.c:2365-2400 rsa_veil *)
Definition rsa_veil (msg : list Z) (bits : Z) (key draws : list Z) : outcome (list Z) :=
  match rsa_pub_import key with
  | None => Fail
  | Some k =>
    if negb (rsa_pub_verify k) then Fail else
    if negb (Z.of_nat (length msg) =? mpz_bytelen (un k)) then Fail else
    if MAX_MOD_BITS + 8 <? bits then Fail else
    rsa_pub_veil k msg bits draws
  end.
(* rsa.c:2403-2441 rsa_unveil *)
Definition rsa_unveil (msg : list Z) (bits : Z) (key : list Z) : outcome (list Z) :=
  match rsa_pub_import key with
  | None => Fail
  | Some k =>
    if negb (rsa_pub_verify k) then Fail else
    if (length msg <? klen_of (un k))%nat then Fail else
    if MAX_MOD_SIZE + 1 <? Z.of_nat (length msg) then Fail else
    if MAX_MOD_BITS + 8 <? bits then Fail else
    rsa_pub_unveil k msg bits
  end.

(* ---- key functions ---- *)
(* rsa.c:1558-1583 rsa_pubkey_create *)
Definition rsa_pubkey_create (key : list Z) : outcome (list Z) :=
  match rsa_priv_import key with
  | None => Fail
  | Some k =>
    if negb (rsa_priv_verify k) then Fail else
    match rsa_pub_export (MkPub (kn k) (ke k)) with Some b => Ok b | None => Abort end
  end.
(* rsa.c:1500-1533 rsa_privkey_import *)
Definition rsa_privkey_import (key draws : list Z) : outcome (list Z) :=
  match rsa_priv_import_dumb key with
  | None => Fail
  | Some k =>
    match (if rsa_priv_verify k then Some k
           else if (0 <? kp k) && (0 <? kq k) then
             if 0 <? ke k then rsa_priv_set_pqe (kp k) (kq k) (ke k) else rsa_priv_set_pqd (kp k) (kq k) (kd k)
           else rsa_priv_set_ned (kn k) (ke k) (kd k) draws) with
    | None => Fail
    | Some k => match rsa_priv_export k with Some b => Ok b | None => Abort end
    end
  end.
(* rsa.c:1535-1556 rsa_privkey_export *)
Definition rsa_privkey_export (key : list Z) : outcome (list Z) :=
  match rsa_priv_import key with
  | None => Fail
  | Some k =>
    if negb (rsa_priv_verify k) then Fail else
    match rsa_priv_export_dumb k with Some b => Ok b | None => Abort end
  end.
