(* Model of the scalar recodings of src/ecc.c (lines 1122-1324). Scalars are integers; the limb vectors behind mpn_getbit,
   mpn_getbits and mpn_bitlen (mpi.c 3291-3355) are represented by their value. *)
From Verif.Base Require Import Prelude.
From Verif.Model Require Import NumTheory.
(* sc_is_high_var (782-785): x > nh where nh = n >> 1 *)
Definition sc_is_high (n x : Z) : bool := n / 2 <? x.
(* sc_neg (826-833): n - x, or zero *)
Definition sc_neg (n x : Z) : Z := if x =? 0 then 0 else n - x.
(* sc_minimize, sc_minimize_var (1122-1141): the flag and |x| *)
Definition sc_minimize (n x : Z) : Z * bool :=
  let high := sc_is_high n x in ((if high then sc_neg n x else x), high).
(* sc_get_bits (797-801), sc_bitlen_var (787-790) *)
Definition sc_get_bits (k : Z) (pos : nat) (w : Z) : Z := (k / 2 ^ Z.of_nat pos) mod 2 ^ w.
Definition sc_bitlen (k : Z) : nat := Z.to_nat (bitlen k).
(* the loop of sc_naf_var0: naf, len, i, carry *)
Fixpoint naf_loop (fuel : nat) (k sign : Z) (w : nat) (bits : nat) (naf : list Z) (len i : nat) (carry : Z) : option (list Z * nat) :=
  if (i <? bits)%nat then
    match fuel with
    | O => None
    | S fuel =>
      if sc_get_bits k i 1 =? carry then naf_loop fuel k sign w bits naf len (S i) carry
      else
        let word := sc_get_bits k i (Z.of_nat w) + carry in
        let carry := (word / 2 ^ (Z.of_nat w - 1)) mod 2 in
        let word := word - carry * 2 ^ Z.of_nat w in
        naf_loop fuel k sign w bits (upd naf i (sign * word)) (S i) (i + w) carry
    end
  else if carry =? 0 then Some (naf, len) else None.
(* sc_naf_var0 (1143-1189): the digit array (max entries) and the returned length; None is a failed ASSERT *)
Definition sc_naf_var0 (k sign : Z) (w max : nat) : option (list Z * nat) :=
  let bits := S (sc_bitlen k) in
  if (bits <=? max)%nat then naf_loop bits k sign w bits (repeat 0 max) 0 0 0 else None.
(* sc_naf_var (1191-1194), sc_naf_endo_var (1196-1216): sbits and endo_bits are sc->bits and sc->endo_bits *)
Definition sc_naf_var (sbits : nat) (k : Z) (w : nat) := sc_naf_var0 k 1 w (S sbits).
Definition sc_naf_endo_var (n : Z) (endo_bits : nat) (k1 k2 : Z) (w : nat) : option (list Z * list Z * nat) :=
  let '(c1, h1) := sc_minimize n k1 in
  let '(c2, h2) := sc_minimize n k2 in
  match sc_naf_var0 c1 (if h1 then -1 else 1) w (S endo_bits) with
  | None => None
  | Some (naf1, len1) =>
    match sc_naf_var0 c2 (if h2 then -1 else 1) w (S endo_bits) with
    | None => None
    | Some (naf2, len2) => Some (naf1, naf2, Nat.max len1 len2)
    end
  end.
(* the digit choice of sc_jsf_var0 for one scalar: b and d are this scalar's window and carry, m the other's residue *)
Definition jsf_m (b d : Z) : Z := let m := (b mod 4 + d) mod 4 in if m =? 3 then -1 else m.
Definition jsf_u (b d m other : Z) : Z :=
  if Z.odd m then
    let m8 := (b mod 8 + d) mod 8 in
    if ((m8 =? 3) || (m8 =? 5)) && (other =? 2) then - m else m
  else 0.
Definition jsf_next (d u : Z) : Z := if 2 * d =? 1 + u then 1 - d else d.
Definition jsf_table : list Z := [-3; -1; -5; -7; 0; 7; 5; 1; 3].
Fixpoint jsf_loop (cnt : nat) (k1 s1 k2 s2 : Z) (i : nat) (d1 d2 : Z) : list Z :=
  match cnt with
  | O => []
  | S cnt =>
    let b1 := sc_get_bits k1 i 3 in
    let b2 := sc_get_bits k2 i 3 in
    let m14 := jsf_m b1 d1 in
    let m24 := jsf_m b2 d2 in
    let u1 := jsf_u b1 d1 m14 m24 in
    let u2 := jsf_u b2 d2 m24 m14 in
    nth (Z.to_nat ((u1 * s1 + 1) * 3 + (u2 * s2 + 1))) jsf_table 0
      :: jsf_loop cnt k1 s1 k2 s2 (S i) (jsf_next d1 u1) (jsf_next d2 u2)
  end.
(* the final loop: drop trailing zero digits from the length *)
Fixpoint jsf_trim (naf : list Z) (i : nat) : nat :=
  match i with
  | O => O
  | S j => if nth j naf 0 =? 0 then jsf_trim naf j else i
  end.
(* sc_jsf_var0 (1218-1304) *)
Definition sc_jsf_var0 (k1 s1 k2 s2 : Z) (max : nat) : option (list Z * nat) :=
  let bits := Nat.max (S (sc_bitlen k1)) (S (sc_bitlen k2)) in
  if (bits <=? max)%nat then
    let naf := jsf_loop bits k1 s1 k2 s2 0 0 0 ++ repeat 0 (max - bits) in
    Some (naf, jsf_trim naf bits)
  else None.
(* sc_jsf_var (1306-1309), sc_jsf_endo_var (1311-1324) *)
Definition sc_jsf_var (sbits : nat) (k1 k2 : Z) := sc_jsf_var0 k1 1 k2 1 (S sbits).
Definition sc_jsf_endo_var (n : Z) (endo_bits : nat) (k1 k2 : Z) :=
  let '(c1, h1) := sc_minimize n k1 in
  let '(c2, h2) := sc_minimize n k2 in
  sc_jsf_var0 c1 (if h1 then -1 else 1) c2 (if h2 then -1 else 1) (S endo_bits).
