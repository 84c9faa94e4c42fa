(* What RFC 8017 section 3.2 asks of a two-prime RSA private key, apart from the primality of the factors, and the limits
   this library adds; the encodings of sections 7.2, 8.2, 9.1, 9.2 and B.2.1. *)
From Verif.Base Require Import Prelude.

Record valid_priv (n e d p q dp dq qi : Z) : Prop := {
  vp_n : n = p * q;
  vp_size : 2 ^ 511 <= n < 2 ^ 16384;
  vp_e : 3 <= e < 2 ^ 33 /\ Z.odd e = true;
  vp_p : 3 <= p /\ Z.odd p = true;
  vp_q : 3 <= q /\ Z.odd q = true;
  vp_pq : p <> q;
  vp_d : 2 <= d < (p - 1) * (q - 1);
  vp_ed : (Z.lcm (p - 1) (q - 1) | e * d - 1);
  vp_dp : dp = d mod (p - 1) /\ 0 < dp;
  vp_dq : dq = d mod (q - 1) /\ 0 < dq;
  vp_qi : 2 <= qi < p /\ (p | q * qi - 1)
}.
Definition valid_pub (n e : Z) : Prop := 2 ^ 511 <= n < 2 ^ 16384 /\ 3 <= e < 2 ^ 33 /\ Z.odd n = true /\ Z.odd e = true.

(* B.2.1: the mask of l bytes *)
Definition mgf1 (H : list Z -> list Z) (hlen : nat) (seed : list Z) (l : nat) : list Z :=
  firstn l (concat (map (fun c => H (seed ++ be_bytes 4 (Z.of_nat c))) (seq 0 ((l + hlen - 1) / hlen)))).
(* 9.2: EMSA-PKCS1-v1_5 *)
Definition emsa_v15 (k : nat) (T : list Z) (EM : list Z) : Prop :=
  exists PS, EM = [0x00; 0x01] ++ PS ++ [0x00] ++ T /\ Forall (eq 0xff) PS /\ (8 <= length PS)%nat /\ length EM = k.
(* 7.2.1: EME-PKCS1-v1_5 *)
Definition eme_v15 (EM M : list Z) : Prop :=
  exists PS, EM = [0x00; 0x02] ++ PS ++ [0x00] ++ M /\ Forall (fun x => x <> 0) PS /\ (8 <= length PS)%nat.
(* 7.1.1: EME-OAEP *)
Definition eme_oaep (H : list Z -> list Z) (hlen k : nat) (L M seed EM : list Z) : Prop :=
  exists PS, let DB := H L ++ PS ++ [0x01] ++ M in
    Forall (eq 0) PS /\ length DB = (k - hlen - 1)%nat /\ length EM = k /\ length seed = hlen /\
    let maskedDB := xorl DB (mgf1 H hlen seed (k - hlen - 1)) in
    let maskedSeed := xorl seed (mgf1 H hlen maskedDB hlen) in
    EM = [0x00] ++ maskedSeed ++ maskedDB.
(* 9.1.1: EMSA-PSS *)
Definition emsa_pss (H : list Z -> list Z) (hlen : nat) (mHash : list Z) (emBits : Z) (salt EM : list Z) : Prop :=
  let emLen := Z.to_nat ((emBits + 7) / 8) in
  let h := H (repeat 0 8 ++ mHash ++ salt) in
  exists PS, let DB := PS ++ [0x01] ++ salt in
    Forall (eq 0) PS /\ length EM = emLen /\ (hlen + length salt + 2 <= emLen)%nat /\ length DB = (emLen - hlen - 1)%nat /\
    exists maskedDB, EM = maskedDB ++ h ++ [0xbc] /\
      (* the leftmost 8 emLen - emBits bits are cleared *)
      be_val maskedDB = be_val (xorl DB (mgf1 H hlen h (emLen - hlen - 1))) mod 2 ^ (emBits - 8 * Z.of_nat hlen - 8) /\
      bytes maskedDB /\ length maskedDB = length DB.

(* 9.2 and B.1: DigestInfo, with the object identifier of the digest as registered (RFC 8017, RFC 4357, RFC 7693, ISO 10118-3, FIPS 180/202) *)
Fixpoint base128 (fuel : nat) (n : Z) (acc : list Z) : list Z :=
  match fuel with O => acc | S fuel => if n =? 0 then acc else base128 fuel (n / 128) ((n mod 128 + 128) :: acc) end.
Definition der_arc (n : Z) : list Z := base128 5 (n / 128) [n mod 128].
Definition der_oid (arcs : list Z) : list Z := match arcs with a :: b :: r => (40 * a + b) :: concat (map der_arc r) | _ => [] end.
Definition digest_prefix (arcs : list Z) (hlen : Z) : list Z :=
  let o := der_oid arcs in let l := Z.of_nat (length o) in
  [0x30; 8 + l + hlen; 0x30; 4 + l; 0x06; l] ++ o ++ [0x05; 0x00; 0x04; hlen].
