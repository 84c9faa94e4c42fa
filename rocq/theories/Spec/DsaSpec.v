(* FIPS 186-4 section 4 (DSA) and RFC 6979 (deterministic nonces). *)
From Verif.Base Require Import Prelude.
From Coq Require Import Znumtheory.
From Verif.Model Require Import Hash.
From Verif.Spec Require Import HashSpec KdfSpec.

(* bit length of a positive integer *)
Definition blen (n : Z) : Z := Z.log2 n + 1.
Definition octs (q : Z) : nat := Z.to_nat ((blen q + 7) / 8).

(* RFC 6979 2.3.2: the leftmost qlen bits *)
Definition bits2int (q : Z) (b : list Z) : Z :=
  let l := 8 * Z.of_nat (length b) in
  if blen q <? l then be_val b / 2 ^ (l - blen q) else be_val b.

(* FIPS 186-4 4.1, and what the library checks of it *)
Definition sane_group (p q g : Z) : Prop :=
  2 ^ 511 <= p < 2 ^ 10000 /\ (blen q = 160 \/ blen q = 224 \/ blen q = 256) /\ 0 < q /\ 2 <= g < p - 1 /\ Z.odd p = true /\ Z.odd q = true.
Definition good_group (p q g : Z) : Prop := sane_group p q g /\ (g ^ q) mod p = 1.

(* 4.7 *)
Definition dsa_accepts (p q g y m r s : Z) : Prop :=
  0 < r < q /\ 0 < s < q /\ exists w, 0 <= w < q /\ (s * w) mod q = 1 /\ ((g ^ ((m * w) mod q) * y ^ ((r * w) mod q)) mod p) mod q = r.

(* 4.6 with nonce k *)
Definition dsa_signs (p q g x m k r s : Z) : Prop :=
  r = ((g ^ k) mod p) mod q /\ 0 <= s < q /\ (s * k) mod q = (m + x * r) mod q.

(* RFC 6979 3.2: state (K, V), the candidates, and the step between them *)
Definition rfc_init (id : hash_id) (x h : list Z) : list Z * list Z :=
  let V := repeat 1 (hash_output_size id) in
  let K := repeat 0 (hash_output_size id) in
  let K := rfc2104 id K (V ++ [0] ++ x ++ h) in
  let V := rfc2104 id K V in
  let K := rfc2104 id K (V ++ [1] ++ x ++ h) in
  let V := rfc2104 id K V in
  (K, V).
(* h.2: V := HMAC_K(V), T := T || V until T has qlen bits *)
Fixpoint rfc_T (id : hash_id) (fuel : nat) (q : Z) (K V T : list Z) : list Z * list Z :=
  if 8 * Z.of_nat (length T) <? blen q then
    match fuel with O => (T, V) | S fuel => let V := rfc2104 id K V in rfc_T id fuel q K V (T ++ V) end
  else (T, V).
Definition rfc_round (id : hash_id) (q : Z) (st : list Z * list Z) : Z * (list Z * list Z) :=
  let '(K, V) := st in
  let '(T, V) := rfc_T id (octs q) q K V [] in
  let K' := rfc2104 id K (V ++ [0]) in
  (bits2int q T, (K', rfc2104 id K' V)).
(* the n-th candidate *)
Fixpoint rfc_candidate (id : hash_id) (q : Z) (n : nat) (st : list Z * list Z) : Z :=
  match n with O => fst (rfc_round id q st) | S n => rfc_candidate id q n (snd (rfc_round id q st)) end.
