(* C64: the recodings used by point multiplication evaluate back to the scalar. *)
From Verif.Base Require Import Prelude.
From Verif.Model Require Import NumTheory EcScalar Wei.
From Verif.Proof Require Import EcScalarProof WeiMul EndoSplit.
(* width-w NAF: value sum d_i 2^i, digits zero or odd below 2^(w-1) (so (|d|-1)/2 indexes a table of 2^(w-2) odd multiples),
   at most one nonzero digit in any w consecutive ones, and the returned length is one past the last nonzero digit *)
Theorem C64_naf sbits k w : 0 <= k < 2 ^ Z.of_nat sbits -> (2 <= w)%nat ->
  exists naf len, sc_naf_var sbits k w = Some (naf, len) /\ length naf = S sbits /\ dval 2 naf = k /\
    (forall d, In d naf -> d <> 0 -> Z.odd d = true /\ Z.abs d < 2 ^ (Z.of_nat w - 1)) /\
    (forall i j, (i < j)%nat -> nth i naf 0 <> 0 -> nth j naf 0 <> 0 -> (i + w <= j)%nat) /\
    (forall j, (len <= j)%nat -> nth j naf 0 = 0) /\ ((0 < len)%nat -> nth (len - 1) naf 0 <> 0).
Proof.
  intros K W. pose proof (bitlen_fits sbits k K) as B. destruct (naf_spec k 1 w (S sbits) (proj1 K) W (or_introl eq_refl) B) as (naf & len & E & L & V & D & [T1 T2] & SP).
  exists naf, len. split; [exact E|]. split; [exact L|]. split; [rewrite V; apply Z.mul_1_l|]. split; [|split; [exact SP|split; [exact T1|exact T2]]].
  intros d I N. rewrite Forall_forall in D. destruct (D d I) as [Z|H]; [contradiction|exact H].
Qed.
(* with a sign, as the endomorphism variants use it *)
Theorem C64_naf_signed k s w max : 0 <= k -> (2 <= w)%nat -> s = 1 \/ s = -1 -> (S (sc_bitlen k) <= max)%nat ->
  exists naf len, sc_naf_var0 k s w max = Some (naf, len) /\ dval 2 naf = s * k /\
    (forall d, In d naf -> d <> 0 -> Z.odd d = true /\ Z.abs d < 2 ^ (Z.of_nat w - 1)) /\ (forall j, (len <= j)%nat -> nth j naf 0 = 0).
Proof.
  intros K W S1 B. destruct (naf_spec k s w max K W S1 B) as (naf & len & E & L & V & D & [T1 T2] & SP).
  exists naf, len. split; [exact E|]. split; [exact V|]. split; [|exact T1].
  intros d I N. rewrite Forall_forall in D. destruct (D d I) as [Z|H]; [contradiction|exact H].
Qed.
(* joint sparse form: each entry names one pair of signed bits; the table index (|d|-1)/2 is below 4 *)
Definition pair_of (d : Z) : Z * Z :=
  match d with 1 => (1, 0) | 3 => (1, 1) | 5 => (1, -1) | 7 => (0, 1) | -1 => (-1, 0) | -3 => (-1, -1) | -5 => (-1, 1) | -7 => (0, -1) | _ => (0, 0) end.
Theorem C64_jsf k1 s1 k2 s2 max : 0 <= k1 -> 0 <= k2 -> s1 = 1 \/ s1 = -1 -> s2 = 1 \/ s2 = -1 -> (Nat.max (S (sc_bitlen k1)) (S (sc_bitlen k2)) <= max)%nat ->
  exists naf len, sc_jsf_var0 k1 s1 k2 s2 max = Some (naf, len) /\ length naf = max /\
    dval 2 (map (fun d => fst (pair_of d)) naf) = s1 * k1 /\ dval 2 (map (fun d => snd (pair_of d)) naf) = s2 * k2 /\
    (forall d, In d naf -> In d [0; 1; 3; 5; 7; -1; -3; -5; -7]) /\
    (forall j, (len <= j)%nat -> nth j naf 0 = 0) /\ ((0 < len)%nat -> nth (len - 1) naf 0 <> 0).
Proof.
  intros K1 K2 S1 S2 M. destruct (jsf_spec k1 s1 k2 s2 K1 K2 S1 S2 max M) as (naf & len & E & L & V1 & V2 & D & [T1 T2]). rewrite Forall_forall in D.
  assert (PO : forall d, In d naf -> pair_of d = jsf_of d). { intros d I. specialize (D d I). cbn in D. repeat (destruct D as [<-|D]; [reflexivity|]). contradiction. }
  exists naf, len. split; [exact E|]. split; [exact L|]. split; [|split; [|split; [exact D|split; [exact T1|exact T2]]]].
  - rewrite <- V1. f_equal. apply map_ext_in. intros d I. rewrite PO by exact I. reflexivity.
  - rewrite <- V2. f_equal. apply map_ext_in. intros d I. rewrite PO by exact I. reflexivity.
Qed.
(* fixed windows: the 4-bit digits read by the constant time loops *)
Theorem C64_windows sbits k : 0 <= k < 2 ^ Z.of_nat sbits ->
  dval 16 (map (fun i => sc_get_bits k (i * 4) 4) (seq 0 (nsteps sbits))) = k /\ forall i, 0 <= sc_get_bits k (i * 4) 4 < 16.
Proof.
  intros K. split; [|intros i; apply Z.mod_pos_bound; reflexivity].
  assert (G : forall m i, dval 16 (map (fun i => sc_get_bits k (i * 4) 4) (seq i m)) = k / 16 ^ Z.of_nat i - 16 ^ Z.of_nat m * (k / 16 ^ Z.of_nat (i + m))).
  { induction m as [|m IH]; intros i; cbn [seq map dval]; [rewrite Nat.add_0_r; change (16 ^ Z.of_nat 0) with 1; ring|]. rewrite IH. destruct (get4 k i) as [_ E]. rewrite E. replace (S i + m)%nat with (i + S m)%nat by lia.
    replace (16 ^ Z.of_nat (S m)) with (16 * 16 ^ Z.of_nat m) by (rewrite <- Z.pow_succ_r by lia; f_equal; lia). ring. }
  rewrite G. cbn [Nat.add]. rewrite nsteps_cover by exact K. change (16 ^ Z.of_nat 0) with 1. rewrite Z.div_1_r. ring.
Qed.
(* minimising: the flagged absolute value is at most n/2 and represents the same residue *)
Theorem C64_minimize n x : 0 < n -> 0 <= x < n -> let '(c, high) := sc_minimize n x in
  0 <= c <= n / 2 /\ ((if high then - c else c) - x) mod n = 0.
Proof.
  intros N X. pose proof (minimize_spec n x N X) as H. destruct (sc_minimize n x) as [c hi]. destruct H as [B E]. split; [exact B|].
  destruct hi; [replace (- c - x) with (-1 * n) by lia; apply Z.mod_mul; lia|replace (c - x) with 0 by lia; apply Z.mod_0_l; lia].
Qed.
(* the endomorphism split: k = k1 + lambda k2 for any constants (the stored lambda is negated), and with the secp256k1
   constants both halves fit in 128 bits up to sign, so the 129 digit recodings (sc->endo_bits) never overflow *)
Theorem C64_split n g1 g2 b1 b2 lambda prec k : 0 < n -> let '(k1, k2) := wei_endo_split n g1 g2 b1 b2 ((- lambda) mod n) prec k in
  0 <= k1 < n /\ 0 <= k2 < n /\ (k1 + lambda * k2) mod n = k mod n.
Proof.
  intros N. pose proof (split_mod n g1 g2 b1 b2 ((- lambda) mod n) prec k N) as H. destruct (wei_endo_split n g1 g2 b1 b2 ((- lambda) mod n) prec k) as [k1 k2]. destruct H as (A & B & E). split; [exact A|]. split; [exact B|].
  rewrite <- E. rewrite <- Zminus_mod_idemp_r, Zmult_mod_idemp_l, Zminus_mod_idemp_r. f_equal. ring.
Qed.
Theorem C64_split_secp256k1 k : 0 <= k < sec_n -> let '(k1, k2) := wei_endo_split sec_n sec_g1 sec_g2 sec_b1 sec_b2 sec_nl 384 k in
  fst (sc_minimize sec_n k1) < 2 ^ 128 /\ fst (sc_minimize sec_n k2) < 2 ^ 128.
Proof. intros K. pose proof (sec_split k K) as H. destruct (wei_endo_split sec_n sec_g1 sec_g2 sec_b1 sec_b2 sec_nl 384 k) as [k1 k2]. tauto. Qed.
Example C64_ex : sc_naf_var 8 203 4 = Some ([-5; 0; 0; 0; -3; 0; 0; 0; 1], 9%nat) /\
  sc_jsf_var 8 203 102 = Some ([1; 5; 0; 3; 0; 7; -5; 0; 1], 9%nat) /\ sc_jsf_var 6 53 102 = None /\
  wei_endo_split sec_n sec_g1 sec_g2 sec_b1 sec_b2 sec_nl 384 (sec_n / 3) =
    (21500991183068852209528348453844569692, 115792089237316195423570985008687907852736426132585822201406746216295626241280).
Proof. vm_compute. repeat split; reflexivity. Qed.

(* the axioms of every theorem above, listed at once *)
Definition EcScalarProps_all := (@C64_naf, @C64_naf_signed, @C64_jsf, @C64_windows, @C64_minimize, @C64_split, @C64_split_secp256k1).
Print Assumptions EcScalarProps_all.
