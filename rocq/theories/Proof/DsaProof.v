(* DSA: checks, signing, verification, key agreement, generation. *)
From Verif.Base Require Import Prelude.
From Coq Require Import Znumtheory.
From Verif.Model Require Import Encoding Bio Asn1 Hash Drbg NumTheory Rsa Dsa.
From Verif.Spec Require Import HashSpec KdfSpec DrbgSpec DsaSpec.
From Verif.Proof Require Import Asn1Proof RsaKey RsaCodec Cong RsaPrim HmacProof KdfProof DrbgProof DsaCodec Rfc6979 Fermat.
#[local] Opaque hmac_drbg_generate hmac_drbg_init rfc2104 rfc_round.

(* ---- exponents modulo the order ---- *)
Lemma ord_exp p q g a b : 1 < p -> 0 < q -> (g ^ q) mod p = 1 -> 0 <= a -> 0 <= b -> a mod q = b mod q -> (g ^ a) mod p = (g ^ b) mod p.
Proof.
  intros Hp Hq G Ha Hb E. assert (X : forall n, 0 <= n -> (g ^ n) mod p = (g ^ (n mod q)) mod p).
  { intros n Hn. rewrite (Z.div_mod n q) at 1 by lia. pose proof (Z.mod_pos_bound n q Hq). pose proof (Z.div_pos n q Hn Hq).
    rewrite Z.pow_add_r by nia. rewrite Z.pow_mul_r by lia. rewrite Z.mul_mod by lia. 
    assert (Y : ((g ^ q) ^ (n / q)) mod p = 1). { rewrite Zpow_facts.Zpower_mod by lia. rewrite G, Z.pow_1_l by lia. apply Z.mod_small. lia. }
    rewrite Y, Z.mul_1_l, Z.mod_mod by lia. reflexivity. }
  rewrite X, E, <- X by assumption. reflexivity.
Qed.

Lemma sign_core p q g x m k r s w : 1 < p -> 1 < q -> (g ^ q) mod p = 1 -> 0 <= k -> 0 <= x ->
  (s * k) mod q = (m + x * r) mod q -> (s * w) mod q = 1 ->
  (g ^ ((m * w) mod q) * ((g ^ x) mod p) ^ ((r * w) mod q)) mod p = (g ^ k) mod p.
Proof.
  intros Hp Hq G Hk Hx S1 W. pose proof (Z.mod_pos_bound (m * w) q ltac:(lia)) as U1. pose proof (Z.mod_pos_bound (r * w) q ltac:(lia)) as U2.
  rewrite Z.mul_mod by lia. rewrite <- Zpow_facts.Zpower_mod by lia. rewrite <- Z.mul_mod by lia.
  assert (N : 0 <= x * ((r * w) mod q)) by (apply Z.mul_nonneg_nonneg; [exact Hx|apply U2]).
  rewrite <- Z.pow_mul_r by (try exact Hx; apply U2). rewrite <- Z.pow_add_r by (try exact N; apply U1).
  apply (ord_exp p q); try assumption; [clear - Hq; lia|apply Z.add_nonneg_nonneg; [apply U1|exact N]|].
  apply eqm_trans with (w * (m + x * r)).
  { replace (w * (m + x * r)) with (m * w + x * (r * w)) by ring. apply eqm_add; [apply eqm_mod|]. apply eqm_mul; [apply eqm_refl|apply eqm_mod]. }
  apply eqm_trans with (w * (s * k)). { apply eqm_mul; [apply eqm_refl|]. symmetry. exact S1. }
  replace (w * (s * k)) with ((s * w) * k) by ring. replace k with (1 * k) at 2 by ring. apply eqm_mul; [|apply eqm_refl]. unfold eqm. rewrite W, Z.mod_1_l by lia. reflexivity.
Qed.

(* ---- checks ---- *)
Lemma group_sane_iff g : 0 <= gq g -> (dsa_group_is_sane g = true <-> sane_group (gp g) (gq g) (gg g)).
Proof.
  destruct g as [p q g]. unfold dsa_group_is_sane, sane_group. cbn [gp gq gg]. cbv zeta. intros Q. rewrite !andb_true_iff, !negb_true_iff, !orb_false_iff.
  unfold DSA_MIN_BITS, DSA_MAX_BITS. split.
  - intros (((((A & B) & C) & D) & E) & F). destruct A as [A1 A2]. destruct C as [C1 C2]. apply Z.ltb_ge in C1. apply Z.leb_gt in C2, F.
    assert (P0 : 0 <= p) by (clear - C1 C2; lia).
    rewrite bitlen_lt in A1 by (clear - P0; lia). rewrite bitlen_gt in A2 by (clear - P0; lia). apply Z.ltb_ge in A1. apply Z.leb_gt in A2.
    assert (Q0 : 0 < q). { destruct (Z.eq_dec q 0) as [->|]; [discriminate E|clear - n Q; lia]. }
    rewrite (bitlen_blen q Q0) in B.
    assert (Hb : blen q = 160 \/ blen q = 224 \/ blen q = 256).
    { clear - B. destruct (Z.eqb_spec (blen q) 160); [left; assumption|]. destruct (Z.eqb_spec (blen q) 224); [right; left; assumption|]. destruct (Z.eqb_spec (blen q) 256); [right; right; assumption|discriminate B]. }
    split; [split; assumption|]. split; [exact Hb|]. split; [exact Q0|]. split; [clear - C1 F; lia|]. split; assumption.
  - intros ((A1 & A2) & B & Q0 & (C1 & C2) & D & E).
    assert (P0 : 0 <= p) by (clear - C1 C2; lia).
    rewrite bitlen_lt, bitlen_gt by (clear - P0; lia). rewrite (bitlen_blen q Q0). change (512 - 1) with 511.
    rewrite (proj2 (Z.ltb_ge p _) A1), (proj2 (Z.leb_gt _ p) A2).
    rewrite (proj2 (Z.ltb_ge g 2)), (proj2 (Z.leb_gt p g)), (proj2 (Z.leb_gt (p - 1) g)) by (clear - C1 C2; lia).
    repeat split; try assumption. clear - B. destruct B as [-> |[-> | ->]]; reflexivity.
Qed.
Lemma sane_facts p q g : sane_group p q g -> 1 < p /\ 1 < q /\ 2 ^ 159 <= q < 2 ^ 256 /\ (octs q <= 32)%nat /\ (20 <= octs q)%nat.
Proof.
  intros ((A1 & A2) & B & Q0 & (C1 & C2) & D & E). split; [clear - C1 C2; lia|].
  pose proof (blen_range q Q0) as R. assert (L : 2 ^ 159 <= q).
  { eapply Z.le_trans; [|apply R]. apply Z.pow_le_mono_r; clear - B; lia. }
  assert (U : q < 2 ^ 256). { eapply Z.lt_le_trans; [apply R|]. apply Z.pow_le_mono_r; clear - B; lia. }
  split; [eapply Z.lt_le_trans; [|exact L]; reflexivity|]. split; [split; assumption|].
  unfold octs. clear - B. destruct B as [-> |[-> | ->]]; vm_compute; split; repeat constructor.
Qed.
Lemma pow_10000 : 2 ^ 10000 < 2 ^ 16384. Proof. apply Z.pow_lt_mono_r; lia. Qed.
Lemma sane_big p q g : sane_group p q g -> big p /\ big q /\ big g.
Proof.
  intros S. pose proof (sane_facts p q g S) as (F1 & F2 & F3 & _). destruct S as ((A1 & A2) & B & Q0 & (C1 & C2) & D & E). pose proof pow_10000 as P.
  assert (P2 : 2 ^ 256 < 2 ^ 16384) by (apply Z.pow_lt_mono_r; clear; lia).
  set (M := 2 ^ 16384) in *. set (M1 := 2 ^ 10000) in *. set (M2 := 2 ^ 256) in *. assert (X : forall x, 0 <= x < M -> big x) by (intros x H; apply big_of; exact H). clearbody M M1 M2. clear A1.
  destruct F3 as [_ F3]. clear - A2 C1 C2 P P2 X F1 F2 F3. repeat split; apply X; lia.
Qed.

Definition sane_pub (k : dsa_pub) : Prop := sane_group (gp (pg k)) (gq (pg k)) (gg (pg k)) /\ 2 <= py k < gp (pg k) - 1.
Definition good_pub (k : dsa_pub) : Prop := good_group (gp (pg k)) (gq (pg k)) (gg (pg k)) /\ 2 <= py k < gp (pg k) - 1 /\ (py k ^ gq (pg k)) mod gp (pg k) = 1.
Definition sane_priv (k : dsa_priv) : Prop := sane_pub (dsa_pub_roset_priv k) /\ 0 < xx k < gq (xg k).
Definition good_priv (k : dsa_priv) : Prop := sane_priv k /\ good_group (gp (xg k)) (gq (xg k)) (gg (xg k)) /\ (gg (xg k) ^ xx k) mod gp (xg k) = xy k.

Lemma pub_sane_iff k : 0 <= gq (pg k) -> (dsa_pub_is_sane k = true <-> sane_pub k).
Proof.
  intros Q. unfold dsa_pub_is_sane, sane_pub. rewrite andb_true_iff, (group_sane_iff _ Q), negb_true_iff, orb_false_iff, Z.ltb_ge, Z.leb_gt. tauto.
Qed.
Lemma group_verify_iff g : 0 <= gq g -> (dsa_group_verify g = true <-> good_group (gp g) (gq g) (gg g)).
Proof.
  intros Q. unfold dsa_group_verify, good_group. rewrite andb_true_iff, (group_sane_iff _ Q).
  split; intros (A & B); (split; [exact A|]); pose proof (sane_facts _ _ _ A) as F; [apply Z.eqb_eq in B; rewrite powm_eq in B by lia; exact B|apply Z.eqb_eq; rewrite powm_eq by lia; exact B].
Qed.
Lemma pub_verify_iff k : 0 <= gq (pg k) -> (dsa_pub_verify k = true <-> good_pub k).
Proof.
  intros Q. unfold dsa_pub_verify, good_pub. rewrite !andb_true_iff, (group_verify_iff _ Q), (pub_sane_iff _ Q). unfold sane_pub.
  split.
  - intros ((A & B) & C). pose proof (sane_facts _ _ _ (proj1 A)) as F. apply Z.eqb_eq in C. rewrite powm_eq in C by lia. tauto.
  - intros (A & B & C). pose proof (sane_facts _ _ _ (proj1 A)) as F. rewrite powm_eq by lia. rewrite C. split; [|reflexivity]. split; [exact A|]. split; [apply A|exact B].
Qed.
Lemma priv_sane_iff k : 0 <= gq (xg k) -> 0 <= xx k -> (dsa_priv_is_sane k = true <-> sane_priv k).
Proof.
  intros Q X. unfold dsa_priv_is_sane, sane_priv. rewrite !andb_true_iff, pub_sane_iff by exact Q. rewrite negb_true_iff, Z.eqb_neq, Z.ltb_lt.
  split; [intros ((A & B) & C); split; [exact A|]; clear - B C X; lia|intros (A & B); split; [split; [exact A|]|]; clear - B; lia].
Qed.
(* a private key passing the full check: y is a power of g, so in the subgroup *)
Lemma priv_verify_iff k : 0 <= gq (xg k) -> 0 <= xx k -> (dsa_priv_verify k = true <-> good_priv k).
Proof.
  intros Q X. unfold dsa_priv_verify, good_priv. rewrite !andb_true_iff, priv_sane_iff by assumption. rewrite pub_verify_iff by exact Q. unfold good_pub. cbn [pg py dsa_pub_roset_priv].
  split.
  - intros ((A & B) & C). pose proof (sane_facts _ _ _ (proj1 (proj1 A))) as F. cbn [pg dsa_pub_roset_priv] in F. apply Z.eqb_eq in C. rewrite powm_eq in C by lia. tauto.
  - intros (A & B & C). pose proof (sane_facts _ _ _ (proj1 (proj1 A))) as F. cbn [pg dsa_pub_roset_priv] in F. rewrite powm_eq by lia. rewrite C, Z.eqb_refl.
    split; [|reflexivity]. split; [exact A|]. split; [exact B|]. split; [apply (proj2 (proj1 A))|].
    destruct B as [B1 B2]. rewrite <- C. rewrite <- Zpow_facts.Zpower_mod by lia. rewrite <- Z.pow_mul_r by (try exact Q; exact X). rewrite Z.mul_comm, Z.pow_mul_r by (try exact Q; exact X).
    rewrite Zpow_facts.Zpower_mod by lia. rewrite B2, Z.pow_1_l by exact X. apply Z.mod_small. lia.
Qed.

(* ---- fixed-size signatures ---- *)
Lemma app_inj_len {A} (a b c d : list A) : a ++ b = c ++ d -> length a = length c -> a = c /\ b = d.
Proof.
  intros E L. split; [rewrite <- (firstn_app_exact a b (length a) eq_refl), E, L; apply firstn_app_exact; reflexivity|rewrite <- (skipn_app_exact a b (length a) eq_refl), E, L; apply skipn_app_exact; reflexivity].
Qed.
Lemma bytelen_le x n : 0 <= x -> x < 256 ^ Z.of_nat n -> mpz_bytelen x <= Z.of_nat n.
Proof.
  intros H0 H. unfold mpz_bytelen. apply Z.lt_succ_r. apply Z.div_lt_upper_bound; [lia|]. assert (mpz_bitlen x <= 8 * Z.of_nat n); [|lia].
  apply Z.leb_le. rewrite bitlen_le by lia. apply Z.ltb_lt. rewrite Z.pow_mul_r by lia. exact H.
Qed.
Lemma export_ok x n : 0 <= x < 256 ^ Z.of_nat n -> mpz_export x (Z.of_nat n) = Some (be_bytes n x).
Proof. intros [H0 H]. unfold mpz_export. pose proof (bytelen_le x n H0 H). rewrite (proj2 (Z.ltb_ge _ _)) by lia. rewrite Nat2Z.id, Z.abs_eq by exact H0. reflexivity. Qed.
Lemma export_rs_ok r s n : 0 <= r < 256 ^ Z.of_nat n -> 0 <= s < 256 ^ Z.of_nat n -> dsa_sig_export_rs r s n = Some (be_bytes n r ++ be_bytes n s).
Proof.
  intros R S. unfold dsa_sig_export_rs. cbv zeta. pose proof (bytelen_le r n (proj1 R) (proj2 R)). pose proof (bytelen_le s n (proj1 S) (proj2 S)).
  rewrite !(proj2 (Z.ltb_ge _ _)) by lia. cbn [orb]. rewrite !export_ok by assumption. reflexivity.
Qed.
Lemma import_rs_ok a b n : (0 < n)%nat -> length a = n -> length b = n -> dsa_sig_import_rs (a ++ b) n = Some (be_val a, be_val b).
Proof.
  intros Hn La Lb. unfold dsa_sig_import_rs. destruct (Nat.eqb_spec n 0); [lia|]. rewrite app_length, La, Lb. rewrite (proj2 (Nat.eqb_eq _ _)) by lia. cbn [negb].
  rewrite (firstn_app_exact a b n La), (skipn_app_exact a b n La). rewrite firstn_all2 by lia. reflexivity.
Qed.
Lemma import_rs_iff sig n r s : (0 < n)%nat -> (dsa_sig_import_rs sig n = Some (r, s) <-> exists a b, sig = a ++ b /\ length a = n /\ length b = n /\ r = be_val a /\ s = be_val b).
Proof.
  intros Hn. split.
  - unfold dsa_sig_import_rs. destruct (Nat.eqb_spec n 0); [lia|]. destruct (Nat.eqb_spec (length sig) (n * 2)) as [L|]; [|discriminate]. cbn [negb]. intros E. apply some_inj in E. apply pair_equal_spec in E. destruct E as [<- <-].
    exists (firstn n sig), (skipn n sig). rewrite firstn_skipn. split; [reflexivity|]. split; [apply firstn_length_le; lia|]. split; [rewrite skipn_length; lia|]. split; [reflexivity|]. rewrite (firstn_all2 (skipn n sig)) by (rewrite skipn_length; lia). reflexivity.
  - intros (a & b & -> & La & Lb & -> & ->). apply import_rs_ok; assumption.
Qed.
Lemma bytelen_octs q : 0 < q -> mpz_bytelen q = Z.of_nat (octs q).
Proof. intros H. unfold mpz_bytelen. rewrite bitlen_blen by exact H. symmetry. apply octs_ge. exact H. Qed.

(* ---- verification ---- *)
Theorem verify_iff msg sig key : bytes msg -> bytes sig -> bytes key ->
  (dsa_verify msg sig key = true <->
   exists k a b, dsa_pub_import key = Some k /\ sane_pub k /\ sig = a ++ b /\ length a = octs (gq (pg k)) /\ length b = octs (gq (pg k)) /\
     dsa_accepts (gp (pg k)) (gq (pg k)) (gg (pg k)) (py k) (bits2int (gq (pg k)) msg mod gq (pg k)) (be_val a) (be_val b)).
Proof.
  intros Bm Bs Bk. unfold dsa_verify. destruct (dsa_pub_import key) as [k|] eqn:EI.
  2: { split; [discriminate|]. intros (k & a & b & X & _). discriminate. }
  destruct (pub_canonical key k Bk EI) as (_ & (_ & (Q0 & _) & _) & _).
  destruct (dsa_pub_is_sane k) eqn:ES; cbn [negb].
  2: { split; [discriminate|]. intros (k' & a & b & X & S' & _). apply some_inj in X. subst k'. apply pub_sane_iff in S'; [congruence|exact Q0]. }
  apply pub_sane_iff in ES; [|exact Q0]. pose proof (sane_facts _ _ _ (proj1 ES)) as (P1 & Q1 & Q2 & O1 & O2).
  cbv zeta. rewrite bytelen_octs by lia. rewrite Nat2Z.id. set (q := gq (pg k)) in *. set (p := gp (pg k)) in *.
  destruct (dsa_sig_import_rs sig (octs q)) as [[r s]|] eqn:ER.
  2: { split; [discriminate|]. intros (k' & a & b & X & _ & -> & La & Lb & _). apply some_inj in X. subst k'. rewrite (import_rs_ok a b (octs q)) in ER by (try assumption; lia). discriminate. }
  apply import_rs_iff in ER; [|lia]. destruct ER as (a & b & -> & La & Lb & -> & ->). apply bytes_app in Bs. destruct Bs as [Ba Bb].
  pose proof (be_val_range a Ba) as Ra. pose proof (be_val_range b Bb) as Rb. rewrite La in Ra. rewrite Lb in Rb.
  assert (SS : dsa_sig_is_sane (be_val a) (be_val b) = true).
  { unfold dsa_sig_is_sane, DSA_MAX_QSIZE. pose proof (bytelen_le (be_val a) (octs q) (proj1 Ra) (proj2 Ra)). pose proof (bytelen_le (be_val b) (octs q) (proj1 Rb) (proj2 Rb)). apply andb_true_iff. split; apply Z.leb_le; lia. }
  rewrite SS. cbn [negb]. rewrite dsa_reduce_spec by (try assumption; lia). set (m := bits2int q msg mod q).
  transitivity (dsa_accepts p q (gg (pg k)) (py k) m (be_val a) (be_val b)).
  2: { split.
    - intros D. exists k, a, b. split; [reflexivity|]. split; [exact ES|]. split; [reflexivity|]. split; [exact La|]. split; [exact Lb|]. exact D.
    - intros (k' & a' & b' & X & _ & E & La' & Lb' & D). apply some_inj in X. subst k'. fold p q m in La', Lb', D. apply app_inj_len in E; [|congruence]. destruct E as [<- <-]. exact D. }
  clear La Lb SS. set (r := be_val a) in *. set (s := be_val b) in *. unfold dsa_accepts.
  destruct (Z.eqb_spec r 0); cbn [orb]; [split; [discriminate|lia]|]. destruct (Z.leb_spec q r); [split; [discriminate|lia]|].
  destruct (Z.eqb_spec s 0); cbn [orb]; [split; [discriminate|lia]|]. destruct (Z.leb_spec q s); [split; [discriminate|lia]|].
  pose proof (invert_spec s q Q1) as I. destruct (invert s q) as [si|].
  - destruct I as (_ & I1 & I2). rewrite !powm_eq by lia. rewrite <- Z.mul_mod by lia. split.
    + intros E. apply Z.eqb_eq in E. split; [lia|]. split; [lia|]. exists si. auto.
    + intros (_ & _ & w & W1 & W2 & E). apply Z.eqb_eq. assert (w = si).
      { apply (eqm_small q); try assumption. apply eqm_trans with (si * s * w). - replace w with (1 * w) at 1 by ring. apply eqm_mul; [|apply eqm_refl]. rewrite Z.mul_comm. unfold eqm. rewrite I2, Z.mod_1_l by lia. reflexivity.
        - replace (si * s * w) with (si * (s * w)) by ring. replace si with (si * 1) at 2 by ring. apply eqm_mul; [apply eqm_refl|]. unfold eqm. rewrite W2, Z.mod_1_l by lia. reflexivity. }
      subst w. exact E.
  - split; [discriminate|]. intros (_ & _ & w & W1 & W2 & _). exfalso. apply I. apply Zgcd_1_rel_prime. apply bezout_rel_prime.
    apply mod1_iff in W2; [|exact Q1]. destruct W2 as (c & Ec). apply Bezout_intro with w (- c). lia.
Qed.

(* ---- signing ---- *)
Definition good_nonce (p q g x m k : Z) : Prop := 0 < k < q /\ exists r s, dsa_signs p q g x m k r s /\ 0 < r /\ 0 < s.

Lemma coprime_cancel q a b c : 1 < q -> Z.gcd a q = 1 -> a * b ≡ a * c ⟦ q ⟧ -> b ≡ c ⟦ q ⟧.
Proof.
  intros Hq G E. apply eqm_iff in E; [|lia]. apply eqm_iff; [lia|]. replace (a * b - a * c) with (a * (b - c)) in E by ring.
  apply Gauss in E; [exact E|]. apply rel_prime_sym. apply Zgcd_1_rel_prime. exact G.
Qed.
Lemma gcd_mul_split a b q : Z.gcd ((a * b) mod q) q = 1 -> q <> 0 -> Z.gcd a q = 1 /\ Z.gcd b q = 1.
Proof.
  intros G Hq. rewrite Z.gcd_mod in G by exact Hq. rewrite Z.gcd_comm in G. apply Zgcd_1_rel_prime in G.
  split; apply Zgcd_1_rel_prime; apply rel_prime_sym.
  - apply rel_prime_sym. apply rel_prime_div with (a * b); [exact G|]. exists b. ring.
  - apply rel_prime_sym. apply rel_prime_div with (a * b); [exact G|]. exists a. ring.
Qed.

(* the blinded computation of s *)
Lemma blinded q x m k b r ki : 1 < q -> Z.gcd ((k * b) mod q) q = 1 -> (((k * b) mod q) * ki) mod q = 1 ->
  let s := (((r * ((x * b) mod q) + (m * b) mod q) mod q) * ki) mod q in (s * k) mod q = (m + x * r) mod q /\ 0 <= s < q /\ Z.gcd k q = 1.
Proof.
  intros Hq G I s. destruct (gcd_mul_split k b q G ltac:(lia)) as [Gk Gb]. split; [|split; [apply Z.mod_pos_bound; lia|exact Gk]].
  apply (coprime_cancel q b); [exact Hq|exact Gb|]. unfold s.
  apply eqm_trans with ((r * (x * b) + m * b) * ki * k * b).
  { replace (b * ((r * ((x * b) mod q) + (m * b) mod q) mod q * ki mod q * k)) with (((r * ((x * b) mod q) + (m * b) mod q) mod q * ki mod q) * k * b) by ring.
    apply eqm_mul; [|apply eqm_refl]. apply eqm_mul; [|apply eqm_refl]. eapply eqm_trans; [apply eqm_mod|]. apply eqm_mul; [|apply eqm_refl]. eapply eqm_trans; [apply eqm_mod|].
    apply eqm_add; [apply eqm_mul; [apply eqm_refl|apply eqm_mod]|apply eqm_mod]. }
  apply eqm_trans with ((r * (x * b) + m * b) * 1).
  2: { replace ((r * (x * b) + m * b) * 1) with (b * (m + x * r)) by ring. apply eqm_refl. }
  replace ((r * (x * b) + m * b) * ki * k * b) with ((r * (x * b) + m * b) * (k * b * ki)) by ring. apply eqm_mul; [apply eqm_refl|].
  apply eqm_trans with (((k * b) mod q) * ki); [apply eqm_mul; [apply eqm_sym; apply eqm_mod|apply eqm_refl]|]. unfold eqm. rewrite I, Z.mod_1_l by lia. reflexivity.
Qed.

Lemma draw id st d q : 0 < q -> hd_inv id st d -> exists o d', hmac_drbg_generate (octs q) d (octs q) [] = Some (Ok (o, d')) /\
  dsa_reduce o q = Ok (fst (rfc_round id q st) mod q, fst (rfc_round id q st) <? q) /\ hd_inv id (snd (rfc_round id q st)) d'.
Proof.
  intros Hq HI. assert (KV : kv_ok id st) by apply HI. pose proof (HMAC_Generate_ok id st (octs q) KV) as G.
  pose proof (hd_generate id st d (octs q) [] (octs q) HI ltac:(split; [constructor|reflexivity]) ltac:(lia)) as D. rewrite (rfc_round_eq id q st Hq KV).
  destruct (HMAC_Generate id st (octs q) []) as [o st']. destruct D as (d' & D1 & D2). destruct G as (G1 & G2 & G3). exists o, d'. cbn [fst snd].
  split; [exact D1|]. split; [apply dsa_reduce_spec; assumption|exact D2].
Qed.
Lemma round_range id q st : 0 < q -> kv_ok id st -> 0 <= fst (rfc_round id q st) /\ kv_ok id (snd (rfc_round id q st)).
Proof.
  intros Hq KV. pose proof (HMAC_Generate_ok id st (octs q) KV) as G. rewrite (rfc_round_eq id q st Hq KV). destruct (HMAC_Generate id st (octs q) []) as [o st']. cbn [fst snd].
  split; [apply bits2int_range; [exact Hq|apply G]|apply G].
Qed.

Definition nz (l : list Z) : nat := length (filter (fun b => negb (b =? 0)) l).

Section Loop.
Variables (k0 : dsa_priv) (m : Z).
Let p := gp (xg k0). Let q := gq (xg k0). Let g := gg (xg k0). Let x := xx k0.
Hypothesis Hp : 1 < p.
Hypothesis Hq : 1 < q.

(* one candidate *)
Lemma step_cases b k : 0 < k < q ->
  let r := powm g k p mod q in
  let kb := (k * b) mod q in
  match invert kb q with
  | None => Z.gcd kb q <> 1
  | Some ki =>
    let s := (((r * ((x * b) mod q) + (m * b) mod q) mod q) * ki) mod q in
    dsa_signs p q g x m k r s /\ 0 <= r < q /\ (r = 0 \/ s = 0 -> ~ good_nonce p q g x m k)
  end.
Proof.
  intros Hk r kb. pose proof (invert_spec kb q Hq) as I. destruct (invert kb q) as [ki|]; [|exact I]. destruct I as (G & _ & I).
  intros s. pose proof (blinded q x m k b r ki Hq G I) as (B1 & B2 & B3). fold s in B1, B2.
  assert (Er : r = ((g ^ k) mod p) mod q) by (unfold r; rewrite powm_eq by (clear - Hp; lia); reflexivity).
  split; [split; [exact Er|split; [exact B2|exact B1]]|]. split; [apply Z.mod_pos_bound; clear - Hq; lia|].
  intros Z0 (_ & r' & s' & (R1 & R2 & R3) & P1 & P2). rewrite <- Er in R1. subst r'. destruct Z0 as [Z0|Z0]; [clear - Z0 P1; lia|].
  assert (SS : s' = s); [|rewrite SS, Z0 in P2; clear - P2; lia]. apply (eqm_small q); try assumption. apply (coprime_cancel q k); [exact Hq|exact B3|]. rewrite (Z.mul_comm k), (Z.mul_comm k). unfold eqm. rewrite R3, B1. reflexivity.
Qed.

Lemma r_zero_bad k : powm g k p mod q = 0 -> ~ good_nonce p q g x m k.
Proof. intros E (_ & r' & s' & (R1 & _) & P1 & _). rewrite powm_eq in E by (clear - Hp; lia). rewrite <- R1 in E. clear - E P1. lia. Qed.

Lemma loop_sound blinds : forall d st sig, hd_inv SHA256 st d -> sign_loop blinds d k0 m (octs q) = Ok sig ->
  exists n k r s, k = rfc_candidate SHA256 q n st /\ 0 < k < q /\ dsa_signs p q g x m k r s /\ 0 < r < q /\ 0 < s < q /\
    (forall i, (i < n)%nat -> ~ good_nonce p q g x m (rfc_candidate SHA256 q i st)) /\ sig = be_bytes (octs q) r ++ be_bytes (octs q) s.
Proof.
  induction blinds as [|b blinds IH]; intros d st sig HI; cbn [sign_loop]; [discriminate|]. cbv zeta. fold p q g x.
  destruct (b =? 0); [apply IH; exact HI|].
  destruct (draw SHA256 st d q ltac:(clear - Hq; lia) HI) as (o & d' & D1 & D2 & D3). rewrite D1, D2.
  destruct (round_range SHA256 q st ltac:(clear - Hq; lia) (proj1 HI)) as (C0 & _).
  set (c := fst (rfc_round SHA256 q st)) in *.
  assert (Rec : ~ good_nonce p q g x m c -> sign_loop blinds d' k0 m (octs q) = Ok sig ->
    exists n k r s, k = rfc_candidate SHA256 q n st /\ 0 < k < q /\ dsa_signs p q g x m k r s /\ 0 < r < q /\ 0 < s < q /\
    (forall i, (i < n)%nat -> ~ good_nonce p q g x m (rfc_candidate SHA256 q i st)) /\ sig = be_bytes (octs q) r ++ be_bytes (octs q) s).
  { intros NB E. destruct (IH d' _ sig D3 E) as (n & k & r & s & Ek & Hk & R1 & R2 & R3 & R4 & R5). exists (S n), k, r, s. split; [exact Ek|]. repeat (split; [assumption|]). split; [|exact R5].
    intros [|i] Hi; [exact NB|]. apply (R4 i). clear - Hi. lia. }
  destruct (Z.ltb_spec c q) as [Cq|Cq]; cbn [negb]. 2: { apply Rec. intros (X & _). clear - X Cq. lia. }
  rewrite Z.mod_small by (clear - C0 Cq; lia). destruct (Z.eqb_spec c 0) as [|Cn]. { apply Rec. intros (X & _). clear - X e. lia. }
  destruct (Z.eqb_spec (powm g c p mod q) 0) as [|Rn]. { apply Rec. apply r_zero_bad. exact e. }
  pose proof (step_cases b c ltac:(clear - C0 Cq Cn; lia)) as SC. cbv zeta in SC. destruct (invert ((c * b) mod q) q) as [ki|]; [|discriminate].
  set (r := powm g c p mod q) in *. set (s := (((r * ((x * b) mod q) + (m * b) mod q) mod q) * ki) mod q) in *. destruct SC as (S1 & S2 & S3).
  destruct (Z.eqb_spec s 0) as [|Sn]. { apply Rec. apply S3. right. exact e. }
  assert (Rs : 0 <= s < q) by (destruct S1 as (_ & S1 & _); exact S1). pose proof (q_octs q ltac:(clear - Hq; lia)) as QO.
  assert (W : forall v, 0 <= v < q -> 0 <= v < 256 ^ Z.of_nat (octs q)) by (set (W := 256 ^ _) in *; clearbody W; clear - QO; intros v Hv; lia).
  rewrite export_rs_ok by (apply W; assumption). intros E. injection E as <-. exists 0%nat, c, r, s. split; [reflexivity|]. split; [clear - C0 Cq Cn; lia|]. split; [exact S1|]. split; [clear - S2 Rn; lia|]. split; [clear - Rs Sn; lia|].
  split; [intros i Hi; clear - Hi; lia|reflexivity].
Qed.

Lemma loop_complete n : prime q -> forall blinds d st, Forall (fun b => 0 <= b < q) blinds -> hd_inv SHA256 st d -> good_nonce p q g x m (rfc_candidate SHA256 q n st) -> (n < nz blinds)%nat ->
  exists sig, sign_loop blinds d k0 m (octs q) = Ok sig.
Proof.
  intros Pq. induction n as [n IHn] using lt_wf_ind. induction blinds as [|b blinds IH]; intros d st F HI G L; [unfold nz in L; cbn in L; clear - L; lia|].
  apply Forall_cons_iff in F. destruct F as [Hb F]. cbn [sign_loop]. cbv zeta. fold p q g x.
  destruct (Z.eqb_spec b 0) as [E0|Hb0]. { apply (IH d st F HI G). subst b. exact L. }
  assert (L' : (n <= nz blinds)%nat). { unfold nz in L. cbn [filter] in L. rewrite (proj2 (Z.eqb_neq b 0) Hb0) in L. cbn [negb length] in L. unfold nz. clear - L. lia. }
  destruct (draw SHA256 st d q ltac:(clear - Hq; lia) HI) as (o & d' & D1 & D2 & D3). rewrite D1, D2.
  destruct (round_range SHA256 q st ltac:(clear - Hq; lia) (proj1 HI)) as (C0 & _).
  set (c := fst (rfc_round SHA256 q st)) in *.
  assert (Rec : ~ good_nonce p q g x m c -> exists sig, sign_loop blinds d' k0 m (octs q) = Ok sig).
  { intros NB. destruct n as [|n]; [contradiction (NB G)|]. apply (IHn n ltac:(clear; lia) blinds d' _ F D3 G). clear - L'. lia. }
  destruct (Z.ltb_spec c q) as [Cq|Cq]; cbn [negb]. 2: { apply Rec. intros (X & _). clear - X Cq. lia. }
  rewrite Z.mod_small by (clear - C0 Cq; lia). destruct (Z.eqb_spec c 0) as [|Cn]. { apply Rec. intros (X & _). clear - X e. lia. }
  destruct (Z.eqb_spec (powm g c p mod q) 0) as [|Rn]. { apply Rec. apply r_zero_bad. exact e. }
  pose proof (step_cases b c ltac:(clear - C0 Cq Cn; lia)) as SC. cbv zeta in SC. destruct (invert ((c * b) mod q) q) as [ki|].
  2: { exfalso. apply SC. rewrite Z.gcd_mod by (clear - Hq; lia). apply Zgcd_1_rel_prime. apply prime_rel_prime; [exact Pq|]. intros D. apply prime_mult in D; [|exact Pq].
       destruct D as [D|D]; apply Z.divide_pos_le in D; clear - D Cq Cn C0 Hb Hb0; lia. }
  set (r := powm g c p mod q) in *. set (s := (((r * ((x * b) mod q) + (m * b) mod q) mod q) * ki) mod q) in *. destruct SC as (S1 & S2 & S3).
  destruct (Z.eqb_spec s 0) as [|Sn]. { apply Rec. apply S3. right. exact e. }
  assert (Rs : 0 <= s < q) by (destruct S1 as (_ & S1 & _); exact S1). pose proof (q_octs q ltac:(clear - Hq; lia)) as QO.
  assert (W : forall v, 0 <= v < q -> 0 <= v < 256 ^ Z.of_nat (octs q)) by (set (W := 256 ^ _) in *; clearbody W; clear - QO; intros v Hv; lia).
  rewrite export_rs_ok by (apply W; assumption). eexists. reflexivity.
Qed.
End Loop.

(* the RFC 6979 stream of a key and a message *)
Definition nonce_state (k : dsa_priv) (m : Z) : list Z * list Z :=
  let q := gq (xg k) in rfc_init SHA256 (be_bytes (octs q) (xx k)) (be_bytes (octs q) m).

Lemma sign_reduces msg key k blinds : bytes msg -> bytes key -> dsa_priv_import key = Some k -> dsa_priv_is_sane k = true ->
  exists d, let q := gq (xg k) in let m := bits2int q msg mod q in hd_inv SHA256 (nonce_state k m) d /\ dsa_sign msg key blinds = sign_loop blinds d k m (octs q).
Proof.
  intros Bm Bk EI ES. unfold dsa_sign. rewrite EI, ES. cbn [negb]. cbv zeta. destruct (dpriv_canonical key k Bk EI) as (_ & (_ & (Q0 & _) & _) & _ & (X0 & _)).
  apply priv_sane_iff in ES; try assumption. destruct ES as (ES & HX). pose proof (sane_facts _ _ _ (proj1 ES)) as (P1 & Q1 & Q2 & O1 & O2). cbn [pg dsa_pub_roset_priv] in *.
  set (q := gq (xg k)) in *. rewrite dsa_reduce_spec by (try assumption; clear - Q1; lia). set (m := bits2int q msg mod q).
  pose proof (Z.mod_pos_bound (bits2int q msg) q ltac:(clear - Q1; lia)) as Hm. fold m in Hm. pose proof (q_octs q ltac:(clear - Q1; lia)) as QO.
  rewrite bytelen_octs by (clear - Q1; lia). rewrite !export_ok by (clear - Hm HX QO; lia). rewrite Nat2Z.id.
  destruct (hd_init SHA256 (be_bytes (octs q) (xx k) ++ be_bytes (octs q) m)) as (d & D1 & D2).
  { split; [apply bytes_app; split; apply be_bytes_bytes|]. rewrite app_length, !be_bytes_length. unfold M64. clear - O1. lia. }
  rewrite D1. exists d. split; [|reflexivity]. rewrite rfc_init_eq in D2; [exact D2|].
  intros E. apply (f_equal (@length Z)) in E. rewrite app_length, !be_bytes_length in E. cbn in E. clear - E O2. lia.
Qed.

Theorem sign_spec msg key k blinds sig : bytes msg -> bytes key -> dsa_priv_import key = Some k -> dsa_sign msg key blinds = Ok sig ->
  sane_priv k /\ let p := gp (xg k) in let q := gq (xg k) in let g := gg (xg k) in let m := bits2int q msg mod q in
  exists n r s, let c := fun i => rfc_candidate SHA256 q i (nonce_state k m) in
    0 < c n < q /\ dsa_signs p q g (xx k) m (c n) r s /\ 0 < r < q /\ 0 < s < q /\
    (forall i, (i < n)%nat -> ~ good_nonce p q g (xx k) m (c i)) /\ sig = be_bytes (octs q) r ++ be_bytes (octs q) s.
Proof.
  intros Bm Bk EI. destruct (dsa_priv_is_sane k) eqn:ES.
  2: { unfold dsa_sign. rewrite EI, ES. discriminate. }
  destruct (sign_reduces msg key k blinds Bm Bk EI ES) as (d & HI & E). rewrite E. clear E. intros E.
  destruct (dpriv_canonical key k Bk EI) as (_ & (_ & (Q0 & _) & _) & _ & (X0 & _)).
  apply priv_sane_iff in ES; try assumption. split; [exact ES|]. destruct ES as (ES & HX). pose proof (sane_facts _ _ _ (proj1 ES)) as (P1 & Q1 & Q2 & O1 & O2). cbn [pg dsa_pub_roset_priv] in *.
  cbv zeta. destruct (loop_sound k _ P1 Q1 blinds d _ sig HI E) as (n & c & r & s & -> & A1 & A2 & A3 & A4 & A5 & A6). exists n, r, s. auto 10.
Qed.
Theorem sign_succeeds msg key k blinds n : bytes msg -> bytes key -> dsa_priv_import key = Some k -> sane_priv k -> prime (gq (xg k)) ->
  Forall (fun b => 0 <= b < gq (xg k)) blinds -> (n < nz blinds)%nat ->
  (let q := gq (xg k) in let m := bits2int q msg mod q in good_nonce (gp (xg k)) q (gg (xg k)) (xx k) m (rfc_candidate SHA256 q n (nonce_state k m))) ->
  exists sig, dsa_sign msg key blinds = Ok sig.
Proof.
  intros Bm Bk EI SP Pq F L G. destruct (dpriv_canonical key k Bk EI) as (_ & (_ & (Q0 & _) & _) & _ & (X0 & _)).
  pose proof (sane_facts _ _ _ (proj1 (proj1 SP))) as (P1 & Q1 & Q2 & O1 & O2). cbn [pg dsa_pub_roset_priv] in *.
  assert (ES : dsa_priv_is_sane k = true) by (apply priv_sane_iff; assumption).
  destruct (sign_reduces msg key k blinds Bm Bk EI ES) as (d & HI & E). rewrite E. cbv zeta in G. apply (loop_complete k _ P1 Q1 n Pq blinds d _ F HI G L).
Qed.

(* ---- keys ---- *)
Lemma priv_big k : sane_priv k -> big_group (xg k) /\ big (xy k) /\ big (xx k).
Proof.
  intros ((SG & HY) & HX). cbn [pg py dsa_pub_roset_priv] in *. destruct (sane_big _ _ _ SG) as (P & Q & G). pose proof (sane_facts _ _ _ SG) as F. unfold big_group.
  split; [tauto|]. unfold big in *. split; [destruct P as [P1 P2]; set (M := 256 ^ 2048) in *; clearbody M; clear - P2 HY; lia|destruct Q as [Q1 Q2]; set (M := 256 ^ 2048) in *; clearbody M; clear - Q2 HX; lia].
Qed.
Lemma pub_big k : sane_pub k -> big_group (pg k) /\ big (py k).
Proof.
  intros (SG & HY). destruct (sane_big _ _ _ SG) as (P & Q & G). unfold big_group. split; [tauto|]. unfold big in *. destruct P as [P1 P2]; set (M := 256 ^ 2048) in *; clearbody M; clear - P2 HY; lia.
Qed.
Lemma pubkey_create_iff key pub : bytes key -> (dsa_pubkey_create key = Some pub <-> exists k, dsa_priv_import key = Some k /\ sane_priv k /\ dsa_pub_export (dsa_pub_roset_priv k) = Some pub).
Proof.
  intros Bk. unfold dsa_pubkey_create. destruct (dsa_priv_import key) as [k|] eqn:EI; cbn [obind]; [|split; [discriminate|intros (k & X & _); discriminate]].
  destruct (dpriv_canonical key k Bk EI) as (_ & (_ & (Q0 & _) & _) & _ & (X0 & _)).
  pose proof (priv_sane_iff k Q0 X0) as PS. destruct (dsa_priv_is_sane k); cbn [negb].
  - split; [intros E; exists k; split; [reflexivity|]; split; [apply PS; reflexivity|exact E]|intros (k' & E1 & _ & E2); apply some_inj in E1; subst k'; exact E2].
  - split; [discriminate|]. intros (k' & E1 & S' & _). apply some_inj in E1. subst k'. apply PS in S'. discriminate.
Qed.
Lemma pubkey_imports key pub : bytes key -> dsa_pubkey_create key = Some pub -> exists k, dsa_priv_import key = Some k /\ sane_priv k /\ bytes pub /\ dsa_pub_import pub = Some (dsa_pub_roset_priv k).
Proof.
  intros Bk E. apply pubkey_create_iff in E; [|exact Bk]. destruct E as (k & EI & SP & EE). exists k. split; [exact EI|]. split; [exact SP|].
  destruct (pub_big _ (proj1 SP)) as [B1 B2]. destruct (pub_roundtrip _ B1 B2) as (bs & W & B & R). rewrite EE in W. apply some_inj in W. subst bs. split; assumption.
Qed.

Theorem sign_verify msg key k blinds sig pub : bytes msg -> bytes key -> dsa_priv_import key = Some k -> good_priv k -> prime (gq (xg k)) ->
  dsa_sign msg key blinds = Ok sig -> dsa_pubkey_create key = Some pub -> dsa_verify msg sig pub = true.
Proof.
  intros Bm Bk EI (SP & (SG & GO) & GY) Pq E EP. destruct (sign_spec msg key k blinds sig Bm Bk EI E) as (_ & n & r & s & C & Sg & R & S & _ & ->).
  destruct (pubkey_imports key pub Bk EP) as (k' & EI' & _ & Bp & IP). rewrite EI in EI'. apply some_inj in EI'. subst k'.
  pose proof (sane_facts _ _ _ SG) as (P1 & Q1 & Q2 & O1 & O2).
  apply verify_iff; try assumption. { apply bytes_app; split; apply be_bytes_bytes. }
  exists (dsa_pub_roset_priv k), (be_bytes (octs (gq (xg k))) r), (be_bytes (octs (gq (xg k))) s). cbn [pg py dsa_pub_roset_priv]. rewrite !be_bytes_length.
  split; [exact IP|]. split; [apply SP|]. do 3 (split; [reflexivity|]).
  set (q := gq (xg k)) in *. set (m := bits2int q msg mod q) in *. pose proof (q_octs q ltac:(clear - Q1; lia)) as QO. rewrite !be_val_be_bytes. rewrite !Z.mod_small by (clear - R S QO; lia).
  destruct Sg as (Sr & _ & Ss). split; [exact R|]. split; [exact S|].
  pose proof (invert_spec s q Q1) as I. destruct (invert s q) as [w|].
  - destruct I as (_ & W1 & W2). exists w. split; [exact W1|]. split; [exact W2|]. rewrite <- GY.
    rewrite (sign_core _ q _ (xx k) m _ r s w P1 Q1 GO ltac:(apply Z.lt_le_incl; apply C) ltac:(destruct SP as (_ & X); clear - X; lia) Ss W2). symmetry. exact Sr.
  - exfalso. apply I. apply Zgcd_1_rel_prime. apply rel_prime_sym. apply prime_rel_prime; [exact Pq|]. intros D. apply Z.divide_pos_le in D; clear - D S; lia.
Qed.

(* ---- key agreement ---- *)
Theorem derive_spec pub priv out : bytes pub -> bytes priv -> (dsa_derive pub priv = Some out <->
  exists k1 k2, dsa_pub_import pub = Some k1 /\ dsa_priv_import priv = Some k2 /\ pg k1 = xg k2 /\ sane_priv k2 /\ good_pub k1 /\
    out = be_bytes (octs (gp (pg k1))) ((py k1 ^ xx k2) mod gp (pg k1))).
Proof.
  intros B1 B2. unfold dsa_derive. destruct (dsa_pub_import pub) as [k1|] eqn:E1; cbn [obind]; [|split; [discriminate|intros (k1 & k2 & X & _); discriminate]].
  destruct (dsa_priv_import priv) as [k2|] eqn:E2; cbn [obind]; [|split; [discriminate|intros (k1' & k2 & _ & X & _); discriminate]].
  destruct (dpriv_canonical priv k2 B2 E2) as (_ & (_ & (Q2 & _) & _) & _ & (X2 & _)). destruct (pub_canonical pub k1 B1 E1) as (_ & (_ & (Q1 & _) & _) & _).
  assert (EG : negb (gp (pg k1) =? gp (xg k2)) || negb (gq (pg k1) =? gq (xg k2)) || negb (gg (pg k1) =? gg (xg k2)) = false <-> pg k1 = xg k2).
  { destruct (pg k1) as [a b c], (xg k2) as [a' b' c']. cbn [gp gq gg]. rewrite !orb_false_iff, !negb_false_iff, !Z.eqb_eq. split; [intros ((-> & ->) & ->); reflexivity|intros E; injection E as -> -> ->; auto]. }
  destruct (negb (gp (pg k1) =? gp (xg k2)) || negb (gq (pg k1) =? gq (xg k2)) || negb (gg (pg k1) =? gg (xg k2))).
  { split; [discriminate|]. intros (k1' & k2' & A & B & C & _). apply some_inj in A, B. subst. apply EG in C. discriminate. }
  assert (EG' := proj1 EG eq_refl). clear EG. pose proof (priv_sane_iff k2 Q2 X2) as PS. pose proof (pub_verify_iff k1 Q1) as PV.
  destruct (dsa_priv_is_sane k2); cbn [negb]. 2: { split; [discriminate|]. intros (k1' & k2' & A & B & C & D & _). apply some_inj in A, B. subst. apply PS in D. discriminate. }
  destruct (dsa_pub_verify k1); cbn [negb]. 2: { split; [discriminate|]. intros (k1' & k2' & A & B & C & D & D' & _). apply some_inj in A, B. subst. apply PV in D'. discriminate. }
  assert (D := proj1 PS eq_refl). assert (D' := proj1 PV eq_refl). pose proof (sane_facts _ _ _ (proj1 (proj1 D'))) as (P1 & _).
  rewrite powm_eq by (clear - P1; lia). rewrite bytelen_octs by (clear - P1; lia).
  pose proof (Z.mod_pos_bound (py k1 ^ xx k2) (gp (pg k1)) ltac:(clear - P1; lia)) as R. pose proof (q_octs (gp (pg k1)) ltac:(clear - P1; lia)) as PO.
  rewrite export_ok. 2: { set (W := 256 ^ _) in *. set (v := _ mod _) in *. clearbody W v. clear - R PO. lia. }
  split.
  - intros E. apply some_inj in E. subst out. exists k1, k2. auto 10.
  - intros (k1' & k2' & A & B & _ & _ & _ & ->). apply some_inj in A, B. subst. reflexivity.
Qed.
Theorem derive_agree ka kb a b puba pubb : bytes ka -> bytes kb -> dsa_priv_import ka = Some a -> dsa_priv_import kb = Some b -> good_priv a -> good_priv b -> xg a = xg b ->
  dsa_pubkey_create ka = Some puba -> dsa_pubkey_create kb = Some pubb -> exists s, dsa_derive puba kb = Some s /\ dsa_derive pubb ka = Some s.
Proof.
  intros Ba Bb Ia Ib Ga Gb EG Pa Pb.
  destruct (pubkey_imports ka puba Ba Pa) as (a' & Ia' & _ & Bpa & Ipa). rewrite Ia in Ia'. apply some_inj in Ia'. subst a'.
  destruct (pubkey_imports kb pubb Bb Pb) as (b' & Ib' & _ & Bpb & Ipb). rewrite Ib in Ib'. apply some_inj in Ib'. subst b'.
  assert (GP : forall k, good_priv k -> good_pub (dsa_pub_roset_priv k)).
  { intros k G. pose proof G as (S & _). assert (Q : 0 <= gq (xg k)) by (destruct S as ((S & _) & _); destruct S as (_ & _ & S & _); cbn [pg dsa_pub_roset_priv] in S; clear - S; lia).
    assert (X : 0 <= xx k) by (destruct S as (_ & S); clear - S; lia). apply (proj2 (priv_verify_iff k Q X)) in G. unfold dsa_priv_verify in G. apply andb_true_iff in G. destruct G as [G _]. apply andb_true_iff in G. destruct G as [_ G].
    apply pub_verify_iff; [exact Q|exact G]. }
  pose proof (GP a Ga) as GPa. pose proof (GP b Gb) as GPb. destruct Ga as (Sa & _ & Ya). destruct Gb as (Sb & _ & Yb).
  pose proof (sane_facts _ _ _ (proj1 (proj1 Sa))) as (P1 & _). cbn [pg dsa_pub_roset_priv] in P1.
  exists (be_bytes (octs (gp (xg a))) ((gg (xg a) ^ (xx a * xx b)) mod gp (xg a))).
  assert (Xa : 0 <= xx a) by (destruct Sa as (_ & S); clear - S; lia). assert (Xb : 0 <= xx b) by (destruct Sb as (_ & S); clear - S; lia).
  split; apply derive_spec; try assumption.
  - exists (dsa_pub_roset_priv a), b. cbn [pg py dsa_pub_roset_priv]. repeat (split; [assumption|]). rewrite <- Ya. rewrite <- Zpow_facts.Zpower_mod by (clear - P1; lia). rewrite Z.pow_mul_r by assumption. reflexivity.
  - exists (dsa_pub_roset_priv b), a. cbn [pg py dsa_pub_roset_priv]. repeat (split; [solve [assumption|symmetry; assumption]|]). rewrite <- Yb, <- EG. rewrite <- Zpow_facts.Zpower_mod by (clear - P1; lia). rewrite (Z.mul_comm (xx a)), Z.pow_mul_r by assumption. reflexivity.
Qed.

(* ---- generation ---- *)
(* the order of p - 1 is not odd *)
Lemma minus_one_odd p q y : 2 < p -> 0 < q -> Z.odd q = true -> (y ^ q) mod p = 1 -> y <> p - 1.
Proof.
  intros P1 Q0 Oq Y0 E0. assert (X : (y ^ q) mod p = (-1) mod p).
  { rewrite E0. rewrite Zpow_facts.Zpower_mod by (clear - P1; lia). replace ((p - 1) mod p) with ((-1) mod p). 2: { replace (p - 1) with (-1 + 1 * p) by ring. rewrite Z.mod_add by (clear - P1; lia). reflexivity. }
    rewrite <- Zpow_facts.Zpower_mod by (clear - P1; lia). f_equal. apply Z.odd_spec in Oq. destruct Oq as (c & ->). rewrite Z.pow_add_r by (clear - Q0; lia). rewrite Z.pow_mul_r by (clear - Q0; lia). change ((-1) ^ 2) with 1. rewrite Z.pow_1_l by (clear - Q0; lia). reflexivity. }
  rewrite Y0 in X. replace (-1) with (p - 1 + (-1) * p) in X by ring. rewrite Z.mod_add, Z.mod_small in X by (clear - P1; lia). clear - X P1. lia.
Qed.
Lemma create_good g draws k : good_group (gp g) (gq g) (gg g) -> prime (gp g) -> prime (gq g) -> Forall (fun x => 0 <= x < gq g) draws -> dsa_priv_create g draws = Ok k -> good_priv k /\ xg k = g.
Proof.
  intros GG Pp Pq F. unfold dsa_priv_create. destruct (first_nonzero draws) as [x|] eqn:E; [|discriminate]. intros X. injection X as <-. pose proof GG as (SG & GO).
  pose proof (sane_facts _ _ _ SG) as (P1 & Q1 & _). assert (HX : 0 < x < gq g).
  { revert E. induction F as [|a l Ha F IH]; cbn [first_nonzero]; [discriminate|]. destruct (Z.eqb_spec a 0); [exact IH|]. intros E. apply some_inj in E. subst a. clear - n Ha. lia. }
  split; [|reflexivity]. unfold good_priv, sane_priv, sane_pub. cbn [xg xy xx pg py dsa_pub_roset_priv]. rewrite powm_eq by (clear - P1; lia).
  split; [|split; [exact GG|reflexivity]]. split; [|exact HX]. split; [exact SG|].
  destruct g as [p q g]. cbn [gp gq gg] in *. pose proof (Z.mod_pos_bound (g ^ x) p ltac:(clear - P1; lia)) as R. set (y := (g ^ x) mod p) in *.
  assert (Y0 : (y ^ q) mod p = 1).
  { unfold y. rewrite <- Zpow_facts.Zpower_mod by (clear - P1; lia). rewrite <- Z.pow_mul_r by (clear - HX; lia). rewrite Z.mul_comm, Z.pow_mul_r by (clear - HX; lia).
    rewrite Zpow_facts.Zpower_mod by (clear - P1; lia). rewrite GO, Z.pow_1_l by (clear - HX; lia). apply Z.mod_small. clear - P1. lia. }
  destruct SG as (_ & _ & Q0 & (G1 & G2) & Op & Oq).
  assert (N0 : y <> 0). { intros E0. rewrite E0, Z.pow_0_l in Y0 by exact Q0. rewrite Z.mod_0_l in Y0 by (clear - P1; lia). discriminate. }
  assert (N2 : y <> p - 1) by (apply (minus_one_odd p q); try assumption; clear - G1 G2; lia).
  assert (N1 : y <> 1).
  { intros E1. assert (RP : rel_prime x q). { apply rel_prime_sym. apply prime_rel_prime; [exact Pq|]. intros D. apply Z.divide_pos_le in D; clear - D HX; lia. }
    destruct (rel_prime_bezout x q RP) as [u v UV].
    assert (GA : forall n, 0 <= n -> (g ^ (x * n)) mod p = 1). { intros n Hn. rewrite Z.pow_mul_r by (clear - HX Hn; lia). rewrite Zpow_facts.Zpower_mod by (clear - P1; lia). fold y. rewrite E1, Z.pow_1_l by exact Hn. apply Z.mod_small. clear - P1. lia. }
    assert (E2 : (g ^ 1) mod p = (g ^ (x * (u mod q))) mod p).
    { pose proof (Z.mod_pos_bound u q ltac:(clear - Q0; lia)) as U. apply (ord_exp p q); try assumption; [clear; lia|apply Z.mul_nonneg_nonneg; [clear - HX; lia|apply U]|].
      apply eqm_trans with (x * u). - replace 1 with (x * u + v * q) by (rewrite <- UV; ring). unfold eqm. rewrite Z.mod_add by (clear - Q0; lia). reflexivity. - apply eqm_mul; [apply eqm_refl|apply eqm_sym; apply eqm_mod]. }
    rewrite GA in E2 by (apply Z.mod_pos_bound; clear - Q0; lia). rewrite Z.pow_1_r, Z.mod_small in E2 by (clear - G1 G2; lia). clear - E2 G1. lia. }
  clear - R N0 N1 N2. lia.
Qed.

Lemma lor_bit x n : 0 <= n -> 0 <= x < 2 ^ n -> Z.lor x (2 ^ (n - 1)) < 2 ^ n /\ (1 <= n -> 2 ^ (n - 1) <= Z.lor x (2 ^ (n - 1))).
Proof.
  intros Hn Hx. assert (N : forall k, 0 <= k -> 0 <= 2 ^ k) by (intros; apply Z.pow_nonneg; lia).
  assert (L : 0 <= Z.lor x (2 ^ (n - 1))) by (apply Z.lor_nonneg; split; [lia|apply Z.pow_nonneg; lia]). split.
  - destruct (Z.eq_dec (Z.lor x (2 ^ (n - 1))) 0) as [->|NE]; [apply Z.pow_pos_nonneg; lia|]. apply Z.log2_lt_pow2; [lia|]. rewrite Z.log2_lor by (try lia; apply Z.pow_nonneg; lia).
    apply Z.max_lub_lt.
    + destruct (Z.eq_dec x 0) as [->|]; [|apply Z.log2_lt_pow2; lia]. change (Z.log2 0) with 0. destruct (Z.eq_dec n 0) as [->|]; [|lia]. exfalso. apply NE. reflexivity.
    + destruct (Z.eq_dec n 0) as [->|]; [|rewrite Z.log2_pow2; lia]. exfalso. apply NE. assert (x = 0) by (change (2 ^ 0) with 1 in Hx; lia). subst. reflexivity.
  - intros H1. apply Z.ldiff_le; [exact L|]. apply Z.bits_inj'. intros i Hi. rewrite Z.ldiff_spec, Z.lor_spec, Z.bits_0. destruct (Z.testbit (2 ^ (n - 1)) i), (Z.testbit x i); reflexivity.
Qed.

Section Gen.
Variable isprime : Z -> bool.
(* the test errs neither way on odd numbers *)
Hypothesis isprime_ok : forall n, isprime n = true -> prime n.

Lemma find_p_ok L q raw p : 2 <= q -> find_p isprime L q raw = Some p -> prime p /\ (q | p - 1) /\ L <= mpz_bitlen p <= DSA_MAX_BITS.
Proof.
  intros Hq. induction raw as [|a raw IH]; cbn [find_p]; [discriminate|]. cbv zeta. set (w := Z.lor (Z.lor a 1) (2 ^ (L - 1))). set (p' := w - (w mod q - 1)).
  destruct (Z.ltb_spec (mpz_bitlen p') L); cbn [orb]; [exact IH|]. destruct (Z.ltb_spec DSA_MAX_BITS (mpz_bitlen p')); [exact IH|]. destruct (isprime p') eqn:E; cbn [negb]; [|exact IH].
  intros X. apply some_inj in X. subst p. split; [apply isprime_ok; exact E|]. split; [|split; assumption]. unfold p'. exists (w / q). pose proof (Z.div_mod w q ltac:(lia)). lia.
Qed.
Lemma find_pq_ok L N raw p q : 2 <= N -> Forall (fun r => 0 <= fst r < 2 ^ N) raw -> find_pq isprime L N raw = Some (q, p) ->
  prime q /\ prime p /\ (q | p - 1) /\ L <= mpz_bitlen p <= DSA_MAX_BITS /\ blen q = N /\ Z.odd q = true.
Proof.
  intros HN. induction raw as [|[a ps] raw IH]; cbn [find_pq]; [discriminate|]. intros F. apply Forall_cons_iff in F. destruct F as [Ha F]. cbn [fst] in Ha. cbv zeta. set (w := Z.lor (Z.lor a 1) (2 ^ (N - 1))).
  destruct (isprime w) eqn:E; cbn [negb]; [|apply IH; exact F]. apply isprime_ok in E. assert (W2 : 2 <= w) by (apply prime_ge_2; exact E).
  destruct (find_p isprime L w _) as [p'|] eqn:EP; [|apply IH; exact F]. intros X. apply some_inj in X. apply pair_equal_spec in X. destruct X as [<- <-].
  apply find_p_ok in EP; [|exact W2]. destruct EP as (P1 & P2 & P3). split; [exact E|]. split; [exact P1|]. split; [exact P2|]. split; [exact P3|].
  assert (A1 : 0 <= Z.lor a 1 < 2 ^ N).
  { split; [apply Z.lor_nonneg; lia|]. apply Z.log2_lt_pow2; [|rewrite Z.log2_lor by lia; apply Z.max_lub_lt].
    - assert (Z.testbit (Z.lor a 1) 0 = true) by (rewrite Z.lor_spec; change (Z.testbit 1 0) with true; apply orb_true_r). assert (0 <= Z.lor a 1) by (apply Z.lor_nonneg; lia). destruct (Z.eq_dec (Z.lor a 1) 0) as [Z0|]; [rewrite Z0 in H; discriminate|lia].
    - destruct (Z.eq_dec a 0) as [->|]; [cbn; lia|apply Z.log2_lt_pow2; lia].
    - cbn. lia. }
  destruct (lor_bit (Z.lor a 1) N ltac:(lia) A1) as [B1 B2]. specialize (B2 ltac:(lia)). fold w in B1, B2. split.
  - unfold blen. assert (Z.log2 w = N - 1); [|lia]. apply Z.log2_unique; [lia|]. split; [exact B2|]. replace (Z.succ (N - 1)) with N by lia. exact B1.
  - rewrite <- Z.bit0_odd. unfold w. rewrite !Z.lor_spec. change (Z.testbit 1 0) with true. rewrite orb_true_r. reflexivity.
Qed.
Lemma find_g_ok fuel : forall h e p g, 1 < p -> find_g fuel h e p = Some g -> exists h', h <= h' < h + Z.of_nat fuel /\ g = (h' ^ e) mod p /\ g <> 1.
Proof.
  induction fuel as [|fuel IH]; intros h e p g Hp; cbn [find_g]; [discriminate|]. cbv zeta. destruct (Z.eqb_spec (powm h e p) 1).
  - intros E. destruct (IH (h + 1) e p g Hp E) as (h' & A & B). exists h'. split; [lia|exact B].
  - intros E. apply some_inj in E. subst g. exists h. rewrite powm_eq in * by lia. split; [lia|]. split; [reflexivity|assumption].
Qed.
(* generated parameters are good; h < p holds as long as the search ends before p *)
Theorem generate_good bits raw fuel g : Forall (fun r => 0 <= fst r < 2 ^ 256) raw -> (bits < 2048 -> Forall (fun r => 0 <= fst r < 2 ^ 160) raw) -> Z.of_nat fuel < 2 ^ 512 ->
  dsa_group_generate isprime bits raw fuel = Ok g ->
  prime (gp g) /\ prime (gq g) /\ (gq g | gp g - 1) /\ bits <= mpz_bitlen (gp g) /\ good_group (gp g) (gq g) (gg g).
Proof.
  intros F1 F2 Hf. unfold dsa_group_generate. cbv zeta. set (N := if bits <? 2048 then 160 else 256).
  destruct (negb _ && _ && _ && _) eqn:EB; [discriminate|].
  assert (HB : (bits = 1024 /\ N = 160) \/ ((bits = 2048 \/ bits = 3072) /\ N = 256)).
  { unfold N in EB |- *. clear N F1 F2 Hf. destruct (Z.eqb_spec bits 1024) as [->|]; [left; split; reflexivity|]. destruct (Z.eqb_spec bits 2048) as [->|]; [right; split; [left; reflexivity|reflexivity]|].
    destruct (Z.eqb_spec bits 3072) as [->|]; [right; split; [right; reflexivity|reflexivity]|]. cbn in EB. discriminate. }
  destruct (find_pq isprime bits N raw) as [[q p]|] eqn:EPQ; [|discriminate].
  assert (HN : 2 <= N) by (clear - HB; lia).
  assert (F : Forall (fun r => 0 <= fst r < 2 ^ N) raw) by (destruct HB as [[Hb ->]|[Hb ->]]; [apply F2; clear - Hb; lia|exact F1]).
  destruct (find_pq_ok bits N raw p q HN F EPQ) as (Pq & Pp & D & BL & BQ & OQ).
  destruct (find_g fuel 2 ((p - 1) / q) p) as [g'|] eqn:EG; [|discriminate]. intros X. injection X as <-. cbn [gp gq gg].
  pose proof (prime_ge_2 p Pp) as P2. pose proof (prime_ge_2 q Pq) as Q2.
  destruct (find_g_ok fuel 2 _ p g' ltac:(clear - P2; lia) EG) as (h & Hh & Eg & G1).
  split; [exact Pp|]. split; [exact Pq|]. split; [exact D|]. split; [apply BL|].
  assert (P511 : 2 ^ 511 <= p). { apply Z.ltb_ge. change 511 with (512 - 1). rewrite <- bitlen_lt by (clear - P2; lia). apply Z.ltb_ge. clear - BL HB. lia. }
  assert (P1023 : 2 ^ 1023 <= p). { apply Z.ltb_ge. change 1023 with (1024 - 1). rewrite <- bitlen_lt by (clear - P2; lia). apply Z.ltb_ge. clear - BL HB. lia. }
  assert (P10000 : p < 2 ^ 10000). { apply Z.leb_gt. rewrite <- bitlen_gt by (clear - P2; lia). apply Z.ltb_ge. unfold DSA_MAX_BITS in BL. clear - BL. lia. }
  assert (PB : 2 ^ 512 + 2 < 2 ^ 1023). { apply Z.lt_trans with (2 ^ 512 + 2 ^ 512); [apply Z.add_lt_mono_l; change 2 with (2 ^ 1) at 1; apply Z.pow_lt_mono_r; clear; lia|].
    replace (2 ^ 512 + 2 ^ 512) with (2 ^ 513) by (change 513 with (Z.succ 512); rewrite Z.pow_succ_r by (clear; lia); clear; lia). apply Z.pow_lt_mono_r; clear; lia. }
  assert (Hhp : h < p). { set (A := 2 ^ 512) in *. set (B := 2 ^ 1023) in *. clearbody A B. clear - Hh Hf PB P1023. lia. }
  assert (P8 : 8 < p). { eapply Z.lt_le_trans; [|exact P511]. change 8 with (2 ^ 3). apply Z.pow_lt_mono_r; clear; lia. }
  clear P1023 PB Hf.
  assert (ED : p - 1 = (p - 1) / q * q). { destruct D as (c & Ec). rewrite Ec at 2. rewrite Z.div_mul by (clear - Q2; lia). exact Ec. }
  assert (E0 : 0 <= (p - 1) / q) by (apply Z.div_pos; clear - P8 Q2; lia).
  assert (GQ : (g' ^ q) mod p = 1).
  { rewrite Eg, <- Zpow_facts.Zpower_mod by (clear - P8; lia). rewrite <- Z.pow_mul_r by (try exact E0; clear - Q2; lia). rewrite <- ED. apply fermat; [exact Pp|]. rewrite Z.mod_small by (clear - Hh Hhp; lia). clear - Hh. lia. }
  split; [|exact GQ]. pose proof (Z.mod_pos_bound (h ^ ((p - 1) / q)) p ltac:(clear - P8; lia)) as R. rewrite <- Eg in R.
  assert (N0 : g' <> 0). { intros Z0. rewrite Z0, Z.pow_0_l in GQ by (clear - Q2; lia). rewrite Z.mod_0_l in GQ by (clear - P8; lia). discriminate. }
  assert (N2 : g' <> p - 1) by (apply (minus_one_odd p q); try assumption; clear - P8 Q2; lia).
  split; [split; assumption|]. split; [clear - BQ HB; lia|]. split; [clear - Q2; lia|]. split; [clear - R N0 N2 G1; lia|]. split; [|exact OQ].
  rewrite <- Z.negb_even. destruct (Z.even p) eqn:EV; [|reflexivity]. apply Z.even_spec in EV. destruct EV as (c & Ec).
  assert (D2 : (2 | p)) by (exists c; rewrite Ec; ring). apply prime_divisors in D2; [|exact Pp]. clear - D2 P8. lia.
Qed.
End Gen.

(* ---- conversion of signatures, import of keys ---- *)
Lemma qsize_big n x : (n <= 32)%nat -> 0 <= x < 256 ^ Z.of_nat n -> big x.
Proof. intros Hn [H0 H]. split; [exact H0|]. eapply Z.lt_le_trans; [exact H|]. apply Z.pow_le_mono_r; lia. Qed.
Lemma sig_sane r s n : (n <= 32)%nat -> 0 <= r < 256 ^ Z.of_nat n -> 0 <= s < 256 ^ Z.of_nat n -> dsa_sig_is_sane r s = true.
Proof.
  intros Hn R S. unfold dsa_sig_is_sane, DSA_MAX_QSIZE. pose proof (bytelen_le r n (proj1 R) (proj2 R)). pose proof (bytelen_le s n (proj1 S) (proj2 S)). apply andb_true_iff. split; apply Z.leb_le; lia.
Qed.
Theorem sig_export_import sig n : bytes sig -> (0 < n <= 32)%nat -> length sig = (2 * n)%nat -> exists der, dsa_sig_export sig n = Some der /\ bytes der /\ dsa_sig_import der n = Some sig.
Proof.
  intros B Hn L. set (a := firstn n sig). set (b := skipn n sig). assert (E : sig = a ++ b) by (symmetry; apply firstn_skipn).
  assert (La : length a = n) by (apply firstn_length_le; lia). assert (Lb : length b = n) by (unfold b; rewrite skipn_length; lia). clearbody a b. subst sig. apply bytes_app in B. destruct B as [Ba Bb].
  pose proof (be_val_range a Ba) as Ra. pose proof (be_val_range b Bb) as Rb. rewrite La in Ra. rewrite Lb in Rb.
  unfold dsa_sig_export, DSA_MAX_QSIZE. rewrite L. rewrite (proj2 (Z.ltb_ge (32 * 2) _)) by lia. rewrite (proj2 (Z.ltb_ge 32 (Z.of_nat n))) by lia. rewrite andb_false_r.
  rewrite import_rs_ok by (try assumption; lia). cbn [obind]. rewrite (sig_sane _ _ n) by (try assumption; lia). cbn [negb].
  destruct (fields_roundtrip false [be_val a; be_val b] ltac:(cbn; lia)) as (der & W & Bd & R). { apply Forall_cons; [apply (qsize_big n); [lia|exact Ra]|]. apply Forall_cons; [apply (qsize_big n); [lia|exact Rb]|]. apply Forall_nil. }
  exists der. split; [exact W|]. split; [exact Bd|]. unfold dsa_sig_import. cbn [length] in R. rewrite R. cbn [obind]. rewrite (sig_sane _ _ n) by (try assumption; lia). cbn [negb].
  rewrite export_rs_ok by assumption. replace (be_bytes n (be_val a)) with a by (rewrite <- La; symmetry; apply be_bytes_be_val; exact Ba). replace (be_bytes n (be_val b)) with b by (rewrite <- Lb; symmetry; apply be_bytes_be_val; exact Bb). reflexivity.
Qed.
Theorem sig_import_export der n sig : bytes der -> (0 < n <= 32)%nat -> dsa_sig_import der n = Some sig -> dsa_sig_export sig n = Some der.
Proof.
  intros B Hn. unfold dsa_sig_import. destruct (read_fields false 2 der) as [l|] eqn:E; [|discriminate]. cbn [obind].
  destruct (fields_canonical false 2 der l ltac:(lia) B E) as (L & F & W). destruct l as [|r [|s [|]]]; try discriminate. rewrite !Forall_cons_iff in F. destruct F as ((R0 & _) & (S0 & _) & _).
  destruct (dsa_sig_is_sane r s) eqn:SS; [|discriminate]. cbn [negb]. unfold dsa_sig_export_rs. cbv zeta. destruct (Z.ltb_spec (Z.of_nat n) (mpz_bytelen r)) as [|Lr]; [discriminate|]. destruct (Z.ltb_spec (Z.of_nat n) (mpz_bytelen s)) as [|Ls]; [discriminate|]. cbn [orb].
  assert (X : forall v, 0 <= v -> mpz_bytelen v <= Z.of_nat n -> 0 <= v < 256 ^ Z.of_nat n).
  { clear. intros v H0 H. split; [exact H0|]. apply Z.ltb_lt. change 256 with (2 ^ 8). rewrite <- Z.pow_mul_r by lia. rewrite <- bitlen_le by lia. apply Z.leb_le. unfold mpz_bytelen in H.
    pose proof (Z.div_mod (mpz_bitlen v + 7) 8 ltac:(lia)). pose proof (Z.mod_pos_bound (mpz_bitlen v + 7) 8 ltac:(lia)). lia. }
  pose proof (X r R0 Lr) as Xr. pose proof (X s S0 Ls) as Xs. rewrite !export_ok by assumption. cbn [obind]. intros Y. apply some_inj in Y. subst sig.
  unfold dsa_sig_export, DSA_MAX_QSIZE. rewrite app_length, !be_bytes_length. rewrite (proj2 (Z.ltb_ge (32 * 2) _)) by lia. rewrite (proj2 (Z.ltb_ge 32 (Z.of_nat n))) by lia. rewrite andb_false_r.
  rewrite import_rs_ok by (try apply be_bytes_length; lia). cbn [obind]. rewrite !be_val_be_bytes, !Z.mod_small by assumption. rewrite SS. cbn [negb]. exact W.
Qed.
Lemma read_dumb_nonneg data n rest : bytes data -> asn1_read_dumb data = ROk n rest -> 0 <= n /\ bytes rest.
Proof.
  intros B. unfold asn1_read_dumb. destruct (length data <? 2)%nat; [discriminate|]. destruct (peek data 0); [|discriminate]. destruct (peek data 1); [|discriminate]. cbv zeta.
  assert (B2 : bytes (skipn 2 data)) by (apply bytes_skipn; exact B). set (d := skipn 2 data) in *. set (sz := Z.lor _ _). clearbody d sz. destruct (Z.of_nat (length d) <? sz); [discriminate|].
  unfold take. destruct (_ <? _); [discriminate|]. intros E. injection E as <- <-. split; [apply be_val_range; apply bytes_firstn; exact B2|apply bytes_skipn; exact B2].
Qed.
Lemma read_dumbs_nonneg cnt : forall data l rest, bytes data -> read_dumbs cnt data = Some (l, rest) -> Forall (fun x => 0 <= x) l.
Proof.
  induction cnt as [|cnt IH]; intros data l rest B; cbn [read_dumbs]; [intros E; apply some_inj in E; apply pair_equal_spec in E; destruct E as [<- _]; constructor|].
  destruct (asn1_read_dumb data) as [n r| |] eqn:E; try discriminate. cbn [rbind]. destruct (read_dumb_nonneg data n r B E) as [H0 Br].
  destruct (read_dumbs cnt r) as [[l' r']|] eqn:E2; [|discriminate]. cbn [obind]. intros X. apply some_inj in X. apply pair_equal_spec in X. destruct X as [<- _]. apply Forall_cons; [exact H0|apply (IH r l' r' Br E2)].
Qed.
(* an imported key is sane; a missing y is computed *)
Theorem privkey_import_spec key out : bytes key -> dsa_privkey_import key = Some out ->
  exists k0 k, dsa_priv_import_dumb key = Some k0 /\ dsa_priv_import out = Some k /\ xg k = xg k0 /\ xx k = xx k0 /\ 0 < xx k < gq (xg k) /\ sane_group (gp (xg k)) (gq (xg k)) (gg (xg k)) /\
    (if xy k0 =? 0 then xy k = (gg (xg k) ^ xx k) mod gp (xg k) else xy k = xy k0 /\ sane_priv k).
Proof.
  intros Bk. unfold dsa_privkey_import. destruct (dsa_priv_import_dumb key) as [k0|] eqn:E0; [|discriminate]. cbn [obind]. intros E.
  assert (NN : 0 <= gq (xg k0) /\ 0 <= xx k0).
  { unfold dsa_priv_import_dumb in E0. destruct (read_dumbs 5 key) as [[l r]|] eqn:ER; [|discriminate]. cbn [obind] in E0. apply read_dumbs_nonneg in ER; [|exact Bk].
    destruct l as [|a [|b [|c [|d [|e [|]]]]]]; try discriminate. apply some_inj in E0. subst k0. rewrite !Forall_cons_iff in ER. cbn [xg gq xx]. tauto. }
  destruct NN as [Q0 X0].
  destruct (Z.eqb_spec (xy k0) 0) as [EY|NY].
  - unfold dsa_priv_recover in E. pose proof (group_sane_iff _ Q0) as GS. destruct (dsa_group_is_sane (xg k0)); [|discriminate]. cbn [negb] in E. assert (SG := proj1 GS eq_refl).
    destruct (Z.eqb_spec (xx k0) 0); [discriminate|]. destruct (Z.leb_spec (gq (xg k0)) (xx k0)); [discriminate|]. cbn [obind] in E.
    pose proof (sane_facts _ _ _ SG) as (P1 & Q1 & _). rewrite powm_eq in E by (clear - P1; lia). destruct (sane_big _ _ _ SG) as (BP & BQ & BG).
    set (k := MkDPriv (xg k0) ((gg (xg k0) ^ xx k0) mod gp (xg k0)) (xx k0)) in *. pose proof (Z.mod_pos_bound (gg (xg k0) ^ xx k0) (gp (xg k0)) ltac:(clear - P1; lia)) as R.
    destruct (dpriv_roundtrip k) as (bs & W & _ & RT).
    { repeat split; try apply BP; try apply BQ; try apply BG. }
    { split; [apply R|]. eapply Z.lt_trans; [apply R|apply BP]. }
    { split; [exact X0|]. eapply Z.lt_trans; [eassumption|apply BQ]. }
    rewrite W in E. apply some_inj in E. subst bs. exists k0, k. split; [reflexivity|]. split; [exact RT|]. cbn [xg xx xy k]. split; [reflexivity|]. split; [reflexivity|]. split; [clear - X0 n H; lia|]. split; [exact SG|]. rewrite EY. exact eq_refl.
  - pose proof (priv_sane_iff k0 Q0 X0) as PS. destruct (dsa_priv_is_sane k0); [|discriminate]. cbn [obind] in E. assert (SP := proj1 PS eq_refl). destruct (priv_big k0 SP) as (B1 & B2 & B3).
    destruct (dpriv_roundtrip k0 B1 B2 B3) as (bs & W & _ & RT). rewrite W in E. apply some_inj in E. subst bs. exists k0, k0. split; [reflexivity|]. split; [exact RT|]. split; [reflexivity|]. split; [reflexivity|].
    split; [apply SP|]. split; [apply (proj1 (proj1 SP))|]. rewrite (proj2 (Z.eqb_neq _ _) NY). split; [reflexivity|exact SP].
Qed.
