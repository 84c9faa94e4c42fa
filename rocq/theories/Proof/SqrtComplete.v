(* mpz_sqrtm finds a root modulo every odd prime whenever there is one. *)
From Coq Require Import Znumtheory Zpow_facts.
From Verif.Base Require Import Prelude.
From Verif.Model Require Import Encoding MpnMod NumTheory Primes.
From Verif.Proof Require Import Cong Fermat NumGcd NumJacobi Reciprocity PrimesProof.
Section S.
Variable p : Z.
Hypothesis Hp : prime p.
Hypothesis O : Z.odd p = true.
Let p3 : 3 <= p := P3 p Hp O.
Lemma nonres_exists : exists n, 2 <= n < p /\ jsym n p = -1.
Proof.
  destruct (existsb (fun n => jsym n p =? -1) (zseq 2 (Z.to_nat (p - 2)))) eqn:E.
  - apply existsb_exists in E. destruct E as (n & I & E). apply zseq_in in I. apply Z.eqb_eq in E. exists n. split; [lia|exact E].
  - exfalso. pose proof (odd_half p O) as EH. assert (K : incl (zseq 1 (Z.to_nat (p - 1))) (map (fun k => (k * k) mod p) (hl p))).
    { intros x X. apply zseq_in in X. assert (J : jsym x p <> -1).
      { intros J. destruct (Z.eq_dec x 1) as [-> |N]; [apply (proj1 (proj2 (proj2 (jsym_prime p Hp O 1))) J 1); apply eqm_refl|].
        assert (T : existsb (fun n => jsym n p =? -1) (zseq 2 (Z.to_nat (p - 2))) = true); [|congruence]. apply existsb_exists. exists x. split; [apply zseq_in; lia|apply Z.eqb_eq; exact J]. }
      assert (C : Z.gcd x p = 1) by (rewrite Z.gcd_comm; apply Zgcd_1_rel_prime, prime_rel_prime; [exact Hp|intros D; apply Z.divide_pos_le in D; lia]).
      destruct (jsym_sign x p C) as [J1|J1]; [|contradiction]. apply (jsym_prime p Hp O) in J1. destruct J1 as (_ & z & Z0). apply in_map_iff. pose proof (Z.mod_pos_bound z p ltac:(lia)) as ZB.
      assert (NZ : z mod p <> 0). { intros Z1. assert (X0 : x ≡ 0 ⟦ p ⟧). { apply eqm_trans with (z * z); [apply eqm_sym; exact Z0|]. apply eqm_0; [lia|]. apply Z.divide_mul_l. apply Z.mod_divide; [lia|exact Z1]. } unfold eqm in X0. rewrite Z.mod_small, Z.mod_0_l in X0 by lia. lia. }
      assert (SQ : (z mod p * (z mod p)) mod p = x) by (rewrite <- Z.mul_mod by lia; unfold eqm in Z0; rewrite Z0; apply Z.mod_small; lia).
      destruct (Z.le_gt_cases (z mod p) (half p)) as [L|L].
      - exists (z mod p). split; [exact SQ|]. apply hl_in; lia.
      - exists (p - z mod p). split; [|apply hl_in; lia]. rewrite <- SQ. replace ((p - z mod p) * (p - z mod p)) with (z mod p * (z mod p) + (p - 2 * (z mod p)) * p) by ring. apply Z_mod_plus_full. }
    apply NoDup_incl_length in K; [|apply zseq_nodup]. rewrite map_length, zseq_length in K. pose proof (hl_len p ltac:(lia)). lia.
Qed.
Lemma jac_jsym x : 0 <= x -> jac x p = Some (jsym x p).
Proof. intros X. unfold jac. rewrite (mpz_jacobi_spec jsym jsym_laws x p O). replace (x <? 0) with false by (symmetry; apply Z.ltb_ge; exact X). cbn [andb]. rewrite Z.mul_1_l, Z.abs_eq by lia. reflexivity. Qed.
Lemma find_nonres nb : p <= Zpos nb -> exists n, until nb (nonres_step p) 2 = inr (Some n) /\ jsym n p = -1.
Proof.
  intros F. destruct nonres_exists as (N & NB & NJ).
  destruct (until_done (fun n => 2 <= n <= N) (fun r => match r with Some n => jsym n p = -1 | None => False end) (fun n => N - n) (nonres_step p)) with (p := nb) (s := 2) as (r & E & G).
  - intros n NN. unfold nonres_step. rewrite jac_jsym by lia. destruct (Z.eqb_spec (jsym n p) (-1)) as [E|E]; [exact E|]. assert (n <> N) by congruence. lia.
  - lia.
  - lia.
  - destruct r as [n|]; [|contradiction]. exists n. split; assumption.
Qed.
Lemma pm1 t : t * t ≡ 1 ⟦ p ⟧ -> t ≡ 1 ⟦ p ⟧ \/ t ≡ -1 ⟦ p ⟧.
Proof.
  intros E. apply eqm_iff in E; [|lia]. replace (t * t - 1) with ((t - 1) * (t - -1)) in E by ring. apply prime_mult in E; [|exact Hp]. destruct E as [E|E]; [left|right]; apply eqm_iff; (lia || exact E).
Qed.
Lemma pow2_S (a k : Z) : 0 <= k -> a ^ 2 ^ (k + 1) = a ^ 2 ^ k * a ^ 2 ^ k.
Proof. intros K. rewrite Z.pow_add_r by lia. change (2 ^ 1) with 2. replace (2 ^ k * 2) with (2 ^ k + 2 ^ k) by ring. apply Z.pow_add_r; apply Z.pow_nonneg; lia. Qed.
Lemma pow2_pow2 (a j k : Z) : 0 <= j -> 0 <= k -> (a ^ 2 ^ j) ^ 2 ^ k = a ^ 2 ^ (j + k).
Proof. intros J K. rewrite <- Z.pow_mul_r by (apply Z.pow_nonneg; lia). rewrite <- Z.pow_add_r by assumption. reflexivity. Qed.
Lemma eqm1_small t : 0 <= t < p -> t ≡ 1 ⟦ p ⟧ -> t = 1.
Proof. intros T E. apply (eqm_small p); [exact T|lia|exact E]. Qed.
(* the order loop *)
Lemma order_ok ob b k : 0 <= b < p -> 1 <= k < Zpos ob -> b ^ 2 ^ (k - 1) ≡ 1 ⟦ p ⟧ ->
  exists m, until ob (order_step p) (b, 0) = inr m /\ 0 <= m < k /\ b ^ 2 ^ m ≡ 1 ⟦ p ⟧ /\ (0 < m -> b ^ 2 ^ (m - 1) ≡ -1 ⟦ p ⟧).
Proof.
  intros B K E. apply (until_done (fun s : Z * Z => let '(t, i) := s in 0 <= i < k /\ 0 <= t < p /\ t ≡ b ^ 2 ^ i ⟦ p ⟧ /\ (0 < i -> ~ b ^ 2 ^ (i - 1) ≡ 1 ⟦ p ⟧))
    (fun m => 0 <= m < k /\ b ^ 2 ^ m ≡ 1 ⟦ p ⟧ /\ (0 < m -> b ^ 2 ^ (m - 1) ≡ -1 ⟦ p ⟧)) (fun s => k - snd s) (order_step p)).
  - intros [t i] (I & T & TE & M). cbn [snd]. unfold order_step. destruct (Z.eqb_spec t 1) as [T1|T1].
    + subst t. split; [exact I|]. split; [apply eqm_sym; exact TE|]. intros I0. destruct (pm1 (b ^ 2 ^ (i - 1))) as [C|C]; [|destruct (M I0 C)|exact C].
      rewrite <- pow2_S by lia. replace (i - 1 + 1) with i by lia. apply eqm_sym. exact TE.
    + assert (NI : ~ b ^ 2 ^ i ≡ 1 ⟦ p ⟧) by (intros C; apply T1, eqm1_small; [exact T|exact (eqm_trans _ _ _ _ TE C)]).
      assert (i <> k - 1) by (intros ->; contradiction). cbn [snd]. split; [|lia]. split; [lia|]. split; [apply Z.mod_pos_bound; lia|]. split.
      * apply eqm_trans with (t * t); [apply eqm_mod|]. rewrite pow2_S by lia. apply eqm_mul; exact TE.
      * intros _. replace (i + 1 - 1) with i by lia. exact NI.
  - split; [lia|]. split; [exact B|]. split; [change (2 ^ 0) with 1; rewrite Z.pow_1_r; apply eqm_refl|lia].
  - cbn [snd]. lia.
Qed.
Lemma sqrs_eqm g : forall n, sqrs p (Z.of_nat n) g ≡ g ^ 2 ^ Z.of_nat n ⟦ p ⟧.
Proof.
  intros n. unfold sqrs. rewrite Nat2Z.id. induction n as [|n IH]; [change (2 ^ Z.of_nat 0) with 1; rewrite Z.pow_1_r; apply eqm_refl|]. rewrite Nat2Z.inj_succ. unfold Z.succ. rewrite pow2_S by lia.
  change (Nat.iter (S n) (fun t => (t * t) mod p) g) with ((Nat.iter n (fun t => (t * t) mod p) g * Nat.iter n (fun t => (t * t) mod p) g) mod p). eapply eqm_trans; [apply eqm_mod|]. apply eqm_mul; exact IH.
Qed.
Definition tinv (e : Z) (s : Z * Z * Z * Z) : Prop := let '(y, b, g, k) := s in 1 <= k <= e /\ 0 <= b < p /\ b ^ 2 ^ (k - 1) ≡ 1 ⟦ p ⟧ /\ g ^ 2 ^ (k - 1) ≡ -1 ⟦ p ⟧.
Lemma ts_done e ob s n : tinv e s -> e < Zpos ob -> e < Zpos n -> exists z, until n (ts_step p ob) s = inr (Some (Some z)).
Proof.
  intros I OB NB. destruct (until_done (tinv e) (fun r => exists z, r = Some (Some z)) (fun s => snd s) (ts_step p ob)) with (p := n) (s := s) as (r & E & z & ->).
  - intros [[[y b] g] k] (K & B & B1 & G1). cbn [snd]. unfold ts_step. destruct (order_ok ob b k B ltac:(lia) B1) as (m & -> & M & BM & BN). destruct (Z.eqb_spec m 0) as [_|M0]; [exists y; reflexivity|].
    replace (k <=? m) with false by (symmetry; apply Z.leb_gt; lia). pose proof (sqrs_eqm g (Z.to_nat (k - m - 1))) as T. rewrite Z2Nat.id in T by lia. set (t := sqrs p (k - m - 1) g) in *. cbv zeta. cbn [snd].
    split; [|lia]. assert (G' : (t * t) mod p ≡ g ^ 2 ^ (k - m) ⟦ p ⟧). { eapply eqm_trans; [apply eqm_mod|]. replace (k - m) with (k - m - 1 + 1) by lia. rewrite pow2_S by lia. apply eqm_mul; exact T. }
    assert (G2 : ((t * t) mod p) ^ 2 ^ (m - 1) ≡ -1 ⟦ p ⟧). { eapply eqm_trans; [apply eqm_pow; exact G'|]. rewrite pow2_pow2 by lia. replace (k - m + (m - 1)) with (k - 1) by lia. exact G1. }
    unfold tinv. split; [lia|]. split; [apply Z.mod_pos_bound; lia|]. split; [|exact G2].
    eapply eqm_trans; [apply eqm_pow, eqm_mod|]. rewrite Z.pow_mul_l. change 1 with (-1 * -1). apply eqm_mul; [apply BN; lia|exact G2].
  - exact I.
  - destruct s as [[[y b] g] k]. destruct I as (K & _). cbn [snd]. lia.
  - exists z. exact E.
Qed.
Lemma sqrtm_0_complete nb ob x : 0 <= x < p -> jsym x p <> -1 -> p <= Zpos nb -> p <= Zpos ob -> exists z, sqrtm_0 nb ob x p = Some (Some z).
Proof.
  intros X J NB OB. unfold sqrtm_0. replace (p =? 1) with false by (symmetry; apply Z.eqb_neq; lia). rewrite jac_jsym by lia. rewrite (proj2 (Z.eqb_neq _ _) J). destruct (Z.eqb_spec (jsym x p) 0) as [J0|J0]; [exists 0; reflexivity|].
  assert (J1 : jsym x p = 1). { destruct (Z.eq_dec (Z.gcd x p) 1) as [C|C]; [destruct (jsym_sign x p C); [assumption|contradiction]|rewrite jsym_zero in J0 by exact C; contradiction]. }
  destruct (find_nonres nb NB) as (n & -> & NJ). destruct (oddp_spec (p - 1) ltac:(lia)) as (Eo & Oo & Po). pose proof (ctz_nonneg (p - 1)) as Nc. change (Z.shiftr (p - 1) (ctz (p - 1))) with (oddp (p - 1)). set (e := ctz (p - 1)) in *. set (o := oddp (p - 1)) in *. cbv zeta.
  assert (E1 : 1 <= e). { destruct (Z.eq_dec e 0) as [E0|]; [|lia]. rewrite E0 in Eo. change (2 ^ 0) with 1 in Eo. rewrite Z.mul_1_l in Eo. rewrite <- Eo, Z.odd_sub, O in Oo. discriminate Oo. }
  assert (HH : half p = 2 ^ (e - 1) * o). { pose proof (odd_half p O) as EH. assert (2 ^ e = 2 * 2 ^ (e - 1)) as E2 by (rewrite <- Z.pow_succ_r by lia; f_equal; lia). rewrite E2 in Eo. clear - EH Eo. lia. }
  assert (PW : forall a, (Zpow_mod a o p) ^ 2 ^ (e - 1) ≡ jsym a p ⟦ p ⟧). { intros a. rewrite Zpow_mod_correct by lia. eapply eqm_trans; [apply eqm_pow, eqm_mod|]. rewrite <- Z.pow_mul_r by (try apply Z.pow_nonneg; lia). rewrite (Z.mul_comm o), <- HH. exact (gauss p a Hp O). }
  assert (EP : e < p). { assert (0 < 2 ^ e) by (apply Z.pow_pos_nonneg; lia). pose proof (Z.pow_gt_lin_r 2 e ltac:(lia) ltac:(lia)). assert (LE : 2 ^ e <= 2 ^ e * o) by nia. rewrite <- Eo in LE. lia. }
  destruct (ts_done e ob (Zpow_mod x (Z.shiftr (o + 1) 1) p, Zpow_mod x o p, Zpow_mod n o p, e) (Z.to_pos (e + 1))) as (z & E).
  - unfold tinv. split; [lia|]. split; [rewrite Zpow_mod_correct by lia; apply Z.mod_pos_bound; lia|]. pose proof (PW x) as PX. pose proof (PW n) as PN. rewrite J1 in PX. rewrite NJ in PN. split; assumption.
  - lia.
  - rewrite Z2Pos.id; lia.
  - rewrite E. exists z. reflexivity.
Qed.
Lemma sqrtm_5_complete x : p mod 8 = 5 -> 0 <= x < p -> jsym x p <> -1 -> exists z, sqrtm_5mod8 x p = Some z.
Proof.
  intros M X J. unfold sqrtm_5mod8. cbv zeta. set (t := (2 * x) mod p). assert (SH : Z.shiftr p 3 = (p - 5) / 8). { rewrite Z.shiftr_div_pow2 by lia. change (2 ^ 3) with 8. pose proof (Z.div_mod p 8 ltac:(lia)) as D. rewrite M in D. replace (p - 5) with (p / 8 * 8) by lia. rewrite Z.div_mul; lia. }
  rewrite SH. assert (Q : p = 8 * ((p - 5) / 8) + 5). { pose proof (Z.div_mod p 8 ltac:(lia)) as D. rewrite M in D. replace (p - 5) with (p / 8 * 8) by lia. rewrite Z.div_mul by lia. lia. } set (q := (p - 5) / 8) in *. clearbody q.
  assert (Q0 : 0 <= q) by lia. set (a := Zpow_mod t q p). match goal with |- exists z, (if (?b0 * ?b0) mod p =? _ then _ else _) = _ => set (r := b0) end. assert (R : (r * r) mod p = x); [|rewrite R, Z.eqb_refl; exists r; reflexivity].
  assert (A : a ≡ t ^ q ⟦ p ⟧) by (unfold a; rewrite Zpow_mod_correct by lia; apply eqm_mod). assert (T : t ≡ 2 * x ⟦ p ⟧) by apply eqm_mod.
  set (b := ((a * a) mod p * t) mod p). assert (B : b ≡ a * a * t ⟦ p ⟧). { unfold b. eapply eqm_trans; [apply eqm_mod|]. apply eqm_mul; [apply eqm_mod|apply eqm_refl]. }
  assert (RE : r ≡ (b - 1) * x * a ⟦ p ⟧). { unfold r. eapply eqm_trans; [apply eqm_mod|]. apply eqm_mul; [apply eqm_mod|apply eqm_refl]. }
  assert (G : r * r ≡ x ⟦ p ⟧); [|unfold eqm in G; rewrite G; apply Z.mod_small; exact X].
  eapply eqm_trans; [apply eqm_mul; exact RE|]. destruct (Z.eq_dec x 0) as [X0|NX]; [rewrite X0; replace ((b - 1) * 0 * a * ((b - 1) * 0 * a)) with 0 by ring; apply eqm_refl|].
  assert (Q2 : 0 <= 2 * q + 1) by (clear - Q0; lia). assert (QH : 2 * q + 1 + (2 * q + 1) = half p) by (pose proof (odd_half p O) as EH; clear - EH Q; lia).
  assert (B2 : b * b ≡ -1 ⟦ p ⟧).
  { assert (BT : b ≡ t ^ (2 * q + 1) ⟦ p ⟧). { eapply eqm_trans; [exact B|]. rewrite Z.pow_add_r, Z.pow_1_r by (clear - Q0; lia). apply eqm_mul; [|apply eqm_refl]. replace (2 * q) with (q + q) by (clear; lia). rewrite Z.pow_add_r by (clear - Q0; lia). apply eqm_mul; exact A. }
    eapply eqm_trans; [apply eqm_mul; exact BT|]. rewrite <- Z.pow_add_r by exact Q2. rewrite QH. eapply eqm_trans; [apply gauss; assumption|].
    unfold t. assert (pp : 0 < p) by (clear - p3; lia). rewrite jsym_mod, jsym_mul, jsym_2, M by (exact pp || exact O). cbn [Z.eqb orb]. change ((if (5 =? 1) || (5 =? 7) then 1 else -1)) with (-1). 
    assert (J1 : jsym x p = 1). { assert (C : Z.gcd x p = 1) by (rewrite Z.gcd_comm; apply Zgcd_1_rel_prime, prime_rel_prime; [exact Hp|intros D; apply Z.divide_pos_le in D; clear - D X NX; lia]). destruct (jsym_sign x p C); [assumption|contradiction]. }
    rewrite J1. apply eqm_refl. }
  (* ((b - 1) x a)^2 = (b^2 - 2 b + 1) x^2 a^2, b^2 = -1 and 2 x a^2 = b *)
  assert (BX : 2 * x * (a * a) ≡ b ⟦ p ⟧). { apply eqm_sym. eapply eqm_trans; [exact B|]. rewrite (Z.mul_comm (2 * x)). apply eqm_mul; [apply eqm_refl|exact T]. }
  assert (pp : 0 < p) by (clear - p3; lia). apply eqm_iff in B2; [|exact pp]. apply eqm_iff in BX; [|exact pp]. apply eqm_iff; [exact pp|]. destruct B2 as (u & B2). destruct BX as (v & BX).
  exists (u * x * x * a * a - b * x * v - x * u). replace ((u * x * x * a * a - b * x * v - x * u) * p) with ((u * p) * (x * x * a * a) - b * x * (v * p) - x * (u * p)) by ring. rewrite <- B2, <- BX. ring.
Qed.
Theorem sqrtm_complete nb ob x : p <= Zpos nb -> p <= Zpos ob -> (exists a, (a * a) mod p = x mod p) -> exists z, mpz_sqrtm nb ob x p = Some (Some z).
Proof.
  intros NB OB (a & A). destruct (Z.eq_dec (p mod 4) 3) as [M4|M4]; [exact (sqrtm_3mod4_complete nb ob x a p Hp M4 A)|].
  unfold mpz_sqrtm. replace ((p <=? 0) || Z.even p) with false by (symmetry; apply orb_false_iff; split; [apply Z.leb_gt; lia|rewrite <- Z.negb_odd, O; reflexivity]). cbv zeta. rewrite (proj2 (Z.eqb_neq _ _) M4).
  pose proof (Z.mod_pos_bound x p ltac:(lia)) as XB. assert (J : jsym (x mod p) p <> -1). { rewrite jsym_mod by lia. intros J. apply (proj1 (proj2 (proj2 (jsym_prime p Hp O x))) J a). exact A. }
  destruct (Z.eqb_spec (p mod 8) 5) as [M8|M8]; [destruct (sqrtm_5_complete (x mod p) M8 XB J) as (z & ->); exists z; reflexivity|apply sqrtm_0_complete; assumption].
Qed.
End S.
