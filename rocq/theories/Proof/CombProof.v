(* Factorials, binomial coefficients, Fibonacci and Lucas numbers. *)
From Coq Require Import Factorial.
From Verif.Base Require Import Prelude.
From Verif.Model Require Import Encoding MpnMod NumTheory Primes.
From Verif.Proof Require Import NumGcd NumInv NumRoot.

(* the definitions the code is compared with *)
Fixpoint binom (n k : nat) : Z := match n, k with _, O => 1 | O, S _ => 0 | S n, S k => binom n k + binom n (S k) end.
Fixpoint fib (n : nat) : Z := match n with O => 0 | S O => 1 | S (S m as p) => fib m + fib p end.
Fixpoint luc (n : nat) : Z := match n with O => 2 | S O => 1 | S (S m as p) => luc m + luc p end.
(* n (n - m) (n - 2m) ... over the positive terms *)
Fixpoint mfact (fuel : nat) (n m : Z) : Z := match fuel with O => 1 | S f => if n <=? 0 then 1 else n * mfact f (n - m) m end.

Lemma mfac_loop_spec m : 0 < m -> forall f n z, 0 < n <= Z.of_nat f -> mfac_loop f n m z * n = z * mfact f n m.
Proof.
  intros Hm. induction f as [|f IH]; intros n z Hn; [lia|]. cbn [mfac_loop mfact]. destruct (Z.leb_spec n 0) as [L|_]; [lia|].
  destruct (Z.ltb_spec m n) as [L|L].
  - pose proof (IH (n - m) (z * (n - m)) ltac:(lia)) as I. set (A := mfac_loop f (n - m) m (z * (n - m))) in *. set (B := mfact f (n - m) m) in *.
    assert (E : A = z * B). { apply (Z.mul_reg_r _ _ (n - m)); [lia|]. rewrite I. ring. } rewrite E. ring.
  - assert (E : mfact f (n - m) m = 1) by (destruct f; cbn [mfact]; [reflexivity|]; destruct (Z.leb_spec (n - m) 0); [reflexivity|lia]). rewrite E. ring.
Qed.
Lemma mpz_mfac_spec n m : 0 <= n -> 0 < m -> mpz_mfac n m = mfact (Z.to_nat n) n m.
Proof.
  intros Hn Hm. unfold mpz_mfac. destruct (Z.eqb_spec n 0) as [->|N]; [reflexivity|]. destruct (Z.eqb_spec m 0) as [e|_]; [lia|].
  apply (Z.mul_reg_r _ _ n); [lia|]. rewrite mfac_loop_spec by lia. ring.
Qed.
Lemma mfact_1 : forall f n, (n <= f)%nat -> mfact f (Z.of_nat n) 1 = Z.of_nat (fact n).
Proof.
  induction f as [|f IH]; intros n Hn; [assert (n = 0)%nat as -> by lia; reflexivity|]. cbn [mfact]. destruct n as [|n]; [reflexivity|].
  destruct (Z.leb_spec (Z.of_nat (S n)) 0) as [L|_]; [lia|]. replace (Z.of_nat (S n) - 1) with (Z.of_nat n) by lia. rewrite IH by lia.
  change (fact (S n)) with (S n * fact n)%nat. rewrite Nat2Z.inj_mul. reflexivity.
Qed.

Lemma binom_0 n : binom n 0 = 1. Proof. destruct n; reflexivity. Qed.
Lemma binom_gt : forall n k, (n < k)%nat -> binom n k = 0.
Proof. induction n as [|n IH]; intros [|k] H; try lia; cbn [binom]; [reflexivity|]. rewrite !IH by lia. reflexivity. Qed.
Lemma binom_step : forall n k, (k <= n)%nat -> Z.of_nat (S k) * binom n (S k) = Z.of_nat (n - k) * binom n k.
Proof.
  induction n as [|n IH]; intros k Hk; [assert (k = 0)%nat as -> by lia; reflexivity|].
  destruct k as [|k].
  - cbn [binom]. rewrite binom_0. destruct n as [|n]; [reflexivity|]. pose proof (IH 0%nat ltac:(lia)) as I. rewrite binom_0 in I. lia.
  - change (binom (S n) (S (S k))) with (binom n (S k) + binom n (S (S k))). change (binom (S n) (S k)) with (binom n k + binom n (S k)).
    pose proof (IH k ltac:(lia)) as I1. destruct (Nat.eq_dec n k) as [e|ne].
    + subst n. rewrite !(binom_gt k (S k)), !(binom_gt k (S (S k))) by lia. replace (S k - S k)%nat with 0%nat by lia. lia.
    + pose proof (IH (S k) ltac:(lia)) as I2. replace (S n - S k)%nat with (n - k)%nat by lia. replace (Z.of_nat (n - S k)) with (Z.of_nat (n - k) - 1) in I2 by lia.
      rewrite !Nat2Z.inj_succ in *. unfold Z.succ in *. rewrite !Z.mul_add_distr_l. lia.
Qed.
Lemma binom_sym : forall n k, (k <= n)%nat -> binom n k = binom n (n - k).
Proof.
  induction n as [|n IH]; intros k Hk; [assert (k = 0)%nat as -> by lia; reflexivity|].
  destruct k as [|k]; [rewrite binom_0; replace (S n - 0)%nat with (S n) by lia; clear; induction n as [|n IHn]; [reflexivity|]; cbn [binom] in *; rewrite (binom_gt n (S (S n))) by lia; rewrite (binom_gt n (S n)) in * by lia; lia|].
  destruct (Nat.eq_dec k n) as [e|ne].
  - subst k. replace (S n - S n)%nat with 0%nat by lia. cbn [binom]. rewrite (binom_gt n (S n)) by lia. rewrite (IH n) by lia. replace (n - n)%nat with 0%nat by lia. rewrite !binom_0. reflexivity.
  - replace (S n - S k)%nat with (S (n - S k)) by lia. cbn [binom]. rewrite (IH k), (IH (S k)) by lia. replace (n - k)%nat with (S (n - S k)) by lia. lia.
Qed.
Lemma bin_loop_spec n : forall k i, (i + k <= n)%nat -> bin_loop k (Z.of_nat i) (Z.of_nat (n - i)) (binom n i) = binom n (i + k).
Proof.
  induction k as [|k IH]; intros i Hi; cbn [bin_loop]; [f_equal; lia|].
  assert (E : Z.quot (binom n i * Z.of_nat (n - i)) (Z.of_nat i + 1) = binom n (S i)).
  { replace (Z.of_nat i + 1) with (Z.of_nat (S i)) by lia. rewrite Z.mul_comm, <- binom_step by lia. rewrite Z.mul_comm. apply Z.quot_mul. lia. }
  rewrite E. replace (Z.of_nat i + 1) with (Z.of_nat (S i)) by lia. replace (Z.of_nat (n - i) - 1) with (Z.of_nat (n - S i)) by lia. rewrite IH by lia. f_equal. lia.
Qed.
Lemma mpz_bin_spec n k : mpz_bin (Z.of_nat n) (Z.of_nat k) = binom n k.
Proof.
  unfold mpz_bin. destruct (Z.ltb_spec (Z.of_nat n) 0) as [L|_]; [lia|]. destruct (Z.ltb_spec (Z.of_nat n) (Z.of_nat k)) as [L|L]; [symmetry; apply binom_gt; lia|].
  pose proof (bin_loop_spec n) as B. destruct (Z.ltb_spec (Z.of_nat n - Z.of_nat k) (Z.of_nat k)) as [L'|L'].
  - replace (Z.to_nat (Z.of_nat n - Z.of_nat k)) with (n - k)%nat by lia. specialize (B (n - k)%nat 0%nat ltac:(lia)). rewrite binom_0, Nat.sub_0_r in B. change (Z.of_nat 0) with 0 in B. rewrite B.
    cbn [Nat.add]. symmetry. apply binom_sym. lia.
  - rewrite Nat2Z.id. specialize (B k 0%nat ltac:(lia)). rewrite binom_0, Nat.sub_0_r in B. exact B.
Qed.
Lemma mpz_bin_neg n k : (0 < n)%nat -> mpz_bin (- Z.of_nat n) (Z.of_nat k) = (if Nat.odd k then -1 else 1) * binom (n + k - 1) k.
Proof.
  intros Hn. pose proof (mpz_bin_spec (n + k - 1) k) as B. unfold mpz_bin in *. destruct (Z.ltb_spec (Z.of_nat (n + k - 1)) 0) as [L|_]; [lia|].
  destruct (Z.ltb_spec (- Z.of_nat n) 0) as [_|L]; [|lia]. replace (- - Z.of_nat n + Z.of_nat k - 1) with (Z.of_nat (n + k - 1)) by lia.
  rewrite <- Z.negb_even. assert (Eo : negb (Z.even (Z.of_nat k)) = Nat.odd k).
  { rewrite Z.negb_even. destruct (Nat.odd k) eqn:O. apply Nat.odd_spec in O. destruct O as [h ->]. replace (Z.of_nat (2 * h + 1)) with (1 + 2 * Z.of_nat h) by lia. rewrite Z.odd_add_mul_2. reflexivity.
    assert (Ev : Nat.even k = true) by (rewrite <- Nat.negb_odd, O; reflexivity). apply Nat.even_spec in Ev. destruct Ev as [h ->]. replace (Z.of_nat (2 * h)) with (0 + 2 * Z.of_nat h) by lia. rewrite Z.odd_add_mul_2. reflexivity. }
  rewrite Eo. destruct (Z.ltb_spec (Z.of_nat (n + k - 1)) (Z.of_nat k)) as [L|L].
  - rewrite <- B. lia.
  - rewrite <- B. destruct (Nat.odd k); ring.
Qed.

Lemma fib_add : forall m n, fib (m + n + 1) = fib (m + 1) * fib (n + 1) + fib m * fib n.
Proof.
  assert (F2 : forall m, fib (m + 2) = fib m + fib (m + 1)) by (intros m; rewrite !Nat.add_succ_r, Nat.add_0_r; reflexivity).
  assert (K : forall m n, fib (m + n + 1) = fib (m + 1) * fib (n + 1) + fib m * fib n /\ fib (m + n + 2) = fib (m + 2) * fib (n + 1) + fib (m + 1) * fib n).
  { induction m as [|m IH]; intros n.
    - cbn [Nat.add]. split; [change (fib 1) with 1; change (fib 0) with 0; ring|]. rewrite F2. change (fib 2) with 1. change (fib 1) with 1. ring.
    - destruct (IH n) as [I1 I2]. replace (S m + n + 1)%nat with (m + n + 2)%nat by lia. replace (S m + 1)%nat with (m + 2)%nat by lia. replace (S m) with (m + 1)%nat by lia.
      split; [exact I2|]. replace (m + 1 + n + 2)%nat with (m + n + 1 + 2)%nat by lia. rewrite F2. replace (m + n + 1 + 1)%nat with (m + n + 2)%nat by lia. rewrite I1, I2.
      rewrite (F2 (m + 1)%nat). replace (m + 1 + 1)%nat with (m + 2)%nat by lia. rewrite (F2 m). ring. }
  intros m n. apply K.
Qed.
Lemma fib_SS m : fib (S (S m)) = fib m + fib (S m). Proof. reflexivity. Qed.
Lemma fib_double m : fib (2 * m) = fib m * (2 * fib (S m) - fib m) /\ fib (2 * m + 1) = fib m * fib m + fib (S m) * fib (S m).
Proof.
  split.
  - destruct m as [|m]; [reflexivity|]. pose proof (fib_add (S m) m) as A. replace (S m + m + 1)%nat with (2 * S m)%nat in A by lia. rewrite A.
    replace (S m + 1)%nat with (S (S m)) by lia. replace (m + 1)%nat with (S m) by lia. rewrite (fib_SS m). ring.
  - pose proof (fib_add m m) as A. replace (m + m + 1)%nat with (2 * m + 1)%nat in A by lia. rewrite A. replace (m + 1)%nat with (S m) by lia. ring.
Qed.
Lemma fib_loop n : 0 <= n -> forall b, fold_left (fib_step n) (rev (zseq 0 b)) (fib (Z.to_nat (n / 2 ^ Z.of_nat b)), fib (S (Z.to_nat (n / 2 ^ Z.of_nat b)))) = (fib (Z.to_nat n), fib (S (Z.to_nat n))).
Proof.
  intros Hn. assert (Z1 : forall s b, zseq s (S b) = zseq s b ++ [s + Z.of_nat b]).
  { intros s b. revert s. induction b as [|b IH]; intros s; [cbn; f_equal; lia|]. change (zseq s (S (S b))) with (s :: zseq (s + 1) (S b)). rewrite IH.
    change (zseq s (S b)) with (s :: zseq (s + 1) b). cbn [app]. do 3 f_equal. lia. }
  induction b as [|b IH]; [change (2 ^ Z.of_nat 0) with 1; rewrite Z.div_1_r; reflexivity|].
  rewrite Z1, rev_app_distr. cbn [rev app fold_left]. rewrite Z.add_0_l. rewrite <- IH. f_equal.
  unfold fib_step. set (m := n / 2 ^ Z.of_nat (S b)). assert (Hm : 0 <= m) by (apply Z.div_pos; [lia|]; apply Z.pow_pos_nonneg; lia).
  assert (Em : n / 2 ^ Z.of_nat b = 2 * m + Z.b2z (Z.testbit n (Z.of_nat b))).
  { unfold m. rewrite Nat2Z.inj_succ, Z.pow_succ_r by lia. rewrite (Z.mul_comm 2 (2 ^ Z.of_nat b)), <- Z.div_div by (try lia; apply Z.pow_pos_nonneg; lia).
    rewrite Z.testbit_spec' by lia. apply Z.div_mod. lia. }
  clearbody m. rewrite Em. destruct (fib_double (Z.to_nat m)) as [D1 D2].
  assert (C : fib (Z.to_nat m) * (fib (S (Z.to_nat m)) + fib (S (Z.to_nat m)) - fib (Z.to_nat m)) = fib (2 * Z.to_nat m)) by (rewrite D1; ring). rewrite C, <- D2.
  destruct (Z.testbit n (Z.of_nat b)); cbn [Z.b2z].
  - replace (Z.to_nat (2 * m + 1)) with (2 * Z.to_nat m + 1)%nat by lia. f_equal. replace (S (2 * Z.to_nat m + 1)) with (S (S (2 * Z.to_nat m))) by lia. rewrite fib_SS. do 2 f_equal. lia.
  - replace (Z.to_nat (2 * m + 0)) with (2 * Z.to_nat m)%nat by lia. f_equal. f_equal. lia.
Qed.
Lemma mpz_fib2_spec n : 0 < n -> mpz_fib2 n = (fib (Z.to_nat n), fib (Z.to_nat (n - 1))).
Proof.
  intros Hn. unfold mpz_fib2. destruct (Z.eqb_spec n 0) as [e|_]; [lia|]. pose proof (fib_loop (n - 1) ltac:(lia) (Z.to_nat (bitlen (n - 1)))) as F.
  assert (E : (n - 1) / 2 ^ Z.of_nat (Z.to_nat (bitlen (n - 1))) = 0).
  { apply Z.div_small. split; [lia|]. unfold bitlen. destruct (Z.eqb_spec (n - 1) 0) as [e|N]; [rewrite e; cbn; lia|]. rewrite Z.abs_eq by lia. pose proof (Z.log2_spec (n - 1) ltac:(lia)) as [_ L].
    pose proof (Z.log2_nonneg (n - 1)). rewrite Z2Nat.id by lia. exact L. }
  rewrite E in F. change (Z.to_nat 0) with 0%nat in F. change (fib 0) with 0 in F. change (fib 1) with 1 in F. rewrite F. f_equal. f_equal. lia.
Qed.
Lemma luc_fib : forall m, luc (S m) = fib (S m) + 2 * fib m /\ luc (S (S m)) = fib (S (S m)) + 2 * fib (S m).
Proof.
  induction m as [|m [I1 I2]]; [split; reflexivity|]. split; [exact I2|]. change (luc (S (S (S m)))) with (luc (S m) + luc (S (S m))). rewrite I1, I2.
  rewrite (fib_SS (S m)), (fib_SS m). ring.
Qed.
Lemma mpz_lucnum2_spec n : 0 < n -> mpz_lucnum2 n = (luc (Z.to_nat n), luc (Z.to_nat (n - 1))).
Proof.
  intros Hn. unfold mpz_lucnum2. destruct (Z.eqb_spec n 0) as [e|_]; [lia|]. rewrite mpz_fib2_spec by lia.
  destruct (Z.to_nat n) as [|m] eqn:Em; [lia|]. replace (Z.to_nat (n - 1)) with m by lia. destruct (luc_fib m) as [L _]. rewrite L. f_equal; [ring|].
  destruct m as [|m]; [reflexivity|]. destruct (luc_fib m) as [L' _]. rewrite L', fib_SS. ring.
Qed.
