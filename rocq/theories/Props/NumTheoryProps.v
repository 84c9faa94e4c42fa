(* C53 gcd, Bezout and inverses; C55 Jacobi symbols, roots and modular square roots; C73 primality tests on primes;
   C74 factorials, binomials, Fibonacci and Lucas numbers. *)
From Coq Require Import Znumtheory Factorial.
From Verif.Base Require Import Prelude.
From Verif.Model Require Import Encoding MpnMod NumTheory Primes.
From Verif.Proof Require Import NumGcd NumInv NumRoot NumJacobi PrimesProof CombProof Reciprocity SqrtComplete Lucas.

(* C53: mpz_gcd terminates with the greatest common divisor, for all signs and zero operands *)
Theorem C53_gcd : forall x y, mpz_gcd x y = Some (Z.gcd x y).
Proof. exact mpz_gcd_spec. Qed.
Theorem C53_lcm : forall x y, mpz_lcm x y = Some (Z.lcm x y).
Proof. exact mpz_lcm_spec. Qed.
(* C53: Bezout *)
Theorem C53_gcdext : forall x y, exists s t, mpz_gcdext x y = Some (Z.gcd x y, s, t) /\ s * x + t * y = Z.gcd x y.
Proof. exact mpz_gcdext_spec. Qed.
(* C53: an inverse is returned exactly when there is one, and it is the canonical one *)
Theorem C53_invert : forall x y, 1 < Z.abs y -> exists r, mpz_invert x y = Some r /\
  match r with
  | Some z => Z.gcd x y = 1 /\ 0 <= z < Z.abs y /\ (x * z) mod Z.abs y = 1 mod Z.abs y
  | None => Z.gcd x y <> 1
  end.
Proof. exact mpz_invert_spec. Qed.
(* C53: for the moduli 0, 1 and -1 the function always reports failure *)
Theorem C53_invert_small : forall x y, Z.abs y <= 1 -> mpz_invert x y = Some None.
Proof.
  intros x y H. unfold mpz_invert. destruct ((x =? 0) || (y =? 0)) eqn:C; [reflexivity|]. apply orb_false_iff in C. destruct C as [_ C]. apply Z.eqb_neq in C.
  destruct (Z.eqb_spec (Z.abs y) 1) as [E|N]; [reflexivity|lia].
Qed.
Example C53_ex : mpz_gcd (-252) 105 = Some 21 /\ mpz_lcm 4 (-6) = Some 12 /\ mpz_gcdext 0 (-5) = Some (5, 0, -1) /\ mpz_gcdext (-252) 105 = Some (21, -13, -31) /\
  mpz_invert 10 17 = Some (Some 12) /\ mpz_invert (-3) 10 = Some (Some 3) /\ mpz_invert 4 10 = Some None.
Proof. vm_compute. repeat split. Qed.

(* C55: the k-th root, truncated toward zero, with its remainder *)
Theorem C55_rootrem : forall x k, 1 <= k -> (0 <= x \/ Z.odd k = true) ->
  exists s, mpz_rootrem x k = Ok (Some (s, x - s ^ k)) /\ Z.abs s ^ k <= Z.abs x < (Z.abs s + 1) ^ k /\ 0 <= s * x.
Proof. intros x k Hk Hs. destruct (mpz_rootrem_spec x k Hk Hs) as (s & E & R). exists s. split; [exact E|]. exact R. Qed.
Theorem C55_rootrem_domain : forall x k, 0 <= k -> (mpz_rootrem x k = Abort <-> k = 0 \/ x < 0 /\ Z.even k = true).
Proof.
  intros x k Hk. unfold mpz_rootrem. destruct (Z.eqb_spec k 0) as [E|N]; [split; [intros _; left; exact E|reflexivity]|]. destruct (Z.ltb_spec x 0) as [L|L]; cbn [andb].
  - destruct (Z.even k) eqn:Ev; [split; [intros _; right; split; [exact L|reflexivity]|reflexivity]|]. split; [|intros [H|[_ H]]; [lia|discriminate]].
    destruct (Z.eqb_spec x 0); discriminate.
  - split; [destruct (Z.eqb_spec x 0); discriminate|]. intros [H|[H _]]; lia.
Qed.
Theorem C55_sqrtrem : forall x, 0 <= x -> mpz_sqrtrem x = Ok (Some (Z.sqrt x, x - Z.sqrt x * Z.sqrt x)).
Proof. exact mpz_sqrtrem_spec. Qed.
Theorem C55_perfect_square : forall x, exists b, mpz_perfect_square_p x = Some b /\ (b = true <-> exists s, x = s * s).
Proof. exact mpz_perfect_square_spec. Qed.
Theorem C55_pow_ui : forall x y, 0 <= y -> mpz_pow_ui x y = x ^ y.
Proof. exact mpz_pow_ui_spec. Qed.
(* C55: mpz_jacobi is the product of the Legendre symbols over the prime factors of y, with the sign of Kronecker's extension
   when both arguments are negative. legendre p x v: v is 0 when p divides x, 1 when x is another square modulo p, -1 when x is no square. *)
Definition legendre (p x v : Z) : Prop :=
  (v = 0 /\ (p | x)) \/ (v = 1 /\ ~ (p | x) /\ exists z, (z * z) mod p = x mod p) \/ (v = -1 /\ forall z, (z * z) mod p <> x mod p).
Theorem C55_jacobi : forall x y ps vs, Z.odd y = true -> Forall prime ps -> fold_right Z.mul 1 ps = Z.abs y -> Forall2 (fun p v => legendre p x v) ps vs ->
  mpz_jacobi x y = Ok (Some ((if (x <? 0) && (y <? 0) then -1 else 1) * fold_right Z.mul 1 vs)).
Proof. exact jacobi_value. Qed.
Theorem C55_jacobi_prime : forall x p, prime p -> Z.odd p = true -> exists v, mpz_jacobi x p = Ok (Some v) /\ legendre p x v.
Proof.
  intros x p Hp O. exists (jsym x p). split; [|exact (jsym_legendre p x Hp O)]. pose proof (prime_ge_2 p Hp). rewrite (mpz_jacobi_spec jsym jsym_laws x p O). replace (p <? 0) with false by (symmetry; apply Z.ltb_ge; lia).
  rewrite andb_false_r, Z.mul_1_l, Z.abs_eq by lia. reflexivity.
Qed.
Theorem C55_jacobi_abort : forall x y, mpz_jacobi x y = Abort <-> Z.even y = true.
Proof. intros x y. unfold mpz_jacobi. rewrite <- Z.negb_odd. destruct (Z.odd y); cbn [negb]; split; congruence. Qed.
(* C55: whatever mpz_sqrtm returns modulo a prime is a square root of x *)
Theorem C55_sqrtm_sound : forall nb ob x p z, prime p -> mpz_sqrtm nb ob x p = Some (Some z) -> (z * z) mod p = x mod p.
Proof. exact mpz_sqrtm_sound. Qed.
(* C55: and it terminates with one, modulo every odd prime, whenever there is one (nb and ob bound the search for a non-residue and the order loop) *)
Theorem C55_sqrtm_complete : forall p nb ob x, prime p -> Z.odd p = true -> p <= Zpos nb -> p <= Zpos ob ->
  (exists a, (a * a) mod p = x mod p) -> exists z, mpz_sqrtm nb ob x p = Some (Some z).
Proof. intros p nb ob x Hp O. exact (sqrtm_complete p Hp O nb ob x). Qed.
Example C55_ex : mpz_sqrtrem 99 = Ok (Some (9, 18)) /\ mpz_rootrem (-28) 3 = Ok (Some (-3, -1)) /\ mpz_rootrem (2 ^ 100) 7 = Ok (Some (19972, 2 ^ 100 - 19972 ^ 7)) /\
  mpz_jacobi 2 15 = Ok (Some 1) /\ mpz_jacobi 7 15 = Ok (Some (-1)) /\ mpz_jacobi 5 15 = Ok (Some 0) /\ mpz_jacobi (-7) (-15) = Ok (Some (-1)) /\
  mpz_sqrtm 100 100 10 13 = Some (Some 7) /\ mpz_sqrtm 100 100 (-1) 41 = Some (Some 32).
Proof. vm_compute. repeat split. Qed.

(* C73: no prime is rejected by Miller-Rabin, whatever the random bases *)
Theorem C73_mr_accepts_primes : forall p reps force2 rng, prime p -> (forall i, 0 <= rng i < p - 3) -> mr_prime p reps force2 rng = true.
Proof. exact mr_prime_accepts. Qed.
(* C73: trial division by the two primorial halves is divisibility by an odd prime up to 53, for both limb sizes *)
Theorem C73_trial : forall w x, (let '(ra, rb) := mod_primorial w x in trial ra rb) = true <-> exists q, In q [3; 5; 7; 11; 13; 17; 19; 23; 29; 31; 37; 41; 43; 47; 53] /\ x mod q = 0.
Proof. exact trial_spec. Qed.
(* C73: the bit table is the set of primes below 1024 *)
Theorem C73_table : forall w n, (w = 32 \/ w = 64) -> 0 <= n < 1024 -> (small_prime w n = true <-> prime n).
Proof. exact small_prime_spec. Qed.
(* C73: the Lucas test accepts a prime above 7 exactly when the search finds a parameter: some a from 3 to 10000 (or to the limit given)
   for which a^2 - 4 is zero or not a square modulo the prime *)
Theorem C73_lucas : forall x limit, prime x -> 7 < x -> 0 <= limit ->
  lucas_prime x limit = true <->
  exists a, 3 <= a <= 10000 /\ (limit = 0 \/ a <= limit) /\ ((a * a - 4) mod x = 0 \/ forall z, (z * z) mod x <> (a * a - 4) mod x).
Proof.
  intros x limit Hp X Hl. assert (O : Z.odd x = true) by (destruct (Z.odd x) eqn:O; [reflexivity|exfalso; apply (odd_prime_not_even x Hp X O)]).
  rewrite (lucas_accepts x limit Hp O X). split; intros (a & A).
  - exists a. destruct A as [A J]. apply (jsym_not_one x _ Hp O) in J. unfold lucas_bound in A. destruct (Z.eqb_spec limit 0); split; try lia; (split; [lia|exact J]).
  - exists a. destruct A as (A & L & J). apply (jsym_not_one x _ Hp O) in J. split; [|exact J]. unfold lucas_bound. destruct (Z.eqb_spec limit 0); lia.
Qed.
(* C73: so the whole test accepts a prime exactly when it is below 1024 or has such a parameter, whatever the random bases *)
Theorem C73_probab_prime : forall w x rounds rng, (w = 32 \/ w = 64) -> prime x -> (forall i, 0 <= rng i < x - 3) ->
  probab_prime w x rounds rng = true <->
  x < 1024 \/ exists a, 3 <= a <= 10000 /\ ((a * a - 4) mod x = 0 \/ forall z, (z * z) mod x <> (a * a - 4) mod x).
Proof.
  intros w x rounds rng Hw Hp Hr. rewrite (probab_prime_spec w x rounds rng Hw Hp Hr). destruct (Z.ltb_spec x 1024) as [L|L]; [split; [intros _; left; exact L|reflexivity]|].
  rewrite (C73_lucas x 0 Hp) by lia. split.
  - intros (a & A & _ & J). right. exists a. split; assumption.
  - intros [A|(a & A & J)]; [lia|]. exists a. split; [exact A|]. split; [left; reflexivity|exact J].
Qed.
(* C73: every prime that is 2 or 3 modulo 5 has the parameter 3 and is accepted *)
Theorem C73_probab_prime_5 : forall w x rounds rng, (w = 32 \/ w = 64) -> prime x -> (forall i, 0 <= rng i < x - 3) -> x mod 5 = 2 \/ x mod 5 = 3 -> probab_prime w x rounds rng = true.
Proof.
  intros w x rounds rng Hw Hp Hr H5. apply (C73_probab_prime w x rounds rng Hw Hp Hr). destruct (Z.lt_ge_cases x 1024) as [L|L]; [left; exact L|right]. exists 3. split; [lia|].
  assert (O : Z.odd x = true) by (destruct (Z.odd x) eqn:O; [reflexivity|exfalso; apply (odd_prime_not_even x Hp ltac:(lia) O)]).
  apply (jsym_not_one x _ Hp O). change (3 * 3 - 4) with 5. rewrite (jsym_rec 5 x) by (first [lia | reflexivity | exact O]). change (5 mod 4 =? 3) with false. cbn [andb]. rewrite Z.mul_1_l.
  rewrite <- (jsym_mod x 5) by lia. destruct H5 as [->| ->]; vm_compute; discriminate.
Qed.
(* C73: the claim that no prime is rejected is false: a prime that leaves 1 modulo every number up to 10002 has no parameter, so the test
   calls it composite. (By Dirichlet's theorem there are infinitely many; the least known by this construction has over 14000 bits.) *)
Theorem C73_probab_prime_rejects : forall w x rounds rng, (w = 32 \/ w = 64) -> prime x -> 10002 < x -> (forall i, 0 <= rng i < x - 3) ->
  (forall m, 2 <= m <= 10002 -> x mod m = 1) -> probab_prime w x rounds rng = false.
Proof.
  intros w x rounds rng Hw Hp X Hr H. rewrite (probab_prime_spec w x rounds rng Hw Hp Hr). replace (x <? 1024) with false by lia. apply lucas_rejects; try assumption.
  destruct (Z.odd x) eqn:O; [reflexivity|exfalso; apply (odd_prime_not_even x Hp ltac:(lia) O)].
Qed.
(* C73: numbers accepted below 1024 are prime; above, they have no factor up to 53 *)
Theorem C73_probab_prime_accepts : forall w x rounds rng, (w = 32 \/ w = 64) -> probab_prime w x rounds rng = true ->
  if x <? 1024 then prime x else Z.odd x = true /\ forall q, In q [3; 5; 7; 11; 13; 17; 19; 23; 29; 31; 37; 41; 43; 47; 53] -> x mod q <> 0.
Proof. intros w x rounds rng Hw H. pose proof (probab_prime_rejects w x rounds rng Hw H) as P. destruct (x <? 1024); [exact P|]. destruct P as (P1 & P2 & _). split; assumption. Qed.
Example C73_ex : mr_prime 1000003 3 true (fun i => 1000 * Z.of_nat i + 5) = true /\ mr_prime 1000001 1 true (fun _ => 5) = false /\ trial 91 91 = true /\
  probab_prime 64 (2 ^ 61 - 1) 2 (fun i => 3 * Z.of_nat i) = true /\ probab_prime 32 1023 2 (fun i => 3) = false /\
  lucas_prime 1000003 0 = true /\ lucas_prime 10007 3 = true /\ lucas_prime 1009 9 = true /\ lucas_prime 1009 8 = false /\ lucas_prime 5459 0 = false /\ lucas_prime 989 0 = true.
Proof. vm_compute. repeat split. Qed.

(* C74 *)
Theorem C74_factorial : forall n, mpz_mfac (Z.of_nat n) 1 = Z.of_nat (fact n).
Proof. intros n. rewrite mpz_mfac_spec by lia. rewrite Nat2Z.id. apply mfact_1. lia. Qed.
Theorem C74_multifactorial : forall n m, 0 <= n -> 0 < m -> mpz_mfac n m = mfact (Z.to_nat n) n m.
Proof. exact mpz_mfac_spec. Qed.
Theorem C74_binomial : forall n k, mpz_bin (Z.of_nat n) (Z.of_nat k) = binom n k.
Proof. exact mpz_bin_spec. Qed.
Theorem C74_binomial_neg : forall n k, (0 < n)%nat -> mpz_bin (- Z.of_nat n) (Z.of_nat k) = (if Nat.odd k then -1 else 1) * binom (n + k - 1) k.
Proof. exact mpz_bin_neg. Qed.
Theorem C74_fib : forall n, 0 < n -> mpz_fib2 n = (fib (Z.to_nat n), fib (Z.to_nat (n - 1))).
Proof. exact mpz_fib2_spec. Qed.
Theorem C74_lucas : forall n, 0 < n -> mpz_lucnum2 n = (luc (Z.to_nat n), luc (Z.to_nat (n - 1))).
Proof. exact mpz_lucnum2_spec. Qed.
(* at zero the second results are not F(-1) = 1 and L(-1) = -1: the recurrence F(1) = F(0) + F(-1) fails for the pair returned *)
Theorem C74_fib_zero_refuted : exists n, let '(fn, fn1) := mpz_fib2 n in fst (mpz_fib2 (n + 1)) <> fn + fn1.
Proof. exists 0. vm_compute. discriminate. Qed.
Example C74_ex : mpz_mfac 10 1 = 3628800 /\ mpz_mfac 11 3 = 880 /\ mpz_bin 52 5 = 2598960 /\ mpz_bin (-4) 3 = -20 /\ mpz_fib2 100 = (354224848179261915075, 218922995834555169026).
Proof. vm_compute. repeat split. Qed.

(* the axioms of every theorem above, listed at once *)
Definition NumTheoryProps_all := (@C53_gcd, @C53_lcm, @C53_gcdext, @C53_invert, @C53_invert_small, @C55_rootrem, @C55_rootrem_domain, @C55_sqrtrem,
  @C55_perfect_square, @C55_pow_ui, @C55_jacobi, @C55_jacobi_prime, @C55_jacobi_abort, @C55_sqrtm_sound, @C55_sqrtm_complete, @C73_mr_accepts_primes,
  @C73_trial, @C73_table, @C73_lucas, @C73_probab_prime, @C73_probab_prime_5, @C73_probab_prime_rejects, @C73_probab_prime_accepts, @C74_factorial,
  @C74_multifactorial, @C74_binomial, @C74_binomial_neg, @C74_fib, @C74_lucas, @C74_fib_zero_refuted).
Print Assumptions NumTheoryProps_all.
