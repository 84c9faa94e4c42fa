(* C84 Legendre and Kronecker symbols. *)
From Coq Require Import Znumtheory.
From Verif.Base Require Import Prelude.
From Verif.Model Require Import Encoding MpnMod NumTheory Kronecker.
From Verif.Proof Require Import NumGcd NumJacobi Reciprocity KroneckerProof.

(* Legendre: v is 0 when p divides x, 1 when x is another square modulo p, -1 when x is no square *)
Definition legendre_is (p x v : Z) : Prop :=
  (v = 0 /\ (p | x)) \/ (v = 1 /\ ~ (p | x) /\ exists z, (z * z) mod p = x mod p) \/ (v = -1 /\ forall z, (z * z) mod p <> x mod p).
(* the symbol over 2 *)
Definition over_two (x v : Z) : Prop :=
  (v = 0 /\ (2 | x)) \/ (v = 1 /\ (x mod 8 = 1 \/ x mod 8 = 7)) \/ (v = -1 /\ (x mod 8 = 3 \/ x mod 8 = 5)).
(* the symbol over -1 *)
Definition over_minus (x v : Z) : Prop := (v = 1 /\ 0 <= x) \/ (v = -1 /\ x < 0).

Lemma over_two_kron2 x v : over_two x v -> kron2 x = v.
Proof.
  assert (M : Z.even x = Z.even (x mod 8)). { rewrite (Z.div_mod x 8) at 1 by lia. rewrite Z.even_add, Z.even_mul. cbn. destruct (Z.even (x mod 8)); reflexivity. }
  unfold kron2. intros [(-> & D)|[(-> & [E|E])|(-> & [E|E])]]; [destruct D as (k & ->); rewrite Z.even_mul, orb_true_r; reflexivity| | | |]; rewrite M, E; reflexivity.
Qed.
(* C84: on y = sign * 2^e * (odd primes), all counted with multiplicity, the product of the symbols *)
Theorem C84_kronecker : forall x y e neg ps m k vs, 0 <= e -> Forall (fun p => prime p /\ p <> 2) ps -> y = (if neg : bool then -1 else 1) * 2 ^ e * fold_right Z.mul 1 ps ->
  over_minus x m -> over_two x k -> Forall2 (fun p v => legendre_is p x v) ps vs ->
  mpz_kronecker x y = Ok (Some ((if neg then m else 1) * k ^ e * fold_right Z.mul 1 vs)).
Proof.
  intros x y e neg ps m k vs E P Y M K F. assert (OP : Z.odd (fold_right Z.mul 1 ps) = true /\ 0 < fold_right Z.mul 1 ps).
  { clear - P. induction P as [|p ps (Hp & N2) P (O & L)]; [split; reflexivity|]. change (fold_right Z.mul 1 (p :: ps)) with (p * fold_right Z.mul 1 ps). pose proof (prime_ge_2 p Hp). split; [|nia]. rewrite Z.odd_mul, O, andb_true_r. destruct (Z.odd p) eqn:OD; [reflexivity|]. exfalso. apply N2. rewrite <- Z.negb_even in OD. apply negb_false_iff, Z.even_spec in OD. destruct OD as (q & D). destruct (prime_divisors p Hp 2) as [?|[?|[?|?]]]; [exists q; lia|lia|lia|lia|lia]. }
  destruct OP as (O & L). assert (P2 : 0 < 2 ^ e) by (apply Z.pow_pos_nonneg; lia). set (o := fold_right Z.mul 1 ps) in *. assert (AY : Z.abs y = 2 ^ e * o) by (rewrite Y; destruct neg; nia). assert (NY : y <> 0) by nia. rewrite kronecker_ok. unfold kron. rewrite (proj2 (Z.eqb_neq y 0) NY). destruct (parts y e o E O L AY) as (-> & ->). rewrite (over_two_kron2 x k K).
  assert (J : jsym x o = fold_right Z.mul 1 vs) by (apply jsym_prod; [clear - P; induction P as [|? ? (? & _)]; constructor; assumption|exact O|exact F]). rewrite J. assert (S : ksgn x y = if neg then m else 1).
  { unfold ksgn. assert (SY : (y <? 0) = neg) by (rewrite Y; destruct neg; [apply Z.ltb_lt|apply Z.ltb_ge]; nia). rewrite SY. destruct neg; [|rewrite andb_false_r; reflexivity]. rewrite andb_true_r. destruct M as [(-> & H)|(-> & H)]; destruct (Z.ltb_spec x 0); try reflexivity; lia. }
  rewrite S. reflexivity.
Qed.
(* C84: over 0 *)
Theorem C84_kronecker_zero : forall x, (x = 1 \/ x = -1 -> mpz_kronecker x 0 = Ok (Some 1)) /\ (x <> 1 -> x <> -1 -> mpz_kronecker x 0 = Ok (Some 0)).
Proof. intros x. rewrite kronecker_ok. unfold kron. cbn [Z.eqb]. split; [intros [-> | ->]; reflexivity|]. intros A B. destruct (Z.eqb_spec (Z.abs x) 1); [lia|reflexivity]. Qed.
(* C84: always one of three values; zero exactly on arguments with a common divisor *)
Theorem C84_kronecker_values : forall x y, exists v, mpz_kronecker x y = Ok (Some v) /\ (v = -1 \/ v = 0 \/ v = 1) /\ (v = 0 <-> Z.gcd x y <> 1).
Proof. intros x y. exists (kron x y). split; [apply kronecker_ok|]. split; [apply kron_three|apply kron_zero]. Qed.
(* C84: multiplicative on both sides *)
Theorem C84_kronecker_mul : forall x1 x2 y v1 v2, x1 <> 0 -> x2 <> 0 -> mpz_kronecker x1 y = Ok (Some v1) -> mpz_kronecker x2 y = Ok (Some v2) -> mpz_kronecker (x1 * x2) y = Ok (Some (v1 * v2)).
Proof. intros x1 x2 y v1 v2 N1 N2. rewrite !kronecker_ok. intros [= <-] [= <-]. rewrite kron_mul_x by assumption. reflexivity. Qed.
Theorem C84_kronecker_mul_lower : forall x y1 y2 v1 v2, y1 <> 0 -> y2 <> 0 -> mpz_kronecker x y1 = Ok (Some v1) -> mpz_kronecker x y2 = Ok (Some v2) -> mpz_kronecker x (y1 * y2) = Ok (Some (v1 * v2)).
Proof. intros x y1 y2 v1 v2 N1 N2. rewrite !kronecker_ok. intros [= <-] [= <-]. rewrite kron_mul_y by assumption. reflexivity. Qed.
(* C84: the function extends mpz_jacobi *)
Theorem C84_kronecker_jacobi : forall x y, Z.odd y = true -> mpz_kronecker x y = mpz_jacobi x y.
Proof.
  intros x y O. rewrite kronecker_ok, (mpz_jacobi_spec jsym jsym_laws x y O). assert (NY : y <> 0) by (intros ->; discriminate). unfold kron. rewrite (proj2 (Z.eqb_neq y 0) NY). destruct (parts y 0 (Z.abs y)) as (-> & ->); [lia|rewrite <- O; destruct y; reflexivity|lia|rewrite Z.pow_0_r; lia|]. rewrite Z.pow_0_r, Z.mul_1_r. reflexivity.
Qed.
(* C84: Legendre symbols at odd primes; negative and even moduli abort *)
Theorem C84_legendre : forall x p, prime p -> p <> 2 -> exists v, mpz_legendre x p = Ok (Some v) /\ legendre_is p x v.
Proof.
  intros x p Hp N2. pose proof (prime_ge_2 p Hp). assert (O : Z.odd p = true). { destruct (Z.odd p) eqn:OD; [reflexivity|]. exfalso. apply N2. rewrite <- Z.negb_even in OD. apply negb_false_iff, Z.even_spec in OD. destruct OD as (q & D). destruct (prime_divisors p Hp 2) as [?|[?|[?|?]]]; [exists q; lia|lia|lia|lia|lia]. }
  exists (jsym x p). split; [|exact (jsym_legendre p x Hp O)]. unfold mpz_legendre. replace (p <? 0) with false by (symmetry; apply Z.ltb_ge; lia). rewrite (mpz_jacobi_spec jsym jsym_laws x p O). replace (p <? 0) with false by (symmetry; apply Z.ltb_ge; lia). rewrite andb_false_r, Z.mul_1_l, Z.abs_eq by lia. reflexivity.
Qed.
Theorem C84_legendre_abort : forall x p, mpz_legendre x p = Abort <-> p < 0 \/ Z.even p = true.
Proof.
  intros x p. unfold mpz_legendre, mpz_jacobi. rewrite Z.negb_odd. destruct (Z.ltb_spec p 0); [tauto|]. destruct (Z.even p) eqn:E; [tauto|]. split; [discriminate|]. intros [?|?]; [lia|discriminate].
Qed.
Example C84_ex : mpz_kronecker 3 2 = Ok (Some (-1)) /\ mpz_kronecker 7 2 = Ok (Some 1) /\ mpz_kronecker (-3) 8 = Ok (Some (-1)) /\ mpz_kronecker (-3) (-8) = Ok (Some 1) /\ mpz_kronecker 5 (-12) = Ok (Some (-1)) /\ mpz_kronecker 6 10 = Ok (Some 0) /\
  mpz_kronecker (-7) 0 = Ok (Some 0) /\ mpz_kronecker (-1) 0 = Ok (Some 1) /\ mpz_kronecker 0 (-1) = Ok (Some 1) /\ mpz_legendre 2 7 = Ok (Some 1) /\ mpz_legendre 3 7 = Ok (Some (-1)) /\ mpz_legendre 14 7 = Ok (Some 0) /\ mpz_legendre 2 (-7) = Abort.
Proof. vm_compute. repeat split. Qed.
(* the hypotheses of C84_kronecker on -12 = - 2^2 * 3 *)
Example C84_parts_ex : mpz_kronecker (-5) (-12) = Ok (Some (-1)).
Proof.
  refine (C84_kronecker (-5) (-12) 2 true [3] (-1) (-1) [1] ltac:(lia) _ eq_refl _ _ _).
  - constructor; [split; [exact prime_3|lia]|constructor].
  - right. split; [reflexivity|lia].
  - right. right. split; [reflexivity|left; reflexivity].
  - constructor; [|constructor]. right. left. split; [reflexivity|]. split; [intros (q & Q); lia|exists 1; reflexivity].
Qed.

(* the axioms of every theorem above, listed at once *)
Definition KroneckerProps_all := (@C84_kronecker, @C84_kronecker_zero, @C84_kronecker_values, @C84_kronecker_mul, @C84_kronecker_mul_lower,
  @C84_kronecker_jacobi, @C84_legendre, @C84_legendre_abort).
Print Assumptions KroneckerProps_all.
