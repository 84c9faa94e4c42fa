(* The Kronecker symbol computed by mpz_kronecker. *)
From Coq Require Import Znumtheory Zpow_facts.
From Verif.Base Require Import Prelude.
From Verif.Model Require Import Encoding MpnMod NumTheory Kronecker.
From Verif.Proof Require Import Cong NumGcd NumJacobi Reciprocity.
(* the symbol of x over 2 *)
Definition kron2 (x : Z) : Z := if Z.even x then 0 else if (x mod 8 =? 1) || (x mod 8 =? 7) then 1 else -1.
Definition ksgn (x y : Z) : Z := if (x <? 0) && (y <? 0) then -1 else 1.
Definition kron (x y : Z) : Z := if y =? 0 then Z.b2z (Z.abs x =? 1) else ksgn x y * kron2 x ^ ctz (Z.abs y) * jsym x (oddp (Z.abs y)).
Lemma kron2_three x : kron2 x = 0 /\ Z.even x = true \/ Z.even x = false /\ (kron2 x = 1 \/ kron2 x = -1).
Proof. unfold kron2. destruct (Z.even x); [auto|]. right. split; [reflexivity|]. destruct (_ || _); auto. Qed.
Lemma pow_sign s n : s = 1 \/ s = -1 -> 0 <= n -> s ^ n = if Z.odd n then s else 1.
Proof.
  intros S N. assert (S2 : s * s = 1) by (destruct S as [-> | ->]; reflexivity). destruct (Z.odd n) eqn:O.
  - rewrite (Z.div_mod n 2) at 1 by lia. rewrite (Zmod_odd n), O, Z.pow_add_r, Z.pow_mul_r by (try apply Z.div_pos; lia). rewrite Z.pow_2_r, S2, Z.pow_1_l by (apply Z.div_pos; lia). lia.
  - rewrite (Z.div_mod n 2) at 1 by lia. rewrite (Zmod_odd n), O, Z.add_0_r, Z.pow_mul_r by (try apply Z.div_pos; lia). rewrite Z.pow_2_r, S2, Z.pow_1_l by (apply Z.div_pos; lia). reflexivity.
Qed.
Lemma table_eq x : Z.odd x = true -> kron_table (Z.abs x mod 8) = kron2 x.
Proof.
  intros O. unfold kron2. rewrite <- Z.negb_odd, O. cbn [negb]. assert (E : Z.abs x mod 8 = x mod 8 \/ Z.abs x mod 8 = (8 - x mod 8) mod 8).
  { destruct (Z.abs_eq_or_opp x) as [-> | ->]; [left; reflexivity|right]. rewrite Zminus_mod_idemp_r. replace (8 - x) with (- x + 1 * 8) by lia. symmetry. apply Z.mod_add. lia. }
  assert (M : Z.odd (x mod 8) = true). { rewrite <- O. rewrite (Z.div_mod x 8) at 2 by lia. rewrite Z.odd_add, Z.odd_mul. cbn [Z.odd andb]. symmetry. apply xorb_false_l. }
  pose proof (Z.mod_pos_bound x 8 ltac:(lia)) as B. assert (C : x mod 8 = 1 \/ x mod 8 = 3 \/ x mod 8 = 5 \/ x mod 8 = 7). { destruct (x mod 8) as [|q|q]; [discriminate|do 4 (destruct q as [q|q|]; try discriminate; try lia)|lia]. }
  destruct C as [C|[C|[C|C]]]; rewrite C in *; destruct E as [-> | ->]; reflexivity.
Qed.
Theorem kronecker_ok x y : mpz_kronecker x y = Ok (Some (kron x y)).
Proof.
  unfold mpz_kronecker, kron. destruct (Z.eqb_spec x 0) as [-> |NX].
  - destruct (Z.eqb_spec y 0) as [-> |NY]; [reflexivity|]. f_equal. f_equal. change (kron2 0) with 0. change (ksgn 0 y) with 1. assert (P : 0 < Z.abs y) by lia. destruct (oddp_spec (Z.abs y) P) as (E & O & Q). pose proof (ctz_nonneg (Z.abs y)) as N.
    destruct (Z.eqb_spec (ctz (Z.abs y)) 0) as [C|C].
    + rewrite C in *. rewrite Z.pow_0_r, Z.mul_1_l in *. rewrite <- E. destruct (Z.eqb_spec (Z.abs y) 1) as [-> |N1]; [symmetry; exact (jsym_1 0)|]. symmetry. apply jsym_0. lia.
    + rewrite Z.pow_0_l by lia. destruct (Z.eqb_spec (Z.abs y) 1) as [Y|_]; [|reflexivity]. exfalso. assert (D : (2 | 1)). { rewrite <- Y, E. apply Z.divide_mul_l. exists (2 ^ (ctz (Z.abs y) - 1)). rewrite Z.mul_comm, <- Z.pow_succ_r by lia. f_equal. lia. } destruct D. lia.
  - destruct (Z.eqb_spec y 0) as [_|NY]; [reflexivity|]. assert (P : 0 < Z.abs y) by lia. destruct (oddp_spec (Z.abs y) P) as (E & O & Q). pose proof (ctz_nonneg (Z.abs y)) as N. set (c := ctz (Z.abs y)) in *. set (o := oddp (Z.abs y)) in *.
    assert (EV : Z.even (Z.abs x) = Z.even x) by (destruct x; reflexivity). assert (EL : Z.even (Z.lor (Z.abs x) (Z.abs y)) = Z.even x && Z.even (Z.abs y)).
    { rewrite <- !Z.negb_odd, <- !Z.bit0_odd, Z.lor_spec, !Z.bit0_odd. rewrite negb_orb, !Z.negb_odd, EV. reflexivity. }
    assert (EY : Z.even (Z.abs y) = (0 <? c)). { rewrite E, Z.even_mul, <- Z.negb_odd, <- (Z.negb_odd o), O. cbn [negb]. rewrite orb_false_r. destruct (Z.ltb_spec 0 c); [|replace c with 0 by lia; reflexivity]. rewrite Z.odd_pow by lia. reflexivity. }
    rewrite EL, EY. destruct (Z.ltb_spec 0 c) as [C|C].
    + rewrite andb_true_r. destruct (kron2_three x) as [(K & X)|(X & K)]; rewrite X.
      * rewrite K, Z.pow_0_l by lia. rewrite Z.mul_0_r. reflexivity.
      * assert (OX : Z.odd x = true) by (rewrite <- Z.negb_even, X; reflexivity). assert (Q' : Z.quot y (2 ^ c) = if y <? 0 then - o else o).
        { assert (P2 : 0 < 2 ^ c) by (apply Z.pow_pos_nonneg; lia). destruct (Z.ltb_spec y 0).
          - replace y with (- o * 2 ^ c) by lia. apply Z.quot_mul. lia.
          - replace y with (o * 2 ^ c) by lia. apply Z.quot_mul. lia. }
        rewrite Q'. assert (OO : Z.odd (if y <? 0 then - o else o) = true) by (destruct (y <? 0); [rewrite Z.odd_opp|]; exact O). rewrite (mpz_jacobi_spec jsym jsym_laws x _ OO). assert (A : Z.abs (if y <? 0 then - o else o) = o) by (destruct (y <? 0); lia).
        assert (S : ((if y <? 0 then - o else o) <? 0) = (y <? 0)) by (destruct (y <? 0) eqn:YL; [apply Z.ltb_lt|apply Z.ltb_ge]; lia). rewrite A, S. fold (ksgn x y). rewrite (pow_sign _ c K N), (table_eq x OX). destruct (Z.odd c); f_equal; f_equal; lia.
    + rewrite andb_false_r. assert (c0 : c = 0) by lia. rewrite c0 in *. rewrite Z.pow_0_r, Z.mul_1_l in E. rewrite <- E, Z.pow_0_r, Z.mul_1_r. rewrite <- E in O. assert (OY : Z.odd y = true) by (rewrite <- O; destruct y; reflexivity). exact (mpz_jacobi_spec jsym jsym_laws x y OY).
Qed.
(* y = s 2^e o determines the parts *)
Lemma parts y e o : 0 <= e -> Z.odd o = true -> 0 < o -> Z.abs y = 2 ^ e * o -> ctz (Z.abs y) = e /\ oddp (Z.abs y) = o.
Proof.
  intros E O P H. assert (P2 : 0 < 2 ^ e) by (apply Z.pow_pos_nonneg; lia). assert (Y : 0 < Z.abs y) by (rewrite H; apply Z.mul_pos_pos; lia). destruct (oddp_spec (Z.abs y) Y) as (E' & O' & Q'). pose proof (ctz_nonneg (Z.abs y)) as N. set (c := ctz (Z.abs y)) in *. set (q := oddp (Z.abs y)) in *. clearbody c q. rewrite E' in H. clear E'.
  assert (W : forall a b u v, 0 <= a -> a < b -> Z.odd u = true -> 2 ^ a * u = 2 ^ b * v -> False).
  { intros a b u v A AB OU W. replace b with (a + (1 + (b - a - 1))) in W by lia. rewrite Z.pow_add_r in W by lia. rewrite <- Z.mul_assoc in W. apply Z.mul_reg_l in W; [|apply Z.pow_nonzero; lia]. rewrite W, Z.pow_add_r, Z.pow_1_r, !Z.odd_mul in OU by lia. discriminate. }
  destruct (Z.lt_trichotomy c e) as [L|[-> |L]]; [exfalso; exact (W c e q o N L O' H)| |exfalso; exact (W e c o q E L O (eq_sym H))]. split; [reflexivity|]. apply (Z.mul_reg_l _ _ (2 ^ e)); lia.
Qed.
Lemma kron_mul_x x1 x2 y : x1 <> 0 -> x2 <> 0 -> kron (x1 * x2) y = kron x1 y * kron x2 y.
Proof.
  intros N1 N2. unfold kron. destruct (Z.eqb_spec y 0) as [-> |NY].
  - rewrite Z.abs_mul. destruct (Z.eqb_spec (Z.abs x1) 1) as [-> |H1]; [rewrite Z.mul_1_l; symmetry; apply Z.mul_1_l|]. destruct (Z.eqb_spec (Z.abs x1 * Z.abs x2) 1) as [H|_]; [|reflexivity]. exfalso. apply H1. apply Z.eq_mul_1_nonneg in H; lia.
  - destruct (oddp_spec (Z.abs y) ltac:(lia)) as (_ & O & Q). rewrite jsym_mul by (try assumption; lia). assert (S : ksgn (x1 * x2) y = ksgn x1 y * ksgn x2 y).
    { unfold ksgn. destruct (y <? 0); [|rewrite !andb_false_r; reflexivity]. rewrite !andb_true_r. destruct (Z.ltb_spec x1 0), (Z.ltb_spec x2 0), (Z.ltb_spec (x1 * x2) 0); try reflexivity; nia. }
    assert (T : kron2 (x1 * x2) = kron2 x1 * kron2 x2).
    { unfold kron2. rewrite Z.even_mul. destruct (Z.even x1) eqn:E1; [reflexivity|]. destruct (Z.even x2) eqn:E2; [cbn [orb]; lia|]. cbn [orb]. rewrite Zmult_mod.
      assert (C : forall x, Z.even x = false -> x mod 8 = 1 \/ x mod 8 = 3 \/ x mod 8 = 5 \/ x mod 8 = 7).
      { intros x EX. assert (M : Z.even (x mod 8) = false). { rewrite <- EX. rewrite (Z.div_mod x 8) at 2 by lia. rewrite Z.even_add, Z.even_mul. cbn. destruct (Z.even (x mod 8)); reflexivity. } pose proof (Z.mod_pos_bound x 8 ltac:(lia)). destruct (x mod 8) as [|q|q]; [discriminate|do 4 (destruct q as [q|q|]; try discriminate; try lia)|lia]. }
      destruct (C x1 E1) as [-> |[-> |[-> | ->]]], (C x2 E2) as [-> |[-> |[-> | ->]]]; reflexivity. }
    rewrite S, T, Z.pow_mul_l. ring.
Qed.
Lemma kron_mul_y x y1 y2 : y1 <> 0 -> y2 <> 0 -> kron x (y1 * y2) = kron x y1 * kron x y2.
Proof.
  intros N1 N2. unfold kron. assert (N : y1 * y2 <> 0) by (apply Z.neq_mul_0; auto). destruct (Z.eqb_spec y1 0) as [|_]; [contradiction|]. destruct (Z.eqb_spec y2 0) as [|_]; [contradiction|]. destruct (Z.eqb_spec (y1 * y2) 0) as [|_]; [contradiction|].
  destruct (oddp_spec (Z.abs y1) ltac:(lia)) as (E1 & O1 & Q1). destruct (oddp_spec (Z.abs y2) ltac:(lia)) as (E2 & O2 & Q2). pose proof (ctz_nonneg (Z.abs y1)) as C1. pose proof (ctz_nonneg (Z.abs y2)) as C2.
  destruct (parts (y1 * y2) (ctz (Z.abs y1) + ctz (Z.abs y2)) (oddp (Z.abs y1) * oddp (Z.abs y2))) as (-> & ->); [lia|rewrite Z.odd_mul, O1, O2; reflexivity|apply Z.mul_pos_pos; lia|rewrite Z.abs_mul, Z.pow_add_r by lia; rewrite E1 at 1; rewrite E2 at 1; ring|].
  rewrite Z.pow_add_r, jsym_lower by (try assumption; lia). assert (S : ksgn x (y1 * y2) = ksgn x y1 * ksgn x y2).
  { unfold ksgn. destruct (x <? 0); [|reflexivity]. cbn [andb]. destruct (Z.ltb_spec y1 0), (Z.ltb_spec y2 0), (Z.ltb_spec (y1 * y2) 0); try reflexivity; nia. }
  rewrite S. ring.
Qed.
Lemma jsym_eq0 a n : jsym a n = 0 <-> Z.gcd a n <> 1.
Proof. split; [|apply jsym_zero]. intros E G. pose proof (jsym_sign a n G) as S. rewrite E in S. destruct S; discriminate. Qed.
Lemma kron_zero x y : kron x y = 0 <-> Z.gcd x y <> 1.
Proof.
  unfold kron. destruct (Z.eqb_spec y 0) as [-> |NY]; [rewrite Z.gcd_0_r; destruct (Z.eqb_spec (Z.abs x) 1); cbn; split; congruence|]. destruct (oddp_spec (Z.abs y) ltac:(lia)) as (E & O & Q). pose proof (ctz_nonneg (Z.abs y)) as C. set (c := ctz (Z.abs y)) in *. set (o := oddp (Z.abs y)) in *. rewrite <- (Z.gcd_abs_r x y), E.
  assert (S : ksgn x y <> 0) by (unfold ksgn; destruct (_ && _); discriminate). assert (GM : Z.gcd x (2 ^ c * o) = 1 <-> Z.gcd x (2 ^ c) = 1 /\ Z.gcd x o = 1).
  { rewrite !Zgcd_1_rel_prime. split; [intros H; split; [apply rel_prime_sym, (rel_prime_div (2 ^ c * o) x); [apply rel_prime_sym; exact H|apply Z.divide_factor_l]|apply rel_prime_sym, (rel_prime_div (2 ^ c * o) x); [apply rel_prime_sym; exact H|apply Z.divide_factor_r]]|intros (H1 & H2); apply rel_prime_mult; assumption]. }
  assert (G2 : kron2 x ^ c = 0 <-> Z.gcd x (2 ^ c) <> 1).
  { destruct (kron2_three x) as [(K & X)|(X & K)].
    - rewrite K. destruct (Z.eq_dec c 0) as [-> |NC]; [rewrite Z.pow_0_r, Z.gcd_1_r; split; congruence|]. rewrite Z.pow_0_l by lia. split; [intros _|reflexivity]. intros G. assert (D : (2 | Z.gcd x (2 ^ c))) by (apply Z.gcd_greatest; [apply Z.even_spec in X; destruct X as (k & ->); exists k; ring|exists (2 ^ (c - 1)); rewrite Z.mul_comm, <- Z.pow_succ_r by lia; f_equal; lia]). rewrite G in D. destruct D. lia.
    - rewrite (pow_sign _ c K C). assert (G : Z.gcd x (2 ^ c) = 1). { apply Zgcd_1_rel_prime. apply rel_prime_Zpower_r; [exact C|]. apply rel_prime_sym, prime_rel_prime; [exact prime_2|]. intros (k & ->). rewrite Z.even_mul, orb_true_r in X. discriminate. } split; [|congruence]. destruct (Z.odd c); [destruct K as [-> | ->]|]; discriminate. }
  pose proof (jsym_eq0 x o) as G3. rewrite GM. split.
  - intros H (H1 & H2). apply Z.mul_eq_0 in H. destruct H as [H|H]; [apply Z.mul_eq_0 in H; destruct H as [H|H]; [contradiction|]; apply G2 in H; contradiction|apply G3 in H; contradiction].
  - intros H. destruct (Z.eq_dec (Z.gcd x (2 ^ c)) 1) as [E1|N1]; [|apply G2 in N1; rewrite N1; lia]. destruct (Z.eq_dec (Z.gcd x o) 1) as [E2|N2]; [tauto|]. apply G3 in N2. rewrite N2. lia.
Qed.
Lemma kron_three x y : kron x y = -1 \/ kron x y = 0 \/ kron x y = 1.
Proof.
  unfold kron. destruct (y =? 0); [destruct (_ =? 1); auto|]. pose proof (ctz_nonneg (Z.abs y)) as C. set (o := oddp _). assert (J : jsym x o = 0 \/ jsym x o = 1 \/ jsym x o = -1). { destruct (Z.eq_dec (Z.gcd x o) 1) as [G|G]; [right; destruct (jsym_sign x o G); auto|left; apply jsym_zero, G]. }
  assert (K : kron2 x ^ ctz (Z.abs y) = 0 \/ kron2 x ^ ctz (Z.abs y) = 1 \/ kron2 x ^ ctz (Z.abs y) = -1). { destruct (kron2_three x) as [(-> & _)|(_ & K)]; [destruct (Z.eq_dec (ctz (Z.abs y)) 0) as [-> |]; [auto|rewrite Z.pow_0_l by lia; auto]|]. rewrite (pow_sign _ _ K C). destruct (Z.odd _); [destruct K; auto|auto]. }
  unfold ksgn. destruct (_ && _), J as [-> |[-> | ->]], K as [-> |[-> | ->]]; auto.
Qed.
