(* The field layer is the field Z/p, for every prime p. *)
From Verif.Base Require Import Prelude.
From Coq Require Import Znumtheory Field Eqdep_dec.
From Verif.Model Require Import Rsa NumTheory Field.
From Verif.Proof Require Import Cong Fermat RsaPrim NumInv.
Section P.
Variable p : positive.
Local Notation P := (Zpos p).
Local Notation fe := (fe p).
Lemma fe_eq (x y : fe) : fv x = fv y -> x = y.
Proof. destruct x as [x Hx], y as [y Hy]. cbn. intros <-. f_equal. apply UIP_dec. apply Bool.bool_dec. Qed.
Lemma fv_range (x : fe) : 0 <= fv x < P.
Proof. destruct x as [x H]. cbn. apply andb_true_iff in H. destruct H as [H1 H2]. apply Z.leb_le in H1. apply Z.ltb_lt in H2. lia. Qed.
Lemma fv_of z : fv (fe_of p z) = z mod P. Proof. reflexivity. Qed.
Lemma fe_of_fv (x : fe) : fe_of p (fv x) = x.
Proof. apply fe_eq. rewrite fv_of. apply Z.mod_small. apply fv_range. Qed.
Lemma fe_of_eqm a b : a ≡ b ⟦ P ⟧ -> fe_of p a = fe_of p b.
Proof. intros H. apply fe_eq. exact H. Qed.
Lemma fe_of_inj a b : fe_of p a = fe_of p b -> a ≡ b ⟦ P ⟧.
Proof. intros H. apply (f_equal fv) in H. exact H. Qed.
Lemma of_add a b : fe_of p (a + b) = fe_add (fe_of p a) (fe_of p b).
Proof. apply fe_of_eqm. rewrite !fv_of. unfold eqm. rewrite Zplus_mod_idemp_l, Zplus_mod_idemp_r. reflexivity. Qed.
Lemma of_mul a b : fe_of p (a * b) = fe_mul (fe_of p a) (fe_of p b).
Proof. apply fe_of_eqm. rewrite !fv_of. unfold eqm. rewrite Zmult_mod_idemp_l, Zmult_mod_idemp_r. reflexivity. Qed.
Lemma of_sub a b : fe_of p (a - b) = fe_sub (fe_of p a) (fe_of p b).
Proof. apply fe_of_eqm. rewrite !fv_of. unfold eqm. rewrite Zminus_mod_idemp_l, Zminus_mod_idemp_r. reflexivity. Qed.
Lemma of_opp a : fe_of p (- a) = fe_neg (fe_of p a).
Proof. apply fe_of_eqm. rewrite fv_of. unfold eqm. rewrite <- (Z.sub_0_l (a mod P)), Zminus_mod_idemp_r. reflexivity. Qed.
Lemma fe_eq_dec (x y : fe) : {x = y} + {x <> y}.
Proof. destruct (Z.eq_dec (fv x) (fv y)) as [E|N]; [left; apply fe_eq; exact E|right; intros ->; apply N; reflexivity]. Defined.
Lemma equal_iff (x y : fe) : fe_equal x y = true <-> x = y.
Proof. unfold fe_equal. rewrite Z.eqb_eq. split; [apply fe_eq|intros ->; reflexivity]. Qed.
Lemma equal_spec (x y : fe) : reflect (x = y) (fe_equal x y).
Proof. apply iff_reflect. symmetry. apply equal_iff. Qed.
Definition fe_div (x y : fe) : fe := fe_mul x (fe_inv y).
Lemma ring_th : ring_theory (@f0 p) f1 fe_add fe_mul fe_sub fe_neg (@eq fe).
Proof.
  assert (S : forall x, exists z, x = fe_of p z) by (intros x; exists (fv x); symmetry; apply fe_of_fv).
  constructor; intros; repeat match goal with x : Field.fe _ |- _ => let z := fresh "z" in destruct (S x) as [z ->] end; unfold f0, f1;
    rewrite <- ?of_opp, <- ?of_sub, <- ?of_mul, <- ?of_add, <- ?of_mul, <- ?of_add, <- ?of_opp, <- ?of_add; f_equal; ring.
Qed.
Hypothesis Pp : prime P.
Lemma P2 : 2 <= P. Proof. apply prime_ge_2. exact Pp. Qed.
Lemma is_zero_spec (x : fe) : reflect (x = f0) (fe_is_zero x).
Proof.
  unfold fe_is_zero. destruct (Z.eqb_spec (fv x) 0) as [E|N]; constructor.
  - apply fe_eq. rewrite E. unfold f0. rewrite fv_of. symmetry. apply Zmod_0_l.
  - intros ->. apply N. unfold f0. rewrite fv_of. apply Zmod_0_l.
Qed.
Lemma fv_f1 : fv (@f1 p) = 1. Proof. unfold f1. rewrite fv_of. apply Z.mod_small. pose proof P2. lia. Qed.
Lemma fv_f0 : fv (@f0 p) = 0. Proof. apply Zmod_0_l. Qed.
Lemma f1_nz : @f1 p <> f0. Proof. intros E. apply (f_equal fv) in E. rewrite fv_f1, fv_f0 in E. discriminate. Qed.
Lemma fv_nz (x : fe) : x <> f0 -> fv x mod P <> 0.
Proof. intros N E. apply N. apply fe_eq. rewrite fv_f0. rewrite Z.mod_small in E by apply fv_range. exact E. Qed.
Lemma fe_pow_eq (x : fe) e : fe_pow x e = fe_of p (fv x ^ e).
Proof. unfold fe_pow. rewrite powm_eq by discriminate. apply fe_of_eqm. unfold eqm. rewrite Zmod_mod. reflexivity. Qed.
Lemma inv_l (x : fe) : x <> f0 -> fe_mul (fe_inv x) x = f1.
Proof.
  intros N. unfold fe_inv. rewrite fe_pow_eq. rewrite <- (fe_of_fv x) at 2. rewrite <- of_mul. unfold f1. apply fe_of_eqm. unfold eqm.
  pose proof P2. replace (fv x ^ (P - 2) * fv x) with (fv x ^ (P - 1)). { rewrite fermat by (try assumption; apply fv_nz; exact N). rewrite Z.mod_small; lia. }
  replace (P - 1) with (P - 2 + 1) by lia. rewrite Z.pow_add_r, Z.pow_1_r by lia. reflexivity.
Qed.
Lemma field_th : field_theory (@f0 p) f1 fe_add fe_mul fe_sub fe_neg fe_div fe_inv (@eq fe).
Proof. constructor; [exact ring_th|exact f1_nz|reflexivity|exact inv_l]. Qed.
Add Field FeField : field_th.
Lemma inv_0 : 2 < P -> fe_inv (@f0 p) = f0.
Proof. intros H. unfold fe_inv. rewrite fe_pow_eq, fv_f0, Z.pow_0_l by lia. reflexivity. Qed.
Lemma mul_nz (x y : fe) : x <> f0 -> y <> f0 -> fe_mul x y <> f0.
Proof. intros Hx Hy E. apply Hx. transitivity (fe_div (fe_mul x y) y); [field; exact Hy|]. rewrite E. field. exact Hy. Qed.
Lemma inv_nz (x : fe) : x <> f0 -> fe_inv x <> f0.
Proof. intros H E. pose proof (inv_l x H) as X. rewrite E in X. apply f1_nz. rewrite <- X. ring. Qed.
Lemma invert_flag (x : fe) : 2 < P -> snd (fe_invert x) = negb (fe_is_zero x).
Proof.
  intros H. cbn. f_equal. destruct (is_zero_spec x) as [->|N].
  - rewrite inv_0 by exact H. destruct (is_zero_spec (@f0 p)); [reflexivity|contradiction].
  - destruct (is_zero_spec (fe_inv x)) as [E|_]; [contradiction (inv_nz x N)|reflexivity].
Qed.
(* the constant time and the variable time inverse agree *)
Lemma invert_var_eq (x : fe) : 2 < P -> fe_invert_var x = Some (fe_invert x).
Proof.
  intros H. unfold fe_invert_var. pose proof (fv_range x) as R.
  assert (OP : Z.odd P = true). { destruct (Z.odd P) eqn:E; [reflexivity|]. rewrite <- Z.negb_even in E. apply negb_false_iff in E. apply Z.even_spec in E. destruct E as [k Ek].
    destruct (prime_divisors P Pp 2) as [X|[X|[X|X]]]; [exists k; lia|lia|lia|lia|lia]. }
  destruct (mpn_invert_spec (fv x) P ltac:(lia) ltac:(lia) OP) as (r & -> & I). unfold fe_invert.
  destruct (is_zero_spec (fe_inv x)) as [E|N]; cbn [negb].
  - assert (X : x = f0). { destruct (is_zero_spec x) as [X|N]; [exact X|contradiction (inv_nz x N)]. } subst x. rewrite fv_f0 in *.
    destruct r as [r|]; [|rewrite E; reflexivity]. exfalso. unfold inverse_of in I. destruct I as (_ & _ & I); rewrite Z.abs_eq in I by lia. rewrite Z.mul_0_l, Zmod_0_l in I. rewrite (Z.mod_small 1) in I by lia. discriminate.
  - assert (X : x <> f0) by (intros ->; apply N; apply inv_0; exact H).
    destruct r as [r|].
    + unfold inverse_of in I. destruct I as (_ & _ & I); rewrite Z.abs_eq in I by lia. f_equal. f_equal.
      assert (Y : fe_mul x (fe_of p r) = f1). { rewrite <- (fe_of_fv x), <- of_mul. apply fe_of_eqm. unfold eqm. exact I. }
      transitivity (fe_mul (fe_inv x) (fe_mul x (fe_of p r))); [field; exact X|]. rewrite Y. ring.
    + exfalso. unfold inverse_of in I. apply I. apply Zgcd_1_rel_prime. apply rel_prime_sym. apply prime_rel_prime; [exact Pp|]. intros D. apply fv_nz in X. apply X. apply Z.mod_divide; [lia|exact D].
Qed.
End P.
