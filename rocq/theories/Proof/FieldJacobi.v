(* Euler's criterion and the Jacobi symbol for field elements. *)
From Verif.Base Require Import Prelude.
From Coq Require Import Znumtheory.
From Verif.Model Require Import NumTheory Field.
From Verif.Proof Require Import Cong Fermat FieldProof FieldSquare EcCodec NumJacobi Reciprocity.
Section P.
Variable p : positive.
Hypothesis Pp : prime (Zpos p).
Hypothesis P3 : 2 < Zpos p.
Local Notation P := (Zpos p).
Local Notation fe := (fe p).
Lemma pow_jsym (x : fe) : fe_pow x ((P - 1) / 2) = fe_of p (jsym (fv x) P).
Proof. rewrite fe_pow_eq by exact Pp. apply fe_of_eqm. exact (gauss P (fv x) Pp (p_odd p Pp P3)). Qed.
Lemma neg1_of : fe_neg (@f1 p) = fe_of p (-1).
Proof. apply fe_eq. rewrite fv_neg, fv_f1, fv_of by exact Pp. change (1 =? 0) with false. cbv iota. replace (-1) with (P - 1 + (-1) * P) by lia. rewrite Z.mod_add by lia. rewrite Z.mod_small; lia. Qed.
Lemma jsym_cases (x n : Z) : jsym x n = 0 \/ jsym x n = 1 \/ jsym x n = -1.
Proof. destruct (Z.eq_dec (Z.gcd x n) 1) as [C|C]; [right; exact (jsym_sign x n C)|left; exact (jsym_zero x n C)]. Qed.
Lemma square_jsym (x : fe) : fe_is_square x = (0 <=? jsym (fv x) P).
Proof.
  unfold fe_is_square. rewrite pow_jsym, neg1_of. destruct (equal_spec p (fe_of p (jsym (fv x) P)) (fe_of p (-1))) as [E|E]; cbn [negb].
  - apply (f_equal fv) in E. rewrite !fv_of in E. apply (eqm_iff P) in E; [|lia]. destruct (jsym_cases (fv x) P) as [J|[J|J]]; rewrite J in *; [apply Z.divide_pos_le in E; lia|apply Z.divide_pos_le in E; lia|reflexivity].
  - destruct (jsym_cases (fv x) P) as [J|[J|J]]; rewrite J in *; [reflexivity|reflexivity|congruence].
Qed.
(* both square tests agree *)
Theorem jac (x : fe) : fe_is_square_var x = Some (fe_is_square x).
Proof. unfold fe_is_square_var. pose proof (fv_range p x). rewrite (mpn_jacobi_spec jsym jsym_laws) by (lia || exact (p_odd p Pp P3)). rewrite square_jsym. reflexivity. Qed.
(* and are about squares *)
Theorem square_exists (x : fe) : fe_is_square x = true <-> exists z, fe_mul z z = x.
Proof.
  rewrite square_jsym. destruct (jsym_prime P Pp (p_odd p Pp P3) (fv x)) as (J0 & J1 & J2). split.
  - intros L. apply Z.leb_le in L. destruct (jsym_cases (fv x) P) as [J|[J|J]]; [| |lia].
    + apply J0 in J. exists f0. apply fe_eq. pose proof (fv_range p x) as R. destruct (Z.eq_dec (fv x) 0) as [E|E]; [rewrite E; reflexivity|]. apply Z.divide_pos_le in J; lia.
    + apply J1 in J. destruct J as (_ & z & E). exists (fe_of p z). apply fe_eq. pose proof (fv_range p x) as R. rewrite <- of_mul, fv_of. unfold eqm in E. rewrite E. apply Z.mod_small. exact R.
  - intros (z & <-). apply Z.leb_le. destruct (jsym_cases (fv (fe_mul z z)) P) as [J|[J|J]]; [lia|lia|]. exfalso. apply (proj1 J2 J (fv z)). unfold eqm. change (fv (fe_mul z z)) with ((fv z * fv z) mod P). rewrite Z.mod_mod by lia. reflexivity.
Qed.
End P.
