(* The field as an integral domain, for nsatz. *)
From Coq Require Import Znumtheory Setoid Ncring Cring Integral_domain NsatzTactic.
From Verif.Base Require Import Prelude.
From Verif.Model Require Import NumTheory Field.
From Verif.Proof Require Import Cong FieldProof.
Section P.
Variable p : positive.
Hypothesis Pp : prime (Zpos p).
Local Notation fe := (fe p).
Add Ring fring : (ring_th p).
#[local] Instance fe_ops : @Ring_ops fe f0 f1 fe_add fe_mul fe_sub fe_neg eq := {}.
Lemma fe_ring : @Ring fe f0 f1 fe_add fe_mul fe_sub fe_neg eq fe_ops.
Proof. constructor; try (intros; change (@equality fe eq) with (@eq fe)); try (exact _); try (repeat intro; subst; reflexivity); intros; unfold equality, eq_notation, addition, add_notation, multiplication, mul_notation, zero, zero_notation, one, one_notation, subtraction, sub_notation, opposite, opp_notation; try ring. Qed.
#[local] Existing Instance fe_ring.
Lemma fe_cring : @Cring fe f0 f1 fe_add fe_mul fe_sub fe_neg eq fe_ops fe_ring.
Proof. intros x y. change (fe_mul x y = fe_mul y x). ring. Qed.
#[local] Existing Instance fe_cring.
Lemma fe_dom : @Integral_domain fe f0 f1 fe_add fe_mul fe_sub fe_neg eq fe_ops fe_ring fe_cring.
Proof.
  constructor.
  - intros x y E. change (fe_mul x y = f0) in E. change (x = f0 \/ y = f0). destruct (equal_spec p y f0) as [|N]; [right; assumption|left]. destruct (equal_spec p x f0) as [|M]; [assumption|]. destruct (mul_nz p Pp x y M N E).
  - intros E. change (@f1 p = f0) in E. exact (f1_nz p Pp E).
Qed.
End P.
