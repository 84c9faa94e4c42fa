(* Powers and squares of field elements. *)
From Verif.Base Require Import Prelude.
From Coq Require Import Znumtheory.
From Verif.Model Require Import NumTheory Field.
From Verif.Proof Require Import Cong Fermat FieldProof EcCodec.
Section P.
Variable p : positive.
Hypothesis Pp : prime (Zpos p).
Hypothesis P3 : 2 < Zpos p.
Local Notation P := (Zpos p).
Local Notation fe := (fe p).
Add Ring fring : (ring_th p).
Lemma pow_mul (x y : fe) k : 0 <= k -> fe_pow (fe_mul x y) k = fe_mul (fe_pow x k) (fe_pow y k).
Proof.
  intros K. rewrite !fe_pow_eq by exact Pp. rewrite <- of_mul, <- Z.pow_mul_l. apply fe_of_eqm. unfold eqm. change (fv (fe_mul x y)) with ((fv x * fv y) mod P).
  rewrite <- Zpow_facts.Zpower_mod by reflexivity. reflexivity.
Qed.
Lemma pow_add (x : fe) j k : 0 <= j -> 0 <= k -> fe_pow x (j + k) = fe_mul (fe_pow x j) (fe_pow x k).
Proof. intros J K. rewrite !fe_pow_eq by exact Pp. rewrite <- of_mul, Z.pow_add_r by assumption. reflexivity. Qed.
Lemma pow_pow (x : fe) j k : 0 <= j -> 0 <= k -> fe_pow (fe_pow x j) k = fe_pow x (j * k).
Proof.
  intros J K. rewrite !fe_pow_eq by exact Pp. rewrite Z.pow_mul_r by assumption. apply fe_of_eqm. unfold eqm. rewrite fv_of. rewrite <- Zpow_facts.Zpower_mod by reflexivity. reflexivity.
Qed.
Lemma pow_1 (x : fe) : fe_pow x 1 = x.
Proof. rewrite fe_pow_eq by exact Pp. rewrite Z.pow_1_r. apply fe_of_fv. Qed.
Lemma pow_2 (x : fe) : fe_pow x 2 = fe_mul x x.
Proof. change 2 with (1 + 1). rewrite pow_add, pow_1 by lia. reflexivity. Qed.
Lemma one_pow k : 0 <= k -> fe_pow (@f1 p) k = f1.
Proof. intros K. rewrite fe_pow_eq, fv_f1, Z.pow_1_l by (exact Pp || exact K). reflexivity. Qed.
Lemma zero_pow k : 0 < k -> fe_pow (@f0 p) k = f0.
Proof. intros K. rewrite fe_pow_eq, fv_f0, Z.pow_0_l by (exact Pp || lia). reflexivity. Qed.
Lemma fe_fermat (x : fe) : x <> f0 -> fe_pow x (P - 1) = f1.
Proof. intros N. rewrite fe_pow_eq by exact Pp. apply fe_eq. rewrite fv_of, fv_f1 by exact Pp. apply fermat; [exact Pp|]. apply fv_nz; assumption. Qed.
Lemma neg_1_pow k : 0 <= k -> fe_pow (fe_neg (@f1 p)) (2 * k + 1) = fe_neg f1.
Proof.
  intros K. rewrite pow_add, pow_1 by lia. rewrite <- pow_pow by lia. rewrite pow_2. replace (fe_mul (fe_neg f1) (fe_neg (@f1 p))) with (@f1 p) by ring. rewrite one_pow by exact K. ring.
Qed.
Lemma neg_neq : @f1 p <> fe_neg f1.
Proof.
  intros E. apply (f_equal fv) in E. rewrite fv_neg, fv_f1 in E by exact Pp. change (1 =? 0) with false in E. cbv iota in E. lia.
Qed.
Lemma p_half : P = 2 * ((P - 1) / 2) + 1 /\ 0 < (P - 1) / 2.
Proof.
  pose proof (p_odd p Pp P3) as O. rewrite Zodd_mod in O. apply Zeq_bool_eq in O. pose proof (Z.div_mod P 2 ltac:(lia)) as D. rewrite O in D.
  replace (P - 1) with (P / 2 * 2) by lia. rewrite Z.div_mul by lia. lia.
Qed.
Lemma euler_pm (y : fe) : y <> f0 -> fe_pow y ((P - 1) / 2) = f1 \/ fe_pow y ((P - 1) / 2) = fe_neg f1.
Proof.
  intros N. destruct p_half as [E E0]. set (k := (P - 1) / 2) in *. apply (sq_roots p Pp). rewrite <- pow_add by lia. replace (k + k) with (P - 1) by lia. rewrite fe_fermat by exact N. ring.
Qed.
Lemma square_iff (y : fe) : fe_is_square y = true <-> fe_pow y ((P - 1) / 2) <> fe_neg f1.
Proof. unfold fe_is_square. destruct (equal_spec p (fe_pow y ((P - 1) / 2)) (fe_neg f1)) as [E|E]; cbn [negb]; split; intros H; try congruence; try discriminate H. Qed.
Lemma square_0 : fe_is_square (@f0 p) = true.
Proof. apply square_iff. destruct p_half as [E E0]. rewrite zero_pow by exact E0. intros H. apply (f1_nz p Pp). replace (@f1 p) with (fe_neg (fe_neg (@f1 p))) by ring. rewrite <- H. ring. Qed.
Lemma square_mul_sq (y z : fe) : z <> f0 -> fe_is_square (fe_mul y (fe_mul z z)) = fe_is_square y.
Proof.
  intros N. unfold fe_is_square. destruct p_half as [E E0]. rewrite pow_mul by lia. rewrite <- pow_2, pow_pow by lia. replace (2 * ((P - 1) / 2)) with (P - 1) by lia. rewrite fe_fermat by exact N.
  replace (fe_mul (fe_pow y ((P - 1) / 2)) f1) with (fe_pow y ((P - 1) / 2)) by ring. reflexivity.
Qed.
Lemma square_sq (z : fe) : fe_is_square (fe_mul z z) = true.
Proof.
  destruct (fe_eq_dec p z f0) as [-> |N].
  - replace (fe_mul f0 (@f0 p)) with (@f0 p) by ring. exact square_0.
  - replace (fe_mul z z) with (fe_mul f1 (fe_mul z z)) by ring. rewrite square_mul_sq by exact N. apply square_iff. destruct p_half as [E E0]. rewrite one_pow by lia. exact neg_neq.
Qed.
(* Euler: for p = 3 mod 4 the elements accepted are exactly the squares *)
Hypothesis P34 : P mod 4 = 3.
Lemma p_quarter : exists j, 0 <= j /\ (P - 1) / 2 = 2 * j + 1 /\ (P + 1) / 4 = j + 1.
Proof.
  pose proof (Z.div_mod P 4 ltac:(lia)) as D. rewrite P34 in D. exists (P / 4). pose proof (Z.div_pos P 4 ltac:(lia) ltac:(lia)). split; [lia|]. split.
  - symmetry. apply Z.div_unique_exact; lia.
  - symmetry. apply Z.div_unique_exact; lia.
Qed.
Lemma square_neg (y : fe) : y <> f0 -> fe_is_square (fe_neg y) = negb (fe_is_square y).
Proof.
  intros N. destruct p_quarter as (j & J & E & _). pose proof (euler_pm y N) as H. unfold fe_is_square. rewrite E in *. replace (fe_neg y) with (fe_mul (fe_neg f1) y) by ring.
  rewrite pow_mul, neg_1_pow by lia. pose proof neg_neq as NN. destruct H as [-> | ->].
  - destruct (equal_spec p (fe_mul (fe_neg f1) f1) (fe_neg (@f1 p))) as [_|B]; [|exfalso; apply B; ring]. destruct (equal_spec p (@f1 p) (fe_neg f1)); [contradiction|reflexivity].
  - destruct (equal_spec p (fe_mul (fe_neg f1) (fe_neg f1)) (fe_neg (@f1 p))) as [B|_]; [exfalso; apply NN; rewrite <- B; ring|]. destruct (equal_spec p (fe_neg (@f1 p)) (fe_neg f1)); [reflexivity|contradiction].
Qed.
(* the root taken by x^((p+1)/4) of a square is itself a square *)
Lemma root_square (y : fe) : fe_is_square (fe_pow (fe_mul y y) ((P + 1) / 4)) = true.
Proof.
  destruct p_quarter as (j & J & E & E4). rewrite E4. rewrite <- pow_2, pow_pow by lia. replace (2 * (j + 1)) with ((j + 1) * 2) by ring. rewrite <- pow_pow by lia. rewrite pow_2. apply square_sq.
Qed.
Lemma square_root_unique (x y : fe) : fe_mul x x = fe_mul y y -> fe_is_square x = true -> fe_is_square y = true -> x = y.
Proof.
  intros E X Y. destruct (sq_roots p Pp x y E) as [H|H]; [exact H|]. destruct (fe_eq_dec p y f0) as [-> |N]; [rewrite H; ring|]. exfalso. rewrite H, square_neg, Y in X by exact N. discriminate.
Qed.
Lemma square_exists (y : fe) : fe_is_square y = true -> exists z, y = fe_mul z z.
Proof.
  intros S. exists (fe_pow y ((P + 1) / 4)). destruct (fe_eq_dec p y f0) as [-> |N].
  - destruct p_quarter as (j & J & _ & ->). rewrite zero_pow by lia. ring.
  - destruct (euler_pm y N) as [H|H]; [|apply square_iff in S; contradiction]. destruct p_quarter as (j & J & E & E4). rewrite E in H. rewrite E4, <- pow_add by lia. replace (j + 1 + (j + 1)) with (2 * j + 1 + 1) by ring. rewrite pow_add, H, pow_1 by lia. ring.
Qed.
End P.
