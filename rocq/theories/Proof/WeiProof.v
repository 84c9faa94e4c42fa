(* The affine and Jacobian point formulas implement chord and tangent addition, in every case. *)
From Verif.Base Require Import Prelude.
From Coq Require Import Znumtheory Field.
From Verif.Model Require Import Field EcScalar Wei.
From Verif.Spec Require Import EcSpec.
From Verif.Proof Require Import Cong FieldProof EcGroup GrpMul.
Section P.
Variable p : positive.
Hypothesis Pp : prime (Zpos p).
Hypothesis P3 : 2 < Zpos p.
Local Notation fe := (Field.fe p).
Variables a b : fe.
Variable h : Z.
Declare Scope fe_scope.
Delimit Scope fe_scope with fe.
Bind Scope fe_scope with Field.fe.
Local Notation "0" := (@f0 p) : fe_scope.
Local Notation "1" := (@f1 p) : fe_scope.
Local Infix "+" := fe_add : fe_scope.
Local Infix "*" := fe_mul : fe_scope.
Local Infix "-" := fe_sub : fe_scope.
Local Notation "- x" := (fe_neg x) : fe_scope.
Local Infix "/" := (fe_div p) : fe_scope.
Local Notation "2" := (1 + 1)%fe : fe_scope.
Local Notation "3" := (1 + 1 + 1)%fe : fe_scope.
Local Open Scope fe_scope.
Definition Fth := field_th p Pp.
Add Field FF : Fth.
Definition padd' := padd fe 0 1 fe_add fe_mul fe_sub (fe_div p) (fe_eq_dec p) a.
Definition on' := on_curve fe fe_add fe_mul a b.
Definition pneg' := pneg fe fe_neg.
Definition third' := third fe fe_mul fe_sub.
Hypothesis ns : nonsingular fe 0 1 fe_add fe_mul a b.
(* without a cofactor there is no point of order two *)
Hypothesis no2 : (h <= 1)%Z -> forall x, ~ on' (Aff x 0).
Lemma two_nz : 2 <> 0.
Proof.
  intros E. apply (f_equal fv) in E. unfold fe_add in E. rewrite fv_of, fv_f1, fv_f0 in E by exact Pp. rewrite Z.mod_small in E by lia. discriminate.
Qed.
Lemma three_eq : fe_set_int p 3 = 3.
Proof. unfold fe_set_int. change 3%Z with (1 + 1 + 1)%Z. rewrite !of_add. reflexivity. Qed.
Lemma mul3_eq x : fe_mul3 x = 3 * x.
Proof. unfold fe_mul3. rewrite of_mul, fe_of_fv. change 3%Z with (1 + 1 + 1)%Z. rewrite !of_add. reflexivity. Qed.
Lemma mul4_eq x : fe_mul4 x = 2 * 2 * x.
Proof. unfold fe_mul4. rewrite of_mul, fe_of_fv. change 4%Z with ((1 + 1) * (1 + 1))%Z. rewrite of_mul, !of_add. reflexivity. Qed.
Lemma mul8_eq x : fe_mul8 x = 2 * 2 * 2 * x.
Proof. unfold fe_mul8. rewrite of_mul, fe_of_fv. change 8%Z with ((1 + 1) * (1 + 1) * (1 + 1))%Z. rewrite !of_mul, !of_add. reflexivity. Qed.
Lemma mul_a_eq x : wei_mul_a p a x = x * a.
Proof.
  unfold wei_mul_a, zero_a, three_a. destruct (is_zero_spec p a) as [->|N]; [ring|]. destruct (equal_spec p a (fe_neg (fe_set_int p 3))) as [E|N']; [|reflexivity].
  rewrite mul3_eq. rewrite E, three_eq. ring.
Qed.
Lemma solve_y2_eq x : wei_solve_y2 p a b x = x * x * x + a * x + b.
Proof. unfold wei_solve_y2, fe_sqr. rewrite mul_a_eq. ring. Qed.
Lemma validate_iff x y : wei_validate_xy p a b x y = true <-> on' (Aff x y).
Proof. unfold wei_validate_xy. rewrite equal_iff, solve_y2_eq. reflexivity. Qed.
Definition mnz := FieldProof.mul_nz p Pp.
Lemma nz_mul_l x y : x * y <> 0 -> x <> 0. Proof. intros H ->. apply H. ring. Qed.
Lemma nz_mul_r x y : x * y <> 0 -> y <> 0. Proof. intros H ->. apply H. ring. Qed.
Lemma nz_sub x y : x <> y -> x - y <> 0.
Proof. intros H E. apply H. transitivity (x - y + y); [ring|]. rewrite E. ring. Qed.
Lemma sub_0 x y : x - y = 0 -> x = y. Proof. intros E. transitivity (x - y + y); [ring|]. rewrite E. ring. Qed.
Lemma is_zero_0 : fe_is_zero (@f0 p) = true. Proof. destruct (is_zero_spec p 0); [reflexivity|contradiction]. Qed.
Lemma is_zero_nz (x : fe) : x <> 0 -> fe_is_zero x = false. Proof. intros N. destruct (is_zero_spec p x); [contradiction|reflexivity]. Qed.
Lemma neg_0 : - 0 = 0. Proof. ring. Qed.
Lemma inv_mul x : x <> 0 -> fe_inv x * x = 1. Proof. exact (inv_l p Pp x). Qed.
Lemma div_mul n d : d <> 0 -> n / d * d = n.
Proof. intros D. unfold fe_div. transitivity (n * (fe_inv d * d)); [ring|]. rewrite inv_mul by exact D. ring. Qed.
Lemma cancel_r x y d : d <> 0 -> x * d = y * d -> x = y.
Proof. intros D E. transitivity (x * d / d); [|rewrite E]; unfold fe_div. - transitivity (x * (fe_inv d * d)); [rewrite inv_mul by exact D; ring|ring]. - transitivity (y * (fe_inv d * d)); [ring|rewrite inv_mul by exact D; ring]. Qed.
Lemma div_eq n d l : d <> 0 -> n = l * d -> n / d = l.
Proof. intros D E. apply (cancel_r _ _ d D). rewrite div_mul by exact D. exact E. Qed.
(* the group laws of EcGroup at this field *)
Lemma on_add' P Q : on' P -> on' Q -> on' (padd' P Q).
Proof. eapply EcGroup.on_add; [exact Fth|exact two_nz]. Qed.
Lemma on_neg' P : on' P -> on' (pneg' P).
Proof. eapply EcGroup.on_neg; exact Fth. Qed.
Lemma add_comm' P Q : padd' P Q = padd' Q P.
Proof. eapply EcGroup.add_comm. exact Fth. Qed.
Lemma add_gen' x1 y1 x2 y2 : x1 <> x2 -> padd' (Aff x1 y1) (Aff x2 y2) = third' ((y1 - y2) / (x1 - x2)) x1 y1 x2.
Proof. apply EcGroup.add_gen. Qed.
Lemma add_tan' x y : y <> 0 -> padd' (Aff x y) (Aff x y) = third' ((3 * (x * x) + a) / (2 * y)) x y x.
Proof. apply EcGroup.add_tan. Qed.
Lemma add_inv' x y : padd' (Aff x y) (Aff x (- y)) = Inf.
Proof. eapply EcGroup.add_inv; [exact Fth|exact two_nz]. Qed.
Lemma add_inf_r' P : padd' P Inf = P. Proof. destruct P; reflexivity. Qed.
Lemma same_x' x y y' : on' (Aff x y) -> on' (Aff x y') -> y = y' \/ y = - y'.
Proof. eapply EcGroup.same_x; [exact Fth|exact (fe_eq_dec p)]. Qed.
Lemma add_2tor x : padd' (Aff x 0) (Aff x 0) = Inf.
Proof. rewrite <- (add_inv' x 0) at 1. rewrite neg_0. reflexivity. Qed.
Lemma laws : group_laws (point fe) on' padd' Inf pneg'.
Proof.
  constructor.
  - exact Logic.I.
  - exact on_neg'.
  - exact on_add'.
  - intros P Q _ _. apply add_comm'.
  - intros P Q R. eapply EcGroup.add_assoc; [exact Fth|exact two_nz|exact ns].
  - intros P _. reflexivity.
  - intros P _. eapply EcGroup.add_neg; [exact Fth|exact two_nz].
Qed.
(* ---- representations ---- *)
Inductive wrep : wge p -> point fe -> Prop :=
| wr_inf : wrep (wge_zero p) Inf
| wr_aff x y : on' (Aff x y) -> wrep (MkW x y false) (Aff x y).
Inductive jrep : jge p -> point fe -> Prop :=
| jr_inf : jrep (jge_zero p) Inf
| jr_aff x y z af X Y : z <> 0 -> x = X * (z * z) -> y = Y * (z * z * z) -> (af = true -> z = 1) -> on' (Aff X Y) ->
    jrep (MkJ x y z false af) (Aff X Y).
Lemma wrep_on q P : wrep q P -> on' P. Proof. intros [|x y H]; [exact Logic.I|exact H]. Qed.
Lemma jrep_on q P : jrep q P -> on' P. Proof. intros [|]; [exact Logic.I|assumption]. Qed.
Lemma jr_intro x y z P X Y : P = Aff X Y -> z <> 0 -> x = X * (z * z) -> y = Y * (z * z * z) -> on' P -> jrep (MkJ x y z false false) P.
Proof. intros -> Z Ex Ey O. constructor; try assumption. discriminate. Qed.
(* ---- the unified slope ---- *)
Lemma bj_rel x1 y1 x2 y2 : on' (Aff x1 y1) -> on' (Aff x2 y2) -> (y1 + y2) * (y1 - y2) = ((x1 + x2) * (x1 + x2) - x1 * x2 + a) * (x1 - x2).
Proof. cbn. intros E1 E2. transitivity (y1 * y1 - y2 * y2); [ring|]. rewrite E1, E2. ring. Qed.
(* a nonzero sum of ordinates: the unified slope is the slope *)
Lemma bj_slope x1 y1 x2 y2 l : on' (Aff x1 y1) -> on' (Aff x2 y2) -> y1 + y2 <> 0 ->
  l * (y1 + y2) = (x1 + x2) * (x1 + x2) - x1 * x2 + a ->
  l * (x1 - x2) = y1 - y2 /\ padd' (Aff x1 y1) (Aff x2 y2) = third' l x1 y1 x2.
Proof.
  intros O1 O2 M L. pose proof (bj_rel _ _ _ _ O1 O2) as R.
  assert (E : l * (x1 - x2) = y1 - y2).
  { apply (cancel_r _ _ (y1 + y2) M). transitivity (l * (y1 + y2) * (x1 - x2)); [ring|]. rewrite L, <- R. ring. }
  split; [exact E|]. destruct (fe_eq_dec p x1 x2) as [->|NX].
  - destruct (same_x' _ _ _ O1 O2) as [-> | ->]; [|exfalso; apply M; ring].
    assert (NY : y2 <> 0) by (intros ->; apply M; ring). rewrite add_tan' by exact NY. f_equal. apply div_eq; [apply mnz; [exact two_nz|exact NY]|]. transitivity (l * (y2 + y2)); [rewrite L; ring|ring].
  - rewrite add_gen' by exact NX. f_equal. apply div_eq; [apply nz_sub; exact NX|]. symmetry. exact E.
Qed.
Lemma bj_deg x1 y1 x2 y2 : on' (Aff x1 y1) -> on' (Aff x2 y2) -> y1 + y2 = 0 -> x1 <> x2 ->
  padd' (Aff x1 y1) (Aff x2 y2) = third' (2 * y1 / (x1 - x2)) x1 y1 x2.
Proof.
  intros O1 O2 M NX. rewrite add_gen' by exact NX. f_equal. assert (y2 = - y1) as -> by (transitivity (y1 + y2 - y1); [ring|rewrite M; ring]). apply div_eq; [apply nz_sub; exact NX|]. rewrite div_mul by (apply nz_sub; exact NX). ring.
Qed.
Lemma bj_inf x y1 y2 : y1 + y2 = 0 -> padd' (Aff x y1) (Aff x y2) = Inf.
Proof. intros M. assert (y2 = - y1) as -> by (transitivity (y1 + y2 - y1); [ring|rewrite M; ring]). apply add_inv'. Qed.
(* either the patched slope applies, or the points are opposite *)
Lemma bj_split x1 y1 x2 y2 : on' (Aff x1 y1) -> on' (Aff x2 y2) -> y1 + y2 = 0 -> (x1 + x2) * (x1 + x2) - x1 * x2 + a <> 0 -> x1 = x2.
Proof.
  intros O1 O2 M R. pose proof (bj_rel _ _ _ _ O1 O2) as E. rewrite M in E. destruct (fe_eq_dec p x1 x2) as [X|N]; [exact X|exfalso].
  apply (mnz _ _ R (nz_sub _ _ N)). rewrite <- E. ring.
Qed.
(* ---- affine ---- *)
Lemma finish_eq l x1 y1 x2 : let '(x3, y3) := wge_finish p l x1 y1 x2 in Aff x3 y3 = third' l x1 y1 x2.
Proof. unfold wge_finish, third', third, fe_sqr. cbv zeta. f_equal. ring. Qed.
Lemma wrep_third x3 y3 P : Aff x3 y3 = P -> on' P -> wrep (MkW x3 y3 false) P.
Proof. intros <- O. constructor. exact O. Qed.
Lemma wge_neg_ok q P : wrep q P -> wrep (wge_neg p q) (pneg' P).
Proof. intros [|x y O]; unfold wge_neg; cbn [wx wy winf wge_zero]; [rewrite neg_0; constructor|constructor; exact (on_neg' _ O)]. Qed.
Lemma h_cases y x : on' (Aff x y) -> ((1 <? h)%Z && fe_is_zero y = true /\ y = 0) \/ ((1 <? h)%Z && fe_is_zero y = false /\ y <> 0).
Proof.
  intros O. destruct (Z.ltb_spec 1 h) as [H|H]; cbn [andb].
  - destruct (is_zero_spec p y) as [E|N]; [left|right]; split; try reflexivity; assumption.
  - right. split; [reflexivity|]. intros ->. exact (no2 H _ O).
Qed.
Lemma invert_nz x : x <> 0 -> fe_invert x = (fe_inv x, true).
Proof. intros N. unfold fe_invert. f_equal. pose proof (invert_flag p Pp x P3) as F. cbn [fe_invert snd] in F. rewrite F, is_zero_nz by exact N. reflexivity. Qed.
Lemma invert_var_nz x : x <> 0 -> fe_invert_var x = Some (fe_inv x, true).
Proof. intros N. rewrite invert_var_eq by (try exact Pp; exact P3). rewrite invert_nz by exact N. reflexivity. Qed.
Lemma dbl_nz y : y <> 0 -> y + y <> 0.
Proof. intros N. replace (y + y) with (2 * y) by ring. apply mnz; [exact two_nz|exact N]. Qed.
Lemma wge_dbl_var_ok q P : wrep q P -> exists r, wge_dbl_var p a h q = Some r /\ wrep r (padd' P P).
Proof.
  intros [|x y O].
  - exists (wge_zero p). split; [reflexivity|constructor].
  - unfold wge_dbl_var. cbn [winf wx wy]. destruct (h_cases y x O) as [[-> ->]|[-> N]].
    + eexists. split; [reflexivity|]. rewrite add_2tor. constructor.
    + rewrite invert_var_nz by (apply dbl_nz; exact N). eexists. split; [reflexivity|]. apply wrep_third; [|apply on_add'; exact O].
      rewrite add_tan' by exact N. rewrite finish_eq. f_equal. rewrite mul3_eq. unfold fe_sqr. symmetry. apply div_eq; [apply mnz; [exact two_nz|exact N]|]. transitivity ((3 * (x * x) + a) * (fe_inv (y + y) * (y + y))); [rewrite inv_mul by (apply dbl_nz; exact N); ring|ring].
Qed.
Lemma wge_add_var_ok q1 q2 P Q : wrep q1 P -> wrep q2 Q -> exists r, wge_add_var p a h q1 q2 = Some r /\ wrep r (padd' P Q).
Proof.
  intros H1 H2. destruct H1 as [|x1 y1 O1]; [exists q2; split; [reflexivity|exact H2]|]. destruct H2 as [|x2 y2 O2].
  - eexists. split; [reflexivity|]. constructor. exact O1.
  - unfold wge_add_var. cbn [winf wx wy]. destruct (equal_spec p x1 x2) as [->|NX].
    + destruct (equal_spec p y1 y2) as [->|NY].
      * apply wge_dbl_var_ok. constructor. exact O1.
      * eexists. split; [reflexivity|]. destruct (same_x' _ _ _ O1 O2) as [E| ->]; [contradiction|]. rewrite add_comm', add_inv'. constructor.
    + pose proof (nz_sub _ _ NX) as NS. destruct (equal_spec p y1 y2) as [->|NY].
      * eexists. split; [reflexivity|]. apply wrep_third; [|apply on_add'; assumption]. rewrite add_gen' by exact NX. unfold third', third. assert ((y2 - y2) / (x1 - x2) = 0) as -> by (apply div_eq; [exact NS|ring]). cbv zeta. f_equal; ring.
      * rewrite invert_var_nz by exact NS. eexists. split; [reflexivity|]. apply wrep_third; [|apply on_add'; assumption]. rewrite add_gen' by exact NX. rewrite finish_eq. reflexivity.
Qed.
Lemma wge_sub_var_ok q1 q2 P Q : wrep q1 P -> wrep q2 Q -> exists r, wge_sub_var p a h q1 q2 = Some r /\ wrep r (padd' P (pneg' Q)).
Proof. intros H1 H2. apply wge_add_var_ok; [exact H1|apply wge_neg_ok; exact H2]. Qed.
Lemma wge_dbl_ok q P : wrep q P -> wrep (wge_dbl p a h q) (padd' P P).
Proof.
  intros [|x y O]; unfold wge_dbl; cbn [winf wx wy wge_zero orb fe_select].
  - destruct (wge_finish _ _ _ _ _). constructor.
  - destruct (h_cases y x O) as [[-> ->]|[-> N]]; cbn [fe_select].
    + destruct (wge_finish _ _ _ _ _). rewrite add_2tor. constructor.
    + rewrite invert_nz by (apply dbl_nz; exact N). cbn [fst].
      match goal with |- wrep (let '(_, _) := wge_finish _ ?l _ _ _ in _) _ => pose proof (finish_eq l x y x) as E; destruct (wge_finish p l x y x) as [x3 y3] end.
      apply wrep_third; [|apply on_add'; exact O]. rewrite E, add_tan' by exact N. f_equal.
      rewrite mul3_eq. unfold fe_sqr. symmetry. apply div_eq; [apply mnz; [exact two_nz|exact N]|]. transitivity ((3 * (x * x) + a) * (fe_inv (y + y) * (y + y))); [rewrite inv_mul by (apply dbl_nz; exact N); ring|ring].
Qed.
Lemma wge_add_ok q1 q2 P Q : wrep q1 P -> wrep q2 Q -> wrep (wge_add p a q1 q2) (padd' P Q).
Proof.
  intros H1 H2. destruct H1 as [|x1 y1 O1].
  { unfold wge_add. cbn [winf wx wy wge_zero orb negb andb fe_select]. destruct (fe_invert _) as [mi ok]. destruct (wge_finish _ _ _ _ _) as [x3 y3]. rewrite andb_false_r. cbn [orb].
    destruct H2 as [|x2 y2 O2]; cbn [winf wx wy wge_zero fe_select]; constructor. exact O2. }
  destruct H2 as [|x2 y2 O2].
  { unfold wge_add. cbn [winf wx wy wge_zero orb negb andb fe_select]. destruct (fe_invert _) as [mi ok]. destruct (wge_finish _ _ _ _ _) as [x3 y3]. rewrite andb_false_r. cbn [orb].
    constructor. exact O1. }
  unfold wge_add. cbn [winf wx wy orb negb andb]. unfold fe_sqr.
  set (m := y1 + y2). set (r := (x1 + x2) * (x1 + x2) - x1 * x2 + a).
  assert (G : forall m' r' x1' l, m' <> 0 -> r' * fe_inv m' = l -> padd' (Aff x1 y1) (Aff x2 y2) = third' l x1 y1 x2 -> x1' = x1 ->
    wrep (let '(mi, ok) := fe_invert m' in let '(x3, y3) := wge_finish p (r' * mi) x1' y1 x2 in MkW (fe_select x3 0 (negb ok && true || false)) (fe_select y3 0 (negb ok && true || false)) (negb ok && true || false)) (padd' (Aff x1 y1) (Aff x2 y2))).
  { intros m' r' x1' l NM EL T ->. rewrite invert_nz by exact NM. rewrite EL. pose proof (finish_eq l x1 y1 x2) as E. destruct (wge_finish p l x1 y1 x2) as [x3 y3]. cbn [negb andb orb fe_select]. apply wrep_third; [|apply on_add'; assumption]. rewrite T. exact E. }
  assert (Z0 : forall r' u1 u2, wrep (let '(mi, ok) := fe_invert 0 in let '(x3, y3) := wge_finish p (r' * mi) u1 y1 u2 in MkW (fe_select x3 0 (negb ok && true || false)) (fe_select y3 0 (negb ok && true || false)) (negb ok && true || false)) Inf).
  { intros r' u1 u2. unfold fe_invert. rewrite inv_0 by (try exact Pp; exact P3). rewrite is_zero_0. cbn [negb andb orb]. destruct (wge_finish _ _ _ _ _) as [x3 y3]. cbn [fe_select]. constructor. }
  destruct (is_zero_spec p m) as [M|M]; cbn [andb].
  - destruct (is_zero_spec p r) as [R|R]; cbn [fe_select].
    + destruct (fe_eq_dec p x1 x2) as [EX|NX].
      * rewrite <- EX. assert (x1 - x1 = 0) as -> by ring. rewrite bj_inf by exact M. apply Z0.
      * apply (G (x1 - x2) (y1 + y1) x1 (2 * y1 / (x1 - x2))); [apply nz_sub; exact NX| |apply bj_deg; assumption|reflexivity]. unfold fe_div. ring.
    + rewrite M. pose proof (bj_split _ _ _ _ O1 O2 M R) as EX. replace (padd' (Aff x1 y1) (Aff x2 y2)) with (@Inf fe) by (rewrite EX, bj_inf by exact M; reflexivity). apply Z0.
  - cbn [fe_select]. apply (G m r x1 (r / m)); [exact M|reflexivity| |reflexivity]. apply bj_slope; try assumption. rewrite div_mul by exact M. reflexivity.
Qed.
Lemma wge_sub_ok q1 q2 P Q : wrep q1 P -> wrep q2 Q -> wrep (wge_sub p a q1 q2) (padd' P (pneg' Q)).
Proof. intros H1 H2. apply wge_add_ok; [exact H1|apply wge_neg_ok; exact H2]. Qed.
(* ---- Jacobian ---- *)
Definition dbl_form (x y z : fe) : fe * fe * fe :=
  let M := 3 * (x * x) + a * (z * z * z * z) in
  let S := 2 * 2 * x * (y * y) in
  let x3 := M * M - S - S in
  (x3, M * (S - x3) - 2 * 2 * 2 * (y * y * y * y), 2 * y * z).
Lemma dbl_xyz_eq q : jge_dbl_xyz p a q = dbl_form (jx q) (jy q) (jz q).
Proof.
  destruct q as [x y z i f]. unfold jge_dbl_xyz, zero_a, three_a, dbl_form. cbn [jx jy jz]. destruct (is_zero_spec p a) as [A|_].
  - unfold jge_dbl0, fe_sqr. cbn [jx jy jz]. rewrite mul3_eq, mul8_eq, A. f_equal; [f_equal|]; ring.
  - destruct (equal_spec p a (- fe_set_int p 3)) as [A|_]; [rewrite three_eq in A; unfold jge_dbl3|unfold jge_dblj]; unfold fe_sqr; cbn [jx jy jz]; rewrite ?mul3_eq, ?mul8_eq, ?mul4_eq; [rewrite A|]; (f_equal; [f_equal|]; ring).
Qed.
Lemma dbl_form_ok X Y z : on' (Aff X Y) -> Y <> 0 -> z <> 0 ->
  let '(x3, y3, z3) := dbl_form (X * (z * z)) (Y * (z * z * z)) z in
  forall af, af = false -> jrep (MkJ x3 y3 z3 false af) (padd' (Aff X Y) (Aff X Y)).
Proof.
  intros O N Z. unfold dbl_form. cbv zeta. intros af ->. pose proof (mnz _ _ two_nz N) as N2. rewrite add_tan' by exact N.
  pose proof (on_add' _ _ O O) as ON. rewrite add_tan' in ON by exact N.
  pose proof (div_mul (3 * (X * X) + a) (2 * Y) N2) as L. set (l := (3 * (X * X) + a) / (2 * Y)) in *. clearbody l.
  assert (E : 3 * (X * (z * z) * (X * (z * z))) + a * (z * z * z * z) = l * (2 * Y) * (z * z * z * z)) by (rewrite L; ring). rewrite E.
  eapply jr_intro; [reflexivity| | | |exact ON].
  - replace (2 * (Y * (z * z * z)) * z) with ((2 * Y) * ((z * z) * (z * z))) by ring. apply mnz; [exact N2|]. repeat apply mnz; exact Z.
  - ring.
  - ring.
Qed.
Lemma jy_zero Y z : z <> 0 -> fe_is_zero (Y * (z * z * z)) = fe_is_zero Y.
Proof.
  intros Z. destruct (is_zero_spec p Y) as [->|N]; [|apply is_zero_nz; repeat apply mnz; assumption].
  replace (0 * (z * z * z)) with 0 by ring. apply is_zero_0.
Qed.
Lemma jge_dbl_var_ok q P : jrep q P -> jrep (jge_dbl_var p a h q) (padd' P P).
Proof.
  intros [|x y z af X Y Z -> -> AF O]; [constructor|]. unfold jge_dbl_var. cbn [jinf jy]. rewrite jy_zero by exact Z.
  destruct (h_cases Y X O) as [[-> ->]|[-> N]]; [rewrite add_2tor; constructor|]. rewrite dbl_xyz_eq. cbn [jx jy jz].
  pose proof (dbl_form_ok X Y z O N Z) as H. destruct (dbl_form _ _ _) as [[x3 y3] z3]. apply H. reflexivity.
Qed.
Lemma jge_dbl_ok q P : jrep q P -> jrep (jge_dbl p a h q) (padd' P P).
Proof.
  intros [|x y z af X Y Z -> -> AF O]; unfold jge_dbl; rewrite dbl_xyz_eq; cbn [jinf jy jx jz jge_zero orb].
  - unfold dbl_form. destruct (1 <? h)%Z; cbn [fe_select]; [constructor|].
    replace (MkJ _ _ _ true false) with (jge_zero p); [constructor|]. unfold jge_zero. f_equal; ring.
  - rewrite jy_zero by exact Z. destruct (h_cases Y X O) as [[-> ->]|[-> N]].
    + destruct (dbl_form _ _ _) as [[x3 y3] z3]. rewrite add_2tor. destruct (Z.ltb_spec 1 h) as [H|H]; [constructor|]. exfalso. exact (no2 H _ O).
    + pose proof (dbl_form_ok X Y z O N Z) as H. destruct (dbl_form _ _ _) as [[x3 y3] z3]. destruct (1 <? h)%Z; cbn [fe_select]; apply H; reflexivity.
Qed.
Lemma jge_neg_ok q P : jrep q P -> jrep (jge_neg p q) (pneg' P).
Proof.
  intros [|x y z af X Y Z -> -> AF O]; [constructor|]. unfold jge_neg. cbn [jx jy jz jinf jaff fe_select]. constructor; try assumption; [reflexivity|ring|exact (on_neg' _ O)].
Qed.
Lemma jge_neg_cond_ok q P flag : jrep q P -> jrep (jge_neg_cond p q flag) (if flag then pneg' P else P).
Proof.
  intros H. destruct flag; [exact (jge_neg_ok q P H)|]. destruct H as [|x y z af X Y Z -> -> AF O]; [constructor|]. unfold jge_neg_cond, fe_neg_cond. cbn [jx jy jz jinf jaff fe_select]. constructor; try assumption; reflexivity.
Qed.
Lemma jge_set_wge_ok q P : wrep q P -> jrep (jge_set_wge p q) P.
Proof.
  intros [|x y O]; [constructor|]. unfold jge_set_wge. cbn [wx wy winf fe_select negb]. constructor; try ring; try exact O; [apply f1_nz; exact Pp|reflexivity].
Qed.
(* the general chord step shared by jge_addsub_var and jge_mixed_addsub_var *)
Lemma chord_ok X1 Y1 X2 Y2 c x3 y3 z3 t : on' (Aff X1 Y1) -> on' (Aff X2 Y2) -> c <> 0 -> X1 <> X2 -> t <> 0 ->
  z3 = t * (c * (X2 - X1) * (c * c)) ->
  x3 = t * t * ((Y2 - Y1) * (c * c * c) * ((Y2 - Y1) * (c * c * c)) - (X2 - X1) * (c * c) * ((X2 - X1) * (c * c)) * ((X2 - X1) * (c * c)) - 2 * (X1 * (c * c) * ((X2 - X1) * (c * c) * ((X2 - X1) * (c * c))))) ->
  y3 = t * ((Y2 - Y1) * (c * c * c)) * (t * t * (X1 * (c * c) * ((X2 - X1) * (c * c) * ((X2 - X1) * (c * c)))) - x3) - t * t * t * (Y1 * (c * c * c) * ((X2 - X1) * (c * c) * ((X2 - X1) * (c * c)) * ((X2 - X1) * (c * c)))) ->
  jrep (MkJ x3 y3 z3 false false) (padd' (Aff X1 Y1) (Aff X2 Y2)).
Proof.
  intros O1 O2 C NX T -> -> ->. pose proof (on_add' _ _ O1 O2) as ON. rewrite add_gen' in ON |- * by exact NX.
  pose proof (div_mul (Y1 - Y2) (X1 - X2) (nz_sub _ _ NX)) as L. set (l := (Y1 - Y2) / (X1 - X2)) in *. clearbody l.
  assert (E : Y2 = Y1 - l * (X1 - X2)) by (rewrite L; ring). clear L. rewrite E.
  eapply jr_intro; [reflexivity| | | |exact ON].
  - apply mnz; [exact T|]. assert (X2 - X1 <> 0) by (apply nz_sub; intros Q; apply NX; symmetry; exact Q). repeat apply mnz; assumption.
  - ring.
  - ring.
Qed.
Lemma mul_eq_0 x d : d <> 0 -> x * d = 0 -> x = 0.
Proof. intros D E. apply (cancel_r _ _ d D). rewrite E. ring. Qed.
Lemma same_neg X Y1 Y2 : on' (Aff X Y1) -> on' (Aff X Y2) -> Y1 <> Y2 -> padd' (Aff X Y1) (Aff X Y2) = Inf.
Proof. intros O1 O2 N. destruct (same_x' _ _ _ O1 O2) as [E| ->]; [contradiction|]. rewrite add_comm'. apply add_inv'. Qed.
Definition sgn (sign : bool) (P : point fe) : point fe := if sign then P else pneg' P.
Lemma on_sgn s P : on' P -> on' (sgn s P). Proof. destruct s; [exact (fun H => H)|apply on_neg']. Qed.
Lemma addsub_ok x1 y1 z1 f1' x2 y2 z2 f2' P Q sign : jrep (MkJ x1 y1 z1 false f1') P -> jrep (MkJ x2 y2 z2 false f2') Q ->
  jrep (jge_addsub_var p a h (MkJ x1 y1 z1 false f1') (MkJ x2 y2 z2 false f2') sign) (padd' P (sgn sign Q)).
Proof.
  intros H1 H2. pose proof H1 as H1'. inversion H1 as [|? ? ? ? X1 Y1 Z1 E1 F1 AF1 O1]; subst. inversion H2 as [|? ? ? ? X2 Y2 Z2 E2 F2 AF2 O2]; subst. clear H1 H2.
  unfold jge_addsub_var. cbn [jx jy jz jinf jaff]. unfold fe_sqr. set (c := z1 * z2).
  assert (C : c <> 0) by (apply mnz; assumption). assert (C2 : c * c <> 0) by (apply mnz; assumption). assert (C3 : c * c * c <> 0) by (apply mnz; assumption).
  assert (HE : X2 * (z2 * z2) * (z1 * z1) - X1 * (z1 * z1) * (z2 * z2) = (X2 - X1) * (c * c)) by (unfold c; ring).
  assert (VE : X1 * (z1 * z1) * (z2 * z2) = X1 * (c * c)) by (unfold c; ring).
  assert (S1 : Y1 * (z1 * z1 * z1) * z2 * (z2 * z2) = Y1 * (c * c * c)) by (unfold c; ring).
  assert (S2 : Y2 * (z2 * z2 * z2) * z1 * (z1 * z1) = Y2 * (c * c * c)) by (unfold c; ring).
  rewrite HE, VE, S1, S2.
  destruct (is_zero_spec p ((X2 - X1) * (c * c))) as [H0|HN].
  - apply mul_eq_0 in H0; [|exact C2]. apply sub_0 in H0. subst X2. destruct sign; cbn [sgn].
    + destruct (is_zero_spec p (Y2 * (c * c * c) - Y1 * (c * c * c))) as [R0|RN].
      * apply sub_0 in R0. apply cancel_r in R0; [|exact C3]. subst Y2. apply jge_dbl_var_ok. exact H1'.
      * rewrite same_neg; try assumption; [constructor|]. intros ->. apply RN. ring.
    + change (pneg' (Aff X1 Y2)) with (Aff X1 (- Y2)). pose proof (on_neg' _ O2) as O2'. change (pneg' (Aff X1 Y2)) with (Aff X1 (- Y2)) in O2'.
      destruct (is_zero_spec p (Y2 * (c * c * c) + Y1 * (c * c * c))) as [R0|RN].
      * assert (E : - Y2 = Y1). { apply (cancel_r _ _ (c * c * c) C3). transitivity (Y1 * (c * c * c) - (Y2 * (c * c * c) + Y1 * (c * c * c))); [ring|]. rewrite R0. ring. }
        rewrite E. apply jge_dbl_var_ok. exact H1'.
      * rewrite same_neg; try assumption; [constructor|]. intros E. apply RN. rewrite E. ring.
  - assert (NX : X1 <> X2) by (intros ->; apply HN; ring). destruct sign; cbn [sgn].
    + apply (chord_ok X1 Y1 X2 Y2 c _ _ _ 1); try assumption; try (apply f1_nz; exact Pp); try (unfold c; ring). 
    + change (pneg' (Aff X2 Y2)) with (Aff X2 (- Y2)). pose proof (on_neg' _ O2) as O2'. change (pneg' (Aff X2 Y2)) with (Aff X2 (- Y2)) in O2'.
      apply (chord_ok X1 Y1 X2 (- Y2) c _ _ _ 1); try assumption; try (apply f1_nz; exact Pp); try (unfold c; ring).
Qed.
Lemma mixed_addsub_ok x1 y1 z1 f1' X2 Y2 P sign : jrep (MkJ x1 y1 z1 false f1') P -> on' (Aff X2 Y2) ->
  jrep (jge_mixed_addsub_var p a h (MkJ x1 y1 z1 false f1') X2 Y2 sign) (padd' P (sgn sign (Aff X2 Y2))).
Proof.
  intros H1 O2. pose proof H1 as H1'. inversion H1 as [|? ? ? ? X1 Y1 C E1 F1 AF1 O1]; subst. clear H1. rename z1 into c.
  unfold jge_mixed_addsub_var. cbn [jx jy jz jinf jaff]. unfold fe_sqr.
  assert (C2 : c * c <> 0) by (apply mnz; assumption). assert (C3 : c * c * c <> 0) by (apply mnz; assumption).
  assert (HE : X2 * (c * c) - X1 * (c * c) = (X2 - X1) * (c * c)) by ring.
  assert (S2 : Y2 * c * (c * c) = Y2 * (c * c * c)) by ring.
  rewrite HE, S2.
  destruct (is_zero_spec p ((X2 - X1) * (c * c))) as [H0|HN].
  - apply mul_eq_0 in H0; [|exact C2]. apply sub_0 in H0. subst X2. destruct sign; cbn [sgn].
    + destruct (is_zero_spec p (Y2 * (c * c * c) - Y1 * (c * c * c))) as [R0|RN].
      * apply sub_0 in R0. apply cancel_r in R0; [|exact C3]. subst Y2. apply jge_dbl_var_ok. exact H1'.
      * rewrite same_neg; try assumption; [constructor|]. intros ->. apply RN. ring.
    + change (pneg' (Aff X1 Y2)) with (Aff X1 (- Y2)). pose proof (on_neg' _ O2) as O2'. change (pneg' (Aff X1 Y2)) with (Aff X1 (- Y2)) in O2'.
      destruct (is_zero_spec p (Y2 * (c * c * c) + Y1 * (c * c * c))) as [R0|RN].
      * assert (E : - Y2 = Y1). { apply (cancel_r _ _ (c * c * c) C3). transitivity (Y1 * (c * c * c) - (Y2 * (c * c * c) + Y1 * (c * c * c))); [ring|]. rewrite R0. ring. }
        rewrite E. apply jge_dbl_var_ok. exact H1'.
      * rewrite same_neg; try assumption; [constructor|]. intros E. apply RN. rewrite E. ring.
  - assert (NX : X1 <> X2) by (intros ->; apply HN; ring). destruct sign; cbn [sgn].
    + apply (chord_ok X1 Y1 X2 Y2 c _ _ _ 2); try assumption; try exact two_nz; ring.
    + change (pneg' (Aff X2 Y2)) with (Aff X2 (- Y2)). pose proof (on_neg' _ O2) as O2'. change (pneg' (Aff X2 Y2)) with (Aff X2 (- Y2)) in O2'.
      apply (chord_ok X1 Y1 X2 (- Y2) c _ _ _ 2); try assumption; try exact two_nz; ring.
Qed.
Lemma aff_coords x y z P : jrep (MkJ x y z false true) P -> P = Aff x y.
Proof. intros H. inversion H as [|? ? ? ? X Y Z E F AF O]; subst. rewrite (AF eq_refl). f_equal; ring. Qed.
Lemma jge_add_var_ok q1 q2 P Q : jrep q1 P -> jrep q2 Q -> jrep (jge_add_var p a h q1 q2) (padd' P Q).
Proof.
  intros H1 H2. unfold jge_add_var. destruct q1 as [x1 y1 z1 [|] f1']; cbn [jinf].
  { inversion H1; subst. exact H2. } destruct q2 as [x2 y2 z2 [|] [|]]; cbn [jinf jaff jx jy].
  - inversion H2.
  - inversion H2; subst. rewrite add_inf_r'. exact H1.
  - pose proof (jrep_on _ _ H2) as O2. rewrite (aff_coords _ _ _ _ H2) in O2 |- *. exact (mixed_addsub_ok _ _ _ _ _ _ _ true H1 O2).
  - exact (addsub_ok _ _ _ _ _ _ _ _ _ _ true H1 H2).
Qed.
Lemma jge_sub_var_ok q1 q2 P Q : jrep q1 P -> jrep q2 Q -> jrep (jge_sub_var p a h q1 q2) (padd' P (pneg' Q)).
Proof.
  intros H1 H2. unfold jge_sub_var. destruct q1 as [x1 y1 z1 [|] f1']; cbn [jinf].
  { inversion H1; subst. exact (jge_neg_ok _ _ H2). } destruct q2 as [x2 y2 z2 [|] [|]]; cbn [jinf jaff jx jy].
  - inversion H2.
  - inversion H2; subst. rewrite add_inf_r'. exact H1.
  - pose proof (jrep_on _ _ H2) as O2. rewrite (aff_coords _ _ _ _ H2) in O2 |- *. exact (mixed_addsub_ok _ _ _ _ _ _ _ false H1 O2).
  - exact (addsub_ok _ _ _ _ _ _ _ _ _ _ false H1 H2).
Qed.
Lemma jge_mixed_add_var_ok q1 q2 P Q : jrep q1 P -> wrep q2 Q -> jrep (jge_mixed_add_var p a h q1 q2) (padd' P Q).
Proof.
  intros H1 H2. unfold jge_mixed_add_var. destruct q1 as [x1 y1 z1 [|] f1']; cbn [jinf].
  { inversion H1; subst. exact (jge_set_wge_ok _ _ H2). } destruct H2 as [|x2 y2 O2]; cbn [winf wx wy wge_zero].
  - rewrite add_inf_r'. exact H1.
  - exact (mixed_addsub_ok _ _ _ _ _ _ _ true H1 O2).
Qed.
Lemma jge_mixed_sub_var_ok q1 q2 P Q : jrep q1 P -> wrep q2 Q -> jrep (jge_mixed_sub_var p a h q1 q2) (padd' P (pneg' Q)).
Proof.
  intros H1 H2. unfold jge_mixed_sub_var. destruct q1 as [x1 y1 z1 [|] f1']; cbn [jinf].
  { inversion H1; subst. exact (jge_neg_ok _ _ (jge_set_wge_ok _ _ H2)). } destruct H2 as [|x2 y2 O2]; cbn [winf wx wy wge_zero].
  - rewrite add_inf_r'. exact H1.
  - exact (mixed_addsub_ok _ _ _ _ _ _ _ false H1 O2).
Qed.
(* the branch free addition *)
Lemma unified_ok X1 Y1 X2 Y2 c : on' (Aff X1 Y1) -> on' (Aff X2 Y2) -> c <> 0 ->
  let '(x3, y3, z3) := jge_unified p a (X1 * (c * c)) (X2 * (c * c)) (Y1 * (c * c * c)) (Y2 * (c * c * c)) c (c * c * (c * c) * a) in
  (z3 = 0 /\ padd' (Aff X1 Y1) (Aff X2 Y2) = Inf) \/ (z3 <> 0 /\ jrep (MkJ x3 y3 z3 false false) (padd' (Aff X1 Y1) (Aff X2 Y2))).
Proof.
  intros O1 O2 C. unfold jge_unified, fe_sqr.
  assert (C2 : c * c <> 0) by (apply mnz; assumption). assert (C3 : c * c * c <> 0) by (apply mnz; assumption). assert (C4 : c * c * (c * c) <> 0) by (apply mnz; assumption).
  assert (RE : (if zero_a p a then (X1 * (c * c) + X2 * (c * c)) * (X1 * (c * c) + X2 * (c * c)) - X1 * (c * c) * (X2 * (c * c))
     else (X1 * (c * c) + X2 * (c * c)) * (X1 * (c * c) + X2 * (c * c)) - X1 * (c * c) * (X2 * (c * c)) + c * c * (c * c) * a) = ((X1 + X2) * (X1 + X2) - X1 * X2 + a) * (c * c * (c * c))).
  { unfold zero_a. destruct (is_zero_spec p a) as [->|_]; ring. }
  rewrite RE. assert (ME : Y1 * (c * c * c) + Y2 * (c * c * c) = (Y1 + Y2) * (c * c * c)) by ring. rewrite ME. assert (DE : X1 * (c * c) - X2 * (c * c) = (X1 - X2) * (c * c)) by ring. rewrite DE.
  set (R := (X1 + X2) * (X1 + X2) - X1 * X2 + a). 
  assert (ON : on' (padd' (Aff X1 Y1) (Aff X2 Y2))) by (apply on_add'; assumption).
  destruct (is_zero_spec p ((Y1 + Y2) * (c * c * c))) as [M|M]; cbn [andb].
  - apply mul_eq_0 in M; [|exact C3]. destruct (is_zero_spec p (R * (c * c * (c * c)))) as [R0|RN]; cbn [fe_select].
    + destruct (fe_eq_dec p X1 X2) as [EX|NX].
      * left. split; [rewrite EX; ring|]. rewrite EX. apply bj_inf. exact M.
      * right. pose proof (nz_sub _ _ NX) as D. rewrite bj_deg in ON |- * by assumption. pose proof (div_mul (2 * Y1) (X1 - X2) D) as L. set (l := 2 * Y1 / (X1 - X2)) in *. clearbody l.
        assert (Z3 : c * ((X1 - X2) * (c * c)) + c * ((X1 - X2) * (c * c)) <> 0). { apply dbl_nz. repeat apply mnz; assumption. }
        split; [exact Z3|]. eapply jr_intro; [reflexivity|exact Z3| | |exact ON].
        -- rewrite mul4_eq. replace (Y1 * (c * c * c) + Y1 * (c * c * c)) with (l * (X1 - X2) * (c * c * c)) by (rewrite L; ring). ring.
        -- rewrite mul4_eq. replace (Y1 * (c * c * c) + Y1 * (c * c * c)) with (l * (X1 - X2) * (c * c * c)) by (rewrite L; ring).
           transitivity ((2 * (l * (X1 - (l * l - X1 - X2))) - 2 * Y1) * (2 * 2 * ((X1 - X2) * (c * c * c) * ((X1 - X2) * (c * c * c)) * ((X1 - X2) * (c * c * c))))); [rewrite <- L; ring|ring].
    + left. assert (RN' : R <> 0) by (exact (nz_mul_l _ _ RN)). pose proof (bj_split _ _ _ _ O1 O2 M RN') as EX. split; [rewrite M; ring|]. rewrite EX. apply bj_inf. exact M.
  - cbn [fe_select]. right. assert (M0 : Y1 + Y2 <> 0) by (exact (nz_mul_l _ _ M)).
    pose proof (div_mul R (Y1 + Y2) M0) as L. destruct (bj_slope X1 Y1 X2 Y2 (R / (Y1 + Y2)) O1 O2 M0 L) as [E T]. set (l := R / (Y1 + Y2)) in *. clearbody l. rewrite T in ON |- *. rewrite <- L. clear L R RE T.
    assert (E2 : Y2 = Y1 - l * (X1 - X2)) by (rewrite E; ring). clear E.
    assert (Z3 : c * ((Y1 + Y2) * (c * c * c)) + c * ((Y1 + Y2) * (c * c * c)) <> 0). { apply dbl_nz. repeat apply mnz; assumption. }
    split; [exact Z3|]. eapply jr_intro; [reflexivity|exact Z3| | |exact ON].
    + rewrite mul4_eq. ring.
    + rewrite mul4_eq. rewrite E2. ring.
Qed.
Lemma jge_add_ok q1 q2 P Q : jrep q1 P -> jrep q2 Q -> jrep (jge_add p a q1 q2) (padd' P Q).
Proof.
  intros H1 H2. destruct H1 as [|x1 y1 z1 af1 X1 Y1 Z1 -> -> AF1 O1].
  { unfold jge_add. destruct (jge_unified _ _ _ _ _ _ _ _) as [[x3 y3] z3]. cbn [jinf jx jy jz jge_zero orb negb andb]. rewrite andb_false_r. cbn [fe_select orb].
    change (padd' Inf Q) with Q. destruct H2 as [|x2 y2 z2 af2 X2 Y2 Z2 E2 F2 AF2 O2]; cbn [jinf jx jy jz jge_zero fe_select]; [constructor|]. constructor; try assumption. discriminate. }
  destruct H2 as [|x2 y2 z2 af2 X2 Y2 Z2 -> -> AF2 O2].
  { unfold jge_add. destruct (jge_unified _ _ _ _ _ _ _ _) as [[x3 y3] z3]. cbn [jinf jx jy jz jge_zero orb negb andb]. rewrite andb_false_r. cbn [fe_select orb]. rewrite add_inf_r'. constructor; try assumption; try reflexivity. discriminate. }
  unfold jge_add. cbn [jinf jx jy jz jaff orb negb andb]. unfold fe_sqr. rewrite mul_a_eq. set (c := z1 * z2). assert (C : c <> 0) by (apply mnz; assumption).
  replace (X1 * (z1 * z1) * (z2 * z2)) with (X1 * (c * c)) by (unfold c; ring). replace (X2 * (z2 * z2) * (z1 * z1)) with (X2 * (c * c)) by (unfold c; ring).
  replace (Y1 * (z1 * z1 * z1) * (z2 * z2) * z2) with (Y1 * (c * c * c)) by (unfold c; ring). replace (Y2 * (z2 * z2 * z2) * (z1 * z1) * z1) with (Y2 * (c * c * c)) by (unfold c; ring).
  pose proof (unified_ok X1 Y1 X2 Y2 c O1 O2 C) as H. destruct (jge_unified _ _ _ _ _ _ _ _) as [[x3 y3] z3]. rewrite andb_true_r. destruct H as [[Z3 I]|[Z3 J]].
  - rewrite Z3, is_zero_0, I. cbn [fe_select orb]. constructor.
  - rewrite is_zero_nz by exact Z3. cbn [fe_select orb]. exact J.
Qed.
Lemma jge_sub_ok q1 q2 P Q : jrep q1 P -> jrep q2 Q -> jrep (jge_sub p a q1 q2) (padd' P (pneg' Q)).
Proof. intros H1 H2. apply jge_add_ok; [exact H1|apply jge_neg_ok; exact H2]. Qed.
Lemma jge_mixed_add_ok q1 q2 P Q : jrep q1 P -> wrep q2 Q -> jrep (jge_mixed_add p a q1 q2) (padd' P Q).
Proof.
  intros H1 H2. destruct H1 as [|x1 y1 c af1 X1 Y1 C -> -> AF1 O1].
  { unfold jge_mixed_add. destruct (jge_unified _ _ _ _ _ _ _ _) as [[x3 y3] z3]. cbn [jinf jx jy jz jge_zero orb negb andb]. rewrite andb_false_r. cbn [fe_select orb].
    change (padd' Inf Q) with Q. destruct H2 as [|x2 y2 O2]; cbn [winf wx wy wge_zero fe_select]; [constructor|]. constructor; try assumption; try ring; [apply f1_nz; exact Pp|discriminate]. }
  destruct H2 as [|x2 y2 O2].
  { unfold jge_mixed_add. destruct (jge_unified _ _ _ _ _ _ _ _) as [[x3 y3] z3]. cbn [jinf jx jy jz winf wge_zero orb negb andb]. rewrite andb_false_r. cbn [fe_select orb]. rewrite add_inf_r'. constructor; try assumption; try reflexivity. discriminate. }
  unfold jge_mixed_add. cbn [jinf jx jy jz jaff winf wx wy orb negb andb]. unfold fe_sqr. rewrite mul_a_eq.
  replace (y2 * (c * c) * c) with (y2 * (c * c * c)) by ring.
  pose proof (unified_ok X1 Y1 x2 y2 c O1 O2 C) as H. destruct (jge_unified _ _ _ _ _ _ _ _) as [[x3 y3] z3]. rewrite andb_true_r. destruct H as [[Z3 I]|[Z3 J]].
  - rewrite Z3, is_zero_0, I. cbn [fe_select orb]. constructor.
  - rewrite is_zero_nz by exact Z3. cbn [fe_select orb]. exact J.
Qed.
Lemma jge_mixed_sub_ok q1 q2 P Q : jrep q1 P -> wrep q2 Q -> jrep (jge_mixed_sub p a q1 q2) (padd' P (pneg' Q)).
Proof. intros H1 H2. apply jge_mixed_add_ok; [exact H1|apply wge_neg_ok; exact H2]. Qed.
(* ---- conversions and comparisons ---- *)
Lemma invert_0 : fst (fe_invert (p := p) 0) = 0.
Proof. unfold fe_invert. cbn [fst]. apply inv_0. exact P3. Qed.
Lemma wge_set_jge_ok q P : jrep q P -> wrep (wge_set_jge p q) P.
Proof.
  intros [|x y z af X Y Z -> -> AF O]; unfold wge_set_jge; cbn [jx jy jz jinf jge_zero].
  - rewrite invert_0. unfold fe_sqr. replace (MkW _ _ true) with (wge_zero p); [constructor|]. unfold wge_zero. f_equal; ring.
  - pose proof (inv_mul z Z) as I. rewrite (invert_nz z Z). cbn [fst]. set (i := fe_inv z) in *. clearbody i. unfold fe_sqr. replace (MkW _ _ false) with (MkW X Y false); [constructor; exact O|]. f_equal.
    + transitivity (X * ((i * z) * (i * z))); [rewrite I; ring|ring].
    + transitivity (Y * ((i * z) * (i * z) * (i * z))); [rewrite I; ring|ring].
Qed.
Lemma wge_set_jge_var_ok q P : jrep q P -> exists w, wge_set_jge_var p q = Some w /\ wrep w P.
Proof.
  intros H. unfold wge_set_jge_var. destruct q as [x y z [|] af]; cbn [jinf].
  { inversion H; subst. eexists. split; [reflexivity|constructor]. }
  cbn [jaff jx jy jz]. destruct af.
  - pose proof (jrep_on _ _ H) as O. rewrite (aff_coords _ _ _ _ H) in O |- *. eexists. split; [reflexivity|constructor; exact O].
  - inversion H as [|? ? ? ? X Y Z E1 E2 AF O]; subst. rewrite (invert_var_nz z Z). eexists. split; [reflexivity|].
    pose proof (wge_set_jge_ok _ _ H) as W. unfold wge_set_jge in W. cbn [jx jy jz jinf] in W. rewrite (invert_nz z Z) in W. exact W.
Qed.
Lemma all_ok l : forall Ps acc, Forall2 jrep l Ps -> acc <> 0 ->
  let '(o, r) := all_prefix p acc l in r <> 0 /\
  forall ai, ai * r = 1 -> let '(out, ai') := all_back p ai l o in ai' * acc = 1 /\ Forall2 wrep out Ps.
Proof.
  induction l as [|q t IH]; intros Ps acc F A; inversion F as [|? P ? Ps' HQ HT]; subst; cbn [all_prefix].
  { split; [exact A|]. intros ai E. cbn [all_back]. split; [exact E|constructor]. }
  destruct HQ as [|x y z af X Y Z -> -> AF O]; cbn [jinf jge_zero jz].
  - specialize (IH Ps' acc HT A). destruct (all_prefix p acc t) as [o r]. destruct IH as [R B]. split; [exact R|]. intros ai E. cbn [all_back jinf]. specialize (B ai E).
    destruct (all_back p ai t o) as [out ai']. destruct B as [B1 B2]. split; [exact B1|]. constructor; [constructor|exact B2].
  - specialize (IH Ps' (acc * z) HT (mnz _ _ A Z)). destruct (all_prefix p (acc * z) t) as [o r]. destruct IH as [R B]. split; [exact R|]. intros ai E. cbn [all_back jinf jx jy jz]. specialize (B ai E).
    destruct (all_back p ai t o) as [out ai']. destruct B as [B1 B2]. split; [rewrite <- B1; ring|]. constructor; [|exact B2].
    unfold fe_sqr. replace (MkW _ _ false) with (MkW X Y false); [constructor; exact O|]. f_equal.
    + transitivity (X * ((ai' * (acc * z)) * (ai' * (acc * z)))); [rewrite B1; ring|ring].
    + transitivity (Y * ((ai' * (acc * z)) * (ai' * (acc * z)) * (ai' * (acc * z)))); [rewrite B1; ring|ring].
Qed.
Lemma wge_set_jge_all_var_ok l Ps : Forall2 jrep l Ps -> exists ws, wge_set_jge_all_var p l = Some ws /\ Forall2 wrep ws Ps.
Proof.
  intros F. unfold wge_set_jge_all_var. pose proof (all_ok l Ps 1 F (f1_nz p Pp)) as H. destruct (all_prefix p 1 l) as [o r]. destruct H as [R B].
  rewrite (invert_var_nz r R). specialize (B _ (inv_mul r R)). destruct (all_back p (fe_inv r) l o) as [out ai']. destruct B as [_ B]. exists out. split; [reflexivity|exact B].
Qed.
Lemma wge_equal_ok q1 q2 P Q : wrep q1 P -> wrep q2 Q -> (wge_equal p q1 q2 = true <-> P = Q).
Proof.
  intros [|x y O] [|x' y' O']; unfold wge_equal; cbn [wx wy winf wge_zero orb andb negb]; split; intros H; try reflexivity; try discriminate.
  - rewrite orb_false_r in H. apply andb_prop in H. destruct H as [E1 E2]. apply equal_iff in E1, E2. subst. reflexivity.
  - rewrite orb_false_r. assert (x = x' /\ y = y') as [-> ->] by (split; congruence). rewrite !(proj2 (equal_iff p _ _) eq_refl). reflexivity.
Qed.
Lemma jge_equal_ok q1 q2 P Q : jrep q1 P -> jrep q2 Q -> (jge_equal p q1 q2 = true <-> P = Q).
Proof.
  intros [|x y z af X Y Z -> -> AF O] [|x' y' z' af' X' Y' Z' -> -> AF' O']; unfold jge_equal; cbn [jx jy jz jinf jge_zero orb andb negb]; split; intros H; try reflexivity; try discriminate.
  - rewrite orb_false_r in H. apply andb_prop in H. destruct H as [E1 E2]. apply equal_iff in E1, E2. unfold fe_sqr in *. f_equal.
    + apply (cancel_r _ _ (z * z * (z' * z'))); [repeat apply mnz; assumption|]. transitivity (X * (z * z) * (z' * z')); [ring|]. rewrite E1. ring.
    + apply (cancel_r _ _ (z * z * z * (z' * z' * z'))); [repeat apply mnz; assumption|]. transitivity (Y * (z * z * z) * (z' * z' * z')); [ring|]. rewrite E2. ring.
  - rewrite orb_false_r. assert (X = X' /\ Y = Y') as [-> ->] by (split; congruence). unfold fe_sqr. apply andb_true_intro. split; apply equal_iff; ring.
Qed.
Lemma jge_equal_x_ok q P x : jrep q P -> (jge_equal_x p q x = true <-> exists y, P = Aff x y).
Proof.
  intros [|x1 y z af X Y Z -> -> AF O]; unfold jge_equal_x; cbn [jx jy jz jinf jge_zero negb].
  { rewrite andb_false_r. split; [discriminate|intros [y E]; discriminate]. }
  rewrite andb_true_r, equal_iff. unfold fe_sqr. split.
  - intros E. exists Y. f_equal. apply (cancel_r _ _ (z * z)); [apply mnz; assumption|]. rewrite E. ring.
  - intros [y' E]. assert (X = x) as -> by congruence. ring.
Qed.
(* the abscissa reduced modulo n *)
Lemma jge_equal_r_var_ok n q P x : (1 < n)%Z -> (0 <= x < n)%Z -> wei_has_small_gap p n = true -> jrep q P ->
  exists r, jge_equal_r_var p n q x = Some r /\ (r = true <-> exists X Y, P = Aff X Y /\ (fv X mod n = x)%Z).
Proof.
  intros N Hx G H. unfold jge_equal_r_var. rewrite G. destruct H as [|x1 y z af X Y Z -> -> AF O]; cbn [jinf jge_zero jx jz].
  { exists false. split; [reflexivity|]. split; [discriminate|]. intros (X & Y & E & _). discriminate. }
  assert (T : forall r (Q : Prop), (Q <-> (fv X mod n = x)%Z) -> (r = true <-> Q) -> (r = true <-> exists X' Y', Aff X Y = Aff X' Y' /\ (fv X' mod n = x)%Z)).
  { intros r Q E1 E2. rewrite E2, E1. split; [intros E; exists X, Y; split; [reflexivity|exact E]|]. intros (X' & Y' & E & M). assert (X' = X) as -> by congruence. exact M. }
  assert (SQ : z * z <> 0) by (apply mnz; assumption). pose proof (fv_range p X) as RX.
  assert (EQ : forall v, fe_equal (X * (z * z)) (fe_of p v * (z * z)) = true <-> fv X = (v mod Zpos p)%Z).
  { intros v. rewrite equal_iff. split; intros E. - apply cancel_r in E; [|exact SQ]. rewrite E. apply fv_of. - f_equal. apply fe_eq. rewrite fv_of. exact E. }
  unfold wei_has_small_gap in G. unfold fe_set_sc, wei_has_high_order. unfold fe_sqr. destruct (Z.ltb_spec x (Zpos p)) as [XP|XP]; cbn [negb].
  2:{ exists false. split; [reflexivity|]. apply (T false False); [|split; [discriminate|tauto]]. split; [tauto|]. rewrite Z.mod_small by lia. lia. }
  destruct (fe_equal (X * (z * z)) (fe_of p x * (z * z))) eqn:E1.
  { exists true. split; [reflexivity|]. apply (T true True); [|tauto]. split; [intros _|tauto]. apply EQ in E1. rewrite E1. rewrite (Z.mod_small x (Zpos p)) by (clear - Hx XP; lia). apply Z.mod_small. exact Hx. }
  assert (NE : fv X <> x). { intros E. assert (fe_equal (X * (z * z)) (fe_of p x * (z * z)) = true) by (apply EQ; rewrite E; symmetry; apply Z.mod_small; lia). congruence. }
  destruct (Z.leb_spec (Zpos p) n) as [PN|PN].
  { exists false. split; [reflexivity|]. apply (T false False); [|split; [discriminate|tauto]]. split; [tauto|]. rewrite Z.mod_small by lia. lia. }
  cbn [orb] in G. apply Z.eqb_eq in G. pose proof (Z.div_mod (Zpos p) n ltac:(lia)) as DM. pose proof (Z.mod_pos_bound (Zpos p) n ltac:(lia)) as MB. rewrite G in DM. set (g := (Zpos p mod n)%Z) in *. clearbody g. clear G.
  assert (C : (fv X mod n = x)%Z <-> fv X = (x + n)%Z).
  { destruct (Z.ltb_spec (fv X) n).
    - rewrite Z.mod_small by lia. lia.
    - replace (fv X) with (fv X - n + 1 * n)%Z at 1 by ring. rewrite Z.mod_add by lia. rewrite Z.mod_small by lia. lia. }
  destruct (Z.leb_spec g x) as [GX|GX].
  { exists false. split; [reflexivity|]. apply (T false False); [|split; [discriminate|tauto]]. split; [tauto|]. rewrite C. lia. }
  eexists. split; [reflexivity|]. apply (T _ (fv X = (x + n)%Z)); [symmetry; exact C|].
  replace (fe_of p x * (z * z) + fe_of p n * (z * z)) with (fe_of p (x + n) * (z * z)) by (rewrite of_add; ring). rewrite EQ, Z.mod_small by lia. reflexivity.
Qed.
(* the endomorphism (x, y) -> (beta x, y) of a curve with a = 0 *)
Definition pendo (beta : fe) (P : point fe) : point fe := match P with Inf => Inf | Aff x y => Aff (x * beta) y end.
Lemma wge_endo_ok beta q P : a = 0 -> beta * beta * beta = 1 -> wrep q P -> wrep (wge_endo_beta p beta q) (pendo beta P).
Proof.
  intros A B [|x y O]; unfold wge_endo_beta; cbn [wx wy winf wge_zero pendo].
  - replace (MkW _ _ true) with (wge_zero p); [constructor|]. unfold wge_zero. f_equal; ring.
  - constructor. unfold on', on_curve in *. rewrite O, A. replace (x * beta * (x * beta) * (x * beta)) with (x * x * x * (beta * beta * beta)) by ring. rewrite B. ring.
Qed.
Lemma jge_endo_ok beta q P : a = 0 -> beta * beta * beta = 1 -> jrep q P -> jrep (jge_endo_beta p beta q) (pendo beta P).
Proof.
  intros A B [|x y z af X Y Z -> -> AF O]; unfold jge_endo_beta; cbn [jx jy jz jinf jaff jge_zero pendo fe_select]; [constructor|].
  constructor; try assumption; try ring. exact (wrep_on _ _ (wge_endo_ok beta (MkW X Y false) (Aff X Y) A B (wr_aff _ _ O))).
Qed.
End P.
