(* Edwards addition on a complete curve is a commutative group. *)
From Coq Require Import Znumtheory Setoid Ncring Cring Integral_domain NsatzTactic.
From Verif.Base Require Import Prelude.
From Verif.Model Require Import NumTheory Field.
From Verif.Spec Require Import EcSpec EdSpec.
From Verif.Proof Require Import Cong FieldProof FieldNsatz GrpMul.
Section P.
Variable p : positive.
Hypothesis Pp : prime (Zpos p).
Local Notation fe := (fe p).
#[local] Existing Instance fe_ops.
#[local] Existing Instance fe_ring.
#[local] Existing Instance fe_cring.
#[local] Instance dom : @Integral_domain fe f0 f1 fe_add fe_mul fe_sub fe_neg eq (fe_ops p) (fe_ring p) (fe_cring p) := fe_dom p Pp.
Variables a d : fe.
Local Infix "+" := fe_add.
Local Infix "*" := fe_mul.
Local Infix "-" := fe_sub.
Local Notation "- x" := (fe_neg x).
Local Infix "/" := (fe_div p).
Add Ring fring : (ring_th p).
Definition eadd := ed_add fe f1 fe_add fe_mul fe_sub (fe_div p) a d.
Definition eon := on_ed fe f1 fe_add fe_mul a d.
Definition ezero := ed_zero fe f0 f1.
Definition eneg := ed_neg fe fe_neg.
Hypothesis K : complete fe f0 f1 fe_add fe_mul a d.
Lemma nz_mul (x y : fe) : x * y <> f0 -> x <> f0 /\ y <> f0.
Proof. intros N. split; intros E; apply N; rewrite E; ring. Qed.
Lemma div_mul (x y : fe) : y <> f0 -> x / y * y = x.
Proof. intros N. unfold fe_div. transitivity (x * (fe_inv y * y)); [ring|]. rewrite (inv_l p Pp y N). ring. Qed.
Lemma mul_cancel (x y z : fe) : z <> f0 -> x * z = y * z -> x = y.
Proof.
  intros N E. destruct (fe_eq_dec p (x - y) f0) as [Z|Z].
  - transitivity (x - y + y); [ring|]. rewrite Z. ring.
  - destruct (mul_nz p Pp _ _ Z N). transitivity (x * z - y * z); [ring|]. rewrite E. ring.
Qed.
Lemma eq_div (u v w : fe) : w <> f0 -> u * w = v -> u = v / w.
Proof. intros N E. apply (mul_cancel _ _ w N). rewrite div_mul by exact N. exact E. Qed.
(* d x1 x2 y1 y2 is neither one nor minus one *)
Lemma not_unit (x1 y1 x2 y2 e : fe) : eon (x1, y1) -> eon (x2, y2) -> e * e = f1 -> d * (x1 * x2 * (y1 * y2)) <> e.
Proof.
  unfold eon, on_ed. intros H1 H2 E M. destruct K as ((s & S) & A0 & ND & T). rewrite <- S in *.
  assert (MM : d * (x1 * x2 * (y1 * y2)) * (d * (x1 * x2 * (y1 * y2))) = f1) by (rewrite M; exact E).
  assert (NZ : x1 * y1 * x2 <> f0).
  { intros Z. apply (f1_nz p Pp). rewrite <- MM. transitivity (d * (x1 * y1 * x2 * y2) * (d * (x1 * y1 * x2 * y2))); [ring|]. rewrite Z. ring. }
  apply nz_mul in NZ. destruct NZ as (NXY & NX2).
  assert (sq : forall u v : fe, v <> f0 -> u * u = d * (v * v) -> False).
  { intros u v V Q. apply (ND (u / v)). apply (mul_cancel _ _ (v * v)); [apply (mul_nz p Pp); assumption|]. rewrite <- Q.
    transitivity ((u / v * v) * (u / v * v)); [ring|]. rewrite !div_mul by exact V. reflexivity. }
  assert (Q1 : (s * x1 + e * y1) * (s * x1 + e * y1) = d * ((x1 * y1 * (s * x2 + y2)) * (x1 * y1 * (s * x2 + y2)))) by (clear - Pp H1 H2 E M; nsatz).
  assert (Q2 : (s * x1 - e * y1) * (s * x1 - e * y1) = d * ((x1 * y1 * (s * x2 - y2)) * (x1 * y1 * (s * x2 - y2)))) by (clear - Pp H1 H2 E M; nsatz).
  destruct (fe_eq_dec p (s * x2 + y2) f0) as [Z1|Z1].
  - destruct (fe_eq_dec p (s * x2 - y2) f0) as [Z2|Z2].
    + assert (SS : s <> f0) by (intros Z; apply A0; rewrite Z; ring).
      assert (X : (f1 + f1) * (s * x2) = f0) by (transitivity ((s * x2 + y2) + (s * x2 - y2)); [ring|rewrite Z1, Z2; ring]).
      apply (mul_nz p Pp _ _ T (mul_nz p Pp _ _ SS NX2)). exact X.
    + apply (sq _ _ (mul_nz p Pp _ _ NXY Z2) Q2).
  - apply (sq _ _ (mul_nz p Pp _ _ NXY Z1) Q1).
Qed.
Lemma den_p (x1 y1 x2 y2 : fe) : eon (x1, y1) -> eon (x2, y2) -> f1 + d * (x1 * x2 * (y1 * y2)) <> f0.
Proof.
  intros H1 H2 E. apply (not_unit x1 y1 x2 y2 (- f1) H1 H2); [ring|]. transitivity (f1 + d * (x1 * x2 * (y1 * y2)) - f1); [ring|]. rewrite E. ring.
Qed.
Lemma den_m (x1 y1 x2 y2 : fe) : eon (x1, y1) -> eon (x2, y2) -> f1 - d * (x1 * x2 * (y1 * y2)) <> f0.
Proof.
  intros H1 H2 E. apply (not_unit x1 y1 x2 y2 f1 H1 H2); [ring|]. transitivity (f1 - (f1 - d * (x1 * x2 * (y1 * y2)))); [ring|]. rewrite E. ring.
Qed.
(* the two equations that define a sum *)
Definition sums (P Q R : fe * fe) : Prop :=
  let '(x1, y1) := P in let '(x2, y2) := Q in let '(x3, y3) := R in
  x3 * (f1 + d * (x1 * x2 * (y1 * y2))) = x1 * y2 + y1 * x2 /\ y3 * (f1 - d * (x1 * x2 * (y1 * y2))) = y1 * y2 - a * (x1 * x2).
Lemma sums_add P Q : eon P -> eon Q -> sums P Q (eadd P Q).
Proof.
  destruct P as [x1 y1], Q as [x2 y2]. intros H1 H2. unfold sums, eadd, ed_add. split; apply div_mul; [apply den_p|apply den_m]; assumption.
Qed.
Lemma sums_eq P Q R : eon P -> eon Q -> sums P Q R -> R = eadd P Q.
Proof.
  destruct P as [x1 y1], Q as [x2 y2], R as [x3 y3]. intros H1 H2 (E1 & E2). unfold eadd, ed_add. apply pair_equal_spec. split; apply eq_div; try assumption; [apply den_p|apply den_m]; assumption.
Qed.
Lemma add_on P Q : eon P -> eon Q -> eon (eadd P Q).
Proof.
  intros H1 H2. pose proof (sums_add P Q H1 H2) as S. destruct P as [x1 y1], Q as [x2 y2], (eadd (x1, y1) (x2, y2)) as [x3 y3].
  destruct S as (E1 & E2). pose proof (den_p _ _ _ _ H1 H2) as N1. pose proof (den_m _ _ _ _ H1 H2) as N2. unfold eon, on_ed in *.
  set (D := d * (x1 * x2 * (y1 * y2))) in *.
  apply (mul_cancel _ _ ((f1 + D) * (f1 - D) * ((f1 + D) * (f1 - D)))); [repeat apply (mul_nz p Pp); assumption|].
  unfold D in *. clear - Pp H1 H2 E1 E2.
  set (G := f1 + d * (x1 * x2 * (y1 * y2))) in *. set (F := f1 - d * (x1 * x2 * (y1 * y2))) in *.
  transitivity (a * ((x3 * G) * (x3 * G)) * (F * F) + (y3 * F) * (y3 * F) * (G * G)); [ring|].
  transitivity ((G * F) * (G * F) + d * ((x3 * G) * (x3 * G) * ((y3 * F) * (y3 * F)))); [|ring].
  rewrite E1, E2. unfold G, F. nsatz.
Qed.
Lemma add_comm P Q : eadd P Q = eadd Q P.
Proof. destruct P as [x1 y1], Q as [x2 y2]. unfold eadd, ed_add. apply pair_equal_spec. split; f_equal; ring. Qed.
Lemma on_zero : eon ezero.
Proof. unfold eon, on_ed, ezero, ed_zero. ring. Qed.
Lemma add_zero P : eon P -> eadd ezero P = P.
Proof.
  intros H. symmetry. apply sums_eq; [exact on_zero|exact H|]. destruct P as [x y]. unfold sums, ezero, ed_zero. split; ring.
Qed.
Lemma neg_on P : eon P -> eon (eneg P).
Proof. destruct P as [x y]. unfold eon, on_ed, eneg, ed_neg. cbn [fst snd]. intros H. transitivity (a * (x * x) + y * y); [ring|]. rewrite H. ring. Qed.
Lemma add_neg P : eon P -> eadd P (eneg P) = ezero.
Proof.
  intros H. symmetry. apply sums_eq; [exact H|apply neg_on; exact H|]. destruct P as [x y]. unfold sums, ezero, ed_zero, eneg, ed_neg. cbn [fst snd]. unfold eon, on_ed in H.
  split; [ring|]. transitivity (f1 + d * (x * x * (y * y))); [ring|]. rewrite <- H. ring.
Qed.
Lemma assoc_x (x1 y1 x2 y2 x3 y3 : fe) :
  a*(x1*x1) + y1*y1 = f1 + d*(x1*x1*(y1*y1)) -> a*(x2*x2) + y2*y2 = f1 + d*(x2*x2*(y2*y2)) -> a*(x3*x3) + y3*y3 = f1 + d*(x3*x3*(y3*y3)) ->
  let E12 := x1*y2+y1*x2 in let H12 := y1*y2-a*(x1*x2) in let F12 := f1 - d*(x1*x2*(y1*y2)) in let G12 := f1 + d*(x1*x2*(y1*y2)) in
  let E23 := x3*y2+y3*x2 in let H23 := y3*y2-a*(x3*x2) in let F23 := f1 - d*(x3*x2*(y3*y2)) in let G23 := f1 + d*(x3*x2*(y3*y2)) in
  (E12*F12*y3+H12*G12*x3)*(F23*G23+d*(E23*H23*(x1*y1))) = (E23*F23*y1+H23*G23*x1)*(F12*G12+d*(E12*H12*(x3*y3))).
Proof. cbv zeta. intros. nsatz. Qed.
Lemma assoc_y (x1 y1 x2 y2 x3 y3 : fe) :
  a*(x1*x1) + y1*y1 = f1 + d*(x1*x1*(y1*y1)) -> a*(x2*x2) + y2*y2 = f1 + d*(x2*x2*(y2*y2)) -> a*(x3*x3) + y3*y3 = f1 + d*(x3*x3*(y3*y3)) ->
  let E12 := x1*y2+y1*x2 in let H12 := y1*y2-a*(x1*x2) in let F12 := f1 - d*(x1*x2*(y1*y2)) in let G12 := f1 + d*(x1*x2*(y1*y2)) in
  let E23 := x3*y2+y3*x2 in let H23 := y3*y2-a*(x3*x2) in let F23 := f1 - d*(x3*x2*(y3*y2)) in let G23 := f1 + d*(x3*x2*(y3*y2)) in
  (H12*G12*y3-a*(E12*F12*x3))*(F23*G23-d*(E23*H23*(x1*y1))) = (H23*G23*y1-a*(E23*F23*x1))*(F12*G12-d*(E12*H12*(x3*y3))).
Proof. cbv zeta. intros. nsatz. Qed.
(* a sum of three, with the inner denominators multiplied out *)
Lemma sums3 (P Q : fe * fe) (x12 y12 : fe) (R : fe * fe) (x y : fe) : eon P -> eon Q -> sums P Q (x12, y12) -> sums (x12, y12) R (x, y) ->
  let '(x1, y1) := P in let '(x2, y2) := Q in let '(x3, y3) := R in
  let E12 := x1*y2+y1*x2 in let H12 := y1*y2-a*(x1*x2) in let F12 := f1 - d*(x1*x2*(y1*y2)) in let G12 := f1 + d*(x1*x2*(y1*y2)) in
  x * (F12*G12+d*(E12*H12*(x3*y3))) = E12*F12*y3+H12*G12*x3 /\ y * (F12*G12-d*(E12*H12*(x3*y3))) = H12*G12*y3-a*(E12*F12*x3) /\
  F12*G12+d*(E12*H12*(x3*y3)) = F12*G12*(f1 + d * (x12 * x3 * (y12 * y3))) /\ F12*G12-d*(E12*H12*(x3*y3)) = F12*G12*(f1 - d * (x12 * x3 * (y12 * y3))).
Proof.
  destruct P as [x1 y1], Q as [x2 y2], R as [x3 y3]. intros H1 H2 (S1 & S2) (S3 & S4). cbv zeta.
  rewrite <- S1, <- S2. set (F := f1 - d * (x1 * x2 * (y1 * y2))) in *. set (G := f1 + d * (x1 * x2 * (y1 * y2))) in *.
  refine (conj _ (conj _ (conj _ _))); [| |ring|ring].
  - transitivity (F * G * (x * (f1 + d * (x12 * x3 * (y12 * y3))))); [ring|]. rewrite S3. ring.
  - transitivity (F * G * (y * (f1 - d * (x12 * x3 * (y12 * y3))))); [ring|]. rewrite S4. ring.
Qed.
Lemma add_assoc P Q R : eon P -> eon Q -> eon R -> eadd (eadd P Q) R = eadd P (eadd Q R).
Proof.
  intros HP HQ HR.
  pose proof (sums_add P Q HP HQ) as S12. pose proof (sums_add R Q HR HQ) as S32.
  pose proof (add_on P Q HP HQ) as O12. pose proof (add_on R Q HR HQ) as O32.
  pose proof (sums_add (eadd P Q) R O12 HR) as SL. pose proof (sums_add (eadd R Q) P O32 HP) as SR.
  rewrite (add_comm P (eadd Q R)), (add_comm Q R).
  destruct (eadd (eadd P Q) R) as [xl yl]. destruct (eadd (eadd R Q) P) as [xr yr]. destruct (eadd P Q) as [x12 y12]. destruct (eadd R Q) as [x32 y32].
  pose proof (sums3 P Q x12 y12 R xl yl HP HQ S12 SL) as TL. pose proof (sums3 R Q x32 y32 P xr yr HR HQ S32 SR) as TR.
  destruct P as [x1 y1], Q as [x2 y2], R as [x3 y3]. cbv zeta in TL, TR. destruct TL as (L1 & L2 & L3 & L4), TR as (R1 & R2 & R3 & R4).
  pose proof (den_p _ _ _ _ HP HQ) as N1. pose proof (den_m _ _ _ _ HP HQ) as N2. pose proof (den_p _ _ _ _ HR HQ) as N3. pose proof (den_m _ _ _ _ HR HQ) as N4.
  pose proof (den_p _ _ _ _ O12 HR) as N5. pose proof (den_m _ _ _ _ O12 HR) as N6. pose proof (den_p _ _ _ _ O32 HP) as N7. pose proof (den_m _ _ _ _ O32 HP) as N8.
  assert (M1 := mul_nz p Pp _ _ (mul_nz p Pp _ _ N2 N1) N5). assert (M2 := mul_nz p Pp _ _ (mul_nz p Pp _ _ N2 N1) N6).
  assert (M3 := mul_nz p Pp _ _ (mul_nz p Pp _ _ N4 N3) N7). assert (M4 := mul_nz p Pp _ _ (mul_nz p Pp _ _ N4 N3) N8).
  rewrite <- L3 in M1. rewrite <- L4 in M2. rewrite <- R3 in M3. rewrite <- R4 in M4.
  pose proof (assoc_x x1 y1 x2 y2 x3 y3 HP HQ HR) as AX. pose proof (assoc_y x1 y1 x2 y2 x3 y3 HP HQ HR) as AY. cbv zeta in AX, AY.
  rewrite <- L1, <- R1 in AX. rewrite <- L2, <- R2 in AY. clear - Pp M1 M2 M3 M4 AX AY.
  apply pair_equal_spec. split.
  - apply (mul_cancel _ _ _ (mul_nz p Pp _ _ M1 M3)). etransitivity; [|etransitivity; [exact AX|]]; ring.
  - apply (mul_cancel _ _ _ (mul_nz p Pp _ _ M2 M4)). etransitivity; [|etransitivity; [exact AY|]]; ring.
Qed.
Lemma neg_add P : eon P -> eadd (eneg P) P = ezero.
Proof. intros H. rewrite add_comm. apply add_neg. exact H. Qed.
Lemma laws : group_laws (fe * fe) eon eadd ezero eneg.
Proof. constructor; [exact on_zero|exact neg_on|exact add_on|intros P Q _ _; apply add_comm|exact add_assoc|exact add_zero|exact add_neg]. Qed.
End P.
