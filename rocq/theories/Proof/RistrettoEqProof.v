(* Points killed by two and by four on a complete Edwards curve, and the comparisons of ristretto elements. *)
From Coq Require Import Znumtheory.
From Verif.Base Require Import Prelude.
From Verif.Spec Require Import EcSpec EdSpec.
From Verif.Model Require Import NumTheory Field EcScalar Edwards Eddsa RistrettoEq.
From Verif.Proof Require Import Cong FieldProof GrpMul EdGroup EdProof.
Section P.
Variable p : positive.
Hypothesis Pp : prime (Zpos p).
Local Notation fe := (fe p).
Variables a d : fe.
Declare Scope fe_scope.
Delimit Scope fe_scope with fe.
Bind Scope fe_scope with Field.fe.
Local Infix "+" := fe_add : fe_scope.
Local Infix "*" := fe_mul : fe_scope.
Local Infix "-" := fe_sub : fe_scope.
Local Notation "- x" := (fe_neg x) : fe_scope.
Local Open Scope fe_scope.
Add Ring fring : (ring_th p).
Local Notation eadd := (eadd p a d).
Local Notation eon := (eon p a d).
Local Notation eneg := (eneg p).
Local Notation ezero := (ezero p).
Hypothesis K : complete fe f0 f1 fe_add fe_mul a d.
Lemma zero_l (x : fe) : f0 * x = f0. Proof. ring. Qed.
Lemma prod0 (x y : fe) : x * y = f0 <-> x = f0 \/ y = f0.
Proof.
  split; [|intros [->| ->]; ring]. intros E. destruct (equal_spec p x f0) as [Hx|Hx]; [left; exact Hx|]. destruct (equal_spec p y f0) as [Hy|Hy]; [right; exact Hy|]. exfalso. exact (mul_nz p Pp _ _ Hx Hy E).
Qed.
Lemma unit0 (x u v : fe) : u <> f0 -> x * u = v -> (x = f0 <-> v = f0).
Proof. intros N E. split; [intros ->; rewrite <- E; ring|]. intros ->. apply prod0 in E. tauto. Qed.
(* the coordinates of a sum vanish with their numerators *)
Lemma sum_zero x1 y1 x2 y2 : eon (x1, y1) -> eon (x2, y2) ->
  (fst (eadd (x1, y1) (x2, y2)) = f0 <-> x1 * y2 + y1 * x2 = f0) /\ (snd (eadd (x1, y1) (x2, y2)) = f0 <-> y1 * y2 - a * (x1 * x2) = f0).
Proof.
  intros H1 H2. pose proof (sums_add p Pp a d K _ _ H1 H2) as S. destruct (eadd (x1, y1) (x2, y2)) as [x3 y3]. destruct S as (S1 & S2). cbn [fst snd].
  split; [exact (unit0 _ _ _ (den_p p Pp a d K _ _ _ _ H1 H2) S1)|exact (unit0 _ _ _ (den_m p Pp a d K _ _ _ _ H1 H2) S2)].
Qed.
(* doubling gives zero exactly on the points with x = 0 *)
Lemma two_kills P : eon P -> (eadd P P = ezero <-> fst P = f0).
Proof.
  destruct P as [x y]. intros H. pose proof (sums_add p Pp a d K _ _ H H) as S. pose proof (proj2 (proj2 (proj2 K))) as T. cbn [fst]. split.
  - intros E. rewrite E in S. destruct S as (S1 & S2). assert (XY : x * y = f0). { assert (Q : (f1 + f1) * (x * y) = f0) by (transitivity (x * y + y * x); [ring|rewrite <- S1; ring]). apply prod0 in Q. tauto. }
    apply prod0 in XY. destruct XY as [Ex|Ey]; [exact Ex|]. exfalso. subst y. assert (Q : a * (x * x) = f1) by (change (a * (x * x) + f0 * f0 = f1 + d * (x * x * (f0 * f0))) in H; transitivity (a * (x * x) + f0 * f0); [ring|rewrite H; ring]).
    apply T. transitivity (f1 * (f1 - d * (x * x * (f0 * f0))) + f1); [ring|]. rewrite S2, Q. ring.
  - intros ->. symmetry. apply (sums_eq p Pp a d K _ _ _ H H). assert (Q : y * y = f1) by (change (a * (f0 * f0) + y * y = f1 + d * (f0 * f0 * (y * y))) in H; transitivity (a * (f0 * f0) + y * y); [ring|rewrite H; ring]).
    split; [ring|]. transitivity (f1 : fe); [ring|]. rewrite Q. ring.
Qed.
(* and twice doubling on those with x = 0 or y = 0 *)
Lemma four_kills P : eon P -> (eadd (eadd P P) (eadd P P) = ezero <-> fst P = f0 \/ snd P = f0).
Proof.
  intros H. rewrite (two_kills (eadd P P)) by exact (add_on p Pp a d K _ _ H H). destruct P as [x y]. rewrite (proj1 (sum_zero x y x y H H)). cbn [fst snd]. pose proof (proj2 (proj2 (proj2 K))) as T.
  rewrite <- prod0. split; [|intros E; transitivity ((f1 + f1) * (x * y)); [ring|rewrite E; ring]]. intros E. assert (Q : (f1 + f1) * (x * y) = f0) by (transitivity (x * y + y * x); [ring|exact E]). apply prod0 in Q. tauto.
Qed.
Lemma diff_zero P Q : eon P -> eon Q -> (fst (eadd P (eneg Q)) = f0 <-> fst P * snd Q = snd P * fst Q) /\ (snd (eadd P (eneg Q)) = f0 <-> snd P * snd Q = - a * (fst P * fst Q)).
Proof.
  intros H1 H2. pose proof (neg_on p a d Q H2) as H3. destruct P as [x1 y1], Q as [x2 y2]. change (eneg (x2, y2)) with (- x2, y2) in *. destruct (sum_zero x1 y1 (- x2) y2 H1 H3) as (-> & ->). cbn [fst snd]. split; split; intros E.
  - transitivity (x1 * y2 + y1 * - x2 + y1 * x2); [ring|rewrite E; ring].
  - transitivity (x1 * y2 - y1 * x2); [ring|rewrite E; ring].
  - transitivity (y1 * y2 - a * (x1 * - x2) + - a * (x1 * x2)); [ring|rewrite E; ring].
  - transitivity (y1 * y2 - - a * (x1 * x2)); [ring|rewrite E; ring].
Qed.
Local Notation xrep := (xrep p a d).
Lemma scale (u v z : fe) : z <> f0 -> (u * z = v * z <-> u = v).
Proof. intros N. split; [exact (mul_cancel p Pp u v z N)|intros ->; reflexivity]. Qed.
Lemma rge_equal_iff c q r P Q : xrep q P -> xrep r Q ->
  (rge_equal p c q r = true <-> fst P * snd Q = snd P * fst Q \/ (x_h p c = 8%Z /\ snd P * snd Q = fst P * fst Q)).
Proof.
  intros (_ & N1 & X1 & Y1 & _) (_ & N2 & X2 & Y2 & _). unfold rge_equal. rewrite orb_true_iff, andb_true_iff, !equal_iff, Z.eqb_eq, X1, Y1, X2, Y2. pose proof (mul_nz p Pp _ _ N1 N2) as N.
  rewrite <- (scale (fst P * snd Q) _ _ N), <- (scale (snd P * snd Q) _ _ N).
  assert (R : forall u v, u * xz p q * (v * xz p r) = u * v * (xz p q * xz p r)) by (intros u v; ring). rewrite !R. reflexivity.
Qed.
Lemma rge_is_zero_iff c q P : xrep q P -> (rge_is_zero p c q = true <-> fst P = f0 \/ (x_h p c = 8%Z /\ snd P = f0)).
Proof.
  intros (_ & N & X & Y & _). unfold rge_is_zero. rewrite orb_true_iff, andb_true_iff, Z.eqb_eq. assert (Z0 : forall x : fe, fe_is_zero x = true <-> x = f0) by (intros x; destruct (is_zero_spec p x); split; intros; congruence).
  rewrite !Z0, X, Y, !prod0. tauto.
Qed.
End P.
