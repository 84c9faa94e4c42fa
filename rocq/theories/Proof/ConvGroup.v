(* The birational maps between a Montgomery curve and a complete Edwards curve are mutually inverse group isomorphisms. *)
From Coq Require Import Znumtheory Setoid Ncring Cring Integral_domain NsatzTactic.
From Verif.Base Require Import Prelude.
From Verif.Model Require Import NumTheory Field.
From Verif.Spec Require Import EcSpec EdSpec MontSpec ConvSpec.
From Verif.Proof Require Import Cong FieldProof FieldNsatz GrpMul EdGroup MontGroup.
Section P.
Variable p : positive.
Hypothesis Pp : prime (Zpos p).
Local Notation fe := (fe p).
#[local] Existing Instance fe_ops.
#[local] Existing Instance fe_ring.
#[local] Existing Instance fe_cring.
#[local] Instance dom : @Integral_domain fe f0 f1 fe_add fe_mul fe_sub fe_neg eq (fe_ops p) (fe_ring p) (fe_cring p) := fe_dom p Pp.
Local Infix "+" := fe_add.
Local Infix "*" := fe_mul.
Local Infix "-" := fe_sub.
Local Notation "- x" := (fe_neg x).
Local Infix "/" := (fe_div p).
Local Notation "0" := (@f0 p).
Local Notation "1" := (@f1 p).
Local Notation "2" := (@f1 p + f1).
Add Ring fring : (ring_th p).
Variables a d : fe.
Hypothesis K : complete fe f0 f1 fe_add fe_mul a d.
Local Notation eadd := (eadd p a d).
Local Notation eon := (eon p a d).
Local Notation eneg := (eneg p).
Local Notation ezero := (ezero p).
Definition mon_ A B := on_mont fe fe_add fe_mul A B.
Definition madd_ A B := madd fe f0 f1 fe_add fe_mul fe_sub (fe_div p) (fe_eq_dec p) A B.
Definition to_ed_ c i := to_ed fe f0 f1 fe_add fe_mul fe_sub (fe_div p) fe_neg (fe_eq_dec p) c i.
Definition to_mont_ c i := to_mont fe f0 f1 fe_add fe_mul fe_sub (fe_div p) (fe_eq_dec p) c i.
Definition linked_ A B c i := linked fe f1 fe_add fe_mul fe_sub a d A B c i.
Lemma two_nz : 2 <> 0. Proof. exact (proj2 (proj2 (proj2 K))). Qed.
Lemma a_nz : a <> 0. Proof. exact (proj1 (proj2 K)). Qed.
Lemma no_sq (u v : fe) : v <> 0 -> u * u = d * (v * v) -> False.
Proof.
  intros V Q. apply (proj1 (proj2 (proj2 K)) (u / v)). apply (mul_cancel p Pp _ _ (v * v)); [apply (mul_nz p Pp); assumption|]. rewrite <- Q.
  transitivity ((u / v * v) * (u / v * v)); [ring|]. rewrite !(div_mul p Pp) by exact V. reflexivity.
Qed.
Lemma d_nz : d <> 0. Proof. intros E. apply (proj1 (proj2 (proj2 K)) 0). rewrite E. ring. Qed.
Lemma sub_nz (x y : fe) : x <> y -> x - y <> 0.
Proof. intros N E. apply N. transitivity (x - y + y); [ring|]. rewrite E. ring. Qed.
Lemma opp_nz (x : fe) : x <> 0 -> - x <> 0.
Proof. intros N E. apply N. transitivity (- (- x)); [ring|]. rewrite E. ring. Qed.
Section Normal.
Variables A B c : fe.
Hypothesis L1 : A * (a - d) = 2 * (a + d).
Hypothesis L2 : B * (a * (c * c)) = A + 2.
Local Notation mon := (mon_ A B).
Local Notation madd := (madd_ A B).
Local Notation phi := (to_ed_ c false).
Local Notation psi := (to_mont_ c false).
Lemma L3 : B * (d * (c * c)) = A - 2.
Proof.
  apply (mul_cancel p Pp _ _ a a_nz). transitivity (d * (B * (a * (c * c)))); [ring|]. rewrite L2. clear L2. pose proof L1. clear - H Pp. nsatz.
Qed.
Lemma Ap2 : A + 2 <> 0.
Proof.
  intros E. apply (mul_nz p Pp _ _ (mul_nz p Pp _ _ two_nz two_nz) a_nz). assert (X : (2 * 2) * a = (A + 2) * (a - d)) by (clear - L1 Pp; nsatz). rewrite X, E. ring.
Qed.
Lemma B_nz : B <> 0. Proof. intros E. apply Ap2. rewrite <- L2, E. ring. Qed.
Lemma c_nz : c <> 0. Proof. intros E. apply Ap2. rewrite <- L2, E. ring. Qed.
Lemma Am2 : A - 2 <> 0.
Proof. rewrite <- L3. repeat apply (mul_nz p Pp); (exact B_nz || exact d_nz || exact c_nz). Qed.
Lemma nmont_ok : mont_ok fe f0 f1 fe_add fe_mul A B.
Proof.
  split; [exact B_nz|]. intros E. apply (mul_nz p Pp _ _ Ap2 Am2). transitivity (A * A - 2 * 2); [ring|]. rewrite E. ring.
Qed.
Lemma on_v u v : mon (Aff u v) -> u <> 0 -> v <> 0.
Proof.
  intros H U V. subst v. unfold mon_, on_mont in H. destruct K as ((s & S) & _).
  assert (Q : u * u + A * u + 1 = 0). { apply (mul_cancel p Pp _ _ u U). transitivity (u * u * u + A * (u * u) + u); [ring|]. rewrite <- H. ring. }
  apply (no_sq ((2 * u + A)) (B * (c * c) * s)).
  - assert (SN : s <> 0) by (intros Z; apply a_nz; rewrite <- S, Z; ring). repeat apply (mul_nz p Pp); (exact B_nz || exact c_nz || exact SN).
  - pose proof L3 as L3. clear - Q S L2 L3 Pp. rewrite <- S in L2. assert ((2 * u + A) * (2 * u + A) = (A - 2) * (A + 2)) as -> by nsatz. rewrite <- L2, <- L3. ring.
Qed.
Lemma on_u u v : mon (Aff u v) -> u + 1 <> 0.
Proof.
  intros H E. unfold mon_, on_mont in H. apply (no_sq v c c_nz). apply (mul_cancel p Pp _ _ B B_nz). transitivity (B * (v * v)); [ring|]. transitivity (B * (d * (c * c))); [|ring]. rewrite L3, H. clear - E Pp. nsatz.
Qed.
Lemma on_0 v : mon (Aff 0 v) -> v = 0.
Proof.
  unfold mon_, on_mont. intros H. destruct (fe_eq_dec p v 0) as [|N]; [assumption|]. destruct (mul_nz p Pp _ _ B_nz (mul_nz p Pp _ _ N N)). rewrite H. ring.
Qed.
Lemma phi_aff u v : u <> 0 -> phi (Aff u v) = (c * u / v, (u - 1) / (u + 1)).
Proof. intros U. unfold to_ed_, to_ed. destruct (fe_eq_dec p u 0); [contradiction|reflexivity]. Qed.
Lemma phi_0 v : phi (Aff 0 v) = (0, - f1).
Proof. unfold to_ed_, to_ed. destruct (fe_eq_dec p 0 0); [reflexivity|contradiction]. Qed.
Lemma on_T : eon (0, - f1). Proof. unfold EdGroup.eon, on_ed. ring. Qed.
Lemma phi_on P : mon P -> eon (phi P).
Proof.
  destruct P as [|u v]; intros H; [exact (on_zero p a d)|]. destruct (fe_eq_dec p u 0) as [-> |U]; [rewrite phi_0; exact on_T|]. rewrite phi_aff by exact U.
  pose proof (on_v _ _ H U) as V. pose proof (on_u _ _ H) as W. pose proof (div_mul p Pp (c * u) v V) as X. pose proof (div_mul p Pp (u - 1) (u + 1) W) as Y. set (x := c * u / v) in *. set (y := (u - 1) / (u + 1)) in *. clearbody x y.
  unfold mon_, on_mont in H. unfold EdGroup.eon, on_ed. apply (mul_cancel p Pp _ _ (B * ((v * v) * ((u + 1) * (u + 1))))); [repeat apply (mul_nz p Pp); (exact B_nz || assumption)|].
  pose proof L3 as L3.
  transitivity ((B * (a * ((x * v) * (x * v))) + B * (v * v) * (y * y)) * ((u + 1) * (u + 1))); [ring|]. transitivity (B * (v * v) * ((u + 1) * (u + 1)) + B * (d * ((x * v) * (x * v))) * ((y * (u + 1)) * (y * (u + 1)))); [|ring].
  transitivity (B * (a * ((x * v) * (x * v))) * ((u + 1) * (u + 1)) + B * (v * v) * ((y * (u + 1)) * (y * (u + 1)))); [ring|].
  rewrite X, Y. clear X Y V W U. transitivity ((B * (a * (c * c))) * (u * u) * ((u + 1) * (u + 1)) + B * (v * v) * ((u - 1) * (u - 1))); [ring|].
  transitivity (B * (v * v) * ((u + 1) * (u + 1)) + (B * (d * (c * c))) * (u * u) * ((u - 1) * (u - 1))); [|ring]. rewrite L2, L3, H. ring.
Qed.
Lemma ed_x0 (x y : fe) : eon (x, y) -> x = 0 -> y = 1 \/ y = - f1.
Proof.
  unfold EdGroup.eon, on_ed. intros H ->. destruct (fe_eq_dec p y 1) as [|N]; [left; assumption|right]. assert (E : (y - 1) * (y + 1) = 0) by (clear - H Pp; nsatz).
  destruct (fe_eq_dec p (y + 1) 0) as [Z|Z]; [transitivity (y + 1 - 1); [ring|rewrite Z; ring]|]. destruct (mul_nz p Pp _ _ (sub_nz _ _ N) Z E).
Qed.
Lemma ed_y1 (x y : fe) : eon (x, y) -> x <> 0 -> 1 - y <> 0 /\ 1 + y <> 0.
Proof.
  unfold EdGroup.eon, on_ed. intros H X. assert (N : (a - d) * (x * x) <> 0).
  { apply (mul_nz p Pp); [|apply (mul_nz p Pp); assumption]. apply sub_nz. intros E. destruct (proj1 K) as (s & S). apply (proj1 (proj2 (proj2 K)) s). congruence. }
  split; intros E; apply N; clear - H E Pp; nsatz.
Qed.
Lemma psi_x0 y : psi (0, y) = if fe_eq_dec p y 1 then Inf else Aff 0 0.
Proof. unfold to_mont_, to_mont. destruct (fe_eq_dec p 0 0); [reflexivity|contradiction]. Qed.
Lemma psi_x x y : x <> 0 -> psi (x, y) = Aff ((1 + y) / (1 - y)) (c * ((1 + y) / (1 - y)) / x).
Proof. intros X. unfold to_mont_, to_mont. destruct (fe_eq_dec p x 0); [contradiction|reflexivity]. Qed.
Lemma one_neq : @f1 p <> - f1.
Proof. intros E. apply two_nz. transitivity (f1 - (- f1) : fe); [ring|]. rewrite <- E. ring. Qed.
Lemma psi_on Q : eon Q -> mon (psi Q).
Proof.
  destruct Q as [x y]. intros H. destruct (fe_eq_dec p x 0) as [-> |X].
  - rewrite psi_x0. destruct (fe_eq_dec p y 1); [exact I|]. unfold mon_, on_mont. ring.
  - rewrite psi_x by exact X. destruct (ed_y1 x y H X) as (Y1 & Y2). unfold mon_, on_mont. pose proof (div_mul p Pp (1 + y) (1 - y) Y1) as U. set (u := (1 + y) / (1 - y)) in *. pose proof (div_mul p Pp (c * u) x X) as V. set (v := c * u / x) in *. clearbody v. clearbody u.
    pose proof L3 as L3. unfold EdGroup.eon, on_ed in H. apply (mul_cancel p Pp _ _ ((x * x) * a * (1 - y) * (1 - y) * (1 - y))); [repeat apply (mul_nz p Pp); (exact a_nz || assumption)|].
    transitivity (B * (a * ((v * x) * (v * x))) * (1 - y) * (1 - y) * (1 - y)); [ring|]. rewrite V. transitivity (B * (a * (c * c)) * (u * (1 - y)) * (u * (1 - y)) * (1 - y)); [ring|]. rewrite L2, U.
    transitivity ((x * x) * a * (u * (1 - y)) * ((u * (1 - y)) * (u * (1 - y)) + A * (u * (1 - y)) * (1 - y) + (1 - y) * (1 - y))); [|ring]. rewrite U. clear U V. apply (mul_cancel p Pp _ _ (a - d)).
    { apply sub_nz. intros E. destruct (proj1 K) as (s & S). apply (proj1 (proj2 (proj2 K)) s). congruence. }
    clear L3 L2 X Y1 Y2. nsatz.
Qed.
Lemma psi_phi P : mon P -> psi (phi P) = P.
Proof.
  destruct P as [|u v]; intros H.
  - change (phi Inf) with (@f0 p, @f1 p). rewrite psi_x0. destruct (fe_eq_dec p 1 1); [reflexivity|contradiction].
  - destruct (fe_eq_dec p u 0) as [-> |U].
    + rewrite phi_0, psi_x0. rewrite (on_0 _ H). destruct (fe_eq_dec p (- f1) 1) as [E|]; [destruct one_neq; symmetry; exact E|reflexivity].
    + rewrite phi_aff by exact U. pose proof (on_v _ _ H U) as V. pose proof (on_u _ _ H) as W. pose proof (div_mul p Pp (c * u) v V) as X. pose proof (div_mul p Pp (u - 1) (u + 1) W) as Y. set (x := c * u / v) in *. set (y := (u - 1) / (u + 1)) in *. clearbody x y.
      assert (XN : x <> 0) by (intros Z; apply (mul_nz p Pp _ _ c_nz U); rewrite <- X, Z; ring). rewrite psi_x by exact XN.
      assert (Y1 : 1 - y <> 0). { intros Z. apply two_nz. assert (y = 1) by (transitivity (1 - (1 - y)); [ring|rewrite Z; ring]). subst y. clear - Y Pp. nsatz. }
      assert (E : (1 + y) / (1 - y) = u) by (symmetry; apply (eq_div p Pp); [exact Y1|]; clear - Y Pp; nsatz). rewrite E. f_equal. symmetry. apply (eq_div p Pp); [exact XN|]. rewrite <- X. ring.
Qed.
Lemma phi_psi Q : eon Q -> phi (psi Q) = Q.
Proof.
  destruct Q as [x y]. intros H. destruct (fe_eq_dec p x 0) as [-> |X].
  - rewrite psi_x0. destruct (fe_eq_dec p y 1) as [-> |N]; [reflexivity|]. rewrite phi_0. destruct (ed_x0 _ _ H eq_refl) as [| ->]; [contradiction|reflexivity].
  - rewrite psi_x by exact X. destruct (ed_y1 x y H X) as (Y1 & Y2). pose proof (div_mul p Pp (1 + y) (1 - y) Y1) as U. set (u := (1 + y) / (1 - y)) in *. pose proof (div_mul p Pp (c * u) x X) as V. set (v := c * u / x) in *.
    assert (UN : u <> 0) by (intros Z; apply Y2; rewrite <- U, Z; ring). assert (ON : mon (Aff u v)) by (unfold v, u; rewrite <- psi_x by exact X; apply psi_on; exact H).
    pose proof (on_v _ _ ON UN) as VN. pose proof (on_u _ _ ON) as W. rewrite phi_aff by exact UN. f_equal; symmetry; apply (eq_div p Pp); try assumption; [rewrite <- V; ring|]. clearbody u. clear - U Pp. nsatz.
Qed.
Lemma phi_neg P : mon P -> phi (pneg fe fe_neg P) = eneg (phi P).
Proof.
  destruct P as [|u v]; intros H; cbn [pneg].
  - unfold to_ed_, to_ed, EdGroup.eneg, ed_neg. cbn [fst snd]. f_equal; ring.
  - destruct (fe_eq_dec p u 0) as [-> |U].
    + rewrite !phi_0. unfold EdGroup.eneg, ed_neg. cbn [fst snd]. f_equal; ring.
    + rewrite !phi_aff by exact U. unfold EdGroup.eneg, ed_neg. cbn [fst snd]. f_equal. pose proof (on_v _ _ H U) as V. symmetry. apply (eq_div p Pp); [apply opp_nz; exact V|].
      transitivity (c * u / v * v); [ring|]. apply (div_mul p Pp). exact V.
Qed.
(* phi of a sum, given the two equations that define the Edwards sum, cleared of denominators *)
Lemma generic u1 v1 u2 v2 u3 v3 : mon (Aff u1 v1) -> mon (Aff u2 v2) -> mon (Aff u3 v3) -> u1 <> 0 -> u2 <> 0 -> u3 <> 0 ->
  (u3 - 1) * (B * v1 * v2 * (u1 + 1) * (u2 + 1) - (A - 2) * u1 * u2 * (u1 - 1) * (u2 - 1)) = (u3 + 1) * (B * v1 * v2 * (u1 - 1) * (u2 - 1) - (A + 2) * u1 * u2 * (u1 + 1) * (u2 + 1)) ->
  u3 * (B * v1 * v2 * (u1 + 1) * (u2 + 1) + (A - 2) * u1 * u2 * (u1 - 1) * (u2 - 1)) = v3 * B * (u1 * v2 * (u2 - 1) * (u1 + 1) + u2 * v1 * (u1 - 1) * (u2 + 1)) ->
  phi (Aff u3 v3) = eadd (phi (Aff u1 v1)) (phi (Aff u2 v2)).
Proof.
  intros H1 H2 H3 U1 U2 U3 EY EX. apply (sums_eq p Pp a d K); [apply phi_on; exact H1|apply phi_on; exact H2|]. rewrite !phi_aff by assumption. unfold sums.
  pose proof (on_v _ _ H1 U1) as V1. pose proof (on_v _ _ H2 U2) as V2. pose proof (on_v _ _ H3 U3) as V3. pose proof (on_u _ _ H1) as W1. pose proof (on_u _ _ H2) as W2. pose proof (on_u _ _ H3) as W3. clear H1 H2 H3.
  pose proof (div_mul p Pp (c * u1) v1 V1) as X1. pose proof (div_mul p Pp (u1 - 1) (u1 + 1) W1) as Y1. set (x1 := c * u1 / v1) in *. set (y1 := (u1 - 1) / (u1 + 1)) in *. clearbody x1 y1.
  pose proof (div_mul p Pp (c * u2) v2 V2) as X2. pose proof (div_mul p Pp (u2 - 1) (u2 + 1) W2) as Y2. set (x2 := c * u2 / v2) in *. set (y2 := (u2 - 1) / (u2 + 1)) in *. clearbody x2 y2.
  pose proof (div_mul p Pp (c * u3) v3 V3) as X3. pose proof (div_mul p Pp (u3 - 1) (u3 + 1) W3) as Y3. set (x3 := c * u3 / v3) in *. set (y3 := (u3 - 1) / (u3 + 1)) in *. clearbody x3 y3.
  pose proof L3 as L3. assert (N : B * v1 * v2 * (u1 + 1) * (u2 + 1) <> 0) by (repeat apply (mul_nz p Pp); (exact B_nz || assumption)).
  (* the common product d x1 x2 y1 y2, scaled *)
  assert (M : d * (x1 * x2 * (y1 * y2)) * (B * v1 * v2 * (u1 + 1) * (u2 + 1)) = (A - 2) * u1 * u2 * (u1 - 1) * (u2 - 1)).
  { transitivity (B * d * (x1 * v1) * (x2 * v2) * (y1 * (u1 + 1)) * (y2 * (u2 + 1))); [ring|]. rewrite X1, X2, Y1, Y2, <- L3. ring. }
  split.
  - apply (mul_cancel p Pp _ _ (v3 * (B * v1 * v2 * (u1 + 1) * (u2 + 1)))); [apply (mul_nz p Pp); assumption|]. set (m := d * (x1 * x2 * (y1 * y2))) in *. clearbody m.
    transitivity ((x3 * v3) * (B * v1 * v2 * (u1 + 1) * (u2 + 1) + m * (B * v1 * v2 * (u1 + 1) * (u2 + 1)))); [ring|]. rewrite X3, M.
    transitivity (c * (u3 * (B * v1 * v2 * (u1 + 1) * (u2 + 1) + (A - 2) * u1 * u2 * (u1 - 1) * (u2 - 1)))); [ring|]. rewrite EX.
    transitivity (v3 * B * ((x1 * v1) * v2 * (u1 + 1) * (y2 * (u2 + 1)) + (x2 * v2) * v1 * (u2 + 1) * (y1 * (u1 + 1)))); [|ring]. rewrite X1, X2, Y1, Y2. ring.
  - apply (mul_cancel p Pp _ _ ((u3 + 1) * (B * v1 * v2 * (u1 + 1) * (u2 + 1)))); [apply (mul_nz p Pp); assumption|]. set (m := d * (x1 * x2 * (y1 * y2))) in *. clearbody m.
    transitivity ((y3 * (u3 + 1)) * (B * v1 * v2 * (u1 + 1) * (u2 + 1) - m * (B * v1 * v2 * (u1 + 1) * (u2 + 1)))); [ring|]. rewrite Y3, M, EY. rewrite <- L2.
    transitivity ((u3 + 1) * (B * v1 * v2 * (y1 * (u1 + 1)) * (y2 * (u2 + 1)) - B * a * (x1 * v1) * (x2 * v2) * (u1 + 1) * (u2 + 1))); [|ring]. rewrite X1, X2, Y1, Y2. ring.
Qed.

Hypothesis T3 : @f1 p + f1 + f1 <> 0.
Lemma nlaw : group_laws (point fe) mon madd Inf (pneg fe fe_neg).
Proof. exact (mlaws fe f0 f1 fe_add fe_mul fe_sub (fe_div p) fe_neg fe_inv (field_th p Pp) (fe_eq_dec p) A B two_nz T3 nmont_ok). Qed.
Lemma elaw : group_laws (fe * fe) eon eadd ezero eneg. Proof. exact (laws p Pp a d K). Qed.
Lemma T_on : mon (Aff 0 0). Proof. unfold mon_, on_mont. ring. Qed.
Lemma TT : eadd (0, - f1) (0, - f1) = ezero.
Proof. symmetry. apply (sums_eq p Pp a d K); [exact on_T|exact on_T|]. unfold sums, EdGroup.ezero, ed_zero. split; ring. Qed.
Lemma add_T u v : mon (Aff u v) -> u <> 0 -> phi (madd (Aff 0 0) (Aff u v)) = eadd (phi (Aff 0 0)) (phi (Aff u v)).
Proof.
  intros H U. pose proof (gl_op _ _ _ _ _ nlaw _ _ T_on H) as R. apply (sums_eq p Pp a d K); [rewrite phi_0; exact on_T|apply phi_on; exact H|].
  rewrite phi_0. revert R. unfold madd_, MontSpec.madd. destruct (fe_eq_dec p 0 u) as [E|_]; [destruct U; symmetry; exact E|]. unfold mthird.
  assert (N0 : 0 - u <> 0) by (apply sub_nz; intros E; apply U; symmetry; exact E). pose proof (div_mul p Pp (0 - v) (0 - u) N0) as L. set (l := (0 - v) / (0 - u)) in *. clearbody l.
  set (u3 := B * (l * l) - A - 0 - u). set (v3 := l * (0 - u3) - 0). intros R. pose proof (on_v _ _ H U) as V. pose proof (on_u _ _ H) as W.
  assert (E3 : u3 * u = 1). { apply (mul_cancel p Pp _ _ u U). unfold mon_, on_mont in H. transitivity (B * ((l * (0 - u)) * (l * (0 - u))) - A * (u * u) - u * u * u); [unfold u3; ring|]. rewrite L. transitivity (B * (v * v) - A * (u * u) - u * u * u); [ring|]. rewrite H. ring. }
  assert (F3 : v3 * (u * u) = - v). { transitivity ((l * (0 - u)) * (u3 * u)); [unfold v3; ring|]. rewrite L, E3. ring. }
  assert (U3 : u3 <> 0) by (intros Z; apply (f1_nz p Pp); rewrite <- E3, Z; ring). pose proof (on_v _ _ R U3) as V3. pose proof (on_u _ _ R) as W3. clearbody v3. clearbody u3. rewrite !phi_aff by assumption. unfold sums.
  pose proof (div_mul p Pp (c * u) v V) as X1. pose proof (div_mul p Pp (u - 1) (u + 1) W) as Y1. set (x1 := c * u / v) in *. set (y1 := (u - 1) / (u + 1)) in *. clearbody x1 y1.
  pose proof (div_mul p Pp (c * u3) v3 V3) as X3. pose proof (div_mul p Pp (u3 - 1) (u3 + 1) W3) as Y3. set (x3 := c * u3 / v3) in *. set (y3 := (u3 - 1) / (u3 + 1)) in *. clearbody x3 y3. split.
  - transitivity x3; [ring|]. transitivity (- x1); [|ring]. apply (mul_cancel p Pp _ _ (v3 * (u * u))); [repeat apply (mul_nz p Pp); assumption|]. transitivity ((x3 * v3) * (u * u)); [ring|]. rewrite X3, F3. transitivity (c * u * (u3 * u)); [ring|]. rewrite E3. transitivity (c * u); [ring|]. rewrite <- X1. ring.
  - transitivity y3; [ring|]. transitivity (- y1); [|ring]. apply (mul_cancel p Pp _ _ ((u3 + 1) * (u + 1))); [repeat apply (mul_nz p Pp); assumption|]. transitivity ((y3 * (u3 + 1)) * (u + 1)); [ring|]. transitivity (- ((y1 * (u + 1)) * (u3 + 1))); [|ring]. rewrite Y3, Y1. clear - E3 Pp. nsatz.
Qed.
Lemma chord u1 v1 u2 v2 l : mon (Aff u1 v1) -> mon (Aff u2 v2) -> u1 - u2 <> 0 -> l * (u1 - u2) = v1 - v2 ->
  let u3 := B * (l * l) - A - u1 - u2 in let v3 := l * (u1 - u3) - v1 in
  (u3 - 1) * (B * v1 * v2 * (u1 + 1) * (u2 + 1) - (A - 2) * u1 * u2 * (u1 - 1) * (u2 - 1)) = (u3 + 1) * (B * v1 * v2 * (u1 - 1) * (u2 - 1) - (A + 2) * u1 * u2 * (u1 + 1) * (u2 + 1)) /\
  u3 * (B * v1 * v2 * (u1 + 1) * (u2 + 1) + (A - 2) * u1 * u2 * (u1 - 1) * (u2 - 1)) = v3 * B * (u1 * v2 * (u2 - 1) * (u1 + 1) + u2 * v1 * (u1 - 1) * (u2 + 1)).
Proof.
  unfold mon_, on_mont. intros H1 H2 N L. cbv zeta. split.
  - apply (mul_cancel p Pp _ _ ((u1 - u2) * (u1 - u2))); [repeat apply (mul_nz p Pp); assumption|]. clear - H1 H2 L Pp. nsatz.
  - apply (mul_cancel p Pp _ _ ((u1 - u2) * (u1 - u2) * (u1 - u2))); [repeat apply (mul_nz p Pp); assumption|]. clear - H1 H2 L Pp. nsatz.
Qed.
Lemma tangent u v l : mon (Aff u v) -> v <> 0 -> l * (2 * (B * v)) = (1 + 1 + 1) * (u * u) + 2 * (A * u) + 1 ->
  let u3 := B * (l * l) - A - u - u in let v3 := l * (u - u3) - v in
  (u3 - 1) * (B * v * v * (u + 1) * (u + 1) - (A - 2) * u * u * (u - 1) * (u - 1)) = (u3 + 1) * (B * v * v * (u - 1) * (u - 1) - (A + 2) * u * u * (u + 1) * (u + 1)) /\
  u3 * (B * v * v * (u + 1) * (u + 1) + (A - 2) * u * u * (u - 1) * (u - 1)) = v3 * B * (u * v * (u - 1) * (u + 1) + u * v * (u - 1) * (u + 1)).
Proof.
  unfold mon_, on_mont. intros H N L. cbv zeta. split.
  - apply (mul_cancel p Pp _ _ (2 * 2 * (B * v * v))); [repeat apply (mul_nz p Pp); (exact two_nz || exact B_nz || assumption)|]. clear - H L Pp. nsatz.
  - apply (mul_cancel p Pp _ _ (2 * 2 * (B * v * v))); [repeat apply (mul_nz p Pp); (exact two_nz || exact B_nz || assumption)|]. clear - H L Pp. nsatz.
Qed.
Lemma phi_add P Q : mon P -> mon Q -> phi (madd P Q) = eadd (phi P) (phi Q).
Proof.
  intros HP HQ. pose proof (phi_on P HP) as EP. pose proof (phi_on Q HQ) as EQ. pose proof nlaw as NL. pose proof elaw as EL. pose proof (gl_op _ _ _ _ _ NL P Q HP HQ) as HR.
  destruct P as [|u1 v1]; [rewrite (gl_id _ _ _ _ _ NL Q HQ); symmetry; exact (gl_id _ _ _ _ _ EL _ EQ)|].
  destruct Q as [|u2 v2]; [rewrite (gl_comm _ _ _ _ _ NL _ _ HP HQ), (gl_comm _ _ _ _ _ EL _ _ EP EQ), (gl_id _ _ _ _ _ NL _ HP); symmetry; exact (gl_id _ _ _ _ _ EL _ EP)|].
  destruct (fe_eq_dec p u1 0) as [-> |U1].
  { pose proof (on_0 _ HP) as ->. destruct (fe_eq_dec p u2 0) as [-> |U2].
    - pose proof (on_0 _ HQ) as ->. rewrite phi_0, TT. unfold madd_, MontSpec.madd. destruct (fe_eq_dec p 0 0) as [_|N]; [reflexivity|contradiction].
    - exact (add_T _ _ HQ U2). }
  destruct (fe_eq_dec p u2 0) as [-> |U2].
  { pose proof (on_0 _ HQ) as ->. rewrite (gl_comm _ _ _ _ _ NL _ _ HP HQ), (gl_comm _ _ _ _ _ EL _ _ EP EQ). exact (add_T _ _ HP U1). }
  destruct (madd (Aff u1 v1) (Aff u2 v2)) as [|u3 v3] eqn:E.
  { (* opposite points *)
    assert (Q2 : Aff u2 v2 = pneg fe fe_neg (Aff u1 v1)).
    { rewrite <- (gl_id _ _ _ _ _ NL _ HQ), <- (gl_neg _ _ _ _ _ NL _ HP), (gl_comm _ _ _ _ _ NL _ _ HP (gl_inv _ _ _ _ _ NL _ HP)), (gl_assoc _ _ _ _ _ NL _ _ _ (gl_inv _ _ _ _ _ NL _ HP) HP HQ), E.
      rewrite (gl_comm _ _ _ _ _ NL _ _ (gl_inv _ _ _ _ _ NL _ HP) (gl_e _ _ _ _ _ NL)). exact (gl_id _ _ _ _ _ NL _ (gl_inv _ _ _ _ _ NL _ HP)). }
    rewrite Q2, (phi_neg _ HP). symmetry. exact (gl_neg _ _ _ _ _ EL _ EP). }
  destruct (fe_eq_dec p u3 0) as [-> |U3].
  { (* the sum is the point of order two *)
    pose proof (on_0 _ HR) as ->. pose proof (gl_inv _ _ _ _ _ NL _ HP) as HN.
    assert (Q2 : Aff u2 v2 = madd (Aff 0 0) (pneg fe fe_neg (Aff u1 v1))).
    { rewrite <- E, (gl_comm _ _ _ _ _ NL _ _ HP HQ), (gl_assoc _ _ _ _ _ NL _ _ _ HQ HP HN), (gl_neg _ _ _ _ _ NL _ HP), (gl_comm _ _ _ _ _ NL _ _ HQ (gl_e _ _ _ _ _ NL)). symmetry. exact (gl_id _ _ _ _ _ NL _ HQ). }
    pose proof (gl_inv _ _ _ _ _ EL _ EP) as EN. assert (ET : eon (phi (Aff 0 0))) by (rewrite phi_0; exact on_T).
    rewrite Q2. cbn [pneg] in *. rewrite (add_T _ _ HN U1). change (Aff u1 (- v1)) with (pneg fe fe_neg (Aff u1 v1)). rewrite (phi_neg _ HP).
    rewrite (gl_comm _ _ _ _ _ EL _ _ ET EN), <- (gl_assoc _ _ _ _ _ EL _ _ _ EP EN ET), (gl_neg _ _ _ _ _ EL _ EP). symmetry. exact (gl_id _ _ _ _ _ EL _ ET). }
  unfold madd_, MontSpec.madd in E. destruct (fe_eq_dec p u1 u2) as [<- |NU].
  - destruct (fe_eq_dec p v1 v2) as [<- |]; [|discriminate]. destruct (fe_eq_dec p v1 0) as [|V]; [discriminate|]. unfold mthird in E. set (l := _ / _) in E.
    assert (L : l * (2 * (B * v1)) = (1 + 1 + 1) * (u1 * u1) + 2 * (A * u1) + 1) by (apply (div_mul p Pp); repeat apply (mul_nz p Pp); (exact two_nz || exact B_nz || exact V)). clearbody l.
    destruct (tangent u1 v1 l HP V L) as (T1 & T2). injection E as E1 E2. rewrite E1 in *. rewrite E2 in *. apply generic; assumption.
  - unfold mthird in E. set (l := _ / _) in E. assert (L : l * (u1 - u2) = v1 - v2) by (apply (div_mul p Pp); apply sub_nz; exact NU). clearbody l.
    destruct (chord u1 v1 u2 v2 l HP HQ (sub_nz _ _ NU) L) as (T1 & T2). injection E as E1 E2. rewrite E1 in *. rewrite E2 in *. apply generic; assumption.
Qed.
End Normal.
(* the inverted maps are the others on the curve with the opposite u *)
Definition nu (P : point fe) : point fe := match P with Inf => Inf | Aff u v => Aff (- u) v end.
Lemma nu_nu P : nu (nu P) = P. Proof. destruct P as [|u v]; [reflexivity|]. cbn [nu]. f_equal; ring. Qed.
Lemma div_opp (x y : fe) : y <> 0 -> x / - y = - (x / y).
Proof. intros N. symmetry. apply (eq_div p Pp); [apply opp_nz; exact N|]. transitivity (x / y * y); [ring|]. apply (div_mul p Pp). exact N. Qed.
Lemma div_opp_l (x y : fe) : (- x) / y = - (x / y). Proof. unfold fe_div. ring. Qed.
Lemma nu_on A B P : mon_ A B P <-> mon_ (- A) (- B) (nu P).
Proof.
  destruct P as [|u v]; [reflexivity|]. unfold mon_, on_mont. cbn [nu]. split; intros H.
  - transitivity (- (B * (v * v))); [ring|]. rewrite H. ring.
  - transitivity (- (- B * (v * v))); [ring|]. rewrite H. ring.
Qed.
Lemma nu_add A B P Q : B <> 0 -> nu (madd_ A B P Q) = madd_ (- A) (- B) (nu P) (nu Q).
Proof.
  intros BN. destruct P as [|u1 v1]; [reflexivity|]. destruct Q as [|u2 v2]; [reflexivity|]. cbn [nu]. unfold madd_, MontSpec.madd. destruct (fe_eq_dec p u1 u2) as [<- |N].
  - destruct (fe_eq_dec p (- u1) (- u1)) as [_|]; [|contradiction]. destruct (fe_eq_dec p v1 v2) as [_|]; [|reflexivity]. destruct (fe_eq_dec p v1 0) as [|V]; [reflexivity|]. unfold mthird. cbn [nu].
    set (l := _ / (2 * (B * v1))). set (l' := _ / (2 * (- B * v1))). assert (E : l' = - l).
    { unfold l', l. rewrite <- div_opp by (repeat apply (mul_nz p Pp); (exact two_nz || assumption)). f_equal; ring. }
    rewrite E. f_equal; ring.
  - destruct (fe_eq_dec p (- u1) (- u2)) as [E|_]; [destruct N; transitivity (- (- u1)); [ring|rewrite E; ring]|]. unfold mthird. cbn [nu].
    set (l := _ / (u1 - u2)). set (l' := _ / (- u1 - - u2)). assert (E : l' = - l).
    { unfold l', l. rewrite <- div_opp by (apply sub_nz; exact N). f_equal; ring. }
    rewrite E. f_equal; ring.
Qed.
Section Both.
Variables A B c : fe.
Variable i : bool.
Hypothesis L : linked_ A B c i.
Hypothesis T3 : @f1 p + f1 + f1 <> 0.
Lemma icase : i = true \/ i = false. Proof. destruct i; [left|right]; reflexivity. Qed.
Lemma link1 : i = true -> - A * (a - d) = 2 * (a + d).
Proof. intros E. unfold linked_, linked in L. rewrite E in L. destruct L as (H & _). transitivity (A * (d - a)); [ring|]. rewrite H. ring. Qed.
Lemma link2 : i = true -> - B * (a * (- c * - c)) = - A + 2.
Proof. intros E. unfold linked_, linked in L. rewrite E in L. destruct L as (_ & H). transitivity (- (B * (a * (c * c)))); [ring|]. rewrite H. ring. Qed.
Lemma link1' : i = false -> A * (a - d) = 2 * (a + d).
Proof. intros E. unfold linked_, linked in L. rewrite E in L. exact (proj1 L). Qed.
Lemma link2' : i = false -> B * (a * (c * c)) = A + 2.
Proof. intros E. unfold linked_, linked in L. rewrite E in L. exact (proj2 L). Qed.
Lemma opp_inj0 (x : fe) : - x <> 0 -> x <> 0. Proof. intros N E. apply N. rewrite E. ring. Qed.
Lemma lB : B <> 0.
Proof. destruct icase as [E|E]; rewrite ?E; [apply opp_inj0; exact (B_nz _ _ _ (link1 E) (link2 E))|exact (B_nz _ _ _ (link1' E) (link2' E))]. Qed.
Lemma lc : c <> 0.
Proof. destruct icase as [E|E]; rewrite ?E; [apply opp_inj0; exact (c_nz _ _ _ (link1 E) (link2 E))|exact (c_nz _ _ _ (link1' E) (link2' E))]. Qed.
Lemma link_ok : mont_ok fe f0 f1 fe_add fe_mul A B.
Proof.
  destruct icase as [E|E]; rewrite ?E; [|exact (nmont_ok _ _ _ (link1' E) (link2' E))]. split; [exact lB|]. destruct (nmont_ok _ _ _ (link1 E) (link2 E)) as (_ & N). intros H. apply N. rewrite <- H. ring.
Qed.
Lemma both_v u v : mon_ A B (Aff u v) -> u <> 0 -> v <> 0.
Proof.
  intros H U. destruct icase as [E|E]; rewrite ?E; [|exact (on_v _ _ _ (link1' E) (link2' E) _ _ H U)]. apply nu_on in H. exact (on_v _ _ _ (link1 E) (link2 E) _ _ H (opp_nz _ U)).
Qed.
Lemma both_u u v : mon_ A B (Aff u v) -> if i then u - 1 <> 0 else u + 1 <> 0.
Proof.
  intros H. destruct icase as [E|E]; rewrite ?E; [|exact (on_u _ _ _ (link1' E) (link2' E) _ _ H)]. apply nu_on in H. pose proof (on_u _ _ _ (link1 E) (link2 E) _ _ H) as N. intros Z. apply N. transitivity (- (u - 1)); [ring|]. rewrite Z. ring.
Qed.
Lemma inv_ed P : i = true -> mon_ A B P -> to_ed_ c true P = to_ed_ (- c) false (nu P).
Proof.
  intros E H. destruct P as [|u v]; [reflexivity|]. cbn [nu]. pose proof (both_u u v H) as N. rewrite E in N. unfold to_ed_, to_ed. destruct (fe_eq_dec p u 0) as [-> |U].
  - destruct (fe_eq_dec p (- f0) 0) as [|W]; [reflexivity|]. destruct W. ring.
  - destruct (fe_eq_dec p (- u) 0) as [W|_]; [destruct (opp_nz u U W)|]. f_equal; [f_equal; ring|]. replace (- u - 1) with (- (u + 1)) by ring. replace (- u + 1) with (- (u - 1)) by ring. rewrite div_opp_l, div_opp by exact N. ring.
Qed.
Lemma inv_mont Q : eon Q -> to_mont_ c true Q = nu (to_mont_ (- c) false Q).
Proof.
  destruct Q as [x y]. intros H. unfold to_mont_, to_mont. destruct (fe_eq_dec p x 0) as [-> |X].
  - destruct (fe_eq_dec p y 1); [reflexivity|]. cbn [nu]. f_equal; ring.
  - cbn [nu]. destruct (ed_y1 x y H X) as (Y1 & _). assert (E : (y + 1) / (y - 1) = - ((1 + y) / (1 - y))).
    { rewrite <- div_opp by exact Y1. f_equal; ring. }
    rewrite E. f_equal. f_equal. ring.
Qed.
Theorem ed_on P : mon_ A B P -> eon (to_ed_ c i P).
Proof.
  intros H. destruct icase as [E|E]; rewrite ?E; [|exact (phi_on _ _ _ (link1' E) (link2' E) P H)]. rewrite (inv_ed P E H). apply (phi_on _ _ _ (link1 E) (link2 E)). apply nu_on in H. exact H.
Qed.
Theorem mont_on Q : eon Q -> mon_ A B (to_mont_ c i Q).
Proof.
  intros H. destruct icase as [E|E]; rewrite ?E; [|exact (psi_on _ _ _ (link1' E) (link2' E) Q H)]. rewrite (inv_mont Q H). apply nu_on. rewrite nu_nu. exact (psi_on _ _ _ (link1 E) (link2 E) Q H).
Qed.
Theorem mont_ed P : mon_ A B P -> to_mont_ c i (to_ed_ c i P) = P.
Proof.
  intros H. pose proof (ed_on P H) as O. destruct icase as [E|E]; rewrite ?E; [|exact (psi_phi _ _ _ (link1' E) (link2' E) P H)]. rewrite E in O. rewrite (inv_mont _ O), (inv_ed P E H). apply nu_on in H. rewrite (psi_phi _ _ _ (link1 E) (link2 E) _ H). apply nu_nu.
Qed.
Theorem ed_mont Q : eon Q -> to_ed_ c i (to_mont_ c i Q) = Q.
Proof.
  intros H. pose proof (mont_on Q H) as O. destruct icase as [E|E]; rewrite ?E; [|exact (phi_psi _ _ _ (link1' E) (link2' E) Q H)]. rewrite E in O. rewrite (inv_ed _ E O), (inv_mont Q H), nu_nu. exact (phi_psi _ _ _ (link1 E) (link2 E) _ H).
Qed.
Theorem ed_neg_ P : mon_ A B P -> to_ed_ c i (pneg fe fe_neg P) = eneg (to_ed_ c i P).
Proof.
  intros H. assert (HN : mon_ A B (pneg fe fe_neg P)) by (destruct P as [|u v]; [exact I|]; unfold mon_, on_mont, pneg in *; rewrite <- H; ring).
  destruct icase as [E|E]; rewrite ?E; [|exact (phi_neg _ _ _ (link1' E) (link2' E) P H)]. rewrite (inv_ed _ E H), (inv_ed _ E HN). apply nu_on in H. rewrite <- (phi_neg _ _ _ (link1 E) (link2 E) _ H). destruct P; reflexivity.
Qed.
Lemma both_law : group_laws (point fe) (mon_ A B) (madd_ A B) Inf (pneg fe fe_neg).
Proof. exact (mlaws fe f0 f1 fe_add fe_mul fe_sub (fe_div p) fe_neg fe_inv (field_th p Pp) (fe_eq_dec p) A B two_nz T3 link_ok). Qed.
Theorem ed_add P Q : mon_ A B P -> mon_ A B Q -> to_ed_ c i (madd_ A B P Q) = eadd (to_ed_ c i P) (to_ed_ c i Q).
Proof.
  intros HP HQ. pose proof (gl_op _ _ _ _ _ both_law P Q HP HQ) as HR. destruct icase as [E|E]; rewrite ?E; [|exact (phi_add _ _ _ (link1' E) (link2' E) T3 P Q HP HQ)].
  rewrite (inv_ed _ E HP), (inv_ed _ E HQ), (inv_ed _ E HR), nu_add by exact lB. apply nu_on in HP. apply nu_on in HQ. exact (phi_add _ _ _ (link1 E) (link2 E) T3 _ _ HP HQ).
Qed.
End Both.
End P.
