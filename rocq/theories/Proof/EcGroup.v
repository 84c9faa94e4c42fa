(* The chord-and-tangent law is an abelian group, for every field with 2 <> 0 and every nonsingular curve. *)
From Coq Require Import Field Ring ZArith Lia.
From Verif.Spec Require Import EcSpec.
Section G.
Variable F : Type.
Variables (O I : F) (add mul sub div : F -> F -> F) (opp inv : F -> F).
Hypothesis Fth : field_theory O I add mul sub opp div inv (@eq F).
Add Field Ff : Fth.
Variable eq_dec : forall x y : F, {x = y} + {x <> y}.
Local Notation "0" := O. Local Notation "1" := I.
Local Infix "+" := add. Local Infix "*" := mul. Local Infix "-" := sub. Local Infix "/" := div. Local Notation "- x" := (opp x).
Local Notation "2" := (1 + 1). Local Notation "3" := (1 + 1 + 1).
Variables A B : F.
Hypothesis two_nz : 2 <> 0.
Local Notation pt := (point F).
Local Notation on := (on_curve F add mul A B).
Local Notation neg := (pneg F opp).
Local Notation padd := (padd F O I add mul sub div eq_dec A).
Local Notation third := (third F mul sub).
Hypothesis ns : nonsingular F O I add mul A B.

Lemma mul_nz x y : x <> 0 -> y <> 0 -> x * y <> 0.
Proof. intros Hx Hy E. apply Hx. transitivity (x * y / y); [field; exact Hy|]. rewrite E. field. exact Hy. Qed.
Lemma mul_zero x y : x * y = 0 -> x = 0 \/ y = 0.
Proof. intros E. destruct (eq_dec x 0); [auto|]. destruct (eq_dec y 0); [auto|]. destruct (mul_nz x y n n0 E). Qed.
Lemma sub_nz x y : x <> y -> x - y <> 0.
Proof. intros H E. apply H. transitivity (x - y + y); [ring|]. rewrite E. ring. Qed.
Lemma sub_eq x y : x - y = 0 -> x = y.
Proof. intros E. transitivity (x - y + y); [ring|]. rewrite E. ring. Qed.
Lemma nz_sub x y : x - y <> 0 -> x <> y. Proof. intros H ->. apply H. ring. Qed.
Lemma neg_self y : y = - y -> y = 0.
Proof. intros E. assert (X : 2 * y = 0) by (transitivity (y + y); [ring|rewrite E at 1; ring]). apply mul_zero in X. destruct X; [contradiction|assumption]. Qed.
Lemma sq_eq y1 y2 : y1 * y1 = y2 * y2 -> y1 = y2 \/ y1 = - y2.
Proof.
  intros E. assert (X : (y1 - y2) * (y1 + y2) = 0) by (transitivity (y1 * y1 - y2 * y2); [ring|rewrite E; ring]).
  apply mul_zero in X. destruct X as [X|X]; [left; apply sub_eq; exact X|right]. transitivity (y1 + y2 - y2); [ring|rewrite X; ring].
Qed.
Lemma opp_nz y : y <> 0 -> - y <> 0.
Proof. intros H E. apply H. transitivity (- - y); [ring|rewrite E; ring]. Qed.

(* two points with the same x *)
Lemma same_x x y y' : on (Aff x y) -> on (Aff x y') -> y = y' \/ y = - y'.
Proof. cbn. intros H H'. apply sq_eq. rewrite H, H'. reflexivity. Qed.
Lemma eq_dec_refl (x : F) (T : Type) (u v : T) : (if eq_dec x x then u else v) = u.
Proof. destruct (eq_dec x x); [reflexivity|contradiction]. Qed.
Lemma eq_dec_neq (x y : F) (T : Type) (u v : T) : x <> y -> (if eq_dec x y then u else v) = v.
Proof. intros H. destruct (eq_dec x y); [contradiction|reflexivity]. Qed.

Lemma add_gen x1 y1 x2 y2 : x1 <> x2 -> padd (Aff x1 y1) (Aff x2 y2) = third ((y1 - y2) / (x1 - x2)) x1 y1 x2.
Proof. intros H. cbn [EcSpec.padd]. apply eq_dec_neq. exact H. Qed.
Lemma add_tan x y : y <> 0 -> padd (Aff x y) (Aff x y) = third ((3 * (x * x) + A) / (2 * y)) x y x.
Proof. intros H. cbn [EcSpec.padd]. rewrite !eq_dec_refl. apply eq_dec_neq. exact H. Qed.
Lemma add_inv x y : padd (Aff x y) (Aff x (- y)) = Inf.
Proof.
  cbn [EcSpec.padd]. rewrite eq_dec_refl. destruct (eq_dec y (- y)) as [E|]; [|reflexivity]. rewrite (neg_self y E). apply eq_dec_refl.
Qed.
Lemma add_inv2 x y : padd (Aff x (- y)) (Aff x y) = Inf.
Proof. pose proof (add_inv x (- y)) as H. replace (- - y) with y in H by ring. exact H. Qed.
Lemma add_inf_r P : padd P Inf = P. Proof. destruct P; reflexivity. Qed.
Lemma add_inf_l P : padd Inf P = P. Proof. reflexivity. Qed.

Lemma third_eq l x1 y1 x2 x y : x = l * l - x1 - x2 -> y = l * (x1 - x) - y1 -> third l x1 y1 x2 = Aff x y.
Proof. intros -> ->. reflexivity. Qed.

Lemma add_comm P Q : padd P Q = padd Q P.
Proof.
  destruct P as [|x1 y1], Q as [|x2 y2]; try reflexivity. destruct (eq_dec x1 x2) as [<-|N].
  - destruct (eq_dec y1 y2) as [<-|M]; [reflexivity|]. cbn [EcSpec.padd]. rewrite !eq_dec_refl, !eq_dec_neq; auto.
  - rewrite !add_gen by auto. unfold EcSpec.third. pose proof (sub_nz _ _ N) as N1. assert (N2 := sub_nz x2 x1 ltac:(auto)). f_equal; field; auto.
Qed.
Lemma on_neg P : on P -> on (neg P).
Proof. destruct P as [|x y]; [trivial|]. cbn. intros H. rewrite <- H. ring. Qed.
Lemma on_add P Q : on P -> on Q -> on (padd P Q).
Proof.
  destruct P as [|x1 y1], Q as [|x2 y2]; try (intros; assumption). intros H1 H2. destruct (eq_dec x1 x2) as [<-|N].
  - destruct (eq_dec y1 y2) as [<-|M].
    + destruct (eq_dec y1 0) as [Z|Z]; [cbn [EcSpec.padd]; rewrite !eq_dec_refl, Z, eq_dec_refl; exact (Logic.I)|].
      rewrite add_tan by exact Z. cbn in H1 |- *. field [H1]. split; assumption.
    + cbn [EcSpec.padd]. rewrite eq_dec_refl, eq_dec_neq by exact M. exact Logic.I.
  - rewrite add_gen by exact N. cbn in H1, H2 |- *. field [H1 H2]. apply sub_nz. exact N.
Qed.
Lemma neg_neg P : neg (neg P) = P.
Proof. destruct P as [|x y]; [reflexivity|]. cbn. f_equal. ring. Qed.
Lemma neg_add P Q : neg (padd P Q) = padd (neg P) (neg Q).
Proof.
  destruct P as [|x1 y1], Q as [|x2 y2]; try reflexivity. cbn [pneg]. destruct (eq_dec x1 x2) as [<-|N].
  - destruct (eq_dec y1 y2) as [<-|M].
    + destruct (eq_dec y1 0) as [Z|Z].
      * cbn [EcSpec.padd]. rewrite !eq_dec_refl, Z. replace (- (0)) with 0 by ring. rewrite !eq_dec_refl. reflexivity.
      * rewrite !add_tan by (try exact Z; apply opp_nz; exact Z). cbn [EcSpec.third pneg]. unfold EcSpec.third. f_equal; field; auto using opp_nz.
    + cbn [EcSpec.padd]. rewrite !eq_dec_refl, !eq_dec_neq; [reflexivity| |exact M]. intros E. apply M. transitivity (- - y1); [ring|rewrite E; ring].
  - rewrite !add_gen by exact N. unfold EcSpec.third. cbn [pneg]. pose proof (sub_nz _ _ N). f_equal; field; auto.
Qed.
Lemma add_neg P : padd P (neg P) = Inf.
Proof. destruct P as [|x y]; [reflexivity|]. apply add_inv. Qed.
(* a double point would be singular *)
Lemma not_singular x : x * x * x + A * x + B = 0 -> 3 * (x * x) + A <> 0.
Proof.
  intros H E. apply ns. assert (EA : A = - (3 * (x * x))) by (transitivity (3 * (x * x) + A - 3 * (x * x)); [ring|rewrite E; ring]).
  assert (EB : B = 2 * (x * x * x)). { transitivity (x * x * x + A * x + B - x * x * x - A * x); [ring|]. rewrite H, EA. ring. }
  rewrite EA, EB. ring.
Qed.

(* (P + Q) - Q = P *)
Lemma slope_back l x y x3 y3 : y3 = l * (x - x3) - y -> x3 - x <> 0 -> (y3 - - y) / (x3 - x) = - l.
Proof. intros -> H. field. exact H. Qed.
Lemma chord_other l x1 y1 x2 y2 : l = (y1 - y2) / (x1 - x2) -> x1 <> x2 -> forall x3, l * (x1 - x3) - y1 = l * (x2 - x3) - y2.
Proof. intros E N x3. pose proof (sub_nz _ _ N). assert (X : l * (x1 - x2) = y1 - y2) by (rewrite E; field; assumption). transitivity (l * (x1 - x2) + l * (x2 - x3) - y1); [ring|]. rewrite X. ring. Qed.
Lemma add_sub P Q : on P -> on Q -> padd (padd P Q) (neg Q) = P.
Proof.
  destruct P as [|x1 y1]; [intros _ _; rewrite add_inf_l; apply add_neg|]. destruct Q as [|x2 y2]; [intros; reflexivity|]. intros H1 H2.
  destruct (eq_dec x1 x2) as [<-|N].
  - destruct (same_x _ _ _ H1 H2) as [<-| ->]; [|rewrite add_inv2; reflexivity].
    destruct (eq_dec y1 0) as [Z|Z].
    + assert (E : padd (Aff x1 y1) (Aff x1 y1) = Inf) by (cbn [EcSpec.padd]; rewrite !eq_dec_refl, Z, eq_dec_refl; reflexivity). rewrite E. cbn. f_equal. rewrite Z. ring.
    + rewrite add_tan by exact Z. unfold EcSpec.third. set (l := (3 * (x1 * x1) + A) / (2 * y1)). set (x3 := l * l - x1 - x1). cbn [pneg].
      destruct (eq_dec x3 x1) as [E|E].
      * rewrite E. replace (l * (x1 - x1) - y1) with (- y1) by ring. rewrite add_tan by (apply opp_nz; exact Z).
        replace ((3 * (x1 * x1) + A) / (2 * - y1)) with (- l) by (unfold l; field; auto using opp_nz). apply third_eq.
        -- transitivity x3; [auto|]. unfold x3. ring.
        -- ring.
      * rewrite add_gen by exact E. rewrite (slope_back l) by (try apply sub_nz; auto). apply third_eq; unfold x3; ring.
  - rewrite add_gen by exact N. set (l := (y1 - y2) / (x1 - x2)). unfold EcSpec.third. set (x3 := l * l - x1 - x2). rewrite (chord_other l x1 y1 x2 y2 eq_refl N x3). cbn [pneg].
    assert (L : l * (x1 - x2) = y1 - y2) by (unfold l; field; apply sub_nz; exact N).
    destruct (eq_dec x3 x2) as [E|E].
    + rewrite E. replace (l * (x2 - x2) - y2) with (- y2) by ring.
      assert (T : 2 * y2 * l = 3 * (x2 * x2) + A).
      { assert (X : (x1 - x2) * (2 * y2 * l - (3 * (x2 * x2) + A)) = 0).
        { cbn in H1, H2. assert (L2 : l * l = x1 + x2 + x2) by (rewrite <- E at 2; unfold x3; ring).
          assert (Y1 : y1 = y2 + l * (x1 - x2)) by (rewrite L; ring).
          assert (D : y1 * y1 - y2 * y2 = (x1 - x2) * (x1 * x1 + x1 * x2 + x2 * x2 + A)) by (rewrite H1, H2; ring).
          assert (D2 : y1 * y1 - y2 * y2 = (x1 - x2) * (2 * y2 * l + l * l * (x1 - x2))) by (rewrite Y1; ring).
          transitivity ((x1 - x2) * (2 * y2 * l + l * l * (x1 - x2)) - (x1 - x2) * (x1 * x1 + x1 * x2 + x2 * x2 + A)); [rewrite L2; ring|]. rewrite <- D, <- D2. ring. }
        apply mul_zero in X. destruct X as [X|X]; [contradiction (sub_nz _ _ N X)|apply sub_eq; exact X]. }
      destruct (eq_dec y2 0) as [Z|Z].
      * exfalso. apply (not_singular x2); [cbn in H2; rewrite <- H2, Z; ring|]. rewrite <- T, Z. ring.
      * rewrite add_tan by (apply opp_nz; exact Z). replace ((3 * (x2 * x2) + A) / (2 * - y2)) with (- l) by (rewrite <- T; field; auto using opp_nz). apply third_eq.
        -- assert (L2 : l * l = x1 + x2 + x2) by (rewrite <- E at 2; unfold x3; ring). transitivity (l * l - x2 - x2); [rewrite L2; ring|ring].
        -- transitivity (y2 + (y1 - y2)); [ring|]. rewrite <- L. ring.
    + rewrite add_gen by exact E. rewrite (slope_back l) by (try apply sub_nz; auto). apply third_eq.
      * unfold x3. ring.
      * transitivity (y2 + (y1 - y2)); [ring|]. rewrite <- L. ring.
Qed.
Lemma add_cancel P Q R : on P -> on Q -> on R -> padd P R = padd Q R -> P = Q.
Proof. intros HP HQ HR E. rewrite <- (add_sub P R), <- (add_sub Q R), E by assumption. reflexivity. Qed.
Lemma sub_add P Q : on P -> on Q -> padd (padd P (neg Q)) Q = P.
Proof. intros HP HQ. rewrite <- (neg_neg Q) at 2. apply add_sub; [exact HP|apply on_neg; exact HQ]. Qed.
Lemma add_eq_inf P Q : on P -> on Q -> padd P Q = Inf -> Q = neg P.
Proof. intros HP HQ E. apply (add_cancel _ _ P); try assumption; [apply on_neg; exact HP|]. rewrite (add_comm Q P), E, (add_comm (neg P)), add_neg. reflexivity. Qed.

(* the two computations *)
Lemma aff_inj (x y x' y' : F) : Aff x y = Aff x' y' -> x = x' /\ y = y'.
Proof. intros E. split; [exact (f_equal (fun P => match P with Aff x _ => x | Inf => 0 end) E)|exact (f_equal (fun P => match P with Aff _ y => y | Inf => 0 end) E)]. Qed.
Ltac sidec := repeat split; try assumption.
Ltac cond N d := intros X; apply N; match type of X with ?n = _ => transitivity (n / d); [field; sidec|rewrite X; field; sidec] end.
Lemma assoc_gen x1 y1 x2 y2 x3 y3 x4 y4 x5 y5 : on (Aff x1 y1) -> on (Aff x2 y2) -> on (Aff x3 y3) -> x1 <> x2 -> x2 <> x3 ->
  padd (Aff x1 y1) (Aff x2 y2) = Aff x4 y4 -> padd (Aff x2 y2) (Aff x3 y3) = Aff x5 y5 -> x4 <> x3 -> x1 <> x5 ->
  padd (Aff x4 y4) (Aff x3 y3) = padd (Aff x1 y1) (Aff x5 y5).
Proof.
  intros H1 H2 H3 N1 N2. rewrite !add_gen by assumption. unfold EcSpec.third. intros E4 E5 N3 N4.
  rewrite !add_gen by assumption. apply aff_inj in E4, E5. destruct E4 as [X4 Y4], E5 as [X5 Y5]. apply sub_nz in N1, N2, N3, N4.
  subst y4 y5. subst x4 x5. cbn in H1, H2, H3.
  assert (C : x2 - x3 <> 0 /\
    x1 * ((x2 - x3) * (x2 - x3)) - ((y2 - y3) * (y2 - y3) - x2 * ((x2 - x3) * (x2 - x3)) - x3 * ((x2 - x3) * (x2 - x3))) <> 0 /\
    x1 - x2 <> 0 /\
    (y1 - y2) * (y1 - y2) - x1 * ((x1 - x2) * (x1 - x2)) - x2 * ((x1 - x2) * (x1 - x2)) - x3 * ((x1 - x2) * (x1 - x2)) <> 0).
  { split; [exact N2|]. split; [cond N4 ((x2 - x3) * (x2 - x3))|]. split; [exact N1|cond N3 ((x1 - x2) * (x1 - x2))]. }
  unfold EcSpec.third. f_equal; field [H1 H2 H3]; exact C.
Qed.
Lemma assoc_tan x1 y1 x2 y2 x4 y4 x5 y5 : on (Aff x1 y1) -> on (Aff x2 y2) -> x1 <> x2 -> y2 <> 0 ->
  padd (Aff x1 y1) (Aff x2 y2) = Aff x4 y4 -> padd (Aff x2 y2) (Aff x2 y2) = Aff x5 y5 -> x4 <> x2 -> x1 <> x5 ->
  padd (Aff x4 y4) (Aff x2 y2) = padd (Aff x1 y1) (Aff x5 y5).
Proof.
  intros H1 H2 N1 N2. rewrite add_tan, add_gen by assumption. unfold EcSpec.third. intros E4 E5 N3 N4.
  rewrite !add_gen by assumption. apply aff_inj in E4, E5. destruct E4 as [X4 Y4], E5 as [X5 Y5]. apply sub_nz in N1, N3, N4.
  subst y4 y5. subst x4 x5. cbn in H1, H2.
  unfold EcSpec.third. f_equal; (field [H1 H2]; repeat split; try assumption; [cond N4 (2 * y2 * (2 * y2))|cond N3 ((x1 - x2) * (x1 - x2))]).
Qed.
(* points with equal x are equal or opposite *)
Lemma x_cases x y x' y' : on (Aff x y) -> on (Aff x' y') -> Aff x y <> Aff x' y' -> Aff x y <> neg (Aff x' y') -> x <> x'.
Proof. intros H H' N1 N2 <-. destruct (same_x _ _ _ H H') as [<-| ->]; [apply N1|apply N2]; reflexivity. Qed.
Lemma y_nz x y : padd (Aff x y) (Aff x y) <> Inf -> y <> 0.
Proof. intros H E. apply H. cbn [EcSpec.padd]. rewrite !eq_dec_refl, E, eq_dec_refl. reflexivity. Qed.
Lemma pt_dec (P Q : pt) : {P = Q} + {P <> Q}.
Proof. decide equality. Qed.
(* the easy cases *)
Lemma assoc_easy P Q R : on P -> on Q -> on R ->
  P = Inf \/ Q = Inf \/ R = Inf \/ padd P Q = Inf \/ padd Q R = Inf \/ padd P Q = neg R \/ P = neg (padd Q R) ->
  padd (padd P Q) R = padd P (padd Q R).
Proof.
  intros HP HQ HR [->|[->|[->|[E|[E|[E|E]]]]]].
  - reflexivity.
  - rewrite add_inf_r. reflexivity.
  - rewrite !add_inf_r. reflexivity.
  - rewrite E, add_inf_l. apply add_eq_inf in E; try assumption. subst Q. rewrite (add_comm P), (add_comm (neg P)). symmetry. apply sub_add; assumption.
  - rewrite E, add_inf_r. apply add_eq_inf in E; try assumption. subst R. apply add_sub; assumption.
  - rewrite E, (add_comm (neg R)), add_neg. replace R with (neg (padd P Q)) by (rewrite E; apply neg_neg). rewrite neg_add, (add_comm Q), (add_comm (neg P)), (add_comm (padd (neg Q) (neg P))).
    replace (padd Q (padd (neg Q) (neg P))) with (neg P); [rewrite add_neg; reflexivity|].
    rewrite (add_comm Q), (add_comm (neg Q)). symmetry. apply sub_add; [apply on_neg|]; assumption.
  - rewrite E at 2. rewrite (add_comm (neg _)), add_neg. rewrite E, neg_add. rewrite (add_comm (neg Q)), sub_add by (try apply on_neg; assumption). rewrite (add_comm _ R), add_neg. reflexivity.
Qed.
(* X + (Y + Y) = (X + Y) + Y *)
Lemma assoc_dbl0 P Q : on P -> on Q -> P <> padd Q Q -> padd (padd P Q) Q = padd P (padd Q Q).
Proof.
  intros HP HQ N8.
  destruct (pt_dec P Inf) as [E|N1]; [apply assoc_easy; auto|]. destruct (pt_dec Q Inf) as [E|N2]; [apply assoc_easy; auto|].
  destruct (pt_dec (padd P Q) Inf) as [E|N3]; [apply assoc_easy; auto 6|]. destruct (pt_dec (padd Q Q) Inf) as [E|N4]; [apply assoc_easy; auto 7|].
  destruct (pt_dec (padd P Q) (neg Q)) as [E|N5]; [apply assoc_easy; auto 8|]. destruct (pt_dec P (neg (padd Q Q))) as [E|N6]; [apply assoc_easy; auto 9|].
  destruct (pt_dec P Q) as [->|N7]; [apply add_comm|].
  pose proof (on_add _ _ HP HQ) as HPQ. pose proof (on_add _ _ HQ HQ) as HQQ.
  assert (M1 : P <> neg Q) by (intros ->; apply N3; rewrite add_comm; apply add_neg).
  assert (M2 : padd P Q <> Q) by (intros E; apply N1; apply (add_cancel _ _ Q); auto; exact Logic.I).
  destruct P as [|x1 y1]; [contradiction|]. destruct Q as [|x2 y2]; [contradiction|].
  destruct (padd (Aff x1 y1) (Aff x2 y2)) as [|x4 y4] eqn:E4; [contradiction|]. destruct (padd (Aff x2 y2) (Aff x2 y2)) as [|x5 y5] eqn:E5; [contradiction|].
  apply assoc_tan; auto.
  - apply (x_cases _ _ _ _ HP HQ); auto.
  - apply (y_nz x2). rewrite E5. discriminate.
  - apply (x_cases _ _ _ _ HPQ HQ); auto.
  - apply (x_cases _ _ _ _ HP HQQ); auto.
Qed.
(* 2S = -Q + 2S + Q: the remaining case X = 2Y from the previous one *)
Lemma assoc_dbl P Q : on P -> on Q -> padd (padd P Q) Q = padd P (padd Q Q).
Proof.
  intros HP HQ. destruct (pt_dec P (padd Q Q)) as [->|N8]; [|apply assoc_dbl0; assumption]. clear HP.
  pose proof (on_add _ _ HQ HQ) as HS. pose proof (on_neg _ HQ) as HN. pose proof (on_add _ _ HS HS) as HSS.
  assert (EQ : padd (neg Q) (padd Q Q) = Q) by (rewrite add_comm; apply add_sub; assumption).
  destruct (pt_dec (neg Q) (padd (padd Q Q) (padd Q Q))) as [E|N].
  - assert (E3 : padd Q (padd Q Q) = neg (padd Q Q)).
    { rewrite <- (neg_neg (padd Q (padd Q Q))). f_equal. rewrite neg_add, E. apply add_sub; assumption. }
    rewrite (add_comm (padd Q Q) Q), E3, neg_add, <- E. apply sub_add; assumption.
  - pose proof (assoc_dbl0 (neg Q) (padd Q Q) HN HS N) as D. rewrite EQ in D. rewrite (add_comm (padd Q Q) Q), D, (add_comm (neg Q)). apply sub_add; assumption.
Qed.
(* R = P + Q *)
Lemma assoc_third P Q : on P -> on Q -> padd (padd P Q) (padd P Q) = padd P (padd Q (padd P Q)).
Proof.
  intros HP HQ. pose proof (on_add _ _ HP HQ) as HS. pose proof (assoc_dbl (neg P) (padd P Q) (on_neg _ HP) HS) as D.
  rewrite (add_comm (neg P)), (add_comm P Q), add_sub in D by assumption. rewrite (add_comm P (padd Q _)), (add_comm P Q), D, (add_comm (neg P)).
  symmetry. apply sub_add; [apply on_add|]; try (apply on_add); assumption.
Qed.
Theorem add_assoc P Q R : on P -> on Q -> on R -> padd (padd P Q) R = padd P (padd Q R).
Proof.
  intros HP HQ HR.
  destruct (pt_dec P Inf) as [E|N1]; [apply assoc_easy; auto|]. destruct (pt_dec Q Inf) as [E|N2]; [apply assoc_easy; auto|]. destruct (pt_dec R Inf) as [E|N0]; [apply assoc_easy; auto|].
  destruct (pt_dec (padd P Q) Inf) as [E|N3]; [apply assoc_easy; auto 6|]. destruct (pt_dec (padd Q R) Inf) as [E|N4]; [apply assoc_easy; auto 7|].
  destruct (pt_dec (padd P Q) (neg R)) as [E|N5]; [apply assoc_easy; auto 8|]. destruct (pt_dec P (neg (padd Q R))) as [E|N6]; [apply assoc_easy; auto 9|].
  destruct (pt_dec Q R) as [->|N7]; [apply assoc_dbl; auto|].
  destruct (pt_dec P Q) as [->|N8]; [rewrite (add_comm Q (padd Q R)), (add_comm Q R), assoc_dbl by auto; apply add_comm|].
  destruct (pt_dec R (padd P Q)) as [->|N9]; [apply assoc_third; auto|].
  destruct (pt_dec P (padd Q R)) as [->|N10]; [rewrite (add_comm Q R) at 2 3; rewrite assoc_third by auto; rewrite (add_comm R Q), (add_comm _ Q), (add_comm _ R); reflexivity|].
  pose proof (on_add _ _ HP HQ) as HPQ. pose proof (on_add _ _ HQ HR) as HQR.
  assert (M1 : P <> neg Q) by (intros ->; apply N3; rewrite add_comm; apply add_neg).
  assert (M2 : Q <> neg R) by (intros ->; apply N4; rewrite add_comm; apply add_neg).
  destruct P as [|x1 y1]; [contradiction|]. destruct Q as [|x2 y2]; [contradiction|]. destruct R as [|x3 y3]; [contradiction|].
  destruct (padd (Aff x1 y1) (Aff x2 y2)) as [|x4 y4] eqn:E4; [contradiction|]. destruct (padd (Aff x2 y2) (Aff x3 y3)) as [|x5 y5] eqn:E5; [contradiction|].
  apply (assoc_gen x1 y1 x2 y2); auto.
  - apply (x_cases _ _ _ _ HP HQ); auto.
  - apply (x_cases _ _ _ _ HQ HR); auto.
  - apply (x_cases _ _ _ _ HPQ HR); auto.
  - apply (x_cases _ _ _ _ HP HQR); auto.
Qed.
End G.
