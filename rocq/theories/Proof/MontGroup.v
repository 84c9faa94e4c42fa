(* A Montgomery curve is a commutative group: it is carried to a short Weierstrass curve and back. Doubling and differential
   addition on the x coordinate alone, in projective form. Over any field in which 2 and 3 are not zero. *)
From Coq Require Import Field Ring ZArith.
From Verif.Spec Require Import EcSpec MontSpec.
From Verif.Proof Require Import GrpMul EcGroup.
Section G.
Variable F : Type.
Variables (O I : F) (add mul sub div : F -> F -> F) (opp inv : F -> F).
Hypothesis Fth : field_theory O I add mul sub opp div inv (@eq F).
Add Field Ff : Fth.
Variable eq_dec : forall x y : F, {x = y} + {x <> y}.
Local Notation "0" := O. Local Notation "1" := I.
Local Infix "+" := add. Local Infix "*" := mul. Local Infix "-" := sub. Local Infix "/" := div. Local Notation "- x" := (opp x).
Local Notation "2" := (1 + 1). Local Notation "3" := (1 + 1 + 1).
Variables A B : F.
Hypothesis two_nz : 2 <> 0.
Hypothesis three_nz : 3 <> 0.
Hypothesis K : mont_ok F O I add mul A B.
Local Notation madd := (madd F O I add mul sub div eq_dec A B).
Local Notation mon := (on_mont F add mul A B).
Local Notation mneg := (pneg F opp).
Let b_nz : B <> 0 := proj1 K.
Let mnz := EcGroup.mul_nz F O I add mul sub div opp inv Fth.
Let snz := EcGroup.sub_nz F O I add mul sub div opp inv Fth.
Let mzero := EcGroup.mul_zero F O I add mul sub div opp inv Fth eq_dec.
(* the short Weierstrass curve *)
Definition wa := (3 - A * A) / (3 * (B * B)).
Definition wb := (2 * (A * A * A) - 3 * 3 * A) / (3 * 3 * 3 * (B * B * B)).
Definition wx (x : F) : F := x / B + A / (3 * B).
Definition toW (P : point F) : point F := match P with Inf => Inf | Aff x y => Aff (wx x) (y / B) end.
Local Notation padd := (padd F O I add mul sub div eq_dec wa).
Local Notation on := (on_curve F add mul wa wb).
Let three_nz' : 1 + 2 <> 0. Proof. intros E. apply three_nz. rewrite <- E. ring. Qed.
Ltac alt H := let E := fresh in intros E; apply H; rewrite <- E; ring.
Let nine_nz : 3 * 3 <> 0. Proof. apply mnz; exact three_nz. Qed.
Let n27_nz : 3 * 3 * 3 <> 0. Proof. apply mnz; [exact nine_nz|exact three_nz]. Qed.
Let n81_nz : 3 * 3 * 3 * 3 <> 0. Proof. apply mnz; [exact n27_nz|exact three_nz]. Qed.
Ltac nzs := repeat split; first [exact b_nz | exact three_nz | exact three_nz' | exact two_nz | alt n27_nz | alt nine_nz | alt n81_nz].
Lemma toW_inj_x x x' : wx x = wx x' -> x = x'.
Proof. intros E. transitivity (wx x * B - A / 3); [unfold wx; field; nzs|]. rewrite E. unfold wx. field; nzs. Qed.
Lemma toW_inj_y (y y' : F) : y / B = y' / B -> y = y'.
Proof. intros E. transitivity (y / B * B); [field; nzs|]. rewrite E. field; nzs. Qed.
Lemma toW_inj P Q : toW P = toW Q -> P = Q.
Proof. destruct P as [|x y], Q as [|x' y']; cbn; try discriminate; [reflexivity|]. intros E. assert (E1 : wx x = wx x' /\ y / B = y' / B) by (split; congruence). destruct E1 as (E1 & E2). rewrite (toW_inj_x _ _ E1), (toW_inj_y _ _ E2). reflexivity. Qed.
Lemma toW_on P : mon P <-> on (toW P).
Proof.
  destruct P as [|x y]; [split; trivial|]. unfold on_mont, on_curve, toW. split; intros E.
  - transitivity (B * (y * y) / (B * B * B)); [field; nzs|]. rewrite E. unfold wx, wa, wb. field; nzs.
  - transitivity (y / B * (y / B) * (B * B * B)); [field; nzs|]. rewrite E. unfold wx, wa, wb. field; nzs.
Qed.
Lemma toW_neg P : toW (mneg P) = mneg (toW P).
Proof. destruct P as [|x y]; [reflexivity|]. cbn. f_equal. field; nzs. Qed.
Lemma toW_third l x1 y1 x2 : toW (mthird F mul sub A B l x1 y1 x2) = third F mul sub l (wx x1) (y1 / B) (wx x2).
Proof.
  unfold mthird, third, toW. cbv zeta.
  assert (E : wx (B * (l * l) - A - x1 - x2) = l * l - wx x1 - wx x2) by (unfold wx; field; nzs). f_equal; [exact E|].
  rewrite <- E. unfold wx. field; nzs.
Qed.
Lemma toW_add P Q : toW (madd P Q) = padd (toW P) (toW Q).
Proof.
  destruct P as [|x1 y1], Q as [|x2 y2]; try reflexivity. unfold MontSpec.madd, EcSpec.padd. cbn [toW].
  destruct (eq_dec x1 x2) as [X|X].
  - destruct (eq_dec (wx x1) (wx x2)) as [X'|X']; [|destruct (X' (f_equal wx X))].
    destruct (eq_dec y1 y2) as [Y|Y].
    + destruct (eq_dec (y1 / B) (y2 / B)) as [Y'|Y']; [|destruct (Y' (f_equal (fun y => y / B) Y))].
      destruct (eq_dec y1 0) as [Z|Z].
      * destruct (eq_dec (y1 / B) 0) as [Z'|Z']; [reflexivity|]. destruct Z'. rewrite Z. field; nzs.
      * destruct (eq_dec (y1 / B) 0) as [Z'|Z']; [destruct Z; apply toW_inj_y; rewrite Z'; field; nzs|].
        rewrite toW_third. f_equal. unfold wx, wa. field. repeat split; first [exact Z|nzs].
    + destruct (eq_dec (y1 / B) (y2 / B)) as [Y'|Y']; [destruct (Y (toW_inj_y _ _ Y'))|reflexivity].
  - destruct (eq_dec (wx x1) (wx x2)) as [X'|X']; [destruct (X (toW_inj_x _ _ X'))|].
    rewrite toW_third. f_equal. pose proof (snz _ _ X) as D. assert (E : wx x1 - wx x2 = (x1 - x2) / B) by (unfold wx; field; nzs). rewrite E. field. repeat split; first [exact D|nzs].
Qed.
Lemma w_ns : nonsingular F O I add mul wa wb.
Proof.
  unfold nonsingular. intros E. apply (proj2 K). transitivity (2 * 2 - (2 * 2 * (wa * wa * wa) + 3 * 3 * 3 * (wb * wb)) * (B * B * B * (B * B * B))).
  - unfold wa, wb. field; nzs.
  - rewrite E. ring.
Qed.
Lemma mlaws : group_laws (point F) mon madd Inf mneg.
Proof.
  constructor.
  - exact Logic.I.
  - intros P H. apply toW_on. rewrite toW_neg. eapply EcGroup.on_neg; [exact Fth|]. apply toW_on. exact H.
  - intros P Q HP HQ. apply toW_on. rewrite toW_add. eapply EcGroup.on_add; [exact Fth|exact two_nz| |]; apply toW_on; assumption.
  - intros P Q HP HQ. apply toW_inj. rewrite !toW_add. eapply EcGroup.add_comm. exact Fth.
  - intros P Q R HP HQ HR. apply toW_inj. rewrite !toW_add. eapply EcGroup.add_assoc; [exact Fth|exact two_nz|exact w_ns| | |]; apply toW_on; assumption.
  - intros P _. reflexivity.
  - intros P HP. apply toW_inj. rewrite toW_add, toW_neg. eapply EcGroup.add_neg; [exact Fth|exact two_nz].
Qed.
Lemma msame_x x y y' : mon (Aff x y) -> mon (Aff x y') -> y = y' \/ y = - y'.
Proof.
  unfold on_mont. intros E E'. eapply (EcGroup.sq_eq F O I add mul sub div opp inv Fth eq_dec). transitivity (B * (y * y) / B); [field; nzs|]. rewrite E, <- E'. field; nzs.
Qed.
(* ---- x coordinates ---- *)
Definition xrep (X Z : F) (P : point F) : Prop := match P with Inf => Z = 0 /\ X <> 0 | Aff x _ => Z <> 0 /\ X = x * Z end.
Lemma xrep_dbl a24 X Z P : 2 * 2 * a24 = A + 2 -> mon P -> xrep X Z P ->
  xrep ((X + Z) * (X + Z) * ((X - Z) * (X - Z)))
    ((((X + Z) * (X + Z) - (X - Z) * (X - Z)) * a24 + (X - Z) * (X - Z)) * ((X + Z) * (X + Z) - (X - Z) * (X - Z))) (madd P P).
Proof.
  intros HA H R.
  assert (EX : (X + Z) * (X + Z) * ((X - Z) * (X - Z)) = (X * X - Z * Z) * (X * X - Z * Z)) by ring.
  assert (EZ : (((X + Z) * (X + Z) - (X - Z) * (X - Z)) * a24 + (X - Z) * (X - Z)) * ((X + Z) * (X + Z) - (X - Z) * (X - Z)) = 2 * 2 * (X * Z * (X * X + A * (X * Z) + Z * Z))).
  { transitivity ((2 * 2 * a24 * (X * Z) + (X - Z) * (X - Z)) * (2 * 2 * (X * Z))); [ring|]. rewrite HA. ring. }
  rewrite EX, EZ. clear EX EZ HA. destruct P as [|x y].
  - destruct R as (-> & N). cbn. split; [ring|]. replace (X * X - 0 * 0) with (X * X) by ring. repeat apply mnz; exact N.
  - destruct R as (N & ->). unfold on_mont in H. unfold MontSpec.madd. destruct (eq_dec x x) as [_|N']; [|destruct (N' eq_refl)]. destruct (eq_dec y y) as [_|N']; [|destruct (N' eq_refl)].
    destruct (eq_dec y 0) as [Y|Y].
    + rewrite Y in H. assert (C : x * (x * x + A * x + 1) = 0) by (transitivity (x * x * x + A * (x * x) + x); [ring|rewrite <- H; ring]). split.
      * transitivity (2 * 2 * (x * (x * x + A * x + 1)) * (Z * Z * (Z * Z))); [ring|]. rewrite C. ring.
      * assert (D : x * x - 1 <> 0).
        { intros E. apply mzero in C. destruct C as [C|C].
          - rewrite C in E. apply (F_1_neq_0 Fth). transitivity (- (0 * 0 - 1)); [ring|]. rewrite E. ring.
          - apply (proj2 K). assert (X1 : A * x = - (2)) by (transitivity ((x * x + A * x + 1) - (x * x - 1) - 2); [ring|rewrite C, E; ring]).
            transitivity (A * x * (A * x) - A * A * (x * x - 1)); [ring|]. rewrite X1, E. ring. }
        replace (x * Z * (x * Z) - Z * Z) with ((x * x - 1) * (Z * Z)) by ring. repeat apply mnz; assumption.
    + set (l := (3 * (x * x) + 2 * (A * x) + 1) / (2 * (B * y))). unfold mthird. cbv zeta.
      assert (L : l * (2 * (B * y)) = 3 * (x * x) + 2 * (A * x) + 1) by (unfold l; field; repeat split; first [exact Y|nzs]).
      assert (C : x * x * x + A * (x * x) + x <> 0) by (rewrite <- H; repeat apply mnz; first [exact Y|nzs]). split.
      * intros E. apply (mnz (x * x * x + A * (x * x) + x) (2 * 2 * (Z * Z * (Z * Z)))); [exact C|repeat apply mnz; assumption|]. rewrite <- E. ring.
      * transitivity ((x * x - 1) * (x * x - 1) * (Z * Z * (Z * Z))); [ring|].
        transitivity ((B * (l * l) - A - x - x) * (2 * 2 * (x * x * x + A * (x * x) + x)) * (Z * Z * (Z * Z))); [|ring]. f_equal.
        transitivity (l * (2 * (B * y)) * (l * (2 * (B * y))) - (A + x + x) * (2 * 2 * (x * x * x + A * (x * x) + x))); [rewrite L; ring|rewrite <- H; ring].
Qed.
Lemma diff_x xa ya xb yb : mon (Aff xa ya) -> mon (Aff xb yb) -> xa <> xb ->
  forall l l', l * (xa - xb) = ya - yb -> l' * (xa - xb) = ya + yb ->
  (B * (l * l) - A - xa - xb) * (B * (l' * l') - A - xa - xb) * ((xa - xb) * (xa - xb)) = (xa * xb - 1) * (xa * xb - 1).
Proof.
  unfold on_mont. intros Ha Hb N l l' L L'. pose proof (snz _ _ N) as D. set (d := xa - xb) in *.
  assert (C : forall u v, u * (d * d) = v * (d * d) -> u = v).
  { intros u v E. transitivity (u * (d * d) / (d * d)); [field; exact D|]. rewrite E. field. exact D. }
  apply C. set (s := A + xa + xb).
  transitivity ((B * (l * d * (l * d)) - s * (d * d)) * (B * (l' * d * (l' * d)) - s * (d * d))); [unfold s; ring|]. rewrite L, L'.
  transitivity ((B * (ya * ya) + B * (yb * yb) - s * (d * d)) * (B * (ya * ya) + B * (yb * yb) - s * (d * d)) - 2 * 2 * (B * (ya * ya) * (B * (yb * yb)))); [ring|].
  rewrite Ha, Hb. unfold s, d. ring.
Qed.
Lemma xrep_diff x1 y1 X1 Z1 X2 Z2 X3 Z3 Pa Pb : mon (Aff x1 y1) -> x1 <> 0 -> xrep X1 Z1 (Aff x1 y1) -> mon Pa -> mon Pb -> madd Pb (mneg Pa) = Aff x1 y1 ->
  xrep X2 Z2 Pa -> xrep X3 Z3 Pb ->
  xrep (((X3 - Z3) * (X2 + Z2) + (X3 + Z3) * (X2 - Z2)) * ((X3 - Z3) * (X2 + Z2) + (X3 + Z3) * (X2 - Z2)) * Z1)
    (((X3 - Z3) * (X2 + Z2) - (X3 + Z3) * (X2 - Z2)) * ((X3 - Z3) * (X2 + Z2) - (X3 + Z3) * (X2 - Z2)) * X1) (madd Pa Pb).
Proof.
  intros H1 N1 (NZ1 & E1) Ha Hb HD Ra Rb. subst X1.
  replace ((X3 - Z3) * (X2 + Z2) + (X3 + Z3) * (X2 - Z2)) with (2 * (X2 * X3 - Z2 * Z3)) by ring.
  replace ((X3 - Z3) * (X2 + Z2) - (X3 + Z3) * (X2 - Z2)) with (2 * (X3 * Z2 - X2 * Z3)) by ring.
  destruct Pa as [|xa ya].
  - (* b = P *) destruct Ra as (-> & NX2). cbn [pneg] in HD. assert (EB : Pb = Aff x1 y1) by (rewrite <- HD; destruct Pb; reflexivity). subst Pb. destruct Rb as (NZ3 & ->). cbn. split.
    + replace (x1 * Z3 * 0 - X2 * Z3) with (- (X2 * Z3)) by ring. repeat apply mnz; try assumption; apply (EcGroup.opp_nz F O I add mul sub div opp inv Fth); repeat apply mnz; assumption.
    + ring.
  - destruct Ra as (NZ2 & ->). destruct Pb as [|xb yb].
    + destruct Rb as (-> & NX3). cbn in HD. injection HD as <- <-. cbn. split.
      * replace (X3 * Z2 - xa * Z2 * 0) with (X3 * Z2) by ring. repeat apply mnz; assumption.
      * ring.
    + destruct Rb as (NZ3 & ->). cbn [pneg] in HD. destruct (eq_dec xa xb) as [EX|NX].
      * subst xb. destruct (msame_x _ _ _ Ha Hb) as [EY|EY].
        -- exfalso. subst yb. pose proof (gl_neg _ _ _ _ _ mlaws (Aff xa ya) Ha) as X. cbn [pneg] in X. congruence.
        -- assert (YB : yb = - ya) by (rewrite EY; ring). subst yb. clear EY. replace (madd (Aff xa ya) (Aff xa (- ya))) with (@Inf F) by (symmetry; exact (gl_neg _ _ _ _ _ mlaws (Aff xa ya) Ha)).
           split; [ring|]. unfold MontSpec.madd in HD. destruct (eq_dec xa xa) as [_|N']; [|destruct (N' eq_refl)]. destruct (eq_dec (- ya) (- ya)) as [_|N']; [|destruct (N' eq_refl)].
           destruct (eq_dec (- ya) 0) as [YZ|YZ]; [discriminate|]. unfold mthird in HD. cbv zeta in HD. injection HD as HX _.
           assert (D : xa * xa - 1 <> 0).
           { intros D. apply N1. set (l := (3 * (xa * xa) + 2 * (A * xa) + 1) / (2 * (B * - ya))) in *. unfold on_mont in Ha.
             assert (L : l * (2 * (B * - ya)) = 3 * (xa * xa) + 2 * (A * xa) + 1) by (unfold l; field; repeat split; first [exact b_nz|exact two_nz|intros X; apply YZ; rewrite X; ring]).
             assert (YA : ya <> 0) by (intros X; apply YZ; rewrite X; ring).
             assert (C : xa * xa * xa + A * (xa * xa) + xa <> 0) by (rewrite <- Ha; repeat apply mnz; assumption).
             assert (Q : x1 * (2 * 2 * (xa * xa * xa + A * (xa * xa) + xa)) = 0).
             { rewrite <- HX. transitivity ((xa * xa - 1) * (xa * xa - 1)); [|rewrite D; ring].
               transitivity (l * (2 * (B * - ya)) * (l * (2 * (B * - ya))) - (A + xa + xa) * (2 * 2 * (xa * xa * xa + A * (xa * xa) + xa))); [rewrite <- Ha; ring|rewrite L; ring]. }
             apply mzero in Q. destruct Q as [Q|Q]; [exact Q|]. destruct (mnz (2 * 2) (xa * xa * xa + A * (xa * xa) + xa)); [apply mnz; assumption|exact C|exact Q]. }
           replace (xa * Z2 * (xa * Z3) - Z2 * Z3) with ((xa * xa - 1) * (Z2 * Z3)) by ring. repeat apply mnz; assumption.
      * unfold MontSpec.madd in HD |- *. destruct (eq_dec xa xb) as [E|_]; [contradiction|]. destruct (eq_dec xb xa) as [E|_]; [destruct NX; symmetry; exact E|].
        pose proof (snz _ _ NX) as D. unfold mthird in HD |- *. cbv zeta in HD |- *. injection HD as HX _.
        set (l := (ya - yb) / (xa - xb)) in *. set (l' := (yb - - ya) / (xb - xa)) in *. assert (D' : xb - xa <> 0) by (intros X; apply D; transitivity (- (xb - xa)); [ring|rewrite X; ring]).
        assert (L : l * (xa - xb) = ya - yb) by (unfold l; field; exact D). assert (L2 : l' * (xb - xa) = yb - - ya) by (unfold l'; field; exact D').
        assert (L' : - l' * (xa - xb) = ya + yb) by (transitivity (l' * (xb - xa)); [ring|rewrite L2; ring]).
        pose proof (diff_x xa ya xb yb Ha Hb NX l (- l') L L') as Q. split.
        -- replace (xb * Z3 * Z2 - xa * Z2 * Z3) with ((xb - xa) * (Z2 * Z3)) by ring. repeat apply mnz; assumption.
        -- replace (xa * Z2 * (xb * Z3) - Z2 * Z3) with ((xa * xb - 1) * (Z2 * Z3)) by ring.
           transitivity ((xa * xb - 1) * (xa * xb - 1) * (2 * 2 * (Z2 * Z3 * (Z2 * Z3)) * Z1)); [ring|]. rewrite <- Q, <- HX. ring.
Qed.
End G.
