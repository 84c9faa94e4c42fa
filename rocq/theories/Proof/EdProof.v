(* The extended coordinate formulas implement Edwards addition, in every case. *)
From Coq Require Import Znumtheory.
From Verif.Base Require Import Prelude.
From Verif.Model Require Import NumTheory Field EcScalar Edwards.
From Verif.Spec Require Import EcSpec EdSpec.
From Verif.Proof Require Import Cong FieldProof GrpMul EdGroup.
Section P.
Variable p : positive.
Hypothesis Pp : prime (Zpos p).
Hypothesis P3 : (2 < Zpos p)%Z.
Local Notation fe := (fe p).
Local Notation xge := (xge p).
Variables a d : fe.
Declare Scope fe_scope.
Delimit Scope fe_scope with fe.
Bind Scope fe_scope with Field.fe.
Local Infix "+" := fe_add : fe_scope.
Local Infix "*" := fe_mul : fe_scope.
Local Infix "-" := fe_sub : fe_scope.
Local Notation "- x" := (fe_neg x) : fe_scope.
Local Open Scope fe_scope.
Add Ring fring : (ring_th p).
Local Notation eadd := (eadd p a d).
Local Notation eon := (eon p a d).
Local Notation eneg := (eneg p).
Local Notation ezero := (ezero p).
Hypothesis K : complete fe f0 f1 fe_add fe_mul a d.
(* what a projective point stands for *)
Definition xrep (q : xge) (P : fe * fe) : Prop :=
  eon P /\ xz p q <> f0 /\ xx p q = fst P * xz p q /\ xy p q = snd P * xz p q /\ xt p q = fst P * snd P * xz p q.
Definition arep (q : xge) (P : fe * fe) : Prop := xrep q P /\ xz p q = f1.
Lemma two_nz : @f1 p + f1 <> f0. Proof. exact (proj2 (proj2 (proj2 K))). Qed.
Lemma mul_a_eq x : edwards_mul_a p a x = a * x.
Proof.
  unfold edwards_mul_a, mone_a, one_a. destruct (equal_spec p a (- f1)) as [E|_]; [rewrite E; ring|]. destruct (equal_spec p a f1) as [E|_]; [rewrite E; ring|]. ring.
Qed.
Lemma mul_d_eq x : edwards_mul_d p d x = d * x.
Proof. unfold edwards_mul_d. ring. Qed.
Lemma rep_on q P : xrep q P -> eon P. Proof. intros H. exact (proj1 H). Qed.
Lemma arep_rep q P : arep q P -> xrep q P. Proof. intros H. exact (proj1 H). Qed.
Lemma zero_rep : xrep (xge_zero p) ezero.
Proof. refine (conj (on_zero p a d) (conj (f1_nz p Pp) _)). cbn [xge_zero xx xy xz xt ezero EdGroup.ezero ed_zero fst snd]. refine (conj _ (conj _ _)); ring. Qed.
Lemma zero_arep : arep (xge_zero p) ezero. Proof. split; [exact zero_rep|reflexivity]. Qed.
Lemma neg_rep q P : xrep q P -> xrep (xge_neg p q) (eneg P).
Proof.
  intros (O & N & X & Y & T). refine (conj (neg_on p a d P O) (conj N _)). destruct P as [x y]. cbn [xge_neg xx xy xz xt EdGroup.eneg ed_neg fst snd] in *.
  rewrite X, Y, T. refine (conj _ (conj _ _)); ring.
Qed.
(* the shared end of the formulas, u and v scaling the two halves *)
Lemma out_ok P Q u v e f g h : eon P -> eon Q -> u <> f0 -> v <> f0 ->
  (let m := d * (fst P * fst Q * (snd P * snd Q)) in
   e = u * (fst P * snd Q + snd P * fst Q) /\ g = u * (f1 + m) /\ f = v * (f1 - m) /\ h = v * (snd P * snd Q - a * (fst P * fst Q))) ->
  xrep (xge_out p e f g h) (eadd P Q).
Proof.
  intros HP HQ U V. cbv zeta. intros (E & G & F & H). pose proof (sums_add p Pp a d K P Q HP HQ) as S. pose proof (add_on p Pp a d K P Q HP HQ) as O.
  destruct P as [x1 y1], Q as [x2 y2]. destruct (EdGroup.eadd p a d (x1, y1) (x2, y2)) as [x3 y3]. destruct S as (S1 & S2). cbn [fst snd] in *.
  pose proof (den_p p Pp a d K _ _ _ _ HP HQ) as N1. pose proof (den_m p Pp a d K _ _ _ _ HP HQ) as N2.
  rewrite <- S1 in E. rewrite <- S2 in H.
  refine (conj O (conj _ _)); cbn [xge_out xx xy xz xt fst snd].
  - rewrite F, G. repeat apply (mul_nz p Pp); assumption.
  - rewrite E, F, G, H. refine (conj _ (conj _ _)); ring.
Qed.
Lemma dbl_rep q P : xrep q P -> xrep (xge_dbl p a q) (eadd P P).
Proof.
  intros (O & N & X & Y & T). unfold xge_dbl. apply (out_ok P P (xz p q * xz p q) (- (xz p q * xz p q)) _ _ _ _ O O).
  - apply (mul_nz p Pp); exact N.
  - intros E. apply (mul_nz p Pp _ _ N N). transitivity (- - (xz p q * xz p q)); [ring|]. rewrite E. ring.
  - destruct P as [x y]. cbn [fst snd] in *. unfold EdGroup.eon, on_ed in O. unfold fe_sqr. rewrite !mul_a_eq, X, Y. set (z := xz p q).
    assert (M : d * (x * x * (y * y)) = a * (x * x) + y * y - f1) by (rewrite O; ring). rewrite M. refine (conj _ (conj _ (conj _ _))); ring.
Qed.
Lemma mone_eq : mone_a p a = true -> a = - f1.
Proof. unfold mone_a. intros H. apply equal_iff in H. exact H. Qed.
Lemma add_gen q r P Q f : xrep q P -> xrep r Q -> (f = true -> xz p r = f1) ->
  xrep (if mone_a p a then xge_add_m1 p d q r f else xge_add_a p a d q r f) (eadd P Q).
Proof.
  intros (O1 & N1 & X1 & Y1 & T1) (O2 & N2 & X2 & Y2 & T2) Z.
  destruct (mone_a p a) eqn:M.
  - apply mone_eq in M. unfold xge_add_m1, ed_k.
    assert (D : (if f then xz p q + xz p q else (xz p q + xz p q) * xz p r) = (f1 + f1) * (xz p q * xz p r)).
    { destruct f; [rewrite (Z eq_refl)|]; ring. }
    rewrite D. apply (out_ok P Q ((f1 + f1) * (xz p q * xz p r)) ((f1 + f1) * (xz p q * xz p r)) _ _ _ _ O1 O2); try (repeat apply (mul_nz p Pp); try assumption; exact two_nz).
    cbv zeta. rewrite X1, X2, Y1, Y2, T1, T2, M. refine (conj _ (conj _ (conj _ _))); ring.
  - unfold xge_add_a.
    assert (D : (if f then xz p q else xz p q * xz p r) = xz p q * xz p r).
    { destruct f; [rewrite (Z eq_refl)|]; ring. }
    rewrite D. apply (out_ok P Q (xz p q * xz p r) (xz p q * xz p r) _ _ _ _ O1 O2); try (repeat apply (mul_nz p Pp); assumption).
    cbv zeta. rewrite mul_d_eq, mul_a_eq, X1, X2, Y1, Y2, T1, T2. refine (conj _ (conj _ (conj _ _))); ring.
Qed.
Lemma sub_gen q r P Q f : xrep q P -> xrep r Q -> (f = true -> xz p r = f1) ->
  xrep (if mone_a p a then xge_sub_m1 p d q r f else xge_sub_a p a d q r f) (eadd P (eneg Q)).
Proof.
  intros (O1 & N1 & X1 & Y1 & T1) (O2 & N2 & X2 & Y2 & T2) Z. pose proof (neg_on p a d Q O2) as O3.
  destruct (mone_a p a) eqn:M.
  - apply mone_eq in M. unfold xge_sub_m1, ed_k.
    assert (D : (if f then xz p q + xz p q else (xz p q + xz p q) * xz p r) = (f1 + f1) * (xz p q * xz p r)).
    { destruct f; [rewrite (Z eq_refl)|]; ring. }
    rewrite D. apply (out_ok P (eneg Q) ((f1 + f1) * (xz p q * xz p r)) ((f1 + f1) * (xz p q * xz p r)) _ _ _ _ O1 O3); try (repeat apply (mul_nz p Pp); try assumption; exact two_nz).
    unfold EdGroup.eneg, ed_neg. cbv zeta. cbn [fst snd]. rewrite X1, X2, Y1, Y2, T1, T2, M. refine (conj _ (conj _ (conj _ _))); ring.
  - unfold xge_sub_a.
    assert (D : (if f then xz p q else xz p q * xz p r) = xz p q * xz p r).
    { destruct f; [rewrite (Z eq_refl)|]; ring. }
    rewrite D. apply (out_ok P (eneg Q) (xz p q * xz p r) (xz p q * xz p r) _ _ _ _ O1 O3); try (repeat apply (mul_nz p Pp); assumption).
    unfold EdGroup.eneg, ed_neg. cbv zeta. cbn [fst snd]. rewrite mul_d_eq, mul_a_eq, X1, X2, Y1, Y2, T1, T2. refine (conj _ (conj _ (conj _ _))); ring.
Qed.
Lemma add_rep q r P Q : xrep q P -> xrep r Q -> xrep (xge_add p a d q r) (eadd P Q).
Proof. intros H1 H2. unfold xge_add. apply (add_gen q r P Q false H1 H2). discriminate. Qed.
Lemma sub_rep q r P Q : xrep q P -> xrep r Q -> xrep (xge_sub p a d q r) (eadd P (eneg Q)).
Proof. intros H1 H2. unfold xge_sub. apply (sub_gen q r P Q false H1 H2). discriminate. Qed.
Lemma madd_rep q r P Q : xrep q P -> arep r Q -> xrep (xge_mixed_add p a d q r) (eadd P Q).
Proof. intros H1 (H2 & Z). unfold xge_mixed_add. apply (add_gen q r P Q true H1 H2). intros _; exact Z. Qed.
Lemma msub_rep q r P Q : xrep q P -> arep r Q -> xrep (xge_mixed_sub p a d q r) (eadd P (eneg Q)).
Proof. intros H1 (H2 & Z). unfold xge_mixed_sub. apply (sub_gen q r P Q true H1 H2). intros _; exact Z. Qed.
Lemma rep_inj q P Q : xrep q P -> xrep q Q -> P = Q.
Proof.
  intros (_ & N & X & Y & _) (_ & _ & X' & Y' & _). destruct P, Q; cbn [fst snd] in *. apply pair_equal_spec. split; apply (mul_cancel p Pp _ _ (xz p q) N); congruence.
Qed.
Lemma equal_rep q r P Q : xrep q P -> xrep r Q -> (xge_equal p q r = true <-> P = Q).
Proof.
  intros (O1 & N1 & X1 & Y1 & T1) (O2 & N2 & X2 & Y2 & T2). unfold xge_equal. rewrite andb_true_iff, !equal_iff, X1, X2, Y1, Y2. destruct P as [x1 y1], Q as [x2 y2]. cbn [fst snd].
  pose proof (mul_nz p Pp _ _ N1 N2) as N. split.
  - intros (E1 & E2). apply pair_equal_spec. split; apply (mul_cancel p Pp _ _ _ N); [transitivity (x1 * xz p q * xz p r); [ring|rewrite E1; ring]|transitivity (y1 * xz p q * xz p r); [ring|rewrite E2; ring]].
  - intros E. apply pair_equal_spec in E. destruct E as [-> ->]. split; ring.
Qed.
Lemma is_zero_rep q P : xrep q P -> (xge_is_zero p q = true <-> P = ezero).
Proof.
  intros (O & N & X & Y & T). unfold xge_is_zero. rewrite andb_true_iff, equal_iff. destruct (is_zero_spec p (xx p q)) as [E|E].
  - rewrite X in E. destruct P as [x y]. cbn [fst snd] in *. unfold EdGroup.ezero, ed_zero. rewrite pair_equal_spec. split.
    + intros (_ & E2). split; apply (mul_cancel p Pp _ _ _ N); [rewrite E; ring|rewrite <- Y, E2; ring].
    + intros (-> & ->). split; [reflexivity|]. rewrite Y. ring.
  - split; [intros (C & _); discriminate|]. intros ->. destruct E. rewrite X. unfold EdGroup.ezero, ed_zero. cbn [fst]. ring.
Qed.
(* points in affine form *)
Lemma finish_rep x y : eon (x, y) -> arep (xge_finish p x y true) (x, y).
Proof.
  intros H. split; [|reflexivity]. refine (conj H (conj (f1_nz p Pp) _)). cbn [xge_finish xx xy xz xt fst snd fe_select negb]. refine (conj _ (conj _ _)); ring.
Qed.
Lemma finish_zero x y : xge_finish p x y false = xge_zero p.
Proof. unfold xge_finish, xge_zero, fe_select, negb. f_equal; ring. Qed.
Lemma validate_ok x y : edwards_validate_xy p a d x y = true <-> eon (x, y).
Proof.
  unfold edwards_validate_xy, EdGroup.eon, on_ed, fe_sqr. rewrite mul_a_eq, mul_d_eq, equal_iff. split; intros H.
  - rewrite H. ring.
  - rewrite H. ring.
Qed.
Lemma set_xy_ok x y : xge_set_xy p a d x y = (if edwards_validate_xy p a d x y then xge_finish p x y true else xge_zero p, edwards_validate_xy p a d x y).
Proof. unfold xge_set_xy. destruct (edwards_validate_xy p a d x y); [reflexivity|]. rewrite finish_zero. reflexivity. Qed.
Lemma xvalidate_ok q : xge_validate p a d q = true <-> exists P, xrep q P.
Proof.
  unfold xge_validate, fe_sqr. rewrite !andb_true_iff, !equal_iff, negb_true_iff, mul_a_eq, mul_d_eq. set (X := xx p q). set (Y := xy p q). set (Z := xz p q). set (T := xt p q). split.
  - intros ((E1 & E2) & N). destruct (is_zero_spec p Z) as [|NZ]; [discriminate|]. clear N.
    set (x := fe_div p X Z). set (y := fe_div p Y Z).
    assert (EX : X = x * Z) by (symmetry; apply (div_mul p Pp); exact NZ). assert (EY : Y = y * Z) by (symmetry; apply (div_mul p Pp); exact NZ).
    clearbody x y. exists (x, y). refine (conj _ (conj NZ (conj EX (conj EY _)))).
    + clearbody X Y Z T. unfold EdGroup.eon, on_ed. assert (N4 : Z * Z * (Z * Z) <> f0) by (repeat apply (mul_nz p Pp); exact NZ). apply (mul_cancel p Pp _ _ _ N4). rewrite EX, EY in E1.
      transitivity ((a * (x * Z * (x * Z)) + y * Z * (y * Z)) * (Z * Z)); [ring|]. rewrite E1. ring.
    + cbn [fst snd]. apply (mul_cancel p Pp _ _ Z NZ). fold T Z. rewrite E2, EX, EY. ring.
  - intros ((x & y) & O & N & EX & EY & ET). fold X Y Z T in N, EX, EY, ET. cbn [fst snd] in *. unfold EdGroup.eon, on_ed in O. rewrite EX, EY, ET. refine (conj (conj _ _) _).
    + transitivity ((a * (x * x) + y * y) * (Z * Z * (Z * Z))); [ring|]. rewrite O. ring.
    + ring.
    + destruct (is_zero_spec p Z) as [C|C]; [destruct (N C)|reflexivity].
Qed.
(* Montgomery's trick *)
Fixpoint zprod (acc : fe) (l : list xge) : fe := match l with [] => acc | q :: r => zprod (acc * xz p q) r end.
Lemma zprod_nz l : forall acc, acc <> f0 -> Forall (fun q => xz p q <> f0) l -> zprod acc l <> f0.
Proof. induction l as [|q r IH]; intros acc A F; [exact A|]. inversion F; subst. cbn [zprod]. apply IH; [apply (mul_nz p Pp); assumption|assumption]. Qed.
Lemma norm_ok l : forall acc b, acc <> f0 -> Forall (fun q => xz p q <> f0) l -> b * zprod acc l = f1 ->
  exists invs, norm_prefix p acc l = (invs, zprod acc l) /\ length invs = length l /\
    exists out b', norm_back p b (combine invs l) = (out, b') /\ b' * acc = f1 /\ Forall2 (fun q i => i * xz p q = f1) l out.
Proof.
  induction l as [|q r IH]; intros acc b A F B; cbn [norm_prefix zprod].
  - exists []. refine (conj eq_refl (conj eq_refl _)). exists [], b. refine (conj eq_refl (conj B _)). constructor.
  - inversion F; subst. destruct (IH (acc * xz p q) b) as (invs & E1 & E2 & out & b' & E3 & E4 & E5); [apply (mul_nz p Pp); assumption|assumption|exact B|].
    rewrite E1. exists (acc :: invs). refine (conj eq_refl (conj _ _)); [cbn [length]; lia|]. cbn [combine norm_back]. rewrite E3. eexists _, _. refine (conj eq_refl (conj _ _)).
    + rewrite <- E4. ring.
    + constructor; [|exact E5]. rewrite <- E4. ring.
Qed.
Lemma normalize_ok l Ps : Forall2 xrep l Ps -> exists out, xge_normalize_all_var p l = Some out /\ Forall2 arep out Ps.
Proof.
  intros H. assert (F : Forall (fun q => xz p q <> f0) l) by (clear - H; induction H as [|q P l Ps R _ IH]; constructor; [exact (proj1 (proj2 R))|exact IH]).
  pose proof (zprod_nz l f1 (f1_nz p Pp) F) as N. set (acc := zprod f1 l) in N.
  assert (I : fe_invert_var acc = Some (fe_inv acc, true)).
  { rewrite (invert_var_eq p Pp acc P3). unfold fe_invert. pose proof (invert_flag p Pp acc P3) as IF. unfold fe_invert in IF. cbn [snd] in IF. rewrite IF. destruct (is_zero_spec p acc) as [C|_]; [destruct (N C)|reflexivity]. }
  destruct (norm_ok l f1 (fe_inv acc) (f1_nz p Pp) F (inv_l p Pp acc N)) as (invs & E1 & _ & out & b' & E3 & _ & E5).
  unfold xge_normalize_all_var. rewrite E1. fold acc. rewrite I, E3. eexists. split; [reflexivity|]. clear - H E5 Pp. revert out E5. induction H as [|q P l Ps R _ IH]; intros out E5; inversion E5; subst; cbn [combine map fst snd]; constructor.
  - destruct R as (O & N & X & Y & T). destruct P as [x1 y1]. cbn [fst snd] in *. split; [|reflexivity]. refine (conj O (conj (f1_nz p Pp) _)). cbn [xge_scale xx xy xz xt fst snd]. rewrite X, Y, T.
    match goal with E : ?i * _ = f1 |- _ => refine (conj _ (conj _ _)); rewrite <- E; ring end.
  - apply IH. assumption.
Qed.
End P.
