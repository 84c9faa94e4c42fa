(* The conversion functions of ecc.c compute the maps of Spec/ConvSpec.v, exceptional points included. *)
From Coq Require Import Znumtheory Setoid Ncring Cring Integral_domain NsatzTactic.
From Verif.Base Require Import Prelude.
From Verif.Model Require Import Encoding NumTheory Field EcScalar Wei Ecdsa Edwards Eddsa Mont Convert.
From Verif.Spec Require Import EcSpec EdSpec MontSpec ConvSpec.
From Verif.Proof Require Import Cong FieldProof FieldNsatz FieldSquare FieldJacobi EcCodec GrpMul EdGroup EdProof EdCodec MontGroup MontProof ConvGroup.
Section P.
Variable p : positive.
Hypothesis Pp : prime (Zpos p).
Hypothesis P5 : (3 < Zpos p)%Z.
Local Notation P := (Zpos p).
Local Notation fe := (Field.fe p).
#[local] Existing Instance fe_ops.
#[local] Existing Instance fe_ring.
#[local] Existing Instance fe_cring.
#[local] Instance dom' : @Integral_domain fe f0 f1 fe_add fe_mul fe_sub fe_neg eq (fe_ops p) (fe_ring p) (fe_cring p) := fe_dom p Pp.
Declare Scope fe_scope.
Delimit Scope fe_scope with fe.
Bind Scope fe_scope with Field.fe.
Local Infix "+" := fe_add : fe_scope.
Local Infix "*" := fe_mul : fe_scope.
Local Infix "-" := fe_sub : fe_scope.
Local Notation "- x" := (fe_neg x) : fe_scope.
Local Infix "/" := (fe_div p) : fe_scope.
Local Open Scope fe_scope.
Add Ring fring : (ring_th p).
Variables a d : fe.
Hypothesis K : complete fe f0 f1 fe_add fe_mul a d.
Local Notation eon := (eon p a d).
Local Notation xrep := (EdProof.xrep p a d).
Local Notation mrep := (MontProof.mrep p).
Local Notation mon_ := (ConvGroup.mon_ p).
Lemma frac (n m k : fe) : m <> f0 -> k <> f0 -> (n * k) * fe_inv (m * k) = n / m.
Proof. intros M N. apply (eq_div p Pp _ _ _ M). apply (mul_cancel p Pp _ _ k N). transitivity (n * k * (fe_inv (m * k) * (m * k))); [ring|]. rewrite (inv_l p Pp _ (mul_nz p Pp _ _ M N)). ring. Qed.
Lemma rep_of (n1 d1 n2 d2 : fe) : d1 <> f0 -> d2 <> f0 -> eon (n1 / d1, n2 / d2) -> xrep (MkX (n1 * d2) (n2 * d1) (d1 * d2) (n1 * n2)) (n1 / d1, n2 / d2).
Proof.
  intros N1 N2 O. refine (conj O (conj (mul_nz p Pp _ _ N1 N2) _)). cbn [xx xy xz xt fst snd]. pose proof (div_mul p Pp n1 d1 N1) as E1. pose proof (div_mul p Pp n2 d2 N2) as E2. set (x := n1 / d1) in *. set (y := n2 / d2) in *. clearbody x y. rewrite <- E1, <- E2.
  refine (conj _ (conj _ _)); ring.
Qed.
Section Iso.
Variables A B c : fe.
Variable i : bool.
Hypothesis L : linked_ p a d A B c i.
Variable iso : bool.
Hypothesis NI : iso && (fbits p =? 448)%nat = false.
Local Notation phi := (to_ed_ p c i).
Local Notation psi := (to_mont_ p c i).
Theorem to_edwards_ok q Q : mrep q Q -> mon_ A B Q -> xrep (mont_to_edwards p c i iso q) (phi Q).
Proof.
  intros R O. pose proof (ed_on p Pp a d K A B c i L Q O) as EO. unfold mont_to_edwards. rewrite NI. destruct R as [|u v].
  - cbn [mge_zero minf mx my]. destruct (i); exact (zero_rep p Pp a d).
  - cbn [minf mx my negb]. rewrite Bool.andb_true_r. pose proof (both_u p Pp a d K A B c i L u v O) as W. unfold to_ed_, to_ed in *. destruct (is_zero_spec p u) as [-> |U].
    + destruct (fe_eq_dec p f0 f0) as [_|N]; [|contradiction]. refine (conj EO _). pose proof (opp_nz p f1 (f1_nz p Pp)) as N1. assert (N2 : @f1 p <> f0) by exact (f1_nz p Pp). destruct i; cbn [xx xy xz xt fst snd]; split.
      * replace (f1 * (f0 - f1)) with (- f1 : fe) by ring. exact N1.
      * refine (conj _ (conj _ _)); ring.
      * replace (f1 * (f0 + f1)) with (f1 : fe) by ring. exact N2.
      * refine (conj _ (conj _ _)); ring.
    + pose proof (both_v p Pp a d K A B c i L u v O U) as V. destruct (fe_eq_dec p u f0) as [|_]; [contradiction|]. destruct i; apply rep_of; assumption.
Qed.
Theorem to_mont_ok q Q : xrep q Q -> mrep (edwards_to_mont p c i iso q) (psi Q).
Proof.
  destruct Q as [x y]. intros (O & Zn & X & Y & _). cbn [fst snd] in X, Y. unfold edwards_to_mont. rewrite NI, X, Y. set (z := xz p q) in *. clearbody z. unfold to_mont_, to_mont. destruct (fe_eq_dec p x f0) as [X0|X0].
  - destruct (is_zero_spec p (x * z)) as [_|N]; [|destruct N; rewrite X0; ring]. cbn [andb]. assert (EQ : fe_equal (y * z) z = if fe_eq_dec p y f1 then true else false).
    { destruct (equal_spec p (y * z) z) as [E|E]; destruct (fe_eq_dec p y f1) as [E'|E']; try reflexivity; [destruct E'|destruct E; rewrite E'; ring]. apply (mul_cancel p Pp _ _ z Zn). rewrite E. ring. }
    rewrite EQ. destruct (fe_eq_dec p y f1) as [Y1|Y1]; cbn [negb andb].
    + assert (E : mge_zero p = MkM (f0 : fe) f0 true) by reflexivity. rewrite X0, Y1. destruct i.
      * replace (_ * _ * fe_inv _) with (f0 : fe) by ring. replace (_ * _ * fe_inv _) with (f0 : fe) by ring. rewrite <- E. constructor.
      * replace (_ * _ * fe_inv _) with (f0 : fe) by ring. replace (_ * _ * fe_inv _) with (f0 : fe) by ring. rewrite <- E. constructor.
    + destruct i; constructor.
  - destruct (is_zero_spec p (x * z)) as [N|_]; [destruct (mul_nz p Pp _ _ X0 Zn N)|]. cbn [andb]. destruct (ed_y1 p Pp a d K x y O X0) as (Y1 & _). destruct i; cbv iota zeta beta.
    + assert (U : y * z - z <> f0). { intros E. apply (mul_nz p Pp _ _ Y1 Zn). transitivity (- (y * z - z)); [ring|]. rewrite E. ring. }
      assert (VZ : x * z * (y * z - z) <> f0) by (repeat apply (mul_nz p Pp); assumption). assert (Y2 : y - f1 <> f0) by (intros E; apply Y1; transitivity (- (y - f1)); [ring|rewrite E; ring]).
      assert (E1 : (y * z + z) * (x * z * (y * z - z)) * fe_inv ((y * z - z) * (x * z * (y * z - z))) = (y + f1) / (y - f1)).
      { rewrite frac by assumption. symmetry. apply (eq_div p Pp _ _ _ U). transitivity ((y + f1) / (y - f1) * (y - f1) * z); [ring|]. rewrite (div_mul p Pp _ _ Y2). ring. }
      assert (E2 : c * z * (y * z + z) * (y * z - z) * fe_inv ((y * z - z) * (x * z * (y * z - z))) = c * ((y + f1) / (y - f1)) / x).
      { replace ((y * z - z) * (x * z * (y * z - z))) with (x * z * (y * z - z) * (y * z - z)) by ring. rewrite frac by assumption. symmetry. apply (eq_div p Pp _ _ _ VZ).
        transitivity (c * ((y + f1) / (y - f1)) / x * x * (z * (y - f1) * z)); [ring|]. rewrite (div_mul p Pp _ _ X0). transitivity (c * z * z * ((y + f1) / (y - f1) * (y - f1))); [ring|]. rewrite (div_mul p Pp _ _ Y2). ring. }
      rewrite E1, E2. constructor.
    + assert (U : z - y * z <> f0). { intros E. apply (mul_nz p Pp _ _ Y1 Zn). transitivity (z - y * z); [ring|]. exact E. }
      assert (VZ : x * z * (z - y * z) <> f0) by (repeat apply (mul_nz p Pp); assumption).
      assert (E1 : (z + y * z) * (x * z * (z - y * z)) * fe_inv ((z - y * z) * (x * z * (z - y * z))) = (f1 + y) / (f1 - y)).
      { rewrite frac by assumption. symmetry. apply (eq_div p Pp _ _ _ U). transitivity ((f1 + y) / (f1 - y) * (f1 - y) * z); [ring|]. rewrite (div_mul p Pp _ _ Y1). ring. }
      assert (E2 : c * z * (z + y * z) * (z - y * z) * fe_inv ((z - y * z) * (x * z * (z - y * z))) = c * ((f1 + y) / (f1 - y)) / x).
      { replace ((z - y * z) * (x * z * (z - y * z))) with (x * z * (z - y * z) * (z - y * z)) by ring. rewrite frac by assumption. symmetry. apply (eq_div p Pp _ _ _ VZ).
        transitivity (c * ((f1 + y) / (f1 - y)) / x * x * (z * (f1 - y) * z)); [ring|]. rewrite (div_mul p Pp _ _ X0). transitivity (c * z * z * ((f1 + y) / (f1 - y) * (f1 - y))); [ring|]. rewrite (div_mul p Pp _ _ Y1). ring. }
      rewrite E1, E2. constructor.
Qed.
End Iso.
(* edwards_init_isomorphism *)
Theorem init_iso_ok c i : exists A B, edwards_init_isomorphism p a d c i = Some (A, B) /\ linked_ p a d A B (conv_c p c) i.
Proof.
  assert (AD : a - d <> f0). { apply sub_nz. intros E. destruct (proj1 K) as (s & S). apply (proj1 (proj2 (proj2 K)) s). congruence. }
  assert (P3 : (2 < P)%Z) by (clear - P5; lia). pose proof (ConvGroup.two_nz p a d K) as T2. pose proof (ConvGroup.a_nz p a d K) as AN.
  assert (IV : forall x : fe, x <> f0 -> fe_invert_var x = Some (fe_inv x, true)).
  { intros x N. rewrite (invert_var_eq p Pp) by exact P3. f_equal. rewrite (surjective_pairing (fe_invert _)), (invert_flag p Pp _ P3). destruct (is_zero_spec p x); [contradiction|reflexivity]. }
  unfold edwards_init_isomorphism. assert (CN : conv_c p c <> f0). { unfold conv_c. destruct (is_zero_spec p c); [exact (f1_nz p Pp)|assumption]. }
  set (cc := conv_c p c) in *. clearbody cc. unfold fe_sqr in *. assert (N2 : cc * cc * a <> f0) by (repeat apply (mul_nz p Pp); assumption).
  assert (main : forall e f : fe, f <> f0 -> (f = a - d /\ e = a + d \/ f = d - a /\ e = d + a) -> exists A, (e + e) * fe_inv f = A /\ A * f = (f1 + f1) * e).
  { intros e f N _. eexists. split; [reflexivity|]. transitivity ((e + e) * (fe_inv f * f)); [ring|]. rewrite (inv_l p Pp _ N). ring. }
  destruct i.
  - assert (N : d - a <> f0) by (intros E; apply AD; transitivity (- (d - a)); [ring|rewrite E; ring]). rewrite (IV _ N), (IV _ N2). destruct (main (d + a) (d - a) N ltac:(right; split; reflexivity)) as (A & -> & E).
    assert (NA : A - (f1 + f1) <> f0). { intros Z. apply (mul_nz p Pp _ _ (mul_nz p Pp _ _ T2 T2) AN). assert (X : (f1 + f1) * (f1 + f1) * a = (A - (f1 + f1)) * (d - a)) by (clear - E Pp; nsatz). rewrite X, Z. ring. }
    assert (NB : (A - (f1 + f1)) * fe_inv (cc * cc * a) <> f0). { intros Z. apply NA. transitivity ((A - (f1 + f1)) * fe_inv (cc * cc * a) * (cc * cc * a)); [|rewrite Z; ring]. transitivity ((A - (f1 + f1)) * (fe_inv (cc * cc * a) * (cc * cc * a))); [|ring]. rewrite (inv_l p Pp _ N2). ring. }
    rewrite (IV _ NB). eexists _, _. split; [reflexivity|]. split; [exact E|]. transitivity ((A - (f1 + f1)) * (fe_inv (cc * cc * a) * (cc * cc * a))); [ring|]. rewrite (inv_l p Pp _ N2). ring.
  - rewrite (IV _ AD), (IV _ N2). destruct (main (a + d) (a - d) AD ltac:(left; split; reflexivity)) as (A & -> & E).
    assert (NA : A + (f1 + f1) <> f0). { intros Z. apply (mul_nz p Pp _ _ (mul_nz p Pp _ _ T2 T2) AN). assert (X : (f1 + f1) * (f1 + f1) * a = (A + (f1 + f1)) * (a - d)) by (clear - E Pp; nsatz). rewrite X, Z. ring. }
    assert (NB : (A + (f1 + f1)) * fe_inv (cc * cc * a) <> f0). { intros Z. apply NA. transitivity ((A + (f1 + f1)) * fe_inv (cc * cc * a) * (cc * cc * a)); [|rewrite Z; ring]. transitivity ((A + (f1 + f1)) * (fe_inv (cc * cc * a) * (cc * cc * a))); [|ring]. rewrite (inv_l p Pp _ N2). ring. }
    rewrite (IV _ NB). eexists _, _. split; [reflexivity|]. split; [exact E|]. transitivity ((A + (f1 + f1)) * (fe_inv (cc * cc * a) * (cc * cc * a))); [ring|]. rewrite (inv_l p Pp _ N2). ring.
Qed.
End P.
(* the 4-isogenies of the 448 bit curves: a = 1, B = 1, A = 2 - 4 d *)
Section Isogeny.
Variable p : positive.
Hypothesis Pp : prime (Zpos p).
Hypothesis P5 : (3 < Zpos p)%Z.
Local Notation fe := (Field.fe p).
#[local] Existing Instance fe_ops.
#[local] Existing Instance fe_ring.
#[local] Existing Instance fe_cring.
#[local] Instance dom'' : @Integral_domain fe f0 f1 fe_add fe_mul fe_sub fe_neg eq (fe_ops p) (fe_ring p) (fe_cring p) := fe_dom p Pp.
Declare Scope fe_scope.
Delimit Scope fe_scope with fe.
Bind Scope fe_scope with Field.fe.
Local Infix "+" := fe_add : fe_scope.
Local Infix "*" := fe_mul : fe_scope.
Local Infix "-" := fe_sub : fe_scope.
Local Notation "- x" := (fe_neg x) : fe_scope.
Local Infix "/" := (fe_div p) : fe_scope.
Local Open Scope fe_scope.
Add Ring fring : (ring_th p).
Variable d : fe.
Hypothesis K : complete fe f0 f1 fe_add fe_mul f1 d.
Hypothesis M1 : forall s : fe, s * s <> - f1.
Hypothesis B448 : fbits p = 448%nat.
Variables (c : fe) (i : bool).
Local Notation eon := (eon p f1 d).
Local Notation A4 := (f1 + f1 - (f1 + f1 + (f1 + f1)) * d).
Local Notation mon := (on_mont fe fe_add fe_mul A4 f1).
Local Notation phi4 := (iso4_to_ed fe f0 f1 fe_add fe_mul fe_sub (fe_div p) fe_neg (fe_eq_dec p)).
Local Notation psi4 := (iso4_to_mont fe f0 f1 fe_add fe_mul fe_sub (fe_div p) (fe_eq_dec p)).
Local Notation xrep := (EdProof.xrep p f1 d).
Local Notation mrep := (MontProof.mrep p).
Lemma sum_sq (x y : fe) : x * x + y * y = f0 -> x = f0 /\ y = f0.
Proof.
  intros E. destruct (fe_eq_dec p y f0) as [-> |N].
  - split; [|reflexivity]. destruct (fe_eq_dec p x f0) as [|M]; [assumption|]. destruct (mul_nz p Pp _ _ M M). rewrite <- E. ring.
  - exfalso. apply (M1 (x / y)). apply (mul_cancel p Pp _ _ (y * y) (mul_nz p Pp _ _ N N)). transitivity ((x / y * y) * (x / y * y)); [ring|]. rewrite (div_mul p Pp _ _ N). transitivity (x * x + y * y - y * y); [ring|]. rewrite E. ring.
Qed.
Lemma tnz : @f1 p + f1 <> f0. Proof. exact (proj2 (proj2 (proj2 K))). Qed.
Lemma eq0 (x y : fe) : x * y = f0 -> x = f0 \/ y = f0.
Proof. intros E. destruct (fe_eq_dec p x f0) as [|N]; [left; assumption|]. destruct (fe_eq_dec p y f0) as [|M]; [right; assumption|]. destruct (mul_nz p Pp _ _ N M E). Qed.
(* the points with v = 0 and u = 1 or -1 are not on the curve *)
Lemma not_unit4 u v : mon (Aff u v) -> v = f0 -> u * u = f1 -> False.
Proof.
  unfold on_mont. intros H -> E. assert (Z : f1 * (f0 * f0) = (f0 : fe)) by ring. rewrite Z in H. assert (Q : (u - f1) * (u + f1) = f0) by (clear - E Pp; nsatz). destruct (eq0 _ _ Q) as [U|U].
  - apply (proj1 (proj2 (proj2 K)) f1). apply (mul_cancel p Pp _ _ (((f1 + f1) * (f1 + f1)))); [apply (mul_nz p Pp); exact tnz|]. clear - H U Pp. nsatz.
  - apply (proj1 (proj2 (proj2 K)) f0). apply (mul_cancel p Pp _ _ (((f1 + f1) * (f1 + f1)))); [apply (mul_nz p Pp); exact tnz|]. clear - H U Pp. nsatz.
Qed.
Definition XX (u v : fe) := four fe f1 fe_add * v * (pow2 fe fe_mul u - f1).
Definition XZ (u v : fe) := pow4 fe fe_mul u - two fe f1 fe_add * pow2 fe fe_mul u + four fe f1 fe_add * pow2 fe fe_mul v + f1.
Definition YY (u v : fe) := - (pow5 fe fe_mul u - two fe f1 fe_add * pow3 fe fe_mul u - four fe f1 fe_add * u * pow2 fe fe_mul v + u).
Definition YZ (u v : fe) := pow5 fe fe_mul u - two fe f1 fe_add * pow2 fe fe_mul u * pow2 fe fe_mul v - two fe f1 fe_add * pow3 fe fe_mul u - two fe f1 fe_add * pow2 fe fe_mul v + u.
Ltac un := unfold XX, XZ, YY, YZ, pow2, pow3, pow4, pow5, four, two in *.
Lemma curve4 u v : mon (Aff u v) -> XX u v * XX u v * (YZ u v * YZ u v) + YY u v * YY u v * (XZ u v * XZ u v) = XZ u v * XZ u v * (YZ u v * YZ u v) + d * (XX u v * XX u v) * (YY u v * YY u v).
Proof.
  unfold on_mont. intros H. assert (E : v * v = u * u * u + A4 * (u * u) + u) by (rewrite <- H; ring). clear H. un. set (w := u * u * u + A4 * (u * u) + u) in *.
  rewrite !E. transitivity ((f1 + f1 + (f1 + f1)) * (f1 + f1 + (f1 + f1)) * (v * v) * ((u * u - f1) * (u * u - f1)) * ((u * u * u * u * u - (f1 + f1) * (u * u) * w - (f1 + f1) * (u * u * u) - (f1 + f1) * w + u) * (u * u * u * u * u - (f1 + f1) * (u * u) * w - (f1 + f1) * (u * u * u) - (f1 + f1) * w + u)) +
    (u * u * u * u * u - (f1 + f1) * (u * u * u) - (f1 + f1 + (f1 + f1)) * u * w + u) * (u * u * u * u * u - (f1 + f1) * (u * u * u) - (f1 + f1 + (f1 + f1)) * u * w + u) * ((u * u * u * u - (f1 + f1) * (u * u) + (f1 + f1 + (f1 + f1)) * w + f1) * (u * u * u * u - (f1 + f1) * (u * u) + (f1 + f1 + (f1 + f1)) * w + f1))); [ring|].
  transitivity ((u * u * u * u - (f1 + f1) * (u * u) + (f1 + f1 + (f1 + f1)) * w + f1) * (u * u * u * u - (f1 + f1) * (u * u) + (f1 + f1 + (f1 + f1)) * w + f1) * ((u * u * u * u * u - (f1 + f1) * (u * u) * w - (f1 + f1) * (u * u * u) - (f1 + f1) * w + u) * (u * u * u * u * u - (f1 + f1) * (u * u) * w - (f1 + f1) * (u * u * u) - (f1 + f1) * w + u)) +
    d * ((f1 + f1 + (f1 + f1)) * (f1 + f1 + (f1 + f1)) * (v * v) * ((u * u - f1) * (u * u - f1))) * ((u * u * u * u * u - (f1 + f1) * (u * u * u) - (f1 + f1 + (f1 + f1)) * u * w + u) * (u * u * u * u * u - (f1 + f1) * (u * u * u) - (f1 + f1 + (f1 + f1)) * u * w + u))); [|ring].
  rewrite E. unfold w. ring.
Qed.
Lemma XZ_nz u v : mon (Aff u v) -> XZ u v <> f0.
Proof.
  intros H E. assert (S : (u * u - f1) * (u * u - f1) + ((f1 + f1) * v) * ((f1 + f1) * v) = f0) by (rewrite <- E; un; ring).
  destruct (sum_sq _ _ S) as (S1 & S2). destruct (eq0 _ _ S2) as [T|T]; [destruct (tnz T)|]. apply (not_unit4 u v H T). transitivity (u * u - f1 + f1); [ring|]. rewrite S1. ring.
Qed.
Lemma YZ_nz u v : mon (Aff u v) -> u <> f0 -> YZ u v <> f0.
Proof.
  intros H U E. pose proof (curve4 u v H) as C. pose proof (XZ_nz u v H) as XN. rewrite E in C. assert (Q : YY u v * YY u v * (XZ u v * XZ u v - d * (XX u v * XX u v)) = f0).
  { transitivity (XX u v * XX u v * (f0 * f0) + YY u v * YY u v * (XZ u v * XZ u v) - d * (XX u v * XX u v) * (YY u v * YY u v)); [ring|]. rewrite C. ring. }
  assert (YY0 : YY u v = f0).
  { destruct (eq0 _ _ Q) as [T|T]; [destruct (eq0 _ _ T); assumption|]. exfalso. assert (X2 : XZ u v * XZ u v = d * (XX u v * XX u v)) by (transitivity (XZ u v * XZ u v - d * (XX u v * XX u v) + d * (XX u v * XX u v)); [ring|rewrite T; ring]).
    destruct (fe_eq_dec p (XX u v) f0) as [Z|Z]; [apply (mul_nz p Pp _ _ XN XN); rewrite X2, Z; ring|]. exact (no_sq p Pp f1 d K _ _ Z X2). }
  assert (S1 : (u * u - f1) * (u * u - f1) = (f1 + f1) * (f1 + f1) * (v * v)).
  { assert (T : u * ((u * u - f1) * (u * u - f1) - (f1 + f1) * (f1 + f1) * (v * v)) = f0) by (transitivity (- YY u v); [un; ring|rewrite YY0; ring]). destruct (eq0 _ _ T) as [|T']; [contradiction|]. transitivity ((u * u - f1) * (u * u - f1) - (f1 + f1) * (f1 + f1) * (v * v) + (f1 + f1) * (f1 + f1) * (v * v)); [ring|]. rewrite T'. ring. }
  assert (S2 : (f1 + f1) * ((v * v) * ((u - f1) * (u - f1))) = f0).
  { transitivity (- (u * ((u * u - f1) * (u * u - f1)) - (f1 + f1) * (v * v) * (u * u + f1)) + u * ((u * u - f1) * (u * u - f1) - (f1 + f1) * (f1 + f1) * (v * v)) + (f1 + f1) * (f1 + f1) * u * (v * v) - (f1 + f1) * (f1 + f1) * u * (v * v)); [|].
    - rewrite S1. ring.
    - assert (T : YZ u v = u * ((u * u - f1) * (u * u - f1)) - (f1 + f1) * (v * v) * (u * u + f1)) by (un; ring). rewrite <- T, E, S1. ring. }
  destruct (eq0 _ _ S2) as [T|T]; [destruct (tnz T)|]. assert (V0 : v = f0).
  { destruct (eq0 _ _ T) as [T1|T1]; [destruct (eq0 _ _ T1); assumption|]. assert (U1 : u - f1 = f0) by (destruct (eq0 _ _ T1); assumption). assert (Z : (f1 + f1) * (f1 + f1) * (v * v) = f0) by (rewrite <- S1; transitivity ((u - f1) * ((u + f1) * (u * u - f1))); [ring|rewrite U1; ring]).
    destruct (eq0 _ _ Z) as [Z'|Z']; [destruct (mul_nz p Pp _ _ tnz tnz Z')|]. destruct (eq0 _ _ Z'); assumption. }
  apply (not_unit4 u v H V0). assert (Z : (u * u - f1) * (u * u - f1) = f0) by (rewrite S1, V0; ring). destruct (eq0 _ _ Z) as [Z'|Z']; transitivity (u * u - f1 + f1); try ring; rewrite Z'; ring.
Qed.
Theorem iso4_on Q : mon Q -> eon (phi4 Q).
Proof.
  destruct Q as [|u v]; intros H; [exact (on_zero p f1 d)|]. unfold iso4_to_ed. destruct (fe_eq_dec p u f0) as [|U]; [exact (on_zero p f1 d)|]. change (eon (XX u v / XZ u v, YY u v / YZ u v)).
  pose proof (XZ_nz u v H) as N1. pose proof (YZ_nz u v H U) as N2. pose proof (curve4 u v H) as C. pose proof (div_mul p Pp (XX u v) _ N1) as E1. pose proof (div_mul p Pp (YY u v) _ N2) as E2. set (x := XX u v / XZ u v) in *. set (y := YY u v / YZ u v) in *. clearbody x y. rewrite <- E1, <- E2 in C.
  set (zx := XZ u v) in *. set (zy := YZ u v) in *. clearbody zx zy. unfold EdGroup.eon, on_ed. apply (mul_cancel p Pp _ _ ((zx * zx) * (zy * zy))); [repeat apply (mul_nz p Pp); assumption|].
  transitivity (x * zx * (x * zx) * (zy * zy) + y * zy * (y * zy) * (zx * zx)); [ring|]. rewrite C. ring.
Qed.
Lemma mon0 v : mon (Aff f0 v) -> v = f0.
Proof. unfold on_mont. intros H. assert (E : v * v = f0) by (transitivity (f1 * (v * v)); [ring|rewrite H; ring]). destruct (eq0 _ _ E); assumption. Qed.
Theorem to_edwards4_ok q Q : mrep q Q -> mon Q -> xrep (mont_to_edwards p c i true q) (phi4 Q).
Proof.
  intros R O. pose proof (iso4_on Q O) as EO. unfold mont_to_edwards. rewrite B448. cbn [Nat.eqb andb]. destruct R as [|u v].
  - cbn [mge_zero minf orb]. exact (zero_rep p Pp f1 d).
  - cbn [minf mx my negb orb]. rewrite Bool.andb_true_r. unfold iso4_to_ed in *. destruct (is_zero_spec p u) as [-> |U].
    + destruct (fe_eq_dec p f0 f0) as [_|N]; [|contradiction]. exact (zero_rep p Pp f1 d).
    + destruct (fe_eq_dec p u f0) as [|_]; [contradiction|]. change (eon (XX u v / XZ u v, YY u v / YZ u v)) in EO. change (xrep (MkX (XX u v * YZ u v) (YY u v * XZ u v) (XZ u v * YZ u v) (XX u v * YY u v)) (XX u v / XZ u v, YY u v / YZ u v)) ||
      (match goal with |- xrep (MkX (?xx * ?yz) (?yy * ?xz) _ _) _ => replace xx with (XX u v) by (un; unfold fe_sqr; ring); replace yz with (YZ u v) by (un; unfold fe_sqr; ring); replace yy with (YY u v) by (un; unfold fe_sqr; ring); replace xz with (XZ u v) by (un; unfold fe_sqr; ring) end;
       change (xrep (MkX (XX u v * YZ u v) (YY u v * XZ u v) (XZ u v * YZ u v) (XX u v * YY u v)) (XX u v / XZ u v, YY u v / YZ u v))).
      apply (rep_of p Pp); [exact (XZ_nz u v O)|exact (YZ_nz u v O U)|exact EO].
Qed.
Theorem iso4_mont_on Q : eon Q -> mon (psi4 Q).
Proof.
  destruct Q as [x y]. unfold EdGroup.eon, on_ed. intros H. unfold iso4_to_mont. destruct (fe_eq_dec p x f0) as [X|X].
  - destruct (fe_eq_dec p y f1); [exact I|]. unfold on_mont. ring.
  - assert (X2 : x * x <> f0) by (apply (mul_nz p Pp); assumption). assert (X3 : x * x * x <> f0) by (apply (mul_nz p Pp); assumption). un. unfold on_mont. pose proof (div_mul p Pp (y * y) _ X2) as E1. pose proof (div_mul p Pp ((f1 + f1 - x * x - y * y) * y) _ X3) as E2.
    set (u := y * y / (x * x)) in *. set (v := (f1 + f1 - x * x - y * y) * y / (x * x * x)) in *. clearbody u v. apply (mul_cancel p Pp _ _ ((x * x) * (x * x) * (x * x))); [repeat apply (mul_nz p Pp); assumption|].
    transitivity ((v * (x * x * x)) * (v * (x * x * x))); [ring|]. rewrite E2. transitivity ((u * (x * x)) * (u * (x * x)) * (u * (x * x)) + A4 * ((u * (x * x)) * (u * (x * x))) * (x * x) + (u * (x * x)) * ((x * x) * (x * x))); [|ring]. rewrite E1. clear - H Pp. nsatz.
Qed.
Theorem to_mont4_ok q Q : xrep q Q -> mrep (edwards_to_mont p c i true q) (psi4 Q).
Proof.
  destruct Q as [x y]. intros (O & Zn & X & Y & _). cbn [fst snd] in X, Y. unfold edwards_to_mont. rewrite B448, X, Y. cbn [Nat.eqb andb]. set (z := xz p q) in *. clearbody z. unfold iso4_to_mont. destruct (fe_eq_dec p x f0) as [X0|X0].
  - destruct (is_zero_spec p (x * z)) as [_|N]; [|destruct N; rewrite X0; ring]. cbn [andb]. assert (EQ : fe_equal (y * z) z = if fe_eq_dec p y f1 then true else false).
    { destruct (equal_spec p (y * z) z) as [E|E]; destruct (fe_eq_dec p y f1) as [E'|E']; try reflexivity; [destruct E'|destruct E; rewrite E'; ring]. apply (mul_cancel p Pp _ _ z Zn). rewrite E. ring. }
    rewrite EQ. destruct (fe_eq_dec p y f1) as [Y1|Y1]; cbn [negb andb]; [|constructor].
    assert (E : mge_zero p = MkM (f0 : fe) f0 true) by reflexivity. rewrite X0. unfold fe_sqr. replace (_ * _ * fe_inv _) with (f0 : fe) by ring. replace (_ * _ * fe_inv _) with (f0 : fe) by ring. rewrite <- E. constructor.
  - destruct (is_zero_spec p (x * z)) as [N|_]; [destruct (mul_nz p Pp _ _ X0 Zn N)|]. cbn [andb]. un. unfold fe_sqr.
    assert (N2 : x * z * (x * z) <> f0) by (repeat apply (mul_nz p Pp); assumption). assert (N3 : x * z * (x * z) * (x * z) <> f0) by (repeat apply (mul_nz p Pp); assumption). assert (X2 : x * x <> f0) by (apply (mul_nz p Pp); assumption). assert (X3 : x * x * x <> f0) by (apply (mul_nz p Pp); assumption).
    rewrite frac by assumption. replace (x * z * (x * z) * (x * z * (x * z) * (x * z))) with (x * z * (x * z) * (x * z) * (x * z * (x * z))) by ring. rewrite frac by assumption.
    assert (E1 : y * z * (y * z) / (x * z * (x * z)) = y * y / (x * x)). { symmetry. apply (eq_div p Pp _ _ _ N2). transitivity (y * y / (x * x) * (x * x) * (z * z)); [ring|]. rewrite (div_mul p Pp _ _ X2). ring. }
    assert (E2 : (z * z + z * z - x * z * (x * z) - y * z * (y * z)) * (y * z) / (x * z * (x * z) * (x * z)) = (f1 + f1 - x * x - y * y) * y / (x * x * x)).
    { symmetry. apply (eq_div p Pp _ _ _ N3). transitivity ((f1 + f1 - x * x - y * y) * y / (x * x * x) * (x * x * x) * (z * z * z)); [ring|]. rewrite (div_mul p Pp _ _ X3). ring. }
    rewrite E1, E2. constructor.
Qed.
End Isogeny.
