(* Decoding of ristretto elements: exactness, uniqueness, one encoding per coset. *)
From Coq Require Import Znumtheory.
From Verif.Base Require Import Prelude.
From Verif.Spec Require Import EcSpec EdSpec.
From Verif.Model Require Import NumTheory Field EcScalar Edwards Eddsa RistrettoImport.
From Verif.Proof Require Import Cong FieldProof EcCodec GrpMul EdGroup EdProof EdCodec RistrettoEqProof.
From Verif.Proof Require CurveMapsProof.
Section P.
Variable p : positive.
Hypothesis Pp : prime (Zpos p).
Hypothesis PR : Zpos p mod 4 = 3 \/ Zpos p mod 8 = 5.
Local Notation fe := (fe p).
Variables a d : fe.
Declare Scope fe_scope.
Delimit Scope fe_scope with fe.
Bind Scope fe_scope with Field.fe.
Local Infix "+" := fe_add : fe_scope.
Local Infix "*" := fe_mul : fe_scope.
Local Infix "-" := fe_sub : fe_scope.
Local Notation "- x" := (fe_neg x) : fe_scope.
Local Open Scope fe_scope.
Add Ring fring : (ring_th p).
Local Notation eadd := (eadd p a d).
Local Notation eon := (eon p a d).
Local Notation eneg := (eneg p).
Hypothesis K : complete fe f0 f1 fe_add fe_mul a d.
Hypothesis A2 : a * a = f1.
Hypothesis R1 : exists r : fe, r * r = a * d - f1.
Local Notation P3 := (P3 p Pp PR).
Local Notation w s := (a * (s * s)).
Local Notation V s := (a * (d * ((f1 + w s) * (f1 + w s))) - (f1 - w s) * (f1 - w s)).
Definition core (s x y : fe) : Prop := fe_is_odd s = false /\ fe_is_odd x = false /\ eon (x, y) /\ y * (f1 - w s) = f1 + w s.
Lemma T2 : (f1 + f1 : fe) <> f0. Proof. exact (proj2 (proj2 (proj2 K))). Qed.
Lemma A0 : a <> f0. Proof. exact (proj1 (proj2 K)). Qed.
Lemma f0_even : fe_is_odd (@f0 p) = false. Proof. unfold fe_is_odd. rewrite fv_f0. reflexivity. Qed.
Lemma u2_nz s y : y * (f1 - w s) = f1 + w s -> f1 - w s <> f0.
Proof. intros E Z. apply T2. transitivity ((f1 + w s) + (f1 - w s)); [ring|]. rewrite <- E, Z. ring. Qed.
Lemma v_eq s y : y * (f1 - w s) = f1 + w s -> V s = a * ((f1 - w s) * (f1 - w s)) * (d * (y * y) - a).
Proof. intros E. rewrite <- E. transitivity (a * ((f1 - w s) * (f1 - w s)) * (d * (y * y)) - f1 * ((f1 - w s) * (f1 - w s))); [ring|]. rewrite <- A2 at 3. ring. Qed.
Lemma v_nz s y : y * (f1 - w s) = f1 + w s -> V s <> f0.
Proof. intros E. rewrite (v_eq s y E). pose proof (u2_nz s y E) as U. repeat apply (mul_nz p Pp); try assumption; [exact A0|exact (den_nz p Pp a d K y)]. Qed.
Lemma on_v s x y : y * (f1 - w s) = f1 + w s -> (eon (x, y) <-> x * x * V s = (s + s) * (s + s)).
Proof.
  intros E. pose proof (u2_nz s y E) as U. rewrite (on_x2 p a d x y), (v_eq s y E). set (u := f1 - w s) in *.
  assert (N : a * (u * u) <> f0) by (repeat apply (mul_nz p Pp); try assumption; exact A0).
  assert (F : (y * y - f1) * (a * (u * u)) = (s + s) * (s + s)).
  { transitivity (a * ((y * u) * (y * u)) - a * (u * u)); [ring|]. rewrite E. unfold u. transitivity (a * a * ((s + s) * (s + s))); [ring|]. rewrite A2. ring. }
  rewrite <- F. rewrite <- (scale p Pp (x * x * (d * (y * y) - a)) (y * y - f1) _ N). replace (x * x * (a * (u * u) * (d * (y * y) - a))) with (x * x * (d * (y * y) - a) * (a * (u * u))) by ring. reflexivity.
Qed.
Lemma core_unique s x y x' y' : core s x y -> core s x' y' -> x = x' /\ y = y'.
Proof.
  intros (_ & X & O & E) (_ & X' & O' & E'). assert (Y : y = y') by (apply (mul_cancel p Pp y y' _ (u2_nz s y E)); congruence). subst y'. split; [|reflexivity].
  apply (root_parity p Pp P3); [|congruence]. apply (on_v s x y E) in O. apply (on_v s x' y E) in O'. apply (mul_cancel p Pp _ _ _ (v_nz s y E)). congruence.
Qed.
Lemma core_inj s s' x y : core s x y -> core s' x y -> s = s'.
Proof.
  intros (S & _ & _ & E) (S' & _ & _ & E'). apply (root_parity p Pp P3); [|congruence].
  assert (N : y + f1 <> f0). { intros Z. apply T2. transitivity (f1 + w s + (f1 - w s)); [ring|]. rewrite <- E. transitivity ((y + f1) * (f1 - w s)); [ring|]. rewrite Z. ring. }
  assert (W : forall t, y * (f1 - w t) = f1 + w t -> t * t * (y + f1) = a * (y - f1)).
  { intros t Et. transitivity (a * a * (t * t * (y + f1))); [rewrite A2; ring|]. transitivity (a * (y - f1 - (y * (f1 - w t) - (f1 + w t)))); [ring|]. rewrite Et. ring. }
  apply (mul_cancel p Pp _ _ _ N). rewrite (W s E), (W s' E'). reflexivity.
Qed.
Lemma core_x0 s y : core s f0 y -> y = f1.
Proof.
  intros (_ & _ & O & E). apply (on_v s f0 y E) in O. assert (S0 : s = f0). { assert (Q : (f1 + f1) * (f1 + f1) * (s * s) = f0) by (transitivity ((s + s) * (s + s)); [ring|rewrite <- O; ring]). apply (prod0 p Pp) in Q. destruct Q as [Q|Q]; [exfalso; exact (mul_nz p Pp _ _ T2 T2 Q)|]. apply (prod0 p Pp) in Q. tauto. }
  subst s. transitivity (y * (f1 - w f0)); [ring|]. rewrite E. ring.
Qed.
Lemma even_neg (x : fe) : fe_is_odd x = false -> fe_is_odd (- x) = false -> x = f0.
Proof. intros E N. destruct (is_zero_spec p x) as [Z|Z]; [exact Z|]. rewrite (odd_neg p Pp P3 x Z), E in N. discriminate. Qed.
Lemma back P Q : eon P -> eon Q -> P = eadd (eadd P (eneg Q)) Q.
Proof. intros O O'. rewrite (add_assoc p Pp a d K _ _ _ O (neg_on p a d Q O') O'), (neg_add p Pp a d K Q O'), (add_comm p a d), (add_zero p Pp a d K P O). reflexivity. Qed.
Lemma coset_2 s s' P Q : core s (fst P) (snd P) -> core s' (fst Q) (snd Q) -> fst P * snd Q = snd P * fst Q -> P = Q.
Proof.
  intros C C' E. pose proof C as (_ & X & O & _). pose proof C' as (_ & X' & O' & _). rewrite <- surjective_pairing in O, O'. apply (proj1 (diff_zero p Pp a d K P Q O O')) in E. pose proof (back P Q O O') as B. pose proof (add_on p Pp a d K _ _ O (neg_on p a d Q O')) as OR.
  destruct (eadd P (eneg Q)) as [r0 r]. cbn [fst] in E. subst r0. pose proof (sums_add p Pp a d K _ _ OR O') as S. rewrite <- B in S. destruct P as [x y], Q as [x' y']. destruct S as (S1 & S2). cbn [fst snd] in *.
  assert (RR : r * r = f1 * f1) by (change (a * (f0 * f0) + r * r = f1 + d * (f0 * f0 * (r * r))) in OR; transitivity (a * (f0 * f0) + r * r); [ring|rewrite OR; ring]).
  assert (Ex : x = r * x') by (transitivity (x * (f1 + d * (f0 * x' * (r * y')))); [ring|rewrite S1; ring]). assert (Ey : y = r * y') by (transitivity (y * (f1 - d * (f0 * x' * (r * y')))); [ring|rewrite S2; ring]).
  destruct (sq_roots p Pp r f1 RR) as [-> | ->]; [rewrite Ex, Ey; f_equal; ring|]. assert (Nx : x = - x') by (rewrite Ex; ring). rewrite Nx in X. pose proof (even_neg x' X' X) as Z. assert (Zx : x = f0) by (rewrite Nx, Z; ring). rewrite Z in *. rewrite Zx in *.
  rewrite (core_x0 s y C), (core_x0 s' y' C'). reflexivity.
Qed.
Lemma coset_4 s s' P Q : a = - f1 -> core s (fst P) (snd P) -> core s' (fst Q) (snd Q) -> fe_is_odd (fst P * snd P) = false -> fe_is_odd (fst Q * snd Q) = false -> snd P <> f0 -> snd Q <> f0 -> snd P * snd Q <> fst P * fst Q.
Proof.
  intros A C C' T T' Y Y' E. pose proof C as (_ & X & O & _). pose proof C' as (_ & X' & O' & _). rewrite <- surjective_pairing in O, O'. assert (E' : snd P * snd Q = - a * (fst P * fst Q)) by (rewrite A, E; ring). apply (proj2 (diff_zero p Pp a d K P Q O O')) in E'. pose proof (back P Q O O') as B. pose proof (add_on p Pp a d K _ _ O (neg_on p a d Q O')) as OR.
  destruct (eadd P (eneg Q)) as [r r0]. cbn [snd] in E'. subst r0. pose proof (sums_add p Pp a d K _ _ OR O') as S. rewrite <- B in S. destruct P as [x y], Q as [x' y']. destruct S as (S1 & S2). cbn [fst snd] in *.
  assert (RR : a * (r * r) = f1) by (change (a * (r * r) + f0 * f0 = f1 + d * (r * r * (f0 * f0))) in OR; transitivity (a * (r * r) + f0 * f0); [ring|rewrite OR; ring]).
  assert (Ex : x = r * y') by (transitivity (x * (f1 + d * (r * x' * (f0 * y')))); [ring|rewrite S1; ring]). assert (Ey : y = - a * (r * x')) by (transitivity (y * (f1 - d * (r * x' * (f0 * y')))); [ring|rewrite S2; ring]).
  assert (N : x * y = - (x' * y')) by (rewrite Ex, Ey; transitivity (- (a * (r * r) * (x' * y'))); [ring|rewrite RR; ring]). rewrite N in T. pose proof (even_neg _ T' T) as Z. apply (prod0 p Pp) in Z. destruct Z as [Z|Z]; [|exact (Y' Z)]. apply Y. rewrite Ey, Z. ring.
Qed.
(* the root *)
Lemma rsqrt_total (u v : fe) : exists z ok, fe_rsqrt p u v = Some (z, ok).
Proof. unfold fe_rsqrt, fe_isqrt. destruct (fe_invert v) as [t k]. destruct (root_total p PR (t * u)) as (z & ok & ->). eexists _, _. reflexivity. Qed.
Lemma rsqrt_sound (u v z : fe) : fe_rsqrt p u v = Some (z, true) -> v <> f0 /\ z * z * v = u.
Proof.
  unfold fe_rsqrt. destruct (fe_isqrt p u v) as [[r k]|] eqn:E; [|discriminate]. intros H. injection H as <- ->. rewrite (set_odd_sq p). exact (CurveMapsProof.isqrt_sound p Pp PR u v r E).
Qed.
Lemma rsqrt_complete (u v x : fe) : v <> f0 -> x * x * v = u -> exists z, fe_rsqrt p u v = Some (z, true).
Proof. intros N E. unfold fe_rsqrt. destruct (isqrt_ok p Pp PR u v N) as (r & ok & -> & _ & C). rewrite (C x E). eexists. reflexivity. Qed.
Lemma root_exists s x y : core s x y -> exists t, t * t * (V s * ((f1 - w s) * (f1 - w s))) = f1.
Proof.
  intros (_ & _ & O & E). pose proof (v_nz s y E) as NV. pose proof (u2_nz s y E) as NU. apply (on_v s x y E) in O. destruct (is_zero_spec p s) as [Z|Z].
  - destruct R1 as (r & R). assert (EV : V s = r * r) by (rewrite Z, R; ring). assert (NR : r <> f0) by (intros Q; apply NV; rewrite EV, Q; ring). exists (fe_inv r). rewrite EV. assert (U1 : f1 - w s = f1) by (rewrite Z; ring). rewrite U1.
    transitivity ((fe_inv r * r) * (fe_inv r * r)); [ring|]. rewrite (inv_l p Pp r NR). ring.
  - assert (NS : (s + s) * (f1 - w s) <> f0) by (apply (mul_nz p Pp); [|exact NU]; replace (s + s) with ((f1 + f1) * s) by ring; exact (mul_nz p Pp _ _ T2 Z)). exists (x * fe_inv ((s + s) * (f1 - w s))).
    set (i := fe_inv ((s + s) * (f1 - w s))). pose proof (inv_l p Pp _ NS) as I. fold i in I. transitivity ((x * x * V s) * (i * i * ((f1 - w s) * (f1 - w s)))); [ring|]. rewrite O. transitivity ((i * ((s + s) * (f1 - w s))) * (i * ((s + s) * (f1 - w s)))); [ring|]. rewrite I. ring.
Qed.
(* rge_import after the field element is read *)
Variable c : edw p.
Hypothesis Ca : x_a p c = a.
Hypothesis Cd : x_d p c = d.
Definition extra (x y : fe) : Prop := x_h p c = 8%Z -> fe_is_odd (x * y) = false /\ y <> f0.
Lemma import_ok raw : exists q ok, rge_import p c raw = Some (q, ok) /\
  (ok = true -> snd (xfe_import p raw) = true /\ exists x y, q = MkX x y f1 (x * y) /\ core (fst (xfe_import p raw)) x y /\ extra x y) /\
  (forall x y, snd (xfe_import p raw) = true -> core (fst (xfe_import p raw)) x y -> extra x y -> ok = true).
Proof.
  unfold rge_import, fe_sqr. rewrite Ca, Cd. destruct (xfe_import p raw) as [s canon]. cbn [fst snd]. rewrite !(mul_a_eq p a), (mul_d_eq p d). set (m := V s * ((f1 - w s) * (f1 - w s))). destruct (rsqrt_total f1 m) as (i & sq & EI). rewrite EI. cbv zeta.
  set (x := fe_set_odd ((s + s) * (i * (f1 - w s))) false). set (y := (f1 + w s) * (i * (i * (f1 - w s)) * V s)). eexists _, _. split; [reflexivity|].
  assert (CO : sq = true -> fe_is_odd s = false -> core s x y).
  { intros -> S. destruct (rsqrt_sound _ _ _ EI) as (_ & I). unfold m in I. assert (EY : y * (f1 - w s) = f1 + w s) by (unfold y; transitivity ((f1 + w s) * (i * i * (V s * ((f1 - w s) * (f1 - w s))))); [ring|rewrite I; ring]). split; [exact S|]. split; [|split; [|exact EY]].
    - unfold x. destruct (is_zero_spec p ((s + s) * (i * (f1 - w s)))) as [Z|Z]; [rewrite Z, (set_odd_zero p); exact f0_even|exact (set_odd_parity p Pp P3 _ _ Z)].
    - apply (on_v s x y EY). unfold x. rewrite (set_odd_sq p). transitivity ((s + s) * (s + s) * (i * i * (V s * ((f1 - w s) * (f1 - w s))))); [ring|rewrite I; ring]. }
  assert (FX : forall b : bool, (if (x_h p c =? 8)%Z then b && negb (fe_is_odd (x * y)) && negb (fe_is_zero y) else b) = true <-> b = true /\ extra x y).
  { intros b. unfold extra. destruct (Z.eqb_spec (x_h p c) 8) as [E8|N8]; [|split; [intros ->; split; [reflexivity|intros; contradiction]|tauto]]. rewrite !andb_true_iff, !negb_true_iff. destruct (is_zero_spec p y) as [Zy|Zy]; split; intros H; try (destruct H as (H & H'); destruct (H' E8)); try tauto; destruct H as (_ & H); discriminate. }
  rewrite FX. rewrite !andb_true_iff, negb_true_iff. split.
  - intros (((-> & S) & SQ) & EX). split; [reflexivity|]. exists x, y. split; [reflexivity|]. split; [exact (CO SQ S)|exact EX].
  - intros x' y' -> C EX. destruct (root_exists s x' y' C) as (t & Et). pose proof C as (S & _ & _ & E). destruct (rsqrt_complete f1 m t) as (z & Ez); [|exact Et|].
    + unfold m. pose proof (u2_nz s y' E). repeat apply (mul_nz p Pp); try assumption. exact (v_nz s y' E).
    + rewrite EI in Ez. injection Ez as _ ->. destruct (core_unique s x y x' y' (CO eq_refl S) C) as (Ex & Ey). rewrite <- Ex, <- Ey in EX. apply FX. split; [|exact EX]. rewrite S. reflexivity.
Qed.
End P.
