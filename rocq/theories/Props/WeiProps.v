(* C65 (Weierstrass part): the point formulas of ecc.c compute the chord and tangent group law. *)
From Coq Require Import Znumtheory.
From Verif.Base Require Import Prelude.
From Verif.Spec Require Import EcSpec.
From Verif.Model Require Import Field EcScalar Wei Primes.
From Verif.Proof Require Import PrimesProof FieldProof GrpMul WeiProof.
Section C.
Variable p : positive.
Variables a b : fe p.
Variable h : Z.
(* the curve y^2 = x^3 + a x + b over Z/p of EcSpec, and addition on it *)
Definition on (P : point (fe p)) : Prop := on_curve (fe p) fe_add fe_mul a b P.
Definition add (P Q : point (fe p)) : point (fe p) := padd (fe p) f0 f1 fe_add fe_mul fe_sub (fun x y => fe_mul x (fe_inv y)) (fe_eq_dec p) a P Q.
Definition neg (P : point (fe p)) : point (fe p) := pneg (fe p) fe_neg P.
(* the curves of the code: p an odd prime, the discriminant nonzero, and with cofactor 1 no point of order two *)
Record curve_ok : Prop := {
  cv_prime : prime (Zpos p);
  cv_odd : 2 < Zpos p;
  cv_ns : nonsingular (fe p) f0 f1 fe_add fe_mul a b;
  cv_no2 : h <= 1 -> forall x, ~ on (Aff x f0) }.
(* an affine structure stands for a point; (x, y, z) in Jacobian form stands for (x / z^2, y / z^3), and its aff flag may
   be set only when z = 1 *)
Definition wpoint (q : wge p) (P : point (fe p)) : Prop :=
  on P /\ match P with Inf => q = wge_zero p | Aff x y => q = MkW x y false end.
Definition jpoint (q : jge p) (P : point (fe p)) : Prop :=
  on P /\ match P with
  | Inf => q = jge_zero p
  | Aff x y => jz q <> f0 /\ jx q = fe_mul x (fe_mul (jz q) (jz q)) /\ jy q = fe_mul y (fe_mul (fe_mul (jz q) (jz q)) (jz q)) /\ jinf q = false /\ (jaff q = true -> jz q = f1)
  end.
Lemma wpoint_iff q P : wpoint q P <-> wrep p a b q P.
Proof.
  split.
  - intros [O E]. destruct P as [|x y]; subst q; constructor. exact O.
  - intros H. split; [exact (wrep_on _ _ _ _ _ H)|]. destruct H; reflexivity.
Qed.
Lemma jpoint_iff q P : jpoint q P <-> jrep p a b q P.
Proof.
  split.
  - intros [O E]. destruct P as [|x y]; [subst q; constructor|]. destruct q as [qx qy qz qi qf]. cbn [jx jy jz jinf jaff] in E. destruct E as (Z & EX & EY & EI & EA). subst qi. constructor; assumption.
  - intros H. split; [exact (jrep_on _ _ _ _ _ H)|]. destruct H as [|x y z af X Y Z EX EY AF O]; [reflexivity|]. cbn [jx jy jz jinf jaff]. tauto.
Qed.
Hypothesis C : curve_ok.
Local Notation Pp := (cv_prime C).
Local Notation P3 := (cv_odd C).
Local Notation ns := (cv_ns C).
Local Notation no2 := (cv_no2 C).
(* the law itself is an abelian group on the curve *)
Theorem C65_group : group_laws (point (fe p)) on add Inf neg.
Proof. exact (laws p Pp P3 a b h ns no2). Qed.
Ltac go := intros; repeat match goal with H : wpoint _ _ |- _ => apply wpoint_iff in H | H : jpoint _ _ |- _ => apply jpoint_iff in H end.
Ltac fin := try eassumption; try exact Pp; try exact P3; try exact ns; try exact no2.
(* affine: constant time formulas always answer; the variable time ones never fail an ASSERT *)
Theorem C65_affine q1 q2 P Q : wpoint q1 P -> wpoint q2 Q ->
  wpoint (wge_add p a q1 q2) (add P Q) /\ wpoint (wge_sub p a q1 q2) (add P (neg Q)) /\ wpoint (wge_dbl p a h q1) (add P P) /\ wpoint (wge_neg p q1) (neg P).
Proof.
  go. refine (conj _ (conj _ (conj _ _))); apply wpoint_iff; [eapply wge_add_ok|eapply wge_sub_ok|eapply wge_dbl_ok|eapply wge_neg_ok]; fin.
Qed.
Theorem C65_affine_var q1 q2 P Q : wpoint q1 P -> wpoint q2 Q ->
  (exists r, wge_add_var p a h q1 q2 = Some r /\ wpoint r (add P Q)) /\ (exists r, wge_sub_var p a h q1 q2 = Some r /\ wpoint r (add P (neg Q))) /\
  (exists r, wge_dbl_var p a h q1 = Some r /\ wpoint r (add P P)).
Proof.
  intros H1 H2. apply wpoint_iff in H1, H2. refine (conj _ (conj _ _)).
  - destruct (wge_add_var_ok p Pp P3 a b h no2 q1 q2 P Q H1 H2) as (r & E & R). exists r. split; [exact E|apply wpoint_iff; exact R].
  - destruct (wge_sub_var_ok p Pp P3 a b h no2 q1 q2 P Q H1 H2) as (r & E & R). exists r. split; [exact E|apply wpoint_iff; exact R].
  - destruct (wge_dbl_var_ok p Pp P3 a b h no2 q1 P H1) as (r & E & R). exists r. split; [exact E|apply wpoint_iff; exact R].
Qed.
(* Jacobian, variable time *)
Theorem C65_jacobian_var q1 q2 P Q : jpoint q1 P -> jpoint q2 Q ->
  jpoint (jge_add_var p a h q1 q2) (add P Q) /\ jpoint (jge_sub_var p a h q1 q2) (add P (neg Q)) /\ jpoint (jge_dbl_var p a h q1) (add P P) /\ jpoint (jge_neg p q1) (neg P).
Proof.
  go. refine (conj _ (conj _ (conj _ _))); apply jpoint_iff; [eapply jge_add_var_ok|eapply jge_sub_var_ok|eapply jge_dbl_var_ok|eapply jge_neg_ok]; fin.
Qed.
(* Jacobian, constant time *)
Theorem C65_jacobian q1 q2 P Q : jpoint q1 P -> jpoint q2 Q ->
  jpoint (jge_add p a q1 q2) (add P Q) /\ jpoint (jge_sub p a q1 q2) (add P (neg Q)) /\ jpoint (jge_dbl p a h q1) (add P P).
Proof.
  go. refine (conj _ (conj _ _)); apply jpoint_iff; [eapply jge_add_ok|eapply jge_sub_ok|eapply jge_dbl_ok]; fin.
Qed.
(* mixed Jacobian and affine *)
Theorem C65_mixed q1 q2 P Q : jpoint q1 P -> wpoint q2 Q ->
  jpoint (jge_mixed_add_var p a h q1 q2) (add P Q) /\ jpoint (jge_mixed_sub_var p a h q1 q2) (add P (neg Q)) /\
  jpoint (jge_mixed_add p a q1 q2) (add P Q) /\ jpoint (jge_mixed_sub p a q1 q2) (add P (neg Q)).
Proof.
  go. refine (conj _ (conj _ (conj _ _))); apply jpoint_iff; [eapply jge_mixed_add_var_ok|eapply jge_mixed_sub_var_ok|eapply jge_mixed_add_ok|eapply jge_mixed_sub_ok]; fin.
Qed.
(* conversions, singly and with the shared inversion *)
Theorem C65_convert q P : jpoint q P -> wpoint (wge_set_jge p q) P /\ (exists w, wge_set_jge_var p q = Some w /\ wpoint w P).
Proof.
  intros H. apply jpoint_iff in H. split; [apply wpoint_iff; eapply wge_set_jge_ok; try eassumption; try exact Pp; exact P3|].
  destruct (wge_set_jge_var_ok p Pp P3 a b q P H) as (w & E & W). exists w. split; [exact E|apply wpoint_iff; exact W].
Qed.
Theorem C65_convert_back q P : wpoint q P -> jpoint (jge_set_wge p q) P.
Proof. intros H. apply wpoint_iff in H. apply jpoint_iff. apply jge_set_wge_ok; [exact Pp|exact H]. Qed.
Theorem C65_convert_all l Ps : Forall2 jpoint l Ps -> exists ws, wge_set_jge_all_var p l = Some ws /\ Forall2 wpoint ws Ps.
Proof.
  intros H. assert (F : Forall2 (jrep p a b) l Ps) by (clear - H; induction H; constructor; [apply jpoint_iff|]; assumption).
  destruct (wge_set_jge_all_var_ok p Pp P3 a b l Ps F) as (ws & E & W). exists ws. split; [exact E|]. clear - W. induction W; constructor; [apply wpoint_iff|]; assumption.
Qed.
(* comparisons decide equality of points *)
Theorem C65_equal q1 q2 P Q : wpoint q1 P -> wpoint q2 Q -> (wge_equal p q1 q2 = true <-> P = Q).
Proof. intros H1 H2. apply wpoint_iff in H1, H2. eapply wge_equal_ok; eassumption. Qed.
Theorem C65_jequal q1 q2 P Q : jpoint q1 P -> jpoint q2 Q -> (jge_equal p q1 q2 = true <-> P = Q).
Proof. intros H1 H2. apply jpoint_iff in H1, H2. eapply jge_equal_ok; try eassumption; exact Pp. Qed.
End C.
(* y^2 = x^3 + 7 over Z/43: 31 points *)
Definition c43 := 43%positive.
Lemma c43_ok : curve_ok c43 (fe_of c43 0) (fe_of c43 7) 1.
Proof.
  constructor.
  - apply isprime_spec; [reflexivity|]. vm_compute. reflexivity.
  - reflexivity.
  - unfold nonsingular. intros E. apply (f_equal fv) in E. vm_compute in E. discriminate.
  - intros _ x. unfold on, on_curve. intros E. apply (f_equal fv) in E. revert E. destruct x as [v V]. 
    assert (R : 0 <= v < 43) by (apply andb_true_iff in V; destruct V as [V1 V2]; apply Z.leb_le in V1; apply Z.ltb_lt in V2; unfold c43 in V2; lia).
    assert (A : forallb (fun z => negb (fv (fe_mul (@f0 c43) f0) =? fv (fe_add (fe_add (fe_mul (fe_mul (fe_of c43 z) (fe_of c43 z)) (fe_of c43 z)) (fe_mul (fe_of c43 0) (fe_of c43 z))) (fe_of c43 7)))) (zseq 0 43) = true) by (vm_compute; reflexivity).
    rewrite forallb_forall in A. specialize (A v). rewrite negb_true_iff in A. intros E. rewrite <- (fe_of_fv c43 (MkFe c43 v V)) in E. cbn [fv] in E. 
    rewrite E, Z.eqb_refl in A. discriminate A. apply zseq_in. lia.
Qed.
Definition w43 (x y : Z) : wge c43 := MkW (fe_of c43 x) (fe_of c43 y) false.
Definition show (q : wge c43) : Z * Z * bool := (fv (wx q), fv (wy q), winf q).
Local Notation A0 := (fe_of c43 0).
(* (2, 12) doubled, added to another point with the same ordinate sum zero (the patched slope), to its inverse and to infinity *)
Example C65_ex : let G := w43 2 12 in let D := wge_dbl c43 A0 1 G in let J := jge_dbl c43 A0 1 (jge_set_wge c43 G) in
  show D = show (wge_add c43 A0 G G) /\ show D = show (wge_set_jge c43 (jge_add c43 A0 (jge_set_wge c43 G) (jge_set_wge c43 G))) /\
  wge_add c43 A0 G (wge_neg c43 G) = wge_zero c43 /\ show (wge_add c43 A0 (wge_zero c43) G) = (2, 12, false) /\
  jinf (jge_sub c43 A0 J J) = true /\ show (wge_set_jge c43 (jge_mixed_add c43 A0 J G)) = show (wge_add c43 A0 D G) /\
  winf (wge_add c43 A0 G (w43 12 31)) = false /\ wge_validate c43 A0 (fe_of c43 7) (w43 12 31) = true /\ show D <> (0, 0, true).
Proof. vm_compute. repeat split; try reflexivity; discriminate. Qed.

(* the axioms of every theorem above, listed at once *)
Definition WeiProps_all := (@C65_group, @C65_affine, @C65_affine_var, @C65_jacobian_var, @C65_jacobian, @C65_mixed, @C65_convert, @C65_convert_back,
  @C65_convert_all, @C65_equal, @C65_jequal).
Print Assumptions WeiProps_all.
