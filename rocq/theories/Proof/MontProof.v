(* The Montgomery point formulas of ecc.c implement chord and tangent addition, in every case; the ladder multiplies. *)
From Verif.Base Require Import Prelude.
From Coq Require Import Znumtheory.
From Verif.Model Require Import Encoding NumTheory Field EcScalar Wei Ecdsa Eddsa Mont.
From Verif.Spec Require Import EcSpec MontSpec.
From Verif.Proof Require Import Cong FieldProof FieldSquare FieldJacobi EcCodec EdCodec GrpMul MontGroup.
Section P.
Variable p : positive.
Hypothesis Pp : prime (Zpos p).
Hypothesis P5 : 3 < Zpos p.
Local Notation P := (Zpos p).
Local Notation fe := (Field.fe p).
Declare Scope fe_scope.
Delimit Scope fe_scope with fe.
Bind Scope fe_scope with Field.fe.
Local Notation "0" := (@f0 p) : fe_scope.
Local Notation "1" := (@f1 p) : fe_scope.
Local Infix "+" := fe_add : fe_scope.
Local Infix "*" := fe_mul : fe_scope.
Local Infix "-" := fe_sub : fe_scope.
Local Notation "- x" := (fe_neg x) : fe_scope.
Local Infix "/" := (fe_div p) : fe_scope.
Local Notation "2" := (1 + 1)%fe : fe_scope.
Local Notation "3" := (1 + 1 + 1)%fe : fe_scope.
Add Ring fring : (ring_th p).
Lemma p3 : 2 < P. Proof. clear - P5. lia. Qed.
Lemma two_nz : (2 <> 0)%fe.
Proof. intros E. apply (f_equal fv) in E. unfold f1 in E. rewrite <- of_add, fv_of, fv_f0 in E. rewrite Z.mod_small in E by (clear - P5; lia). discriminate. Qed.
Lemma three_nz : (3 <> 0)%fe.
Proof. intros E. apply (f_equal fv) in E. unfold f1 in E. rewrite <- !of_add, fv_of, fv_f0 in E. rewrite Z.mod_small in E by (clear - P5; lia). discriminate. Qed.
Variables A B : fe.
Hypothesis K : mont_ok fe f0 f1 fe_add fe_mul A B.
Definition madd' := madd fe f0 f1 fe_add fe_mul fe_sub (fe_div p) (fe_eq_dec p) A B.
Definition mon := on_mont fe fe_add fe_mul A B.
Definition mneg' := pneg fe fe_neg.
Definition zm := zmul (point fe) madd' Inf mneg'.
Lemma mlaw : group_laws (point fe) mon madd' Inf mneg'.
Proof. exact (mlaws fe f0 f1 fe_add fe_mul fe_sub (fe_div p) fe_neg fe_inv (field_th p Pp) (fe_eq_dec p) A B two_nz three_nz K). Qed.
Variables bi a24 : fe.
Hypothesis HB : bi = fe_inv B.
Hypothesis HA : (2 * 2 * a24 = A + 2)%fe.
Lemma bnz : B <> f0. Proof. exact (proj1 K). Qed.
Lemma mul_b x : mont_mul_b p B x = (x * B)%fe.
Proof. unfold mont_mul_b. destruct (equal_spec p B f1) as [-> |]; [ring|reflexivity]. Qed.
Lemma div_b x : mont_div_b p B bi x = (x * fe_inv B)%fe.
Proof.
  unfold mont_div_b. destruct (equal_spec p B f1) as [E|]; [|rewrite HB; reflexivity]. transitivity (x * (fe_inv B * B))%fe; [rewrite (inv_l p Pp B bnz); ring|rewrite E at 2; ring].
Qed.
Lemma y2_iff x y : (y * y)%fe = mont_solve_y2 p A B bi x <-> mon (Aff x y).
Proof.
  unfold mont_solve_y2, mon, on_mont. rewrite div_b. split; intros E.
  - rewrite E. transitivity ((x + x * x * A + x * x * x) * (fe_inv B * B))%fe; [ring|]. rewrite (inv_l p Pp B bnz). ring.
  - transitivity (B * (y * y) * fe_inv B)%fe; [|rewrite E; ring]. transitivity (y * y * (fe_inv B * B))%fe; [rewrite (inv_l p Pp B bnz); ring|ring].
Qed.
Lemma validate_xy_iff x y : mont_validate_xy p A B bi x y = true <-> mon (Aff x y).
Proof. unfold mont_validate_xy. rewrite equal_iff. apply y2_iff. Qed.
Lemma validate_x_iff x : mont_validate_x p A B bi x = true <-> exists y, mon (Aff x y).
Proof.
  unfold mont_validate_x. rewrite (FieldJacobi.square_exists p Pp p3). split; intros (y & E); exists y; apply y2_iff; exact E.
Qed.
(* ---- affine points ---- *)
Inductive mrep : mge p -> point fe -> Prop :=
| mr_inf : mrep (mge_zero p) Inf
| mr_aff x y : mrep (MkM x y false) (Aff x y).
Lemma mge_validate_ok q Q : mrep q Q -> mge_validate p A B bi q = true <-> mon Q.
Proof. intros [|x y]; unfold mge_validate; cbn [mx my minf mge_zero]; [rewrite Bool.orb_true_r; cbn; tauto|]. rewrite Bool.orb_false_r. apply validate_xy_iff. Qed.
Lemma mge_equal_ok q r Q R : mrep q Q -> mrep r R -> mge_equal p q r = true <-> Q = R.
Proof.
  intros [|x y] [|x' y']; unfold mge_equal; cbn [mx my minf mge_zero negb orb andb]; try (split; [discriminate|discriminate]); [tauto|].
  rewrite Bool.orb_false_r, Bool.andb_true_iff, !equal_iff. split; [intros (-> & ->); reflexivity|]. intros E. split; congruence.
Qed.
Lemma mge_neg_ok q Q : mrep q Q -> mrep (mge_neg p q) (mneg' Q).
Proof. intros [|x y]; [|constructor]. unfold mge_neg, mge_zero. cbn [mx my minf mneg' pneg]. replace (- 0)%fe with (@f0 p) by ring. constructor. Qed.
Lemma mul3_eq (x : fe) : fe_mul3 x = (3 * x)%fe.
Proof. unfold fe_mul3. rewrite of_mul, fe_of_fv. change 3%Z with (1 + 1 + 1)%Z. rewrite !of_add. reflexivity. Qed.
Lemma sub_0 (x y : fe) : (x - y = 0)%fe -> x = y.
Proof. intros E. transitivity (x - y + y)%fe; [ring|]. rewrite E. ring. Qed.
Lemma div_eq n d l : d <> f0 -> (n = l * d)%fe -> (n / d = l)%fe.
Proof. intros N ->. unfold fe_div. transitivity (l * (fe_inv d * d))%fe; [ring|]. rewrite (inv_l p Pp d N). ring. Qed.
Lemma div_inv n d : (n * fe_inv d = n / d)%fe. Proof. reflexivity. Qed.
Lemma third_eq l x1 y1 x2 : mthird fe fe_mul fe_sub A B l x1 y1 x2 =
  Aff (l * l * B - A - x1 - x2)%fe ((x1 - (l * l * B - A - x1 - x2)) * l - y1)%fe.
Proof. unfold mthird. cbv zeta. f_equal; ring. Qed.
Lemma mge_dbl_ok q Q : mrep q Q -> mrep (mge_dbl p A B q) (madd' Q Q).
Proof.
  intros [|x y].
  - unfold mge_dbl, mge_zero. cbn [mx my minf orb]. constructor.
  - unfold mge_dbl, madd', madd. cbn [mx my minf orb]. destruct (fe_eq_dec p x x) as [_|N]; [|destruct (N eq_refl)]. destruct (fe_eq_dec p y y) as [_|N]; [|destruct (N eq_refl)].
    destruct (is_zero_spec p y) as [Y|Y]; (destruct (fe_eq_dec p y f0) as [Y'|Y']; [|try contradiction]); try contradiction; [constructor|].
    rewrite !mul_b, mul3_eq, third_eq. set (l := ((3 * (x * x) + (x + x) * A + 1) * fe_inv ((y + y) * B))%fe).
    replace ((3 * (x * x) + 2 * (A * x) + 1) / (2 * (B * y)))%fe with l. 2:{ unfold l. rewrite div_inv. f_equal; ring. }
    constructor.
Qed.
Lemma mge_add_ok q r Q R : mrep q Q -> mrep r R -> mrep (mge_add p A B q r) (madd' Q R).
Proof.
  intros [|x y] [|x' y'].
  - unfold mge_add, fe_invert, mge_zero. cbn [mx my minf negb orb andb]. rewrite Bool.orb_true_r. constructor.
  - unfold mge_add, fe_invert, mge_zero. cbn [mx my minf negb orb andb]. rewrite Bool.andb_false_r. constructor.
  - unfold mge_add, fe_invert, mge_zero. cbn [mx my minf negb orb andb]. rewrite Bool.andb_false_r. constructor.
  - unfold mge_add. cbn [mx my minf negb orb andb]. pose proof (invert_flag p Pp) as IF.
    set (hh := if fe_is_zero (x' - x)%fe && fe_is_zero (y' - y)%fe then mont_mul_b p B (y + y)%fe else (x' - x)%fe).
    destruct (fe_invert hh) as [hi ok] eqn:EI. specialize (IF hh p3). rewrite EI in IF. cbn [snd] in IF. unfold fe_invert in EI. injection EI as <- _. subst ok. rewrite Bool.negb_involutive, Bool.andb_true_r, Bool.orb_false_r.
    unfold madd', madd. unfold hh. clear hh. destruct (fe_eq_dec p x x') as [<- |NX].
    + replace (x - x)%fe with (@f0 p) by ring. destruct (is_zero_spec p (@f0 p)) as [_|N]; [|destruct (N eq_refl)]. cbn [andb]. destruct (fe_eq_dec p y y') as [<- |NY].
      * replace (y - y)%fe with (@f0 p) by ring. destruct (is_zero_spec p (@f0 p)) as [_|N]; [|destruct (N eq_refl)]. rewrite !mul_b, mul3_eq. destruct (fe_eq_dec p y f0) as [Y|Y].
        -- assert (Z : ((y + y) * B = 0)%fe) by (rewrite Y; ring). rewrite Z. destruct (is_zero_spec p (@f0 p)) as [_|N]; [|destruct (N eq_refl)]. constructor.
        -- destruct (is_zero_spec p ((y + y) * B)%fe) as [E|N].
           { exfalso. apply (mul_nz p Pp (2 * y)%fe B); [apply (mul_nz p Pp); [exact two_nz|exact Y]|exact bnz|]. rewrite <- E. ring. }
           rewrite third_eq. set (l := ((3 * (x * x) + (x + x) * A + 1) * fe_inv ((y + y) * B))%fe).
           replace ((3 * (x * x) + 2 * (A * x) + 1) / (2 * (B * y)))%fe with l. 2:{ unfold l. rewrite div_inv. f_equal; ring. }
           constructor.
      * destruct (is_zero_spec p (y' - y)%fe) as [E|N]; [destruct NY; symmetry; apply sub_0; exact E|]. destruct (is_zero_spec p (@f0 p)) as [_|N']; [|destruct (N' eq_refl)]. constructor.
    + destruct (is_zero_spec p (x' - x)%fe) as [E|N]; [destruct NX; symmetry; apply sub_0; exact E|]. cbn [andb]. destruct (is_zero_spec p (x' - x)%fe) as [E|_]; [contradiction|]. rewrite !mul_b, third_eq. set (l := ((y' - y) * fe_inv (x' - x))%fe).
      replace ((y - y') / (x - x'))%fe with l. 2:{ symmetry. apply div_eq; [intros E; apply NX; apply sub_0; exact E|]. transitivity (- ((y' - y) * (fe_inv (x' - x) * (x' - x))))%fe; [rewrite (inv_l p Pp _ N); ring|unfold l; ring]. }
      constructor.
Qed.
Lemma mge_sub_ok q r Q R : mrep q Q -> mrep r R -> mrep (mge_sub p A B q r) (madd' Q (mneg' R)).
Proof. intros X Y. apply mge_add_ok; [exact X|apply mge_neg_ok; exact Y]. Qed.
Lemma set_xy_ok x y : let '(q, ok) := mge_set_xy p A B bi x y in (ok = true <-> mon (Aff x y)) /\ mrep q (if ok then Aff x y else Inf).
Proof.
  unfold mge_set_xy. pose proof (validate_xy_iff x y) as V. destruct (mont_validate_xy p A B bi x y); cbn [negb]; (split; [exact V|]); constructor.
Qed.
Lemma set_x_ok x s : P mod 4 = 3 \/ P mod 8 = 5 -> s = -1 \/ s = 0 \/ s = 1 -> exists q ok, mge_set_x p A B bi x s = Some (q, ok) /\
  (ok = true -> exists y, mon (Aff x y) /\ mrep q (Aff x y) /\ (s = -1 \/ fv y mod 2 = s)) /\
  (ok = false -> mrep q Inf /\ forall y, mon (Aff x y) -> s = 1 /\ y = f0).
Proof.
  intros PR S. unfold mge_set_x. destruct (root_total p PR (mont_solve_y2 p A B bi x)) as (y & ok & E). rewrite E. cbv iota beta.
  assert (OK : ok = true -> mon (Aff x y)) by (intros ->; apply y2_iff; exact (sqrt_sound p _ _ E)).
  assert (NO : ok = false -> forall z, ~ mon (Aff x z)).
  { intros -> z H. apply y2_iff in H. destruct (root_complete p Pp PR z) as (r & E'). rewrite H in E'. rewrite E' in E. discriminate. }
  destruct (Z.eqb_spec s (-1)) as [S1|S1].
  - exists (MkM (if ok then x else f0) (if ok then y else f0) (negb ok)), ok. split; [reflexivity|]. destruct ok; cbn [negb]; (split; [|]); intros Q; try discriminate.
    + exists y. refine (conj (OK eq_refl) (conj _ (or_introl S1))). constructor.
    + split; [constructor|]. intros z H. destruct (NO eq_refl z H).
  - set (y' := fe_set_odd y (s =? 1)). set (ok' := ok && negb (fe_is_zero y' && negb (s =? 0))). exists (MkM (if ok' then x else f0) (if ok' then y' else f0) (negb ok')), ok'. split; [reflexivity|].
    assert (MY : ok = true -> mon (Aff x y')). { intros Q. apply y2_iff. unfold y'. rewrite (set_odd_sq p). apply y2_iff. apply OK. exact Q. }
    assert (ZY : fe_is_zero y' = fe_is_zero y). { destruct (is_zero_spec p y) as [Z|Z]; [unfold y'; rewrite Z, (set_odd_zero p); destruct (is_zero_spec p (@f0 p)); congruence|]. destruct (is_zero_spec p y') as [Z'|Z']; [|reflexivity]. exfalso. pose proof (set_odd_sq p y (s =? 1)) as Q. fold y' in Q. rewrite Z' in Q. apply (mul_nz p Pp y y Z Z). rewrite <- Q. ring. }
    split; intros Q.
    + unfold ok' in Q. apply Bool.andb_true_iff in Q. destruct Q as (Q1 & Q2). exists y'. split; [exact (MY Q1)|]. split; [unfold ok'; rewrite Q1, Q2; constructor|]. right.
      destruct (is_zero_spec p y) as [Z|Z].
      * rewrite ZY in Q2. cbn [andb] in Q2. destruct (Z.eqb_spec s 0) as [S0|S0]; [|discriminate]. unfold y'. rewrite Z, (set_odd_zero p), S0, (fv_f0 p). reflexivity.
      * rewrite (odd_mod p). unfold y'. rewrite (set_odd_parity p Pp p3 y (s =? 1) Z). destruct (Z.eqb_spec s 1); lia.
    + split; [rewrite Q; constructor|]. intros z H. destruct ok; [|destruct (NO eq_refl z H)]. unfold ok' in Q. cbn [andb] in Q. apply Bool.negb_false_iff, Bool.andb_true_iff in Q. destruct Q as (Q1 & Q2).
      destruct (Z.eqb_spec s 0) as [S0|S0]; [discriminate|]. split; [lia|]. destruct (is_zero_spec p y') as [Z'|]; [|discriminate]. specialize (MY eq_refl). apply y2_iff in H, MY.
      destruct (is_zero_spec p z) as [|NZ]; [assumption|]. exfalso. apply (mul_nz p Pp z z NZ NZ). rewrite H, <- MY, Z'. ring.
Qed.
(* ---- projective points ---- *)
Definition prep (q : pge p) (Q : point fe) : Prop := xrep fe f0 fe_mul (px p q) (pz p q) Q.
Lemma prep_zero : prep (pge_zero p) Inf. Proof. split; [reflexivity|exact (f1_nz p Pp)]. Qed.
Lemma prep_aff x y : prep (MkP x f1) (Aff x y). Proof. split; [exact (f1_nz p Pp)|]. cbn [px pz]. ring. Qed.
Lemma prep_mge q Q : mrep q Q -> prep (pge_set_mge p q) Q.
Proof. intros [|x y]; [exact prep_zero|]. apply prep_aff. Qed.
Lemma prep_neg q Q : prep q Q -> prep q (mneg' Q). Proof. destruct Q; exact (fun H => H). Qed.
Lemma is_zero_ok q Q : prep q Q -> pge_is_zero p q = true <-> Q = Inf.
Proof. unfold pge_is_zero. destruct Q as [|x y]; intros (N & E); destruct (is_zero_spec p (pz p q)); split; intros; try congruence; try discriminate. Qed.
(* equality of the x coordinates *)
Lemma pge_equal_ok q r Q R : mon Q -> mon R -> prep q Q -> prep r R -> pge_equal p q r = true <-> Q = R \/ Q = mneg' R.
Proof.
  intros HQ HR X Y. unfold pge_equal, pge_is_zero. destruct Q as [|x y], R as [|x' y']; destruct X as (N & E), Y as (N' & E');
    destruct (is_zero_spec p (pz p q)) as [Z|Z], (is_zero_spec p (pz p r)) as [Z'|Z']; try contradiction; cbn [negb orb andb].
  - tauto.
  - split; [discriminate|]. cbn. intros [C|C]; discriminate.
  - split; [discriminate|]. cbn. intros [C|C]; discriminate.
  - rewrite Bool.orb_false_r, equal_iff, E, E'. cbn [mneg' pneg]. split.
    + intros C. assert (X : x = x'). { apply sub_0. destruct (is_zero_spec p (x - x')%fe) as [D|D]; [exact D|]. exfalso. apply (mul_nz p Pp _ _ D (mul_nz p Pp _ _ Z Z')). transitivity (x * pz p q * pz p r - x' * pz p r * pz p q)%fe; [ring|]. rewrite C. ring. }
      subst x'. destruct (msame_x fe f0 f1 fe_add fe_mul fe_sub (fe_div p) fe_neg fe_inv (field_th p Pp) (fe_eq_dec p) A B K x y y' HQ HR) as [-> | ->]; [left|right]; reflexivity.
    + intros C. assert (X : x = x') by (destruct C as [C|C]; injection C; auto). rewrite X. ring.
Qed.
Lemma norm_ok X Z Q : prep (MkP X Z) Q -> prep (MkP (if fe_is_zero Z then f1 else X) Z) Q.
Proof. intros H. destruct (is_zero_spec p Z) as [E|E]; [|exact H]. destruct Q as [|x y]; destruct H as (H1 & H2); cbn [px pz] in *; [|contradiction]. split; [exact E|exact (f1_nz p Pp)]. Qed.
Lemma pge_dbl_ok q Q : mon Q -> prep q Q -> prep (pge_dbl p a24 q) (madd' Q Q).
Proof.
  intros H X. unfold pge_dbl, mont_mul_a24. cbv zeta. apply norm_ok.
  exact (xrep_dbl fe f0 f1 fe_add fe_mul fe_sub (fe_div p) fe_neg fe_inv (field_th p Pp) (fe_eq_dec p) A B two_nz K a24 _ _ Q HA H X).
Qed.
Lemma ladder_ok p1 q r x1 y1 Q R af : mon (Aff x1 y1) -> x1 <> f0 -> prep p1 (Aff x1 y1) -> (af = true -> pz p p1 = f1) -> mon Q -> mon R -> madd' R (mneg' Q) = Aff x1 y1 ->
  prep q Q -> prep r R -> prep (fst (pge_ladder p a24 p1 q r af)) (madd' Q Q) /\ prep (snd (pge_ladder p a24 p1 q r af)) (madd' Q R).
Proof.
  intros H1 N1 X1 AF HQ HR HD XQ XR. split.
  - exact (xrep_dbl fe f0 f1 fe_add fe_mul fe_sub (fe_div p) fe_neg fe_inv (field_th p Pp) (fe_eq_dec p) A B two_nz K a24 _ _ Q HA HQ XQ).
  - pose proof (xrep_diff fe f0 f1 fe_add fe_mul fe_sub (fe_div p) fe_neg fe_inv (field_th p Pp) (fe_eq_dec p) A B two_nz three_nz K x1 y1 _ _ _ _ _ _ Q R H1 N1 X1 HQ HR HD XQ XR) as D.
    unfold prep, pge_ladder. cbn [fst snd px pz]. destruct af; [|exact D]. rewrite (AF eq_refl) in D. match type of D with xrep _ _ _ (?u * f1)%fe _ _ => replace (u * f1)%fe with u in D by ring end. exact D.
Qed.
Lemma zmon k Q : mon Q -> mon (zm k Q). Proof. apply (zm_on _ _ _ _ _ mlaw). Qed.
Lemma testbit_split k i : k mod 2 ^ Z.of_nat (S i) = (if Z.testbit k (Z.of_nat i) then 2 ^ Z.of_nat i else 0%Z) + k mod 2 ^ Z.of_nat i.
Proof.
  rewrite Nat2Z.inj_succ, Z.pow_succ_r by lia. rewrite (Z.mul_comm 2). rewrite Z.rem_mul_r by (try apply Z.pow_nonzero; lia). rewrite <- Z.testbit_spec' by lia. destruct (Z.testbit k (Z.of_nat i)); cbn [Z.b2z]; ring.
Qed.
Lemma climb_ok p1 x1 y1 af k : mon (Aff x1 y1) -> x1 <> f0 -> prep p1 (Aff x1 y1) -> (af = true -> pz p p1 = f1) ->
  forall i m u v sw, prep (if sw : bool then v else u) (zm m (Aff x1 y1)) -> prep (if sw then u else v) (zm (m + 1) (Aff x1 y1)) ->
  let '(u', v', sw') := mont_climb p a24 p1 af k u v sw i in
  prep (if sw' then v' else u') (zm (m * 2 ^ Z.of_nat i + k mod 2 ^ Z.of_nat i) (Aff x1 y1)).
Proof.
  intros H1 N1 X1 AF. set (G := Aff x1 y1) in *. induction i as [|i IH]; intros m u v sw U V.
  - cbn [mont_climb]. change (2 ^ Z.of_nat 0) with 1. rewrite Z.mod_1_r. replace (m * 1 + 0) with m by ring. exact U.
  - cbn [mont_climb]. set (bit := Z.testbit k (Z.of_nat i)).
    pose proof (zmon m G H1) as M0. pose proof (zmon (m + 1) G H1) as M1.
    assert (D : madd' (zm (m + 1) G) (mneg' (zm m G)) = G).
    { unfold zm. rewrite <- (zm_neg _ _ _ _ _ mlaw) by exact H1. rewrite <- (zm_add _ _ _ _ _ mlaw) by exact H1. replace (m + 1 + - m) with 1 by ring. apply (zm_1 _ _ _ _ _ mlaw). exact H1. }
    assert (D' : madd' (zm m G) (mneg' (zm (m + 1) G)) = Aff x1 (- y1)%fe).
    { unfold zm. rewrite <- (zm_neg _ _ _ _ _ mlaw) by exact H1. rewrite <- (zm_add _ _ _ _ _ mlaw) by exact H1. replace (m + - (m + 1)) with (-1) by ring. rewrite (zm_m1 _ _ _ _ _ mlaw) by exact H1. reflexivity. }
    assert (H1' : mon (Aff x1 (- y1)%fe)) by exact (gl_inv _ _ _ _ _ mlaw G H1).
    set (a := if sw then v else u) in *. set (b := if sw then u else v) in *.
    assert (SW : pge_swap p u v (xorb sw bit) = if bit then (b, a) else (a, b)) by (unfold a, b, pge_swap; destruct sw, bit; reflexivity).
    rewrite SW. rewrite testbit_split. fold bit.
    replace (m * 2 ^ Z.of_nat (S i) + ((if bit then 2 ^ Z.of_nat i else 0%Z) + k mod 2 ^ Z.of_nat i)) with ((2 * m + (if bit then 1 else 0)) * 2 ^ Z.of_nat i + k mod 2 ^ Z.of_nat i) by (rewrite Nat2Z.inj_succ, Z.pow_succ_r by lia; destruct bit; ring).
    destruct bit.
    + destruct (ladder_ok p1 b a x1 (- y1)%fe (zm (m + 1) G) (zm m G) af H1' N1 (prep_neg _ _ X1) AF M1 M0 D' V U) as (L1 & L2). destruct (pge_ladder p a24 p1 b a af) as [u' v']. cbn [fst snd] in L1, L2.
      apply (IH (2 * m + 1) u' v' true).
      * replace (zm (2 * m + 1) G) with (madd' (zm (m + 1) G) (zm m G)); [exact L2|]. unfold zm. rewrite <- (zm_add _ _ _ _ _ mlaw) by exact H1. f_equal. ring.
      * replace (zm (2 * m + 1 + 1) G) with (madd' (zm (m + 1) G) (zm (m + 1) G)); [exact L1|]. unfold zm. rewrite <- (zm_add _ _ _ _ _ mlaw) by exact H1. f_equal. ring.
    + destruct (ladder_ok p1 a b x1 y1 (zm m G) (zm (m + 1) G) af H1 N1 X1 AF M0 M1 D U V) as (L1 & L2). destruct (pge_ladder p a24 p1 a b af) as [u' v']. cbn [fst snd] in L1, L2.
      apply (IH (2 * m + 0) u' v' false).
      * replace (zm (2 * m + 0) G) with (madd' (zm m G) (zm m G)); [exact L1|]. unfold zm. rewrite <- (zm_add _ _ _ _ _ mlaw) by exact H1. f_equal. ring.
      * replace (zm (2 * m + 0 + 1) G) with (madd' (zm m G) (zm (m + 1) G)); [exact L2|]. unfold zm. rewrite <- (zm_add _ _ _ _ _ mlaw) by exact H1. f_equal. ring.
Qed.
Theorem mul_ok q x y k af : mon (Aff x y) -> x <> f0 -> prep q (Aff x y) -> (af = true -> pz p q = f1) ->
  prep (mont_mul p a24 q k af) (zm (k mod 2 ^ Z.of_nat (fbits p)) (Aff x y)).
Proof.
  intros H N X AF. unfold mont_mul. pose proof (climb_ok q x y af k H N X AF (fbits p) 0 (pge_zero p) q false prep_zero) as C.
  destruct (mont_climb p a24 q af k (pge_zero p) q false (fbits p)) as [[u v] sw]. specialize (C ltac:(replace (0 + 1)%Z with 1%Z by ring; unfold zm; rewrite (zm_1 _ _ _ _ _ mlaw) by exact H; exact X)).
  rewrite Z.mul_0_l, Z.add_0_l in C. assert (E : fst (pge_swap p u v sw) = if sw then v else u) by (destruct sw; reflexivity). destruct (pge_swap p u v sw) as [w w']. cbn [fst] in E. rewrite E. apply norm_ok. destruct (if sw then v else u) as [X' Z']. exact C.
Qed.
(* ---- base points whose x coordinate is zero, or infinity ---- *)
Lemma climb_z p1 af k : (px p p1 = f0 \/ pz p p1 = f0) -> forall i u v sw, pz p u = f0 -> pz p v = f0 -> let '(u', v', _) := mont_climb p a24 p1 af k u v sw i in pz p u' = f0 /\ pz p v' = f0.
Proof.
  intros Z1. induction i as [|i IH]; intros u v sw U V; cbn [mont_climb]; [split; assumption|].
  set (bit := Z.testbit k (Z.of_nat i)). destruct (pge_swap p u v (xorb sw bit)) as [u1 v1] eqn:E. assert (W : pz p u1 = f0 /\ pz p v1 = f0) by (unfold pge_swap in E; destruct (xorb sw bit); injection E as <- <-; split; assumption).
  destruct W as (W1 & W2). apply IH; unfold pge_ladder, mont_mul_a24; cbn [pz]; rewrite W1.
  - ring.
  - rewrite W2. ring.
Qed.
Lemma mul_zero_base q k af : px p q = f0 \/ pz p q = f0 -> pge_is_zero p (mont_mul p a24 q k af) = true /\ px p (mont_mul p a24 q k af) = f1.
Proof.
  intros Z1. unfold mont_mul. assert (F : exists f, fbits p = S f).
  { pose proof (sc_bitlen_blen P eq_refl) as E. fold (fbits p) in E. exists (Nat.pred (fbits p)). unfold DsaSpec.blen in E. pose proof (Z.log2_nonneg P). destruct (fbits p); [lia|reflexivity]. }
  destruct F as (f & ->). cbn [mont_climb]. set (bit := Z.testbit k (Z.of_nat f)).
  assert (S1 : forall u v, pge_swap p (pge_zero p) q (xorb false bit) = (u, v) -> let '(u', v') := pge_ladder p a24 q u v af in pz p u' = f0 /\ pz p v' = f0).
  { intros u v E. unfold pge_swap in E. unfold pge_ladder, mont_mul_a24, pge_zero in *. destruct bit; injection E as <- <-; cbn [px pz]; destruct Z1 as [-> | ->]; split; ring. }
  destruct (pge_swap p (pge_zero p) q (xorb false bit)) as [u v]. specialize (S1 u v eq_refl). destruct (pge_ladder p a24 q u v af) as [u' v']. destruct S1 as (S1 & S2).
  pose proof (climb_z q af k Z1 f u' v' bit S1 S2) as C. destruct (mont_climb p a24 q af k u' v' bit f) as [[u2 v2] sw]. destruct C as (C1 & C2).
  assert (E : pz p (fst (pge_swap p u2 v2 sw)) = f0) by (destruct sw; assumption). destruct (pge_swap p u2 v2 sw) as [w w']. cbn [fst] in E. unfold pge_is_zero. cbn [px pz]. rewrite E. destruct (is_zero_spec p (@f0 p)) as [_|N]; [split; reflexivity|destruct (N eq_refl)].
Qed.
(* the point (0, 0) has order two, and no other point has x = 0 *)
Lemma x0_y y : mon (Aff f0 y) -> y = f0.
Proof.
  intros H. unfold mon, on_mont in H. destruct (is_zero_spec p y) as [|N]; [assumption|]. exfalso. apply (mul_nz p Pp B (y * y)%fe bnz (mul_nz p Pp y y N N)). rewrite H. ring.
Qed.
Lemma x0_double y : mon (Aff f0 y) -> zm 2 (Aff f0 y) = Inf.
Proof.
  intros H. unfold zm. change 2 with (2 * 1). rewrite (zm_double _ _ _ _ _ mlaw) by exact H. rewrite (zm_1 _ _ _ _ _ mlaw) by exact H. rewrite (x0_y y H).
  unfold madd', madd. destruct (fe_eq_dec p (@f0 p) f0) as [_|N]; [reflexivity|destruct (N eq_refl)].
Qed.
(* the ladder, on every base point with an even scalar *)
Theorem mul_even q x y k af : mon (Aff x y) -> prep q (Aff x y) -> (af = true -> pz p q = f1) -> Z.even (k mod 2 ^ Z.of_nat (fbits p)) = true ->
  prep (mont_mul p a24 q k af) (zm (k mod 2 ^ Z.of_nat (fbits p)) (Aff x y)).
Proof.
  intros H X AF EV. destruct (fe_eq_dec p x f0) as [E|N]; [|apply mul_ok; assumption]. subst x. apply Z.even_spec in EV. destruct EV as (j & ->).
  replace (zm (2 * j) (Aff f0 y)) with (@Inf fe).
  - destruct (mul_zero_base q k af) as (Z1 & Z2). { left. destruct X as (_ & ->). ring. } unfold pge_is_zero in Z1. split; [destruct (is_zero_spec p (pz p (mont_mul p a24 q k af))); [assumption|discriminate]|]. rewrite Z2. exact (f1_nz p Pp).
  - unfold zm. rewrite Z.mul_comm, (zm_mul _ _ _ _ _ mlaw) by exact H. pose proof (x0_double y H) as D2. unfold zm in D2. rewrite D2. symmetry. apply (zm_e _ _ _ _ _ mlaw).
Qed.
(* ---- cofactor, small order and torsion ---- *)
Lemma iter_dbl q Q m : mon Q -> prep q Q -> prep (Nat.iter m (pge_dbl p a24) q) (zm (2 ^ Z.of_nat m) Q).
Proof.
  intros H X. induction m as [|m IH].
  - change (2 ^ Z.of_nat 0) with 1. unfold zm. rewrite (zm_1 _ _ _ _ _ mlaw) by exact H. exact X.
  - rewrite Nat2Z.inj_succ, Z.pow_succ_r by lia. unfold zm. rewrite (zm_double _ _ _ _ _ mlaw) by exact H. apply (pge_dbl_ok (Nat.iter m (pge_dbl p a24) q)); [apply zmon; exact H|exact IH].
Qed.
Lemma mulh_ok q Q j : mon Q -> prep q Q -> 0 <= j -> exists r, pge_mulh p a24 (2 ^ j) q = Some r /\ prep r (zm (2 ^ j) Q).
Proof.
  intros H X J. unfold pge_mulh. assert (PP : 0 < 2 ^ j) by (apply Z.pow_pos_nonneg; lia). rewrite (proj2 (Z.eqb_neq _ 0)) by lia.
  assert (L : Z.land (2 ^ j) (2 ^ j - 1) = 0). { replace (2 ^ j - 1) with (Z.ones j) by (rewrite Z.ones_equiv; lia). rewrite Z.land_ones by lia. apply Z.mod_same. lia. }
  rewrite L. cbn [negb orb Z.eqb]. eexists. split; [reflexivity|]. rewrite Z.log2_pow2 by lia. pose proof (iter_dbl q Q (Z.to_nat j) H X) as I. rewrite Z2Nat.id in I by lia. exact I.
Qed.
Lemma is_small_ok q Q j : mon Q -> prep q Q -> 0 <= j -> exists b, pge_is_small p a24 (2 ^ j) q = Some b /\ (b = true <-> Q <> Inf /\ zm (2 ^ j) Q = Inf).
Proof.
  intros H X J. unfold pge_is_small. destruct (mulh_ok q Q j H X J) as (r & E & R). rewrite E. eexists. split; [reflexivity|]. rewrite Bool.andb_true_iff, (is_zero_ok r _ R), Bool.negb_true_iff. pose proof (is_zero_ok q Q X) as Z. destruct (pge_is_zero p q); split; intros (U & V).
  - discriminate.
  - destruct U. apply Z. reflexivity.
  - split; [intros E'; apply Z in E'; discriminate|exact U].
  - split; [exact V|reflexivity].
Qed.
Lemma has_torsion_ok n q x y : mon (Aff x y) -> prep q (Aff x y) -> Z.odd n = true -> 0 < n < 2 ^ Z.of_nat (fbits p) -> pge_has_torsion p a24 n q = true <-> zm n (Aff x y) <> Inf.
Proof.
  intros H X ON BN. unfold pge_has_torsion. destruct (fe_eq_dec p x f0) as [E|N].
  - subst x. destruct (is_zero_spec p (px p q)) as [Z|Z]; [|destruct Z; destruct X as (_ & ->); ring]. rewrite Bool.orb_true_r. split; [|reflexivity]. intros _ C.
    rewrite (Z.odd_spec n) in ON. destruct ON as (j & E). rewrite E in C. unfold zm in C. rewrite (zm_succ _ _ _ _ _ mlaw) in C by exact H. rewrite Z.mul_comm, (zm_mul _ _ _ _ _ mlaw) in C by exact H. pose proof (x0_double y H) as D2. unfold zm in D2. rewrite D2 in C. rewrite (zm_e _ _ _ _ _ mlaw) in C. discriminate.
  - pose proof (mul_ok q x y n false H N X ltac:(discriminate)) as M. rewrite Z.mod_small in M by lia. pose proof (is_zero_ok _ _ M) as Z. destruct (is_zero_spec p (px p q)) as [C|_].
    + exfalso. destruct X as (X1 & X2). apply (mul_nz p Pp x (pz p q) N X1). rewrite <- X2. exact C.
    + rewrite Bool.orb_false_r, Bool.negb_true_iff. destruct (pge_is_zero p (mont_mul p a24 q n false)); split; intros U; try discriminate; [destruct U; apply Z; reflexivity|intros V; apply Z in V; discriminate|reflexivity].
Qed.
(* ---- pge_validate: whether the x coordinate is one of the curve ---- *)
Lemma pge_validate_ok q x : pz p q <> f0 -> px p q = (x * pz p q)%fe -> pge_validate p A B bi q = true <-> exists y, mon (Aff x y).
Proof.
  intros N E. rewrite <- validate_x_iff. unfold pge_validate, mont_validate_x, mont_solve_y2. rewrite E, !div_b. set (z := pz p q) in *.
  replace ((x * z * (x * z) * (x * z) + A * (x * z * (x * z)) * z + x * z * (z * z)) * fe_inv B * z)%fe with ((x + x * x * A + x * x * x) * fe_inv B * (z * z * (z * z)))%fe by ring.
  rewrite (square_mul_sq p Pp p3 _ (z * z)%fe) by (apply (mul_nz p Pp); assumption). reflexivity.
Qed.
Lemma pge_validate_inf q : pz p q = f0 -> pge_validate p A B bi q = true.
Proof.
  intros E. unfold pge_validate. rewrite E. match goal with |- fe_is_square ?u = _ => replace u with (@f0 p) by ring end. apply (square_0 p Pp p3).
Qed.
(* ---- back to affine ---- *)
Lemma set_pge_ok q Q : P mod 4 = 3 \/ P mod 8 = 5 -> mon Q -> prep q Q -> exists r, mge_set_pge p A B bi q (-1) = Some (r, true) /\ (mrep r Q \/ mrep r (mneg' Q)).
Proof.
  intros PR H X. unfold mge_set_pge. pose proof (invert_flag p Pp (pz p q) p3) as IF. destruct (fe_invert (pz p q)) as [i ok] eqn:EI. cbn [snd] in IF. unfold fe_invert in EI. injection EI as <- _. subst ok. rewrite Bool.negb_involutive.
  destruct Q as [|x y].
  - destruct X as (Z & NX). rewrite Z, (inv_0 p p3). replace (px p q * f0)%fe with (@f0 p) by ring. destruct (set_x_ok f0 (-1) PR (or_introl eq_refl)) as (r & ok & E & S1 & S2). rewrite E. destruct ok.
    + destruct (S1 eq_refl) as (y & M & R & _). pose proof (x0_y y M) as Y. subst y. inversion R; subst. cbn [mx my]. destruct (is_zero_spec p (@f0 p)) as [_|N]; [|destruct (N eq_refl)]. eexists. split; [reflexivity|]. left. constructor.
    + exfalso. destruct (S2 eq_refl) as (_ & S). destruct (S f0) as (C & _); [|discriminate]. unfold mon, on_mont. ring.
  - destruct X as (Z & EX). rewrite EX. replace (x * pz p q * fe_inv (pz p q))%fe with x. 2:{ transitivity (x * (fe_inv (pz p q) * pz p q))%fe; [rewrite (inv_l p Pp _ Z)|]; ring. }
    destruct (set_x_ok x (-1) PR (or_introl eq_refl)) as (r & ok & E & S1 & S2). rewrite E. destruct (is_zero_spec p (pz p q)) as [C|_]; [contradiction|]. destruct ok.
    + destruct (S1 eq_refl) as (y' & M & R & _). inversion R; subst. cbn [mx my]. eexists. split; [reflexivity|].
      destruct (msame_x fe f0 f1 fe_add fe_mul fe_sub (fe_div p) fe_neg fe_inv (field_th p Pp) (fe_eq_dec p) A B K x y' y M H) as [-> | ->]; [left|right]; constructor.
    + exfalso. destruct (S2 eq_refl) as (_ & S). destruct (S y H) as (C & _). discriminate.
Qed.
End P.
