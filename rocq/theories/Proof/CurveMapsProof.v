(* The maps of Model/CurveMaps.v always land on the curve, compute the relations of Spec/MapSpec.v, and their inverses invert. *)
From Coq Require Import Znumtheory Setoid Ncring Cring Integral_domain NsatzTactic.
From Verif.Base Require Import Prelude.
From Verif.Model Require Import Encoding NumTheory Field EcScalar Wei Ecdsa Edwards Eddsa Mont Convert CurveMaps.
From Verif.Spec Require Import EcSpec EdSpec MontSpec MapSpec.
From Verif.Proof Require Import Cong FieldProof FieldNsatz FieldSquare FieldJacobi EcCodec EdGroup EdCodec WeiProof MontProof.
Section P.
Variable p : positive.
Hypothesis Pp : prime (Zpos p).
Local Notation P := (Zpos p).
Hypothesis PR : (P mod 4 = 3 \/ P mod 8 = 5)%Z.
Local Notation fe := (Field.fe p).
#[local] Existing Instance fe_ops.
#[local] Existing Instance fe_ring.
#[local] Existing Instance fe_cring.
#[local] Instance dom' : @Integral_domain fe f0 f1 fe_add fe_mul fe_sub fe_neg eq (fe_ops p) (fe_ring p) (fe_cring p) := fe_dom p Pp.
Declare Scope fe_scope.
Delimit Scope fe_scope with fe.
Bind Scope fe_scope with Field.fe.
Local Infix "+" := fe_add : fe_scope.
Local Infix "*" := fe_mul : fe_scope.
Local Infix "-" := fe_sub : fe_scope.
Local Notation "- x" := (fe_neg x) : fe_scope.
Local Open Scope fe_scope.
Add Ring fring : (ring_th p).
Local Notation P3 := (EdCodec.P3 p Pp PR).
Local Notation sq := (square fe fe_mul).
Local Notation gm := (g_mont fe fe_add fe_mul).
Local Notation gw := (g_wei fe fe_add fe_mul).
Lemma sq_iff (x : fe) : fe_is_square x = true <-> sq x. Proof. exact (FieldJacobi.square_exists p Pp P3 x). Qed.
Lemma sq_spec (x : fe) : reflect (sq x) (fe_is_square x).
Proof. destruct (fe_is_square x) eqn:E; [apply ReflectT; apply sq_iff; exact E|apply ReflectF; intros S; apply sq_iff in S; congruence]. Qed.
Lemma nonsq_pow (x : fe) : ~ sq x -> fe_pow x ((P - 1) / 2) = - f1.
Proof. intros N. destruct (fe_eq_dec p (fe_pow x ((P - 1) / 2)) (- f1)) as [E|E]; [exact E|]. exfalso. apply N, sq_iff, (square_iff p). exact E. Qed.
Lemma nonsq_mul (x y : fe) : ~ sq x -> ~ sq y -> sq (x * y).
Proof.
  intros X Y. apply (FieldJacobi.square_exists p Pp P3). apply (square_iff p). assert (0 <= (P - 1) / 2)%Z by (destruct (p_half p Pp P3); lia). rewrite (pow_mul p) by assumption. rewrite (nonsq_pow x X), (nonsq_pow y Y).
  intros E. apply (neg_neq p Pp P3). rewrite <- E. ring.
Qed.
Lemma sq_0 : sq f0. Proof. exists f0. ring. Qed.
Lemma nonsq_nz (x : fe) : ~ sq x -> x <> f0. Proof. intros N ->. exact (N sq_0). Qed.
(* x s^2 is a square only if x is or s = 0 *)
Lemma nonsq_scale (x s r : fe) : ~ sq x -> r * r = x * (s * s) -> s = f0.
Proof.
  intros N E. destruct (is_zero_spec p s) as [Z|Z]; [exact Z|]. exfalso. apply N. exists (r * fe_inv s). pose proof (inv_l p Pp s Z) as I.
  transitivity (r * r * (fe_inv s * fe_inv s)); [ring|]. rewrite E. transitivity (x * (fe_inv s * s) * (fe_inv s * s)); [ring|]. rewrite I. ring.
Qed.
Definition parity (y u : fe) : Prop := y = f0 \/ fe_is_odd y = fe_is_odd u.
Lemma finish_ok (x y2 u : fe) : sq y2 -> exists y, map_finish p x y2 u = Some (x, y) /\ y * y = y2 /\ parity y u.
Proof.
  intros (s & <-). unfold map_finish. destruct (root_complete p Pp PR s) as (r & E). rewrite E. exists (fe_set_odd r (fe_is_odd u)). split; [reflexivity|]. split.
  - rewrite set_odd_sq. exact (sqrt_sound p _ _ E).
  - destruct (is_zero_spec p r) as [-> |N]; [left; apply set_odd_zero|right; exact (set_odd_parity p Pp P3 r _ N)].
Qed.
Lemma finish_eq (x y u : fe) : fe_is_odd y = fe_is_odd u -> map_finish p x (y * y) u = Some (x, y).
Proof.
  intros O. destruct (finish_ok x (y * y) u (ex_intro _ y eq_refl)) as (r & E & R & Q). rewrite E. f_equal. f_equal. destruct Q as [-> |Q].
  - destruct (is_zero_spec p y) as [-> |N]; [reflexivity|]. exfalso. apply (mul_nz p Pp _ _ N N). rewrite <- R. ring.
  - apply (root_parity p Pp P3); [exact R|congruence].
Qed.
Lemma isqrt_sound (n d r : fe) : fe_isqrt p n d = Some (r, true) -> d <> f0 /\ r * r * d = n.
Proof.
  unfold fe_isqrt. destruct (fe_invert d) as [t ok] eqn:E. intros H. destruct (fe_sqrt (t * n)) as [[z s]|] eqn:S; [|discriminate]. injection H as -> H. apply andb_true_iff in H. destruct H as (-> & ->).
  assert (N : d <> f0). { intros ->. pose proof (invert_flag p Pp f0 P3) as F. rewrite E in F. cbn [snd] in F. destruct (is_zero_spec p (@f0 p)); [discriminate|contradiction]. }
  split; [exact N|]. rewrite (sqrt_sound p _ _ S). unfold fe_invert in E. injection E as <- _. transitivity (n * (fe_inv d * d)); [ring|]. rewrite (inv_l p Pp d N). ring.
Qed.
Lemma isqrt_complete (n d u : fe) : d <> f0 -> u * u * d = n -> exists r, fe_isqrt p n d = Some (r, true) /\ r * r = u * u.
Proof.
  intros N E. unfold fe_isqrt. pose proof (invert_flag p Pp d P3) as F. destruct (fe_invert d) as [t ok] eqn:T. cbn [snd] in F. destruct (is_zero_spec p d) as [|_]; [contradiction|]. subst ok.
  unfold fe_invert in T. injection T as <- _. destruct (root_complete p Pp PR u) as (r & R). replace (fe_inv d * n) with (u * u).
  - rewrite R. exists r. split; [reflexivity|exact (sqrt_sound p _ _ R)].
  - rewrite <- E. transitivity (u * u * (fe_inv d * d)); [rewrite (inv_l p Pp d N); ring|ring].
Qed.
(* ---- Elligator 2 on y^2 = x^3 + a x^2 + b x ---- *)
Section Ell.
Variables a b z : fe.
Hypothesis Z : ~ sq z.
Variable solve : fe -> fe.
Hypothesis SV : forall x, solve x = gm a b x.
Local Notation spec := (ell2 fe f0 f1 fe_add fe_mul fe_sub fe_neg a b z).
Lemma sel (x1 x2 : fe) : first_square fe fe_mul (gm a b) x1 [x2] (if fe_is_square (solve x1) then x1 else x2).
Proof. cbn. rewrite SV. destruct (sq_spec (gm a b x1)) as [S|S]; [left|right]; split; auto. Qed.
Theorem ell_fwd u : exists x y, elligator2 p solve a z u = Some (x, y) /\ y * y = gm a b x /\ spec u x /\ parity y u.
Proof.
  unfold elligator2, fe_sqr. cbv zeta. set (t := u * u * z + f1). set (t' := if fe_is_zero t then f1 else t). set (x1 := - a * fe_inv t').
  assert (T' : t' <> f0). { unfold t'. destruct (is_zero_spec p t); [exact (f1_nz p Pp)|assumption]. }
  assert (X1 : x1 * t' = - a). { unfold x1. transitivity (- a * (fe_inv t' * t')); [ring|]. rewrite (inv_l p Pp _ T'). ring. }
  clearbody x1. set (x2 := - x1 - a). assert (S : sq (if fe_is_square (solve x1) then solve x1 else solve x2)).
  { destruct (sq_spec (solve x1)) as [S|S]; [exact S|]. rewrite SV in *. unfold t' in X1. destruct (is_zero_spec p t) as [E|E].
    - replace x2 with (@f0 p). { exists f0. unfold g_mont. ring. } unfold x2. replace x1 with (- a); [ring|]. rewrite <- X1. ring.
    - destruct (nonsq_mul _ _ S Z) as (s & Es). exists (s * u). transitivity (s * s * (u * u)); [ring|]. rewrite Es. unfold x2, g_mont, t in *. clear - X1 Pp. nsatz. }
  destruct (finish_ok (if fe_is_square (solve x1) then x1 else x2) _ u S) as (y & E & Y & Q). exists (if fe_is_square (solve x1) then x1 else x2), y. rewrite E. split; [reflexivity|]. split; [|split; [|exact Q]].
  - rewrite Y. destruct (fe_is_square (solve x1)); apply SV.
  - exists x1. unfold t' in X1. replace (f1 + z * (u * u)) with t by (unfold t; ring). split; [|split; [|apply sel]]; intros H; destruct (is_zero_spec p t) as [E0|E0]; try contradiction; [exact X1|rewrite <- X1; ring].
Qed.
(* x1 of the map, from its equation *)
Lemma x1_eq u x1 : f1 + z * (u * u) <> f0 -> x1 * (f1 + z * (u * u)) = - a -> elligator2 p solve a z u =
  map_finish p (if fe_is_square (solve x1) then x1 else - x1 - a) (if fe_is_square (solve x1) then solve x1 else solve (- x1 - a)) u.
Proof.
  intros N E. unfold elligator2, fe_sqr. cbv zeta. replace (u * u * z + f1) with (f1 + z * (u * u)) by ring. set (t := f1 + z * (u * u)) in *. destruct (is_zero_spec p t) as [|_]; [contradiction|].
  replace (- a * fe_inv t) with x1; [reflexivity|]. rewrite <- E. transitivity (x1 * (fe_inv t * t)); [rewrite (inv_l p Pp t N); ring|ring].
Qed.
Hypothesis A0 : a <> f0.
Lemma neg_nz : - a <> f0. Proof. intros E. apply A0. transitivity (- - a); [ring|]. rewrite E. ring. Qed.
Hypothesis ND : forall s, s * s <> a * a - (f1 + f1) * ((f1 + f1) * b).
Lemma no_root x : x * x + a * x + b <> f0.
Proof. intros E. apply (ND (x + x + a)). clear - E Pp. nsatz. Qed.
Theorem ell_inv x y hint u : y * y = gm a b x -> invert2 p a z x y hint = Some (u, true) -> u <> f0 -> elligator2 p solve a z u = Some (x, y).
Proof.
  intros C E NU. unfold invert2 in E. destruct (if Z.odd hint then (x, x + a) else (x + a, x)) as [n d] eqn:ND'. destruct (fe_isqrt p (- n) (d * z)) as [[r ok]|] eqn:I; [|discriminate]. injection E as E ->.
  apply isqrt_sound in I. destruct I as (D & R). assert (U2 : u * u = r * r) by (rewrite <- E; apply set_odd_sq).
  assert (PU : fe_is_odd y = fe_is_odd u). { rewrite <- E. symmetry. apply (set_odd_parity p Pp P3). intros ->. apply NU. rewrite <- E. apply set_odd_zero. }
  rewrite <- U2 in R. clear E U2 r. destruct (Z.odd hint); injection ND' as <- <-.
  - assert (X : - (x + a) * (f1 + z * (u * u)) = - a) by (clear - R Pp; nsatz). assert (T : f1 + z * (u * u) <> f0) by (intros E; apply neg_nz; rewrite <- X, E; ring).
    rewrite (x1_eq u _ T X). replace (- - (x + a) - a) with x by ring. rewrite !SV. destruct (sq_spec (gm a b (- (x + a)))) as [(s & S)|S]; [|rewrite <- C; exact (finish_eq x y u PU)]. exfalso.
    assert (Y : y * y = z * ((s * u) * (s * u))). { rewrite C. transitivity (s * s * (z * (u * u))); [|ring]. rewrite S. unfold g_mont. clear - R Pp. nsatz. }
    pose proof (nonsq_scale z _ y Z Y) as SU. assert (S0 : s = f0). { destruct (is_zero_spec p s) as [E|N]; [exact E|]. exfalso. exact (mul_nz p Pp _ _ N NU SU). }
    apply (mul_nz p Pp _ _ A0 (no_root x)). subst s. unfold g_mont in *. clear - S C Y Pp. nsatz.
  - assert (X : x * (f1 + z * (u * u)) = - a) by (clear - R Pp; nsatz). assert (T : f1 + z * (u * u) <> f0) by (intros E; apply neg_nz; rewrite <- X, E; ring).
    rewrite (x1_eq u _ T X). rewrite !SV, <- C. replace (fe_is_square (y * y)) with true; [exact (finish_eq x y u PU)|]. symmetry. exact (square_sq p Pp P3 y).
Qed.
(* and every image of a regular u is inverted by one of the two hints *)
Theorem ell_complete u x y : f1 + z * (u * u) <> f0 -> elligator2 p solve a z u = Some (x, y) -> exists hint u', (hint = 0 \/ hint = 1)%Z /\ invert2 p a z x y hint = Some (u', true) /\ u' * u' = u * u /\ (y <> f0 -> u' = u).
Proof.
  intros T E. destruct (ell_fwd u) as (x' & y' & E' & _ & (x1 & X1 & _ & FS) & Q). rewrite E in E'. injection E' as <- <-. specialize (X1 T).
  assert (N1 : x1 <> f0) by (intros ->; apply neg_nz; rewrite <- X1; ring). pose proof (nonsq_nz z Z) as NZ.
  assert (F : forall n d hint, (if Z.odd hint then (x, x + a) else (x + a, x)) = (n, d) -> d * z <> f0 -> u * u * (d * z) = - n -> exists u', invert2 p a z x y hint = Some (u', true) /\ u' * u' = u * u /\ (y <> f0 -> u' = u)).
  { intros n d hint H D R. unfold invert2. rewrite H. destruct (isqrt_complete (- n) (d * z) u D R) as (r & -> & R2). eexists. split; [reflexivity|]. rewrite set_odd_sq. split; [exact R2|]. intros Y. destruct Q as [|Q]; [contradiction|].
    apply (root_parity p Pp P3); [rewrite set_odd_sq; exact R2|]. destruct (is_zero_spec p r) as [-> |NR]; [|rewrite (set_odd_parity p Pp P3 r _ NR); exact Q].
    rewrite set_odd_zero. replace u with (@f0 p); [reflexivity|]. destruct (is_zero_spec p u) as [-> |NU]; [reflexivity|]. exfalso. apply (mul_nz p Pp _ _ NU NU). rewrite <- R2. ring. }
  cbn in FS. destruct FS as [(_ & ->)|(_ & ->)].
  - destruct (F (x1 + a) x1 0%Z eq_refl (mul_nz p Pp _ _ N1 NZ)) as (u' & H); [clear - X1 Pp; nsatz|]. exists 0%Z, u'. split; [left; reflexivity|exact H].
  - destruct (F (- x1 - a) (- x1 - a + a) 1%Z eq_refl) as (u' & H); [|clear - X1 Pp; nsatz|exists 1%Z, u'; split; [right; reflexivity|exact H]].
    replace (- x1 - a + a) with (- x1) by ring. apply (mul_nz p Pp _ _); [|exact NZ]. intros E0. apply N1. transitivity (- - x1); [ring|]. rewrite E0. ring.
Qed.
End Ell.
(* ---- Weierstrass curves ---- *)
Section Wei.
Variables a b z ai zi i2 i3 c : fe.
Lemma two_nz' : f1 + f1 <> (f0 : fe).
Proof. intros E. apply (f_equal fv) in E. unfold fe_add in E. rewrite fv_of, (fv_f1 p Pp), (fv_f0 p) in E. rewrite Z.mod_small in E by (pose proof P3; lia). discriminate. Qed.
Lemma mul_a_eq' x : wei_mul_a p a x = x * a.
Proof.
  unfold wei_mul_a, zero_a, three_a. destruct (is_zero_spec p a) as [-> |N]; [ring|]. destruct (equal_spec p a (fe_neg (fe_set_int p 3))) as [E|N']; [|reflexivity].
  rewrite (mul3_eq p). rewrite E, (three_eq p). ring.
Qed.
Lemma solve_eq x : wei_solve_y2 p a b x = gw a b x. Proof. unfold wei_solve_y2, fe_sqr, g_wei. rewrite mul_a_eq'. ring. Qed.
Lemma wsel (x1 x2 : fe) : first_square fe fe_mul (gw a b) x1 [x2] (if fe_is_square (wei_solve_y2 p a b x1) then x1 else x2).
Proof. cbn. rewrite solve_eq. destruct (sq_spec (gw a b x1)) as [S|S]; [left|right]; split; auto. Qed.
Section Sswu.
Hypothesis AN : a <> f0.
Hypothesis BN : b <> f0.
Hypothesis Z : ~ sq z.
Hypothesis AI : ai = fe_inv a.
Hypothesis ZI : zi = fe_inv z.
Hypothesis SP : forall x, z * a * x = b -> sq (gw a b x).
Local Notation spec := (sswu fe f0 f1 fe_add fe_mul fe_neg a b z).
Local Notation w u := (z * (u * u)).
Local Notation t u := (w u * w u + w u).
Lemma ai_ok : ai * a = f1. Proof. rewrite AI. exact (inv_l p Pp a AN). Qed.
Lemma zi_ok : zi * z = f1. Proof. rewrite ZI. exact (inv_l p Pp z (nonsq_nz z Z)). Qed.
(* what wei_sswu computes, from the equation of x1 *)
Lemma sswu_x1 u x1 : (t u <> f0 -> a * x1 * t u = - b * (t u + f1)) -> (t u = f0 -> z * a * x1 = b) -> wei_sswu p a b z ai zi u =
  match map_finish p (if fe_is_square (wei_solve_y2 p a b x1) then x1 else w u * x1) (if fe_is_square (wei_solve_y2 p a b x1) then wei_solve_y2 p a b x1 else wei_solve_y2 p a b (w u * x1)) u with
  | Some (x, y) => Some (MkW x y false) | None => None end.
Proof.
  intros E1 E2. unfold wei_sswu, fe_sqr. cbv zeta. replace (z * z * (u * u * (u * u)) + w u) with (t u) by ring. pose proof (invert_flag p Pp (t u) P3) as F. destruct (fe_invert (t u)) as [i nz] eqn:I. cbn [snd] in F.
  unfold fe_invert in I. injection I as <- _. subst nz. pose proof ai_ok as A1. pose proof zi_ok as Z1. destruct (is_zero_spec p (t u)) as [E|N]; cbn [negb].
  - replace (b * zi * ai) with x1; [reflexivity|]. rewrite <- (E2 E). clear - A1 Z1 Pp. nsatz.
  - replace (- b * ai * (fe_inv (t u) + f1)) with x1; [reflexivity|]. specialize (E1 N). pose proof (inv_l p Pp _ N) as I. set (T := t u) in *. set (iT := fe_inv T) in *. clear - E1 I A1 Pp. nsatz.
Qed.
Lemma x1_exists u : exists x1, (t u <> f0 -> a * x1 * t u = - b * (t u + f1)) /\ (t u = f0 -> z * a * x1 = b).
Proof.
  pose proof ai_ok as A1. pose proof zi_ok as Z1. destruct (is_zero_spec p (t u)) as [E|N].
  - exists (b * zi * ai). split; [contradiction|]. intros _. clear - A1 Z1 Pp. nsatz.
  - exists (- b * ai * (fe_inv (t u) + f1)). split; [|contradiction]. intros _. pose proof (inv_l p Pp _ N) as I. set (T := t u) in *. set (iT := fe_inv T) in *. clear - I A1 Pp. nsatz.
Qed.
Lemma g_x2 u x1 : t u <> f0 -> a * x1 * t u = - b * (t u + f1) -> gw a b (w u * x1) = z * gw a b x1 * ((z * (u * u * u)) * (z * (u * u * u))).
Proof.
  intros N E. unfold g_wei. set (W := w u) in *. transitivity (W * W * W * (x1 * x1 * x1 + a * x1 + b)); [|unfold W; ring]. clearbody W. clear - E Pp. nsatz.
Qed.
Theorem sswu_fwd u : exists x y, wei_sswu p a b z ai zi u = Some (MkW x y false) /\ y * y = gw a b x /\ spec u x /\ parity y u.
Proof.
  destruct (x1_exists u) as (x1 & E1 & E2). rewrite (sswu_x1 u x1 E1 E2). assert (S : sq (if fe_is_square (wei_solve_y2 p a b x1) then wei_solve_y2 p a b x1 else wei_solve_y2 p a b (w u * x1))).
  { destruct (sq_spec (wei_solve_y2 p a b x1)) as [S|S]; [exact S|]. rewrite solve_eq in *. destruct (is_zero_spec p (t u)) as [E|N]; [exfalso; exact (S (SP x1 (E2 E)))|].
    rewrite (g_x2 u x1 N (E1 N)). destruct (nonsq_mul _ _ Z S) as (s & <-). exists (s * (z * (u * u * u))). ring. }
  destruct (finish_ok (if fe_is_square (wei_solve_y2 p a b x1) then x1 else w u * x1) _ u S) as (y & -> & Y & Q). eexists _, y. split; [reflexivity|]. split; [|split; [|exact Q]].
  - rewrite Y. destruct (fe_is_square (wei_solve_y2 p a b x1)); apply solve_eq.
  - exists x1. split; [exact E1|]. split; [exact E2|apply wsel].
Qed.
Theorem sswu_inv x y hint u : y * y = gw a b x -> y <> f0 -> wei_sswui p a b z (MkW x y false) hint = Some (u, true) -> u <> f0 -> wei_sswu p a b z ai zi u = Some (MkW x y false).
Proof.
  intros C NY E NU. unfold wei_sswui, fe_sqr in E. cbn [wx wy winf] in E. rewrite !mul_a_eq', !(WeiProof.mul3_eq p) in E. cbv zeta in E.
  destruct (fe_sqrt _) as [[k ok]|] eqn:K; [|discriminate]. match type of E with match ?X with _ => _ end = _ => destruct X as [[r ok']|] eqn:R; [|discriminate] end. injection E as E EO.
  apply andb_true_iff in EO. destruct EO as (EO & _). apply andb_true_iff in EO. destruct EO as (-> & ->). apply (sqrt_sound p) in K. apply isqrt_sound in R. destruct R as (D & R).
  assert (U2 : u * u = r * r) by (rewrite <- E; apply set_odd_sq).
  assert (PU : fe_is_odd y = fe_is_odd u). { rewrite <- E. symmetry. apply (set_odd_parity p Pp P3). intros ->. apply NU. rewrite <- E. apply set_odd_zero. }
  rewrite <- U2 in R. clear E U2 r. pose proof (nonsq_nz z Z) as ZN. set (m := x * a + b) in *. assert (K' : k * k = m * m - (f1 + f1) * ((f1 + f1) * (b * m))) by (rewrite K; unfold m; ring).
  assert (T2 : f1 + f1 <> (f0 : fe)). { exact two_nz'. }
  assert (U3 : w u <> f0) by exact (mul_nz p Pp _ _ ZN (mul_nz p Pp _ _ NU NU)). destruct (2 <=? hint mod 4)%Z.
  - (* x is the second candidate *)
    assert (Q : b * (w u * w u) + w u * m + m = f0).
    { apply (mul_cancel p Pp _ _ ((f1 + f1) * ((f1 + f1) * b))); [exact (mul_nz p Pp _ _ T2 (mul_nz p Pp _ _ T2 BN))|]. set (W := u * u) in *. clearbody W m. destruct (Z.odd (hint mod 4)); clear - R K' Pp; nsatz. }
    assert (N1 : w u + f1 <> f0). { intros N. apply BN. set (W := w u) in *. clearbody W m. clear - N Q Pp. nsatz. }
    assert (TN : t u <> f0). { intros N. apply (mul_nz p Pp _ _ U3 N1). rewrite <- N. ring. }
    set (x1 := x * fe_inv (w u)). assert (X : w u * x1 = x). { unfold x1. transitivity (x * (fe_inv (w u) * w u)); [ring|]. rewrite (inv_l p Pp _ U3). ring. }
    assert (X1 : a * x1 * t u = - b * (t u + f1)). { transitivity (a * (w u * x1) * (w u + f1)); [ring|]. rewrite X. unfold m in Q. set (W := w u) in *. clearbody W x1. clear - Q Pp. nsatz. }
    rewrite (sswu_x1 u x1 (fun _ => X1) (fun E => False_ind _ (TN E))). pose proof (g_x2 u x1 TN X1) as G. rewrite X in *. rewrite !solve_eq. destruct (sq_spec (gw a b x1)) as [(s & S)|S].
    + exfalso. apply NY. rewrite <- C, <- S in G. assert (Y : y * y = z * ((s * (z * (u * u * u))) * (s * (z * (u * u * u))))) by (rewrite G; ring). pose proof (nonsq_scale z _ y Z Y) as S0. rewrite S0 in Y.
      destruct (is_zero_spec p y) as [H|H]; [exact H|]. exfalso. apply (mul_nz p Pp _ _ H H). rewrite Y. ring.
    + rewrite <- C, (finish_eq x y u PU). reflexivity.
  - assert (M : m <> f0). { intros M. apply D. rewrite M. ring. }
    assert (Q : m * t u = - b).
    { apply (mul_cancel p Pp _ _ ((f1 + f1) * ((f1 + f1) * m))); [exact (mul_nz p Pp _ _ T2 (mul_nz p Pp _ _ T2 M))|]. set (W := u * u) in *. clearbody W m. destruct (Z.odd (hint mod 4)); clear - R K' Pp; nsatz. }
    assert (TN : t u <> f0). { intros N. apply BN. rewrite N in Q. transitivity (- - b); [ring|]. rewrite <- Q. ring. }
    assert (X1 : a * x * t u = - b * (t u + f1)). { unfold m in Q. set (T := t u) in *. clearbody T. clear - Q Pp. nsatz. }
    rewrite (sswu_x1 u x (fun _ => X1) (fun E => False_ind _ (TN E))), !solve_eq, <- C. replace (fe_is_square (y * y)) with true by (symmetry; exact (square_sq p Pp P3 y)). rewrite (finish_eq x y u PU). reflexivity.
Qed.
End Sswu.
Section Svdw.
Hypothesis AZ : a = f0.
Hypothesis P5 : (3 < P)%Z.
Hypothesis ZN : z <> f0.
Hypothesis ZI : zi = fe_inv z.
Hypothesis I2 : i2 * (f1 + f1) = f1.
Hypothesis I3 : i3 * (f1 + f1 + f1) = f1.
Hypothesis CC : c * c = - (z * z + z * z + z * z).
Hypothesis SP : forall x, x + x = c - z -> sq (gw f0 b x).
Local Notation spec := (svdw fe f0 fe_add fe_mul fe_sub fe_neg b z c).
Local Notation gz := (gw f0 b z).
Lemma solve0 x : wei_solve_y2 p a b x = gw f0 b x. Proof. rewrite solve_eq, AZ. reflexivity. Qed.
Theorem svdwf_ok u : exists x, wei_svdwf p a b z zi i2 i3 c u = (x, gw f0 b x) /\ spec u x /\ sq (gw f0 b x).
Proof.
  assert (Z1 : zi * z = f1) by (rewrite ZI; exact (inv_l p Pp z ZN)). unfold wei_svdwf, fe_sqr. cbv zeta. rewrite !solve0. set (U := u * u). set (t := U + gz). set (iT := fe_inv (U * t)).
  set (x1 := (c - z) * i2 - U * U * iT * c). set (x2 := U * U * iT * c - (c + z) * i2). set (x3 := z - t * t * t * iT * (zi * zi * i3)).
  assert (X2 : x2 = - x1 - z) by (unfold x1, x2; set (k := U * U * iT * c); clearbody k; clear - I2 Pp; nsatz).
  assert (E1 : U * t <> f0 -> (x1 + x1 + z - c) * t = - (U * c + U * c) /\ (z * z + z * z + z * z) * U * (z - x3) = t * t).
  { intros N. pose proof (inv_l p Pp _ N) as I. fold iT in I. unfold x1, x3. clearbody iT t U. clear - I I2 I3 Z1 Pp. split; nsatz. }
  assert (E2 : U * t = f0 -> x1 + x1 = c - z /\ x3 = z).
  { intros E. assert (IZ : iT = f0). { unfold iT. rewrite E. unfold fe_inv. apply (zero_pow p). pose proof P5. lia. } unfold x1, x3. rewrite IZ. clear - I2 Pp. split; [nsatz|ring]. }
  assert (S : ~ sq (gw f0 b x1) -> ~ sq (gw f0 b x2) -> sq (gw f0 b x3)).
  { intros S1 S2. destruct (is_zero_spec p (U * t)) as [E|N]; [exfalso; apply S1, SP, (E2 E)|]. destruct (E1 N) as (F1 & F3). destruct (nonsq_mul _ _ S1 S2) as (s & S).
    assert (TN : t <> f0) by (intros T; apply N; rewrite T; ring). assert (UN : u <> f0) by (intros T; apply N; unfold U; rewrite T; ring).
    pose proof (nonsq_nz _ S1) as G1. pose proof (nonsq_nz _ S2) as G2. clearbody x1 x3 iT. clear SP S1 S2 E1 E2 N I2 I3 AZ Z1 ZI.
    (* h = x1^2 + x1 z + z^2 satisfies h t^2 = 3 z^2 u^2 g(z) and x3 = z - g(z) / h *)
    set (h := x1 * x1 + x1 * z + z * z). assert (T2 : f1 + f1 <> (f0 : fe)) by exact two_nz'.
    assert (H : h * (t * t) = (z * z + z * z + z * z) * U * gz).
    { apply (mul_cancel p Pp _ _ ((f1 + f1) * (f1 + f1)) (mul_nz p Pp _ _ T2 T2)). assert (T : U + gz = t) by reflexivity. unfold h. set (G := gz) in *. clearbody t G U. clear - F1 CC T Pp. nsatz. }
    assert (PR' : gw f0 b x1 * gw f0 b x2 = (z * z + z * z + z * z) * (h * h) - h * h * h - (f1 + f1 + f1) * (gz * z * h) + gz * gz) by (rewrite X2; unfold h, g_wei; ring).
    assert (T3 : f1 + f1 + f1 <> (f0 : fe)) by exact (MontProof.three_nz p P5).
    assert (HN : gz <> f0).
    { intros G. assert (H0 : h = f0). { destruct (is_zero_spec p h) as [E|E]; [exact E|]. exfalso. apply (mul_nz p Pp _ _ E (mul_nz p Pp _ _ TN TN)). rewrite H, G. ring. }
      apply (mul_nz p Pp _ _ G1 G2). rewrite PR', H0, G. ring. }
    assert (HH : h <> f0).
    { intros E. rewrite E in H. assert (Q : (z * z + z * z + z * z) * U * gz <> f0).
      { apply (mul_nz p Pp); [|exact HN]. apply (mul_nz p Pp); [|unfold U; exact (mul_nz p Pp _ _ UN UN)]. replace (z * z + z * z + z * z) with ((f1 + f1 + f1) * (z * z)) by ring. exact (mul_nz p Pp _ _ T3 (mul_nz p Pp _ _ ZN ZN)). }
      apply Q. rewrite <- H. ring. }
    assert (X3 : h * (z - x3) = gz).
    { apply (mul_cancel p Pp _ _ (t * t) (mul_nz p Pp _ _ TN TN)). transitivity (h * (t * t) * (z - x3)); [ring|]. rewrite H. transitivity ((z * z + z * z + z * z) * U * (z - x3) * gz); [ring|]. rewrite F3. ring. }
    assert (G3 : h * h * h * gw f0 b x3 = - gz * (gw f0 b x1 * gw f0 b x2)).
    { rewrite PR'. assert (BZ : b = gz - z * z * z) by (unfold g_wei; ring). transitivity (h * h * h * (x3 * x3 * x3 + b)); [unfold g_wei; ring|]. set (G := gz) in *. clearbody G h. clear - X3 BZ Pp. nsatz. }
    assert (R : - gz * h * (t * t) = (c * u * gz) * (c * u * gz)). { transitivity (- gz * (h * (t * t))); [ring|]. rewrite H. transitivity (c * c * (U * (gz * gz))); [rewrite CC; ring|unfold U; ring]. }
    rewrite <- S in G3. set (k := fe_inv (t * (h * h))). assert (KI : k * (t * (h * h)) = f1) by exact (inv_l p Pp _ (mul_nz p Pp _ _ TN (mul_nz p Pp _ _ HH HH))).
    exists (c * u * gz * s * k). transitivity ((c * u * gz) * (c * u * gz) * (s * s) * (k * k)); [ring|]. rewrite <- R. transitivity (- gz * (s * s) * h * (t * t) * (k * k)); [ring|]. rewrite <- G3.
    transitivity (gw f0 b x3 * (k * (t * (h * h))) * (k * (t * (h * h)))); [ring|]. rewrite KI. ring. }
  destruct (sq_spec (gw f0 b x1)) as [S1|S1]; [|destruct (sq_spec (gw f0 b x2)) as [S2|S2]].
  - exists x1. split; [reflexivity|]. split; [|exact S1]. exists x1, x3. fold U t. refine (conj E1 (conj E2 _)). cbn. left. split; [exact S1|reflexivity].
  - exists x2. split; [reflexivity|]. split; [|exact S2]. exists x1, x3. fold U t. refine (conj E1 (conj E2 _)). cbn. rewrite <- X2. right. split; [exact S1|left]. split; [exact S2|reflexivity].
  - exists x3. split; [reflexivity|]. split; [|exact (S S1 S2)]. exists x1, x3. fold U t. refine (conj E1 (conj E2 _)). cbn. rewrite <- X2. right. split; [exact S1|right]. split; [exact S2|reflexivity].
Qed.
Theorem svdw_fwd u : exists x y, wei_svdw p a b z zi i2 i3 c u = Some (MkW x y false) /\ y * y = gw f0 b x /\ spec u x /\ parity y u.
Proof.
  destruct (svdwf_ok u) as (x & E & S & Q). unfold wei_svdw. rewrite E. destruct (finish_ok x _ u Q) as (y & -> & Y & PY). exists x, y. auto.
Qed.
Lemma svdwf_sq u v : u * u = v * v -> wei_svdwf p a b z zi i2 i3 c u = wei_svdwf p a b z zi i2 i3 c v.
Proof. intros E. unfold wei_svdwf, fe_sqr. rewrite E. reflexivity. Qed.
Theorem svdw_inv x y hint u : y * y = gw f0 b x -> wei_svdwi p a b z zi i2 i3 c (MkW x y false) hint = Some (u, true) -> u <> f0 -> wei_svdw p a b z zi i2 i3 c u = Some (MkW x y false).
Proof.
  intros C E NU. unfold wei_svdwi in E. cbn [wx wy winf] in E. cbv zeta in E. destruct (fe_sqrt _) as [[k ok]|]; [|discriminate]. match type of E with match ?X with _ => _ end = _ => destruct X as [[r ok']|]; [|discriminate] end.
  destruct (svdwf_ok r) as (x' & F & _). rewrite F in E. injection E as E EO. apply andb_true_iff in EO. destruct EO as (EO & _). apply andb_true_iff in EO. destruct EO as (_ & EO). apply equal_iff in EO. subst x'.
  assert (U2 : u * u = r * r) by (rewrite <- E; apply set_odd_sq).
  assert (PU : fe_is_odd y = fe_is_odd u). { rewrite <- E. symmetry. apply (set_odd_parity p Pp P3). intros ->. apply NU. rewrite <- E. apply set_odd_zero. }
  unfold wei_svdw. rewrite (svdwf_sq u r U2), F, <- C, (finish_eq x y u PU). reflexivity.
Qed.
End Svdw.
End Wei.
End P.
