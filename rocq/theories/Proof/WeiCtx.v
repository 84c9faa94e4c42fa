(* The Weierstrass context: what wei_init builds and wei_randomize keeps, and the multiplications it dispatches to. *)
From Verif.Base Require Import Prelude.
From Coq Require Import Znumtheory.
From Verif.Model Require Import Encoding Hash NumTheory Field EcScalar Wei Ecdsa.
From Verif.Spec Require Import EcSpec.
From Verif.Proof Require Import Cong FieldProof EcGroup GrpMul EcScalarProof WeiProof WeiMul.
Lemma F2_impl {A B} (R S : A -> B -> Prop) l l' : (forall x y, R x y -> S x y) -> Forall2 R l l' -> Forall2 S l l'.
Proof. intros I. induction 1; constructor; auto. Qed.
Section P.
Variable p : positive.
Local Notation fe := (Field.fe p).
(* the constants of a curve: p and n prime, G on the curve and of order n; with an endomorphism, (x, y) -> (beta x, y) is
   multiplication by lambda, every point has order dividing n, and the split of a scalar is short *)
Record good_def (d : wei_def p) : Prop := {
  gd_p : prime (Zpos p);
  gd_3 : 2 < Zpos p;
  gd_ns : nonsingular fe f0 f1 fe_add fe_mul (d_a p d) (d_b p d);
  gd_no2 : d_h p d <= 1 -> forall x, ~ on' p (d_a p d) (d_b p d) (Aff x f0);
  gd_n : prime (d_n p d);
  gd_n3 : 2 < d_n p d;
  gd_on : on' p (d_a p d) (d_b p d) (Aff (d_x p d) (d_y p d));
  gd_ord : zm p (d_a p d) (d_n p d) (Aff (d_x p d) (d_y p d)) = Inf;
  gd_endo : match d_endo p d with
    | None => True
    | Some (beta, nl, b1, b2, g1, g2, prec) => d_a p d = f0 /\ fe_mul (fe_mul beta beta) beta = f1 /\
      (forall P, on' p (d_a p d) (d_b p d) P -> zm p (d_a p d) (d_n p d) P = Inf) /\
      (forall P, on' p (d_a p d) (d_b p d) P -> pendo p beta P = zm p (d_a p d) (- nl) P) /\
      (forall k, 0 <= k < d_n p d -> split_ok (d_n p d) (- nl) ((sc_bitlen (d_n p d) + 1) / 2 + 1) (wei_endo_split (d_n p d) g1 g2 b1 b2 nl prec) k)
    end }.
(* a context in use *)
Inductive context (d : wei_def p) : wei p -> Prop :=
| ctx_init c : wei_init p d = Some c -> context d c
| ctx_randomize c blind : context d c -> 0 < blind < d_n p d -> context d (wei_randomize p c blind).
Section D.
Variable d : wei_def p.
Hypothesis D : good_def d.
Local Notation a := (d_a p d).
Local Notation b := (d_b p d).
Local Notation h := (d_h p d).
Local Notation n := (d_n p d).
Local Notation on := (on' p a b).
Local Notation add := (padd' p a).
Local Notation neg := (pneg' p).
Local Notation jrep := (jrep p a b).
Local Notation wrep := (wrep p a b).
Local Notation zm := (zm p a).
Definition G : point fe := Aff (d_x p d) (d_y p d).
Local Notation Pp := (gd_p _ D).
Local Notation P3 := (gd_3 _ D).
Local Notation ns := (gd_ns _ D).
Local Notation no2 := (gd_no2 _ D).
Record ctx_ok (c : wei p) : Prop := {
  cx_a : e_a p c = a; cx_b : e_b p c = b; cx_h : e_h p c = h; cx_n : e_n p c = n; cx_hash : e_hash p c = d_hash p d; cx_xof : e_xof p c = d_xof p d;
  cx_g : wrep (e_g p c) G;
  cx_fixed : gtable p a b (e_fixed p c) (nsteps (sc_bitlen n)) G;
  cx_naf : naf_wtable p a b (e_naf p c) NAF_WIDTH_PRE G;
  cx_blind : jrep (e_unblind p c) (zm (- e_blind p c) G);
  cx_endo : match d_endo p d, e_endo p c with
    | None, None => True
    | Some (beta, nl, b1, b2, g1, g2, prec), Some e => en_beta p e = beta /\ en_lambda p e = nl /\ en_b1 p e = b1 /\ en_b2 p e = b2 /\ en_g1 p e = g1 /\ en_g2 p e = g2 /\ en_prec p e = prec /\
      naf_wtable p a b (en_wnd p e) NAF_WIDTH_PRE (zm (- nl) G)
    | _, _ => False
    end }.
Lemma G_on : on G. Proof. exact (gd_on _ D). Qed.
Lemma G_ord : zm n G = Inf. Proof. exact (gd_ord _ D). Qed.
Lemma n_pos : 1 < n. Proof. pose proof (prime_ge_2 _ (gd_n _ D)). lia. Qed.
Lemma n_fits : n < 2 ^ Z.of_nat (sc_bitlen n). Proof. apply bitlen_bound. pose proof n_pos. lia. Qed.
Lemma mod_zm k : zm (k mod n) G = zm k G.
Proof. apply (m_mod p Pp P3 a b h ns no2); [exact G_on|exact G_ord]. Qed.
Lemma eqm_zm j k : j mod n = k mod n -> zm j G = zm k G.
Proof. intros E. rewrite <- (mod_zm j), <- (mod_zm k), E. reflexivity. Qed.
(* G has order exactly n *)
Lemma zm_inf k : zm k G = Inf -> k mod n = 0.
Proof.
  intros E. destruct (Z.eq_dec (k mod n) 0) as [|NZ]; [assumption|exfalso].
  assert (R : rel_prime k n). { apply rel_prime_sym, prime_rel_prime; [exact (gd_n _ D)|]. intros W. apply NZ. apply Zdivide_mod. exact W. }
  destruct (rel_prime_bezout _ _ R) as [u v B]. assert (F : zm 1 G = Inf).
  { rewrite <- B. rewrite (m_add p Pp P3 a b h ns no2), !(m_mul p Pp P3 a b h ns no2), E, G_ord, !(m_e p Pp P3 a b h ns no2) by exact G_on. reflexivity. }
  rewrite (m_1 p Pp P3 a b h ns no2) in F by exact G_on. discriminate.
Qed.
Lemma zm_eq j k : zm j G = zm k G -> j mod n = k mod n.
Proof.
  intros E. assert (F : zm (j - k) G = Inf).
  { replace (j - k) with (j + - k) by ring. rewrite (m_add p Pp P3 a b h ns no2), E, <- (m_add p Pp P3 a b h ns no2), Z.add_opp_diag_r by exact G_on. reflexivity. }
  apply zm_inf in F. pose proof n_pos. apply Z.mod_divide in F; [|lia]. destruct F as [q F]. replace j with (k + q * n) by lia. apply Z.mod_add. lia.
Qed.
Theorem init_ok : exists c, wei_init p d = Some c /\ ctx_ok c.
Proof.
  assert (W : wrep (MkW (d_x p d) (d_y p d) false) G) by (constructor; exact G_on). unfold wei_init.
  destruct (wge_fixed_points_ok p Pp P3 a b h ns no2 (sc_bitlen n) _ _ W) as (fx & EF & TF). destruct (wge_naf_points_ok p Pp P3 a b h ns no2 _ _ NAF_WIDTH_PRE W) as (nf & EN & TN).
  rewrite EF, EN. eexists. split; [reflexivity|]. constructor; cbn [e_a e_b e_h e_n e_hash e_xof e_g e_fixed e_naf e_blind e_unblind e_endo]; try reflexivity; try assumption.
  - constructor.
  - pose proof (gd_endo _ D) as GE. destruct (d_endo p d) as [[[[[[[beta nl] b1] b2] g1] g2] prec]|]; [|exact Logic.I].
    destruct GE as (A0 & B3 & O & En & S). cbn [en_beta en_lambda en_b1 en_b2 en_g1 en_g2 en_prec en_wnd]. refine (conj eq_refl (conj eq_refl (conj eq_refl (conj eq_refl (conj eq_refl (conj eq_refl (conj eq_refl _))))))).
    intros j J. pose proof (TN j J) as T. assert (WZ : wge_endo_beta p beta (wge_zero p) = wge_zero p).
    { unfold wge_endo_beta, wge_zero; cbn [wx wy winf]. f_equal; apply fe_eq; cbn; rewrite ?Zmod_0_l; reflexivity. }
    rewrite <- WZ, map_nth.
    assert (C : zm (2 * Z.of_nat j + 1) (zm (- nl) G) = pendo p beta (zm (2 * Z.of_nat j + 1) G)).
    { rewrite En by (apply (m_on p Pp P3 a b h ns no2); exact G_on). rewrite <- !(m_mul p Pp P3 a b h ns no2) by exact G_on. f_equal. ring. }
    rewrite C. apply wge_endo_ok; try assumption. exact Pp.
Qed.
Section C.
Variable c : wei p.
Hypothesis C : ctx_ok c.
Lemma sbits_eq : sbits p c = sc_bitlen n. Proof. unfold sbits. rewrite (cx_n _ C). reflexivity. Qed.
Lemma Jmul_g k : jrep (jmul_g p c k) (zm k G).
Proof.
  unfold jmul_g. rewrite (cx_a _ C), (cx_n _ C), sbits_eq. pose proof n_pos. pose proof n_fits.
  apply (wei_jmul_g_ok p Pp P3 a b h ns no2 n); [lia|exact (cx_fixed _ C)|exact G_on|exact G_ord|exact (cx_blind _ C)].
Qed.
Lemma Mul_g k : wrep (mul_g p c k) (zm k G).
Proof. apply (wge_set_jge_ok p Pp P3 a b). apply Jmul_g. Qed.
Lemma randomize_ok blind : 0 < blind < n -> ctx_ok (wei_randomize p c blind).
Proof.
  intros B. destruct C. constructor; cbn [wei_randomize e_a e_b e_h e_n e_hash e_xof e_g e_fixed e_naf e_blind e_unblind e_endo]; try assumption.
  rewrite cx_n0. unfold sc_neg. rewrite (proj2 (Z.eqb_neq blind 0)) by lia. replace (zm (- (n - blind)) G) with (zm blind G); [apply Jmul_g|].
  apply eqm_zm. replace (- (n - blind)) with (blind + (-1) * n) by ring. symmetry. apply Z.mod_add. lia.
Qed.
Lemma Jmul q P k : 0 <= k < n -> wrep q P -> jrep (jmul p c q k) (zm k P).
Proof.
  intros K W. pose proof (cx_endo _ C) as CE. pose proof (gd_endo _ D) as GE. pose proof n_fits. pose proof n_pos. unfold jmul.
  destruct (d_endo p d) as [[[[[[[beta nl] b1] b2] g1] g2] prec]|]; destruct (e_endo p c) as [e|]; try contradiction.
  - destruct CE as (<- & <- & <- & <- & <- & <- & <- & T). destruct GE as (A0 & B3 & O & En & S). unfold en_split, endo_bits. rewrite (cx_a _ C), (cx_h _ C), (cx_n _ C), sbits_eq.
    eapply (wei_jmul_endo_ok p Pp P3 a b h ns no2 n (- en_lambda p e)); try eassumption. apply S. exact K.
  - rewrite (cx_a _ C), (cx_h _ C), sbits_eq. apply (wei_jmul_normal_ok p Pp P3 a b h ns no2); [lia|exact W].
Qed.
Lemma Mul q P k : 0 <= k < n -> wrep q P -> wrep (mul p c q k) (zm k P).
Proof. intros K W. apply (wge_set_jge_ok p Pp P3 a b). apply Jmul; assumption. Qed.
Lemma Jdouble k1 q Q k2 : 0 <= k1 < n -> 0 <= k2 < n -> wrep q Q -> exists r, jmul_double p c k1 q k2 = Some r /\ jrep r (add (zm k1 G) (zm k2 Q)).
Proof.
  intros K1 K2 W. pose proof (cx_endo _ C) as CE. pose proof (gd_endo _ D) as GE. pose proof n_fits. pose proof n_pos. unfold jmul_double.
  destruct (d_endo p d) as [[[[[[[beta nl] b1] b2] g1] g2] prec]|]; destruct (e_endo p c) as [e|]; try contradiction.
  - destruct CE as (<- & <- & <- & <- & <- & <- & <- & T). destruct GE as (A0 & B3 & O & En & S). unfold en_split, endo_bits. rewrite (cx_a _ C), (cx_h _ C), (cx_n _ C), sbits_eq.
    eapply (wei_jmul_double_endo_ok p Pp P3 a b h ns no2 n (- en_lambda p e)); try eassumption; try (apply S; assumption); [exact (cx_naf _ C)|exact G_on].
  - rewrite (cx_a _ C), (cx_h _ C), sbits_eq. apply (wei_jmul_double_normal_ok p Pp P3 a b h ns no2); try lia; [exact (cx_naf _ C)|exact G_on|exact W].
Qed.
Lemma Mdouble k1 q Q k2 : 0 <= k1 < n -> 0 <= k2 < n -> wrep q Q -> exists r, mul_double p c k1 q k2 = Some r /\ wrep r (add (zm k1 G) (zm k2 Q)).
Proof.
  intros K1 K2 W. destruct (Jdouble k1 q Q k2 K1 K2 W) as (j & E & J). unfold mul_double. rewrite E. exact (wge_set_jge_var_ok p Pp P3 a b j _ J).
Qed.
Definition term (e : wge p * Z) (P : point fe * Z) : Prop := wrep (fst e) (fst P) /\ snd e = snd P /\ 0 <= snd e < n.
Lemma Jmulti k0 l Ps : 0 <= k0 < n -> Forall2 term l Ps -> exists r, jmul_multi p c k0 l = Some r /\ jrep r (add (zm k0 G) (msum p a Ps)).
Proof.
  intros K F. pose proof (cx_endo _ C) as CE. pose proof (gd_endo _ D) as GE. pose proof n_fits. pose proof n_pos. unfold jmul_multi.
  destruct (d_endo p d) as [[[[[[[beta nl] b1] b2] g1] g2] prec]|]; destruct (e_endo p c) as [e|]; try contradiction.
  - destruct CE as (<- & <- & <- & <- & <- & <- & <- & T). destruct GE as (A0 & B3 & O & En & S). unfold en_split, endo_bits. rewrite (cx_a _ C), (cx_h _ C), (cx_n _ C), sbits_eq.
    eapply (wei_jmul_multi_endo_ok p Pp P3 a b h ns no2 n (- en_lambda p e)); try eassumption; try (apply S; assumption); [exact (cx_naf _ C)|exact G_on|].
    eapply F2_impl; [|exact F]. intros x y (T1 & T2 & T3). refine (conj T1 (conj T2 _)). apply S. exact T3.
  - rewrite (cx_a _ C), (cx_h _ C), sbits_eq. apply (wei_jmul_multi_normal_ok p Pp P3 a b h ns no2); try lia; [exact (cx_naf _ C)|exact G_on|].
    eapply F2_impl; [|exact F]. intros x y (T1 & T2 & T3). refine (conj T1 (conj T2 _)). lia.
Qed.
End C.
Theorem context_ok c : context d c -> ctx_ok c.
Proof.
  induction 1 as [c E|c blind X IH B].
  - destruct init_ok as (c' & E' & K). rewrite E in E'. replace c with c'; [exact K|congruence].
  - apply randomize_ok; assumption.
Qed.
End D.
End P.
