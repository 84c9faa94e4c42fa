(* BIP340 keys: verification, export, tweaks on both sides, and x-only key agreement. *)
From Verif.Base Require Import Prelude.
From Coq Require Import Znumtheory.
From Verif.Model Require Import Encoding Bio Hash Drbg NumTheory Rsa Field EcScalar Wei Ecdsa Schnorr.
From Verif.Spec Require Import HashSpec EcSpec DsaSpec EcdsaSpec SchnorrSpec.
From Verif.Proof Require Import Cong FieldProof FieldSquare EcGroup GrpMul EcScalarProof WeiProof WeiMul WeiCtx EcCodec Rfc6979 EcdsaProof EcdsaKeys SchnorrProof SchnorrSig SchnorrBatch.
Section P.
Variable p : positive.
Local Notation fe := (Field.fe p).
Variable d : wei_def p.
Hypothesis D : good_def p d.
Variable c : wei p.
Hypothesis C : ctx_ok p d c.
Local Notation P := (Zpos p).
Local Notation a := (d_a p d).
Local Notation b := (d_b p d).
Local Notation h := (d_h p d).
Local Notation n := (d_n p d).
Local Notation on := (on' p a b).
Local Notation add := (padd' p a).
Local Notation neg := (pneg' p).
Local Notation jrep := (jrep p a b).
Local Notation wrep := (wrep p a b).
Local Notation zm := (zm p a).
Local Notation G := (G p d).
Local Notation Pp := (gd_p _ _ D).
Local Notation P3 := (gd_3 _ _ D).
Local Notation ns := (gd_ns _ _ D).
Local Notation no2 := (gd_no2 _ _ D).
Local Notation N1 := (N1 p d D).
Local Notation xof := (d_xof p d).
Local Notation Mon := (m_on p Pp P3 a b h ns no2).
Local Notation Madd := (m_add p Pp P3 a b h ns no2).
Local Notation Mmul := (m_mul p Pp P3 a b h ns no2).
Local Notation Mneg := (m_neg p Pp P3 a b h ns no2).
Local Notation Gon := (G_on p d D).
Add Ring fring : (FieldProof.ring_th p).
Hypothesis fits : (octs n <= size_of xof (octs n) <= rate_of xof)%nat.
Hypothesis PO : forall Q, on Q -> zm n Q = Inf.
Hypothesis P34 : P mod 4 = 3.
Local Notation lift := (lift p d).
Local Notation even := (even p).
Local Notation evok := (even_ok p d D).
Local Notation xbytes := (xbytes p).
Local Notation evenk := (evenk p d).
(* which x coordinates are keys *)
Theorem verify_pub pub : bytes pub -> length pub = octs P -> exists ok, bip340_pubkey_verify p c pub = Some ok /\ (ok = true <-> exists x y, lift even pub x y).
Proof.
  intros B L. unfold bip340_pubkey_verify. destruct (import_even_ok p d D c C P34 pub B L) as (q & ok & -> & _ & I1 & I2). exists ok. split; [reflexivity|]. split.
  - intros E. destruct (I1 E) as (x & y & H & _). exists x, y. exact H.
  - intros (x & y & H). exact (I2 x y H).
Qed.
Lemma import_lift X Y : on (Aff X Y) -> even Y = true -> wge_import_even p c (i2o P (fv X)) = Some (MkW X Y false, true).
Proof.
  intros O E. destruct (import_even_ok p d D c C P34 (i2o P (fv X)) (i2o_bytes _ _) (i2o_len _ _)) as (q & ok & EQ & _ & I1 & I2). assert (LF : lift even (i2o P (fv X)) X Y) by (repeat split; assumption).
  pose proof (I2 X Y LF). subst ok. destruct (I1 eq_refl) as (x & y & L' & ->). destruct (lift_unique p d D even _ x y X Y evok L' LF) as [-> ->]. exact EQ.
Qed.
(* the key of a secret x: the lift of its encoding is evenk x times G *)
Lemma import_key x : 0 < x < n -> exists X Y, zm (evenk x) G = Aff X Y /\ on (Aff X Y) /\ even Y = true /\ 0 < evenk x < n /\ xbytes (zm x G) = i2o P (fv X) /\
  bip340_pubkey_create p c (i2o n x) = (i2o P (fv X), true) /\ wge_import_even p c (i2o P (fv X)) = Some (MkW X Y false, true).
Proof.
  intros Hx. destruct (create340_ok p d D c C x Hx) as (X & Y & E & O & EC). destruct (evenk_ok p d D fits PO x X Y Hx E) as (Hx' & Y' & E' & EY). exists X, Y'. assert (O' : on (Aff X Y')) by (rewrite <- E'; apply Mon; exact Gon).
  split; [exact E'|]. split; [exact O'|]. split; [exact EY|]. split; [exact Hx'|]. split; [rewrite E; reflexivity|]. split; [exact EC|]. exact (import_lift X Y' O' EY).
Qed.
Definition oddpt (Q : point fe) : bool := match Q with Aff _ Y => negb (even Y) | Inf => true end.
Lemma even_flag q Q : wrep q Q -> negb (wge_is_even p q) = oddpt Q.
Proof. intros [|X Y O]; unfold wge_is_even; cbn [wy winf wge_zero negb oddpt]; [rewrite andb_false_r; reflexivity|]. rewrite andb_true_r. reflexivity. Qed.
Lemma zmG_inf k : zm k G = Inf <-> k mod n = 0.
Proof. split; [apply (zm_inf p d D)|]. intros E. rewrite <- (mod_zm p d D), E. reflexivity. Qed.
Definition isaff (Q : point fe) : bool := match Q with Inf => false | _ => true end.
Lemma aff_flag k : isaff (zm (k mod n) G) = negb (k mod n =? 0).
Proof.
  rewrite (mod_zm p d D). pose proof (zmG_inf k) as H. destruct (Z.eqb_spec (k mod n) 0) as [E|N]; [rewrite (proj2 H E); reflexivity|]. destruct (zm k G) eqn:E; [exfalso; apply N; apply H; reflexivity|reflexivity].
Qed.
Lemma pub_map_ok X Y f extra Q : on (Aff X Y) -> even Y = true -> wrep (f (MkW X Y false)) Q ->
  bip340_pub_map p c (i2o P (fv X)) f extra = Some (xbytes Q, oddpt Q, extra && isaff Q).
Proof.
  intros O E W. unfold bip340_pub_map. rewrite (import_lift X Y O E). cbv zeta. rewrite (export_x_ok p d _ _ W), (even_flag _ _ W). cbn [andb]. destruct Q; reflexivity.
Qed.
(* additive tweaks *)
Theorem tweak_add_ok x t : 0 < x < n -> 0 <= t < n -> let y := (evenk x + t) mod n in
  bip340_privkey_tweak_add p c (i2o n x) (i2o n t) = (i2o n y, negb (y =? 0)) /\
  bip340_pubkey_tweak_add p c (fst (bip340_pubkey_create p c (i2o n x))) (i2o n t) = Some (xbytes (zm y G), oddpt (zm y G), negb (y =? 0)).
Proof.
  intros Hx Ht y. destruct (import_key x Hx) as (X & Y & E & O & EY & Hx' & EX & EC & EI). split.
  - unfold bip340_privkey_tweak_add. rewrite (priv_read_i2o p d D c C x Hx), (sc_import_i2o p d D c C t Ht), (cx_n _ _ _ C). destruct (mulG p d D x Hx) as (U & V & EU & OU). pose proof (Mul_g p d D c C x) as W. rewrite EU in W.
    rewrite (wge_even_ok p d _ U V W), (evenk_cond p d fits x U V Hx EU), (sc_export_eq p d D c C). reflexivity.
  - rewrite EC. cbn [fst]. unfold bip340_pubkey_tweak_add. rewrite (sc_import_i2o p d D c C t Ht).
    assert (W : wrep (wge_set_jge p (jge_mixed_add p (e_a p c) (jmul_g p c t) (MkW X Y false))) (zm y G)).
    { apply (wge_set_jge_ok p Pp P3 a b). rewrite (cx_a _ _ _ C). replace (zm y G) with (add (zm t G) (Aff X Y)); [apply (jge_mixed_add_ok p Pp P3 a b h ns no2); [apply (Jmul_g p d D c C)|constructor; exact O]|].
      unfold y. rewrite (mod_zm p d D). rewrite <- E, <- Madd by exact Gon. f_equal. ring. }
    rewrite (pub_map_ok X Y _ true _ O EY W). cbn [andb]. unfold y. rewrite aff_flag. reflexivity.
Qed.
Corollary tweak_add_commutes x t : 0 < x < n -> 0 <= t < n -> (evenk x + t) mod n <> 0 -> exists neg,
  bip340_pubkey_tweak_add p c (fst (bip340_pubkey_create p c (i2o n x))) (i2o n t) =
    Some (fst (bip340_pubkey_create p c (fst (bip340_privkey_tweak_add p c (i2o n x) (i2o n t)))), neg, true).
Proof.
  intros Hx Ht N. destruct (tweak_add_ok x t Hx Ht) as [-> ->]. cbn [fst]. pose proof N1. pose proof (Z.mod_pos_bound (evenk x + t) n ltac:(lia)). set (y := (evenk x + t) mod n) in *.
  destruct (create340_ok p d D c C y ltac:(lia)) as (X & Y & E & _ & EC). rewrite EC, (proj2 (Z.eqb_neq y 0) N). cbn [fst negb]. eexists. rewrite E. reflexivity.
Qed.
(* the sign of a multiple does not change its x coordinate *)
Lemma xbytes_neg Q : xbytes (neg Q) = xbytes Q. Proof. destruct Q; reflexivity. Qed.
Lemma xbytes_even x t : 0 < x < n -> xbytes (zm (t * evenk x) G) = xbytes (zm (t * x) G) /\ isaff (zm (t * evenk x) G) = isaff (zm (t * x) G).
Proof.
  intros Hx. unfold SchnorrSig.evenk. destruct (zm x G) as [|X Y]; [split; reflexivity|]. destruct (even Y); [split; reflexivity|].
  replace (zm (t * (n - x)) G) with (neg (zm (t * x) G)). { split; [apply xbytes_neg|]. destruct (zm (t * x) G); reflexivity. }
  rewrite <- Mneg by exact Gon. apply (eqm_zm p d D). replace (t * (n - x)) with (- (t * x) + t * n) by ring. rewrite Z.mod_add by (pose proof N1; lia). reflexivity.
Qed.
Theorem tweak_mul_ok x t : 0 < x < n -> 0 <= t < n -> let y := (x * t) mod n in
  bip340_privkey_tweak_mul p c (i2o n x) (i2o n t) = (i2o n y, negb (y =? 0)) /\
  exists sg, bip340_pubkey_tweak_mul p c (fst (bip340_pubkey_create p c (i2o n x))) (i2o n t) = Some (xbytes (zm y G), sg, negb (y =? 0)).
Proof.
  intros Hx Ht y. destruct (import_key x Hx) as (X & Y & E & O & EY & Hx' & EX & EC & EI). split; [exact (priv_tweak_mul p d D c C x t Hx Ht)|].
  rewrite EC. cbn [fst]. unfold bip340_pubkey_tweak_mul. rewrite (sc_import_i2o p d D c C t Ht).
  pose proof (Mul p d D c C (MkW X Y false) (Aff X Y) t Ht (aff_pt p d X Y O)) as W. rewrite (pub_map_ok X Y _ true _ O EY W). cbn [andb]. rewrite <- E, <- Mmul by exact Gon. destruct (xbytes_even x t Hx) as [-> ->].
  eexists. unfold y. rewrite <- aff_flag. rewrite (mod_zm p d D), Z.mul_comm. reflexivity.
Qed.
Corollary tweak_mul_commutes x t : 0 < x < n -> 0 < t < n -> exists sg,
  bip340_pubkey_tweak_mul p c (fst (bip340_pubkey_create p c (i2o n x))) (i2o n t) =
    Some (fst (bip340_pubkey_create p c (fst (bip340_privkey_tweak_mul p c (i2o n x) (i2o n t)))), sg, true).
Proof.
  intros Hx Ht. destruct (tweak_mul_ok x t Hx ltac:(lia)) as [-> [sg ->]]. exists sg. cbn [fst]. pose proof N1. pose proof (nz_prod p d D x t Hx Ht) as N. pose proof (Z.mod_pos_bound (x * t) n ltac:(lia)). set (y := (x * t) mod n) in *.
  destruct (create340_ok p d D c C y ltac:(lia)) as (X & Y & E & _ & EC). rewrite EC, (proj2 (Z.eqb_neq y 0) N). cbn [fst negb]. rewrite E. reflexivity.
Qed.
(* the checks accept exactly the result of the tweak *)
Theorem check_ok r expect sg : bip340_check r expect sg = Some true <-> r = Some (expect, sg, true).
Proof.
  unfold bip340_check. destruct r as [[[raw s] ok]|]; [|split; discriminate]. destruct (list_eq_dec Z.eq_dec raw expect) as [-> |N]; [|rewrite andb_false_r; cbn [andb]; split; [discriminate|intros H; congruence]].
  rewrite andb_true_r. split; [|intros H; assert (ok = true /\ s = sg) as [-> ->] by (split; congruence); rewrite Bool.eqb_reflx; reflexivity].
  intros H. assert (H' : ok && Bool.eqb s sg = true) by congruence. apply andb_prop in H'. destruct H' as [-> H']. apply Bool.eqb_prop in H'. subst s. reflexivity.
Qed.
(* the exported secret and point *)
Theorem export_priv_ok x : 0 < x < n -> exists X Y, zm (evenk x) G = Aff X Y /\ even Y = true /\ bip340_privkey_export p c (i2o n x) = ((i2o n (evenk x), i2o P (fv X), i2o P (fv Y)), true).
Proof.
  intros Hx. destruct (import_key x Hx) as (X & Y & E & O & EY & Hx' & EX & EC & EI). exists X, Y. split; [exact E|]. split; [exact EY|]. unfold bip340_privkey_export. rewrite (priv_read_i2o p d D c C x Hx), (cx_n _ _ _ C).
  destruct (mulG p d D x Hx) as (U & V & EU & OU). pose proof (Mul_g p d D c C x) as W. rewrite EU in W. rewrite (wge_even_ok p d _ U V W), (evenk_cond p d fits x U V Hx EU), (wrep_aff p d _ U V W), (sc_export_eq p d D c C), !(fe_export_eq p). unfold wge_neg_cond. cbn [wx wy winf negb].
  assert (E2 : Aff X Y = if even V then Aff U V else neg (Aff U V)).
  { rewrite <- E, <- EU. unfold SchnorrSig.evenk. rewrite EU. destruct (even V); [exact EU|]. rewrite <- EU, <- Mneg by exact Gon. apply (eqm_zm p d D). replace (n - x) with (- x + 1 * n) by ring. rewrite Z.mod_add by (pose proof N1; lia). reflexivity. }
  unfold fe_neg_cond. destruct (even V); cbn [negb] in E2 |- *; [|cbn in E2]; assert (X = U) as -> by congruence; [assert (Y = V) as -> by congruence|assert (Y = fe_neg V) as -> by congruence]; reflexivity.
Qed.
(* x-only key agreement *)
Theorem derive340_agree x y : 0 < x < n -> 0 < y < n -> exists X Y, zm (x * y) G = Aff X Y /\
  bip340_derive p c (fst (bip340_pubkey_create p c (i2o n y))) (i2o n x) = Some (i2o P (fv X), true) /\
  bip340_derive p c (fst (bip340_pubkey_create p c (i2o n x))) (i2o n y) = Some (i2o P (fv X), true).
Proof.
  assert (H : forall x y, 0 < x < n -> 0 < y < n -> bip340_derive p c (fst (bip340_pubkey_create p c (i2o n y))) (i2o n x) = Some (xbytes (zm (x * y) G), isaff (zm (x * y) G))).
  { intros u v Hu Hv. destruct (import_key v Hv) as (X & Y & E & O & EY & Hx' & EX & EC & EI). rewrite EC. cbn [fst]. unfold bip340_derive. rewrite (priv_read_i2o p d D c C u Hu), EI.
    pose proof (Mul p d D c C (MkW X Y false) (Aff X Y) u ltac:(lia) (aff_pt p d X Y O)) as W. rewrite (export_x_ok p d _ _ W). rewrite <- E, <- Mmul by exact Gon. destruct (xbytes_even v u Hv) as [E1 E2]. rewrite E1. unfold isaff in E2. rewrite E2. reflexivity. }
  intros Hx Hy. pose proof (nz_prod p d D x y Hx Hy) as N. rewrite !H by assumption. rewrite (Z.mul_comm y x). pose proof (zmG_inf (x * y)) as ZI. destruct (zm (x * y) G) as [|X Y]; [exfalso; apply N; apply ZI; reflexivity|].
  exists X, Y. split; [reflexivity|]. split; reflexivity.
Qed.
End P.
