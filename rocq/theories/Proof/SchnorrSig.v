(* BIP340 and BIP-Schnorr: signing and single verification. *)
From Verif.Base Require Import Prelude.
From Coq Require Import Znumtheory.
From Verif.Model Require Import Encoding Bio Hash Drbg NumTheory Rsa Field EcScalar Wei Ecdsa Schnorr.
From Verif.Spec Require Import HashSpec EcSpec DsaSpec EcdsaSpec SchnorrSpec.
From Verif.Proof Require Import Cong FieldProof FieldSquare EcGroup GrpMul EcScalarProof WeiProof WeiMul WeiCtx EcCodec Rfc6979 EcdsaProof EcdsaKeys SchnorrProof.
Section P.
Variable p : positive.
Local Notation fe := (Field.fe p).
Variable d : wei_def p.
Hypothesis D : good_def p d.
Variable c : wei p.
Hypothesis C : ctx_ok p d c.
Local Notation P := (Zpos p).
Local Notation a := (d_a p d).
Local Notation b := (d_b p d).
Local Notation h := (d_h p d).
Local Notation n := (d_n p d).
Local Notation on := (on' p a b).
Local Notation add := (padd' p a).
Local Notation neg := (pneg' p).
Local Notation jrep := (jrep p a b).
Local Notation wrep := (wrep p a b).
Local Notation zm := (zm p a).
Local Notation G := (G p d).
Local Notation Pp := (gd_p _ _ D).
Local Notation P3 := (gd_3 _ _ D).
Local Notation ns := (gd_ns _ _ D).
Local Notation no2 := (gd_no2 _ _ D).
Local Notation N1 := (N1 p d D).
Local Notation xof := (d_xof p d).
Local Notation Mon := (m_on p Pp P3 a b h ns no2).
Local Notation Madd := (m_add p Pp P3 a b h ns no2).
Local Notation Mmul := (m_mul p Pp P3 a b h ns no2).
Local Notation Mneg := (m_neg p Pp P3 a b h ns no2).
Local Notation Gon := (G_on p d D).
Add Ring fring : (FieldProof.ring_th p).
Hypothesis fits : (octs n <= size_of xof (octs n) <= rate_of xof)%nat.
Hypothesis PO : forall Q, on Q -> zm n Q = Inf.
Hypothesis P34 : P mod 4 = 3.
Hypothesis small_n : n < 2 ^ 1024.
Hypothesis small_p : P < 2 ^ 1024.
Local Notation hash_scalar_range := (hash_int_range p d D).
Local Notation challenge_ok := (challenge_ok p d D c C fits).
(* ---- the lifts of an x coordinate ---- *)
Definition lift (good : fe -> bool) (raw : list Z) (x y : fe) : Prop := on (Aff x y) /\ good y = true /\ raw = i2o P (fv x).
Definition even (y : fe) : bool := negb (fe_is_odd y).
Lemma even_spec (y : fe) : even y = Z.even (fv y). Proof. unfold even, fe_is_odd. apply Z.negb_odd. Qed.
(* what is needed of evenness and squareness *)
Definition sign_ok (good : fe -> bool) : Prop := good f0 = true /\ (forall y, y <> f0 -> good (fe_neg y) = negb (good y)).
Lemma even_ok : sign_ok even.
Proof. split; [unfold even, fe_is_odd; rewrite fv_f0; reflexivity|]. intros y N. unfold even. rewrite (odd_neg p Pp P3 y N). reflexivity. Qed.
Lemma square_ok : sign_ok (@fe_is_square p).
Proof. split; [exact (square_0 p Pp P3)|]. intros y N. exact (square_neg p Pp P3 P34 y N). Qed.
Lemma good_unique good x y y' : sign_ok good -> on (Aff x y) -> on (Aff x y') -> good y = true -> good y' = true -> y = y'.
Proof.
  intros [G0 GN] O O' Y Y'. assert (E : fe_mul y y = fe_mul y' y'). { apply (on_iff p Pp a b ns) in O. apply (on_iff p Pp a b ns) in O'. rewrite O, O'. reflexivity. }
  destruct (sq_roots p Pp y y' E) as [H|H]; [exact H|]. destruct (fe_eq_dec p y' f0) as [-> |N]; [rewrite H; ring|]. rewrite H, GN, Y' in Y by exact N. discriminate.
Qed.
Lemma lift_unique good raw x y x' y' : sign_ok good -> lift good raw x y -> lift good raw x' y' -> x = x' /\ y = y'.
Proof.
  intros S (O & Y & E) (O' & Y' & E'). rewrite E in E'. apply i2o_inj in E'; try apply fv_range; [|reflexivity]. apply fe_eq in E'. subst x'. split; [reflexivity|]. exact (good_unique good x y y' S O O' Y Y').
Qed.
Definition importer (good : fe -> bool) (imp : list Z -> option (wge p * bool)) : Prop := forall raw, bytes raw -> length raw = octs P ->
  exists q ok, imp raw = Some (q, ok) /\ (exists Q, wrep q Q) /\ (ok = true -> exists x y, lift good raw x y /\ q = MkW x y false) /\ (forall x y, lift good raw x y -> ok = true).
Lemma import_even_ok : importer even (wge_import_even p c).
Proof.
  intros raw B L. unfold wge_import_even. rewrite (cx_a _ _ _ C), (cx_b _ _ _ C), (cx_h _ _ _ C). pose proof (fe_import_spec p P3 raw B L) as FI. destruct (fe_import p raw) as [x okx] eqn:EI. destruct FI as [F1 F2].
  destruct (set_x_ok p Pp P3 a b h ns no2 x 0 P34 (or_introl eq_refl)) as (q & ok & E & S1 & S2 & S3). rewrite E. exists q, (okx && ok). split; [reflexivity|]. change (0 =? 1) with false in *.
  assert (W : ok = true -> exists y, on (Aff x y) /\ fe_is_odd y = false /\ q = MkW x y false). { intros Ok. apply S1 in Ok. destruct Ok as (y & O & Y). exists y. destruct (S2 y O Y) as [_ ->]. repeat split; assumption. }
  split; [|split].
  - destruct ok. + destruct (W eq_refl) as (y & O & _ & ->). exists (Aff x y). constructor. exact O. + rewrite (S3 eq_refl). exists Inf. constructor.
  - intros Ok. apply andb_prop in Ok. destruct Ok as [O1 O2]. destruct (W O2) as (y & O & Y & ->). exists x, y. split; [|reflexivity]. split; [exact O|]. split; [unfold even; rewrite Y; reflexivity|exact (F2 O1)].
  - intros x' y (O & Y & R). assert (O1 : okx = true) by (apply F1; exists x'; exact R). specialize (F2 O1). rewrite R in F2. apply i2o_inj in F2; try apply fv_range; [|reflexivity]. apply fe_eq in F2. subst x'. rewrite O1. cbn [andb].
    apply (proj1 (S2 y O ltac:(unfold even in Y; apply negb_true_iff in Y; exact Y))).
Qed.
Lemma import_square_ok : importer (@fe_is_square p) (wge_import_square p c).
Proof.
  intros raw B L. unfold wge_import_square. rewrite (cx_a _ _ _ C), (cx_b _ _ _ C), (cx_h _ _ _ C). pose proof (fe_import_spec p P3 raw B L) as FI. destruct (fe_import p raw) as [x okx] eqn:EI. destruct FI as [F1 F2].
  destruct (set_x_any p Pp P3 a b h ns x P34) as (q & ok & E & S1 & S2 & S3). rewrite E. exists q, (okx && ok). split; [reflexivity|].
  assert (W : ok = true -> exists y, on (Aff x y) /\ fe_is_square y = true /\ q = MkW x y false).
  { intros Ok. destruct (S2 Ok) as (y & Q & O & Y). exists y. split; [exact O|]. split; [|exact Q]. apply (on_iff p Pp a b ns) in O. rewrite <- O in Y. rewrite Y. exact (root_square p Pp P3 P34 y). }
  split; [|split].
  - destruct ok. + destruct (W eq_refl) as (y & O & _ & ->). exists (Aff x y). constructor. exact O. + rewrite (S3 eq_refl). exists Inf. constructor.
  - intros Ok. apply andb_prop in Ok. destruct Ok as [O1 O2]. destruct (W O2) as (y & O & Y & ->). exists x, y. split; [|reflexivity]. split; [exact O|]. split; [exact Y|exact (F2 O1)].
  - intros x' y (O & Y & R). assert (O1 : okx = true) by (apply F1; exists x'; exact R). specialize (F2 O1). rewrite R in F2. apply i2o_inj in F2; try apply fv_range; [|reflexivity]. apply fe_eq in F2. subst x'. rewrite O1. cbn [andb].
    apply S1. exists y. exact O.
Qed.
(* ---- scalars ---- *)
Lemma neg_mult e Q : 0 <= e < n -> on Q -> zm (sc_neg n e) Q = zm (- e) Q.
Proof.
  intros E O. destruct (sc_neg_eqm p d D e E) as [R M]. rewrite <- (zm_mod_pt p d D (sc_neg n e) Q O (PO Q O)), <- (zm_mod_pt p d D (- e) Q O (PO Q O)). unfold eqm in M. rewrite M. reflexivity.
Qed.
Lemma neg_range e : 0 <= e < n -> 0 <= sc_neg n e < n. Proof. intros E. apply (sc_neg_eqm p d D e E). Qed.
(* the multiple of G made good *)
Lemma norm good k X Y : sign_ok good -> 0 < k < n -> zm k G = Aff X Y ->
  let k' := sc_neg_cond n k (negb (good Y)) in 0 < k' < n /\ exists Y', zm k' G = Aff X Y' /\ good Y' = true.
Proof.
  intros [G0 GN] K E. cbv zeta. unfold sc_neg_cond. destruct (good Y) eqn:GY; cbn [negb]; [split; [exact K|]; exists Y; split; assumption|].
  split; [unfold sc_neg; rewrite (proj2 (Z.eqb_neq k 0)) by lia; lia|]. exists (fe_neg Y). rewrite neg_mult, Mneg by (lia || exact Gon). rewrite E. split; [reflexivity|]. rewrite GN, GY; [reflexivity|]. intros ->. congruence.
Qed.
Lemma core e x k : add (zm (sc_add n (sc_mul n e x) k) G) (zm (- e) (zm x G)) = zm k G.
Proof.
  rewrite <- Mmul, <- Madd by exact Gon. apply (eqm_zm p d D). unfold sc_add, sc_mul. pose proof N1.
  change (((e * x) mod n + k) mod n + - e * x ≡ k ⟦ n ⟧). apply eqm_trans with ((e * x + k) + - e * x).
  - apply eqm_add; [|apply eqm_refl]. unfold eqm. rewrite Zmod_mod, Z.add_mod_idemp_l by lia. reflexivity.
  - replace (e * x + k + - e * x) with k by ring. apply eqm_refl.
Qed.
Lemma s_range e x k : 0 <= sc_add n (sc_mul n e x) k < n.
Proof. apply Z.mod_pos_bound. pose proof N1. lia. Qed.
Lemma sc_import_iff sb : bytes sb -> sc_import p c sb = if be_val sb <? n then (be_val sb, true) else (0, false).
Proof. intros _. exact (sc_import_eq p d c C sb). Qed.
Lemma split_sig rb sb : length rb = octs P -> length sb = octs n -> sig_R p (rb ++ sb) = rb /\ sig_S p c (rb ++ sb) = sb.
Proof.
  intros L1 L2. unfold sig_R, sig_S. rewrite (fsize_octs p), (ssize_octs p d D c C). rewrite (firstn_app_exact rb sb _ L1), (skipn_app_exact rb sb _ L1). split; [reflexivity|]. rewrite <- L2. apply firstn_all.
Qed.
Lemma okb_len q l : 0 < q < 2 ^ 1024 -> bytes l -> length l = octs q -> okb l.
Proof. intros Q B L. split; [exact B|]. rewrite L. pose proof (okb_i2o q 0 Q) as [_ H]. rewrite i2o_len in H. exact H. Qed.
Lemma Pr : 0 < P < 2 ^ 1024. Proof. split; [reflexivity|exact small_p]. Qed.
Lemma Nr : 0 < n < 2 ^ 1024. Proof. pose proof N1. split; [lia|exact small_n]. Qed.
(* ---- BIP340 ---- *)
(* the standard: key lifted from x, R = s G - e A affine with even y and the given x *)
Definition valid340 (msg rb sb pub : list Z) : Prop := exists x y, lift even pub x y /\ be_val sb < n /\
  exists X Y, schnorr_point fe add zm G (Aff x y) (be_val sb) (bip340_e xof n rb pub msg) X Y /\ lift even rb X Y.
Lemma wge_even_ok q X Y : wrep q (Aff X Y) -> wge_is_even p q = even Y.
Proof. intros W. rewrite (wrep_aff p d q X Y W). unfold wge_is_even. cbn [wy winf negb]. rewrite andb_true_r. reflexivity. Qed.
Theorem verify340_ok msg rb sb pub : okb msg -> bytes rb -> bytes sb -> bytes pub -> length rb = octs P -> length sb = octs n -> length pub = octs P ->
  exists res, bip340_verify p c msg (rb ++ sb) pub = Ok res /\ (res = true <-> valid340 msg rb sb pub).
Proof.
  intros Bm Br Bs Bp Lr Ls Lp. unfold bip340_verify. destruct (split_sig rb sb Lr Ls) as [-> ->]. rewrite (cx_n _ _ _ C).
  pose proof (fe_import_spec p P3 rb Br Lr) as FI. destruct (fe_import p rb) as [r okr] eqn:EI. destruct FI as [F1 F2].
  destruct okr; cbn [negb]; [|exists false; split; [reflexivity|split; [discriminate|]]; intros (_ & _ & _ & _ & X & Y & _ & _ & _ & R); apply F1; exists X; exact R].
  specialize (F2 eq_refl). rewrite sc_import_iff by exact Bs. destruct (Z.ltb_spec (be_val sb) n) as [S|S]; cbn [negb]; [|exists false; split; [reflexivity|split; [discriminate|]]; intros (_ & _ & _ & S' & _); lia].
  destruct (import_even_ok pub Bp Lp) as (A & okA & E & _ & I1 & I2). rewrite E. cbn [of_opt bind].
  destruct okA; cbn [negb]; [|exists false; split; [reflexivity|split; [discriminate|]]; intros (x & y & L & _); exact (I2 x y L)].
  destruct (I1 eq_refl) as (x & y & LA & ->). rewrite challenge_ok by first [exact Bm | apply (okb_len P _ Pr); assumption]. cbn [bind]. set (e := bip340_e xof n rb pub msg).
  assert (Er : 0 <= e < n) by apply hash_scalar_range. pose proof (be_val_range sb Bs) as SR.
  assert (OA : on (Aff x y)) by apply LA. assert (WA : wrep (MkW x y false) (Aff x y)) by (constructor; exact OA).
  destruct (Mdouble p d D c C (be_val sb) (MkW x y false) (Aff x y) (sc_neg n e) ltac:(lia) (neg_range e Er) WA) as (R & EM & WR). rewrite EM. cbn [of_opt bind]. rewrite (neg_mult e (Aff x y) Er OA) in WR.
  assert (U : forall x' y', lift even pub x' y' -> x' = x /\ y' = y) by (intros x' y' L; exact (lift_unique even pub x' y' x y even_ok L LA)).
  destruct (add (zm (be_val sb) G) (zm (- e) (Aff x y))) as [|X Y] eqn:EQ.
  - assert (ER : R = wge_zero p) by (inversion WR; reflexivity). rewrite ER. unfold wge_is_even. cbn [wge_zero winf negb]. rewrite andb_false_r. cbn [negb]. exists false. split; [reflexivity|]. split; [discriminate|].
    intros (x' & y' & L & _ & X & Y & H & _). destruct (U x' y' L) as [-> ->]. unfold schnorr_point in H. fold e in H. rewrite EQ in H. discriminate.
  - assert (OR : on (Aff X Y)) by (rewrite <- EQ; apply (a_on p Pp P3 a b h ns no2); apply Mon; [exact Gon|exact OA]).
    rewrite (wge_even_ok R X Y WR). assert (H : valid340 msg rb sb pub <-> even Y = true /\ rb = i2o P (fv X)).
    { split.
      - intros (x' & y' & L & _ & X' & Y' & H & LR). destruct (U x' y' L) as [-> ->]. unfold schnorr_point in H. fold e in H. rewrite EQ in H. assert (X = X' /\ Y = Y') as [<- <-] by (split; congruence). destruct LR as (_ & H1 & H2). split; assumption.
      - intros [H1 H2]. exists x, y. split; [exact LA|]. split; [exact S|]. exists X, Y. split; [exact EQ|]. repeat split; assumption. }
    destruct (even Y) eqn:EY; cbn [negb]; [|exists false; split; [reflexivity|split; [discriminate|]]; intros V; apply H in V; destruct V; discriminate].
    rewrite (wrep_aff p d R X Y WR). unfold wge_equal_x. cbn [wx winf negb]. rewrite andb_true_r. destruct (equal_spec p X r) as [EX|NX]; cbn [negb].
    + exists true. split; [reflexivity|]. split; [intros _|reflexivity]. apply H. split; [reflexivity|]. rewrite EX. exact F2.
    + exists false. split; [reflexivity|split; [discriminate|]]. intros V. exfalso. apply H in V. destruct V as [_ V]. apply NX. rewrite F2 in V. apply i2o_inj in V; try apply fv_range; [|reflexivity]. apply fe_eq. congruence.
Qed.
(* keys and signatures made *)
Definition xbytes (Q : point fe) : list Z := match Q with Aff X _ => i2o P (fv X) | Inf => i2o P 0 end.
Definition evenk (k : Z) : Z := match zm k G with Aff _ Y => if even Y then k else n - k | Inf => k end.
Lemma export_x_ok q Q : wrep q Q -> wge_export_x p q = (xbytes Q, match Q with Inf => false | _ => true end).
Proof. intros [|x y O]; unfold wge_export_x, xbytes; cbn [wx winf wge_zero negb]; rewrite (fe_export_eq p); [rewrite fv_f0|]; reflexivity. Qed.
Theorem create340_ok x : 0 < x < n -> exists X Y, zm x G = Aff X Y /\ on (Aff X Y) /\ bip340_pubkey_create p c (i2o n x) = (i2o P (fv X), true).
Proof.
  intros Hx. destruct (mulG p d D x Hx) as (X & Y & E & O). exists X, Y. split; [exact E|]. split; [exact O|]. unfold bip340_pubkey_create. rewrite (priv_read_i2o p d D c C x Hx).
  pose proof (Mul_g p d D c C x) as W. rewrite E in W. rewrite (export_x_ok _ _ W). reflexivity.
Qed.
Lemma evenk_cond k X Y : 0 < k < n -> zm k G = Aff X Y -> sc_neg_cond n k (negb (even Y)) = evenk k.
Proof. intros K E. unfold evenk, sc_neg_cond. rewrite E. destruct (even Y); cbn [negb]; [reflexivity|]. unfold sc_neg. rewrite (proj2 (Z.eqb_neq k 0)) by lia. reflexivity. Qed.
Lemma evenk_ok k X Y : 0 < k < n -> zm k G = Aff X Y -> 0 < evenk k < n /\ exists Y', zm (evenk k) G = Aff X Y' /\ even Y' = true.
Proof. intros K E. rewrite <- (evenk_cond k X Y K E). exact (norm even k X Y even_ok K E). Qed.
Definition okaux (aux : option (list Z)) : Prop := match aux with Some z => okb z | None => True end.
(* the output for a key in range *)
Theorem sign340_ok msg x aux : okb msg -> okaux aux -> 0 < x < n ->
  let pub := xbytes (zm x G) in let k := bip340_k xof n (i2o n (evenk x)) pub msg aux in let rb := xbytes (zm k G) in
  let s := (bip340_e xof n rb pub msg * evenk x + evenk k) mod n in
  exists sig, bip340_sign p c msg (i2o n x) aux = Ok (sig, negb (k =? 0)) /\ (k <> 0 -> sig = rb ++ i2o n s).
Proof.
  intros Bm Ba Hx. cbv zeta. unfold bip340_sign. rewrite (priv_read_i2o p d D c C x Hx), (cx_n _ _ _ C). destruct (mulG p d D x Hx) as (X & Y & EA & OA). pose proof (Mul_g p d D c C x) as WA. rewrite EA in WA |- *.
  rewrite (wge_even_ok _ X Y WA), (evenk_cond x X Y Hx EA), (export_x_ok _ _ WA), (sc_export_eq p d D c C). cbn [xbytes]. destruct (evenk_ok x X Y Hx EA) as (Hx' & Y' & EA' & EY'). set (x' := evenk x) in *. set (pub := i2o P (fv X)).
  rewrite (nonce_ok p d D c C fits (i2o n x') pub msg aux (okb_i2o _ _ Nr) (i2o_len _ _) (okb_i2o _ _ Pr) Bm Ba). cbn [bind]. set (k := bip340_k xof n (i2o n x') pub msg aux).
  assert (Kr : 0 <= k < n) by (apply hash_scalar_range). pose proof (Mul_g p d D c C k) as WR. rewrite (export_x_ok _ _ WR).
  assert (OR : okb (xbytes (zm k G))) by (destruct (zm k G); cbn [xbytes]; apply okb_i2o; exact Pr). rewrite challenge_ok by first [exact Bm | exact OR | apply okb_i2o; exact Pr]. cbn [bind andb].
  destruct (Z.eqb_spec k 0) as [E0|N0]; cbn [negb andb].
  - rewrite E0. change (zm 0 G) with (@Inf fe). eexists. split; [reflexivity|]. intros H. contradiction H. reflexivity.
  - destruct (mulG p d D k ltac:(lia)) as (XR & YR & ER & OnR). rewrite ER in WR |- *. rewrite (wge_even_ok _ XR YR WR), (evenk_cond k XR YR ltac:(lia) ER). eexists. split; [reflexivity|]. intros _. rewrite (sc_export_eq p d D c C). unfold sc_add, sc_mul. rewrite Z.add_mod_idemp_l by lia. reflexivity.
Qed.
Theorem sign340_verifies msg x aux sig : okb msg -> okaux aux -> 0 < x < n -> bip340_sign p c msg (i2o n x) aux = Ok (sig, true) ->
  bip340_verify p c msg sig (fst (bip340_pubkey_create p c (i2o n x))) = Ok true.
Proof.
  intros Bm Ba Hx E. destruct (create340_ok x Hx) as (X & Y & EA & OA & ->). cbn [fst]. destruct (sign340_ok msg x aux Bm Ba Hx) as (sig' & ES & EQ). rewrite EA in ES, EQ. cbn [xbytes] in ES, EQ.
  set (pub := i2o P (fv X)) in *. set (k := bip340_k xof n (i2o n (evenk x)) pub msg aux) in *. assert (Kr : 0 <= k < n) by (apply hash_scalar_range). rewrite E in ES. assert (sig' = sig /\ negb (k =? 0) = true) as [-> NK] by (split; congruence).
  apply negb_true_iff, Z.eqb_neq in NK. specialize (EQ NK). destruct (mulG p d D k ltac:(lia)) as (XR & YR & ER & OR). rewrite ER in EQ. cbn [xbytes] in EQ. set (rb := i2o P (fv XR)) in *. set (s := (bip340_e xof n rb pub msg * evenk x + evenk k) mod n) in *.
  pose proof Nr as NR. assert (Sr : 0 <= s < n) by (apply Z.mod_pos_bound; lia).
  destruct (verify340_ok msg rb (i2o n s) pub Bm (i2o_bytes _ _) (i2o_bytes _ _) (i2o_bytes _ _) (i2o_len _ _) (i2o_len _ _) (i2o_len _ _)) as (res & EV & V). rewrite EQ, EV. f_equal. apply V.
  destruct (evenk_ok x X Y Hx EA) as (Hx' & Y' & EA' & EY'). destruct (evenk_ok k XR YR ltac:(lia) ER) as (Hk' & YR' & ER' & EYR').
  exists X, Y'. split; [split; [rewrite <- EA'; apply Mon; exact Gon|split; [exact EY'|reflexivity]]|]. rewrite i2o_val by lia. split; [lia|]. exists XR, YR'. split; [|split; [rewrite <- ER'; apply Mon; exact Gon|split; [exact EYR'|reflexivity]]].
  unfold schnorr_point. rewrite <- EA'. rewrite <- ER'. rewrite <- (core (bip340_e xof n rb pub msg) (evenk x) (evenk k)). unfold sc_add, sc_mul. rewrite Z.add_mod_idemp_l by lia. reflexivity.
Qed.
End P.
