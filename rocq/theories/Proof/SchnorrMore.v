(* BIP-Schnorr, batches of both schemes, BIP340 tweaks and agreement. *)
From Verif.Base Require Import Prelude.
From Coq Require Import Znumtheory.
From Verif.Model Require Import Encoding Bio Hash Drbg NumTheory Rsa Field EcScalar Wei Ecdsa Schnorr.
From Verif.Spec Require Import HashSpec EcSpec DsaSpec EcdsaSpec SchnorrSpec.
From Verif.Proof Require Import Cong FieldProof FieldSquare EcGroup GrpMul EcScalarProof WeiProof WeiMul WeiCtx EcCodec Rfc6979 EcdsaProof EcdsaKeys SchnorrProof SchnorrSig SchnorrBatch.
Lemma octs_small q : 0 < q < 2 ^ 1024 -> Z.of_nat (octs q) <= 128.
Proof. intros Q. pose proof (octs_ge q ltac:(lia)) as (_ & O). unfold blen in O. assert (Z.log2 q < 1024) by (apply Z.log2_lt_pow2; [lia|apply Q]). clear - O H. lia. Qed.
Section P.
Variable p : positive.
Local Notation fe := (Field.fe p).
Variable d : wei_def p.
Hypothesis D : good_def p d.
Variable c : wei p.
Hypothesis C : ctx_ok p d c.
Local Notation P := (Zpos p).
Local Notation a := (d_a p d).
Local Notation b := (d_b p d).
Local Notation h := (d_h p d).
Local Notation n := (d_n p d).
Local Notation on := (on' p a b).
Local Notation add := (padd' p a).
Local Notation neg := (pneg' p).
Local Notation jrep := (jrep p a b).
Local Notation wrep := (wrep p a b).
Local Notation zm := (zm p a).
Local Notation G := (G p d).
Local Notation Pp := (gd_p _ _ D).
Local Notation P3 := (gd_3 _ _ D).
Local Notation ns := (gd_ns _ _ D).
Local Notation no2 := (gd_no2 _ _ D).
Local Notation N1 := (N1 p d D).
Local Notation xof := (d_xof p d).
Local Notation Mon := (m_on p Pp P3 a b h ns no2).
Local Notation Madd := (m_add p Pp P3 a b h ns no2).
Local Notation Mmul := (m_mul p Pp P3 a b h ns no2).
Local Notation Mneg := (m_neg p Pp P3 a b h ns no2).
Local Notation Gon := (G_on p d D).
Add Ring fring : (FieldProof.ring_th p).
Hypothesis fits : (octs n <= size_of xof (octs n) <= rate_of xof)%nat.
Hypothesis PO : forall Q, on Q -> zm n Q = Inf.
Hypothesis P34 : P mod 4 = 3.
Hypothesis small_n : n < 2 ^ 1024.
Hypothesis small_p : P < 2 ^ 1024.
Local Notation hash_scalar_range := (hash_int_range p d D).
Local Notation challenge_ok := (challenge_ok p d D c C fits).
(* ---- the lifts of an x coordinate ---- *)
Local Notation lift := (lift p d).
Local Notation even := (even p).
Local Notation sq := (@fe_is_square p).
Local Notation Pr := (Pr p small_p).
Local Notation Nr := (Nr p d D fits small_n).
Local Notation sqok := (square_ok p d D P34).
Local Notation evok := (even_ok p d D).
Local Notation lift_unique := (lift_unique p d D).
Local Notation neg_mult := (neg_mult p d D PO).
Local Notation neg_range := (neg_range p d D).
Local Notation split_sig := (split_sig p d D c C).
Local Notation defect := (defect p d).
Local Notation dec_spec := (dec_spec p d).
(* ---- BIP340 batches ---- *)
Definition item := (list Z * list Z * list Z)%type.
Definition okitem340 (it : item) : Prop := let '(msg, sig, pub) := it in okb msg /\ bytes sig /\ length sig = (octs P + octs n)%nat /\ bytes pub /\ length pub = octs P.
Definition valid340_item (it : item) : Prop := let '(msg, sig, pub) := it in valid340 p d msg (firstn (octs P) sig) (skipn (octs P) sig) pub.
Lemma dec340_ok it : okitem340 it -> dec_spec item (bip340_item p c) valid340_item it.
Proof.
  destruct it as [[msg sig] pub]. intros (Bm & Bs & Ls & Bp & Lp). unfold SchnorrBatch.dec_spec, bip340_item, valid340_item.
  set (rb := firstn (octs P) sig). set (sb := skipn (octs P) sig). assert (Lr : length rb = octs P) by (unfold rb; rewrite firstn_length; lia). assert (Lsb : length sb = octs n) by (unfold sb; rewrite skipn_length; lia).
  assert (Brb : bytes rb) by (apply bytes_firstn; exact Bs). assert (Bsb : bytes sb) by (apply bytes_skipn; exact Bs). assert (ES : rb ++ sb = sig) by apply firstn_skipn. destruct (split_sig rb sb Lr Lsb) as [S1 S2]. rewrite ES in S1, S2. rewrite S1, S2.
  rewrite (sc_import_iff p d c C sb Bsb). destruct (Z.ltb_spec (be_val sb) n) as [S|S]; cbn [negb]; [|left; split; [reflexivity|]; intros (_ & _ & _ & S' & _); lia].
  destruct (import_even_ok p d D c C P34 rb Brb Lr) as (R & okR & ER & _ & R1 & R2). rewrite ER. cbn [of_opt bind].
  destruct okR; cbn [negb]; [|left; split; [reflexivity|]; intros (_ & _ & _ & _ & X & Y & _ & LR); specialize (R2 X Y LR); discriminate]. destruct (R1 eq_refl) as (X & Y & LR & ->).
  destruct (import_even_ok p d D c C P34 pub Bp Lp) as (A & okA & EA & _ & A1 & A2). rewrite EA. cbn [of_opt bind].
  destruct okA; cbn [negb]; [|left; split; [reflexivity|]; intros (x & y & LA & _); specialize (A2 x y LA); discriminate]. destruct (A1 eq_refl) as (x & y & LA & ->).
  rewrite challenge_ok by first [exact Bm | apply (okb_len P _ Pr); assumption]. cbn [bind]. right. set (e := bip340_e xof n rb pub msg).
  exists (be_val sb), (MkW X Y false), (MkW x y false), e, (Aff X Y), (Aff x y). split; [reflexivity|]. pose proof (be_val_range sb Bsb) as SR. split; [lia|]. split; [apply hash_scalar_range|].
  assert (OR : on (Aff X Y)) by apply LR. assert (OA : on (Aff x y)) by apply LA. split; [constructor; exact OR|]. split; [constructor; exact OA|]. rewrite (defect_iff p d D) by assumption. split.
  - intros (x' & y' & LA' & _ & X' & Y' & H & LR'). destruct (lift_unique even pub x' y' x y evok LA' LA) as [-> ->]. destruct (lift_unique even rb X' Y' X Y evok LR' LR) as [-> ->]. exact H.
  - intros H. exists x, y. split; [exact LA|]. split; [exact S|]. exists X, Y. split; [exact H|exact LR].
Qed.
Lemma key340_ok it : okitem340 it -> okitem (bip340_key p c it).
Proof.
  destruct it as [[msg sig] pub]. intros (Bm & Bs & Ls & Bp & Lp). unfold bip340_key, okitem. rewrite (fsize_octs p), (ssize_octs p d D c C), <- Ls. rewrite (firstn_all sig), <- Lp, (firstn_all pub). cbn [fst snd].
  split; [exact Bm|]. split; [|apply (okb_len P _ Pr); [exact Bp|congruence]]. split; [exact Bs|]. rewrite Ls. pose proof (octs_small P Pr) as HP. pose proof (octs_small n Nr) as HN. clear - HP HN. lia.
Qed.
Theorem batch340_ok rf size items : (2 <= size)%nat -> Forall okitem340 items ->
  (Forall valid340_item items -> bip340_verify_batch p rf c size items = Ok true \/ bip340_verify_batch p rf c size items = Fail) /\
  (forall l1 t l2, items = l1 ++ t :: l2 -> Forall valid340_item l1 -> ~ valid340_item t -> Forall valid340_item l2 -> bip340_verify_batch p rf c size items = Ok false \/ bip340_verify_batch p rf c size items = Fail) /\
  ((size <= 3)%nat \/ (length items <= 1)%nat -> exists r, bip340_verify_batch p rf c size items = Ok r /\ (r = true <-> Forall valid340_item items)).
Proof.
  intros S F. apply (batch_ok p d D c C PO); [exact S| |].
  - apply Forall_forall. intros it I. rewrite Forall_forall in F. apply dec340_ok. exact (F it I).
  - apply Forall_forall. intros k I. apply in_map_iff in I. destruct I as (it & <- & I). rewrite Forall_forall in F. apply key340_ok. exact (F it I).
Qed.
Theorem batch340_abort rf size items : (size < 2)%nat -> bip340_verify_batch p rf c size items = Abort.
Proof. intros S. unfold bip340_verify_batch, verify_batch. rewrite (proj2 (Nat.ltb_lt size 2) S). reflexivity. Qed.
(* ---- BIP-Schnorr ---- *)
Hypothesis jac : forall x : fe, fe_is_square_var x = Some (fe_is_square x).
Definition valid_bips (msg rb sb pub : list Z) : Prop := exists x y, on (Aff x y) /\ sec1 P (fv x) (fv y) pub /\ be_val sb < n /\
  exists X Y, schnorr_point fe add zm G (Aff x y) (be_val sb) (bips_e xof n rb (sec1_enc P true (fv x) (fv y)) msg) X Y /\ lift sq rb X Y.
Lemma okb_enc x y : okb (sec1_enc P true x y).
Proof.
  unfold sec1_enc. pose proof (octs_small P Pr) as O. pose proof (Z.mod_pos_bound y 2 eq_refl). split; [apply Forall_cons; [unfold byte; lia|apply i2o_bytes]|]. cbn [length]. rewrite i2o_len. clear - O. lia.
Qed.
Lemma jsquare q X Y : jrep q (Aff X Y) -> jge_is_square_var p q = Some (sq Y).
Proof.
  intros J. inversion J as [|x y z af X' Y' NZ EX EY AF O E1 E2]; subst. unfold jge_is_square_var. cbn [jinf jy jz]. rewrite jac. f_equal.
  replace (fe_mul (fe_mul Y (fe_mul (fe_mul z z) z)) z) with (fe_mul Y (fe_mul (fe_mul z z) (fe_mul z z))) by ring. apply (square_mul_sq p Pp P3). intros H. apply NZ. apply (mul_eq_0 p Pp _ z NZ) in H. exact H.
Qed.
Lemma jequal_x q X Y r : jrep q (Aff X Y) -> jge_equal_x p q r = fe_equal X r.
Proof.
  intros J. inversion J as [|x y z af X' Y' NZ EX EY AF O E1 E2]; subst. unfold jge_equal_x. cbn [jinf jx jz negb]. rewrite andb_true_r. unfold fe_sqr.
  destruct (equal_spec p X r) as [-> |N]; [replace (fe_mul r (fe_mul z z)) with (fe_mul (fe_mul z z) r) by ring; destruct (equal_spec p (fe_mul (fe_mul z z) r) (fe_mul (fe_mul z z) r)); congruence|].
  destruct (equal_spec p (fe_mul X (fe_mul z z)) (fe_mul (fe_mul z z) r)) as [E|]; [|reflexivity]. exfalso. apply N. apply (cancel_r p Pp X r (fe_mul z z)); [intros H; apply NZ; exact (mul_eq_0 p Pp _ z NZ H)|]. rewrite E. ring.
Qed.
Theorem verify_bips_ok msg rb sb pub : okb msg -> bytes rb -> bytes sb -> bytes pub -> length rb = octs P -> length sb = octs n ->
  exists res, bipschnorr_verify p c msg (rb ++ sb) pub = Ok res /\ (res = true <-> valid_bips msg rb sb pub).
Proof.
  intros Bm Br Bs Bp Lr Ls. unfold bipschnorr_verify. destruct (split_sig rb sb Lr Ls) as [-> ->]. rewrite (cx_n _ _ _ C).
  pose proof (fe_import_spec p P3 rb Br Lr) as FI. destruct (fe_import p rb) as [r okr] eqn:EI. destruct FI as [F1 F2].
  destruct okr; cbn [negb]; [|exists false; split; [reflexivity|split; [discriminate|]]; intros (_ & _ & _ & _ & _ & X & Y & _ & _ & _ & R); apply F1; exists X; exact R].
  specialize (F2 eq_refl). rewrite (sc_import_iff p d c C sb Bs). destruct (Z.ltb_spec (be_val sb) n) as [S|S]; cbn [negb]; [|exists false; split; [reflexivity|split; [discriminate|]]; intros (_ & _ & _ & _ & S' & _); lia].
  destruct (import_sound p d D c C pub Bp (fun _ => P34)) as (A & okA & E & _ & I1). rewrite E. cbn [of_opt bind].
  destruct okA; cbn [negb]; [|exists false; split; [reflexivity|split; [discriminate|]]; intros (x & y & O & Sc & _); rewrite (import_complete p d D c C x y pub (fun _ => P34) O Sc) in E; discriminate].
  destruct (I1 eq_refl) as (x & y & OA & Sc & ->). assert (WA : wrep (MkW x y false) (Aff x y)) by (constructor; exact OA). rewrite (export_eq p d _ _ true WA). cbn [negb].
  rewrite (bips_challenge_ok p d D c C fits) by first [exact Bm | apply okb_enc | apply (okb_len P _ Pr); assumption]. cbn [bind]. set (e := bips_e xof n rb (sec1_enc P true (fv x) (fv y)) msg).
  assert (Er : 0 <= e < n) by apply hash_scalar_range. pose proof (be_val_range sb Bs) as SR.
  destruct (Jdouble p d D c C (be_val sb) (MkW x y false) (Aff x y) (sc_neg n e) ltac:(lia) (neg_range e Er) WA) as (R & EM & WR). rewrite EM. cbn [of_opt bind]. rewrite (neg_mult e (Aff x y) Er OA) in WR.
  assert (U : forall x' y', on (Aff x' y') -> sec1 P (fv x') (fv y') pub -> x' = x /\ y' = y).
  { intros x' y' O' S'. rewrite (import_complete p d D c C x' y' pub (fun _ => P34) O' S') in E. split; congruence. }
  destruct (add (zm (be_val sb) G) (zm (- e) (Aff x y))) as [|X Y] eqn:EQ.
  - inversion WR; subst. cbn [jge_is_square_var jge_zero jinf of_opt bind negb]. exists false. split; [reflexivity|]. split; [discriminate|].
    intros (x' & y' & O' & S' & _ & X & Y & H & _). destruct (U x' y' O' S') as [-> ->]. unfold schnorr_point in H. fold e in H. rewrite EQ in H. discriminate.
  - assert (OR : on (Aff X Y)) by (rewrite <- EQ; apply (a_on p Pp P3 a b h ns no2); apply Mon; [exact Gon|exact OA]).
    rewrite (jsquare R X Y WR), (jequal_x R X Y r WR). cbn [of_opt bind]. assert (H : valid_bips msg rb sb pub <-> sq Y = true /\ rb = i2o P (fv X)).
    { split.
      - intros (x' & y' & O' & S' & _ & X' & Y' & H & LR). destruct (U x' y' O' S') as [-> ->]. unfold schnorr_point in H. fold e in H. rewrite EQ in H. assert (X = X' /\ Y = Y') as [<- <-] by (split; congruence). destruct LR as (_ & H1 & H2). split; assumption.
      - intros [H1 H2]. exists x, y. split; [exact OA|]. split; [exact Sc|]. split; [exact S|]. exists X, Y. split; [exact EQ|]. repeat split; assumption. }
    destruct (sq Y) eqn:EY; cbn [negb]; [|exists false; split; [reflexivity|split; [discriminate|]]; intros V; apply H in V; destruct V; discriminate].
    destruct (equal_spec p X r) as [EX|NX]; cbn [negb].
    + exists true. split; [reflexivity|]. split; [intros _|reflexivity]. apply H. split; [reflexivity|]. rewrite EX. exact F2.
    + exists false. split; [reflexivity|split; [discriminate|]]. intros V. exfalso. apply H in V. destruct V as [_ V]. apply NX. rewrite F2 in V. apply i2o_inj in V; try apply fv_range; [|reflexivity]. apply fe_eq. congruence.
Qed.
(* signing *)
Local Notation xbytes := (xbytes p).
Definition squarek (k : Z) : Z := match zm k G with Aff _ Y => if sq Y then k else n - k | Inf => k end.
Lemma squarek_cond k X Y : 0 < k < n -> zm k G = Aff X Y -> sc_neg_cond n k (negb (sq Y)) = squarek k.
Proof. intros K E. unfold squarek, sc_neg_cond. rewrite E. destruct (sq Y); cbn [negb]; [reflexivity|]. unfold sc_neg. rewrite (proj2 (Z.eqb_neq k 0)) by lia. reflexivity. Qed.
Lemma squarek_ok k X Y : 0 < k < n -> zm k G = Aff X Y -> 0 < squarek k < n /\ exists Y', zm (squarek k) G = Aff X Y' /\ sq Y' = true.
Proof. intros K E. rewrite <- (squarek_cond k X Y K E). exact (norm p d D fits PO sq k X Y sqok K E). Qed.
Theorem sign_bips_ok msg x X Y : okb msg -> 0 < x < n -> zm x G = Aff X Y ->
  let k := bips_k xof n (i2o n x) msg in let rb := xbytes (zm k G) in
  let s := (bips_e xof n rb (sec1_enc P true (fv X) (fv Y)) msg * x + squarek k) mod n in
  exists sig, bipschnorr_sign p c msg (i2o n x) = Ok (sig, negb (k =? 0)) /\ (k <> 0 -> sig = rb ++ i2o n s).
Proof.
  intros Bm Hx EA. cbv zeta. unfold bipschnorr_sign. rewrite (priv_read_i2o p d D c C x Hx), (cx_n _ _ _ C). pose proof (Mul_g p d D c C x) as WA. rewrite EA in WA.
  rewrite (bips_nonce_ok p d D c C fits (i2o n x) msg (okb_i2o _ _ Nr) (i2o_len _ _) Bm). cbn [bind]. set (k := bips_k xof n (i2o n x) msg).
  assert (Kr : 0 <= k < n) by (apply hash_scalar_range). pose proof (Mul_g p d D c C k) as WR. rewrite (export_x_ok p d _ _ WR), (export_eq p d _ _ true WA). set (Araw := sec1_enc P true (fv X) (fv Y)).
  assert (OR : okb (xbytes (zm k G))) by (destruct (zm k G); cbn [SchnorrSig.xbytes]; apply okb_i2o; exact Pr). rewrite (bips_challenge_ok p d D c C fits) by first [exact Bm | exact OR | apply okb_enc]. cbn [bind andb].
  destruct (Z.eqb_spec k 0) as [E0|N0]; cbn [negb andb].
  - rewrite E0. change (zm 0 G) with (@Inf fe). eexists. split; [reflexivity|]. intros H. contradiction H. reflexivity.
  - destruct (mulG p d D k ltac:(lia)) as (XR & YR & ER & OnR). rewrite ER in WR |- *. replace (wge_is_square p (mul_g p c k)) with (sq YR) by (rewrite (wrep_aff p d _ XR YR WR); unfold wge_is_square; cbn [wy winf negb]; rewrite andb_true_r; reflexivity).
    rewrite (squarek_cond k XR YR ltac:(lia) ER). eexists. split; [reflexivity|]. intros _. rewrite (sc_export_eq p d D c C). unfold sc_add, sc_mul. rewrite Z.add_mod_idemp_l by lia. reflexivity.
Qed.
Theorem sign_bips_verifies msg x sig compact : okb msg -> 0 < x < n -> bipschnorr_sign p c msg (i2o n x) = Ok (sig, true) ->
  bipschnorr_verify p c msg sig (fst (ecdsa_pubkey_create p c (i2o n x) compact)) = Ok true.
Proof.
  intros Bm Hx E. rewrite (create_enc p d D c C x compact Hx). destruct (mulG p d D x Hx) as (X & Y & EA & OA). rewrite EA. unfold penc. cbn [fst]. destruct (sign_bips_ok msg x X Y Bm Hx EA) as (sig' & ES & EQ). cbv zeta in ES, EQ.
  set (k := bips_k xof n (i2o n x) msg) in *. assert (Kr : 0 <= k < n) by (apply hash_scalar_range). rewrite E in ES. assert (sig' = sig /\ negb (k =? 0) = true) as [-> NK] by (split; congruence).
  apply negb_true_iff, Z.eqb_neq in NK. specialize (EQ NK). destruct (mulG p d D k ltac:(lia)) as (XR & YR & ER & OR). rewrite ER in EQ. cbn [SchnorrSig.xbytes] in EQ. set (rb := i2o P (fv XR)) in *. set (Araw := sec1_enc P true (fv X) (fv Y)) in *. set (s := (bips_e xof n rb Araw msg * x + squarek k) mod n) in *.
  pose proof Nr as NR. assert (Sr : 0 <= s < n) by (apply Z.mod_pos_bound; lia). set (pub := sec1_enc P compact (fv X) (fv Y)).
  assert (Bp : bytes pub). { unfold pub, sec1_enc. pose proof (Z.mod_pos_bound (fv Y) 2 eq_refl). destruct compact; (apply Forall_cons; [unfold byte; lia|]); [apply i2o_bytes|apply bytes_app; split; apply i2o_bytes]. }
  destruct (verify_bips_ok msg rb (i2o n s) pub Bm (i2o_bytes _ _) (i2o_bytes _ _) Bp (i2o_len _ _) (i2o_len _ _)) as (res & EV & V). rewrite EQ, EV. f_equal. apply V.
  destruct (squarek_ok k XR YR ltac:(lia) ER) as (Hk' & YR' & ER' & EYR').
  exists X, Y. split; [exact OA|]. split; [apply (sec1_enc_ok p)|]. rewrite i2o_val by lia. split; [lia|]. exists XR, YR'. split; [|split; [rewrite <- ER'; apply Mon; exact Gon|split; [exact EYR'|reflexivity]]].
  unfold schnorr_point. rewrite <- EA, <- ER'. fold Araw. rewrite <- (core p d D fits (bips_e xof n rb Araw msg) x (squarek k)). unfold sc_add, sc_mul. rewrite Z.add_mod_idemp_l by lia. reflexivity.
Qed.
(* batches *)
Definition okitem_bips (it : item) : Prop := let '(msg, sig, pub) := it in okb msg /\ bytes sig /\ length sig = (octs P + octs n)%nat /\ bytes pub.
Definition valid_bips_item (it : item) : Prop := let '(msg, sig, pub) := it in valid_bips msg (firstn (octs P) sig) (skipn (octs P) sig) pub.
Lemma dec_bips_ok it : okitem_bips it -> dec_spec item (bipschnorr_item p c) valid_bips_item it.
Proof.
  destruct it as [[msg sig] pub]. intros (Bm & Bs & Ls & Bp). unfold SchnorrBatch.dec_spec, bipschnorr_item, valid_bips_item.
  set (rb := firstn (octs P) sig). set (sb := skipn (octs P) sig). assert (Lr : length rb = octs P) by (unfold rb; rewrite firstn_length; lia). assert (Lsb : length sb = octs n) by (unfold sb; rewrite skipn_length; lia).
  assert (Brb : bytes rb) by (apply bytes_firstn; exact Bs). assert (Bsb : bytes sb) by (apply bytes_skipn; exact Bs). assert (ES : rb ++ sb = sig) by apply firstn_skipn. destruct (split_sig rb sb Lr Lsb) as [S1 S2]. rewrite ES in S1, S2. rewrite S1, S2.
  rewrite (sc_import_iff p d c C sb Bsb). destruct (Z.ltb_spec (be_val sb) n) as [S|S]; cbn [negb]; [|left; split; [reflexivity|]; intros (_ & _ & _ & _ & S' & _); lia].
  destruct (import_square_ok p d D c C P34 rb Brb Lr) as (R & okR & ER & _ & R1 & R2). rewrite ER. cbn [of_opt bind].
  destruct okR; cbn [negb]; [|left; split; [reflexivity|]; intros (_ & _ & _ & _ & _ & X & Y & _ & LR); specialize (R2 X Y LR); discriminate]. destruct (R1 eq_refl) as (X & Y & LR & ->).
  destruct (import_sound p d D c C pub Bp (fun _ => P34)) as (A & okA & E & _ & I1). rewrite E. cbn [of_opt bind].
  destruct okA; cbn [negb]; [|left; split; [reflexivity|]; intros (x & y & O & Sc & _); rewrite (import_complete p d D c C x y pub (fun _ => P34) O Sc) in E; discriminate].
  destruct (I1 eq_refl) as (x & y & OA & Sc & ->). assert (WA : wrep (MkW x y false) (Aff x y)) by (constructor; exact OA). rewrite (export_eq p d _ _ true WA). cbn [negb].
  rewrite (bips_challenge_ok p d D c C fits) by first [exact Bm | apply okb_enc | apply (okb_len P _ Pr); assumption]. cbn [bind]. right. set (e := bips_e xof n rb (sec1_enc P true (fv x) (fv y)) msg).
  exists (be_val sb), (MkW X Y false), (MkW x y false), e, (Aff X Y), (Aff x y). split; [reflexivity|]. pose proof (be_val_range sb Bsb) as SR. split; [lia|]. split; [apply hash_scalar_range|].
  assert (OR : on (Aff X Y)) by apply LR. split; [constructor; exact OR|]. split; [exact WA|]. rewrite (defect_iff p d D) by assumption. split.
  - intros (x' & y' & O' & S' & _ & X' & Y' & H & LR'). rewrite (import_complete p d D c C x' y' pub (fun _ => P34) O' S') in E. assert (x' = x /\ y' = y) as [-> ->] by (split; congruence). destruct (lift_unique sq rb X' Y' X Y sqok LR' LR) as [-> ->]. exact H.
  - intros H. exists x, y. split; [exact OA|]. split; [exact Sc|]. split; [exact S|]. exists X, Y. split; [exact H|exact LR].
Qed.
Lemma key_bips_ok it : okitem_bips it -> okitem (bipschnorr_key p c it).
Proof.
  destruct it as [[msg sig] pub]. intros (Bm & Bs & Ls & Bp). unfold bipschnorr_key, okitem. rewrite (fsize_octs p), (ssize_octs p d D c C), <- Ls. rewrite (firstn_all sig). cbn [fst snd].
  pose proof (octs_small P Pr) as HP. pose proof (octs_small n Nr) as HN. split; [exact Bm|]. split; [split; [exact Bs|]; rewrite Ls; clear - HP HN; lia|].
  destruct (Nat.eqb_spec (length pub) (octs P + 1)) as [L1|_]; [split; [exact Bp|rewrite L1; clear - HP; lia]|]. destruct (Nat.eqb_spec (length pub) (octs P * 2 + 1)) as [L2|_].
  - split.
    + apply Forall_cons; [|apply bytes_firstn; destruct pub; [constructor|inversion Bp; assumption]]. assert (H : Z.land (last pub 0) 1 = 0 \/ Z.land (last pub 0) 1 = 1). { pose proof (Z.land_ones (last pub 0) 1 ltac:(lia)) as LO. change (Z.ones 1) with 1 in LO. rewrite LO. change (2 ^ 1) with 2. pose proof (Z.mod_pos_bound (last pub 0) 2 eq_refl). lia. }
      destruct H as [-> | ->]; [change (Z.lor 2 0) with 2|change (Z.lor 2 1) with 3]; unfold byte; lia.
    + cbn [length]. pose proof (firstn_le_length (octs P) (tl pub)). rewrite firstn_length. clear - HP. lia.
  - split; [apply Forall_forall; intros z I; apply repeat_spec in I; subst z; unfold byte; lia|]. rewrite repeat_length. clear - HP. lia.
Qed.
Theorem batch_bips_ok rf size items : (2 <= size)%nat -> Forall okitem_bips items ->
  (Forall valid_bips_item items -> bipschnorr_verify_batch p rf c size items = Ok true \/ bipschnorr_verify_batch p rf c size items = Fail) /\
  (forall l1 t l2, items = l1 ++ t :: l2 -> Forall valid_bips_item l1 -> ~ valid_bips_item t -> Forall valid_bips_item l2 -> bipschnorr_verify_batch p rf c size items = Ok false \/ bipschnorr_verify_batch p rf c size items = Fail) /\
  ((size <= 3)%nat \/ (length items <= 1)%nat -> exists r, bipschnorr_verify_batch p rf c size items = Ok r /\ (r = true <-> Forall valid_bips_item items)).
Proof.
  intros S F. apply (batch_ok p d D c C PO); [exact S| |].
  - apply Forall_forall. intros it I. rewrite Forall_forall in F. apply dec_bips_ok. exact (F it I).
  - apply Forall_forall. intros k I. apply in_map_iff in I. destruct I as (it & <- & I). rewrite Forall_forall in F. apply key_bips_ok. exact (F it I).
Qed.
End P.
