(* C68 (BIP-Schnorr part): bipschnorr_sign, bipschnorr_verify and bipschnorr_verify_batch of ecc.c. *)
From Coq Require Import Znumtheory.
From Verif.Base Require Import Prelude.
From Verif.Spec Require Import HashSpec EcSpec DsaSpec EcdsaSpec SchnorrSpec.
From Verif.Model Require Import Encoding Hash Drbg Field EcScalar Wei Ecdsa Schnorr Primes.
From Verif.Proof Require Import Cong PrimesProof FieldProof FieldSquare FieldJacobi GrpMul EcScalarProof WeiProof WeiMul WeiCtx EcCodec DsaProof EcdsaProof EcdsaKeys SchnorrProof SchnorrSig SchnorrBatch SchnorrMore.
From Verif.Props Require Import WeiProps EcdsaProps SchnorrProps.
Section C.
Variable p : positive.
Local Notation fe := (fe p).
Local Notation P := (Zpos p).
(* any curve satisfying good_def with p = 3 mod 4, p and n below 2^1024, in which every point has order dividing n (cofactor 1),
   with a hash whose digest covers a scalar, and any context made by wei_init and any number of wei_randomize calls *)
Variable d : wei_def p.
Hypothesis D : good_def p d.
Variable c : wei p.
Hypothesis C : context p d c.
Local Notation n := (d_n p d).
Local Notation a := (d_a p d).
Local Notation b := (d_b p d).
Local Notation on := (on p a b).
Local Notation add := (add p a).
Local Notation zm := (zm p a).
Local Notation G := (Aff (d_x p d) (d_y p d)).
Local Notation xof := (d_xof p d).
Local Notation CO := (context_ok p d D c C).
Hypothesis fits : (octs n <= size_of xof (octs n) <= rate_of xof)%nat.
Hypothesis PO : forall Q, on Q -> zm n Q = Inf.
Hypothesis P34 : P mod 4 = 3.
Hypothesis small_n : n < 2 ^ 1024.
Hypothesis small_p : P < 2 ^ 1024.
Local Notation J := (fun x => jac p (gd_p p d D) (gd_3 p d D) x).
(* the nonce point is the one whose ordinate is a square *)
Definition lift_square (raw : list Z) (Q : point fe) : Prop := on Q /\ exists x y, Q = Aff x y /\ (exists z, fe_mul z z = y) /\ raw = i2o P (fv x).
(* R = s G - e A has the square lift of the first half; e hashes the compressed key *)
Definition bipschnorr_valid (msg sig pub : list Z) : Prop := let r := firstn (octs P) sig in let s := be_val (skipn (octs P) sig) in
  exists x y, on (Aff x y) /\ sec1 P (fv x) (fv y) pub /\ s < n /\ lift_square r (add (zm s G) (zm (- bips_e xof n r (sec1_enc P true (fv x) (fv y)) msg) (Aff x y))).
Lemma bips_lift_iff raw x y : lift p d fe_is_square raw x y <-> lift_square raw (Aff x y).
Proof.
  pose proof (square_exists p (gd_p p d D) (gd_3 p d D) y) as SQ. unfold lift, lift_square. rewrite SQ. split; [intros (O & E & R); split; [exact O|]; exists x, y; split; [reflexivity|split; assumption]|].
  intros (O & x' & y' & EQ & E & R). assert (x' = x /\ y' = y) as [-> ->] by (split; congruence). split; [exact O|split; assumption].
Qed.
Lemma bips_valid_iff msg rb sb pub : length rb = octs P -> valid_bips p d msg rb sb pub <-> bipschnorr_valid msg (rb ++ sb) pub.
Proof.
  intros L. unfold valid_bips, bipschnorr_valid. rewrite (firstn_app_exact rb sb _ L), (skipn_app_exact rb sb _ L). cbv zeta. unfold schnorr_point. split.
  - intros (x & y & OA & SA & S & X & Y & E & LR). exists x, y. split; [exact OA|]. split; [exact SA|]. split; [exact S|]. unfold WeiCtx.G in E. apply bips_lift_iff in LR. rewrite <- E in LR. exact LR.
  - intros (x & y & OA & SA & S & LR). exists x, y. split; [exact OA|]. split; [exact SA|]. split; [exact S|]. pose proof LR as (OR & X & Y & E & ER). exists X, Y. split; [exact E|]. apply bips_lift_iff. rewrite <- E. exact LR.
Qed.
(* verification is exact *)
Theorem C68_bipschnorr_verify_exact msg sig pub : octets msg -> bytes sig -> length sig = (octs P + octs n)%nat -> bytes pub ->
  exists res, bipschnorr_verify p c msg sig pub = Ok res /\ (res = true <-> bipschnorr_valid msg sig pub).
Proof.
  intros M Bs Ls Bp. set (rb := firstn (octs P) sig). set (sb := skipn (octs P) sig). assert (E : rb ++ sb = sig) by apply firstn_skipn. assert (Lr : length rb = octs P) by (unfold rb; rewrite firstn_length; lia).
  destruct (verify_bips_ok p d D c CO fits PO P34 small_p J msg rb sb pub) as (res & EV & H); try assumption; [apply bytes_firstn; exact Bs|apply bytes_skipn; exact Bs|unfold sb; rewrite skipn_length; lia|].
  rewrite E in EV. exists res. split; [exact EV|]. rewrite H, (bips_valid_iff msg rb sb pub Lr), E. reflexivity.
Qed.
(* signing: s = e x + k', k' the nonce negated when its point has a non-square ordinate; it fails only when the nonce is zero *)
Definition square_secret (k k' : Z) : Prop := exists X Y, zm k' G = Aff X Y /\ (exists z, fe_mul z z = Y) /\ (k' = k \/ k' = n - k).
Theorem C68_bipschnorr_sign msg x : octets msg -> 0 < x < n ->
  exists X Y, zm x G = Aff X Y /\ let k := bips_k xof n (i2o n x) msg in let rb := x_of p (zm k G) in
  exists sig, bipschnorr_sign p c msg (i2o n x) = Ok (sig, negb (k =? 0)) /\
    (k <> 0 -> exists k', square_secret k k' /\ sig = rb ++ i2o n ((bips_e xof n rb (sec1_enc P true (fv X) (fv Y)) msg * x + k') mod n)).
Proof.
  intros M X0. destruct (mulG p d D x X0) as (X & Y & EA & OA). exists X, Y. split; [exact EA|]. destruct (sign_bips_ok p d D c CO fits small_n small_p J msg x X Y M X0 EA) as (sig & ES & EQ). cbv zeta in *. exists sig. split; [exact ES|].
  intros NK. exists (squarek p d (bips_k xof n (i2o n x) msg)). split; [|exact (EQ NK)]. set (k := bips_k xof n (i2o n x) msg) in *. assert (Kr : 0 <= k < n) by (pose proof (n_pos p d D) as NP; apply Z.mod_pos_bound; lia).
  destruct (mulG p d D k ltac:(lia)) as (XR & YR & ER & OR). destruct (squarek_ok p d D fits PO P34 J k XR YR ltac:(lia) ER) as (B & Y' & E' & SQ). exists XR, Y'. split; [exact E'|]. split; [apply (square_exists p (gd_p p d D) (gd_3 p d D)); exact SQ|].
  unfold squarek. rewrite ER. destruct (fe_is_square YR); [left|right]; reflexivity.
Qed.
Theorem C68_bipschnorr_sign_verifies msg x sig compact : octets msg -> 0 < x < n ->
  bipschnorr_sign p c msg (i2o n x) = Ok (sig, true) -> bipschnorr_verify p c msg sig (fst (ecdsa_pubkey_create p c (i2o n x) compact)) = Ok true.
Proof. exact (sign_bips_verifies p d D c CO fits PO P34 small_n small_p J msg x sig compact). Qed.
(* batches, as for BIP340 *)
Definition bips_item_ok (it : list Z * list Z * list Z) : Prop := let '(msg, sig, pub) := it in octets msg /\ bytes sig /\ length sig = (octs P + octs n)%nat /\ bytes pub.
Definition bips_item_valid (it : list Z * list Z * list Z) : Prop := let '(msg, sig, pub) := it in bipschnorr_valid msg sig pub.
Lemma bips_item_iff it : bips_item_ok it -> valid_bips_item p d it <-> bips_item_valid it.
Proof.
  destruct it as [[msg sig] pub]. intros (M & Bs & Ls & _). unfold valid_bips_item, bips_item_valid. rewrite bips_valid_iff by (rewrite firstn_length; lia). rewrite firstn_skipn. reflexivity.
Qed.
Lemma bips_items_iff items : Forall bips_item_ok items -> Forall (valid_bips_item p d) items <-> Forall bips_item_valid items.
Proof. induction 1 as [|it l O F IH]; [split; constructor|]. rewrite !Forall_cons_iff, IH, (bips_item_iff it O). reflexivity. Qed.
Theorem C68_bipschnorr_batch_valid rf size items : (2 <= size)%nat -> Forall bips_item_ok items -> Forall bips_item_valid items ->
  bipschnorr_verify_batch p rf c size items = Ok true \/ bipschnorr_verify_batch p rf c size items = Fail.
Proof. intros S F V. apply (batch_bips_ok p d D c CO fits PO P34 small_n small_p J rf size items S F). apply bips_items_iff; assumption. Qed.
Theorem C68_bipschnorr_batch_one_invalid rf size l1 it l2 : (2 <= size)%nat -> Forall bips_item_ok (l1 ++ it :: l2) -> Forall bips_item_valid l1 -> ~ bips_item_valid it -> Forall bips_item_valid l2 ->
  bipschnorr_verify_batch p rf c size (l1 ++ it :: l2) = Ok false \/ bipschnorr_verify_batch p rf c size (l1 ++ it :: l2) = Fail.
Proof.
  intros S F V1 NV V2. destruct (batch_bips_ok p d D c CO fits PO P34 small_n small_p J rf size _ S F) as (_ & H & _). apply Forall_app in F. destruct F as [F1 F2]. apply Forall_cons_iff in F2. destruct F2 as [F0 F2].
  apply (H l1 it l2 eq_refl); [apply bips_items_iff; assumption| |apply bips_items_iff; assumption]. rewrite (bips_item_iff it F0). exact NV.
Qed.
Theorem C68_bipschnorr_batch_exact rf size items : (2 <= size)%nat -> Forall bips_item_ok items -> (size <= 3)%nat \/ (length items <= 1)%nat ->
  exists r, bipschnorr_verify_batch p rf c size items = Ok r /\ (r = true <-> Forall bips_item_valid items).
Proof. intros S F H. destruct (batch_bips_ok p d D c CO fits PO P34 small_n small_p J rf size items S F) as (_ & _ & K). destruct (K H) as (r & E & R). exists r. split; [exact E|]. rewrite R. apply bips_items_iff. exact F. Qed.
End C.
(* the same two keys: one signature with a negated nonce; a batch in compressed form, and a changed scalar *)
Example C68_bipschnorr_ex : exists c, context c43 d43 c /\ bipschnorr_sign c43 c [1; 2; 3] [9] = Ok ([21; 17], true) /\ bipschnorr_sign c43 c [1; 2; 3] [23] = Ok ([35; 16], true) /\
  bipschnorr_verify c43 c [1; 2; 3] [21; 17] [2; 20] = Ok true /\ bipschnorr_verify_batch c43 0 c 2 [([1; 2; 3], [21; 17], [2; 20]); ([1; 2; 3], [35; 16], [3; 32])] = Ok true /\
  bipschnorr_verify c43 c [1; 2; 3] [21; 31] [2; 20] = Ok false.
Proof.
  destruct init43 as (naf & E). pose proof (ctx_init _ _ _ E) as C. exists (e43 naf). split; [exact C|]. destruct hyps43 as (H1 & H2 & H3 & H4).
  assert (S1 : bipschnorr_sign c43 (e43 naf) [1; 2; 3] [9] = Ok ([21; 17], true)) by (vm_compute; reflexivity). split; [exact S1|].
  assert (S2 : bipschnorr_sign c43 (e43 naf) [1; 2; 3] [23] = Ok ([35; 16], true)) by (vm_compute; reflexivity). split; [exact S2|].
  assert (K1 : fst (ecdsa_pubkey_create c43 (e43 naf) [9] true) = [2; 20]) by (vm_compute; reflexivity). assert (K2 : fst (ecdsa_pubkey_create c43 (e43 naf) [23] true) = [3; 32]) by (vm_compute; reflexivity).
  assert (M : octets [1; 2; 3]) by (apply oct43; [reflexivity|cbn; lia]).
  assert (V1 : bipschnorr_verify c43 (e43 naf) [1; 2; 3] [21; 17] [2; 20] = Ok true). { rewrite <- K1. apply (C68_bipschnorr_sign_verifies c43 d43 d43_good (e43 naf) C H1 po43 H2 H3 H4 [1; 2; 3] 9 _ true); [exact M|split; reflexivity|exact S1]. }
  assert (V2 : bipschnorr_verify c43 (e43 naf) [1; 2; 3] [35; 16] [3; 32] = Ok true). { rewrite <- K2. apply (C68_bipschnorr_sign_verifies c43 d43 d43_good (e43 naf) C H1 po43 H2 H3 H4 [1; 2; 3] 23 _ true); [exact M|split; reflexivity|exact S2]. }
  split; [exact V1|]. assert (B : forall u v, forallb (fun v => (0 <=? v) && (v <? 256)) [u; v] = true -> bytes [u; v]) by (intros u v F; apply (oct43 [u; v] F); cbn; lia).
  assert (W : forall u v w z, forallb (fun v => (0 <=? v) && (v <? 256)) [u; v] = true -> forallb (fun v => (0 <=? v) && (v <? 256)) [w; z] = true -> bipschnorr_verify c43 (e43 naf) [1; 2; 3] [u; v] [w; z] = Ok true -> bipschnorr_valid c43 d43 [1; 2; 3] [u; v] [w; z]).
  { intros u v w z F1 F2 V. destruct (C68_bipschnorr_verify_exact c43 d43 d43_good (e43 naf) C H1 po43 H2 H4 [1; 2; 3] [u; v] [w; z] M (B u v F1) eq_refl (B w z F2)) as (r & E1 & E2). apply E2. congruence. }
  split.
  - destruct (C68_bipschnorr_batch_exact c43 d43 d43_good (e43 naf) C H1 po43 H2 H3 H4 0 2 [([1; 2; 3], [21; 17], [2; 20]); ([1; 2; 3], [35; 16], [3; 32])]) as (r & E1 & E2); [lia| |left; lia|].
    + apply Forall_cons; [|apply Forall_cons; [|apply Forall_nil]]; (refine (conj M (conj (B _ _ _) (conj eq_refl (B _ _ _)))); reflexivity).
    + rewrite E1. f_equal. apply E2. apply Forall_cons; [|apply Forall_cons; [|apply Forall_nil]]; apply W; try reflexivity; assumption.
  - vm_compute. reflexivity.
Qed.

(* the axioms of every theorem above, listed at once *)
Definition BipSchnorrProps_all := (@C68_bipschnorr_verify_exact, @C68_bipschnorr_sign, @C68_bipschnorr_sign_verifies, @C68_bipschnorr_batch_valid,
  @C68_bipschnorr_batch_one_invalid, @C68_bipschnorr_batch_exact).
Print Assumptions BipSchnorrProps_all.
