(* C68 and C69 (Schnorr part): BIP340 of ecc.c. *)
From Coq Require Import Znumtheory.
From Verif.Base Require Import Prelude.
From Verif.Spec Require Import HashSpec EcSpec DsaSpec EcdsaSpec SchnorrSpec.
From Verif.Model Require Import Encoding Hash Drbg Field EcScalar Wei Ecdsa Schnorr Primes.
From Verif.Proof Require Import Cong PrimesProof FieldProof FieldSquare GrpMul EcScalarProof WeiProof WeiMul WeiCtx EcCodec DsaProof EcdsaProof EcdsaKeys SchnorrProof SchnorrSig SchnorrBatch SchnorrMore SchnorrTweak.
From Verif.Props Require Import WeiProps EcdsaProps.
Section C.
Variable p : positive.
Local Notation fe := (fe p).
Local Notation P := (Zpos p).
(* any curve satisfying good_def with p = 3 mod 4, p and n below 2^1024, in which every point has order dividing n (cofactor 1),
   with a hash whose digest covers a scalar, and any context made by wei_init and any number of wei_randomize calls *)
Variable d : wei_def p.
Hypothesis D : good_def p d.
Variable c : wei p.
Hypothesis C : context p d c.
Local Notation n := (d_n p d).
Local Notation a := (d_a p d).
Local Notation b := (d_b p d).
Local Notation on := (on p a b).
Local Notation add := (add p a).
Local Notation zm := (zm p a).
Local Notation G := (Aff (d_x p d) (d_y p d)).
Local Notation xof := (d_xof p d).
Local Notation CO := (context_ok p d D c C).
Hypothesis fits : (octs n <= size_of xof (octs n) <= rate_of xof)%nat.
Hypothesis PO : forall Q, on Q -> zm n Q = Inf.
Hypothesis P34 : P mod 4 = 3.
Hypothesis small_n : n < 2 ^ 1024.
Hypothesis small_p : P < 2 ^ 1024.
(* an octet string short enough to be hashed *)
Definition octets (m : list Z) : Prop := bytes m /\ Z.of_nat (length m) < 2 ^ 64.
(* the BIP340 reading of an x coordinate: the point with that x and an even y *)
Definition lift_x (raw : list Z) (Q : point fe) : Prop := on Q /\ exists x y, Q = Aff x y /\ Z.even (fv y) = true /\ raw = i2o P (fv x).
(* BIP340: R = s G - e A has the even lift of the first half *)
Definition bip340_valid (msg sig pub : list Z) : Prop := let r := firstn (octs P) sig in let s := be_val (skipn (octs P) sig) in
  exists A, lift_x pub A /\ s < n /\ lift_x r (add (zm s G) (zm (- bip340_e xof n r pub msg) A)).
Lemma lift_iff raw x y : lift p d (even p) raw x y <-> lift_x raw (Aff x y).
Proof.
  unfold lift, lift_x. rewrite even_spec. split; [intros (O & E & R); split; [exact O|]; exists x, y; split; [reflexivity|split; assumption]|].
  intros (O & x' & y' & EQ & E & R). assert (x' = x /\ y' = y) as [-> ->] by (split; congruence). repeat split; assumption.
Qed.
Lemma valid_iff msg rb sb pub : length rb = octs P -> valid340 p d msg rb sb pub <-> bip340_valid msg (rb ++ sb) pub.
Proof.
  intros L. unfold valid340, bip340_valid. rewrite (firstn_app_exact rb sb _ L), (skipn_app_exact rb sb _ L). cbv zeta. unfold schnorr_point. split.
  - intros (x & y & LA & S & X & Y & E & LR). exists (Aff x y). split; [apply lift_iff; exact LA|]. split; [exact S|]. unfold WeiCtx.G in E. apply lift_iff in LR. rewrite <- E in LR. exact LR.
  - intros (A & LA & S & LR). destruct LA as [OA (x & y & -> & EA)]. exists x, y. split; [apply lift_iff; split; [exact OA|exists x, y; split; [reflexivity|exact EA]]|]. split; [exact S|].
    pose proof LR as (OR & X & Y & E & ER). exists X, Y. split; [exact E|]. apply lift_iff. rewrite <- E. exact LR.
Qed.
(* ---- C68 ---- *)
(* verification is exact *)
Theorem C68_bip340_verify_exact msg sig pub : octets msg -> bytes sig -> length sig = (octs P + octs n)%nat -> bytes pub -> length pub = octs P ->
  exists res, bip340_verify p c msg sig pub = Ok res /\ (res = true <-> bip340_valid msg sig pub).
Proof.
  intros M Bs Ls Bp Lp. set (rb := firstn (octs P) sig). set (sb := skipn (octs P) sig). assert (E : rb ++ sb = sig) by apply firstn_skipn. assert (Lr : length rb = octs P) by (unfold rb; rewrite firstn_length; lia).
  destruct (verify340_ok p d D c CO fits PO P34 small_p msg rb sb pub) as (res & EV & H); try assumption; [apply bytes_firstn; exact Bs|apply bytes_skipn; exact Bs|unfold sb; rewrite skipn_length; lia|].
  rewrite E in EV. exists res. split; [exact EV|]. rewrite H, (valid_iff msg rb sb pub Lr), E. reflexivity.
Qed.
(* signing gives the signature of BIP340, and fails only when the nonce is zero *)
Definition even_secret (x : Z) : Z := match zm x G with Aff _ y => if Z.even (fv y) then x else n - x | Inf => x end.
Definition x_of (Q : point fe) : list Z := match Q with Aff x _ => i2o P (fv x) | Inf => i2o P 0 end.
Lemma secret_iff x : evenk p d x = even_secret x.
Proof. unfold evenk, even_secret. unfold WeiCtx.G. destruct (zm x _) as [|X Y]; [reflexivity|]. rewrite even_spec. reflexivity. Qed.
Theorem C68_bip340_sign msg x aux : octets msg -> match aux with Some z => octets z | None => True end -> 0 < x < n ->
  let pub := x_of (zm x G) in let k := bip340_k xof n (i2o n (even_secret x)) pub msg aux in let rb := x_of (zm k G) in
  exists sig, bip340_sign p c msg (i2o n x) aux = Ok (sig, negb (k =? 0)) /\ (k <> 0 -> sig = rb ++ i2o n ((bip340_e xof n rb pub msg * even_secret x + even_secret k) mod n)).
Proof. intros M A X. cbv zeta. rewrite <- !secret_iff. exact (sign340_ok p d D c CO fits PO small_n small_p msg x aux M A X). Qed.
Theorem C68_bip340_sign_verifies msg x aux sig : octets msg -> match aux with Some z => octets z | None => True end -> 0 < x < n ->
  bip340_sign p c msg (i2o n x) aux = Ok (sig, true) -> bip340_verify p c msg sig (fst (bip340_pubkey_create p c (i2o n x))) = Ok true.
Proof. exact (sign340_verifies p d D c CO fits PO P34 small_n small_p msg x aux sig). Qed.
(* batches. rf bounds the draws of the rejection sampler; Fail means that it gave up. size is the scratch size *)
Definition item_ok (it : list Z * list Z * list Z) : Prop := let '(msg, sig, pub) := it in octets msg /\ bytes sig /\ length sig = (octs P + octs n)%nat /\ bytes pub /\ length pub = octs P.
Definition item_valid (it : list Z * list Z * list Z) : Prop := let '(msg, sig, pub) := it in bip340_valid msg sig pub.
Lemma item_iff it : item_ok it -> valid340_item p d it <-> item_valid it.
Proof.
  destruct it as [[msg sig] pub]. intros (M & Bs & Ls & _). unfold valid340_item, item_valid. rewrite valid_iff by (rewrite firstn_length; lia). rewrite firstn_skipn. reflexivity.
Qed.
Lemma items_iff items : Forall item_ok items -> Forall (valid340_item p d) items <-> Forall item_valid items.
Proof. induction 1 as [|it l O F IH]; [split; constructor|]. rewrite !Forall_cons_iff, IH, (item_iff it O). reflexivity. Qed.
Theorem C68_bip340_batch_valid rf size items : (2 <= size)%nat -> Forall item_ok items -> Forall item_valid items ->
  bip340_verify_batch p rf c size items = Ok true \/ bip340_verify_batch p rf c size items = Fail.
Proof. intros S F V. apply (batch340_ok p d D c CO fits PO P34 small_n small_p rf size items S F). apply items_iff; assumption. Qed.
(* a single forgery among valid signatures is refused whatever the coefficients *)
Theorem C68_bip340_batch_one_invalid rf size l1 it l2 : (2 <= size)%nat -> Forall item_ok (l1 ++ it :: l2) -> Forall item_valid l1 -> ~ item_valid it -> Forall item_valid l2 ->
  bip340_verify_batch p rf c size (l1 ++ it :: l2) = Ok false \/ bip340_verify_batch p rf c size (l1 ++ it :: l2) = Fail.
Proof.
  intros S F V1 NV V2. destruct (batch340_ok p d D c CO fits PO P34 small_n small_p rf size _ S F) as (_ & H & _). apply Forall_app in F. destruct F as [F1 F2]. apply Forall_cons_iff in F2. destruct F2 as [F0 F2].
  apply (H l1 it l2 eq_refl); [apply items_iff; assumption| |apply items_iff; assumption]. rewrite (item_iff it F0). exact NV.
Qed.
(* with scratch space for one signature, or on at most one signature, the batch is exact and never gives up *)
Theorem C68_bip340_batch_exact rf size items : (2 <= size)%nat -> Forall item_ok items -> (size <= 3)%nat \/ (length items <= 1)%nat ->
  exists r, bip340_verify_batch p rf c size items = Ok r /\ (r = true <-> Forall item_valid items).
Proof. intros S F H. destruct (batch340_ok p d D c CO fits PO P34 small_n small_p rf size items S F) as (_ & _ & K). destruct (K H) as (r & E & R). exists r. split; [exact E|]. rewrite R. apply items_iff. exact F. Qed.
(* ---- C69 ---- *)
Theorem C69_bip340_create x : 0 < x < n -> exists X Y, zm x G = Aff X Y /\ bip340_pubkey_create p c (i2o n x) = (i2o P (fv X), true).
Proof. intros Hx. destruct (create340_ok p d D c CO x Hx) as (X & Y & E & _ & EC). exists X, Y. split; [exact E|exact EC]. Qed.
Theorem C69_bip340_pubkey_exact pub : bytes pub -> length pub = octs P -> exists ok, bip340_pubkey_verify p c pub = Some ok /\ (ok = true <-> exists Q, lift_x pub Q).
Proof.
  intros B L. destruct (verify_pub p d D c CO P34 pub B L) as (ok & E & H). exists ok. split; [exact E|]. rewrite H. split; [intros (x & y & K); exists (Aff x y); apply lift_iff; exact K|].
  intros (Q & K). pose proof K as (_ & x & y & -> & _). exists x, y. apply lift_iff. exact K.
Qed.
Theorem C69_bip340_derive_agrees x y : 0 < x < n -> 0 < y < n -> exists X Y, zm (x * y) G = Aff X Y /\
  bip340_derive p c (fst (bip340_pubkey_create p c (i2o n y))) (i2o n x) = Some (i2o P (fv X), true) /\
  bip340_derive p c (fst (bip340_pubkey_create p c (i2o n x))) (i2o n y) = Some (i2o P (fv X), true).
Proof. exact (derive340_agree p d D c CO fits PO P34 x y). Qed.
(* tweaking the secret and tweaking the key give the same key; the additive tweak is relative to the even secret *)
Theorem C69_bip340_tweak_add x t : 0 < x < n -> 0 <= t < n -> (even_secret x + t) mod n <> 0 ->
  bip340_privkey_tweak_add p c (i2o n x) (i2o n t) = (i2o n ((even_secret x + t) mod n), true) /\ exists sg,
  bip340_pubkey_tweak_add p c (fst (bip340_pubkey_create p c (i2o n x))) (i2o n t) =
    Some (fst (bip340_pubkey_create p c (i2o n ((even_secret x + t) mod n))), sg, true) /\
  (sg = false <-> even_secret ((even_secret x + t) mod n) = (even_secret x + t) mod n).
Proof.
  intros Hx Ht N. rewrite <- secret_iff in *. destruct (tweak_add_ok p d D c CO fits PO P34 x t Hx Ht) as [E1 E2]. cbv zeta in E1, E2. set (y := (evenk p d x + t) mod n) in *. rewrite (proj2 (Z.eqb_neq y 0) N) in E1, E2. split; [exact E1|].
  pose proof (prime_ge_2 _ (gd_n _ _ D)) as N2. assert (Hy : 0 < y < n) by (pose proof (Z.mod_pos_bound (evenk p d x + t) n ltac:(lia)); fold y in H; lia).
  destruct (create340_ok p d D c CO y Hy) as (X & Y & E & _ & EC). rewrite E2, EC, E. cbn [fst negb]. exists (oddpt p (Aff X Y)). split; [reflexivity|]. rewrite <- secret_iff. cbn [oddpt]. split.
  - intros H. unfold evenk. rewrite E. apply negb_false_iff in H. rewrite H. reflexivity.
  - intros H. destruct (evenk_ok p d D fits PO y X Y Hy E) as (_ & Y' & E' & EY). rewrite H, E in E'. assert (Y' = Y) by congruence. subst Y'. rewrite EY. reflexivity.
Qed.
Theorem C69_bip340_tweak_add_infinity x t : 0 < x < n -> 0 <= t < n -> (even_secret x + t) mod n = 0 ->
  snd (bip340_privkey_tweak_add p c (i2o n x) (i2o n t)) = false /\ exists out sg, bip340_pubkey_tweak_add p c (fst (bip340_pubkey_create p c (i2o n x))) (i2o n t) = Some (out, sg, false).
Proof.
  intros Hx Ht N. rewrite <- secret_iff in *. destruct (tweak_add_ok p d D c CO fits PO P34 x t Hx Ht) as [-> ->]. rewrite N. cbn [snd]. split; [reflexivity|]. eexists _, _. reflexivity.
Qed.
Theorem C69_bip340_tweak_mul x t : 0 < x < n -> 0 < t < n ->
  bip340_privkey_tweak_mul p c (i2o n x) (i2o n t) = (i2o n ((x * t) mod n), true) /\ exists sg,
  bip340_pubkey_tweak_mul p c (fst (bip340_pubkey_create p c (i2o n x))) (i2o n t) = Some (fst (bip340_pubkey_create p c (i2o n ((x * t) mod n))), sg, true).
Proof.
  intros Hx Ht. pose proof (tweak_mul_ok p d D c CO fits PO P34 x t Hx ltac:(lia)) as [E1 _]. cbv zeta in E1. rewrite (proj2 (Z.eqb_neq _ 0) (nz_prod p d D x t Hx Ht)) in E1. split; [exact E1|].
  destruct (tweak_mul_commutes p d D c CO fits PO P34 x t Hx Ht) as (sg & E). rewrite E1 in E. exists sg. exact E.
Qed.
(* the check functions accept exactly the pair returned by the tweak *)
Theorem C69_bip340_tweak_checks pub tweak expect sg :
  (bip340_pubkey_tweak_add_check p c pub tweak expect sg = Some true <-> bip340_pubkey_tweak_add p c pub tweak = Some (expect, sg, true)) /\
  (bip340_pubkey_tweak_mul_check p c pub tweak expect sg = Some true <-> bip340_pubkey_tweak_mul p c pub tweak = Some (expect, sg, true)).
Proof. split; apply check_ok. Qed.
(* the exported secret is the even one, with its point *)
Theorem C69_bip340_export x : 0 < x < n -> exists X Y, zm (even_secret x) G = Aff X Y /\ Z.even (fv Y) = true /\
  bip340_privkey_export p c (i2o n x) = ((i2o n (even_secret x), i2o P (fv X), i2o P (fv Y)), true).
Proof. intros Hx. rewrite <- secret_iff. destruct (export_priv_ok p d D c CO fits PO P34 x Hx) as (X & Y & E & EY & EE). exists X, Y. rewrite even_spec in EY. split; [exact E|]. split; [exact EY|exact EE]. Qed.
End C.

(* the curve of C65_ex: 31 points, all multiples of the base point *)
Lemma po43 Q : WeiProps.on c43 (d_a c43 d43) (d_b c43 d43) Q -> WeiMul.zm c43 (d_a c43 d43) (d_n c43 d43) Q = Inf.
Proof.
  intros O. destruct Q as [|x y]; [reflexivity|].
  assert (A : forallb (fun u => forallb (fun v => let x := fe_of c43 u in let y := fe_of c43 v in
     if fe_equal (fe_mul y y) (fe_add (fe_add (fe_mul (fe_mul x x) x) (fe_mul (fe_of c43 0) x)) (fe_of c43 7)) then
       match WeiMul.zm c43 (fe_of c43 0) 31 (Aff x y) with Inf => true | _ => false end else true) (zseq 0 43)) (zseq 0 43) = true) by (vm_compute; reflexivity).
  pose proof (forall_zseq _ 0 43 A (fv x) (fv_range _ x)) as B. cbv beta in B. pose proof (forall_zseq _ 0 43 B (fv y) (fv_range _ y)) as E. cbv beta zeta in E. clear A B.
  rewrite !fe_of_fv in E. change (d_a c43 d43) with (fe_of c43 0) in *. change (d_b c43 d43) with (fe_of c43 7) in *. change (d_n c43 d43) with 31.
  destruct (equal_spec c43 (fe_mul y y) (fe_add (fe_add (fe_mul (fe_mul x x) x) (fe_mul (fe_of c43 0) x)) (fe_of c43 7))) as [_|N]; [|exfalso; apply N; exact O].
  destruct (WeiMul.zm c43 (fe_of c43 0) 31 (Aff x y)); [reflexivity|discriminate].
Qed.
Lemma hyps43 : (octs (d_n c43 d43) <= size_of (d_xof c43 d43) (octs (d_n c43 d43)) <= rate_of (d_xof c43 d43))%nat /\ Zpos c43 mod 4 = 3 /\ d_n c43 d43 < 2 ^ 1024 /\ Zpos c43 < 2 ^ 1024.
Proof.
  split; [|split; [reflexivity|split; vm_compute; reflexivity]]. change (octs (d_n c43 d43)) with 1%nat. change (d_xof c43 d43) with SHA256. split; apply Nat.leb_le; vm_compute; reflexivity.
Qed.
Lemma oct43 l : forallb (fun v => (0 <=? v) && (v <? 256)) l = true -> (length l < 100)%nat -> octets l.
Proof. intros F L. split; [apply Forall_forall; intros v I; rewrite forallb_forall in F; specialize (F v I); unfold byte; lia|lia]. Qed.
(* two keys, one negated when lifted; a batch of their signatures and one with a changed message *)
Example C68_bip340_ex : exists c, context c43 d43 c /\ bip340_sign c43 c [1; 2; 3] [9] None = Ok ([13; 14], true) /\ bip340_sign c43 c [1; 2; 3] [23] (Some [7]) = Ok ([2; 30], true) /\
  bip340_verify c43 c [1; 2; 3] [13; 14] [20] = Ok true /\ bip340_verify_batch c43 0 c 2 [([1; 2; 3], [13; 14], [20]); ([1; 2; 3], [2; 30], [32])] = Ok true /\
  bip340_verify c43 c [1; 2; 3] [13; 31] [20] = Ok false.
Proof.
  destruct init43 as (naf & E). pose proof (ctx_init _ _ _ E) as C. exists (e43 naf). split; [exact C|]. destruct hyps43 as (H1 & H2 & H3 & H4).
  assert (S1 : bip340_sign c43 (e43 naf) [1; 2; 3] [9] None = Ok ([13; 14], true)) by (vm_compute; reflexivity). split; [exact S1|].
  assert (S2 : bip340_sign c43 (e43 naf) [1; 2; 3] [23] (Some [7]) = Ok ([2; 30], true)) by (vm_compute; reflexivity). split; [exact S2|].
  assert (K1 : fst (bip340_pubkey_create c43 (e43 naf) [9]) = [20]) by (vm_compute; reflexivity). assert (K2 : fst (bip340_pubkey_create c43 (e43 naf) [23]) = [32]) by (vm_compute; reflexivity).
  assert (M : octets [1; 2; 3]) by (apply oct43; [reflexivity|cbn; lia]). assert (B7 : octets [7]) by (apply oct43; [reflexivity|cbn; lia]).
  assert (V1 : bip340_verify c43 (e43 naf) [1; 2; 3] [13; 14] [20] = Ok true). { rewrite <- K1. apply (C68_bip340_sign_verifies c43 d43 d43_good (e43 naf) C H1 po43 H2 H3 H4 [1; 2; 3] 9 None); [exact M|exact Logic.I|split; reflexivity|exact S1]. }
  assert (V2 : bip340_verify c43 (e43 naf) [1; 2; 3] [2; 30] [32] = Ok true). { rewrite <- K2. apply (C68_bip340_sign_verifies c43 d43 d43_good (e43 naf) C H1 po43 H2 H3 H4 [1; 2; 3] 23 (Some [7])); [exact M|exact B7|split; reflexivity|exact S2]. }
  split; [exact V1|]. assert (B : forall u v, forallb (fun v => (0 <=? v) && (v <? 256)) [u; v] = true -> bytes [u; v]) by (intros u v F; apply (oct43 [u; v] F); cbn; lia). assert (B1 : forall u, forallb (fun v => (0 <=? v) && (v <? 256)) [u] = true -> bytes [u]) by (intros u F; apply (oct43 [u] F); cbn; lia).
  assert (W : forall u v w, forallb (fun v => (0 <=? v) && (v <? 256)) [u; v] = true -> forallb (fun v => (0 <=? v) && (v <? 256)) [w] = true -> bip340_verify c43 (e43 naf) [1; 2; 3] [u; v] [w] = Ok true -> bip340_valid c43 d43 [1; 2; 3] [u; v] [w]).
  { intros u v w F1 F2 V. destruct (C68_bip340_verify_exact c43 d43 d43_good (e43 naf) C H1 po43 H2 H4 [1; 2; 3] [u; v] [w] M (B u v F1) eq_refl (B1 w F2) eq_refl) as (r & E1 & E2). apply E2. congruence. }
  split.
  - destruct (C68_bip340_batch_exact c43 d43 d43_good (e43 naf) C H1 po43 H2 H3 H4 0 2 [([1; 2; 3], [13; 14], [20]); ([1; 2; 3], [2; 30], [32])]) as (r & E1 & E2); [lia| |left; lia|].
    + apply Forall_cons; [|apply Forall_cons; [|apply Forall_nil]]; (refine (conj M (conj (B _ _ _) (conj eq_refl (conj (B1 _ _) eq_refl)))); reflexivity).
    + rewrite E1. f_equal. apply E2. apply Forall_cons; [|apply Forall_cons; [|apply Forall_nil]]; apply W; try reflexivity; assumption.
  - vm_compute. reflexivity.
Qed.
Example C69_bip340_ex naf : fst (bip340_pubkey_create c43 (e43 naf) [9]) = [20] /\ bip340_pubkey_tweak_add c43 (e43 naf) [20] [5] = Some ([34], false, true) /\ bip340_privkey_tweak_add c43 (e43 naf) [9] [5] = ([14], true) /\
  fst (bip340_pubkey_create c43 (e43 naf) [14]) = [34] /\ bip340_derive c43 (e43 naf) [20] [23] = Some ([42], true) /\ bip340_derive c43 (e43 naf) [32] [9] = Some ([42], true) /\
  bip340_pubkey_tweak_add_check c43 (e43 naf) [20] [5] [34] true = Some false.
Proof. vm_compute. repeat split; reflexivity. Qed.

(* the axioms of every theorem above, listed at once *)
Definition SchnorrProps_all := (@C68_bip340_verify_exact, @C68_bip340_sign, @C68_bip340_sign_verifies, @C68_bip340_batch_valid, @C68_bip340_batch_one_invalid,
  @C68_bip340_batch_exact, @C69_bip340_create, @C69_bip340_pubkey_exact, @C69_bip340_derive_agrees, @C69_bip340_tweak_add, @C69_bip340_tweak_add_infinity,
  @C69_bip340_tweak_mul, @C69_bip340_tweak_checks, @C69_bip340_export).
Print Assumptions SchnorrProps_all.
