(* C86 public keys by coordinates and sums of x-only keys. *)
From Coq Require Import Znumtheory.
From Verif.Base Require Import Prelude.
From Verif.Spec Require Import HashSpec EcSpec DsaSpec EcdsaSpec SchnorrSpec.
From Verif.Model Require Import Encoding Hash Field EcScalar Wei Ecdsa Schnorr PubKeys.
From Verif.Proof Require Import FieldProof GrpMul WeiProof WeiMul WeiCtx EcCodec EcdsaProof EcdsaKeys SchnorrSig SchnorrTweak PubKeysProof.
From Verif.Props Require Import WeiProps EcdsaProps SchnorrProps.
Section C.
Variable p : positive.
Local Notation fe := (fe p).
Local Notation P := (Zpos p).
(* any curve satisfying good_def, and any context made by wei_init and any number of wei_randomize calls *)
Variable d : wei_def p.
Hypothesis D : good_def p d.
Variable c : wei p.
Hypothesis C : context p d c.
Local Notation n := (d_n p d).
Local Notation a := (d_a p d).
Local Notation b := (d_b p d).
Local Notation on := (on p a b).
Local Notation add := (add p a).
Local Notation CO := (context_ok p d D c C).
Local Notation lift_x := (lift_x p d).
Local Notation x_of := (x_of p).
(* the point that two strings of coordinates stand for: big-endian numbers of any length; the second string may be empty,
   and then the sign says whether the second coordinate is odd, or -1 that it may be either *)
Definition denotes (xr yr : list Z) (sign : Z) (X Y : fe) : Prop := xr <> [] /\ on (Aff X Y) /\ fv X = be_val xr /\
  (yr <> [] -> fv Y = be_val yr) /\ (yr = [] -> sign = -1 \/ Z.odd (fv Y) = (sign =? 1)).
Lemma denotes_iff xr yr sign X Y : stands p d xr yr sign X Y <-> denotes xr yr sign X Y.
Proof. reflexivity. Qed.
(* C86: accepted exactly when there is such a point, and the key is the encoding of one *)
Theorem C86_pubkey_import xr yr sign compact : bytes xr -> bytes yr -> (xr = [] \/ yr = [] -> P mod 4 = 3) -> sign = -1 \/ sign = 0 \/ sign = 1 ->
  exists out ok, ecdsa_pubkey_import p c xr yr sign compact = Some (out, ok) /\ (ok = true <-> exists X Y, denotes xr yr sign X Y) /\
    (ok = true -> exists X Y, denotes xr yr sign X Y /\ out = sec1_enc P compact (fv X) (fv Y)).
Proof. exact (pubkey_import_ok p d D c CO xr yr sign compact). Qed.
(* C86: leading zeros do not matter; with a sign or a second coordinate there is at most one such point *)
Theorem C86_pubkey_import_unique xr yr sign X Y X' Y' : yr <> [] \/ sign <> -1 -> denotes xr yr sign X Y -> denotes xr yr sign X' Y' -> X = X' /\ Y = Y'.
Proof.
  intros U (_ & O & EX & EY & S) (_ & O' & EX' & EY' & S'). assert (X = X') by (apply fe_eq; congruence). subst X'. split; [reflexivity|]. destruct (list_eq_dec Z.eq_dec yr []) as [E|N]; [|apply fe_eq; rewrite (EY N), (EY' N); reflexivity].
  destruct U as [U|U]; [contradiction|]. destruct (S E) as [|SO]; [contradiction|]. destruct (S' E) as [|SO']; [contradiction|]. apply (root_parity p (gd_p _ _ D) (gd_3 _ _ D)); [|unfold fe_is_odd; congruence].
  apply (on_iff p (gd_p _ _ D) a b (gd_ns _ _ D)) in O. apply (on_iff p (gd_p _ _ D) a b (gd_ns _ _ D)) in O'. congruence.
Qed.
(* C86: export gives the two coordinates of a key, and fails exactly on strings that are no key *)
Theorem C86_pubkey_export pub : bytes pub -> (compressed pub -> P mod 4 = 3) -> exists xr yr ok, ecdsa_pubkey_export p c pub = Some (xr, yr, ok) /\
  (ok = true <-> exists X Y, on (Aff X Y) /\ sec1 P (fv X) (fv Y) pub) /\ (forall X Y, on (Aff X Y) -> sec1 P (fv X) (fv Y) pub -> xr = i2o P (fv X) /\ yr = i2o P (fv Y)).
Proof.
  intros B M. destruct (import_sound p d D c CO pub B M) as (q & ok & E & _ & I1). unfold ecdsa_pubkey_export. rewrite E. eexists _, _, ok. split; [reflexivity|]. split.
  - split; [intros K; destruct (I1 K) as (X & Y & O & S & _); exists X, Y; auto|]. intros (X & Y & O & S). rewrite (import_complete p d D c CO X Y pub M O S) in E. congruence.
  - intros X Y O S. rewrite (import_complete p d D c CO X Y pub M O S) in E. assert (q = MkW X Y false) as -> by congruence. rewrite !(fe_export_eq p). split; reflexivity.
Qed.
(* C86: a key exported and imported again is the same key *)
Theorem C86_pubkey_roundtrip X Y pub sign compact : sign = -1 \/ sign = 0 \/ sign = 1 -> on (Aff X Y) -> sec1 P (fv X) (fv Y) pub -> (compressed pub -> P mod 4 = 3) -> exists xr yr, ecdsa_pubkey_export p c pub = Some (xr, yr, true) /\
  ecdsa_pubkey_import p c xr yr sign compact = Some (sec1_enc P compact (fv X) (fv Y), true).
Proof.
  intros SG O S M. exists (i2o P (fv X)), (i2o P (fv Y)). split; [exact (pubkey_export_ok p d D c CO X Y pub O S M)|]. assert (NE : forall v, i2o P v <> []). { intros v E. apply (f_equal (@length Z)) in E. rewrite i2o_len in E. pose proof (octs_pos P eq_refl). cbn in E. lia. }
  destruct (C86_pubkey_import (i2o P (fv X)) (i2o P (fv Y)) sign compact (i2o_bytes _ _) (i2o_bytes _ _) ltac:(intros [E|E]; destruct (NE _ E)) SG) as (out & ok & E & H1 & H2).
  assert (DN : denotes (i2o P (fv X)) (i2o P (fv Y)) sign X Y). { split; [apply NE|]. split; [exact O|]. rewrite !i2o_val by (try reflexivity; apply fv_range). split; [reflexivity|]. split; [reflexivity|]. intros K. destruct (NE _ K). }
  assert (OK : ok = true) by (apply H1; exists X, Y; exact DN). destruct (H2 OK) as (X' & Y' & DN' & ->). destruct (C86_pubkey_import_unique _ _ _ _ _ _ _ (or_introl (NE _)) DN DN') as (<- & <-). rewrite E, OK. reflexivity.
Qed.
(* C86: a secret of any length is accepted exactly when its value is in range *)
Theorem C86_privkey_import raw : bytes raw -> let '(out, ok) := ecdsa_privkey_import p c raw in (ok = true <-> 0 < be_val raw < n) /\ (ok = true -> out = i2o n (be_val raw)).
Proof. exact (privkey_import_ok p d D c CO raw). Qed.
(* ---- x-only keys ---- *)
Hypothesis P34 : P mod 4 = 3.
Theorem C86_bip340_import xr yr : bytes xr -> bytes yr -> exists out ok, bip340_pubkey_import p c xr yr = Some (out, ok) /\ (ok = true <-> exists X Y, denotes xr yr (-1) X Y) /\
  (ok = true -> out = i2o P (be_val xr)).
Proof.
  intros Bx By. destruct (pubkey340_import_ok p d D c CO xr yr Bx By P34) as (out & ok & E & H1 & H2). exists out, ok. split; [exact E|]. split; [exact H1|]. intros K. destruct (H2 K) as (X & Y & (_ & _ & <- & _) & ->). reflexivity.
Qed.
Theorem C86_bip340_export pub : bytes pub -> length pub = octs P -> exists xr yr ok, bip340_pubkey_export p c pub = Some (xr, yr, ok) /\ (ok = true <-> exists Q, lift_x pub Q) /\
  (forall X Y, lift_x pub (Aff X Y) -> xr = pub /\ yr = i2o P (fv Y)).
Proof.
  intros B L. destruct (import_even_ok p d D c CO P34 pub B L) as (q & ok & E & _ & I1 & I2). unfold bip340_pubkey_export. rewrite E. eexists _, _, ok. split; [reflexivity|]. split.
  - split; [intros K; destruct (I1 K) as (X & Y & LF & _); exists (Aff X Y); apply lift_iff; exact LF|]. intros (Q & K). pose proof K as (_ & X & Y & -> & _). apply (I2 X Y). apply lift_iff. exact K.
  - intros X Y K. apply lift_iff in K. pose proof (I2 X Y K) as OK. destruct (I1 OK) as (X' & Y' & K' & ->). destruct (lift_unique p d D (even p) pub X' Y' X Y (even_ok p d D) K' K) as (-> & ->). cbn [wx wy]. rewrite !(fe_export_eq p). split; [symmetry; apply K|reflexivity].
Qed.
(* C86: the x coordinate of the sum of the even points; the point at infinity is reported *)
Definition not_inf (Q : point fe) : bool := match Q with Inf => false | Aff _ _ => true end.
Theorem C86_bip340_add pub1 pub2 Q1 Q2 : lift_x pub1 Q1 -> lift_x pub2 Q2 -> bip340_pubkey_add p c pub1 pub2 = Some (x_of (add Q1 Q2), not_inf (add Q1 Q2)).
Proof.
  intros (O & X & Y & -> & E & ->) (O' & X' & Y' & -> & E' & ->). rewrite <- (even_spec p) in E, E'. rewrite (pubkey340_add_ok p d D c CO P34 X Y X' Y' O E O' E'). destruct (padd' p a (Aff X Y) (Aff X' Y')) eqn:EQ; change (padd' p a) with add in EQ; rewrite EQ; reflexivity.
Qed.
Theorem C86_bip340_add_bad pub1 pub2 : bytes pub1 -> length pub1 = octs P -> bytes pub2 -> length pub2 = octs P -> (forall Q, ~ lift_x pub1 Q) \/ (forall Q, ~ lift_x pub2 Q) ->
  exists out, bip340_pubkey_add p c pub1 pub2 = Some (out, false).
Proof.
  intros B1 L1 B2 L2 N. assert (BAD : forall pub X Y, (forall Q, ~ lift_x pub Q) -> ~ SchnorrSig.lift p d (even p) pub X Y) by (intros pub X Y H K; apply (H (Aff X Y)); apply lift_iff; exact K).
  destruct (import_even_ok p d D c CO P34 pub1 B1 L1) as (q1 & ok1 & E1 & _ & I1 & _). destruct (import_even_ok p d D c CO P34 pub2 B2 L2) as (q2 & ok2 & E2 & _ & I2 & _). unfold bip340_pubkey_add. rewrite E1, E2. destruct (wge_export_x _ _) as [out ok]. exists out. f_equal. f_equal.
  destruct ok1; [|reflexivity]. destruct (I1 eq_refl) as (X & Y & K & _). destruct N as [N|N]; [destruct (BAD _ X Y N K)|]. destruct ok2; [|reflexivity]. destruct (I2 eq_refl) as (X' & Y' & K' & _). destruct (BAD _ X' Y' N K').
Qed.
Fixpoint point_sum (l : list (point fe)) : point fe := match l with [] => Inf | Q :: l => add Q (point_sum l) end.
Theorem C86_bip340_combine pubs Qs : Forall2 lift_x pubs Qs -> bip340_pubkey_combine p c pubs = Some (x_of (point_sum Qs), not_inf (point_sum Qs)).
Proof.
  intros F. assert (S : sum340 p d pubs (point_sum Qs)). { induction F as [|pub Q pubs Qs K F IH]; [constructor|]. destruct K as (O & X & Y & -> & E & ->). cbn [point_sum]. apply s3_cons; [exact O|rewrite even_spec; exact E|exact IH]. }
  rewrite (pubkey340_combine_ok p d D c CO P34 pubs _ S). destruct (point_sum Qs); reflexivity.
Qed.
(* C86: one string that is no key makes the whole sum fail *)
Theorem C86_bip340_combine_bad l pub r : (forall Q, ~ lift_x pub Q) -> Forall (fun u => bytes u /\ length u = octs P) (l ++ pub :: r) -> exists out, bip340_pubkey_combine p c (l ++ pub :: r) = Some (out, false).
Proof.
  intros N F. rewrite Forall_forall in F. destruct (F pub ltac:(apply in_app_iff; right; left; reflexivity)) as (B & L). apply (combine340_bad p d D c CO P34 l pub r B L); [|exact F]. intros X Y K. apply (N (Aff X Y)). apply lift_iff. exact K.
Qed.
End C.
Example C86_ex naf : ecdsa_pubkey_import c43 (e43 naf) [0; 0; 20] [] 0 true = Some ([2; 20], true) /\ ecdsa_pubkey_import c43 (e43 naf) [1; 20] [] 0 true = Some ([2; 0], false) /\
  ecdsa_pubkey_export c43 (e43 naf) [3; 20] = Some ([20], [3], true) /\ ecdsa_pubkey_import c43 (e43 naf) [20] [0; 3] (-1) false = Some ([4; 20; 3], true) /\ ecdsa_pubkey_import c43 (e43 naf) [20] [14] 0 false = Some ([4; 0; 0], false) /\
  bip340_pubkey_import c43 (e43 naf) [20] [3] = Some ([20], true) /\ bip340_pubkey_export c43 (e43 naf) [20] = Some ([20], [40], true) /\ bip340_pubkey_add c43 (e43 naf) [20] [32] = Some ([34], true) /\
  bip340_pubkey_combine c43 (e43 naf) [[20]; [32]; [20]] = Some ([12], true) /\ bip340_pubkey_combine c43 (e43 naf) [] = Some ([0], false) /\ ecdsa_privkey_import c43 (e43 naf) [0; 0; 9] = ([9], true) /\ ecdsa_privkey_import c43 (e43 naf) [1; 9] = ([0], false).
Proof. vm_compute. repeat split; reflexivity. Qed.

(* the axioms of every theorem above, listed at once *)
Definition PubKeysProps_all := (@C86_pubkey_import, @C86_pubkey_import_unique, @C86_pubkey_export, @C86_pubkey_roundtrip, @C86_privkey_import,
  @C86_bip340_import, @C86_bip340_export, @C86_bip340_add, @C86_bip340_add_bad, @C86_bip340_combine, @C86_bip340_combine_bad).
Print Assumptions PubKeysProps_all.
