(* Public keys by coordinates, and sums of x-only keys. *)
From Verif.Base Require Import Prelude.
From Coq Require Import Znumtheory.
From Verif.Model Require Import Encoding Hash Field EcScalar Wei Ecdsa Schnorr PubKeys.
From Verif.Spec Require Import HashSpec EcSpec DsaSpec EcdsaSpec SchnorrSpec.
From Verif.Proof Require Import Asn1Proof Cong FieldProof EcGroup GrpMul EcScalarProof WeiProof WeiMul WeiCtx EcCodec Rfc6979 EcdsaProof EcdsaKeys SchnorrProof SchnorrSig SchnorrTweak.
Lemma drop_pad_ok z raw : bytes raw -> bytes (drop_pad z raw) /\ be_val (drop_pad z raw) = be_val raw /\ ((z < length (drop_pad z raw))%nat -> 256 ^ Z.of_nat z <= be_val raw).
Proof.
  induction raw as [|x t IH]; intros B; [cbn; split; [constructor|split; [reflexivity|intros; lia]]|]. assert (Bt : bytes t) by (apply bytes_cons in B; apply B). cbn [drop_pad]. destruct (Nat.ltb_spec z (length (x :: t))) as [L|L]; cbn [andb].
  - destruct (Z.eqb_spec x 0) as [-> |N].
    + destruct (IH Bt) as (B1 & V & G). rewrite (be_val_cons 0 t). split; [exact B1|]. split; [rewrite V; lia|]. intros H. specialize (G H). lia.
    + split; [exact B|]. split; [reflexivity|]. intros _. pose proof (be_val_lead (x :: t) B N) as LD. cbn [length] in *. etransitivity; [|exact LD]. apply Z.pow_le_mono_r; lia.
  - split; [exact B|]. split; [reflexivity|]. lia.
Qed.
Section P.
Variable p : positive.
Local Notation fe := (Field.fe p).
Variable d : wei_def p.
Hypothesis D : good_def p d.
Variable c : wei p.
Hypothesis C : ctx_ok p d c.
Local Notation P := (Zpos p).
Local Notation a := (d_a p d).
Local Notation b := (d_b p d).
Local Notation h := (d_h p d).
Local Notation n := (d_n p d).
Local Notation on := (on' p a b).
Local Notation add := (padd' p a).
Local Notation jrep := (jrep p a b).
Local Notation wrep := (wrep p a b).
Local Notation Pp := (gd_p _ _ D).
Local Notation P3 := (gd_3 _ _ D).
Local Notation ns := (gd_ns _ _ D).
Local Notation no2 := (gd_no2 _ _ D).
Local Notation lift := (lift p d).
Local Notation even := (even p).
Local Notation xbytes := (xbytes p).
Local Notation isaff := (isaff p).
Lemma P_octs : P < 256 ^ Z.of_nat (octs P).
Proof. pose proof (blen_range P eq_refl). pose proof (octs_ge P eq_refl). change 256 with (2 ^ 8). rewrite <- Z.pow_mul_r by lia. eapply Z.lt_le_trans; [apply H|]. apply Z.pow_le_mono_r; lia. Qed.
Lemma import_pad_ok raw : bytes raw -> let '(x, ok) := fe_import_pad p raw in (ok = true <-> be_val raw < P) /\ (ok = true -> fv (x : fe) = be_val raw).
Proof.
  intros B. unfold fe_import_pad, byte_pad_be. rewrite (fsize_octs p). destruct (drop_pad_ok (octs P) raw B) as (B1 & V & G). set (r := drop_pad (octs P) raw) in *. pose proof P_octs as PO. destruct (Nat.ltb_spec (octs P) (length r)) as [L|L].
  - destruct (fe_import p (repeat 0 (octs P))) as [x ok]. cbn [andb]. specialize (G L). split; [split; [discriminate|lia]|discriminate].
  - set (t := repeat 0 (octs P - length r) ++ r). assert (Bt : bytes t) by (apply bytes_app; split; [apply bytes_repeat; unfold byte; lia|exact B1]). assert (Lt : length t = octs P) by (unfold t; rewrite app_length, repeat_length; lia). assert (Vt : be_val t = be_val raw) by (unfold t; rewrite be_val_repeat0; exact V).
    pose proof (fe_import_spec p P3 t Bt Lt) as S. unfold fe_import in *. cbn [andb]. rewrite Vt in *. destruct S as [_ S]. split; [apply Z.ltb_lt|]. intros H. specialize (S H). apply (f_equal be_val) in S. rewrite i2o_val in S by (try reflexivity; apply fv_range). rewrite <- S. exact Vt.
Qed.
(* the points two strings of coordinates stand for *)
Definition stands (xr yr : list Z) (sign : Z) (X Y : fe) : Prop := xr <> [] /\ on (Aff X Y) /\ fv X = be_val xr /\
  (yr <> [] -> fv Y = be_val yr) /\ (yr = [] -> sign = -1 \/ fe_is_odd Y = (sign =? 1)).
Lemma has_iff l : has l = true <-> l <> [].
Proof. unfold has. destruct l; cbn; split; congruence. Qed.
Theorem coords_ok xr yr sign : bytes xr -> bytes yr -> (yr = [] -> P mod 4 = 3) -> sign = -1 \/ sign = 0 \/ sign = 1 -> (xr = [] -> P mod 4 = 3) -> exists q ok, coords_import p c xr yr sign = Some (q, ok) /\ (exists Q, wrep q Q) /\
  (ok = true <-> exists X Y, stands xr yr sign X Y) /\ (ok = true -> exists X Y, stands xr yr sign X Y /\ q = MkW X Y false).
Proof.
  intros Bx By M SG MX. unfold coords_import. rewrite (cx_a _ _ _ C), (cx_b _ _ _ C), (cx_h _ _ _ C). pose proof (import_pad_ok xr Bx) as HX. destruct (fe_import_pad p xr) as [x okx]. pose proof (import_pad_ok yr By) as HY. destruct (fe_import_pad p yr) as [y oky]. destruct HX as [X1 X2], HY as [Y1 Y2].
  assert (XU : forall X : fe, fv X = be_val xr -> okx = true /\ X = x). { intros X E. assert (O : okx = true) by (apply X1; rewrite <- E; apply fv_range). split; [exact O|]. apply fe_eq. rewrite E. symmetry. exact (X2 O). }
  assert (YU : forall Y : fe, fv Y = be_val yr -> oky = true /\ Y = y). { intros Y E. assert (O : oky = true) by (apply Y1; rewrite <- E; apply fv_range). split; [exact O|]. apply fe_eq. rewrite E. symmetry. exact (Y2 O). }
  destruct (has xr) eqn:HXR; cbn [andb]; [apply has_iff in HXR|].
  2:{ assert (E0 : xr = []) by (destruct xr; [reflexivity|discriminate]). assert (N : ~ exists X Y, stands xr yr sign X Y) by (intros (X & Y & K & _); exact (K E0)). assert (E4 := MX E0).
      assert (T : exists q ret, wge_set_x p a b h x sign = Some (q, ret) /\ exists Q, wrep q Q).
      { destruct SG as [-> |SG]; [destruct (set_x_any p Pp P3 a b h ns x E4) as (q & ret & E & _ & K1 & K2)|destruct (set_x_ok p Pp P3 a b h ns no2 x sign E4 SG) as (q & ret & E & K1 & K2 & K3)]; exists q, ret; (split; [exact E|]).
        - destruct ret; [destruct (K1 eq_refl) as (Y & -> & O & _); exists (Aff x Y); constructor; exact O|rewrite (K2 eq_refl); exists Inf; constructor].
        - destruct ret; [destruct (proj1 K1 eq_refl) as (Y & O & Od); destruct (K2 Y O Od) as (_ & ->); exists (Aff x Y); constructor; exact O|rewrite (K3 eq_refl); exists Inf; constructor]. }
      destruct T as (q & ret & -> & W). exists q, false. split; [reflexivity|]. split; [exact W|]. split; [split; [discriminate|intros K; destruct (N K)]|discriminate]. }
  destruct (has yr) eqn:HYR; [apply has_iff in HYR|].
  - pose proof (set_xy_ok p Pp a b ns x y) as S. destruct (wge_set_xy p a b x y) as [q ret]. destruct S as (S1 & S2 & S3). exists q, (okx && oky && ret). split; [reflexivity|]. split; [destruct ret; [rewrite (S2 eq_refl); exists (Aff x y); constructor; apply S1; reflexivity|rewrite (S3 eq_refl); exists Inf; constructor]|].
    assert (K : okx && oky && ret = true -> stands xr yr sign x y /\ q = MkW x y false). { intros K. apply andb_prop in K. destruct K as [K ->]. apply andb_prop in K. destruct K as [-> ->]. split; [|exact (S2 eq_refl)]. split; [exact HXR|]. split; [apply S1; reflexivity|]. split; [exact (X2 eq_refl)|]. split; [intros _; exact (Y2 eq_refl)|contradiction]. }
    split; [split; [intros H; exists x, y; apply K, H|]|intros H; exists x, y; apply K, H]. intros (X & Y & _ & O & EX & EY & _). destruct (XU X EX) as (-> & ->). destruct (YU Y (EY HYR)) as (-> & ->). cbn [andb]. apply S1. exact O.
  - assert (E0 : yr = []) by (destruct yr; [reflexivity|discriminate]). assert (E4 := M E0). assert (OY : oky = true) by (apply Y1; rewrite E0; reflexivity). rewrite OY, andb_true_r.
    assert (T : exists q ret, wge_set_x p a b h x sign = Some (q, ret) /\ (exists Q, wrep q Q) /\ (ret = true <-> exists Y, on (Aff x Y) /\ (sign = -1 \/ fe_is_odd Y = (sign =? 1))) /\ (ret = true -> exists Y, on (Aff x Y) /\ (sign = -1 \/ fe_is_odd Y = (sign =? 1)) /\ q = MkW x Y false)).
    { destruct SG as [-> |SG]; [destruct (set_x_any p Pp P3 a b h ns x E4) as (q & ret & E & K0 & K1 & K2)|destruct (set_x_ok p Pp P3 a b h ns no2 x sign E4 SG) as (q & ret & E & K1 & K2 & K3)]; exists q, ret; (split; [exact E|]).
      - split; [destruct ret; [destruct (K1 eq_refl) as (Y & -> & O & _); exists (Aff x Y); constructor; exact O|rewrite (K2 eq_refl); exists Inf; constructor]|]. split; [rewrite K0; split; intros (Y & O); exists Y; [auto|apply O]|]. intros R. destruct (K1 R) as (Y & -> & O & _). exists Y. auto.
      - split; [destruct ret; [destruct (proj1 K1 eq_refl) as (Y & O & Od); destruct (K2 Y O Od) as (_ & ->); exists (Aff x Y); constructor; exact O|rewrite (K3 eq_refl); exists Inf; constructor]|].
        split; [rewrite K1; split; intros (Y & O & Od); exists Y; [auto|split; [exact O|destruct Od; [lia|assumption]]]|]. intros R. destruct (proj1 K1 R) as (Y & O & Od). exists Y. destruct (K2 Y O Od) as (_ & ->). auto. }
    destruct T as (q & ret & -> & W & T1 & T2). exists q, (okx && ret). split; [reflexivity|]. split; [exact W|].
    assert (K : okx && ret = true -> exists Y, stands xr yr sign x Y /\ q = MkW x Y false). { intros K. apply andb_prop in K. destruct K as [-> ->]. destruct (T2 eq_refl) as (Y & O & SY & ->). exists Y. split; [|reflexivity]. split; [exact HXR|]. split; [exact O|]. split; [exact (X2 eq_refl)|]. split; [contradiction|intros _; exact SY]. }
    split; [split; [intros H; destruct (K H) as (Y & H' & _); exists x, Y; exact H'|]|intros H; destruct (K H) as (Y & H'); exists x, Y; exact H'].
    intros (X & Y & _ & O & EX & _ & SY). destruct (XU X EX) as (-> & ->). cbn [andb]. apply T1. exists Y. split; [exact O|exact (SY E0)].
Qed.
Theorem pubkey_import_ok xr yr sign compact : bytes xr -> bytes yr -> (xr = [] \/ yr = [] -> P mod 4 = 3) -> sign = -1 \/ sign = 0 \/ sign = 1 -> exists out ok, ecdsa_pubkey_import p c xr yr sign compact = Some (out, ok) /\
  (ok = true <-> exists X Y, stands xr yr sign X Y) /\ (ok = true -> exists X Y, stands xr yr sign X Y /\ out = sec1_enc P compact (fv X) (fv Y)).
Proof.
  intros Bx By M SG. destruct (coords_ok xr yr sign Bx By (fun E => M (or_intror E)) SG (fun E => M (or_introl E))) as (q & ok & E & (Q & W) & H1 & H2). unfold ecdsa_pubkey_import. rewrite E. rewrite (export_eq p d _ _ compact W). destruct Q as [|X Y].
  - eexists _, _. split; [reflexivity|]. rewrite andb_false_r. assert (OF : ok = false). { destruct ok; [|reflexivity]. destruct (H2 eq_refl) as (X & Y & S & ->). inversion W. } rewrite OF in *. split; [exact H1|discriminate].
  - eexists _, _. split; [reflexivity|]. rewrite andb_true_r. split; [exact H1|]. intros H. destruct (H2 H) as (X' & Y' & S & ->). exists X', Y'. split; [exact S|]. inversion W; subst. reflexivity.
Qed.
Theorem pubkey340_import_ok xr yr : bytes xr -> bytes yr -> P mod 4 = 3 -> exists out ok, bip340_pubkey_import p c xr yr = Some (out, ok) /\
  (ok = true <-> exists X Y, stands xr yr (-1) X Y) /\ (ok = true -> exists X Y, stands xr yr (-1) X Y /\ out = i2o P (fv X)).
Proof.
  intros Bx By M. destruct (coords_ok xr yr (-1) Bx By (fun _ => M) (or_introl eq_refl) (fun _ => M)) as (q & ok & E & (Q & W) & H1 & H2). unfold bip340_pubkey_import. rewrite E. rewrite (export_x_ok p d _ _ W). destruct Q as [|X Y].
  - eexists _, _. split; [reflexivity|]. rewrite andb_false_r. assert (OF : ok = false). { destruct ok; [|reflexivity]. destruct (H2 eq_refl) as (X & Y & S & ->). inversion W. } rewrite OF in *. split; [exact H1|discriminate].
  - eexists _, _. split; [reflexivity|]. rewrite andb_true_r. split; [exact H1|]. intros H. destruct (H2 H) as (X' & Y' & S & ->). exists X', Y'. split; [exact S|]. inversion W; subst. reflexivity.
Qed.
Theorem pubkey_export_ok X Y pub : on (Aff X Y) -> sec1 P (fv X) (fv Y) pub -> (compressed pub -> P mod 4 = 3) -> ecdsa_pubkey_export p c pub = Some (i2o P (fv X), i2o P (fv Y), true).
Proof. intros O S M. unfold ecdsa_pubkey_export. rewrite (import_complete p d D c C X Y pub M O S). rewrite !(fe_export_eq p). reflexivity. Qed.
Theorem pubkey_export_bad pub : bytes pub -> (compressed pub -> P mod 4 = 3) -> (forall X Y, on (Aff X Y) -> ~ sec1 P (fv X) (fv Y) pub) -> exists xr yr, ecdsa_pubkey_export p c pub = Some (xr, yr, false).
Proof.
  intros B M N. unfold ecdsa_pubkey_export. destruct (import_sound p d D c C pub B M) as (q & ok & -> & _ & I1). destruct ok; [|eexists _, _; reflexivity]. exfalso. destruct (I1 eq_refl) as (X & Y & O & S & _). exact (N X Y O S).
Qed.
Theorem privkey_import_ok raw : bytes raw -> let '(out, ok) := ecdsa_privkey_import p c raw in (ok = true <-> 0 < be_val raw < n) /\ (ok = true -> out = i2o n (be_val raw)).
Proof.
  intros B. unfold ecdsa_privkey_import, sc_import_pad. rewrite (ssize_octs p d D c C). destruct (drop_pad_ok (octs n) raw B) as (B1 & V & G). pose proof (be_val_range raw B) as R. pose proof (N1 p d D) as NN.
  assert (NO : n < 256 ^ Z.of_nat (octs n)). { pose proof (blen_range n ltac:(lia)) as BR. pose proof (octs_ge n ltac:(lia)). change 256 with (2 ^ 8). rewrite <- Z.pow_mul_r by lia. eapply Z.lt_le_trans; [apply BR|]. apply Z.pow_le_mono_r; lia. }
  destruct (Nat.ltb_spec (octs n) (length (drop_pad (octs n) raw))) as [L|L].
  - specialize (G L). cbn [andb]. split; [split; [discriminate|lia]|discriminate].
  - unfold sc_import. rewrite V, (cx_n _ _ _ C). destruct (Z.ltb_spec (be_val raw) n) as [H|H]; cbn [andb]; [|split; [split; [discriminate|lia]|discriminate]]. rewrite (sc_export_eq p d D c C). split; [|reflexivity]. destruct (Z.eqb_spec (be_val raw) 0); cbn [negb]; split; try discriminate; try lia; auto.
Qed.
Hypothesis P34 : P mod 4 = 3.
Local Notation import_lift := (import_lift p d D c C P34).
Theorem pubkey340_export_ok X Y : on (Aff X Y) -> even Y = true -> bip340_pubkey_export p c (i2o P (fv X)) = Some (i2o P (fv X), i2o P (fv Y), true).
Proof. intros O E. unfold bip340_pubkey_export. rewrite (import_lift X Y O E), !(fe_export_eq p). reflexivity. Qed.
Theorem pubkey340_export_bad pub : bytes pub -> length pub = octs P -> (forall X Y, ~ lift even pub X Y) -> exists xr yr, bip340_pubkey_export p c pub = Some (xr, yr, false).
Proof.
  intros B L N. unfold bip340_pubkey_export. destruct (import_even_ok p d D c C P34 pub B L) as (q & ok & -> & _ & I1 & _). destruct ok; [|eexists _, _; reflexivity]. exfalso. destruct (I1 eq_refl) as (X & Y & LF & _). exact (N X Y LF).
Qed.
Theorem pubkey340_add_ok X Y X' Y' : on (Aff X Y) -> even Y = true -> on (Aff X' Y') -> even Y' = true ->
  bip340_pubkey_add p c (i2o P (fv X)) (i2o P (fv X')) = Some (xbytes (add (Aff X Y) (Aff X' Y')), isaff (add (Aff X Y) (Aff X' Y'))).
Proof.
  intros O E O' E'. unfold bip340_pubkey_add. rewrite (import_lift X Y O E), (import_lift X' Y' O' E'). assert (W : wrep (wge_add p (e_a p c) (MkW X Y false) (MkW X' Y' false)) (add (Aff X Y) (Aff X' Y'))) by (rewrite (cx_a _ _ _ C); apply (wge_add_ok p Pp P3 a b h no2); constructor; assumption).
  rewrite (export_x_ok p d _ _ W). cbn [andb]. reflexivity.
Qed.
Inductive sum340 : list (list Z) -> point fe -> Prop :=
| s3_nil : sum340 [] Inf
| s3_cons l X Y Q : on (Aff X Y) -> even Y = true -> sum340 l Q -> sum340 (i2o P (fv X) :: l) (add (Aff X Y) Q).
Lemma sum340_on l Q : sum340 l Q -> on Q.
Proof. induction 1 as [|l X Y Q O E K IH]; [exact I|]. apply (a_on p Pp P3 a b h ns no2); assumption. Qed.
Lemma combine340_ok l Q : sum340 l Q -> forall J R, jrep J R -> on R -> exists J', combine340_loop p c J true l = Some (J', true) /\ jrep J' (add R Q).
Proof.
  induction 1 as [|l X Y Q O E K IH]; intros J R HJ HR.
  - exists J. split; [reflexivity|]. rewrite (add_comm' p Pp a). exact HJ.
  - cbn [combine340_loop]. rewrite (import_lift X Y O E). cbn [andb]. rewrite (cx_a _ _ _ C).
    destruct (IH (jge_mixed_add p a J (MkW X Y false)) (add R (Aff X Y))) as (J' & EJ & HJ').
    + apply (jge_mixed_add_ok p Pp P3 a b h ns no2); [exact HJ|constructor; exact O].
    + apply (a_on p Pp P3 a b h ns no2); assumption.
    + exists J'. split; [exact EJ|]. rewrite <- (a_assoc p Pp P3 a b h ns no2); [exact HJ'|exact HR|exact O|exact (sum340_on _ _ K)].
Qed.
Theorem pubkey340_combine_ok l Q : sum340 l Q -> bip340_pubkey_combine p c l = Some (xbytes Q, isaff Q).
Proof.
  intros K. unfold bip340_pubkey_combine. destruct K as [|l X Y Q O E K].
  - pose proof (wge_set_jge_ok p Pp P3 a b _ _ (jr_inf p a b)) as W. rewrite (export_x_ok p d _ _ W). reflexivity.
  - rewrite (import_lift X Y O E). destruct (combine340_ok l Q K (jge_set_wge p (MkW X Y false)) (Aff X Y)) as (J & EJ & HJ); [apply (jge_set_wge_ok p Pp); constructor; exact O|exact O|].
    rewrite EJ. rewrite (export_x_ok p d _ _ (wge_set_jge_ok p Pp P3 a b _ _ HJ)). reflexivity.
Qed.
Theorem combine340_bad l pub r : bytes pub -> length pub = octs P -> (forall X Y, ~ lift even pub X Y) -> (forall u, In u (l ++ pub :: r) -> bytes u /\ length u = octs P) -> exists out, bip340_pubkey_combine p c (l ++ pub :: r) = Some (out, false).
Proof.
  intros B L N F. assert (BAD : exists q, wge_import_even p c pub = Some (q, false)). { destruct (import_even_ok p d D c C P34 pub B L) as (q & ok & E & _ & I1 & _). destruct ok; [|exists q; exact E]. exfalso. destruct (I1 eq_refl) as (X & Y & LF & _). exact (N X Y LF). }
  assert (TOT : forall m, (forall u, In u m -> bytes u /\ length u = octs P) -> forall J ok, exists J' ok', combine340_loop p c J ok m = Some (J', ok') /\ (ok = false -> ok' = false) /\ (In pub m -> ok' = false)).
  { induction m as [|u m IH]; intros FM J ok; [exists J, ok; split; [reflexivity|]; split; [auto|intros []]|]. cbn [combine340_loop]. destruct (FM u (or_introl eq_refl)) as (Bu & Lu). destruct (import_even_ok p d D c C P34 u Bu Lu) as (q & oku & E & _). rewrite E.
    destruct (IH (fun v Hv => FM v (or_intror Hv)) (jge_mixed_add p (e_a p c) J q) (ok && oku)) as (J' & ok' & EJ & H1 & H2). exists J', ok'. split; [exact EJ|]. split; [intros ->; apply H1; reflexivity|]. intros [-> |Hm]; [|exact (H2 Hm)]. apply H1. destruct BAD as (q' & E'). rewrite E in E'. assert (oku = false) by congruence. subst. apply andb_false_r. }
  unfold bip340_pubkey_combine. destruct l as [|u l]; cbn [app].
  - destruct BAD as (q & ->). destruct (TOT r (fun v Hv => F v (or_intror Hv)) (jge_set_wge p q) false) as (J & ok & -> & H1 & _). rewrite (H1 eq_refl). unfold wge_export_x. eexists. reflexivity.
  - destruct (F u (or_introl eq_refl)) as (Bu & Lu). destruct (import_even_ok p d D c C P34 u Bu Lu) as (q & oku & -> & _). destruct (TOT (l ++ pub :: r) (fun v Hv => F v (or_intror Hv)) (jge_set_wge p q) oku) as (J & ok & -> & _ & H2). rewrite H2 by (apply in_app_iff; right; left; reflexivity). unfold wge_export_x. eexists. reflexivity.
Qed.
End P.
