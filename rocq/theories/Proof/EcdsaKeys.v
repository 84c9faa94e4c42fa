(* ECDSA keys: agreement and tweaks, and the two signature encodings. *)
From Verif.Base Require Import Prelude.
From Coq Require Import Znumtheory.
From Verif.Model Require Import Encoding Bio Asn1 Hash Drbg NumTheory Rsa Dsa Field EcScalar Wei Ecdsa.
From Verif.Spec Require Import DerSpec HashSpec KdfSpec DrbgSpec EcSpec DsaSpec EcdsaSpec.
From Verif.Proof Require Import Asn1Proof Cong FieldProof EcGroup GrpMul EcScalarProof WeiProof WeiMul WeiCtx EcCodec DsaProof EcdsaProof.
(* the DER form of a pair *)
Definition der_pair (r s : Z) (der : list Z) : Prop :=
  exists l x y, der_int r x /\ der_int s y /\ der_len (Z.of_nat (length (x ++ y))) l /\ der = [0x30] ++ l ++ x ++ y.
Lemma der_pair_unique r s a b : der_pair r s a -> der_pair r s b -> a = b.
Proof.
  intros (l & x & y & X & Y & L & ->) (l' & x' & y' & X' & Y' & L' & ->). rewrite <- (der_int_unique _ _ _ X X') in *. rewrite <- (der_int_unique _ _ _ Y Y') in *. rewrite (der_len_unique _ _ _ L L'). reflexivity.
Qed.
Section P.
Variable p : positive.
Local Notation fe := (Field.fe p).
Variable d : wei_def p.
Hypothesis D : good_def p d.
Variable c : wei p.
Hypothesis C : ctx_ok p d c.
Local Notation P := (Zpos p).
Local Notation a := (d_a p d).
Local Notation b := (d_b p d).
Local Notation h := (d_h p d).
Local Notation n := (d_n p d).
Local Notation on := (on' p a b).
Local Notation add := (padd' p a).
Local Notation neg := (pneg' p).
Local Notation jrep := (jrep p a b).
Local Notation wrep := (wrep p a b).
Local Notation zm := (zm p a).
Local Notation G := (G p d).
Local Notation Pp := (gd_p _ _ D).
Local Notation P3 := (gd_3 _ _ D).
Local Notation ns := (gd_ns _ _ D).
Local Notation no2 := (gd_no2 _ _ D).
Local Notation N1 := (N1 p d D).
(* the encoding of a result and whether it stands for a key *)
Definition penc (compact : bool) (Q : point fe) : list Z * bool :=
  match Q with Aff x y => (sec1_enc P compact (fv x) (fv y), true) | Inf => (sec1_enc P compact 0 0, false) end.
Local Notation Mon := (m_on p Pp P3 a b h ns no2).
Local Notation Madd := (m_add p Pp P3 a b h ns no2).
Local Notation Mmul := (m_mul p Pp P3 a b h ns no2).
Local Notation Gon := (G_on p d D).
Lemma with_pub_ok X Y pub compact f extra Q : on (Aff X Y) -> sec1 P (fv X) (fv Y) pub -> (compressed pub -> P mod 4 = 3) -> wrep (f (MkW X Y false)) Q ->
  with_pub p c pub compact f extra = Some (fst (penc compact Q), extra && snd (penc compact Q)).
Proof.
  intros O S M W. unfold with_pub. rewrite (import_complete p d D c C X Y pub M O S). rewrite (export_eq p d _ Q compact W). unfold penc. destruct Q; reflexivity.
Qed.
Lemma zero_pt : wrep (wge_zero p) Inf. Proof. constructor. Qed.
Lemma aff_pt X Y : on (Aff X Y) -> wrep (MkW X Y false) (Aff X Y). Proof. intros O. constructor. exact O. Qed.
Theorem create_enc x compact : 0 < x < n -> ecdsa_pubkey_create p c (i2o n x) compact = penc compact (zm x G).
Proof. intros X. destruct (create_eq p d D c C x compact X) as (u & v & E & O & ->). rewrite E. reflexivity. Qed.
(* a scalar below the order, times a key *)
Theorem derive_ok X Y pub x compact : on (Aff X Y) -> sec1 P (fv X) (fv Y) pub -> (compressed pub -> P mod 4 = 3) -> 0 < x < n ->
  ecdsa_derive p c pub (i2o n x) compact = Some (penc compact (zm x (Aff X Y))).
Proof.
  intros O S M Hx. unfold ecdsa_derive. rewrite (priv_read_i2o p d D c C x Hx). erewrite (with_pub_ok X Y pub compact _ true _ O S M); [|apply (Mul p d D c C); [lia|exact (aff_pt _ _ O)]].
  destruct (penc _ _) as [u v]. reflexivity.
Qed.
Lemma nz_prod x y : 0 < x < n -> 0 < y < n -> (x * y) mod n <> 0.
Proof.
  intros X Y E. apply Z.mod_divide in E; [|lia]. apply prime_mult in E; [|exact (gd_n _ _ D)]. destruct E as [E|E]; apply Z.divide_pos_le in E; lia.
Qed.
Lemma sec1_enc_ok compact (X Y : fe) : sec1 P (fv X) (fv Y) (sec1_enc P compact (fv X) (fv Y)).
Proof. unfold sec1, sec1_enc. destruct compact; auto. Qed.
Lemma enc_compressed compact x y : compressed (sec1_enc P compact x y) -> compact = true.
Proof. unfold compressed, sec1_enc. destruct compact; cbn [hd]; [reflexivity|lia]. Qed.
Theorem derive_agree x y c1 c2 compact : (c1 = true \/ c2 = true -> P mod 4 = 3) -> 0 < x < n -> 0 < y < n ->
  exists X Y, zm (x * y) G = Aff X Y /\
  ecdsa_derive p c (fst (ecdsa_pubkey_create p c (i2o n y) c1)) (i2o n x) compact = Some (sec1_enc P compact (fv X) (fv Y), true) /\
  ecdsa_derive p c (fst (ecdsa_pubkey_create p c (i2o n x) c2)) (i2o n y) compact = Some (sec1_enc P compact (fv X) (fv Y), true).
Proof.
  intros M Hx Hy. pose proof (nz_prod x y Hx Hy) as NZ. assert (N0 : 0 < n) by lia. pose proof (Z.mod_pos_bound (x * y) n N0) as R.
  destruct (mulG p d D ((x * y) mod n) ltac:(lia)) as (X & Y & E & _). rewrite (mod_zm p d D) in E. exists X, Y. split; [exact E|].
  destruct (create_eq p d D c C x c2 Hx) as (X1 & Y1 & E1 & O1 & F1). destruct (create_eq p d D c C y c1 Hy) as (X2 & Y2 & E2 & O2 & F2). rewrite F1, F2. cbn [fst]. split.
  - rewrite (derive_ok X2 Y2 _ x compact O2 (sec1_enc_ok _ _ _)); [|intros K; apply M; left; exact (enc_compressed _ _ _ K)|exact Hx]. rewrite <- E2, <- Mmul, E by exact Gon. reflexivity.
  - rewrite (derive_ok X1 Y1 _ y compact O1 (sec1_enc_ok _ _ _)); [|intros K; apply M; right; exact (enc_compressed _ _ _ K)|exact Hy]. rewrite <- E1, <- Mmul, (Z.mul_comm y x), E by exact Gon. reflexivity.
Qed.
(* ---- tweaks ---- *)
Lemma n0 : 0 < n. Proof. pose proof N1. lia. Qed.
Theorem priv_tweak_add x t : 0 < x < n -> 0 <= t < n -> ecdsa_privkey_tweak_add p c (i2o n x) (i2o n t) = (i2o n ((x + t) mod n), negb ((x + t) mod n =? 0)).
Proof.
  intros X T. unfold ecdsa_privkey_tweak_add. rewrite (priv_read_i2o p d D c C x X), (sc_import_i2o p d D c C t T), (cx_n _ _ _ C), (sc_export_eq p d D c C). reflexivity.
Qed.
Theorem priv_tweak_mul x t : 0 < x < n -> 0 <= t < n -> ecdsa_privkey_tweak_mul p c (i2o n x) (i2o n t) = (i2o n ((x * t) mod n), negb ((x * t) mod n =? 0)).
Proof.
  intros X T. unfold ecdsa_privkey_tweak_mul. rewrite (priv_read_i2o p d D c C x X), (sc_import_i2o p d D c C t T), (cx_n _ _ _ C), (sc_export_eq p d D c C). reflexivity.
Qed.
Theorem priv_negate x : 0 < x < n -> ecdsa_privkey_negate p c (i2o n x) = (i2o n (n - x), true).
Proof.
  intros X. unfold ecdsa_privkey_negate. rewrite (priv_read_i2o p d D c C x X), (cx_n _ _ _ C), (sc_export_eq p d D c C). unfold sc_neg. rewrite (proj2 (Z.eqb_neq x 0)) by lia. reflexivity.
Qed.
Theorem priv_invert x : 0 < x < n -> exists w, ecdsa_privkey_invert p c (i2o n x) = (i2o n w, true) /\ 0 < w < n /\ (x * w) mod n = 1.
Proof.
  intros X. destruct (invert_ok p d D x X) as (w & E & R & I). exists w. unfold ecdsa_privkey_invert. rewrite (sc_import_i2o p d D c C x) by lia. rewrite (cx_n _ _ _ C), E, (sc_export_eq p d D c C). split; [reflexivity|]. split; [|exact I].
  destruct (Z.eq_dec w 0) as [-> |]; [|lia]. rewrite Z.mul_0_r, Z.mod_0_l in I; lia.
Qed.
Theorem pub_tweak_add X Y pub t compact : on (Aff X Y) -> sec1 P (fv X) (fv Y) pub -> (compressed pub -> P mod 4 = 3) -> 0 <= t < n ->
  ecdsa_pubkey_tweak_add p c pub (i2o n t) compact = Some (penc compact (add (Aff X Y) (zm t G))).
Proof.
  intros O S M T. unfold ecdsa_pubkey_tweak_add. rewrite (sc_import_i2o p d D c C t T). erewrite (with_pub_ok X Y pub compact _ true _ O S M).
  2:{ apply (wge_set_jge_ok p Pp P3 a b). rewrite (cx_a _ _ _ C). apply (jge_mixed_add_ok p Pp P3 a b h ns no2); [apply (Jmul_g p d D c C)|exact (aff_pt _ _ O)]. }
  rewrite (add_comm' p Pp a). destruct (penc _ _) as [u v]. reflexivity.
Qed.
Theorem pub_tweak_mul X Y pub t compact : on (Aff X Y) -> sec1 P (fv X) (fv Y) pub -> (compressed pub -> P mod 4 = 3) -> 0 <= t < n ->
  ecdsa_pubkey_tweak_mul p c pub (i2o n t) compact = Some (penc compact (zm t (Aff X Y))).
Proof.
  intros O S M T. unfold ecdsa_pubkey_tweak_mul. rewrite (sc_import_i2o p d D c C t T). erewrite (with_pub_ok X Y pub compact _ true _ O S M); [|apply (Mul p d D c C); [exact T|exact (aff_pt _ _ O)]].
  destruct (penc _ _) as [u v]. reflexivity.
Qed.
Theorem pub_negate X Y pub compact : on (Aff X Y) -> sec1 P (fv X) (fv Y) pub -> (compressed pub -> P mod 4 = 3) ->
  ecdsa_pubkey_negate p c pub compact = Some (penc compact (neg (Aff X Y))).
Proof.
  intros O S M. unfold ecdsa_pubkey_negate. erewrite (with_pub_ok X Y pub compact _ true _ O S M); [|apply (wge_neg_ok p Pp); exact (aff_pt _ _ O)]. destruct (penc _ _) as [u v]. reflexivity.
Qed.
Theorem pub_add X Y X' Y' pub pub' compact : on (Aff X Y) -> sec1 P (fv X) (fv Y) pub -> (compressed pub -> P mod 4 = 3) -> on (Aff X' Y') -> sec1 P (fv X') (fv Y') pub' -> (compressed pub' -> P mod 4 = 3) ->
  ecdsa_pubkey_add p c pub pub' compact = Some (penc compact (add (Aff X Y) (Aff X' Y'))).
Proof.
  intros O S M O' S' M'. unfold ecdsa_pubkey_add. rewrite (import_complete p d D c C X' Y' pub' M' O' S').
  erewrite (with_pub_ok X Y pub compact _ true _ O S M); [|rewrite (cx_a _ _ _ C); apply (wge_add_ok p Pp P3 a b h no2); [exact (aff_pt _ _ O)|exact (aff_pt _ _ O')]]. destruct (penc _ _) as [u v]. reflexivity.
Qed.
(* the sum of a list of keys *)
Inductive key_sum : list (list Z) -> point fe -> Prop :=
| ks_nil : key_sum [] Inf
| ks_cons pub l X Y Q : on (Aff X Y) -> sec1 P (fv X) (fv Y) pub -> (compressed pub -> P mod 4 = 3) -> key_sum l Q -> key_sum (pub :: l) (add (Aff X Y) Q).
Lemma key_sum_on l Q : key_sum l Q -> on Q.
Proof. induction 1 as [|pub l X Y Q O S M K IH]; [exact I|]. apply (a_on p Pp P3 a b h ns no2); assumption. Qed.
Lemma combine_ok l Q : key_sum l Q -> forall J R, jrep J R -> on R -> exists J', combine_loop p c J true l = Some (J', true) /\ jrep J' (add R Q).
Proof.
  induction 1 as [|pub l X Y Q O S M K IH]; intros J R HJ HR.
  - exists J. split; [reflexivity|]. rewrite (add_comm' p Pp a). exact HJ.
  - cbn [combine_loop]. rewrite (import_complete p d D c C X Y pub M O S). cbn [andb]. rewrite (cx_a _ _ _ C).
    destruct (IH (jge_mixed_add p a J (MkW X Y false)) (add R (Aff X Y))) as (J' & E & HJ').
    + apply (jge_mixed_add_ok p Pp P3 a b h ns no2); [exact HJ|exact (aff_pt _ _ O)].
    + apply (a_on p Pp P3 a b h ns no2); assumption.
    + exists J'. split; [exact E|]. rewrite <- (a_assoc p Pp P3 a b h ns no2); [exact HJ'|exact HR|exact O|exact (key_sum_on _ _ K)].
Qed.
Theorem pub_combine l Q compact : key_sum l Q -> ecdsa_pubkey_combine p c l compact = Some (penc compact Q).
Proof.
  intros K. unfold ecdsa_pubkey_combine. destruct K as [|pub l X Y Q O S M K].
  - pose proof (wge_set_jge_ok p Pp P3 a b _ _ (jr_inf p a b)) as W. rewrite (export_eq p d _ _ compact W). reflexivity.
  - rewrite (import_complete p d D c C X Y pub M O S). destruct (combine_ok l Q K (jge_set_wge p (MkW X Y false)) (Aff X Y)) as (J & E & HJ); [apply (jge_set_wge_ok p Pp); exact (aff_pt _ _ O)|exact O|].
    rewrite E. rewrite (export_eq p d _ _ compact (wge_set_jge_ok p Pp P3 a b _ _ HJ)). unfold penc. destruct (add _ _); reflexivity.
Qed.
(* ---- signature encodings ---- *)
Hypothesis small_n : n < 2 ^ 1024.
Local Notation Oct := (octs_small p d D small_n).
Lemma int_len_bound v : asn1_size_int (i2o n v) <= 400.
Proof.
  pose proof Oct as OS. unfold asn1_size_int. pose proof (strip0_le (i2o n v)) as SL. rewrite i2o_len in SL. assert (Bu : bytes (strip0 (i2o n v))) by (apply strip0_bytes, i2o_bytes).
  set (u := strip0 (i2o n v)) in *. cbv zeta. destruct (Z.of_nat (length u) =? 0); [lia|].
  assert (V : 0 <= shr (rd u 0) 7 <= 1). { assert (Br : byte (rd u 0)). { unfold rd. destruct u; cbn [nth]; [unfold byte; lia|]. apply bytes_cons in Bu. apply Bu. } rewrite (shr7 _ Br). destruct (_ <? _); cbn; lia. }
  assert (W : asn1_size_size (Z.of_nat (length u) + shr (rd u 0) 7) <= 10) by (unfold asn1_size_size; repeat (destruct (_ <? _) || destruct (_ <=? _)); lia). lia.
Qed.
Lemma der_int_len v x : 0 <= v < n -> der_int v x -> Z.of_nat (length x) <= 400.
Proof.
  intros V X. pose proof n0 as N0. pose proof Oct as OS. destruct (write_int_der (i2o n v)) as (y & _ & Y & _ & L); [apply i2o_bytes|rewrite i2o_len; lia|]. rewrite i2o_val in Y by assumption.
  rewrite (der_int_unique _ _ _ X Y), L. apply int_len_bound.
Qed.
Theorem encode_der r s : 0 <= r < n -> 0 <= s < n -> exists der, ecdsa_encode_der p c r s = Some der /\ der_pair r s der /\ bytes der.
Proof.
  intros R S. pose proof n0 as N0. pose proof Oct as OS. unfold ecdsa_encode_der. rewrite !(sc_export_eq p d D c C).
  destruct (write_int_der (i2o n r)) as (x & -> & X & Bx & Lx); [apply i2o_bytes|rewrite i2o_len; lia|]. destruct (write_int_der (i2o n s)) as (y & -> & Y & By & Ly); [apply i2o_bytes|rewrite i2o_len; lia|].
  rewrite i2o_val in X, Y by assumption. rewrite <- Lx, <- Ly, <- Nat2Z.inj_add, <- app_length.
  assert (L : Z.of_nat (length (x ++ y)) <= 0xffff).
  { rewrite app_length, Nat2Z.inj_add, Lx, Ly. pose proof (int_len_bound r). pose proof (int_len_bound s). lia. }
  destruct (write_size_der (Z.of_nat (length (x ++ y)))) as (l & EL & DL & _); [lia|]. unfold asn1_write_seq. rewrite EL. exists ((0x30 :: l) ++ x ++ y). split; [reflexivity|]. split.
  - exists l, x, y. repeat split; assumption.
  - cbn [app]. apply bytes_cons. split; [unfold byte; lia|]. apply bytes_app. split; [|apply bytes_app; auto].
    destruct DL as [[H ->]|[H (w & Bw & _ & _ & Lw & ->)]]; [repeat constructor; unfold byte; lia|]. apply bytes_cons. split; [unfold byte; lia|exact Bw].
Qed.
Lemma int_read v x rest strict : 0 <= v < n -> der_int v x -> bytes rest -> asn1_read_int (ssize p c) (x ++ rest) strict = ROk (i2o n v) rest.
Proof.
  intros V X B. pose proof n0 as N0. pose proof Oct as OS. rewrite (ssize_octs p d D c C).
  destruct (int_roundtrip (i2o n v) rest strict) as (x' & W & R); [apply i2o_bytes|exact B|rewrite i2o_len; lia|]. rewrite i2o_len in R.
  rewrite (der_int_write_int (i2o n v) x) in W; [|apply i2o_bytes|rewrite i2o_len; lia|rewrite i2o_val by assumption; exact X]. injection W as <-. exact R.
Qed.
Lemma read_int_safe out data strict : bytes data -> safe (asn1_read_int out data strict) data.
Proof. intros B. unfold asn1_read_int. pose proof (read_int_bytes_safe data strict strict (Z.of_nat out) B) as S. destruct (read_int_bytes _ _ _ _); exact S. Qed.
Lemma safe_rest {T} (r : rres T) data v rest : bytes data -> safe r data -> r = ROk v rest -> bytes rest.
Proof. intros B S ->. destruct S as [q ->]. apply bytes_app in B. apply B. Qed.
Theorem decode_safe der strict : bytes der -> ecdsa_decode_der p c der strict <> ROob.
Proof.
  intros B. unfold ecdsa_decode_der. pose proof (read_seq_safe der strict) as S1. destruct (asn1_read_seq der strict) as [[] d1| |] eqn:E1; [|discriminate|destruct S1].
  pose proof (safe_rest _ _ _ _ B S1 eq_refl) as B1. pose proof (read_int_safe (ssize p c) d1 strict B1) as S2. destruct (asn1_read_int (ssize p c) d1 strict) as [x d2| |] eqn:E2; [|discriminate|destruct S2].
  pose proof (safe_rest _ _ _ _ B1 S2 eq_refl) as B2. pose proof (read_int_safe (ssize p c) d2 strict B2) as S3. destruct (asn1_read_int (ssize p c) d2 strict) as [y d3| |]; [|discriminate|destruct S3].
  destruct (_ && _); [discriminate|]. rewrite !(sc_import_eq p d c C). destruct (be_val x <? n), (be_val y <? n); cbn [andb]; discriminate.
Qed.
Theorem decode_strict der r s rest : bytes der -> ecdsa_decode_der p c der true = ROk (r, s) rest <-> rest = [] /\ 0 <= r < n /\ 0 <= s < n /\ der_pair r s der.
Proof.
  intros B. pose proof n0 as N0. split.
  - unfold ecdsa_decode_der. destruct (asn1_read_seq der true) as [[] d1| |] eqn:E1; try discriminate.
    apply (read_seq_strict der d1 B) in E1. destruct E1 as (l & DL & -> & _). apply bytes_app in B. destruct B as [_ B]. apply bytes_app in B. destruct B as [_ B].
    destruct (asn1_read_int (ssize p c) d1 true) as [x d2| |] eqn:E2; try discriminate. apply read_int_strict in E2; [|exact B]. destruct E2 as (bx & X & -> & LX & BX). apply bytes_app in B. destruct B as [_ B].
    destruct (asn1_read_int (ssize p c) d2 true) as [y d3| |] eqn:E3; try discriminate. apply read_int_strict in E3; [|exact B]. destruct E3 as (yb & Y & -> & LY & BY).
    destruct d3 as [|z d3]; cbn [length Nat.eqb negb andb]; [|discriminate]. rewrite !(sc_import_eq p d c C).
    pose proof (be_val_range x BX) as RX. pose proof (be_val_range y BY) as RY.
    destruct (Z.ltb_spec (be_val x) n) as [HX|HX], (Z.ltb_spec (be_val y) n) as [HY|HY]; cbn [andb]; try discriminate. intros E. assert (rest = [] /\ r = be_val x /\ s = be_val y) as (-> & -> & ->) by (split; [congruence|split; congruence]).
    split; [reflexivity|]. split; [lia|]. split; [lia|]. rewrite app_nil_r in *. exists l, bx, yb. repeat split; assumption.
  - intros (-> & R & S & (l & x & y & X & Y & DL & ->)). unfold ecdsa_decode_der.
    assert (L32 : Z.of_nat (length (x ++ y)) < 2 ^ 32).
    { pose proof (der_int_len r x R X). pose proof (der_int_len s y S Y). rewrite app_length. lia. }
    rewrite (proj2 (read_seq_strict ([0x30] ++ l ++ x ++ y) (x ++ y) B)) by (exists l; auto).
    pose proof B as B'. apply bytes_app in B'. destruct B' as [_ B']. apply bytes_app in B'. destruct B' as [_ B']. apply bytes_app in B'. destruct B' as [Bx By].
    rewrite (int_read r x y true R X By). rewrite <- (app_nil_r y), (int_read s y [] true S Y ltac:(constructor)). cbn [length Nat.eqb negb andb].
    rewrite !(sc_import_i2o p d D c C) by assumption. reflexivity.
Qed.
Theorem decode_lax der r s junk : bytes der -> bytes junk -> 0 <= r < n -> 0 <= s < n -> der_pair r s der -> ecdsa_decode_der p c (der ++ junk) false = ROk (r, s) [].
Proof.
  intros B BJ R S (l & x & y & X & Y & DL & ->). unfold ecdsa_decode_der. rewrite <- !app_assoc.
  assert (L32 : Z.of_nat (length (x ++ y)) < 2 ^ 32) by (pose proof (der_int_len r x R X); pose proof (der_int_len s y S Y); rewrite app_length; lia).
  rewrite (read_seq_lax l (x ++ y ++ junk) _ DL L32). apply bytes_app in B. destruct B as [_ B]. apply bytes_app in B. destruct B as [_ B]. apply bytes_app in B. destruct B as [Bx By].
  rewrite (int_read r x (y ++ junk) false R X) by (apply bytes_app; auto). rewrite (int_read s y junk false S Y BJ). cbn [andb]. rewrite !(sc_import_i2o p d D c C) by assumption. reflexivity.
Qed.
Definition sig_of (r s : Z) : list Z := i2o n r ++ i2o n s.
Lemma sig_parts r s : sig_r p c (sig_of r s) = i2o n r /\ sig_s p c (sig_of r s) = i2o n s.
Proof. apply (sig_split p d D c C); apply i2o_len. Qed.
Theorem export_ok r s : 0 <= r < n -> 0 <= s < n -> exists der, ecdsa_sig_export p c (sig_of r s) = Some (der, true) /\ der_pair r s der /\ bytes der.
Proof.
  intros R S. destruct (encode_der r s R S) as (der & E & DP & B). exists der. split; [|split; assumption]. unfold ecdsa_sig_export. destruct (sig_parts r s) as [-> ->].
  rewrite !(sc_import_i2o p d D c C) by assumption. cbn [andb]. rewrite E. reflexivity.
Qed.
Theorem import_strict der : bytes der -> exists sig ok, ecdsa_sig_import p c der = ROk (sig, ok) [] /\ (ok = true <-> exists r s, 0 <= r < n /\ 0 <= s < n /\ der_pair r s der) /\
  (forall r s, 0 <= r < n -> 0 <= s < n -> der_pair r s der -> sig = sig_of r s) /\ (ok = false -> sig = sig_of 0 0).
Proof.
  intros B. pose proof (decode_safe der true B) as SF. unfold ecdsa_sig_import, sig_import. rewrite !(sc_export_eq p d D c C). destruct (ecdsa_decode_der p c der true) as [[r s] rest| |] eqn:E; [| |contradiction].
  - pose proof (proj1 (decode_strict der r s rest B) E) as (-> & R & S & DP). exists (sig_of r s), true. rewrite !(sc_export_eq p d D c C). split; [reflexivity|]. split; [split; [intros _; exists r, s; auto|reflexivity]|]. split; [|discriminate].
    intros r' s' R' S' DP'. pose proof (proj2 (decode_strict der r' s' [] B) (conj eq_refl (conj R' (conj S' DP')))) as E'. assert (r = r' /\ s = s') as [-> ->] by (split; congruence). reflexivity.
  - exists (sig_of 0 0), false. split; [reflexivity|].
    assert (NO : forall r s, 0 <= r < n -> 0 <= s < n -> der_pair r s der -> False).
    { intros r s R S DP. pose proof (proj2 (decode_strict der r s [] B) (conj eq_refl (conj R (conj S DP)))) as E'. congruence. }
    split; [split; [discriminate|intros (r & s & R & S & DP); destruct (NO r s R S DP)]|]. split; [|reflexivity]. intros r s R S DP. destruct (NO r s R S DP).
Qed.
Theorem export_import r s : 0 <= r < n -> 0 <= s < n -> exists der, ecdsa_sig_export p c (sig_of r s) = Some (der, true) /\ ecdsa_sig_import p c der = ROk (sig_of r s, true) [] /\
  forall junk, bytes junk -> ecdsa_sig_import_lax p c (der ++ junk) = ROk (sig_of r s, true) [].
Proof.
  intros R S. destruct (export_ok r s R S) as (der & E & DP & B). exists der. split; [exact E|]. split.
  - unfold ecdsa_sig_import, sig_import. rewrite (proj2 (decode_strict der r s [] B)) by auto. rewrite !(sc_export_eq p d D c C). reflexivity.
  - intros junk BJ. unfold ecdsa_sig_import_lax, sig_import. rewrite (decode_lax der r s junk) by assumption. rewrite !(sc_export_eq p d D c C). reflexivity.
Qed.
Theorem import_export der sig rest : bytes der -> ecdsa_sig_import p c der = ROk (sig, true) rest -> ecdsa_sig_export p c sig = Some (der, true).
Proof.
  intros B E. destruct (import_strict der B) as (sig' & ok & E' & OK & U & _). assert (ok = true /\ sig' = sig) as [-> ->] by (rewrite E' in E; split; congruence).
  destruct (proj1 OK eq_refl) as (r & s & R & S & DP). rewrite (U r s R S DP). destruct (export_ok r s R S) as (der' & -> & DP' & _). rewrite (der_pair_unique r s der' der DP' DP). reflexivity.
Qed.
(* ---- low s ---- *)
Lemma half_lt : n / 2 < n. Proof. apply Z.div_lt; pose proof n0; lia. Qed.
Theorem normalize_ok r s : 0 <= r < n -> 0 <= s < n -> exists s', ecdsa_sig_normalize p c (sig_of r s) = (sig_of r s', true) /\ s' <= n / 2 /\ (s' = s \/ 0 < s < n /\ s' = n - s) /\ ecdsa_is_low_s p c (sig_of r s') = true.
Proof.
  intros R S. unfold ecdsa_sig_normalize, ecdsa_is_low_s. destruct (sig_parts r s) as [-> ->]. rewrite !(sc_import_i2o p d D c C) by assumption. rewrite (cx_n _ _ _ C), !(sc_export_eq p d D c C).
  exists (fst (sc_minimize n s)). assert (K : 0 <= fst (sc_minimize n s) <= n / 2 /\ (fst (sc_minimize n s) = s \/ 0 < s < n /\ fst (sc_minimize n s) = n - s)).
  { unfold sc_minimize, sc_is_high. cbn [fst]. destruct (Z.ltb_spec (n / 2) s) as [Hs|Hs]; [|split; [lia|left; reflexivity]]. assert (0 <= n / 2) by (apply Z.div_pos; pose proof n0; lia). unfold sc_neg. rewrite (proj2 (Z.eqb_neq s 0)) by lia.
    split; [|right; split; [lia|reflexivity]]. pose proof (Z.div_mod n 2 ltac:(lia)). pose proof (Z.mod_pos_bound n 2 ltac:(lia)). lia. }
  destruct K as [K1 K2]. split; [reflexivity|]. split; [apply K1|]. split; [exact K2|]. destruct (sig_parts r (fst (sc_minimize n s))) as [-> ->]. pose proof half_lt.
  rewrite !(sc_import_i2o p d D c C) by (try assumption; lia). cbn [andb]. unfold sc_is_high. rewrite (proj2 (Z.ltb_ge _ _)) by apply K1. reflexivity.
Qed.
Theorem is_low_iff r s : 0 <= r < n -> 0 <= s < n -> ecdsa_is_low_s p c (sig_of r s) = true <-> s <= n / 2.
Proof.
  intros R S. unfold ecdsa_is_low_s. destruct (sig_parts r s) as [-> ->]. rewrite !(sc_import_i2o p d D c C) by assumption. rewrite (cx_n _ _ _ C). cbn [andb]. unfold sc_is_high. rewrite negb_true_iff. apply Z.ltb_ge.
Qed.
Local Notation accepts := (ecdsa_accepts fe (@fv p) add zm G n).
Theorem accepts_neg A m r s : on A -> zm n A = Inf -> accepts A m r s -> accepts A m r (n - s).
Proof.
  intros O ORD (R & S & w & X & Y & W & E & V). split; [exact R|]. split; [lia|]. exists (n - w), X, (fe_neg Y). pose proof N1 as NN. pose proof n0 as N0.
  assert (NG : forall v, (v * (n - w)) mod n = (- ((v * w) mod n)) mod n).
  { intros v. transitivity ((- (v * w)) mod n); [unfold eqm; replace (v * (n - w)) with (- (v * w) + v * n) by ring; apply Z.mod_add; lia|]. unfold eqm. replace (- (v * w)) with (0 - v * w) by ring. replace (- ((v * w) mod n)) with (0 - (v * w) mod n) by ring. symmetry. apply Zminus_mod_idemp_r. }
  split; [|split; [|exact V]].
  - replace ((n - s) * (n - w)) with (s * w + (n - s - w) * n) by ring. rewrite Z.mod_add by lia. exact W.
  - rewrite !NG. rewrite (mod_zm p d D), (zm_mod_pt p d D _ A O ORD). rewrite !(m_neg p Pp P3 a b h ns no2) by (try exact O; exact Gon). rewrite <- (inv_op _ _ _ _ _ (L p Pp P3 a b h ns no2)), E; [reflexivity| |]; apply Mon; [exact Gon|exact O].
Qed.
End P.
