(* Encodings of RSA keys: reading back what was written, and one encoding per key. *)
From Verif.Base Require Import Prelude.
From Verif.Model Require Import Encoding Bio Asn1 NumTheory Rsa.
From Verif.Spec Require Import RsaSpec.
From Verif.Proof Require Import Asn1Proof RsaKey.
From Verif.Props Require Import Asn1Props.

Definition big (n : Z) : Prop := 0 <= n < 256 ^ 2048.

Lemma size_mpz_le n : big n -> asn1_size_mpz n <= 2053.
Proof.
  intros [H0 H]. unfold asn1_size_mpz. cbv zeta.
  assert (B : mpz_bitlen n <= 16384).
  { apply Z.leb_le. rewrite bitlen_le by (clear - H0; lia). apply Z.ltb_lt. replace (2 ^ 16384) with (256 ^ 2048); [exact H|].
    change 256 with (2 ^ 8). rewrite <- Z.pow_mul_r by (clear; lia). reflexivity. }
  assert (B0 : 0 <= mpz_bitlen n).
  { unfold mpz_bitlen. destruct (n =? 0); [clear; lia|]. pose proof (Z.log2_nonneg (Z.abs n)) as L. clear - L. lia. }
  clear H. set (b := mpz_bitlen n) in *. clearbody b.
  assert (S3 : forall x, asn1_size_size x <= 3) by (intros x; unfold asn1_size_size; destruct (x <=? 127), (x <=? 255); lia).
  assert (D : (b + 7) / 8 <= 2048) by (apply Z.lt_succ_r; apply Z.div_lt_upper_bound; lia).
  destruct ((0 <? b) && (Z.land b 7 =? 0)).
  - pose proof (S3 (if b =? 0 then 1 else (b + 7) / 8 + Z.b2z (Z.testbit n (b - 1)))). destruct (Z.testbit n (b - 1)); cbn [Z.b2z] in *; destruct (b =? 0); lia.
  - pose proof (S3 (if b =? 0 then 1 else (b + 7) / 8)). destruct (b =? 0); lia.
Qed.

Lemma mpz_full n : big n -> exists bs, asn1_write_mpz n = Some bs /\ bytes bs /\ Z.of_nat (length bs) = asn1_size_mpz n /\
  forall rest, bytes rest -> asn1_read_mpz (bs ++ rest) true = ROk n rest.
Proof.
  intros Hn. pose proof (pow2048 n Hn) as Hp. apply (proj1 (der_bytelen_le n 65535 (proj1 Hn) eq_refl)) in Hp.
  destruct (write_mpz_der n (proj1 Hn) Hp) as (bs & E & Hd & Hb & L). exists bs. split; [exact E|]. split; [exact Hb|]. split; [exact L|].
  intros rest Hr. destruct (mpz_roundtrip n rest true Hn Hr) as (bs' & E' & R). rewrite E in E'. apply some_inj in E'. subst bs'. exact R.
Qed.

(* a list of integers written one after another *)
Lemma fields_full l : Forall big l -> exists bs, ocat (map asn1_write_mpz l) = Some bs /\ bytes bs /\ Z.of_nat (length bs) = sumz (map asn1_size_mpz l) /\
  Z.of_nat (length bs) <= 2053 * Z.of_nat (length l).
Proof.
  induction 1 as [|n l Hn Hl IH]; [exists []; repeat split; try constructor; cbn; lia|].
  destruct IH as (bs & E & B & L & LE). destruct (mpz_full n Hn) as (a & Ea & Ba & La & _). exists (a ++ bs).
  cbn [map ocat sumz fold_right]. rewrite Ea. cbn [obind]. rewrite E. cbn [obind]. split; [reflexivity|]. split; [apply bytes_app; split; assumption|].
  rewrite app_length, Nat2Z.inj_add, La, L. split; [reflexivity|]. pose proof (size_mpz_le n Hn) as S1. rewrite L in LE. cbn [length]. clear - S1 LE. lia.
Qed.

Lemma seq_rt body : bytes body -> Z.of_nat (length body) <= 0xffff -> exists l, asn1_write_seq (Z.of_nat (length body)) = Some l /\
  asn1_read_seq (l ++ body) true = ROk tt body /\ bytes l.
Proof.
  intros Hb HL. destruct (write_size_der (Z.of_nat (length body)) ltac:(lia)) as (s & E & D & _).
  exists (48 :: s). assert (W : asn1_write_seq (Z.of_nat (length body)) = Some (48 :: s)) by (unfold asn1_write_seq; rewrite E; reflexivity).
  split; [exact W|]. split; [apply (C14_seq_roundtrip body _ Hb W)|]. apply bytes_cons. split; [unfold byte; lia|].
  destruct D as [[? ->]|(_ & c & Hc & _ & _ & ? & ->)]; [repeat constructor; unfold byte; lia|]. apply bytes_cons. split; [unfold byte; lia|auto].
Qed.

Lemma ocat_cons a l : ocat (a :: l) = obind a (fun x => obind (ocat l) (fun y => Some (x ++ y))). Proof. reflexivity. Qed.
Lemma version0 rest : asn1_read_version ([2; 1; 0] ++ rest) 0 true = ROk tt rest. Proof. reflexivity. Qed.

Lemma priv_roundtrip k : Forall big (priv_fields k) -> exists bs, rsa_priv_export k = Some bs /\ bytes bs /\ rsa_priv_import bs = Some k.
Proof.
  intros F. destruct (fields_full _ F) as (body & E & B & L & LE). cbn [priv_fields length] in LE.
  assert (Lb : Z.of_nat (length ([2; 1; 0] ++ body)) = asn1_size_version 0 + sumz (map asn1_size_mpz (priv_fields k))).
  { rewrite app_length, Nat2Z.inj_add, L. reflexivity. }
  assert (Bb : bytes ([2; 1; 0] ++ body)) by (apply bytes_app; split; [repeat constructor; unfold byte; lia|exact B]).
  destruct (seq_rt ([2; 1; 0] ++ body) Bb) as (l & W & R & Bl). { rewrite app_length, Nat2Z.inj_add. cbn [length]. clear - LE. lia. }
  exists (l ++ [2; 1; 0] ++ body). unfold rsa_priv_export. rewrite <- Lb, 2 ocat_cons, W, E.
  split; [reflexivity|]. split; [apply bytes_app; split; assumption|].
  unfold rsa_priv_import. rewrite R. unfold rbind at 1. rewrite version0. unfold rbind at 1.
  unfold priv_fields in *. destruct k as [n e d p q dp dq qi]. cbn [kn ke kd kp kq kdp kdq kqi] in *.
  cbn [map] in E. clear L LE Lb Bb W R Bl l.
  assert (Step : forall n l body, big n -> ocat (asn1_write_mpz n :: l) = Some body -> bytes body -> exists rest, ocat l = Some rest /\ bytes rest /\ asn1_read_mpz body true = ROk n rest).
  { clear. intros n l body Hn. rewrite ocat_cons. destruct (mpz_full n Hn) as (a & -> & Ba & _ & R). cbn [obind].
    destruct (ocat l) as [rest|]; [|discriminate]. cbn [obind]. intros E Bb. apply some_inj in E. subst body. apply bytes_app in Bb. destruct Bb as [_ Br].
    exists rest. split; [reflexivity|]. split; [exact Br|]. apply R. exact Br. }
  assert (S8 : forall x l0, Forall big (x :: l0) -> big x /\ Forall big l0) by (intros x l0 H; inversion H; split; assumption).
  repeat match goal with
  | F : Forall big (_ :: _), E : ocat (asn1_write_mpz ?n :: ?l) = Some ?b, B : bytes ?b |- _ =>
      let Hn := fresh "Hn" in let F' := fresh "F" in let r := fresh "r" in let E' := fresh "E" in let B' := fresh "B" in let R := fresh "R" in
      apply S8 in F; destruct F as [Hn F']; destruct (Step n l b Hn E B) as (r & E' & B' & R); clear E B; rewrite R; unfold rbind at 1; clear R Hn
  end.
  match goal with E : ocat [] = Some _ |- _ => cbn [ocat] in E; apply some_inj in E; subst end. reflexivity.
Qed.

Lemma pub_roundtrip n e : big n -> big e -> exists bs, rsa_pub_export (MkPub n e) = Some bs /\ bytes bs /\ rsa_pub_import bs = Some (MkPub n e).
Proof.
  intros Hn He. destruct (mpz_full n Hn) as (a & Ea & Ba & La & Ra). destruct (mpz_full e He) as (b & Eb & Bb & Lb & Rb).
  assert (Sz : Z.of_nat (length (a ++ b)) = asn1_size_mpz n + asn1_size_mpz e) by (rewrite app_length, Nat2Z.inj_add, La, Lb; reflexivity).
  destruct (seq_rt (a ++ b)) as (l & W & R & Bl); [apply bytes_app; split; assumption| |].
  { rewrite Sz. pose proof (size_mpz_le n Hn) as S1. pose proof (size_mpz_le e He) as S2. clear - S1 S2. lia. }
  exists (l ++ a ++ b). unfold rsa_pub_export. cbn [un ue]. rewrite <- Sz. cbn [ocat]. rewrite W, Ea, Eb. cbn [obind]. rewrite app_nil_r.
  split; [reflexivity|]. split; [apply bytes_app; split; [assumption|apply bytes_app; split; assumption]|].
  unfold rsa_pub_import. rewrite R. unfold rbind at 1. rewrite Ra by assumption. unfold rbind at 1. rewrite <- (app_nil_r b), Rb by constructor. reflexivity.
Qed.

Lemma big_of n : 0 <= n < 2 ^ 16384 -> big n.
Proof. intros H. unfold big. replace (256 ^ 2048) with (2 ^ 16384); [exact H|]. change 256 with (2 ^ 8). rewrite <- Z.pow_mul_r by (clear; lia). reflexivity. Qed.

Lemma valid_big k : valid k -> Forall big (priv_fields k).
Proof.
  intros [En [N1 N2] [[E1 E2] E3] [P1 P2] [Q1 Q2] PQ [D1 D2] ED [DP1 DP2] [DQ1 DQ2] [[QI1 QI2] QI3]]. unfold priv_fields.
  assert (H33 : 2 ^ 33 < 2 ^ 16384) by (apply Z.pow_lt_mono_r; clear; lia).
  set (M := 2 ^ 16384) in *. set (M2 := 2 ^ 33) in *. clear N1.
  assert (Big : forall x, 0 <= x < M -> big x) by (intros x Hx; apply big_of; exact Hx). clearbody M M2.
  destruct k as [n e d p q dp dq qi]. cbn [kn ke kd kp kq kdp kdq kqi] in *.
  assert (Hphi : (p - 1) * (q - 1) < n) by (clear - En P1 Q1; nia).
  assert (Bp : p < n) by (clear - En P1 Q1; nia). assert (Bq : q < n) by (clear - En P1 Q1; nia).
  pose proof (Z.mod_pos_bound d (p - 1) ltac:(clear - P1; lia)) as X1. pose proof (Z.mod_pos_bound d (q - 1) ltac:(clear - Q1; lia)) as X2. rewrite <- DP1 in X1. rewrite <- DQ1 in X2.
  clear En ED DP1 DQ1 QI3. repeat (apply Forall_cons; [apply Big; lia|]). apply Forall_nil.
Qed.

(* whatever is accepted is the encoding rsa_priv_export produces *)
Lemma priv_canonical data k : bytes data -> rsa_priv_import data = Some k -> Forall big (priv_fields k) /\ rsa_priv_export k = Some data.
Proof.
  intros Hb. unfold rsa_priv_import.
  destruct (asn1_read_seq data true) as [[] r0| |] eqn:E0; try discriminate. unfold rbind at 1.
  assert (S0 := E0). apply (proj1 (read_seq_strict data r0 Hb)) in S0. destruct S0 as (l0 & Dl & Ed & _).
  assert (B0 : bytes r0). { rewrite Ed in Hb. apply bytes_app in Hb. destruct Hb as [_ Hb]. apply bytes_app in Hb. apply Hb. }
  destruct (asn1_read_version r0 0 true) as [[] r1| |] eqn:E1; try discriminate. unfold rbind at 1.
  assert (V : r0 = [2; 1; 0] ++ r1).
  { unfold asn1_read_version in E1. destruct r0 as [|a [|b [|c r0]]]; try discriminate E1. unfold peek in E1. cbn [length Nat.ltb Nat.leb nth_error skipn] in E1.
    destruct (Z.eqb_spec a 2); [|discriminate E1]. destruct (Z.eqb_spec b 1); [|discriminate E1]. destruct (Z.eqb_spec c 0); [|discriminate E1]. cbn [negb orb] in E1.
    injection E1 as <-. subst. reflexivity. }
  assert (B1 : bytes r1) by (rewrite V in B0; apply bytes_app in B0; apply B0).
  assert (Step : forall r n rest, bytes r -> asn1_read_mpz r true = ROk n rest -> big n /\ bytes rest /\ exists bs, r = bs ++ rest /\ asn1_write_mpz n = Some bs).
  { clear. intros r n rest Br E. destruct (C15_strict_mpz_canonical r n rest Br E) as (bs & -> & D & W). apply bytes_app in Br as Br2. destruct Br2 as [_ Br2].
    split; [|split; [exact Br2|exists bs; split; [reflexivity|exact W]]]. destruct (read_mpz_strict _ n rest Br E) as (_ & _ & _ & R). exact R. }
  intros E.
  repeat match type of E with
  | rbind (asn1_read_mpz ?r true) _ = Some _ =>
      let n := fresh "n" in let rest := fresh "rest" in let F := fresh "F" in let G := fresh "G" in let B := fresh "B" in let bs := fresh "bs" in let W := fresh "W" in let Er := fresh "Er" in
      destruct (asn1_read_mpz r true) as [n rest| |] eqn:F; [|discriminate E|discriminate E]; unfold rbind at 1 in E;
      match goal with Hr : bytes r |- _ => destruct (Step r n rest Hr F) as (G & B & bs & Er & W); clear F Hr end
  end.
  match type of E with (if empty ?r then _ else _) = _ => destruct r; [|discriminate E] end. apply some_inj in E. subst k.
  unfold rsa_priv_export, priv_fields. cbn [kn ke kd kp kq kdp kdq kqi].
  assert (Fb : Forall big [n; n0; n1; n2; n3; n4; n5; n6]) by (do 8 (apply Forall_cons; [assumption|]); apply Forall_nil).
  split; [exact Fb|].
  destruct (fields_full _ Fb) as (body & Eb & Bb & Lb & LE).
  assert (Ebody : r1 = body).
  { cbn [map ocat] in Eb. rewrite W, W0, W1, W2, W3, W4, W5, W6 in Eb. cbn [obind] in Eb. apply some_inj in Eb. subst. reflexivity. }
  rewrite 2 ocat_cons. rewrite Eb. rewrite <- Lb, <- Ebody.
  replace (asn1_size_version 0 + Z.of_nat (length r1)) with (Z.of_nat (length r0)) by (rewrite V, app_length, Nat2Z.inj_add; reflexivity).
  assert (Wl : asn1_write_seq (Z.of_nat (length r0)) = Some (48 :: l0)).
  { unfold asn1_write_seq. replace (asn1_write_size (Z.of_nat (length r0))) with (Some l0); [reflexivity|]. symmetry. apply write_size_iff; [clear; lia|].
    split; [exact Dl|]. rewrite V, app_length, Nat2Z.inj_add, Ebody. cbn [length] in *. clear - LE. lia. }
  rewrite Wl, Ed, V. reflexivity.
Qed.

Lemma pub_import_big data k : bytes data -> rsa_pub_import data = Some k -> big (un k) /\ big (ue k) /\ rsa_pub_export k = Some data.
Proof.
  intros Hb. unfold rsa_pub_import.
  destruct (asn1_read_seq data true) as [[] r0| |] eqn:E0; try discriminate. unfold rbind at 1.
  apply (proj1 (read_seq_strict data r0 Hb)) in E0. destruct E0 as (l0 & Dl & Ed & _).
  assert (B0 : bytes r0). { rewrite Ed in Hb. apply bytes_app in Hb. destruct Hb as [_ Hb]. apply bytes_app in Hb. apply Hb. }
  destruct (asn1_read_mpz r0 true) as [n r1| |] eqn:E1; try discriminate. unfold rbind at 1.
  destruct (C15_strict_mpz_canonical r0 n r1 B0 E1) as (a & Ea & _ & Wa). destruct (read_mpz_strict _ n r1 B0 E1) as (_ & _ & _ & Gn).
  assert (B1 : bytes r1) by (rewrite Ea in B0; apply bytes_app in B0; apply B0).
  destruct (asn1_read_mpz r1 true) as [e r2| |] eqn:E2; try discriminate. unfold rbind at 1.
  destruct (C15_strict_mpz_canonical r1 e r2 B1 E2) as (b & Eb & _ & Wb). destruct (read_mpz_strict _ e r2 B1 E2) as (_ & _ & _ & Ge).
  destruct r2; [|discriminate]. intros E. apply some_inj in E. subst k. cbn [un ue]. split; [exact Gn|]. split; [exact Ge|].
  destruct (mpz_full n Gn) as (a' & Ea' & _ & La & _). rewrite Wa in Ea'. apply some_inj in Ea'. subst a'.
  destruct (mpz_full e Ge) as (b' & Eb' & _ & Lb & _). rewrite Wb in Eb'. apply some_inj in Eb'. subst b'.
  rewrite app_nil_r in Eb. subst r1. unfold rsa_pub_export. cbn [un ue ocat]. rewrite Wa, Wb. cbn [obind]. rewrite app_nil_r.
  assert (Sz : asn1_size_mpz n + asn1_size_mpz e = Z.of_nat (length r0)) by (rewrite Ea, app_length, Nat2Z.inj_add, La, Lb; reflexivity). rewrite Sz.
  assert (Wl : asn1_write_seq (Z.of_nat (length r0)) = Some (48 :: l0)).
  { unfold asn1_write_seq. replace (asn1_write_size (Z.of_nat (length r0))) with (Some l0); [reflexivity|]. symmetry. apply write_size_iff; [clear; lia|].
    split; [exact Dl|]. rewrite <- Sz. pose proof (size_mpz_le n Gn) as S1. pose proof (size_mpz_le e Ge) as S2. clear - S1 S2. lia. }
  rewrite Wl. cbn [obind]. rewrite Ed, Ea. reflexivity.
Qed.

(* the exchange format *)
Lemma dumb_full n : big n -> exists bs, asn1_write_dumb n = Some bs /\ forall rest, asn1_read_dumb (bs ++ rest) = ROk n rest.
Proof.
  intros [H0 H]. assert (B : mpz_bytelen n <= 0xffff).
  { unfold mpz_bytelen. apply Z.lt_succ_r. apply Z.div_lt_upper_bound; [clear; lia|]. assert (mpz_bitlen n <= 16384); [|lia].
    apply Z.leb_le. rewrite bitlen_le by (clear - H0; lia). apply Z.ltb_lt. replace (2 ^ 16384) with (256 ^ 2048); [exact H|].
    change 256 with (2 ^ 8). rewrite <- Z.pow_mul_r by (clear; lia). reflexivity. }
  clear H. destruct (dumb_roundtrip n [] H0 B) as (bs & E & _ & _). exists bs. split; [exact E|]. intros rest.
  destruct (dumb_roundtrip n rest H0 B) as (bs' & E' & R & _). rewrite E in E'. apply some_inj in E'. subst. exact R.
Qed.

Lemma priv_dumb_roundtrip k rest : Forall big (priv_fields k) -> exists bs, rsa_priv_export_dumb k = Some bs /\ rsa_priv_import_dumb (bs ++ rest) = Some k.
Proof.
  destruct k as [n e d p q dp dq qi]. unfold rsa_priv_export_dumb, priv_fields. cbn [kn ke kd kp kq kdp kdq kqi]. intros F.
  repeat match goal with F : Forall big (?x :: _) |- _ => let G := fresh "G" in let F' := fresh "F" in let b := fresh "b" in let W := fresh "W" in let R := fresh "R" in
    apply Forall_cons_iff in F; destruct F as [G F']; destruct (dumb_full x G) as (b & W & R); clear G end.
  cbn [map ocat]. rewrite W, W0, W1, W2, W3, W4, W5, W6. cbn [obind]. eexists. split; [reflexivity|]. unfold rsa_priv_import_dumb.
  repeat rewrite <- app_assoc. rewrite R. unfold rbind at 1. rewrite R0. unfold rbind at 1. rewrite R1. unfold rbind at 1. rewrite R2. unfold rbind at 1.
  rewrite R3. unfold rbind at 1. rewrite R4. unfold rbind at 1. rewrite R5. unfold rbind at 1. rewrite R6. reflexivity.
Qed.
