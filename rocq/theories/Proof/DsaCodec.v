(* DER and exchange encodings of DSA values. *)
From Verif.Base Require Import Prelude.
From Verif.Model Require Import Encoding Bio Asn1 NumTheory Rsa Dsa.
From Verif.Proof Require Import Asn1Proof RsaKey RsaCodec.
From Verif.Props Require Import Asn1Props.

Lemma read_mpzs_write l body rest : Forall big l -> bytes rest -> ocat (map asn1_write_mpz l) = Some body -> read_mpzs (length l) (body ++ rest) = Some (l, rest).
Proof.
  intros F Br. revert body. induction F as [|n l Hn Hl IH]; intros body E; [cbn in E; apply some_inj in E; subst; reflexivity|].
  cbn [map] in E. rewrite ocat_cons in E. destruct (mpz_full n Hn) as (a & Ea & Ba & _ & R). rewrite Ea in E. cbn [obind] in E.
  destruct (fields_full l Hl) as (b & Eb & Bb & _). rewrite Eb in E. cbn [obind] in E. apply some_inj in E. subst body.
  cbn [length read_mpzs]. rewrite <- app_assoc, R by (apply bytes_app; split; assumption). cbn [rbind]. rewrite (IH b Eb). reflexivity.
Qed.

Lemma read_mpzs_inv cnt : forall data l rest, bytes data -> read_mpzs cnt data = Some (l, rest) ->
  length l = cnt /\ Forall big l /\ bytes rest /\ exists body, data = body ++ rest /\ ocat (map asn1_write_mpz l) = Some body.
Proof.
  induction cnt as [|cnt IH]; intros data l rest B; cbn [read_mpzs].
  - intros E. apply some_inj in E. apply pair_equal_spec in E. destruct E as [<- <-]. split; [reflexivity|]. split; [constructor|]. split; [exact B|]. exists []. split; reflexivity.
  - destruct (asn1_read_mpz data true) as [n r| |] eqn:E; try discriminate. cbn [rbind].
    destruct (C15_strict_mpz_canonical data n r B E) as (bs & Ed & D & W). destruct (read_mpz_strict _ n r B E) as (_ & _ & _ & G).
    assert (Br : bytes r) by (rewrite Ed in B; apply bytes_app in B; apply B).
    destruct (read_mpzs cnt r) as [[l' r']|] eqn:E2; [|discriminate]. cbn [obind]. intros X. apply some_inj in X. apply pair_equal_spec in X. destruct X as [<- <-].
    destruct (IH r l' r' Br E2) as (L & F & B' & body & Eb & W'). split; [cbn [length]; congruence|]. split; [apply Forall_cons; assumption|]. split; [exact B'|].
    exists (bs ++ body). split; [rewrite <- app_assoc, <- Eb; exact Ed|]. cbn [map]. rewrite ocat_cons, W. cbn [obind]. rewrite W'. reflexivity.
Qed.

Definition vbytes (version : bool) : list Z := if version then [2; 1; 0] else [].
Lemma vbytes_bytes v : bytes (vbytes v). Proof. destruct v; cbn; repeat constructor; unfold byte; lia. Qed.
Lemma write_fields_eq v l body : ocat (map asn1_write_mpz l) = Some body -> sumz (map asn1_size_mpz l) = Z.of_nat (length body) ->
  write_fields v l = obind (asn1_write_seq (Z.of_nat (length (vbytes v ++ body)))) (fun h => Some (h ++ vbytes v ++ body)).
Proof.
  intros E L. unfold write_fields. cbv zeta. rewrite L, ocat_cons. destruct v; cbn [vbytes].
  - replace (asn1_size_version 0 + Z.of_nat (length body)) with (Z.of_nat (length ([2; 1; 0] ++ body))) by (rewrite app_length, Nat2Z.inj_add; reflexivity).
    change ([asn1_write_version 0] ++ map asn1_write_mpz l) with (asn1_write_version 0 :: map asn1_write_mpz l). rewrite ocat_cons, E. reflexivity.
  - rewrite !app_nil_l, Z.add_0_l, E. reflexivity.
Qed.

Lemma fields_roundtrip v l : (length l <= 8)%nat -> Forall big l -> exists bs, write_fields v l = Some bs /\ bytes bs /\ read_fields v (length l) bs = Some l.
Proof.
  intros L8 F. destruct (fields_full l F) as (body & E & B & L & LE).
  assert (Bb : bytes (vbytes v ++ body)) by (apply bytes_app; split; [apply vbytes_bytes|exact B]).
  destruct (seq_rt (vbytes v ++ body) Bb) as (h & W & R & Bh).
  { rewrite app_length, Nat2Z.inj_add. assert (Z.of_nat (length (vbytes v)) <= 3) by (destruct v; cbn; lia). lia. }
  exists (h ++ vbytes v ++ body). rewrite (write_fields_eq v l body E (eq_sym L)), W. cbn [obind]. split; [reflexivity|].
  split; [apply bytes_app; split; assumption|]. unfold read_fields. rewrite R. unfold rbind at 1.
  assert (X : (if v then rbind (asn1_read_version (vbytes v ++ body) 0 true) (fun _ data => Some data) else Some (vbytes v ++ body)) = Some body).
  { destruct v; [|reflexivity]. cbn [vbytes]. rewrite version0. reflexivity. }
  rewrite X. cbn [obind]. rewrite <- (app_nil_r body). rewrite (read_mpzs_write l body [] F ltac:(constructor) E). reflexivity.
Qed.

Lemma fields_canonical v cnt data l : (cnt <= 8)%nat -> bytes data -> read_fields v cnt data = Some l -> length l = cnt /\ Forall big l /\ write_fields v l = Some data.
Proof.
  intros C8 Hb. unfold read_fields.
  destruct (asn1_read_seq data true) as [[] r0| |] eqn:E0; try discriminate. unfold rbind at 1.
  apply (proj1 (read_seq_strict data r0 Hb)) in E0. destruct E0 as (l0 & Dl & Ed & _).
  assert (B0 : bytes r0). { rewrite Ed in Hb. apply bytes_app in Hb. destruct Hb as [_ Hb]. apply bytes_app in Hb. apply Hb. }
  assert (X : forall r1, (if v then rbind (asn1_read_version r0 0 true) (fun _ data => Some data) else Some r0) = Some r1 -> r0 = vbytes v ++ r1).
  { intros r1. destruct v; [|intros X; apply some_inj in X; exact X]. destruct (asn1_read_version r0 0 true) as [[] r| |] eqn:E1; try discriminate. cbn [rbind]. intros X. apply some_inj in X. subst r1.
    unfold asn1_read_version in E1. destruct r0 as [|a [|b [|c r0]]]; try discriminate E1. unfold peek in E1. cbn [length Nat.ltb Nat.leb nth_error skipn] in E1.
    destruct (Z.eqb_spec a 2); [|discriminate E1]. destruct (Z.eqb_spec b 1); [|discriminate E1]. destruct (Z.eqb_spec c 0); [|discriminate E1]. cbn [negb orb] in E1.
    injection E1 as <-. subst. reflexivity. }
  destruct (if v then _ else _) as [r1|]; [|discriminate]. cbn [obind]. specialize (X r1 eq_refl).
  assert (B1 : bytes r1) by (rewrite X in B0; apply bytes_app in B0; apply B0).
  destruct (read_mpzs cnt r1) as [[l' r2]|] eqn:E2; [|discriminate]. cbn [obind]. destruct r2; [|discriminate]. cbn [empty]. intros Y. apply some_inj in Y. subst l'.
  destruct (read_mpzs_inv cnt r1 l [] B1 E2) as (L & F & _ & body & Eb & W). rewrite app_nil_r in Eb. subst r1. split; [exact L|]. split; [exact F|].
  destruct (fields_full l F) as (body' & E' & B' & L' & LE). rewrite W in E'. apply some_inj in E'. subst body'.
  rewrite (write_fields_eq v l body W (eq_sym L')), <- X.
  assert (Wl : asn1_write_seq (Z.of_nat (length r0)) = Some (48 :: l0)).
  { unfold asn1_write_seq. replace (asn1_write_size (Z.of_nat (length r0))) with (Some l0); [reflexivity|]. symmetry. apply write_size_iff; [clear; lia|].
    split; [exact Dl|]. rewrite X, app_length, Nat2Z.inj_add. assert (Z.of_nat (length (vbytes v)) <= 3) by (destruct v; cbn; lia). lia. }
  rewrite Wl. cbn [obind]. rewrite Ed. reflexivity.
Qed.

Lemma read_dumbs_write l body rest : Forall big l -> ocat (map asn1_write_dumb l) = Some body -> read_dumbs (length l) (body ++ rest) = Some (l, rest).
Proof.
  intros F. revert body. induction F as [|n l Hn Hl IH]; intros body E; [cbn in E; apply some_inj in E; subst; reflexivity|].
  cbn [map] in E. rewrite ocat_cons in E. destruct (dumb_full n Hn) as (a & Ea & R). rewrite Ea in E. cbn [obind] in E.
  destruct (ocat (map asn1_write_dumb l)) as [b|] eqn:Eb; [|discriminate]. cbn [obind] in E. apply some_inj in E. subst body.
  cbn [length read_dumbs]. rewrite <- app_assoc, R. cbn [rbind]. rewrite (IH b eq_refl). reflexivity.
Qed.
Lemma dumbs_full l : Forall big l -> exists body, ocat (map asn1_write_dumb l) = Some body /\ forall rest, read_dumbs (length l) (body ++ rest) = Some (l, rest).
Proof.
  intros F. assert (X : exists body, ocat (map asn1_write_dumb l) = Some body).
  { induction F as [|n l Hn Hl IH]; [exists []; reflexivity|]. destruct IH as (b & Eb). destruct (dumb_full n Hn) as (a & Ea & R). exists (a ++ b). cbn [map]. rewrite ocat_cons, Ea. cbn [obind]. rewrite Eb. reflexivity. }
  destruct X as (body & E). exists body. split; [exact E|]. intros rest. apply read_dumbs_write; assumption.
Qed.

Definition big_group (g : dsa_group) : Prop := big (gp g) /\ big (gq g) /\ big (gg g).

Lemma group_roundtrip g : big_group g -> exists bs, dsa_group_export g = Some bs /\ bytes bs /\ dsa_group_import bs = Some g.
Proof.
  intros (P & Q & G). destruct (fields_roundtrip false (group_fields g) ltac:(cbn; lia) ltac:(repeat (apply Forall_cons; [assumption|]); apply Forall_nil)) as (bs & W & B & R).
  exists bs. split; [exact W|]. split; [exact B|]. unfold dsa_group_import. cbn [length group_fields] in R. rewrite R. destruct g. reflexivity.
Qed.
Lemma pub_roundtrip k : big_group (pg k) -> big (py k) -> exists bs, dsa_pub_export k = Some bs /\ bytes bs /\ dsa_pub_import bs = Some k.
Proof.
  intros (P & Q & G) Y. destruct (fields_roundtrip false [py k; gp (pg k); gq (pg k); gg (pg k)] ltac:(cbn; lia) ltac:(repeat (apply Forall_cons; [assumption|]); apply Forall_nil)) as (bs & W & B & R).
  exists bs. split; [exact W|]. split; [exact B|]. unfold dsa_pub_import. cbn [length] in R. rewrite R. destruct k as [[]]. reflexivity.
Qed.
Lemma dpriv_roundtrip k : big_group (xg k) -> big (xy k) -> big (xx k) -> exists bs, dsa_priv_export k = Some bs /\ bytes bs /\ dsa_priv_import bs = Some k.
Proof.
  intros (P & Q & G) Y X. destruct (fields_roundtrip true (dpriv_fields k) ltac:(cbn; lia) ltac:(repeat (apply Forall_cons; [assumption|]); apply Forall_nil)) as (bs & W & B & R).
  exists bs. split; [exact W|]. split; [exact B|]. unfold dsa_priv_import. cbn [length dpriv_fields] in R. rewrite R. destruct k as [[]]. reflexivity.
Qed.
Lemma group_canonical data g : bytes data -> dsa_group_import data = Some g -> dsa_group_export g = Some data /\ big_group g.
Proof.
  intros B. unfold dsa_group_import. destruct (read_fields false 3 data) as [l|] eqn:E; [|discriminate]. cbn [obind].
  destruct (fields_canonical false 3 data l ltac:(lia) B E) as (L & F & W). destruct l as [|p [|q [|g' [|]]]]; try discriminate. intros X. apply some_inj in X. subst g.
  split; [exact W|]. rewrite !Forall_cons_iff in F. unfold big_group. cbn. tauto.
Qed.
Lemma pub_canonical data k : bytes data -> dsa_pub_import data = Some k -> dsa_pub_export k = Some data /\ big_group (pg k) /\ big (py k).
Proof.
  intros B. unfold dsa_pub_import. destruct (read_fields false 4 data) as [l|] eqn:E; [|discriminate]. cbn [obind].
  destruct (fields_canonical false 4 data l ltac:(lia) B E) as (L & F & W). destruct l as [|y [|p [|q [|g' [|]]]]]; try discriminate. intros X. apply some_inj in X. subst k.
  split; [exact W|]. rewrite !Forall_cons_iff in F. unfold big_group. cbn. tauto.
Qed.
Lemma dpriv_canonical data k : bytes data -> dsa_priv_import data = Some k -> dsa_priv_export k = Some data /\ big_group (xg k) /\ big (xy k) /\ big (xx k).
Proof.
  intros B. unfold dsa_priv_import. destruct (read_fields true 5 data) as [l|] eqn:E; [|discriminate]. cbn [obind].
  destruct (fields_canonical true 5 data l ltac:(lia) B E) as (L & F & W). destruct l as [|p [|q [|g' [|y [|x [|]]]]]]; try discriminate. intros X. apply some_inj in X. subst k.
  split; [exact W|]. rewrite !Forall_cons_iff in F. unfold big_group. cbn. tauto.
Qed.
Lemma dpriv_dumb_roundtrip k rest : big_group (xg k) -> big (xy k) -> big (xx k) -> exists bs, dsa_priv_export_dumb k = Some bs /\ dsa_priv_import_dumb (bs ++ rest) = Some k.
Proof.
  intros (P & Q & G) Y X. destruct (dumbs_full (dpriv_fields k) ltac:(repeat (apply Forall_cons; [assumption|]); apply Forall_nil)) as (bs & W & R).
  exists bs. split; [exact W|]. unfold dsa_priv_import_dumb. specialize (R rest). cbn [length dpriv_fields] in R. rewrite R. destruct k as [[]]. reflexivity.
Qed.
Lemma dpub_dumb_roundtrip k rest : big_group (pg k) -> big (py k) -> exists bs, dsa_pub_export_dumb k = Some bs /\ dsa_pub_import_dumb (bs ++ rest) = Some k.
Proof.
  intros (P & Q & G) Y. destruct (dumbs_full [gp (pg k); gq (pg k); gg (pg k); py k] ltac:(repeat (apply Forall_cons; [assumption|]); apply Forall_nil)) as (bs & W & R).
  exists bs. split; [exact W|]. unfold dsa_pub_import_dumb. specialize (R rest). cbn [length] in R. rewrite R. destruct k as [[]]. reflexivity.
Qed.
Lemma group_dumb_roundtrip g rest : big_group g -> exists bs, dsa_group_export_dumb g = Some bs /\ dsa_group_import_dumb (bs ++ rest) = Some g.
Proof.
  intros (P & Q & G). destruct (dumbs_full (group_fields g) ltac:(repeat (apply Forall_cons; [assumption|]); apply Forall_nil)) as (bs & W & R).
  exists bs. split; [exact W|]. unfold dsa_group_import_dumb. specialize (R rest). cbn [length group_fields] in R. rewrite R. destruct g. reflexivity.
Qed.
