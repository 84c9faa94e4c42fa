(* HKDF, PBKDF2, EB2K and PGPDF produce the blocks of their standards *)
From Verif.Base Require Import Prelude.
From Verif.Model Require Import Encoding Bio Hash Stream Kdf.
From Verif.Spec Require Import BlockSpec HashSpec KdfSpec.
From Verif.Proof Require Import BioProof BlockProof HashProof HmacProof.

#[local] Opaque hash_init hash_update hash_final hmac_init hmac_update hmac_final hash_value rfc2104.

Lemma emit_spec {A} (body : nat -> A -> nat -> outcome (list Z * A)) (P : nat -> A -> Prop) (blk : nat -> list Z) hs top :
  (forall i, (i < top)%nat -> length (blk i) = hs) ->
  (forall i st, (i < top)%nat -> P i st -> exists st', body i st hs = Ok (blk i, st') /\ P (S i) st') ->
  forall n i st len out, (i + n <= top)%nat -> P i st -> (len <= n * hs)%nat -> ((n - 1) * hs < len)%nat ->
  emit body n i st hs len out = Ok (out ++ firstn len (concat (map blk (seq i n)))).
Proof.
  intros HL HB. induction n as [|n IH]; intros i st len out Ht HP H1 H2.
  - cbn [emit seq map concat]. rewrite firstn_nil, app_nil_r. reflexivity.
  - cbn [emit]. destruct (HB i st ltac:(lia) HP) as [st' [E HP']]. rewrite E. cbn [bind fst snd seq map concat].
    pose proof (HL i ltac:(lia)) as Hi. rewrite firstn_app, Hi.
    destruct n as [|n].
    + destruct (Nat.ltb_spec len hs) as [G|G].
      * cbn [emit seq map concat]. rewrite firstn_nil, app_nil_r. reflexivity.
      * replace len with hs by lia. cbn [emit seq map concat]. rewrite firstn_nil, app_nil_r. reflexivity.
    + destruct (Nat.ltb_spec len hs) as [G|G]; [exfalso; nia|].
      rewrite IH; [|lia|exact HP'|nia|nia]. rewrite <- app_assoc. f_equal. f_equal. f_equal.
      rewrite !firstn_all2 by lia. reflexivity.
Qed.

Lemma emit_while_spec {A} (body : nat -> A -> nat -> option (outcome (list Z * A))) (P : nat -> A -> Prop) (blk : nat -> list Z) hs :
  (0 < hs)%nat -> (forall i, length (blk i) = hs) ->
  (forall i st, P i st -> exists st', body i st hs = Some (Ok (blk i, st')) /\ P (S i) st') ->
  forall n fuel i st len out, (n <= fuel)%nat -> P i st -> (len <= n * hs)%nat -> ((n - 1) * hs < len)%nat \/ n = 0%nat ->
  emit_while body fuel i st hs len out = Some (Ok (out ++ firstn len (concat (map blk (seq i n))))).
Proof.
  intros H0 HL HB. induction n as [|n IH]; intros fuel i st len out Hf HP H1 H2.
  - destruct len; [|lia]. destruct fuel; cbn [emit_while Nat.ltb Nat.leb firstn]; rewrite app_nil_r; reflexivity.
  - destruct H2 as [H2|H2]; [|discriminate]. destruct fuel as [|fuel]; [lia|]. cbn [emit_while].
    destruct (Nat.ltb_spec 0 len); [|lia]. destruct (HB i st HP) as [st' [E HP']]. rewrite E. cbn [fst snd seq map concat].
    pose proof (HL i) as Hi. rewrite firstn_app, Hi.
    destruct n as [|n].
    + destruct (Nat.ltb_spec len hs) as [G|G].
      * replace (len - len)%nat with 0%nat by lia. cbn [seq map concat]. rewrite firstn_nil, app_nil_r. destruct fuel; reflexivity.
      * replace len with hs by lia. rewrite Nat.sub_diag. cbn [seq map concat]. rewrite firstn_nil, app_nil_r. destruct fuel; reflexivity.
    + destruct (Nat.ltb_spec len hs) as [G|G]; [exfalso; nia|].
      rewrite IH; [|lia|exact HP'|nia|left; nia]. rewrite <- app_assoc. do 4 f_equal.
      rewrite !firstn_all2 by lia. reflexivity.
Qed.

Lemma cover_bounds hs len : (0 < hs)%nat -> (len <= cover hs len * hs)%nat /\ ((0 < len)%nat -> (cover hs len - 1) * hs < len)%nat /\ (len = 0%nat -> cover hs len = 0%nat).
Proof.
  intros H. unfold cover. pose proof (Nat.div_mod (len + hs - 1) hs ltac:(lia)) as E. pose proof (Nat.mod_upper_bound (len + hs - 1) hs ltac:(lia)) as U.
  set (q := ((len + hs - 1) / hs)%nat) in *. rewrite Nat.mul_comm in E. split; [nia|]. split; [intros; nia|].
  intros ->. unfold q. apply Nat.div_small. lia.
Qed.
(* the size_t computation of the block count *)
Lemma blocks_count hs len : (0 < hs <= 64)%nat -> Z.of_nat len < M64 ->
  (w64 (w64 (Z.of_nat len + Z.of_nat hs) - 1) <? Z.of_nat len = true -> M64 < Z.of_nat len + 64) /\
  (w64 (w64 (Z.of_nat len + Z.of_nat hs) - 1) <? Z.of_nat len = false ->
   w64 (w64 (Z.of_nat len + Z.of_nat hs) - 1) / Z.of_nat hs = Z.of_nat (cover hs len)).
Proof.
  intros H HL. assert (EM : M64 = 18446744073709551616) by reflexivity. unfold w64. rewrite Zminus_mod_idemp_l.
  destruct (Z_lt_le_dec (Z.of_nat len + Z.of_nat hs - 1) M64) as [L|L].
  - rewrite (Z.mod_small (Z.of_nat len + Z.of_nat hs - 1) M64) by lia. split; intros E; [lia|].
    unfold cover. rewrite Nat2Z.inj_div. f_equal. lia.
  - split; [intros; lia|]. rewrite Z.ltb_ge. intros E. exfalso.
    assert (E2 : (Z.of_nat len + Z.of_nat hs - 1) mod M64 = Z.of_nat len + Z.of_nat hs - 1 - M64).
    { symmetry. apply (Z.mod_unique _ _ 1); lia. }
    rewrite E2 in E. lia.
Qed.
Lemma osize id : (0 < hash_output_size id <= 64)%nat.
Proof. destruct id; cbn; lia. Qed.
Lemma H_ok id m : bytes m -> length (H id m) = hash_output_size id /\ bytes (H id m).
Proof. intros Hm. destruct (hash_value_ok id m (hash_output_size id) Hm) as [E B]. pose proof (sizes id) as [_ [_ [S _]]]. rewrite S in E. auto. Qed.

Lemma len1 (x : Z) : Z.of_nat (length [x]) < M64.
Proof. reflexivity. Qed.

(* ---- HKDF ---- *)
Lemma hkdf_T_ok id prk info i : bytes prk -> bytes info -> (i <= 255)%nat -> bytes (hkdf_T id prk info i) /\ ((0 < i)%nat -> length (hkdf_T id prk info i) = hash_output_size id).
Proof.
  intros Hp Hi. induction i as [|i IH]; intros HL; cbn [hkdf_T]; [split; [constructor|lia]|].
  assert (HB : bytes (hkdf_T id prk info i ++ info ++ [Z.of_nat (S i)])).
  { apply bytes_app. split; [apply IH; lia|]. apply bytes_app. split; [auto|]. constructor; [unfold byte; lia|constructor]. }
  destruct (rfc2104_ok id prk _ Hp HB). auto.
Qed.
Theorem hkdf_expand_value id prk info len : bytes prk -> length prk = hash_output_size id -> bytes info -> Z.of_nat (length info) < M64 -> Z.of_nat len < M64 ->
  hkdf_expand id prk info len = if (len <=? 255 * hash_output_size id)%nat then Ok (hkdf_okm id prk info len) else Fail.
Proof.
  intros Hp HpL Hi HiL HL. pose proof (osize id) as Hs. unfold hkdf_expand. cbv zeta.
  destruct (blocks_count (hash_output_size id) len Hs HL) as [B1 B2]. set (hs := hash_output_size id) in *.
  destruct (cover_bounds hs len ltac:(lia)) as [C1 [C2 C3]].
  destruct (_ <? Z.of_nat len) eqn:EF.
  { specialize (B1 eq_refl). destruct (Nat.leb_spec len (255 * hs)); [|reflexivity]. exfalso. unfold M64 in B1. lia. }
  rewrite (B2 eq_refl). clear B1 B2 EF.
  destruct (Z.ltb_spec 255 (Z.of_nat (cover hs len))) as [G|G].
  { destruct (Nat.leb_spec len (255 * hs)); [|reflexivity]. exfalso. destruct (Nat.eq_dec len 0); [rewrite C3 in G by auto; lia|]. specialize (C2 ltac:(lia)). nia. }
  destruct (Nat.leb_spec len (255 * hs)) as [G2|G2]; [|exfalso; nia].
  unfold hkdf_okm. fold hs. destruct (Nat.eqb_spec len 0) as [->|N]; [reflexivity|].
  rewrite firstn_all2 by lia. destruct (hmac_init_spec id prk Hp ltac:(rewrite HpL; unfold M64; lia)) as [pm [E HR]]. rewrite E. cbn [bind].
  rewrite Nat2Z.id.
  rewrite (emit_spec (hkdf_body pm info) (fun i st => st = (hkdf_T id prk info i, Z.of_nat i)) (fun i => hkdf_T id prk info (S i)) hs 255); auto.
  - cbn [app]. rewrite <- seq_shift, map_map. reflexivity.
  - intros i Hi2. apply hkdf_T_ok; auto; lia.
  - intros i st Hi2 ->. unfold hkdf_body.
    assert (Ew : w8 (Z.of_nat i + 1) = Z.of_nat (S i)) by (unfold w8, M8; rewrite Z.mod_small; lia). rewrite Ew.
    destruct (hkdf_T_ok id prk info i Hp Hi ltac:(lia)) as [TB TL].
    assert (TL2 : Z.of_nat (length (hkdf_T id prk info i)) < M64) by (destruct i; [reflexivity|rewrite TL by lia; unfold M64; lia]).
    destruct (hmac_update_spec id prk [] pm _ HR TL2) as [h1 [E1 R1]]. rewrite E1. cbn [bind].
    destruct (hmac_update_spec id prk _ h1 _ R1 HiL) as [h2 [E2 R2]]. rewrite E2. cbn [bind].
    destruct (hmac_update_spec id prk _ h2 _ R2 (len1 (Z.of_nat (S i)))) as [h3 [E3 R3]]. rewrite E3. cbn [bind].
    cbn [app] in R3. rewrite <- app_assoc in R3.
    assert (HB : bytes (hkdf_T id prk info i ++ info ++ [Z.of_nat (S i)])).
    { apply bytes_app. split; [auto|]. apply bytes_app. split; [auto|]. constructor; [unfold byte; lia|constructor]. }
    rewrite (hmac_final_spec id prk _ h3 Hp HB R3). cbn [bind hkdf_T]. eexists. split; [reflexivity|].
    rewrite firstn_all2; [reflexivity|]. destruct (rfc2104_ok id prk _ Hp HB) as [L _]. unfold hs. lia.
  - lia.
  - apply C2. lia.
Qed.
Theorem hkdf_extract_value id ikm salt : bytes ikm -> bytes salt -> Z.of_nat (length ikm) < M64 -> Z.of_nat (length salt) < M64 ->
  hkdf_extract id ikm salt = Ok (rfc2104 id salt ikm).
Proof.
  intros Hi Hs Li Ls. unfold hkdf_extract. destruct (hmac_init_spec id salt Hs Ls) as [h [E R]]. rewrite E. cbn [bind].
  destruct (hmac_update_spec id salt _ h ikm R Li) as [h' [E' R']]. rewrite E'. cbn [bind]. apply (hmac_final_spec id salt ikm); auto.
Qed.

(* ---- PBKDF2 ---- *)
Lemma U_ok id P Sa i c : bytes P -> bytes Sa -> length (pbkdf2_U id P Sa i c) = hash_output_size id /\ bytes (pbkdf2_U id P Sa i c).
Proof.
  intros HP HS. induction c as [|c [IH1 IH2]]; cbn [pbkdf2_U]; apply rfc2104_ok; auto. apply bytes_app. split; [auto|apply be_bytes_bytes].
Qed.
Lemma F_ok id P Sa i c : bytes P -> bytes Sa -> length (pbkdf2_F id P Sa i c) = hash_output_size id /\ bytes (pbkdf2_F id P Sa i c).
Proof.
  intros HP HS. induction c as [|c [IH1 IH2]]; cbn [pbkdf2_F]; [apply U_ok; auto|]. destruct (U_ok id P Sa i (S c) HP HS) as [U1 U2].
  split; [rewrite map2_length; lia|apply xor_bytes; auto].
Qed.
Lemma pbkdf2_iter_spec id P Sa i pm n : bytes P -> bytes Sa -> hmrep id P [] pm -> forall c,
  pbkdf2_iter n pm (pbkdf2_U id P Sa i c) (pbkdf2_F id P Sa i c) = Ok (pbkdf2_F id P Sa i (c + n)).
Proof.
  intros HP HS HR. induction n as [|n IH]; intros c; cbn [pbkdf2_iter]; [rewrite Nat.add_0_r; reflexivity|].
  destruct (U_ok id P Sa i c HP HS) as [U1 U2]. pose proof (osize id).
  destruct (hmac_update_spec id P [] pm (pbkdf2_U id P Sa i c) HR ltac:(rewrite U1; unfold M64; lia)) as [h [E R]]. rewrite E. cbn [bind].
  rewrite (hmac_final_spec id P _ h HP U2 R). cbn [bind].
  etransitivity; [exact (IH (S c))|]. do 2 f_equal. lia.
Qed.
Theorem pbkdf2_value id P Sa iter len : bytes P -> bytes Sa -> Z.of_nat (length P) < M64 -> Z.of_nat (length Sa) < M64 -> Z.of_nat len < M64 ->
  pbkdf2_derive id P Sa iter len = if Z.of_nat len <=? (2 ^ 32 - 1) * Z.of_nat (hash_output_size id)
    then Ok (pbkdf2_dk id P Sa (Z.to_nat iter) len) else Fail.
Proof.
  intros HP HS LP LS HL. pose proof (osize id) as Hs. unfold pbkdf2_derive. cbv zeta.
  destruct (blocks_count (hash_output_size id) len Hs HL) as [B1 B2].
  unfold pbkdf2_dk. set (hs := hash_output_size id) in *.
  destruct (cover_bounds hs len ltac:(lia)) as [C1 [C2 C3]].
  change (2 ^ 32 - 1) with 4294967295. change 0xffffffff with 4294967295.
  destruct (_ <? Z.of_nat len) eqn:EF.
  { specialize (B1 eq_refl). destruct (Z.leb_spec (Z.of_nat len) (4294967295 * Z.of_nat hs)); [|reflexivity]. exfalso. unfold M64 in B1. lia. }
  rewrite (B2 eq_refl). clear B1 B2 EF.
  destruct (Z.ltb_spec 4294967295 (Z.of_nat (cover hs len))) as [G|G].
  { destruct (Z.leb_spec (Z.of_nat len) (4294967295 * Z.of_nat hs)); [|reflexivity]. exfalso. destruct (Nat.eq_dec len 0); [rewrite C3 in G by auto; lia|]. specialize (C2 ltac:(lia)).
    assert (4294967295 <= Z.of_nat (cover hs len - 1)) by lia. nia. }
  destruct (Z.leb_spec (Z.of_nat len) (4294967295 * Z.of_nat hs)) as [G2|G2]; [|exfalso; nia].
  destruct (Nat.eqb_spec len 0) as [->|N]; [reflexivity|].
  destruct (hmac_init_spec id P HP LP) as [pm [E HR]]. rewrite E. cbn [bind].
  destruct (hmac_update_spec id P [] pm Sa HR LS) as [sm [E1 R1]]. rewrite E1. cbn [bind].
  rewrite Nat2Z.id.
  rewrite (emit_spec (pbkdf2_body pm sm iter) (fun _ _ => True) (fun i => pbkdf2_F id P Sa (Z.of_nat (S i)) (Z.to_nat iter - 1)) hs (cover hs len)); auto.
  - cbn [app]. do 3 f_equal. rewrite <- seq_shift, map_map. reflexivity.
  - intros i _. apply F_ok; auto.
  - intros i st Hi _. unfold pbkdf2_body.
    assert (Ew : w32 (Z.of_nat i + 1) = Z.of_nat (S i)) by (unfold w32, M32; rewrite Z.mod_small; lia). rewrite Ew.
    rewrite write32be_spec.
    destruct (hmac_update_spec id P _ sm (be_bytes 4 (Z.of_nat (S i))) R1 ltac:(rewrite be_bytes_length; reflexivity)) as [h2 [E2 R2]]. rewrite E2. cbn [bind].
    assert (HB : bytes (Sa ++ be_bytes 4 (Z.of_nat (S i)))) by (apply bytes_app; split; [auto|apply be_bytes_bytes]).
    rewrite (hmac_final_spec id P _ h2 HP HB R2). cbn [bind].
    change (rfc2104 id P (Sa ++ be_bytes 4 (Z.of_nat (S i)))) with (pbkdf2_U id P Sa (Z.of_nat (S i)) 0).
    destruct (U_ok id P Sa (Z.of_nat (S i)) 0 HP HS) as [U1 U2]. rewrite firstn_all2 by (unfold hs; lia).
    change (pbkdf2_iter (Z.to_nat (iter - 1)) pm (pbkdf2_U id P Sa (Z.of_nat (S i)) 0) (pbkdf2_U id P Sa (Z.of_nat (S i)) 0))
      with (pbkdf2_iter (Z.to_nat (iter - 1)) pm (pbkdf2_U id P Sa (Z.of_nat (S i)) 0) (pbkdf2_F id P Sa (Z.of_nat (S i)) 0)).
    rewrite (pbkdf2_iter_spec id P Sa); auto. cbn [bind]. exists tt. split; [|exact I]. do 3 f_equal. lia.
  - apply C2. lia.
Qed.
