(* C35, C36: the authenticated modes through the cipher_stream_t API *)
From Verif.Base Require Import Prelude.
From Verif.Model Require Import Bio Util Block Encoding Modes CipherStream.
From Verif.Spec Require Import BlockSpec StreamSpec MacSpec ModesSpec StreamApiSpec.
From Verif.Proof Require Import UtilProof BioProof BufCrypt BlockProof Pkcs7Proof BlockModes GfShift XtsProof StreamModes CtrProof GhashProof MacModes AeadModes CcmProof StreamApi StreamBlock StreamOpen StreamAead.
From Verif.Props Require Import ModesProps StreamApiProps AeadModesProps.
#[local] Ltac Zify.zify_post_hook ::= idtac.

Definition gcm_tag_size (n : nat) : Prop := n = 4%nat \/ n = 8%nat \/ (12 <= n <= 16)%nat.

Lemma xorl_ok n a b : okb n a -> okb n b -> okb n (xorl a b).
Proof. intros [A1 A2] [B1 B2]. split; [rewrite xorl_length; lia|apply xorl_bytes; auto]. Qed.
Lemma gcm_tag_ok c iv aad ct : cipher_ok c -> c_size c = 16%nat -> bytes iv -> okb 16 (gcm_tag (c_enc c) iv aad ct).
Proof.
  intros Hc H16 Hi. apply xorl_ok.
  - split; [apply be_bytes_length|apply be_bytes_bytes].
  - rewrite <- H16. apply E_ok; auto. rewrite H16. apply gcm_j0_ok; auto.
Qed.

Lemma eax_cipher_bytes c iv m : cipher_ok c -> bytes iv -> bytes m -> bytes (eax_cipher (c_size c) (c_enc c) iv m).
Proof.
  intros Hc Hi Hm. destruct (omac_ok c Hc 0 iv (proj1 (b012 c Hc)) Hi) as [J1 J2]. apply xor_stream_bytes; auto. intros i. unfold ctr_block.
  apply E_ok; auto. split; [apply counter_length; try lia; auto|apply counter_bytes; try lia; auto].
Qed.
Lemma eax_tag_ok' c iv aad ct : cipher_ok c -> bytes iv -> bytes aad -> bytes ct -> okb (c_size c) (eax_tag (c_size c) (c_enc c) iv aad ct).
Proof.
  intros Hc Hi HA HC. destruct (b012 c Hc) as (B0 & B1 & B2). apply xorl_ok; [apply xorl_ok|]; apply (omac_ok c Hc); auto.
Qed.
Lemma eax_tag_ok c iv aad m : cipher_ok c -> bytes iv -> bytes aad -> bytes m -> okb (c_size c) (eax_tag (c_size c) (c_enc c) iv aad (eax_cipher (c_size c) (c_enc c) iv m)).
Proof. intros. apply eax_tag_ok'; auto. apply eax_cipher_bytes; auto. Qed.

(* encryption: the ciphertext and tag of NIST SP 800-38D over the whole of the data; decryption of
   any data with any allowed tag: the plaintext, and success exactly when the tag is the leading
   bytes of the right one *)
Theorem C36_gcm_seal : forall ci key iv s c aads msgs, family ci 16 -> ci key = Some c ->
  bytes iv -> Z.of_nat (length iv) < 2 ^ 64 -> bytes (concat aads) -> bytes (concat msgs) -> Z.of_nat (length (concat msgs)) < 2 ^ 64 ->
  cipher_stream_init ci GCM true key iv = Some s ->
  let ct := gcm_cipher (c_enc c) iv (concat msgs) in
  exists s1 s2 s3, set_aads s aads = Ok s1 /\ updates s1 msgs = Ok (ct, s2) /\ cipher_stream_final s2 = Ok (1, [], 0%nat, s3) /\
    cipher_stream_get_tag s3 = Some (gcm_tag (c_enc c) iv (concat aads) ct).
Proof.
  intros ci key iv s c aads msgs HF HK Hi HiL HA HM HL HO ct.
  destruct (aead_init ci _ GCM _ _ _ _ HF eq_refl HO) as (c' & m & EC & Hc & H16 & EM & ->).
  assert (c' = c) by congruence. subst c'. cbn [cipher_mode_init] in EM.
  destruct (gcm_encrypt_spec c Hc H16 iv aads msgs Hi HiL HA HM HL) as (g & I1 & I2).
  destruct (gcm_init_spec c Hc H16 iv Hi HiL) as (g' & J1 & _ & _ & J2 & J3 & _). assert (g' = g) by congruence. subst g'.
  rewrite I1 in EM. cbn [option_map] in EM. apply some_eq in EM. subst m.
  rewrite (set_aads_gcm aads (mk0 GCM true c (MGcm g)) g eq_refl eq_refl).
  assert (HLv : live c (gcm_ctr (fold_left gcm_aad aads g))).
  { assert (EG : gcm_ctr (fold_left gcm_aad aads g) = gcm_ctr g) by (clear; revert g; induction aads as [|a t IH]; intros g; cbn [fold_left]; [reflexivity|rewrite IH; reflexivity]).
    rewrite EG. split; [auto|]. rewrite J3. apply B_pos; auto. }
  pose proof (upd_gcm c Hc true (with_mode (mk0 GCM true c (MGcm g)) (MGcm (fold_left gcm_aad aads g))) _ msgs H16 eq_refl eq_refl eq_refl eq_refl HLv) as HU.
  cbv iota zeta in HU. destruct (calls (gcm_encrypt c) (fold_left gcm_aad aads g) msgs) as [o g2]. cbn [fst snd] in HU. destruct I2 as [I2 I3].
  eexists _, _, _. split; [reflexivity|]. split; [rewrite HU, I2; reflexivity|].
  unfold cipher_stream_final, aead_final, with_mode, mk0. cbn [s_type s_encrypt s_cipher s_mode cipher_mode_digest s_bsize]. rewrite I3.
  split; [reflexivity|]. unfold cipher_stream_get_tag, with_tag. cbn [s_type s_encrypt s_tag is_aead negb orb].
  destruct (gcm_tag_ok c iv (concat aads) o Hc H16 Hi) as [T1 T2]. rewrite (firstn_all2 (n := c_size c)) by (rewrite H16, T1; apply le_n). rewrite T1. subst o. reflexivity.
Qed.
Theorem C36_gcm_open : forall ci key iv s c aads cts tag, family ci 16 -> ci key = Some c ->
  bytes iv -> Z.of_nat (length iv) < 2 ^ 64 -> bytes (concat aads) -> bytes (concat cts) -> Z.of_nat (length (concat cts)) < 2 ^ 64 ->
  bytes tag -> gcm_tag_size (length tag) ->
  cipher_stream_init ci GCM false key iv = Some s ->
  exists s1 s2 s3, set_aads s aads = Ok s1 /\ cipher_stream_set_tag s1 tag = Ok s2 /\
    updates s2 cts = Ok (gcm_cipher (c_enc c) iv (concat cts), s3) /\
    exists r, cipher_stream_final s3 = Ok (r, [], 0%nat, s3) /\
      r = if list_eq_dec Z.eq_dec tag (firstn (length tag) (gcm_tag (c_enc c) iv (concat aads) (concat cts))) then 1 else 0.
Proof.
  intros ci key iv s c aads cts tag HF HK Hi HiL HA HM HL Ht HT HO.
  destruct (aead_init ci _ GCM _ _ _ _ HF eq_refl HO) as (c' & m & EC & Hc & H16 & EM & ->).
  assert (c' = c) by congruence. subst c'. cbn [cipher_mode_init] in EM.
  destruct (gcm_decrypt_spec c Hc H16 iv aads cts Hi HiL HA HM HL) as (g & I1 & I2).
  destruct (gcm_init_spec c Hc H16 iv Hi HiL) as (g' & J1 & _ & _ & J2 & J3 & _). assert (g' = g) by congruence. subst g'.
  rewrite I1 in EM. cbn [option_map] in EM. apply some_eq in EM. subst m.
  rewrite (set_aads_gcm aads (mk0 GCM false c (MGcm g)) g eq_refl eq_refl).
  assert (HLv : live c (gcm_ctr (fold_left gcm_aad aads g))).
  { assert (EG : gcm_ctr (fold_left gcm_aad aads g) = gcm_ctr g) by (clear; revert g; induction aads as [|a t IH]; intros g; cbn [fold_left]; [reflexivity|rewrite IH; reflexivity]).
    rewrite EG. split; [auto|]. rewrite J3. apply B_pos; auto. }
  assert (ES : cipher_stream_set_tag (with_mode (mk0 GCM false c (MGcm g)) (MGcm (fold_left gcm_aad aads g))) tag = Ok (with_tag (with_mode (mk0 GCM false c (MGcm g)) (MGcm (fold_left gcm_aad aads g))) tag)).
  { unfold cipher_stream_set_tag, with_mode, mk0, s_bsize. cbn [s_type s_encrypt s_cipher]. rewrite H16.
    replace ((length tag =? 4) || (length tag =? 8) || ((12 <=? length tag) && (length tag <=? 16)))%nat with true.
    - replace (length tag <=? 16)%nat with true; [reflexivity|]. symmetry. apply Nat.leb_le. destruct HT as [?|[?|?]]; lia.
    - symmetry. destruct HT as [->|[->|?]]; [reflexivity|reflexivity|]. apply orb_true_iff. right. apply andb_true_iff. rewrite !Nat.leb_le. lia. }
  pose proof (upd_gcm c Hc false (with_tag (with_mode (mk0 GCM false c (MGcm g)) (MGcm (fold_left gcm_aad aads g))) tag) _ cts H16 eq_refl eq_refl eq_refl eq_refl HLv) as HU.
  cbv iota zeta in HU. destruct (calls (gcm_decrypt c) (fold_left gcm_aad aads g) cts) as [o g2]. cbn [fst snd] in HU. destruct I2 as [I2 I3].
  eexists _, _, _. split; [reflexivity|]. split; [exact ES|]. split; [rewrite HU, I2; reflexivity|]. eexists. split; [|reflexivity].
  destruct (gcm_tag_ok c iv (concat aads) (concat cts) Hc H16 Hi) as [T1 T2].
  unfold cipher_stream_final, aead_final, with_mode, with_tag, mk0. cbn [s_type s_encrypt s_cipher s_mode s_tag s_bsize].
  rewrite (verify_spec c GCM (MGcm g2) (gcm_tag (c_enc c) iv (concat aads) (concat cts)) tag); auto.
  - cbn [cipher_mode_digest]. rewrite I3. reflexivity.
  - lia.
  - rewrite T1. destruct HT as [?|[?|?]]; lia.
Qed.
Theorem C36_gcm_roundtrip : forall ci key iv e d c aads aads' msgs cts tag, family ci 16 -> ci key = Some c ->
  bytes iv -> Z.of_nat (length iv) < 2 ^ 64 -> bytes (concat aads) -> bytes (concat msgs) -> Z.of_nat (length (concat msgs)) < 2 ^ 64 ->
  cipher_stream_init ci GCM true key iv = Some e -> cipher_stream_init ci GCM false key iv = Some d ->
  concat aads' = concat aads -> concat cts = gcm_cipher (c_enc c) iv (concat msgs) ->
  tag = gcm_tag (c_enc c) iv (concat aads) (concat cts) ->
  exists s1 s2 s3, set_aads d aads' = Ok s1 /\ cipher_stream_set_tag s1 tag = Ok s2 /\ updates s2 cts = Ok (concat msgs, s3) /\
    cipher_stream_final s3 = Ok (1, [], 0%nat, s3).
Proof.
  intros ci key iv e d c aads aads' msgs cts tag HF HK Hi HiL HA HM HL HE HD EA EC ->. destruct (HF _ _ HK) as [Hc H16].
  destruct (gcm_tag_ok c iv (concat aads) (concat cts) Hc H16 Hi) as [T1 T2].
  assert (J : okb 16 (gcm_j0 (c_enc c) iv)) by (apply gcm_j0_ok; auto).
  assert (HB : forall i, okb 16 (ctr_block 16 (c_enc c) 4 (gcm_j0 (c_enc c) iv) (S i))).
  { intros i. unfold ctr_block. rewrite <- H16 at 1. apply E_ok; auto. rewrite H16. split; [apply counter_length; try lia; apply J|apply counter_bytes; try lia; apply J]. }
  destruct (C36_gcm_open ci key iv d c aads' cts (gcm_tag (c_enc c) iv (concat aads) (concat cts)) HF HK Hi HiL) as (s1 & s2 & s3 & A1 & A2 & A3 & r & A4 & A5).
  - rewrite EA. auto.
  - rewrite EC. apply xor_stream_bytes; auto. intros i. apply HB.
  - rewrite EC. unfold gcm_cipher. rewrite (xor_stream_length _ 16); [auto|lia|]. intros i. apply HB.
  - auto.
  - right. right. rewrite T1. lia.
  - auto.
  - exists s1, s2, s3. rewrite EC, gcm_cipher_invol in A3 by auto. rewrite EA, firstn_all in A5.
    split; [auto|]. split; [auto|]. split; [auto|]. rewrite A4, A5.
    destruct (list_eq_dec Z.eq_dec _ _); [reflexivity|congruence].
Qed.

Theorem C36_eax_seal : forall ci B key iv s c aads msgs, family ci B -> ci key = Some c ->
  iv <> [] -> bytes iv -> bytes (concat aads) -> bytes (concat msgs) ->
  cipher_stream_init ci EAX true key iv = Some s ->
  let ct := eax_cipher B (c_enc c) iv (concat msgs) in
  exists s1 s2 s3, set_aads s aads = Ok s1 /\ updates s1 msgs = Ok (ct, s2) /\ cipher_stream_final s2 = Ok (1, [], 0%nat, s3) /\
    cipher_stream_get_tag s3 = Some (eax_tag B (c_enc c) iv (concat aads) ct).
Proof.
  intros ci B key iv s c aads msgs HF HK Hn Hi HA HM HO ct.
  destruct (aead_init ci _ EAX _ _ _ _ HF eq_refl HO) as (c' & m & EC & Hc & HB & EM & ->).
  assert (c' = c) by congruence. subst c' B. cbn [cipher_mode_init] in EM.
  destruct (eax_encrypt_spec c Hc iv aads msgs Hn Hi) as (g & I1 & I2).
  pose proof I1 as J1. rewrite (eax_init_spec c Hc iv Hn) in J1. apply some_eq in J1.
  rewrite I1 in EM. cbn [option_map] in EM. apply some_eq in EM. subst m.
  rewrite (set_aads_eax c aads (mk0 EAX true c (MEax g)) g eq_refl eq_refl eq_refl).
  assert (HLv : live c (eax_ctr (fold_left (eax_aad c) aads g))).
  { assert (EG : eax_ctr (fold_left (eax_aad c) aads g) = eax_ctr g) by (clear; revert g; induction aads as [|a t IH]; intros g; cbn [fold_left]; [reflexivity|rewrite IH; reflexivity]).
    rewrite EG, <- J1. split; [split; [apply repeat_length|apply (omac_ok c Hc); [apply (b012 c Hc)|auto]]|apply B_pos; auto]. }
  pose proof (upd_eax c Hc true (with_mode (mk0 EAX true c (MEax g)) (MEax (fold_left (eax_aad c) aads g))) _ msgs eq_refl eq_refl eq_refl eq_refl HLv) as HU.
  cbv iota zeta in HU. destruct (calls (eax_encrypt c) (fold_left (eax_aad c) aads g) msgs) as [o g2]. cbn [fst snd] in HU. destruct I2 as [I2 I3].
  eexists _, _, _. split; [reflexivity|]. split; [rewrite HU, I2; reflexivity|].
  unfold cipher_stream_final, aead_final, with_mode, mk0. cbn [s_type s_encrypt s_cipher s_mode cipher_mode_digest s_bsize]. rewrite I3.
  split; [reflexivity|]. unfold cipher_stream_get_tag, with_tag. cbn [s_type s_encrypt s_tag is_aead negb orb].
  assert (T1 : length (eax_tag (c_size c) (c_enc c) iv (concat aads) o) = c_size c).
  { subst o. apply eax_tag_ok; auto. }
  rewrite (firstn_all2 (n := c_size c)) by (rewrite T1; apply le_n). rewrite T1. destruct (Nat.eqb_spec (c_size c) 0) as [E0|_]; [pose proof (B_pos c Hc); lia|]. subst o. reflexivity.
Qed.
Theorem C36_eax_open : forall ci B key iv s c aads cts tag, family ci B -> ci key = Some c -> (B <= 16)%nat ->
  iv <> [] -> bytes iv -> bytes (concat aads) -> bytes (concat cts) ->
  bytes tag -> (1 <= length tag <= B)%nat ->
  cipher_stream_init ci EAX false key iv = Some s ->
  exists s1 s2 s3, set_aads s aads = Ok s1 /\ cipher_stream_set_tag s1 tag = Ok s2 /\
    updates s2 cts = Ok (eax_cipher B (c_enc c) iv (concat cts), s3) /\
    exists r, cipher_stream_final s3 = Ok (r, [], 0%nat, s3) /\
      r = if list_eq_dec Z.eq_dec tag (firstn (length tag) (eax_tag B (c_enc c) iv (concat aads) (concat cts))) then 1 else 0.
Proof.
  intros ci B key iv s c aads cts tag HF HK H16 Hn Hi HA HM Ht HT HO.
  destruct (aead_init ci _ EAX _ _ _ _ HF eq_refl HO) as (c' & m & EC & Hc & HB & EM & ->).
  assert (c' = c) by congruence. subst c' B. cbn [cipher_mode_init] in EM.
  destruct (eax_decrypt_spec c Hc iv aads cts Hn Hi) as (g & I1 & I2).
  pose proof I1 as J1. rewrite (eax_init_spec c Hc iv Hn) in J1. apply some_eq in J1.
  rewrite I1 in EM. cbn [option_map] in EM. apply some_eq in EM. subst m.
  rewrite (set_aads_eax c aads (mk0 EAX false c (MEax g)) g eq_refl eq_refl eq_refl).
  assert (HLv : live c (eax_ctr (fold_left (eax_aad c) aads g))).
  { assert (EG : eax_ctr (fold_left (eax_aad c) aads g) = eax_ctr g) by (clear; revert g; induction aads as [|a t IH]; intros g; cbn [fold_left]; [reflexivity|rewrite IH; reflexivity]).
    rewrite EG, <- J1. split; [split; [apply repeat_length|apply (omac_ok c Hc); [apply (b012 c Hc)|auto]]|apply B_pos; auto]. }
  set (S0 := with_mode (mk0 EAX false c (MEax g)) (MEax (fold_left (eax_aad c) aads g))) in *.
  assert (ES : cipher_stream_set_tag S0 tag = Ok (with_tag S0 tag)).
  { unfold cipher_stream_set_tag, S0, with_mode, mk0, s_bsize. cbn [s_type s_encrypt s_cipher].
    destruct (Nat.eqb_spec (length tag) 0) as [?|_]; [lia|]. destruct (Nat.ltb_spec (c_size c) (length tag)) as [?|_]; [lia|]. cbn [orb negb].
    destruct (Nat.leb_spec (length tag) (c_size c)) as [_|?]; [reflexivity|lia]. }
  pose proof (upd_eax c Hc false (with_tag S0 tag) _ cts eq_refl eq_refl eq_refl eq_refl HLv) as HU.
  cbv iota zeta in HU. destruct (calls (eax_decrypt c) (fold_left (eax_aad c) aads g) cts) as [o g2]. cbn [fst snd] in HU. destruct I2 as [I2 I3].
  eexists _, _, _. split; [reflexivity|]. split; [exact ES|]. split; [rewrite HU, I2; reflexivity|]. eexists. split; [|reflexivity].
  destruct (eax_tag_ok' c iv (concat aads) (concat cts) Hc Hi HA HM) as [T1 T2].
  unfold cipher_stream_final, aead_final, S0, with_mode, with_tag, mk0. cbn [s_type s_encrypt s_cipher s_mode s_tag s_bsize].
  rewrite (verify_spec c EAX (MEax g2) (eax_tag (c_size c) (c_enc c) iv (concat aads) (concat cts)) tag); auto.
  - cbn [cipher_mode_digest]. rewrite I3. reflexivity.
  - lia.
  - rewrite T1. lia.
Qed.
Theorem C36_eax_roundtrip : forall ci B key iv e d c aads aads' msgs cts tag, family ci B -> ci key = Some c -> (B <= 16)%nat ->
  iv <> [] -> bytes iv -> bytes (concat aads) -> bytes (concat msgs) ->
  cipher_stream_init ci EAX true key iv = Some e -> cipher_stream_init ci EAX false key iv = Some d ->
  concat aads' = concat aads -> concat cts = eax_cipher B (c_enc c) iv (concat msgs) ->
  tag = eax_tag B (c_enc c) iv (concat aads) (concat cts) ->
  exists s1 s2 s3, set_aads d aads' = Ok s1 /\ cipher_stream_set_tag s1 tag = Ok s2 /\ updates s2 cts = Ok (concat msgs, s3) /\
    cipher_stream_final s3 = Ok (1, [], 0%nat, s3).
Proof.
  intros ci B key iv e d c aads aads' msgs cts tag HF HK H16 Hn Hi HA HM HE HD EA EC ->. destruct (HF _ _ HK) as [Hc HB]. subst B.
  assert (HCb : bytes (concat cts)) by (rewrite EC; apply eax_cipher_bytes; auto).
  destruct (eax_tag_ok' c iv (concat aads) (concat cts) Hc Hi HA HCb) as [T1 T2].
  pose proof (B_pos c Hc) as HP.
  destruct (C36_eax_open ci (c_size c) key iv d c aads' cts (eax_tag (c_size c) (c_enc c) iv (concat aads) (concat cts)) HF HK H16 Hn Hi) as (s1 & s2 & s3 & A1 & A2 & A3 & r & A4 & A5).
  - rewrite EA. auto.
  - auto.
  - auto.
  - rewrite T1. lia.
  - auto.
  - exists s1, s2, s3. rewrite EC, eax_cipher_invol in A3 by auto. rewrite EA, firstn_all in A5.
    split; [auto|]. split; [auto|]. split; [auto|]. rewrite A4, A5.
    destruct (list_eq_dec Z.eq_dec _ _); [reflexivity|congruence].
Qed.

Lemma bytes_padded m : bytes m -> bytes (padded m).
Proof. intros H. unfold padded, pad16. apply bytes_app. split; [auto|apply bytes_repeat; unfold byte; lia]. Qed.
Lemma ccm_tag_ok c L M iv aad m : cipher_ok c -> c_size c = 16%nat -> (2 <= L <= 8)%nat -> ccm_tag_len M -> bytes iv -> bytes aad -> bytes m ->
  okb 16 (ccm_tag (c_enc c) L M (ccm_nonce L iv) aad m).
Proof.
  intros Hc H16 HL [HM _] Hi HA Hm. pose proof (ccm_nonce_length L iv ltac:(lia)) as LN.
  assert (NB : bytes (ccm_nonce L iv)) by (unfold ccm_nonce; apply bytes_app; split; [apply bytes_firstn; auto|apply bytes_repeat; unfold byte; lia]).
  assert (BB : bytes (ccm_blocks L M (ccm_nonce L iv) aad m)).
  { unfold ccm_blocks, ccm_b0. apply bytes_app; split; [apply bytes_app; split; [|apply bytes_app; split]|apply bytes_app; split].
    - constructor; [|constructor]. unfold byte. assert (0 <= (Z.of_nat M - 2) / 2 <= 7) by (split; [apply Z.div_pos; lia|apply Z.lt_succ_r; apply Z.div_lt_upper_bound; lia]).
      destruct (negb (length aad =? 0)%nat); lia.
    - auto.
    - apply be_bytes_bytes.
    - destruct aad as [|a t]; [constructor|]. apply bytes_padded. apply bytes_app. split; [|auto]. unfold ccm_la. cbv zeta.
      destruct (_ <? _); [apply be_bytes_bytes|]. destruct (_ <? _); apply bytes_app; (split; [repeat constructor; unfold byte; lia|apply be_bytes_bytes]).
    - apply bytes_padded; auto. }
  unfold ccm_tag. apply xorl_ok.
  - unfold cbc_mac. assert (HF : Forall (okb 16) (blocks 16 (ccm_blocks L M (ccm_nonce L iv) aad m))) by (apply blocks_ok; auto; lia).
    assert (HS : okb 16 (repeat 0 16)) by (split; [reflexivity|apply bytes_repeat; unfold byte; lia]). revert HS. generalize (repeat 0 16).
    induction HF as [|b l Hb HF IH]; intros st Hs; [auto|]. cbn [fold_left]. apply IH. rewrite <- H16. apply E_ok; auto. rewrite H16. apply xorl_ok; auto.
  - rewrite <- H16. apply E_ok; auto. rewrite H16. split; [apply ccm_a_length; lia|apply ccm_a_bytes; auto; lia].
Qed.
Theorem C36_ccm_seal : forall ci key iv s c M aad msgs L, family ci 16 -> ci key = Some c ->
  bytes iv -> (7 <= length iv)%nat -> ccm_tag_len M -> bytes aad -> Z.of_nat (length aad) < 2 ^ 64 -> bytes (concat msgs) ->
  ccm_width L (Z.of_nat (length (concat msgs))) ->
  cipher_stream_init ci CCM true key iv = Some s ->
  exists s1 s2 s3, cipher_stream_set_ccm s (Z.of_nat (length (concat msgs))) (Z.of_nat M) aad = Ok s1 /\
    updates s1 msgs = Ok (ccm_cipher (c_enc c) L (ccm_nonce L iv) (concat msgs), s2) /\
    cipher_stream_final s2 = Ok (1, [], 0%nat, s3) /\
    cipher_stream_get_tag s3 = Some (firstn M (ccm_tag (c_enc c) L M (ccm_nonce L iv) aad (concat msgs))).
Proof.
  intros ci key iv s c M aad msgs L HF HK Hi H7 HT HA HAl HM HW HO.
  destruct (aead_init ci _ CCM _ _ _ _ HF eq_refl HO) as (c' & m & EC & Hc & H16 & EM & ->).
  assert (c' = c) by congruence. subst c'. cbn [cipher_mode_init] in EM.
  destruct (ccm_encrypt_spec c Hc H16 iv M aad msgs L Hi H7 HT HAl HW) as (m0 & m1 & I0 & I1 & I2).
  destruct (ccm_setup_spec c Hc H16 iv M aad _ L m0 Hi I0 HT HAl HW) as (m1' & J1 & J2 & J3 & _). assert (m1' = m1) by congruence. subst m1'.
  rewrite I0 in EM. cbn [option_map] in EM. apply some_eq in EM. subst m.
  assert (HLv : live c (ccm_ctr m1)) by (split; [auto|rewrite J3; apply B_pos; auto]).
  set (S1 := mkS true true false (repeat 0 (c_size c)) 0 (repeat 0 (c_size c)) 0 [] (Z.of_nat M) c CCM (MCcm m1)).
  pose proof (upd_ccm c Hc true S1 m1 msgs eq_refl eq_refl eq_refl eq_refl HLv) as HU.
  cbv iota zeta in HU. destruct (calls (ccm_encrypt c) m1 msgs) as [o g2]. cbn [fst snd] in HU. destruct I2 as [I2 I3].
  exists S1. eexists _, _. split.
  { unfold cipher_stream_set_ccm, mk0. cbn [s_type s_mode s_cipher]. rewrite I1. reflexivity. }
  split; [rewrite HU, I2; reflexivity|].
  unfold cipher_stream_final, aead_final, S1, with_mode. cbn [s_type s_encrypt s_cipher s_mode cipher_mode_digest s_bsize s_ccm_len]. rewrite I3.
  destruct HT as [HT1 HT2]. destruct (Z.eqb_spec (Z.of_nat M) 0) as [?|_]; [lia|].
  split; [reflexivity|]. unfold cipher_stream_get_tag, with_tag. cbn [s_type s_encrypt s_tag is_aead negb orb]. rewrite Nat2Z.id.
  destruct HW as (W1 & W2 & W3).
  destruct (ccm_tag_ok c L M iv aad (concat msgs) Hc H16 ltac:(lia) (conj HT1 HT2) Hi HA HM) as [T1 T2].
  rewrite firstn_length, T1. destruct (Nat.eqb_spec (Nat.min M 16) 0) as [?|_]; [lia|]. reflexivity.
Qed.
Theorem C36_ccm_open : forall ci key iv s c M aad cts tag L, family ci 16 -> ci key = Some c ->
  bytes iv -> (7 <= length iv)%nat -> ccm_tag_len M -> bytes aad -> Z.of_nat (length aad) < 2 ^ 64 -> bytes (concat cts) ->
  ccm_width L (Z.of_nat (length (concat cts))) -> bytes tag -> length tag = M ->
  cipher_stream_init ci CCM false key iv = Some s ->
  let pt := ccm_cipher (c_enc c) L (ccm_nonce L iv) (concat cts) in
  exists s1 s2 s3, cipher_stream_set_ccm s (Z.of_nat (length (concat cts))) (Z.of_nat M) aad = Ok s1 /\ cipher_stream_set_tag s1 tag = Ok s2 /\
    updates s2 cts = Ok (pt, s3) /\
    exists r, cipher_stream_final s3 = Ok (r, [], 0%nat, s3) /\
      r = if list_eq_dec Z.eq_dec tag (firstn M (ccm_tag (c_enc c) L M (ccm_nonce L iv) aad pt)) then 1 else 0.
Proof.
  intros ci key iv s c M aad cts tag L HF HK Hi H7 HT HA HAl HM HW Ht HTl HO pt.
  destruct (aead_init ci _ CCM _ _ _ _ HF eq_refl HO) as (c' & m & EC & Hc & H16 & EM & ->).
  assert (c' = c) by congruence. subst c'. cbn [cipher_mode_init] in EM.
  destruct (ccm_decrypt_spec c Hc H16 iv M aad cts L Hi H7 HT HAl HW) as (m0 & m1 & I0 & I1 & I2).
  destruct (ccm_setup_spec c Hc H16 iv M aad _ L m0 Hi I0 HT HAl HW) as (m1' & J1 & J2 & J3 & _). assert (m1' = m1) by congruence. subst m1'.
  rewrite I0 in EM. cbn [option_map] in EM. apply some_eq in EM. subst m.
  assert (HLv : live c (ccm_ctr m1)) by (split; [auto|rewrite J3; apply B_pos; auto]).
  set (S1 := mkS false true false (repeat 0 (c_size c)) 0 (repeat 0 (c_size c)) 0 [] (Z.of_nat M) c CCM (MCcm m1)).
  pose proof HT as [HT1 HT2].
  assert (ES : cipher_stream_set_tag S1 tag = Ok (with_tag S1 tag)).
  { unfold cipher_stream_set_tag, S1, s_bsize. cbn [s_type s_encrypt s_cipher s_ccm_len]. rewrite HTl.
    destruct (Z.eqb_spec (Z.of_nat M) 0) as [?|_]; [lia|]. rewrite Z.eqb_refl. cbn [negb andb].
    destruct (Nat.leb_spec M (c_size c)) as [_|?]; [reflexivity|lia]. }
  pose proof (upd_ccm c Hc false (with_tag S1 tag) m1 cts eq_refl eq_refl eq_refl eq_refl HLv) as HU.
  cbv iota zeta in HU. destruct (calls (ccm_decrypt c) m1 cts) as [o g2]. cbn [fst snd] in HU. destruct I2 as [I2 I3].
  exists S1. eexists _, _. split.
  { unfold cipher_stream_set_ccm, mk0. cbn [s_type s_mode s_cipher]. rewrite I1. reflexivity. }
  split; [exact ES|]. split; [rewrite HU, I2; reflexivity|]. eexists. split; [|reflexivity].
  destruct HW as (W1 & W2 & W3).
  assert (HO' : bytes o).
  { rewrite I2. apply xor_stream_bytes; auto. intros i. apply E_ok; auto. rewrite H16.
    split; [apply ccm_a_length; [lia|apply ccm_nonce_length; lia|lia]|apply ccm_a_bytes; [lia|]]. unfold ccm_nonce; apply bytes_app; split; [apply bytes_firstn; auto|apply bytes_repeat; unfold byte; lia]. }
  destruct (ccm_tag_ok c L M iv aad o Hc H16 ltac:(lia) HT Hi HA HO') as [T1 T2].
  unfold cipher_stream_final, aead_final, S1, with_mode, with_tag, mk0. cbn [s_type s_encrypt s_cipher s_mode s_tag s_bsize s_ccm_len].
  destruct (Z.eqb_spec (Z.of_nat M) 0) as [?|_]; [lia|].
  rewrite (verify_spec c CCM (MCcm g2) (ccm_tag (c_enc c) L M (ccm_nonce L iv) aad o) tag); auto.
  - rewrite HTl, I2. reflexivity.
  - cbn [cipher_mode_digest]. rewrite I3. reflexivity.
  - lia.
  - rewrite T1. lia.
Qed.
Theorem C36_ccm_roundtrip : forall ci key iv d c M aad msgs cts tag L, family ci 16 -> ci key = Some c ->
  bytes iv -> (7 <= length iv)%nat -> ccm_tag_len M -> bytes aad -> Z.of_nat (length aad) < 2 ^ 64 -> bytes (concat msgs) ->
  ccm_width L (Z.of_nat (length (concat msgs))) ->
  cipher_stream_init ci CCM false key iv = Some d ->
  concat cts = ccm_cipher (c_enc c) L (ccm_nonce L iv) (concat msgs) ->
  tag = firstn M (ccm_tag (c_enc c) L M (ccm_nonce L iv) aad (concat msgs)) ->
  exists s1 s2 s3, cipher_stream_set_ccm d (Z.of_nat (length (concat cts))) (Z.of_nat M) aad = Ok s1 /\
    cipher_stream_set_tag s1 tag = Ok s2 /\ updates s2 cts = Ok (concat msgs, s3) /\ cipher_stream_final s3 = Ok (1, [], 0%nat, s3).
Proof.
  intros ci key iv d c M aad msgs cts tag L HF HK Hi H7 HT HA HAl HM HW HD EC ->. destruct (HF _ _ HK) as [Hc H16].
  pose proof HW as (W1 & W2 & W3). pose proof HT as [HT1 HT2].
  assert (LN := ccm_nonce_length L iv ltac:(lia)).
  destruct (ccm_tag_ok c L M iv aad (concat msgs) Hc H16 ltac:(lia) HT Hi HA HM) as [T1 T2].
  assert (HLen : length (concat cts) = length (concat msgs)) by (rewrite EC; apply ccm_cipher_length; auto; lia).
  assert (HCb : bytes (concat cts)).
  { rewrite EC. apply xor_stream_bytes; auto. intros i. apply E_ok; auto. rewrite H16.
    split; [apply ccm_a_length; [lia|auto|lia]|apply ccm_a_bytes; [lia|]]. unfold ccm_nonce; apply bytes_app; split; [apply bytes_firstn; auto|apply bytes_repeat; unfold byte; lia]. }
  destruct (C36_ccm_open ci key iv d c M aad cts (firstn M (ccm_tag (c_enc c) L M (ccm_nonce L iv) aad (concat msgs))) L HF HK Hi H7 HT HA HAl HCb) as (s1 & s2 & s3 & A1 & A2 & A3 & r & A4 & A5).
  - rewrite HLen. auto.
  - apply bytes_firstn; auto.
  - rewrite firstn_length, T1. lia.
  - auto.
  - exists s1, s2, s3. assert (EP : ccm_cipher (c_enc c) L (ccm_nonce L iv) (concat cts) = concat msgs) by (rewrite EC; apply ccm_cipher_invol; auto; lia).
    rewrite EP in A3, A5. split; [auto|]. split; [auto|]. split; [auto|]. rewrite A4, A5.
    destruct (list_eq_dec Z.eq_dec _ _); [reflexivity|congruence].
Qed.

(* what the stream holds between calls *)
Definition aead_live (s : cstream) : Prop :=
  match s_type s, s_mode s with
  | GCM, MGcm g => cipher_ok (s_cipher s) /\ c_size (s_cipher s) = 16%nat /\ live (s_cipher s) (gcm_ctr g)
  | EAX, MEax g => cipher_ok (s_cipher s) /\ live (s_cipher s) (eax_ctr g)
  | CCM, MCcm g => cipher_ok (s_cipher s) /\ live (s_cipher s) (ccm_ctr g)
  | _, _ => False
  end.
Lemma aead_live_step s x : aead_live s -> exists w s', cipher_stream_update s x = Ok (w, length x, s') /\ length w = length x /\ aead_live s' /\ s_type s' = s_type s.
Proof.
  unfold aead_live, cipher_stream_update, encipher. destruct s as [enc pad un blk pos last ls tag cl c ty m]. cbn [s_type s_mode s_cipher s_encrypt].
  destruct ty; try contradiction; destruct m as [|p|p|p|g|g|g]; try contradiction; cbn [is_stream cipher_mode_encrypt cipher_mode_decrypt].
  - intros (Hc & H16 & HL). destruct (gcmc_len c Hc (gcm_ctr g) x H16 HL) as [A1 A2].
    unfold gcm_encrypt, gcm_decrypt. destruct (gcm_crypt c (gcm_ctr g) x) as [d ctr]. cbn [fst snd] in *.
    destruct enc; cbn [tot_out]; eexists _, _; (split; [reflexivity|]); (split; [exact A1|]); cbn; auto.
  - intros (Hc & HL). destruct (ctr_len c Hc (ccm_ctr g) x HL) as [A1 A2].
    unfold ccm_encrypt, ccm_decrypt, ccm_crypt. destruct (ctr_crypt c (ccm_ctr g) x) as [d ctr]. cbn [fst snd] in *.
    destruct enc; cbn [tot_out]; eexists _, _; (split; [reflexivity|]); (split; [exact A1|]); cbn; auto.
  - intros (Hc & HL). destruct (eaxc_len c Hc (eax_ctr g) x HL) as [A1 A2].
    unfold eax_encrypt, eax_decrypt. destruct (eax_crypt c (eax_ctr g) x) as [d ctr]. cbn [fst snd] in *.
    destruct enc; cbn [tot_out]; eexists _, _; (split; [reflexivity|]); (split; [exact A1|]); cbn; auto.
Qed.
Lemma aead_live_updates chunks : forall s o s', aead_live s -> updates s chunks = Ok (o, s') -> aead_live s' /\ s_type s' = s_type s.
Proof.
  induction chunks as [|x t IH]; intros s o s' HL HU; cbn [updates] in HU.
  - apply ok_inj in HU. assert (s = s') by congruence. subst s'. auto.
  - destruct (aead_live_step s x HL) as (w & s1 & E1 & E2 & E3 & E4). rewrite E1 in HU.
    destruct (updates s1 t) as [[o2 s2]| |] eqn:E5; try discriminate. apply ok_inj in HU. assert (s2 = s') by congruence. subst s2.
    destruct (IH _ _ _ E3 E5) as [A1 A2]. split; [auto|congruence].
Qed.
(* an update in an authenticated mode writes one byte per input byte, as announced, and final none *)
Theorem C35_aead_sizes : forall ci B mode enc key iv s0 s1 aads chunks o s x, family ci B -> mode = GCM \/ mode = EAX -> bytes iv -> Z.of_nat (length iv) < 2 ^ 64 ->
  cipher_stream_init ci mode enc key iv = Some s0 -> set_aads s0 aads = Ok s1 -> updates s1 chunks = Ok (o, s) ->
  exists w s', cipher_stream_update s x = Ok (w, length w, s') /\ cipher_stream_update_size s (length x) = Ok (length w) /\ length w = length x /\ cipher_stream_final_size s = 0%nat.
Proof.
  intros ci B mode enc key iv s0 s1 aads chunks o s x HF Hm Hi HiL HO HA HU.
  assert (HL : aead_live s1 /\ s_type s1 = mode).
  { destruct (aead_init ci B mode enc key iv s0 HF ltac:(destruct Hm; subst; reflexivity) HO) as (c & m & EC & Hc & HB & EM & ->).
    destruct Hm; subst mode; cbn [cipher_mode_init] in EM.
    - assert (H16 : c_size c = 16%nat) by (unfold gcm_init in EM; destruct (Nat.eqb_spec (c_size c) 16); [auto|discriminate]).
      destruct (gcm_init_spec c Hc H16 iv Hi HiL) as (g & J1 & _ & _ & J2 & J3 & _). rewrite J1 in EM. cbn [option_map] in EM. apply some_eq in EM. subst m.
      rewrite (set_aads_gcm aads (mk0 GCM enc c (MGcm g)) g eq_refl eq_refl) in HA. apply ok_inj in HA. subst s1.
      assert (EG : gcm_ctr (fold_left gcm_aad aads g) = gcm_ctr g) by (clear; revert g; induction aads as [|a t IH]; intros g; cbn [fold_left]; [reflexivity|rewrite IH; reflexivity]).
      split; [|reflexivity]. unfold aead_live, with_mode, mk0. cbn [s_type s_mode s_cipher]. split; [auto|]. split; [auto|]. rewrite EG. split; [auto|]. rewrite J3. apply B_pos; auto.
    - destruct iv as [|y iv]; [discriminate|]. rewrite (eax_init_spec c Hc (y :: iv) ltac:(discriminate)) in EM. cbn [option_map] in EM. apply some_eq in EM. subst m.
      set (g := mkEax _ _ _ _) in *.
      rewrite (set_aads_eax c aads (mk0 EAX enc c (MEax g)) g eq_refl eq_refl eq_refl) in HA. apply ok_inj in HA. subst s1.
      assert (EG : eax_ctr (fold_left (eax_aad c) aads g) = eax_ctr g) by (clearbody g; clear; revert g; induction aads as [|a t IH]; intros g; cbn [fold_left]; [reflexivity|rewrite IH; reflexivity]).
      split; [|reflexivity]. unfold aead_live, with_mode, mk0. cbn [s_type s_mode s_cipher]. split; [auto|]. rewrite EG.
      split; [split; [apply repeat_length|apply (omac_ok c Hc); [apply (b012 c Hc)|auto]]|apply B_pos; auto]. }
  destruct HL as [HL HT]. destruct (aead_live_updates chunks s1 o s HL HU) as [HL2 HT2].
  destruct (aead_live_step s x HL2) as (w & s' & E1 & E2 & _ & _). exists w, s'. rewrite E2. split; [auto|].
  unfold cipher_stream_update_size, cipher_stream_final_size. rewrite HT2, HT. destruct Hm; subst mode; auto.
Qed.

Definition bound {A B} (r : outcome A) (f : A -> outcome B) : outcome B := match r with Ok x => f x | Fail => Fail | Abort => Abort end.
Example C36_gcm_ex :
  let msg := map Z.of_nat (seq 5 37) in
  match cipher_stream_init (toys 16) GCM true (repeat 7 16) [1;2;3], cipher_stream_init (toys 16) GCM false (repeat 7 16) [1;2;3] with
  | Some e, Some d =>
    bound (set_aads e [[1;2];[3]]) (fun e => bound (updates e [firstn 5 msg; skipn 5 msg]) (fun '(ct, e) => bound (cipher_stream_final e) (fun '(r, _, _, e) =>
      match cipher_stream_get_tag e with
      | Some tag => bound (set_aads d [[1;2;3]]) (fun d => bound (cipher_stream_set_tag d tag) (fun d2 => bound (updates d2 [ct]) (fun '(pt, d2) => bound (cipher_stream_final d2) (fun '(r2, _, _, _) =>
          bound (cipher_stream_set_tag d (firstn 11 tag ++ [0])) (fun d3 => bound (updates d3 [ct]) (fun '(_, d3) => bound (cipher_stream_final d3) (fun '(r3, _, _, _) =>
          Ok (r, if list_eq_dec Z.eq_dec pt msg then 1 else 0, if list_eq_dec Z.eq_dec ct msg then 1 else 0, r2, r3))))))))
      | None => Fail
      end))) | _, _ => Fail end = Ok (1, 1, 0, 1, 0).
Proof. vm_compute. reflexivity. Qed.

(* the axioms of every theorem above, listed at once *)
Definition StreamAeadProps_all := (@C36_gcm_seal, @C36_gcm_open, @C36_gcm_roundtrip, @C36_eax_seal, @C36_eax_open, @C36_eax_roundtrip, @C36_ccm_seal,
  @C36_ccm_open, @C36_ccm_roundtrip, @C35_aead_sizes).
Print Assumptions StreamAeadProps_all.
