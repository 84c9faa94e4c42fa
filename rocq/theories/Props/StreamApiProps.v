(* C29, C35, C36: ciphertext stealing and the cipher_stream_t API *)
From Verif.Base Require Import Prelude.
From Verif.Model Require Import Bio Util Block Encoding Modes CipherStream.
From Verif.Spec Require Import BlockSpec StreamSpec ModesSpec StreamApiSpec.
From Verif.Proof Require Import UtilProof BioProof BufCrypt BlockProof Pkcs7Proof BlockModes GfShift XtsProof StreamModes CtrProof GhashProof MacModes AeadModes CcmProof StreamApi StreamBlock StreamOpen StreamSizes.
From Verif.Props Require Import ModesProps.
#[local] Ltac Zify.zify_post_hook ::= idtac.

Definition toys (n : nat) (k : list Z) : option cipher := if (length k =? n)%nat then Some (toy n) else None.

Lemma seqm_xts0 c enc (Hc : cipher_ok c) t0 p bs : okb (c_size c) t0 ->
  fst (seqm (gstep c XTS enc) (MXts (t0, p)) bs) = xts_chain (c_size c) (if enc then c_enc c else c_dec c) t0 0 bs.
Proof.
  intros H. replace (MXts (t0, p)) with (MXts (tweak (c_size c) t0 0, p)) by (rewrite (tweak_0 c); auto).
  rewrite (seqm_xts c Hc) by auto. reflexivity.
Qed.
Lemma calls_sstep c mode iv chunks : cipher_ok c -> okb (c_size c) iv -> is_stream mode = true -> is_aead mode = false ->
  fst (calls (sstep mode true c) (sinit mode c iv) chunks) =
  match stream_spec (c_size c) (c_enc c) (c_enc c) mode true iv (concat chunks) with Some x => x | None => [] end.
Proof.
  intros Hc Hi Hs Ha. destruct (C31_streams_are_the_modes c iv chunks Hc Hi) as (A1 & A2 & A3).
  destruct mode; try discriminate; cbn [sstep sinit stream_spec]; auto.
Qed.

(* the concatenated output of any sequence of updates and final is the mode's ciphertext of
   the whole message, and exactly the messages the mode cannot encrypt are rejected *)
Theorem C36_encrypt : forall ci B mode pad key iv s c c2 chunks, family ci B -> is_aead mode = false -> bytes iv ->
  opened ci mode true pad key iv = Some s -> keyed ci mode key = Some (c, c2) -> Forall bytes chunks ->
  run s chunks = match stream_spec B (c_enc c) (c_enc c2) mode pad iv (concat chunks) with Some ct => Ok ct | None => Fail end.
Proof.
  intros ci B mode pad key iv s c c2 chunks HF Ha Hi HO HK Hb.
  assert (Hcb : bytes (concat chunks)) by (apply Forall_concat; auto).
  destruct (is_stream mode) eqn:Hs.
  - destruct (opened_stream ci B mode true pad key iv s c c2 HF Hs Ha Hi HO HK) as (Hc & HB & HV & -> & HT & HU).
    rewrite (run_fin _ _ _ _ (HU chunks)). rewrite calls_sstep by (auto; rewrite HB; auto). rewrite HB.
    set (x := match stream_spec _ _ _ _ _ _ _ with Some x => x | None => [] end).
    assert (EX : match stream_spec B (c_enc c) (c_enc c2) mode true iv (concat chunks) with Some ct => Ok ct | None => Fail end = Ok x) by (unfold x; destruct mode; try discriminate; reflexivity).
    rewrite EX. unfold cipher_stream_final. change (s_type (with_mode s ?m)) with (s_type s). rewrite HT.
    destruct mode; try discriminate; cbn [fin_out Z.eqb firstn]; rewrite app_nil_r; reflexivity.
  - destruct (opened_block ci B mode true pad key iv s c c2 HF Hs Hi HO HK) as (Hc & HB & HV & HI & HR & HP).
    destruct (updates_srep c Hc mode true _ _ _ chunks Hs HI Hb [] [] s ltac:(constructor) HR) as (o & s' & U1 & U2).
    subst B. cbn [app] in U2. rewrite (run_fin _ _ _ _ U1). clear U1 HR. rewrite andb_false_r in U2. cbn [orb] in U2.
    assert (W : pad && is_cts mode = false -> mode = RAW \/ pad = false -> fin_out o (cipher_stream_final s') =
        if (length (concat chunks) mod c_size c =? 0)%nat then Ok (concat (outs c (gstep c mode true) (mode0 mode (c_size c) (c_enc c2) iv) (concat chunks))) else Fail).
    { intros HX HY. rewrite HX in U2. exact (final_whole c Hc mode true _ pad (concat chunks) o s' Hs HY U2). }
    assert (HW : forall x, match (if (length (concat chunks) mod c_size c =? 0)%nat then Some x else None) with Some ct => Ok ct | None => Fail end =
       (if (length (concat chunks) mod c_size c =? 0)%nat then Ok x else @Fail (list Z))) by (intros x; destruct (_ =? 0)%nat; reflexivity).
    destruct mode; try discriminate; cbn [mode0 is_cts andb] in *.
    + destruct HP as [->|HP]; [|congruence]. cbn [stream_spec]. rewrite HW, W by auto. unfold outs. rewrite seqm_ecb by auto. reflexivity.
    + destruct pad; cbn [stream_spec].
      * rewrite (final_pad_enc c Hc ECB _ (concat chunks) o s' eq_refl HI Hcb U2). unfold outs. rewrite seqm_ecb by auto. reflexivity.
      * rewrite HW, W by auto. unfold outs. rewrite seqm_ecb by auto. reflexivity.
    + destruct pad; cbn [stream_spec].
      * rewrite (final_pad_enc c Hc CBC _ (concat chunks) o s' eq_refl HI Hcb U2). unfold outs. rewrite seqm_cbce by auto. reflexivity.
      * rewrite HW, W by auto. unfold outs. rewrite seqm_cbce by auto. reflexivity.
    + destruct HV as [|[|HV]]; try discriminate. destruct pad; cbn [stream_spec andb] in *.
      * rewrite (final_cts_enc c Hc iv (concat chunks) o s' HV Hcb U2). destruct (c_size c <=? length (concat chunks))%nat; reflexivity.
      * rewrite HW, W by auto. unfold outs. rewrite seqm_cbce by auto. reflexivity.
    + cbn [Inv] in HI. destruct pad; cbn [stream_spec andb] in *.
      * rewrite (final_xts_enc c Hc (c_enc c2 iv) _ (concat chunks) o s' HI Hcb U2). destruct (c_size c <=? length (concat chunks))%nat; reflexivity.
      * rewrite HW, W by auto. unfold outs. rewrite seqm_xts0 by auto. reflexivity.
Qed.

(* decrypting any ciphertext produced by the mode, however it is split, restores the message *)
Theorem C36_decrypt : forall ci B mode pad key iv s c c2 m ct chunks, family ci B -> is_aead mode = false -> bytes iv ->
  opened ci mode false pad key iv = Some s -> keyed ci mode key = Some (c, c2) -> bytes m ->
  stream_spec B (c_enc c) (c_enc c2) mode pad iv m = Some ct -> concat chunks = ct -> Forall bytes chunks ->
  run s chunks = Ok m.
Proof.
  intros ci B mode pad key iv s c c2 m ct chunks HF Ha Hi HO HK Hm Hct HE Hb.
  assert (Hcb : bytes (concat chunks)) by (apply Forall_concat; auto).
  destruct (is_stream mode) eqn:Hs.
  - destruct (opened_stream ci B mode false pad key iv s c c2 HF Hs Ha Hi HO HK) as (Hc & HB & HV & -> & HT & HU).
    rewrite (run_fin _ _ _ _ (HU chunks)). subst B.
    assert (EM : fst (calls (sstep mode false c) (sinit mode c iv) chunks) = m).
    { assert (HQ := C31_roundtrip c iv [m] chunks Hc HV). assert (HR := C31_streams_are_the_modes c iv [m] Hc HV).
      cbn [concat] in HQ, HR. rewrite app_nil_r in HQ, HR. destruct HQ as (Q1 & Q2 & Q3), HR as (R1 & R2 & R3).
      destruct mode; try discriminate; cbn [sstep sinit]; cbn [stream_spec] in Hct; apply some_eq in Hct.
      - apply Q1. rewrite HE, <- Hct. auto.
      - apply Q3. rewrite HE, <- Hct. auto.
      - apply Q2. rewrite HE, <- Hct. auto. }
    rewrite EM. unfold cipher_stream_final. change (s_type (with_mode s ?m)) with (s_type s). rewrite HT.
    destruct mode; try discriminate; cbn [fin_out Z.eqb firstn]; rewrite app_nil_r; reflexivity.
  - destruct (opened_block ci B mode false pad key iv s c c2 HF Hs Hi HO HK) as (Hc & HB & HV & HI & HR & HP).
    destruct (updates_srep c Hc mode false _ _ _ chunks Hs HI Hb [] [] s ltac:(constructor) HR) as (o & s' & U1 & U2).
    subst B. cbn [app] in U2. rewrite (run_fin _ _ _ _ U1). clear U1 HR. rewrite andb_true_r in U2. pose proof (B_pos c Hc) as HB0.
    rewrite HE in U2. rewrite HE in Hcb.
    assert (HBm := blocks_okb _ m HB0 Hm).
    assert (HW : forall x, (if (length m mod c_size c =? 0)%nat then Some x else None) = Some ct -> (length m mod c_size c = 0)%nat /\ x = ct).
    { intros x. destruct (Nat.eqb_spec (length m mod c_size c) 0); [|discriminate]. intros H. apply some_eq in H. auto. }
    assert (MC : (length m mod c_size c = 0)%nat -> concat (blocks (c_size c) m) = m).
    { intros H. apply (concat_blocks _ (length m / c_size c) HB0). rewrite Nat.mul_comm. apply Nat.div_exact; auto. lia. }
    assert (HP7 : bytes (pkcs7 (c_size c) m)).
    { apply bytes_app. split; auto. apply Forall_forall. intros y Hy. apply repeat_spec in Hy. subst y. pose proof (B_small c Hc). unfold byte. lia. }
    assert (HBp := blocks_okb _ _ HB0 HP7).
    assert (PC : (length (pkcs7 (c_size c) m) mod c_size c = 0)%nat /\ concat (blocks (c_size c) (pkcs7 (c_size c) m)) = pkcs7 (c_size c) m).
    { pose proof (pad_len c Hc m) as X. rewrite leftover_length in X by auto. pose proof (Nat.div_mod (length m) (c_size c) ltac:(lia)) as Y.
      assert (LP : length (pkcs7 (c_size c) m) = ((length m / c_size c + 1) * c_size c)%nat) by (unfold pkcs7; rewrite app_length, repeat_length; nia).
      split; [rewrite LP; apply Nat.mod_mul; lia|]. apply (concat_blocks _ _ HB0 _ LP). }
    (* generic: a ciphertext made of the blocks cs, decrypting to ps *)
    assert (G0 : forall ps cs, Forall (okb (c_size c)) cs -> fst (seqm (gstep c mode false) (mode0 mode (c_size c) (c_enc c2) iv) cs) = ps -> ct = concat cs ->
       (length ct mod c_size c = 0)%nat /\ outs c (gstep c mode false) (mode0 mode (c_size c) (c_enc c2) iv) ct = ps).
    { intros ps cs HcF HS ->. rewrite (concat_length_exact _ _ (okb_len _ _ HcF)). split; [apply Nat.mod_mul; lia|].
      unfold outs. rewrite blocks_exact by (auto; apply okb_len; auto). auto. }
    assert (GW : forall ps cs, mode = RAW \/ pad = false -> Forall (okb (c_size c)) cs -> fst (seqm (gstep c mode false) (mode0 mode (c_size c) (c_enc c2) iv) cs) = ps -> ct = concat cs ->
       concat ps = m -> fin_out o (cipher_stream_final s') = Ok m).
    { intros ps cs HY HcF HS Hc1 Hp1. destruct (G0 ps cs HcF HS Hc1) as [L1 L2].
      assert (HX : pad && (is_pad mode || is_cts mode) = false) by (destruct HY as [-> | ->]; [apply andb_false_r|reflexivity]).
      rewrite HX in U2. rewrite (final_whole c Hc mode false _ pad ct o s' Hs HY U2). rewrite L1, L2, Hp1. reflexivity. }
    assert (GP : forall ps cs, is_pad mode = true -> pad = true -> Forall (okb (c_size c)) cs -> fst (seqm (gstep c mode false) (mode0 mode (c_size c) (c_enc c2) iv) cs) = ps -> ct = concat cs ->
       concat ps = pkcs7 (c_size c) m -> fin_out o (cipher_stream_final s') = Ok m).
    { intros ps cs HY -> HcF HS Hc1 Hp1. destruct (G0 ps cs HcF HS Hc1) as [L1 L2]. rewrite HY in U2. cbn [orb andb] in U2.
      apply (proj1 (final_pad_dec c Hc mode _ ct o s' HY HI Hcb U2)). rewrite L2. auto. }
    destruct PC as [PC1 PC2].
    assert (XI : forall ps, okb (c_size c) iv -> Forall (okb (c_size c)) ps -> Forall (okb (c_size c)) (cbc_chain (c_enc c) iv ps)) by (intros; apply (cbc_chain_ok c Hc); auto).
    destruct mode; try discriminate; cbn [mode0 is_cts andb] in *; cbn [stream_spec] in Hct.
    + apply HW in Hct as [H1 H2]. apply (GW (blocks (c_size c) m) (map (c_enc c) (blocks (c_size c) m))); auto.
      * apply (map_ok c); auto. apply (E_ok c Hc).
      * rewrite seqm_ecb by auto. cbn [fst]. apply (map_DE c Hc); auto.
    + destruct pad.
      * apply some_eq in Hct. apply (GP (blocks (c_size c) (pkcs7 (c_size c) m)) (map (c_enc c) (blocks (c_size c) (pkcs7 (c_size c) m)))); auto.
        -- apply (map_ok c); auto. apply (E_ok c Hc).
        -- rewrite seqm_ecb by auto. cbn [fst]. apply (map_DE c Hc); auto.
      * apply HW in Hct as [H1 H2]. apply (GW (blocks (c_size c) m) (map (c_enc c) (blocks (c_size c) m))); auto.
        -- apply (map_ok c); auto. apply (E_ok c Hc).
        -- rewrite seqm_ecb by auto. cbn [fst]. apply (map_DE c Hc); auto.
    + destruct HV as [|[|HV]]; try discriminate. destruct pad.
      * apply some_eq in Hct. apply (GP (blocks (c_size c) (pkcs7 (c_size c) m)) (cbc_chain (c_enc c) iv (blocks (c_size c) (pkcs7 (c_size c) m)))); auto.
        rewrite seqm_cbc_chain by auto. reflexivity.
      * apply HW in Hct as [H1 H2]. apply (GW (blocks (c_size c) m) (cbc_chain (c_enc c) iv (blocks (c_size c) m))); auto.
        rewrite seqm_cbc_chain by auto. reflexivity.
    + destruct HV as [|[|HV]]; try discriminate. destruct pad.
      * destruct (Nat.leb_spec (c_size c) (length m)) as [HL|]; [|discriminate]. apply some_eq in Hct.
        apply (final_cts_dec c Hc iv m ct o s'); auto.
      * apply HW in Hct as [H1 H2]. apply (GW (blocks (c_size c) m) (cbc_chain (c_enc c) iv (blocks (c_size c) m))); auto.
        rewrite seqm_cbc_chain by auto. reflexivity.
    + cbn [Inv] in HI. destruct pad.
      * destruct (Nat.leb_spec (c_size c) (length m)) as [HL|]; [|discriminate]. apply some_eq in Hct.
        apply (final_xts_dec c Hc (c_enc c2 iv) (repeat 0 (c_size c)) m ct o s'); auto.
      * apply HW in Hct as [H1 H2]. apply (GW (blocks (c_size c) m) (xts_chain (c_size c) (c_enc c) (c_enc c2 iv) 0 (blocks (c_size c) m))); auto.
        -- apply (xts_chain_ok c); auto. apply (E_ok c Hc).
        -- rewrite seqm_xts0 by auto. apply (xts_chain_DE c Hc). auto.
Qed.

(* PKCS#7 modes: decryption accepts a ciphertext, returning m, exactly when it is the encryption
   of m; everything else is rejected (no abort, nothing else accepted) *)
Lemma seqm_ED c mode m0 bs : cipher_ok c -> is_pad mode = true -> Inv c mode m0 -> Forall (okb (c_size c)) bs ->
  fst (seqm (gstep c mode true) m0 (fst (seqm (gstep c mode false) m0 bs))) = bs.
Proof.
  intros Hc Hp HI HF. revert m0 HI. induction HF as [|b t Hb HF IH]; intros m0 HI; [reflexivity|]. cbn [seqm].
  assert (HX : forall o m1, gstep c mode false m0 b = (o, m1) -> gstep c mode true m0 o = (b, m1) /\ Inv c mode m1).
  { intros o m1 HG. destruct mode; try discriminate.
    - cbn [gstep] in *. assert (o = c_dec c b /\ m1 = m0) as [-> ->] by (split; congruence). rewrite (ED c Hc) by auto. split; [reflexivity|exact I].
    - destruct m0; try contradiction. cbn [gstep Inv] in *. assert (o = xorl (c_dec c b) prev /\ m1 = MCbc b) as [-> ->] by (split; congruence).
      rewrite (xorl_comm prev), xor_cancel_r by (destruct (D_ok c Hc b Hb), HI; lia). rewrite (ED c Hc) by auto. auto. }
  destruct (gstep c mode false m0 b) as [o m1]. destruct (HX o m1 eq_refl) as [H1 H2]. specialize (IH m1 H2).
  destruct (seqm (gstep c mode false) m1 t) as [os m2]. cbn [fst seqm] in *. rewrite H1.
  destruct (seqm (gstep c mode true) m1 os). cbn [fst] in *. congruence.
Qed.
Theorem C36_padding_exact : forall ci B mode key iv s c c2 chunks, family ci B -> is_pad mode = true -> bytes iv ->
  opened ci mode false true key iv = Some s -> keyed ci mode key = Some (c, c2) -> Forall bytes chunks ->
  (forall m, run s chunks = Ok m <-> bytes m /\ stream_spec B (c_enc c) (c_enc c2) mode true iv m = Some (concat chunks)) /\
  run s chunks <> Abort.
Proof.
  intros ci B mode key iv s c c2 chunks HF Hpd Hi HO HK Hb.
  assert (Ha : is_aead mode = false) by (destruct mode; try discriminate; reflexivity).
  assert (Hs : is_stream mode = false) by (destruct mode; try discriminate; reflexivity).
  assert (Hcb : bytes (concat chunks)) by (apply Forall_concat; auto).
  destruct (opened_block ci B mode false true key iv s c c2 HF Hs Hi HO HK) as (Hc & HB & HV & HI & HR & HP).
  destruct (updates_srep c Hc mode false _ _ _ chunks Hs HI Hb [] [] s ltac:(constructor) HR) as (o & s' & U1 & U2).
  cbn [app] in U2. rewrite Hpd in U2. cbn [negb orb andb] in U2.
  destruct (final_pad_dec c Hc mode _ (concat chunks) o s' Hpd HI Hcb U2) as [F1 F2].
  rewrite (run_fin _ _ _ _ U1). split; [|auto]. intros m. split.
  - rewrite F1. intros [L1 L2]. pose proof (B_pos c Hc) as HB0.
    assert (Hm : bytes m).
    { pose proof (okb_bytes _ _ (outs_ok c Hc mode false _ (concat chunks) HI Hcb)) as X. rewrite L2 in X. apply bytes_app in X. tauto. }
    split; auto. pose proof (blocks_okb _ _ HB0 Hcb) as HBk.
    pose proof (seqm_ED c mode _ _ Hc Hpd HI HBk) as HS. pose proof (outs_ok c Hc mode false _ (concat chunks) HI Hcb) as HOk.
    assert (EB : outs c (gstep c mode false) (mode0 mode B (c_enc c2) iv) (concat chunks) = blocks (c_size c) (pkcs7 (c_size c) m)).
    { rewrite <- L2. symmetry. apply blocks_exact; auto. apply okb_len; auto. }
    unfold outs in EB. rewrite EB in HS.
    assert (MC : concat (blocks (c_size c) (concat chunks)) = concat chunks).
    { apply (concat_blocks _ (length (concat chunks) / c_size c) HB0). rewrite Nat.mul_comm. apply Nat.div_exact; auto. lia. }
    subst B. destruct mode; try discriminate; cbn [mode0 stream_spec] in *.
    + rewrite seqm_ecb in HS by auto. cbn [fst] in HS. rewrite HS, MC. reflexivity.
    + rewrite seqm_cbce in HS by auto. cbn [fst] in HS. rewrite HS, MC. reflexivity.
  - intros [Hm Hsp]. rewrite <- (run_fin _ _ _ _ U1). apply (C36_decrypt ci B mode true key iv s c c2 m (concat chunks) chunks); auto.
Qed.

Example C36_ex :
  let msg := map Z.of_nat (seq 5 21) in
  let key := map Z.of_nat (seq 100 8) in
  let iv := map Z.of_nat (seq 200 8) in
  match opened (toys 8) CBC true true key iv, opened (toys 8) CBC false true key iv with
  | Some se, Some sd =>
    match run se [firstn 3 msg; []; skipn 3 msg] with
    | Ok ct => length ct = 24%nat /\ run sd [firstn 17 ct; skipn 17 ct] = Ok msg /\ run sd [firstn 16 ct] = Fail /\ run sd [ct; [1]] = Fail /\ run sd [] = Fail
    | _ => False
    end
  | _, _ => False
  end.
Proof. vm_compute. repeat split; reflexivity. Qed.

(* ---- C29 ---- *)
Theorem C29_stealing : forall ci B mode key iv se sd c c2 ms cs, family ci B -> (mode = CTS \/ mode = XTS) -> bytes iv ->
  opened ci mode true true key iv = Some se -> opened ci mode false true key iv = Some sd -> keyed ci mode key = Some (c, c2) ->
  Forall bytes ms -> Forall bytes cs ->
  ((length (concat ms) < B)%nat -> run se ms = Fail) /\
  ((B <= length (concat ms))%nat -> exists ct, run se ms = Ok ct /\ length ct = length (concat ms) /\ (concat cs = ct -> run sd cs = Ok (concat ms))).
Proof.
  intros ci B mode key iv se sd c c2 ms cs HF Hmode Hi HOe HOd HK Hbm Hbc.
  assert (Ha : is_aead mode = false) by (destruct Hmode as [-> | ->]; reflexivity).
  assert (Hs : is_stream mode = false) by (destruct Hmode as [-> | ->]; reflexivity).
  assert (Hcb : bytes (concat ms)) by (apply Forall_concat; auto).
  pose proof (C36_encrypt ci B mode true key iv se c c2 ms HF Ha Hi HOe HK Hbm) as HE.
  split; intros HL.
  - rewrite HE. destruct Hmode as [-> | ->]; cbn [stream_spec]; destruct (Nat.leb_spec B (length (concat ms))); auto; lia.
  - assert (HD : forall ct, stream_spec B (c_enc c) (c_enc c2) mode true iv (concat ms) = Some ct -> concat cs = ct -> run sd cs = Ok (concat ms)).
    { intros ct H1 H2. apply (C36_decrypt ci B mode true key iv sd c c2 (concat ms) ct cs); auto. }
    destruct (opened_block ci B mode true true key iv se c c2 HF Hs Hi HOe HK) as (Hc & HB & HV & HI & _ & _).
    pose proof (B_pos c Hc) as HB0. subst B. set (m := concat ms) in *.
    pose proof (blocks_okb _ m HB0 Hcb) as HBm. destruct (msg_split c Hc m) as (_ & EQ & _).
    assert (LB := concat_length_exact _ _ (okb_len _ _ HBm)). pose proof (leftover_length (c_size c) m HB0) as LL.
    pose proof (Nat.mod_upper_bound (length m) (c_size c) ltac:(lia)) as LM.
    assert (LQ : length m = (length (blocks (c_size c) m) * c_size c + length (leftover (c_size c) m))%nat) by (rewrite <- LB, <- app_length, <- EQ; reflexivity).
    assert (GL : forall cs' r x, Forall (okb (c_size c)) cs' -> length cs' = length (blocks (c_size c) m) -> length x = c_size c -> length r = length (leftover (c_size c) m) ->
      length (concat (removelast cs') ++ x ++ r) = length m).
    { intros cs' r x HF' HL' Hx Hr. rewrite !app_length.
      assert (HN : cs' <> []) by (intros ->; cbn [length] in HL'; rewrite <- HL' in LQ; lia).
      assert (HR : Forall (okb (c_size c)) (removelast cs')) by (rewrite (app_removelast_last [] HN) in HF'; apply Forall_app in HF'; tauto).
      rewrite (concat_length_exact _ _ (okb_len _ _ HR)).
      pose proof (f_equal (@length (list Z)) (app_removelast_last [] HN)) as HQ. rewrite app_length in HQ. cbn [length] in HQ. nia. }
    destruct Hmode as [-> | ->]; cbn [stream_spec] in *; (destruct (Nat.leb_spec (c_size c) (length m)) as [_|]; [|lia]);
      (eexists; split; [exact HE|]; split; [|intros HX; eapply HD; [reflexivity|exact HX]]).
    + destruct HV as [|[|HV]]; try discriminate.
      assert (HCk := cbc_chain_ok c Hc _ _ HV HBm). unfold cbc_cts. cbv zeta. set (cs' := cbc_chain (c_enc c) iv (blocks (c_size c) m)) in *.
      assert (HK2 : okb (c_size c) (last cs' iv)) by (apply (last_ok c); auto).
      apply GL; auto.
      * unfold cs'. clear. revert iv. induction (blocks (c_size c) m) as [|b t IH]; intros iv; cbn [cbc_chain length]; auto.
      * apply E_ok; auto. apply X_ok; auto. apply pad_ok; [apply leftover_bytes; auto|lia].
      * rewrite firstn_length. destruct HK2. lia.
    + cbn [Inv mode0] in HI. unfold xts_spec. set (cs' := xts_chain (c_size c) (c_enc c) (c_enc c2 iv) 0 (blocks (c_size c) m)).
      assert (HCk : Forall (okb (c_size c)) cs') by (apply (xts_chain_ok c); auto; apply (E_ok c Hc)).
      assert (HLen : length cs' = length (blocks (c_size c) m)) by apply (xts_chain_length c).
      destruct (leftover (c_size c) m) as [|r0 r'] eqn:Er.
      * rewrite (concat_length_exact _ _ (okb_len _ _ HCk)), HLen. cbn [length] in LQ. lia.
      * rewrite <- Er in *.
        assert (HN : cs' <> []) by (intros E0; rewrite E0 in HLen; cbn [length] in HLen; rewrite <- HLen in LQ; lia).
        assert (HKl : okb (c_size c) (last cs' [])) by (destruct cs' as [|y t]; [congruence|]; inversion HCk; subst; rewrite last_cons; apply (last_ok c); auto).
        destruct HKl as [K1 K2].
        apply GL; auto.
        -- apply (xex_ok c); [apply (E_ok c Hc)|apply tweak_ok; auto|]. split; [rewrite app_length, skipn_length; lia|]. apply bytes_app. split; [apply leftover_bytes; auto|apply bytes_skipn; auto].
        -- rewrite firstn_length. lia.
Qed.
Example C29_ex :
  let msg := map Z.of_nat (seq 5 21) in
  let iv := map Z.of_nat (seq 200 8) in
  let test mode key :=
    match opened (toys 8) mode true true key iv, opened (toys 8) mode false true key iv with
    | Some se, Some sd =>
      match run se [firstn 3 msg; []; skipn 3 msg] with
      | Ok ct => length ct = 21%nat /\ ct <> msg /\ run sd [firstn 17 ct; skipn 17 ct] = Ok msg
      | _ => False
      end
    | _, _ => False
    end in
  test CTS (map Z.of_nat (seq 100 8)) /\ test XTS (map Z.of_nat (seq 100 16)).
Proof. vm_compute. repeat split; try reflexivity; discriminate. Qed.

(* ---- C35 ---- *)
Lemma inv2_mode0 ci B mode enc pad key iv s c c2 : family ci B -> is_stream mode = false -> bytes iv ->
  opened ci mode enc pad key iv = Some s -> keyed ci mode key = Some (c, c2) -> Inv2 c mode (mode0 mode B (c_enc c2) iv).
Proof.
  intros HF Hs Hi HO HK. destruct (opened_block ci B mode enc pad key iv s c c2 HF Hs Hi HO HK) as (Hc & HB & HV & HI & HR & HP).
  split; [auto|]. destruct mode; cbn [mode0]; auto. rewrite HB. apply repeat_length.
Qed.
Lemma opened_keyed ci mode enc pad key iv s : opened ci mode enc pad key iv = Some s -> exists c c2, keyed ci mode key = Some (c, c2).
Proof.
  intros HO. unfold opened in HO. destruct (cipher_stream_init ci mode enc key iv) as [s0|] eqn:EI; [|discriminate]. clear HO.
  unfold cipher_stream_init in EI. unfold keyed. destruct mode; try (destruct (ci key) as [c|]; [exists c, c; reflexivity|discriminate]).
  destruct ((length key =? 0)%nat || negb (Z.land (Z.of_nat (length key)) 1 =? 0)); [discriminate|].
  destruct (negb (torsion_memequal (firstn (length key / 2) key) (skipn (length key / 2) key) =? 0)); [discriminate|].
  destruct (ci (firstn (length key / 2) key)) as [c|]; [|discriminate]. destruct (cipher_mode_init c XTS iv) as [m|]; [|discriminate].
  destruct m; try discriminate. destruct (ci (skipn (length key / 2) key)) as [c2|]; [|discriminate]. eauto.
Qed.
(* both directions, valid input or not: the outcome (accept/reject and bytes) depends on the
   concatenated input only, and the context never aborts *)
Theorem C35_chunking : forall ci B mode enc pad key iv s cs1 cs2, family ci B -> is_aead mode = false -> bytes iv ->
  opened ci mode enc pad key iv = Some s -> Forall bytes cs1 -> Forall bytes cs2 -> concat cs1 = concat cs2 ->
  run s cs1 = run s cs2 /\ run s cs1 <> Abort.
Proof.
  intros ci B mode enc pad key iv s cs1 cs2 HF Ha Hi HO H1 H2 HE.
  destruct (opened_keyed _ _ _ _ _ _ _ HO) as (c & c2 & HK).
  assert (Hcb : bytes (concat cs2)) by (apply Forall_concat; auto).
  destruct (is_stream mode) eqn:Hs.
  - destruct (opened_stream ci B mode enc pad key iv s c c2 HF Hs Ha Hi HO HK) as (Hc & HB & HV & -> & HT & HU).
    rewrite (run_fin _ _ _ _ (HU cs1)), (run_fin _ _ _ _ (HU cs2)). unfold cipher_stream_final. change (s_type (with_mode s ?m)) with (s_type s). rewrite HT.
    assert (EQ : fst (calls (sstep mode enc c) (sinit mode c iv) cs1) = fst (calls (sstep mode enc c) (sinit mode c iv) cs2)).
    { subst B. destruct (init_wf c iv Hc HV) as (W1 & W2 & W3 & _). pose proof (B_pos c Hc) as HB0.
      assert (WP : forall m, wfm (c_size c) m -> m_pos m = 0%nat -> (m_pos m < c_size c)%nat) by (intros; lia).
      destruct mode; try discriminate; cbn [sstep sinit].
      - pose proof (C31_chunking c (ctr_init c iv) cs1 Hc W1 ltac:(cbn; lia)) as (A & _). pose proof (C31_chunking c (ctr_init c iv) cs2 Hc W1 ltac:(cbn; lia)) as (A' & _). rewrite A, A', HE. reflexivity.
      - pose proof (C31_chunking c (cfb_init c iv) cs1 Hc W1 ltac:(cbn; lia)) as (_ & _ & A & D). pose proof (C31_chunking c (cfb_init c iv) cs2 Hc W1 ltac:(cbn; lia)) as (_ & _ & A' & D').
        destruct enc; [rewrite A, A', HE; reflexivity|rewrite D, D', HE; reflexivity].
      - pose proof (C31_chunking c (ofb_init c iv) cs1 Hc W3 ltac:(cbn; lia)) as (_ & A & _). pose proof (C31_chunking c (ofb_init c iv) cs2 Hc W3 ltac:(cbn; lia)) as (_ & A' & _). rewrite A, A', HE. reflexivity. }
    destruct mode; try discriminate; cbn [fin_out Z.eqb]; rewrite EQ; (split; [reflexivity|discriminate]).
  - destruct (opened_block ci B mode enc pad key iv s c c2 HF Hs Hi HO HK) as (Hc & HB & HV & HI & HR & HP).
    pose proof (inv2_mode0 ci B mode enc pad key iv s c c2 HF Hs Hi HO HK) as HI2.
    destruct (updates_srep c Hc mode enc _ _ _ cs1 Hs HI H1 [] [] s ltac:(constructor) HR) as (o1 & s1 & U1 & V1).
    destruct (updates_srep c Hc mode enc _ _ _ cs2 Hs HI H2 [] [] s ltac:(constructor) HR) as (o2 & s2 & U2 & V2).
    cbn [app] in V1, V2. rewrite HE in V1. rewrite (run_fin _ _ _ _ U1), (run_fin _ _ _ _ U2).
    assert (EO : o1 = o2).
    { pose proof (sr_out _ _ _ _ _ _ _ _ _ _ V1) as E1. pose proof (sr_out _ _ _ _ _ _ _ _ _ _ V2) as E2.
      destruct (pad && (is_pad mode && negb enc || is_cts mode)); [destruct E1 as [E1 _], E2 as [E2 _]|]; congruence. }
    subst o2. destruct (final_obs c Hc mode enc _ pad _ (concat cs2) o1 s1 s2 Hs HI2 Hcb eq_refl V1 V2) as (r & w & n & s1' & s2' & F1 & F2 & _).
    rewrite F1, F2. cbn [fin_out]. split; [reflexivity|]. destruct (r =? 0); discriminate.
Qed.

(* update writes exactly update_size bytes, at any point of any history; the part it reports in
   output_len is all of it, or all but the retained last block for modes that hold a block back *)
Theorem C35_update_size : forall ci B mode enc pad key iv s0 chunks o s x, family ci B -> is_aead mode = false -> bytes iv ->
  opened ci mode enc pad key iv = Some s0 -> Forall bytes chunks -> updates s0 chunks = Ok (o, s) -> bytes x ->
  exists w n s', cipher_stream_update s x = Ok (w, n, s') /\ cipher_stream_update_size s (length x) = Ok (length w) /\
    n = (if pad && ((is_pad mode && negb enc) || is_cts mode) then length w - B else length w)%nat.
Proof.
  intros ci B mode enc pad key iv s0 chunks o s x HF Ha Hi HO Hb HU Hx.
  destruct (opened_keyed _ _ _ _ _ _ _ HO) as (c & c2 & HK).
  destruct (is_stream mode) eqn:Hs.
  - destruct (opened_stream ci B mode enc pad key iv s0 c c2 HF Hs Ha Hi HO HK) as (Hc & HB & HV & -> & HT & HV2).
    pose proof (HV2 (chunks ++ [x])) as H2. pose proof (HV2 chunks) as H1. rewrite HU in H1. apply ok_inj in H1.
    assert (ES : s = with_mode s0 (MStream (snd (calls (sstep mode enc c) (sinit mode c iv) chunks)))) by congruence.
    assert (LV : forall cs m, live c m -> live c (snd (calls (sstep mode enc c) m cs))).
    { induction cs as [|y t IH]; intros m Hm; cbn [calls]; [auto|].
      assert (HL : live c (snd (sstep mode enc c m y))).
      { unfold sstep. destruct mode; try discriminate; [apply ctr_len; auto|destruct enc; [apply cfbe_len|apply cfbd_len]; auto|apply ofb_len; auto]. }
      destruct (sstep mode enc c m y) as [d m1]. cbn [snd] in HL. specialize (IH m1 HL). destruct (calls (sstep mode enc c) m1 t). exact IH. }
    assert (L0 : live c (sinit mode c iv)).
    { subst B. assert (A : length (repeat 0 (c_size c)) = c_size c) by apply repeat_length.
      assert (A2 : length (firstn (c_size c) iv) = c_size c) by (rewrite firstn_length; destruct HV; lia).
      unfold sinit, ctr_init, ofb_init, cfb_init. destruct mode; apply live_iv; auto. }
    specialize (LV chunks _ L0). set (m := snd (calls (sstep mode enc c) (sinit mode c iv) chunks)) in *.
    assert (HX : length (fst (sstep mode enc c m x)) = length x).
    { unfold sstep. destruct mode; try discriminate; [apply ctr_len; auto|destruct enc; [apply cfbe_len|apply cfbd_len]; auto|apply ofb_len; auto]. }
    assert (EE : encipher s (MStream m) x = tot_out MStream (sstep mode enc c m x)).
    { rewrite ES. unfold encipher. cbn [with_mode s_encrypt s_cipher s_type]. rewrite HT.
      assert (s_cipher s0 = c /\ s_encrypt s0 = enc) as [-> ->].
      { clear -HO HK Hs. unfold opened in HO. destruct (cipher_stream_init ci mode enc key iv) as [s1|] eqn:EI; [|discriminate]. apply some_eq in HO. subst s1.
        unfold cipher_stream_init in EI. unfold keyed in HK. destruct mode; try discriminate; (destruct (ci key) as [c'|]; [|discriminate];
          destruct (cipher_mode_init c' _ iv) as [mm|]; [|discriminate]; apply some_eq in EI; subst s0; split; [cbn; congruence|reflexivity]). }
      destruct mode; try discriminate; destruct enc; reflexivity. }
    unfold cipher_stream_update, cipher_stream_update_size. assert (EM : s_mode s = MStream m) by (rewrite ES; reflexivity).
    assert (ET : s_type s = mode) by (rewrite ES; exact HT). rewrite ET, Hs, EM, EE. destruct (sstep mode enc c m x) as [d m']. cbn [tot_out fst] in *.
    eexists _, _, _. split; [reflexivity|]. rewrite HX. split; [reflexivity|]. destruct mode; try discriminate; reflexivity.
  - destruct (opened_block ci B mode enc pad key iv s0 c c2 HF Hs Hi HO HK) as (Hc & HB & HV & HI & HR & HP).
    destruct (updates_srep c Hc mode enc _ _ _ chunks Hs HI Hb [] [] s0 ltac:(constructor) HR) as (o1 & s1 & U1 & V1).
    assert (s1 = s) by congruence. subst s1. cbn [app] in V1.
    destruct (update_srep c Hc mode enc (gstep c mode enc) (Inv c mode) Hs (inv_step c Hc mode enc) (fun m bs => hcrypt c Hc mode enc m bs Hs) _ _ _ (concat chunks) _ s x HI ltac:(apply Forall_concat; auto) Hx V1)
      as (w & n & s' & W1 & _ & W3 & W4 & _).
    exists w, n, s'. split; [auto|]. split; [auto|]. rewrite <- HB. auto.
Qed.
(* final writes nothing or exactly final_size bytes and never reports more than it wrote; except
   for the unpadding modes a successful final reports final_size *)
Theorem C35_final_size : forall ci B mode enc pad key iv s0 chunks o s, family ci B -> is_stream mode = false -> bytes iv ->
  opened ci mode enc pad key iv = Some s0 -> Forall bytes chunks -> updates s0 chunks = Ok (o, s) ->
  exists r w n s', cipher_stream_final s = Ok (r, w, n, s') /\ (w = [] \/ length w = cipher_stream_final_size s) /\ (n <= length w)%nat /\
    (r = 0 \/ r = 1) /\ (enc = true \/ is_pad mode = false -> r = 1 -> n = cipher_stream_final_size s).
Proof.
  intros ci B mode enc pad key iv s0 chunks o s HF Hs Hi HO Hb HU.
  destruct (opened_keyed _ _ _ _ _ _ _ HO) as (c & c2 & HK).
  destruct (opened_block ci B mode enc pad key iv s0 c c2 HF Hs Hi HO HK) as (Hc & HB & HV & HI & HR & HP).
  pose proof (inv2_mode0 ci B mode enc pad key iv s0 c c2 HF Hs Hi HO HK) as HI2.
  destruct (updates_srep c Hc mode enc _ _ _ chunks Hs HI Hb [] [] s0 ltac:(constructor) HR) as (o1 & s1 & U1 & V1).
  assert (s1 = s) by congruence. subst s1. cbn [app] in V1.
  destruct (final_obs c Hc mode enc _ pad _ (concat chunks) o1 s s Hs HI2 ltac:(apply Forall_concat; auto) eq_refl V1 V1) as (r & w & n & s1' & s2' & F1 & F2 & F3 & F4 & F5 & F6).
  exists r, w, n, s1'. auto.
Qed.
Example C35_ex :
  let key := map Z.of_nat (seq 100 8) in
  let msg := map Z.of_nat (seq 5 21) in
  match opened (toys 8) CTS true true key (map Z.of_nat (seq 200 8)) with
  | Some s =>
    run s [msg] = run s (map (fun x => [x]) msg) /\
    match updates s [firstn 19 msg] with
    | Ok (_, s1) =>
      match cipher_stream_update s1 [7; 8; 9; 10; 11; 12; 13; 14; 15] with
      | Ok (w, n, s2) => cipher_stream_update_size s1 9 = Ok 16%nat /\ length w = 16%nat /\ n = 8%nat /\ cipher_stream_final_size s2 = 12%nat
      | _ => False
      end
    | _ => False
    end
  | None => False
  end.
Proof. vm_compute. repeat split; reflexivity. Qed.

(* the axioms of every theorem above, listed at once *)
Definition StreamApiProps_all := (@C36_encrypt, @C36_decrypt, @C36_padding_exact, @C29_stealing, @C35_chunking, @C35_update_size, @C35_final_size).
Print Assumptions StreamApiProps_all.
