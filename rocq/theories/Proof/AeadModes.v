(* GCM, EAX and CCM over any chunking *)
From Verif.Base Require Import Prelude.
From Verif.Model Require Import Bio Util Block Encoding Modes.
From Verif.Spec Require Import BlockSpec MacSpec StreamSpec ModesSpec.
From Verif.Proof Require Import BioProof UtilProof BlockProof BufCrypt BlockModes GfShift XtsProof StreamModes CtrProof GhashMul GhashProof MacModes.
#[local] Ltac Zify.zify_post_hook ::= idtac.

Lemma xorl_zeros n x : length x = n -> xorl (repeat 0 n) x = x.
Proof.
  intros <-. induction x as [|a x IH]; [reflexivity|]. cbn [length repeat]. unfold xorl in *. cbn [map2]. rewrite IH, Z.lxor_0_l. reflexivity.
Qed.

Section Ctr.
  Variable size : nat.
  Variable strm : smode -> smode.
  Hypothesis Hsize : (1 < size)%nat.
  Hypothesis wf_strm : forall m, wfm size m -> wfm size (strm m).
  Hypothesis strm_pos : forall m p, strm (setpos m p) = setpos (strm m) p.
  Let upd := stream_update size strm ctr_xor.
  Let args := (ctr_perm_pos, ctr_p_wf size, ctr_p_nil size).
  Lemma ctr_upd_one m b : wfm size m -> m_pos m = 0%nat -> length b = size -> upd m b = (xorl b (m_state (strm m)), setpos (strm m) 0).
  Proof.
    intros Hw Hp Hb. rewrite <- (app_nil_r b) at 1. unfold upd. rewrite ctr_upd_block by auto.
    rewrite (update_nil size strm ctr_xor (wfm size) Hsize (wfm_pos size) wf_strm strm_pos ctr_perm_pos (ctr_p_wf size) (ctr_p_nil size) (ctr_perm_cons size Hsize)).
    - cbn [fst snd]. rewrite app_nil_r. reflexivity.
    - apply wf_strm. auto.
    - cbn. lia.
  Qed.
  (* the counter advances once per block *)
  Lemma ctr_upd_iv m src : wfm size m -> (m_pos m < size)%nat ->
    exists j, (j = 0 \/ j * size + (if (m_pos m =? 0)%nat then 0 else size - m_pos m) < length src + size)%nat /\
      m_iv (snd (upd m src)) = m_iv (Nat.iter j strm m).
  Proof.
    intros Hw Hp. unfold upd.
    rewrite (stream_update_bwise size strm ctr_xor (wfm size) Hsize (wfm_pos size) wf_strm strm_pos ctr_perm_pos (ctr_p_wf size) (ctr_p_nil size) (ctr_perm_cons size Hsize)) by auto.
    revert m Hw Hp. induction src as [|x s IH]; intros m Hw Hp; [exists 0%nat; split; [lia|reflexivity]|].
    cbn [bwise]. destruct (bstep size strm ctr_xor m x) as [d m1] eqn:Eb.
    set (p' := if (S (m_pos m) =? size)%nat then 0%nat else S (m_pos m)).
    assert (P : (p' < size)%nat) by (unfold p'; destruct (Nat.eqb_spec (S (m_pos m)) size); lia).
    set (q := if (m_pos m =? 0)%nat then 1%nat else 0%nat).
    assert (HB : m1 = setpos (Nat.iter q strm m) p').
    { unfold bstep, ctr_xor in Eb. injection Eb as _ <-. unfold q, p'. destruct (m_pos m =? 0)%nat; reflexivity. }
    subst m1.
    destruct (IH (setpos (Nat.iter q strm m) p')) as (j & Hj & HE).
    { apply wfm_pos. clear -Hw wf_strm. induction q; [auto|]. apply wf_strm; auto. }
    { exact P. }
    destruct (bwise size strm ctr_xor (setpos (Nat.iter q strm m) p') s) as [o m2]. cbn [fst snd] in *.
    exists (j + q)%nat. split.
    - cbn [length setpos m_pos] in *. destruct (Nat.eqb_spec p' 0); unfold p', q in *; destruct (Nat.eqb_spec (m_pos m) 0); destruct (Nat.eqb_spec (S (m_pos m)) size); nia.
    - rewrite HE.
      rewrite <- (iter_pos strm strm_pos). cbn [setpos m_iv]. clear. f_equal. induction j as [|j IH]; [reflexivity|].
      change (Nat.iter (S j + q) strm m) with (strm (Nat.iter (j + q) strm m)). rewrite <- IH. reflexivity.
  Qed.
End Ctr.

Lemma counter_add B w iv i j : (w <= B)%nat -> length iv = B -> counter B w (counter B w iv i) j = counter B w iv (i + j).
Proof.
  intros Hw Hl. unfold counter at 1 3. unfold counter. rewrite firstn_app_exact, skipn_app_exact by (rewrite firstn_length; lia). f_equal.
  apply be_bytes_mod. rewrite be_val_be_bytes, Zplus_mod_idemp_l. f_equal. lia.
Qed.

(* chunked calls that hash what they output, or what they read *)
Lemma calls_out {C H M} (f : C -> list Z -> list Z * C) (u : H -> list Z -> H) (mk : M -> C -> H -> M) (gc : M -> C) (gh : M -> H)
  (enc : M -> list Z -> list Z * M) :
  (forall m x, enc m x = (fst (f (gc m) x), mk m (snd (f (gc m) x)) (u (gh m) (fst (f (gc m) x))))) ->
  (forall m c h, gc (mk m c h) = c) -> (forall m c h, gh (mk m c h) = h) ->
  (forall m c h c' h', mk (mk m c h) c' h' = mk m c' h') -> (forall m, mk m (gc m) (gh m) = m) ->
  forall chunks m, exists outs,
    concat outs = fst (calls f (gc m) chunks) /\
    calls enc m chunks = (concat outs, mk m (snd (calls f (gc m) chunks)) (fold_left u outs (gh m))).
Proof.
  intros He H1 H2 H3 H4. induction chunks as [|x t IH]; intros m.
  - exists []. split; [reflexivity|]. cbn [calls concat fst snd fold_left]. rewrite H4. reflexivity.
  - cbn [calls]. rewrite He. destruct (f (gc m) x) as [d c1] eqn:Ef. cbn [fst snd].
    destruct (IH (mk m c1 (u (gh m) d))) as (outs & I1 & I2). rewrite H1, H2 in *. rewrite I2.
    destruct (calls f c1 t) as [o c2]. cbn [fst snd] in *. exists (d :: outs). cbn [concat fold_left]. rewrite I1, H3. split; reflexivity.
Qed.
Lemma calls_in {C H M} (f : C -> list Z -> list Z * C) (u : H -> list Z -> H) (mk : M -> C -> H -> M) (gc : M -> C) (gh : M -> H)
  (dec : M -> list Z -> list Z * M) :
  (forall m x, dec m x = (fst (f (gc m) x), mk m (snd (f (gc m) x)) (u (gh m) x))) ->
  (forall m c h, gc (mk m c h) = c) -> (forall m c h, gh (mk m c h) = h) ->
  (forall m c h c' h', mk (mk m c h) c' h' = mk m c' h') -> (forall m, mk m (gc m) (gh m) = m) ->
  forall chunks m,
    calls dec m chunks = (fst (calls f (gc m) chunks), mk m (snd (calls f (gc m) chunks)) (fold_left u chunks (gh m))).
Proof.
  intros He H1 H2 H3 H4. induction chunks as [|x t IH]; intros m.
  - cbn [calls concat fst snd fold_left]. rewrite H4. reflexivity.
  - cbn [calls]. rewrite He. destruct (f (gc m) x) as [d c1] eqn:Ef. cbn [fst snd].
    rewrite IH. rewrite H1, H2, H3. destruct (calls f c1 t) as [o c2]. reflexivity.
Qed.

Lemma xor_stream_bytes blk m : bytes m -> (forall i, bytes (blk i)) -> bytes (xor_stream blk m).
Proof.
  intros Hm Hb. unfold xor_stream, keystream. apply xorl_bytes; auto. generalize (seq 0 (length m)). intros l.
  induction l as [|i l IH]; cbn [map concat]; [constructor|]. apply bytes_app. auto.
Qed.

Section Cipher.
  Variable c : cipher.
  Hypothesis Hc : cipher_ok c.
  Notation B := (c_size c).
  Notation E := (c_enc c).
  Let H1 : (1 < B)%nat := B_gt1 c Hc.

  Lemma zeros_ok n : okb n (repeat 0 n).
  Proof. split; [apply repeat_length|apply bytes_repeat; unfold byte; lia]. Qed.

  (* ---- GCM ---- *)
  Section Gcm.
    Hypothesis H16 : B = 16%nat.
    Let Hgw : forall m, wfm B m -> wfm B (gcm_stream c m).
    Proof. intros m Hm. apply gcm_wf; auto. lia. Qed.
    Lemma gcm_h_ok : okb 16 (gcm_h E).
    Proof. unfold gcm_h. rewrite <- H16. apply E_ok; auto. apply zeros_ok. Qed.
    Lemma gcm_j0_ok iv : bytes iv -> okb 16 (gcm_j0 E iv).
    Proof.
      intros Hi. unfold gcm_j0. destruct (Nat.eqb_spec (length iv) 12) as [EL|EL].
      - split; [rewrite app_length, EL; reflexivity|]. apply bytes_app. split; [auto|]. repeat constructor; unfold byte; lia.
      - split; [apply be_bytes_length|apply be_bytes_bytes].
    Qed.
    Lemma gcm_init_spec iv : bytes iv -> Z.of_nat (length iv) < 2 ^ 64 ->
      exists g, gcm_init c iv = Some g /\ gcm_hash g = ghash_init (gcm_h E) /\ gcm_mask g = E (gcm_j0 E iv) /\
        wfm B (gcm_ctr g) /\ m_pos (gcm_ctr g) = 0%nat /\ m_iv (gcm_ctr g) = counter 16 4 (gcm_j0 E iv) 1.
    Proof.
      intros Hi HL. unfold gcm_init. rewrite H16. cbn [Nat.eqb]. change (16 =? 16)%nat with true. cbv iota.
      set (m0 := mkM (repeat 0 16) (repeat 0 16) 0).
      assert (W0 : wfm B m0) by (rewrite H16; split; reflexivity).
      unfold gcm_crypt. rewrite (ctr_upd_one B (gcm_stream c) H1 Hgw (fun m p => eq_refl) m0) by (auto; rewrite H16; reflexivity).
      set (J := if (length iv =? 12)%nat then iv ++ [0; 0; 0; 1] else _).
      assert (EH : xorl (repeat 0 16) (m_state (gcm_stream c m0)) = gcm_h E).
      { apply xorl_zeros. cbn [gcm_stream m_state m0 m_iv]. rewrite <- H16. apply (bc_elen _ _ _ Hc). rewrite H16. reflexivity. }
      assert (EJ : J = gcm_j0 E iv).
      { unfold J, gcm_j0. destruct (Nat.eqb_spec (length iv) 12); [reflexivity|]. rewrite EH. destruct gcm_h_ok as [K1 K2].
        pose proof (ghash_spec_correct (gcm_h E) [] [iv] K2 K1) as HG. cbn [concat fold_left] in HG. rewrite app_nil_r in HG.
        apply HG; auto. constructor. }
      clearbody J. subst J. rewrite EH.
      destruct (gcm_j0_ok iv Hi) as [J1 J2].
      set (m1 := mkM (m_state (setpos (gcm_stream c m0) 0)) (gcm_j0 E iv) (m_pos (setpos (gcm_stream c m0) 0))).
      assert (W1 : wfm B m1) by (split; cbn [m_state m_iv m1 setpos gcm_stream m0]; [apply (bc_elen _ _ _ Hc); rewrite H16; reflexivity|rewrite H16; auto]).
      rewrite (ctr_upd_one B (gcm_stream c) H1 Hgw (fun m p => eq_refl) m1) by (auto; rewrite H16; reflexivity).
      eexists. split; [reflexivity|]. cbn [gcm_hash gcm_mask gcm_ctr]. split; [reflexivity|]. split.
      - cbn [gcm_stream m_state m1 m_iv]. apply xorl_zeros. rewrite <- H16. apply (bc_elen _ _ _ Hc). lia.
      - split; [pose proof (wfm_pos B _ 0 (Hgw _ W1)) as W2; rewrite H16 in W2; exact W2|]. split; [reflexivity|]. cbn [setpos gcm_stream m_iv m1].
        rewrite increment_be_spec by (apply bytes_skipn; auto). rewrite skipn_length, J1. reflexivity.
    Qed.
    Lemma gcm_crypt_calls iv m chunks : bytes iv -> wfm B m -> m_pos m = 0%nat -> m_iv m = counter 16 4 (gcm_j0 E iv) 1 ->
      fst (calls (gcm_crypt c) m chunks) = gcm_cipher E iv (concat chunks).
    Proof.
      intros Hi Hw Hp Hm. destruct (gcm_j0_ok iv Hi) as [J1 J2]. unfold gcm_crypt.
      rewrite (ctr_calls B (gcm_stream c) H1 Hgw (fun m p => eq_refl)) by (auto; lia).
      change (stream_update B (gcm_stream c) ctr_xor) with (gcm_crypt c).
      rewrite (gcm_crypt_spec c Hc) by (auto; rewrite Hm; apply counter_bytes; auto).
      unfold gcm_cipher. apply xor_stream_ext. intros i. unfold ctr_block. rewrite Hm, H16. rewrite counter_add by (auto; lia). reflexivity.
    Qed.
    Lemma gcm_aads aads : forall g, fold_left gcm_aad aads g = mkGcm (gcm_ctr g) (fold_left ghash_aad aads (gcm_hash g)) (gcm_mask g).
    Proof. induction aads as [|x t IH]; intros g; cbn [fold_left]; [destruct g; reflexivity|]. rewrite IH. reflexivity. Qed.

    Theorem gcm_encrypt_spec iv aads msgs : bytes iv -> Z.of_nat (length iv) < 2 ^ 64 -> bytes (concat aads) -> bytes (concat msgs) ->
      Z.of_nat (length (concat msgs)) < 2 ^ 64 ->
      exists g, gcm_init c iv = Some g /\
        let '(ct, g2) := calls (gcm_encrypt c) (fold_left gcm_aad aads g) msgs in
        ct = gcm_cipher E iv (concat msgs) /\ gcm_digest g2 = gcm_tag E iv (concat aads) ct.
    Proof.
      intros Hi HiL HA HM HL. destruct (gcm_init_spec iv Hi HiL) as (g & I1 & I2 & I3 & I4 & I5 & I6).
      exists g. split; [auto|]. rewrite gcm_aads.
      destruct (calls_out (gcm_crypt c) ghash_update (fun m ct h => mkGcm ct h (gcm_mask m)) gcm_ctr gcm_hash (gcm_encrypt c)) with (chunks := msgs)
        (m := mkGcm (gcm_ctr g) (fold_left ghash_aad aads (gcm_hash g)) (gcm_mask g)) as (outs & O1 & O2); try reflexivity.
      { intros m x. unfold gcm_encrypt. destruct (gcm_crypt c (gcm_ctr m) x); reflexivity. }
      { intros [? ? ?]; reflexivity. }
      rewrite O2. cbn [gcm_ctr gcm_hash gcm_mask] in *.
      rewrite (gcm_crypt_calls iv) in O1 by auto. split; [auto|].
      unfold gcm_digest. cbn [gcm_hash gcm_mask]. rewrite memxor_xorl, I2, I3. unfold gcm_tag. f_equal.
      destruct (gcm_j0_ok iv Hi) as [J1 J2].
      assert (HB : forall i, okb 16 (ctr_block 16 E 4 (gcm_j0 E iv) (S i))).
      { intros i. unfold ctr_block. rewrite <- H16 at 1. apply E_ok; auto. rewrite H16. split; [apply counter_length; lia|apply counter_bytes; auto; lia]. }
      apply ghash_spec_correct; auto; try apply gcm_h_ok; rewrite O1.
      - apply xor_stream_bytes; auto. intros i. apply HB.
      - unfold gcm_cipher. rewrite (xor_stream_length _ 16); [auto|lia|]. intros i. apply HB.
    Qed.
    Theorem gcm_decrypt_spec iv aads cts : bytes iv -> Z.of_nat (length iv) < 2 ^ 64 -> bytes (concat aads) -> bytes (concat cts) ->
      Z.of_nat (length (concat cts)) < 2 ^ 64 ->
      exists g, gcm_init c iv = Some g /\
        let '(m, g2) := calls (gcm_decrypt c) (fold_left gcm_aad aads g) cts in
        m = gcm_cipher E iv (concat cts) /\ gcm_digest g2 = gcm_tag E iv (concat aads) (concat cts).
    Proof.
      intros Hi HiL HA HM HL. destruct (gcm_init_spec iv Hi HiL) as (g & I1 & I2 & I3 & I4 & I5 & I6).
      exists g. split; [auto|]. rewrite gcm_aads.
      rewrite (calls_in (gcm_crypt c) ghash_update (fun m ct h => mkGcm ct h (gcm_mask m)) gcm_ctr gcm_hash (gcm_decrypt c)); try reflexivity.
      2:{ intros m x. unfold gcm_decrypt. destruct (gcm_crypt c (gcm_ctr m) x); reflexivity. }
      2:{ intros [? ? ?]; reflexivity. }
      cbn [gcm_ctr gcm_hash gcm_mask] in *.
      rewrite (gcm_crypt_calls iv) by auto. split; [auto|].
      unfold gcm_digest. cbn [gcm_hash gcm_mask]. rewrite memxor_xorl, I2, I3. unfold gcm_tag. f_equal.
      apply ghash_spec_correct; auto; apply gcm_h_ok.
    Qed.
    Lemma gcm_cipher_invol iv m : bytes iv -> gcm_cipher E iv (gcm_cipher E iv m) = m.
    Proof.
      intros Hi. destruct (gcm_j0_ok iv Hi) as [J1 J2]. apply (xor_stream_invol _ 16); [lia|]. intros i. unfold ctr_block.
      transitivity (c_size c); [|auto]. apply (bc_elen _ _ _ Hc). rewrite H16. apply counter_length; lia.
    Qed.
  End Gcm.

  (* ---- EAX ---- *)
  Lemma cmac_ok m : bytes m -> okb B (cmac_spec B E m).
  Proof.
    intros Hm. unfold cmac_spec, cbc_mac. rewrite fold_left_app. cbn [fold_left].
    assert (HF : forall l st, okb B st -> Forall (okb B) l -> okb B (fold_left (fun c0 b => E (xorl c0 b)) l st)).
    { induction l as [|b l IH]; intros st Hs HF; [auto|]. inversion HF; subst. cbn [fold_left]. apply IH; auto. apply E_ok; auto. apply X_ok; auto. }
    assert (K1 : okb B (cmac_k1 B E)) by (split; [apply be_bytes_length|apply be_bytes_bytes]).
    assert (K2 : okb B (cmac_k2 B E)) by (split; [apply be_bytes_length|apply be_bytes_bytes]).
    apply E_ok; auto. apply X_ok.
    - apply HF; [apply zeros_ok|]. apply blocks_okb; [lia|]. apply bytes_firstn. auto.
    - set (z := skipn (cut B m) m). assert (Hz : bytes z) by (apply bytes_skipn; auto).
      destruct (Nat.eqb_spec (length z) B) as [EZ|EZ].
      + apply X_ok; [split; auto|auto].
      + apply X_ok; [|auto]. assert (HzL : (length z < B)%nat).
        { assert (length z <= B)%nat; [|lia]. unfold z, cut. rewrite skipn_length.
          destruct (Nat.eq_dec (length m) 0); [lia|].
          pose proof (Nat.div_mod (length m - 1) B ltac:(lia)). pose proof (Nat.mod_upper_bound (length m - 1) B ltac:(lia)). nia. }
        split; [rewrite app_length; cbn [length]; rewrite repeat_length; lia|]. apply bytes_app. split; [auto|]. constructor; [unfold byte; lia|].
        apply bytes_repeat. unfold byte. lia.
  Qed.
  Lemma omac_ok t m : byte t -> bytes m -> okb B (omac B E t m).
  Proof.
    intros Ht Hm. apply cmac_ok. apply bytes_app. split; [apply bytes_repeat; unfold byte; lia|]. apply bytes_app. split; [constructor; [auto|constructor]|auto].
  Qed.
  Lemma b012 : byte 0 /\ byte 1 /\ byte 2. Proof. unfold byte. lia. Qed.
  Lemma eax_init_spec iv : iv <> [] -> eax_init c iv =
    Some (mkEax (mkM (repeat 0 B) (omac B E 0 iv) 0) (cmac_init c (Some 1)) (cmac_init c (Some 2)) (omac B E 0 iv)).
  Proof.
    intros Hi. unfold eax_init. destruct iv as [|x iv]; [congruence|]. cbn [length Nat.eqb]. 
    pose proof (omac_spec c Hc 0 [x :: iv] (proj1 b012)) as HO. cbn [fold_left concat] in HO. rewrite app_nil_r in HO. rewrite HO. reflexivity.
  Qed.
  Lemma eax_crypt_calls iv m chunks : bytes iv -> wfm B m -> m_pos m = 0%nat -> m_iv m = omac B E 0 iv ->
    fst (calls (eax_crypt c) m chunks) = eax_cipher B E iv (concat chunks).
  Proof.
    intros Hi Hw Hp Hm. destruct (omac_ok 0 iv (proj1 b012) Hi) as [J1 J2]. unfold eax_crypt.
    rewrite (ctr_calls B (eax_stream c) H1 (eax_wf c Hc) (fun m p => eq_refl)) by (auto; lia).
    change (stream_update B (eax_stream c) ctr_xor) with (eax_crypt c).
    rewrite (eax_crypt_spec c Hc) by (auto; rewrite Hm; auto). rewrite Hm. reflexivity.
  Qed.
  Lemma eax_aads aads : forall g, fold_left (eax_aad c) aads g = mkEax (eax_ctr g) (fold_left (cmac_update c) aads (eax_hash1 g)) (eax_hash2 g) (eax_mask g).
  Proof. induction aads as [|x t IH]; intros g; cbn [fold_left]; [destruct g; reflexivity|]. rewrite IH. reflexivity. Qed.

  Theorem eax_encrypt_spec iv aads msgs : iv <> [] -> bytes iv ->
    exists g, eax_init c iv = Some g /\
      let '(ct, g2) := calls (eax_encrypt c) (fold_left (eax_aad c) aads g) msgs in
      ct = eax_cipher B E iv (concat msgs) /\ eax_digest c g2 = eax_tag B E iv (concat aads) ct.
  Proof.
    intros Hn Hi. eexists. split; [apply eax_init_spec; auto|]. rewrite eax_aads. cbn [eax_ctr eax_hash1 eax_hash2 eax_mask].
    destruct (calls_out (eax_crypt c) (cmac_update c) (fun m ct h => mkEax ct (eax_hash1 m) h (eax_mask m)) eax_ctr eax_hash2 (eax_encrypt c)) with (chunks := msgs)
      (m := mkEax (mkM (repeat 0 B) (omac B E 0 iv) 0) (fold_left (cmac_update c) aads (cmac_init c (Some 1))) (cmac_init c (Some 2)) (omac B E 0 iv))
      as (outs & O1 & O2); try reflexivity.
    { intros m x. unfold eax_encrypt. destruct (eax_crypt c (eax_ctr m) x); reflexivity. }
    { intros [? ? ? ?]; reflexivity. }
    rewrite O2. cbn [eax_ctr eax_hash1 eax_hash2 eax_mask] in *.
    assert (W : wfm B (mkM (repeat 0 B) (omac B E 0 iv) 0)) by (split; [apply repeat_length|apply (omac_ok 0 iv (proj1 b012) Hi)]).
    rewrite (eax_crypt_calls iv) in O1 by auto. split; [auto|].
    unfold eax_digest. cbn [eax_ctr eax_hash1 eax_hash2 eax_mask]. rewrite !memxor3_xorl. unfold eax_tag.
    rewrite !(omac_spec c Hc) by apply b012. reflexivity.
  Qed.
  Theorem eax_decrypt_spec iv aads cts : iv <> [] -> bytes iv ->
    exists g, eax_init c iv = Some g /\
      let '(m, g2) := calls (eax_decrypt c) (fold_left (eax_aad c) aads g) cts in
      m = eax_cipher B E iv (concat cts) /\ eax_digest c g2 = eax_tag B E iv (concat aads) (concat cts).
  Proof.
    intros Hn Hi. eexists. split; [apply eax_init_spec; auto|]. rewrite eax_aads. cbn [eax_ctr eax_hash1 eax_hash2 eax_mask].
    rewrite (calls_in (eax_crypt c) (cmac_update c) (fun m ct h => mkEax ct (eax_hash1 m) h (eax_mask m)) eax_ctr eax_hash2 (eax_decrypt c)); try reflexivity.
    2:{ intros m x. unfold eax_decrypt. destruct (eax_crypt c (eax_ctr m) x); reflexivity. }
    2:{ intros [? ? ? ?]; reflexivity. }
    cbn [eax_ctr eax_hash1 eax_hash2 eax_mask] in *.
    assert (W : wfm B (mkM (repeat 0 B) (omac B E 0 iv) 0)) by (split; [apply repeat_length|apply (omac_ok 0 iv (proj1 b012) Hi)]).
    rewrite (eax_crypt_calls iv) by auto. split; [auto|].
    unfold eax_digest. cbn [eax_ctr eax_hash1 eax_hash2 eax_mask]. rewrite !memxor3_xorl. unfold eax_tag.
    rewrite !(omac_spec c Hc) by apply b012. reflexivity.
  Qed.
  Lemma eax_cipher_invol iv m : bytes iv -> eax_cipher B E iv (eax_cipher B E iv m) = m.
  Proof.
    intros Hi. destruct (omac_ok 0 iv (proj1 b012) Hi) as [J1 J2]. apply (xor_stream_invol _ B); [lia|]. intros i. unfold ctr_block.
    apply (bc_elen _ _ _ Hc). apply counter_length; [lia|auto].
  Qed.
End Cipher.
