(* CBC-MAC and CMAC over any chunking *)
From Verif.Base Require Import Prelude.
From Verif.Model Require Import Bio Util Block Encoding Modes.
From Verif.Spec Require Import BlockSpec MacSpec StreamSpec ModesSpec.
From Verif.Proof Require Import BioProof UtilProof BlockProof BufCrypt BlockModes GfShift XtsProof GhashProof.
#[local] Ltac Zify.zify_post_hook ::= idtac.

Lemma xor_at_eq mac pos raw : xor_at mac pos raw = blit mac pos (xorl (firstn (length raw) (skipn pos mac)) raw).
Proof. unfold xor_at. rewrite memxor_xorl. reflexivity. Qed.
Lemma xor_at_0 mac raw : (length raw <= length mac)%nat -> xor_at mac 0 raw = xorl mac (raw ++ repeat 0 (length mac - length raw)).
Proof.
  intros H. rewrite xor_at_eq. unfold blit. cbn [firstn skipn app Nat.add]. rewrite (xorl_pad mac raw) by lia.
  rewrite xorl_length, firstn_length. rewrite Nat.min_l by lia. rewrite Nat.min_l by lia. reflexivity.
Qed.
Lemma xor_at_full mac raw : length raw = length mac -> xor_at mac 0 raw = xorl mac raw.
Proof. intros H. rewrite xor_at_0 by lia. rewrite H, Nat.sub_diag. cbn [repeat]. rewrite app_nil_r. reflexivity. Qed.
Lemma xor_at_length mac pos raw : (pos + length raw <= length mac)%nat -> length (xor_at mac pos raw) = length mac.
Proof.
  intros H. rewrite xor_at_eq. apply blit_length. rewrite xorl_length, firstn_length, skipn_length. lia.
Qed.
Lemma xor_at_app st r raw : (length r + length raw <= length st)%nat ->
  xor_at (xor_at st 0 r) (length r) raw = xor_at st 0 (r ++ raw).
Proof.
  intros H. rewrite !xor_at_eq. unfold blit at 2 3. cbn [firstn skipn app Nat.add].
  assert (L1 : length (xorl (firstn (length r) st) r) = length r) by (rewrite xorl_length, firstn_length; lia).
  rewrite L1. unfold blit at 1. rewrite firstn_app_exact by auto.
  rewrite (skipn_app_exact (xorl (firstn (length r) st) r)) by auto.
  rewrite app_length.
  assert (L2 : length (xorl (firstn (length raw) (skipn (length r) st)) raw) = length raw) by (rewrite xorl_length, firstn_length, skipn_length; lia).
  rewrite L2.
  rewrite <- (firstn_skipn (length r) (firstn (length r + length raw) st)).
  rewrite firstn_firstn, Nat.min_l by lia. rewrite skipn_firstn_comm. replace (length r + length raw - length r)%nat with (length raw) by lia.
  rewrite xorl_app by (rewrite firstn_length; lia). unfold blit. cbn [firstn app Nat.add]. rewrite app_length, L1, L2.
  rewrite <- app_assoc. f_equal. f_equal.
  rewrite skipn_app, L1. rewrite skipn_all2 by lia. cbn [app]. rewrite skipn_add. f_equal. f_equal. lia.
Qed.

Lemma xor_at_pos st r pos raw : length r = pos -> (pos + length raw <= length st)%nat ->
  xor_at (xor_at st 0 r) pos raw = xor_at st 0 (r ++ raw).
Proof. intros <- H. apply xor_at_app. auto. Qed.

Section Mac.
  Variable c : cipher.
  Hypothesis Hc : cipher_ok c.
  Notation B := (c_size c).
  Notation E := (c_enc c).
  Let tr (st b : list Z) : list Z := E (xorl st b).
  Let HB : (0 < B)%nat := B_pos c Hc.

  Definition sim (h : cmac) (s : list Z * list Z * nat) : Prop :=
    let '(st, block, pos) := s in
    cm_pos h = pos /\ length block = B /\ length st = B /\ (pos <= B)%nat /\ cm_mac h = xor_at st 0 (firstn pos block).

  Lemma xor_at_nil (st : list Z) : xor_at st 0 [] = st.
  Proof. rewrite xor_at_eq. reflexivity. Qed.
  Lemma absorb_sim lz f : forall st raw, length st = B -> mac_blocks c lz f st raw = absorb B lz tr f st raw /\ length (fst (absorb B lz tr f st raw)) = B.
  Proof.
    induction f as [|f IH]; intros st raw HL; cbn [mac_blocks absorb]; [auto|].
    destruct (enough lz (length raw) B) eqn:EN; [|auto].
    assert (HR : (B <= length raw)%nat) by (unfold enough in EN; destruct lz; [apply Nat.ltb_lt in EN|apply Nat.leb_le in EN]; lia).
    rewrite xor_at_full by (rewrite firstn_length; lia). apply IH. unfold tr. apply (bc_elen _ _ _ Hc). rewrite xorl_length, firstn_length. lia.
  Qed.
  Lemma absorb_len lz f : forall st raw, (length (snd (absorb B lz tr f st raw)) <= length raw)%nat /\
    ((length raw <= f)%nat -> enough lz (length (snd (absorb B lz tr f st raw))) B = false).
  Proof.
    induction f as [|f IH]; intros st raw; cbn [absorb].
    - split; [auto|]. intros H. cbn [snd]. unfold enough. destruct lz; [apply Nat.ltb_ge|apply Nat.leb_gt]; lia.
    - destruct (enough lz (length raw) B) eqn:EN.
      + assert (HR : (B <= length raw)%nat) by (unfold enough in EN; destruct lz; [apply Nat.ltb_lt in EN|apply Nat.leb_le in EN]; lia).
        destruct (IH (tr st (firstn B raw)) (skipn B raw)) as [I1 I2]. rewrite skipn_length in *. split; [lia|]. intros H. apply I2. lia.
      + split; [auto|]. intros _. exact EN.
  Qed.
  Lemma mac_update_sim lz h s raw : sim h s -> let '(st, block, pos) := s in
    sim (mac_update c lz h raw) (buf_update B lz tr st block pos raw).
  Proof.
    destruct s as [[st block] pos]. intros (S1 & S2 & S3 & S4 & S5). unfold mac_update, buf_update. rewrite S1, S5.
    assert (LF : length (firstn pos block) = pos) by (rewrite firstn_length; lia).
    assert (TAIL : forall st block pos raw, length block = B -> length st = B -> (pos + length raw <= B)%nat ->
      sim (if (0 <? length raw)%nat then mkCm (xor_at (xor_at st 0 (firstn pos block)) pos raw) (pos + length raw) else mkCm (xor_at st 0 (firstn pos block)) pos)
          (if (0 <? length raw)%nat then (st, blit block pos raw, (pos + length raw)%nat) else (st, block, pos))).
    { clear. intros st block pos raw L1 L2 L3. destruct (Nat.ltb_spec 0 (length raw)) as [H|H].
      - unfold sim. cbn [cm_pos cm_mac]. split; [auto|]. split; [rewrite blit_length; lia|]. split; [auto|]. split; [auto|].
        rewrite blit_prefix by lia. assert (LF : length (firstn pos block) = pos) by (rewrite firstn_length; lia).
        apply xor_at_pos; lia.
      - unfold sim. cbn [cm_pos cm_mac]. split; [auto|]. split; [auto|]. split; [auto|]. split; [lia|]. reflexivity. }
    destruct (enough lz (length raw) (B - pos)) eqn:EN.
    - assert (HR : (B - pos <= length raw)%nat) by (unfold enough in EN; destruct lz; [apply Nat.ltb_lt in EN|apply Nat.leb_le in EN]; lia).
      destruct (Nat.ltb_spec 0 pos) as [HP|HP].
      + rewrite (xor_at_pos st (firstn pos block) pos) by (rewrite ?firstn_length; lia).
        rewrite xor_at_full by (rewrite app_length, LF, firstn_length; lia).
        rewrite (blit_full block pos) by (rewrite firstn_length; lia).
        fold (tr st (firstn pos block ++ firstn (B - pos) raw)).
        set (st2 := tr st (firstn pos block ++ firstn (B - pos) raw)). set (b2 := firstn pos block ++ firstn (B - pos) raw).
        assert (LS : length st2 = B).
        { unfold st2, tr. apply (bc_elen _ _ _ Hc). rewrite xorl_length, app_length, LF, firstn_length. lia. }
        assert (LB : length b2 = B) by (unfold b2; rewrite app_length, LF, firstn_length; lia).
        destruct (absorb_sim lz (length (skipn (B - pos) raw)) st2 (skipn (B - pos) raw) LS) as [A1 A2]. rewrite A1.
        pose proof (absorb_len lz (length (skipn (B - pos) raw)) st2 (skipn (B - pos) raw)) as [_ A4]. specialize (A4 (le_n _)).
        destruct (absorb B lz tr (length (skipn (B - pos) raw)) st2 (skipn (B - pos) raw)) as [st3 raw3]. cbn [fst snd] in *.
        rewrite <- (xor_at_nil st3) at 1 2. change (@nil Z) with (firstn 0 b2). apply TAIL; auto.
        unfold enough in A4. destruct lz; [apply Nat.ltb_ge in A4|apply Nat.leb_gt in A4]; lia.
      + clear S1. assert (pos = 0%nat) by lia. subst pos. cbn [firstn]. rewrite xor_at_nil.
        destruct (absorb_sim lz (length raw) st raw S3) as [A1 A2]. rewrite A1.
        pose proof (absorb_len lz (length raw) st raw) as [_ A4]. specialize (A4 (le_n _)).
        destruct (absorb B lz tr (length raw) st raw) as [st3 raw3]. cbn [fst snd] in *.
        rewrite <- (xor_at_nil st3) at 1 2. change (@nil Z) with (firstn 0 block). apply TAIL; auto.
        unfold enough in A4. destruct lz; [apply Nat.ltb_ge in A4|apply Nat.leb_gt in A4]; lia.
    - apply TAIL; auto. unfold enough in EN. destruct lz; [apply Nat.ltb_ge in EN|apply Nat.leb_gt in EN]; lia.
  Qed.

  (* h has absorbed m from the zero state *)
  Definition absorbed (lz : bool) (m : list Z) (h : cmac) : Prop :=
    exists s, sim h s /\ rep B tr lz (repeat 0 B) m s.
  Lemma absorbed_update lz m h raw : absorbed lz m h -> absorbed lz (m ++ raw) (mac_update c lz h raw).
  Proof.
    intros ([[st block] pos] & S1 & S2). eexists. split; [apply (mac_update_sim lz h (st, block, pos)); auto|].
    apply update_rep; auto.
  Qed.
  Lemma absorbed_updates lz chunks : forall m h, absorbed lz m h -> absorbed lz (m ++ concat chunks) (fold_left (mac_update c lz) chunks h).
  Proof.
    induction chunks as [|x t IH]; intros m h H; cbn [fold_left concat]; [rewrite app_nil_r; auto|].
    rewrite app_assoc. apply IH, absorbed_update, H.
  Qed.
  Lemma absorbed_init lz : absorbed lz [] (mkCm (repeat 0 B) 0).
  Proof.
    exists (repeat 0 B, repeat 0 B, 0%nat). split; [|apply rep_init; auto; apply repeat_length].
    unfold sim. cbn [cm_pos cm_mac firstn]. rewrite repeat_length, xor_at_nil. repeat split; auto. lia.
  Qed.

  (* ---- CBC-MAC ---- *)
  Lemma cbc_mac_run m : cbc_mac B E (blocks B m) = run B tr (repeat 0 B) m.
  Proof. reflexivity. Qed.
  Lemma absorbed_pad m h : B = 16%nat -> absorbed false m h -> absorbed false (padded m) (cbcmac_pad c h) /\ cm_pos (cbcmac_pad c h) = 0%nat.
  Proof.
    intros H16 ([[st block] pos] & (S1 & S2 & S3 & S4 & S5) & S6). unfold cbcmac_pad. rewrite S1.
    destruct (Nat.ltb_spec 0 pos) as [HP|HP].
    - split; [|reflexivity]. rewrite H16 in S6. pose proof (pad_rep tr _ _ _ _ _ S6 HP) as HR.
      exists (tr st (fill block pos 16 0), fill block pos 16 0, 0%nat). split; [|rewrite H16; exact HR].
      assert (LF : length (firstn pos block) = pos) by (rewrite firstn_length; lia).
      assert (HF : fill block pos 16 0 = firstn pos block ++ repeat 0 (16 - pos)).
      { rewrite <- H16, <- S2. apply fill_full. lia. }
      unfold sim. cbn [cm_pos cm_mac firstn]. rewrite xor_at_nil. rewrite S5. rewrite xor_at_0 by lia. rewrite S3, LF, HF, H16.
      split; [auto|]. split; [rewrite app_length, LF, repeat_length; lia|]. split; [|split; [lia|reflexivity]].
      unfold tr. rewrite <- H16. apply (bc_elen _ _ _ Hc). rewrite xorl_length, app_length, LF, repeat_length. lia.
    - assert (P0 : pos = 0%nat) by lia. rewrite P0 in *. split; [|auto].
      destruct (rep_eager B tr HB _ m _ _ _ S6) as [_ [E2 _]].
      unfold padded. rewrite pad16_zero by (rewrite <- H16; auto). rewrite app_nil_r. exists (st, block, 0%nat). split; [|exact S6]. repeat split; auto.
  Qed.
  Lemma cbcmac_final_spec m h : B = 16%nat -> absorbed false m h -> cbcmac_final c h = cbc_mac 16 E (blocks 16 (padded m)).
  Proof.
    intros H16 H. destruct (absorbed_pad m h H16 H) as [([[st block] pos] & (S1 & S2 & S3 & S4 & S5) & S6) HP].
    unfold cbcmac_final. rewrite S5. rewrite HP in S1. subst pos. cbn [firstn]. rewrite xor_at_nil.
    destruct (rep_eager B tr HB _ _ _ _ _ S6) as [E1 _]. rewrite E1. rewrite <- cbc_mac_run, H16. reflexivity.
  Qed.

  (* ---- CMAC ---- *)
  Lemma cmac_shift_dbl k : okb B k -> cmac_shift k = dbl_be B k /\ okb B (dbl_be B k).
  Proof.
    intros [K1 K2]. split; [|split; [apply be_bytes_length|apply be_bytes_bytes]].
    rewrite cmac_shift_spec; auto; [rewrite K1; reflexivity|]. rewrite K1. apply (bc_size _ _ _ Hc).
  Qed.
  Lemma upd_xor_pad (st z : list Z) : (length z < length st)%nat ->
    upd (xor_at st 0 z) (length z) (Z.lxor (rd (xor_at st 0 z) (length z)) 0x80) = xorl st (z ++ 0x80 :: repeat 0 (length st - 1 - length z)).
  Proof.
    intros H. transitivity (xor_at (xor_at st 0 z) (length z) [0x80]).
    - assert (HL : length (xor_at st 0 z) = length st) by (apply xor_at_length; cbn; lia).
      revert HL. generalize (xor_at st 0 z). intros l HL. rewrite xor_at_eq. cbn [length].
      apply (list_eq_nth 0).
      + rewrite upd_length, blit_length; [reflexivity|]. rewrite xorl_length, firstn_length, skipn_length. cbn [length]. lia.
      + intros i Hi. rewrite upd_length in Hi. unfold blit.
        assert (HS : firstn 1 (skipn (length z) l) = [rd l (length z)]).
        { apply (list_eq_nth 0); [rewrite firstn_length, skipn_length; cbn [length]; lia|]. intros j Hj. rewrite firstn_length, skipn_length in Hj.
          assert (j = 0%nat) by lia. subst j. rewrite nth_firstn by lia. rewrite nth_skipn. cbn [nth]. unfold rd. f_equal. lia. }
        rewrite HS. unfold xorl. cbn [map2 length app].
        destruct (Nat.eq_dec i (length z)) as [->|HN].
        * rewrite nth_upd_same by lia. rewrite app_nth2 by (rewrite firstn_length; lia). rewrite firstn_length, Nat.min_l by lia. rewrite Nat.sub_diag. reflexivity.
        * rewrite nth_upd_other by auto. destruct (Nat.lt_ge_cases i (length z)).
          -- rewrite app_nth1 by (rewrite firstn_length; lia). rewrite nth_firstn by lia. reflexivity.
          -- rewrite app_nth2 by (rewrite firstn_length; lia). rewrite firstn_length, Nat.min_l by lia.
             replace (i - length z)%nat with (S (i - length z - 1)) by lia. cbn [nth]. rewrite nth_skipn. f_equal. lia.
    - rewrite xor_at_app by (cbn [length]; lia). rewrite xor_at_0 by (rewrite app_length; cbn [length]; lia). rewrite <- app_assoc. cbn [app].
      rewrite app_length. cbn [length]. do 3 f_equal. f_equal. lia.
  Qed.
  Lemma cmac_final_spec m h : absorbed true m h -> cmac_final c h = cmac_spec B E m.
  Proof.
    intros ([[st block] pos] & (S1 & S2 & S3 & S4 & S5) & S6).
    destruct (rep_lazy B tr HB _ _ _ _ _ S6) as (E1 & E2 & _ & E4 & _).
    unfold cmac_final, cmac_spec. change (keep B m) with (cut B m) in *. rewrite S1, S5, E4. set (z := skipn (cut B m) m) in *.
    assert (HZ : okb B (E (repeat 0 B))).
    { apply E_ok; auto. split; [apply repeat_length|apply bytes_repeat; unfold byte; lia]. }
    destruct (cmac_shift_dbl _ HZ) as [K1 K1ok]. destruct (cmac_shift_dbl _ K1ok) as [K2 K2ok]. rewrite K1. fold (cmac_k1 B E).
    assert (R : forall y, cbc_mac B E (blocks B (firstn (cut B m) m) ++ [y]) = E (xorl st y)).
    { intros y. unfold cbc_mac. rewrite fold_left_app. cbn [fold_left].
      change (fold_left (fun c0 b : list Z => E (xorl c0 b)) (blocks B (firstn (cut B m) m)) (repeat 0 B)) with (run B tr (repeat 0 B) (firstn (cut B m) m)).
      rewrite <- E1. reflexivity. }
    rewrite R. rewrite <- E2. destruct (Nat.ltb_spec pos B) as [HP|HP].
    - replace (pos =? B)%nat with false by (symmetry; apply Nat.eqb_neq; lia).
      rewrite E2 at 1 2. rewrite upd_xor_pad by lia. rewrite memxor_xorl. change (cmac_k1 B E) with (dbl_be B (E (repeat 0 B))).
      rewrite K2. rewrite S3, <- E2. rewrite xorl_assoc. reflexivity.
    - replace (pos =? B)%nat with true by (symmetry; apply Nat.eqb_eq; lia).
      rewrite memxor_xorl. rewrite xor_at_full by lia. rewrite xorl_assoc. reflexivity.
  Qed.
  (* a flagged context starts with the block 0...0 t pending *)
  Lemma absorbed_flag t : byte t -> absorbed true (repeat 0 (B - 1) ++ [t]) (cmac_init c (Some t)).
  Proof.
    intros Ht. set (b := repeat 0 (B - 1) ++ [t]).
    assert (Lb : length b = B) by (unfold b; rewrite app_length, repeat_length; cbn [length]; lia).
    exists (repeat 0 B, b, B). split.
    - unfold sim, cmac_init. cbn [cm_pos cm_mac]. split; [auto|]. split; [auto|]. split; [apply repeat_length|]. split; [auto|].
      rewrite firstn_all2 by lia. rewrite xor_at_full by (rewrite repeat_length; auto).
      assert (HT : Z.land t 255 = t) by (change 255 with (Z.ones 8); rewrite Z.land_ones by lia; apply Z.mod_small; exact Ht).
      rewrite HT.
      apply (list_eq_nth 0); [rewrite upd_length, xorl_length, !repeat_length; lia|].
      intros i Hi. rewrite upd_length, repeat_length in Hi.
      assert (HR : forall j, nth j (repeat 0 B) 0 = 0) by (intros j; apply nth_repeat).
      rewrite <- memxor_xorl, memxor_nth by (rewrite ?repeat_length; lia). rewrite HR, Z.lxor_0_l.
      destruct (Nat.eq_dec i (B - 1)) as [->|HN].
      + rewrite nth_upd_same by (rewrite repeat_length; lia). unfold rd. rewrite HR, Z.lxor_0_l. unfold b.
        rewrite app_nth2 by (rewrite repeat_length; lia). rewrite repeat_length, Nat.sub_diag. reflexivity.
      + rewrite nth_upd_other by auto. rewrite HR. unfold b. rewrite app_nth1 by (rewrite repeat_length; lia). symmetry. apply nth_repeat.
    - exists 0%nat, [], b. split; [reflexivity|]. split; [reflexivity|]. split; [rewrite run_short by (cbn; lia); reflexivity|].
      split; [auto|]. split; [auto|]. split; [apply firstn_all2; lia|]. split; [lia|]. congruence.
  Qed.
  Lemma omac_spec t chunks : byte t -> cmac_final c (fold_left (cmac_update c) chunks (cmac_init c (Some t))) = omac B E t (concat chunks).
  Proof.
    intros Ht. unfold omac. rewrite app_assoc. apply cmac_final_spec. apply absorbed_updates. apply absorbed_flag. auto.
  Qed.
End Mac.
