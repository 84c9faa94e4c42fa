(* cipher_stream_t: chunking, sizes *)
From Verif.Base Require Import Prelude.
From Verif.Model Require Import Bio Util Block Encoding Modes CipherStream.
From Verif.Spec Require Import BlockSpec StreamSpec ModesSpec.
From Verif.Proof Require Import UtilProof BioProof BufCrypt BlockProof Pkcs7Proof BlockModes GfShift XtsProof.
#[local] Ltac Zify.zify_post_hook ::= idtac.

Fixpoint seqm {M} (g : M -> list Z -> list Z * M) (m : M) (bs : list (list Z)) : list (list Z) * M :=
  match bs with
  | [] => ([], m)
  | b :: t => let '(o, m1) := g m b in let '(os, m2) := seqm g m1 t in (o :: os, m2)
  end.
Lemma seqm_app {M} (g : M -> list Z -> list Z * M) a b : forall m,
  seqm g m (a ++ b) = (fst (seqm g m a) ++ fst (seqm g (snd (seqm g m a)) b), snd (seqm g (snd (seqm g m a)) b)).
Proof.
  induction a as [|x a IH]; intros m; cbn [app seqm fst snd]; [destruct (seqm g m b); reflexivity|].
  destruct (g m x) as [o m1]. rewrite IH. destruct (seqm g m1 a) as [os m2]. cbn [fst snd]. destruct (seqm g m2 b). reflexivity.
Qed.
Lemma seqm_length {M} (g : M -> list Z -> list Z * M) bs : forall m, length (fst (seqm g m bs)) = length bs.
Proof. induction bs as [|b t IH]; intros m; cbn [seqm]; [reflexivity|]. destruct (g m b) as [o m1]. specialize (IH m1). destruct (seqm g m1 t). cbn [fst length] in *. lia. Qed.

Lemma align_down_spec c n : cipher_ok c -> align_down (c_size c) n = (n / c_size c * c_size c)%nat.
Proof.
  intros Hc. unfold align_down.
  assert (H : exists k, 0 <= k /\ Z.of_nat (c_size c) = 2 ^ k) by (destruct (bc_size _ _ _ Hc) as [E|E]; rewrite E; [exists 3|exists 4]; split; reflexivity || lia).
  destruct H as (k & Hk & E). rewrite E.
  replace (- 2 ^ k) with (Z.lnot (Z.ones k)) by (rewrite Z.ones_equiv; unfold Z.lnot; lia).
  rewrite <- Z.ldiff_land, Z.ldiff_ones_r by auto. rewrite Z.shiftr_div_pow2, Z.shiftl_mul_pow2 by auto. rewrite <- E.
  rewrite <- Nat2Z.inj_div, <- Nat2Z.inj_mul. apply Nat2Z.id.
Qed.

Section Blk.
  Variable c : cipher.
  Hypothesis Hc : cipher_ok c.
  Variable type : mode_id.
  Variable enc : bool.
  Variable g : mstate -> list Z -> list Z * mstate.
  Variable I : mstate -> Prop.
  Notation B := (c_size c).
  Let HB : (0 < B)%nat := B_pos c Hc.
  Definition crypt (m : mstate) (src : list Z) : outcome (list Z * mstate) :=
    if enc then cipher_mode_encrypt c type m src else cipher_mode_decrypt c type m src.
  Hypothesis Hns : is_stream type = false.
  Hypothesis HI : forall m b, I m -> okb B b -> okb B (fst (g m b)) /\ I (snd (g m b)).
  Hypothesis Hcrypt : forall m bs, I m -> Forall (okb B) bs -> crypt m (concat bs) = Ok (concat (fst (seqm g m bs)), snd (seqm g m bs)).

  Lemma seqm_ok bs : forall m, I m -> Forall (okb B) bs -> Forall (okb B) (fst (seqm g m bs)) /\ I (snd (seqm g m bs)).
  Proof.
    induction bs as [|b t IH]; intros m Hm HF; cbn [seqm]; [auto|]. inversion HF; subst.
    destruct (HI m b Hm H1) as [A1 A2]. destruct (g m b) as [o m1]. cbn [fst snd] in *. destruct (IH m1 A2 H2) as [A3 A4].
    destruct (seqm g m1 t). cbn [fst snd] in *. split; [constructor; auto|auto].
  Qed.

  Definition outs (m0 : mstate) (hist : list Z) : list (list Z) := fst (seqm g m0 (blocks B hist)).
  Record srep (m0 : mstate) (pd up : bool) (hist out : list Z) (s : cstream) : Prop := {
    sr_enc : s_encrypt s = enc;
    sr_cipher : s_cipher s = c;
    sr_type : s_type s = type;
    sr_pd : s_padding s = pd;
    sr_up : s_unpad s = up;
    sr_mode : s_mode s = snd (seqm g m0 (blocks B hist));
    sr_blen : length (s_block s) = B;
    sr_pos : s_pos s = length (leftover B hist);
    sr_blk : firstn (s_pos s) (s_block s) = leftover B hist;
    sr_out : if up then out = concat (removelast (outs m0 hist)) /\ s_lsize s = (if (length hist <? B)%nat then 0%nat else B) /\
               ((B <= length hist)%nat -> s_last s = last (outs m0 hist) [])
             else out = concat (outs m0 hist) }.

  Lemma tail_step m out inp : I m -> bytes inp ->
    (if (B <=? length inp)%nat then
       match crypt m (firstn (align_down B (length inp)) inp) with
       | Ok (o, m) => Ok (out ++ o, m, skipn (align_down B (length inp)) inp)
       | Fail => Fail | Abort => Abort end
     else Ok (out, m, inp)) =
    Ok (out ++ concat (fst (seqm g m (blocks B inp))), snd (seqm g m (blocks B inp)), leftover B inp).
  Proof.
    intros Hm Hb. destruct (Nat.leb_spec B (length inp)) as [HL|HL].
    - rewrite align_down_spec by auto. destruct (blocks_leftover B inp HB) as (x & X1 & X2 & X3).
      assert (EX : firstn (length inp / B * B) inp = concat (blocks B inp)).
      { transitivity x; [|rewrite <- X3; symmetry; apply (concat_blocks B (length inp / B)); auto]. rewrite X1 at 2. apply firstn_app_exact. auto. }
      rewrite EX. rewrite Hcrypt by (auto; apply blocks_okb; auto). reflexivity.
    - rewrite (blocks_nil B inp) by auto. cbn [seqm fst snd concat]. rewrite app_nil_r. unfold leftover. rewrite Nat.div_small by auto. reflexivity.
  Qed.
  Lemma split_hist hist inp :
    blocks B (hist ++ inp) = blocks B hist ++ blocks B (leftover B hist ++ inp) /\ leftover B (hist ++ inp) = leftover B (leftover B hist ++ inp).
  Proof.
    destruct (blocks_leftover B hist HB) as (x & X1 & X2 & X3).
    split.
    - rewrite X1 at 1. rewrite <- app_assoc. rewrite (blocks_app B (length hist / B)) by auto. rewrite X3. reflexivity.
    - rewrite X1 at 1. rewrite <- app_assoc. apply (leftover_app B (length hist / B)); auto.
  Qed.
  Lemma removelast_concat (os : list (list Z)) : os <> [] -> Forall (fun b : list Z => length b = B) os ->
    firstn (length (concat os) - B) (concat os) = concat (removelast os) /\ skipn (length (concat os) - B) (concat os) = last os [].
  Proof.
    intros Hn HF. rewrite (app_removelast_last [] Hn) at 1 2 4 5. rewrite concat_app. cbn [concat]. rewrite app_nil_r.
    assert (HLst : length (last os []) = B).
    { rewrite (app_removelast_last [] Hn) in HF. apply Forall_app in HF. destruct HF as [_ HF]. inversion HF; auto. }
    rewrite app_length, HLst. rewrite Nat.add_sub. rewrite firstn_app_exact, skipn_app_exact by auto. auto.
  Qed.

  Lemma update_srep m0 pd up hist out s inp : I m0 -> bytes hist -> bytes inp -> srep m0 pd up hist out s ->
    exists w n s', cipher_stream_update s inp = Ok (w, n, s') /\ srep m0 pd up (hist ++ inp) (out ++ firstn n w) s' /\
      cipher_stream_update_size s (length inp) = Ok (length w) /\
      n = (if up then length w - B else length w)%nat /\ s_tag s' = s_tag s /\ (length w mod B = 0)%nat /\ (n <= length w)%nat /\ (w = [] \/ B <= length w)%nat.
  Proof.
    intros Hm Hh Hi R. destruct R as [R1 R2 R3 R4 R5 R6 R7 R8 R9 R10].
    destruct (split_hist hist inp) as [SB SL].
    pose proof (leftover_length B hist HB) as LL. pose proof (Nat.mod_upper_bound (length hist) B ltac:(lia)) as LM.
    set (L := leftover B hist) in *.
    assert (HbL : bytes L) by (unfold L, leftover; apply bytes_skipn; auto).
    assert (Hbh := blocks_okb B hist HB Hh). destruct (seqm_ok _ m0 Hm Hbh) as [O1 O2].
    assert (Henc : forall m x, encipher s m x = crypt m x) by (intros; unfold encipher, crypt; rewrite R1, R2, R3; reflexivity).
    unfold cipher_stream_update, cipher_stream_update_size, s_bsize. rewrite R3, Hns, R2, R8.
    destruct (Nat.ltb_spec (length L + length inp) B) as [HS|HS].
    - eexists [], 0%nat, _. split; [reflexivity|].
      assert (EB : blocks B (L ++ inp) = []) by (apply blocks_nil; rewrite app_length; lia).
      assert (EL : leftover B (L ++ inp) = L ++ inp) by (unfold leftover; rewrite Nat.div_small by (rewrite app_length; lia); reflexivity).
      assert (EBlk : (if (0 <? length inp)%nat then blit (s_block s) (length L) inp else s_block s) = blit (s_block s) (length L) inp).
      { destruct inp; [|reflexivity]. cbn [length Nat.ltb Nat.leb]. unfold blit. cbn [app length]. rewrite Nat.add_0_r, firstn_skipn. reflexivity. }
      rewrite EBlk. rewrite EB, app_nil_r in SB. split.
      + split; cbn [s_encrypt s_cipher s_type s_padding s_unpad s_mode s_block s_pos s_last s_lsize]; auto.
        * rewrite SB. auto.
        * rewrite blit_length by lia. auto.
        * rewrite SL, EL, app_length. reflexivity.
        * rewrite blit_prefix by lia. rewrite SL, EL. rewrite <- R8, R9. reflexivity.
        * unfold outs in *. rewrite SB. cbn [firstn]. rewrite app_nil_r. destruct up; [|auto]. destruct R10 as (Q1 & Q2 & Q3). split; [auto|].
          assert (EQ : (length (hist ++ inp) <? B)%nat = (length hist <? B)%nat /\ ((B <= length (hist ++ inp))%nat -> (B <= length hist)%nat)).
          { rewrite app_length. pose proof (Nat.div_mod (length hist) B ltac:(lia)) as DM. fold L in LL. 
            destruct (Nat.ltb_spec (length hist) B) as [HH|HH].
            - rewrite Nat.mod_small in LL by auto. destruct (Nat.ltb_spec (length hist + length inp) B); [split; [reflexivity|lia]|lia].
            - destruct (Nat.ltb_spec (length hist + length inp) B); [lia|split; [reflexivity|lia]]. }
          destruct EQ as [EQ1 EQ2]. rewrite EQ1. split; [auto|]. intros. apply Q3. auto.
      + split; [reflexivity|]. split; [destruct up; reflexivity|]. cbn [s_tag length]. split; [reflexivity|]. split; [apply Nat.mod_0_l; lia|]. split; [lia|auto].
    - set (x := L ++ inp) in *. assert (HX : (B <= length x)%nat) by (unfold x; rewrite app_length; lia). assert (Hbx : bytes x) by (apply bytes_app; auto).
      rewrite R5.
      set (pre := if up then firstn (s_lsize s) (s_last s) else []).
      set (m1 := snd (seqm g m0 (blocks B hist))) in *.
      (* the two encipher calls together process blocks B x *)
      set (new := fst (seqm g m1 (blocks B x))).
      assert (Hbxb := blocks_okb B x HB Hbx). destruct (seqm_ok _ m1 O2 Hbxb) as [N1 N2]. fold new in N1.
      assert (Hne : new <> []).
      { unfold new. intros HE. apply (f_equal (@length _)) in HE. rewrite seqm_length, blocks_length in HE. cbn [length] in HE.
        pose proof (Nat.div_le_mono B (length x) B ltac:(lia) HX) as HD. rewrite Nat.div_same in HD by lia. lia. }
      assert (STEP : exists block pos,
        match
          (if (0 <? length L)%nat then
            match encipher s (s_mode s) (blit (s_block s) (length L) (firstn (B - length L) inp)) with
            | Ok (o, m) => Ok (pre ++ o, blit (s_block s) (length L) (firstn (B - length L) inp), 0%nat, m, skipn (B - length L) inp)
            | Fail => Fail | Abort => Abort end
           else Ok (pre, s_block s, length L, s_mode s, inp))
        with
        | Ok (out, block, pos, m, input) =>
          match
            (if (B <=? length input)%nat then
              match encipher s m (firstn (align_down B (length input)) input) with
              | Ok (o, m) => Ok (out ++ o, m, skipn (align_down B (length input)) input)
              | Fail => Fail | Abort => Abort end
            else Ok (out, m, input))
          with
          | Ok (out, m, input) => Ok (out, block, pos, m, input)
          | Fail => Fail | Abort => Abort end
        | Fail => Fail | Abort => Abort end
        = Ok (pre ++ concat new, block, pos, snd (seqm g m1 (blocks B x)), leftover B x) /\ length block = B /\ pos = 0%nat).
      { destruct (Nat.ltb_spec 0 (length L)) as [HP|HP].
        - assert (EBK : blit (s_block s) (length L) (firstn (B - length L) inp) = firstn B x).
          { rewrite blit_full by (rewrite firstn_length; lia). rewrite <- R8 at 1. rewrite R9. unfold x. rewrite firstn_app. rewrite (firstn_all2 (n := B) L) by lia. reflexivity. }
          rewrite EBK. assert (ESK : skipn (B - length L) inp = skipn B x) by (unfold x; rewrite skipn_app, (skipn_all2 (n := B) L) by lia; reflexivity).
          rewrite ESK. assert (OK1 : okb B (firstn B x)) by (split; [rewrite firstn_length; lia|apply bytes_firstn; auto]).
          rewrite Henc. pose proof (Hcrypt m1 [firstn B x] O2 ltac:(constructor; auto)) as HC1. cbn [concat] in HC1. rewrite app_nil_r in HC1.
          rewrite R6. rewrite HC1. destruct (HI m1 _ O2 OK1) as [G1 G2]. cbn [seqm]. destruct (g m1 (firstn B x)) as [o m2] eqn:EG. cbn [fst snd] in *.
          cbn [concat]. rewrite app_nil_r.
          setoid_rewrite Henc. rewrite tail_step by (auto; apply bytes_skipn; auto). exists (firstn B x), 0%nat. split; [|split; [rewrite firstn_length; lia|reflexivity]].
          unfold new. rewrite (blocks_cons B x HB HX). cbn [seqm]. rewrite EG. destruct (seqm g m2 (blocks B (skipn B x))) as [os m3]. cbn [fst snd concat].
          rewrite <- app_assoc.
          assert (ELX : leftover B x = leftover B (skipn B x)).
          { transitivity (leftover B (firstn B x ++ skipn B x)); [rewrite firstn_skipn; reflexivity|]. apply (leftover_app B 1); [auto|]. rewrite firstn_length. lia. }
          rewrite ELX. reflexivity.
        - assert (EL0 : L = []) by (destruct L; [auto|cbn [length] in HP; lia]). unfold x in *. rewrite EL0 in *. cbn [app length] in *.
          rewrite R6. setoid_rewrite Henc. rewrite tail_step by auto. exists (s_block s), 0%nat. split; [|auto]. unfold new. rewrite EL0. reflexivity. }
      destruct STEP as (block & pos & STEP & BL & P0). 
      set (fin := fun (t : list Z * list Z * nat * mstate * list Z) => let '(out, block, pos, m, input) := t in
        let '(block, pos) := if (0 <? length input)%nat then (blit block 0 input, length input) else (block, pos) in
        if (length out <? B)%nat then Abort else
        if up then
          Ok (out, (length out - B)%nat,
            mkS (s_encrypt s) (s_padding s) up block pos (skipn (length out - B) out) B (s_tag s) (s_ccm_len s) c type m)
        else
          Ok (out, length out,
            mkS (s_encrypt s) (s_padding s) up block pos (s_last s) (s_lsize s) (s_tag s) (s_ccm_len s) c type m)).
      match goal with |- exists w n s', ?X = _ /\ _ => assert (EQ : X = fin (pre ++ concat new, block, pos, snd (seqm g m1 (blocks B x)), leftover B x)) end.
      { match type of STEP with ?Y = _ => assert (EQ : forall r, Y = Ok r -> match Y with Ok r => fin r | Fail => Fail | Abort => Abort end = fin r) by (intros r ->; reflexivity) end.
        rewrite <- (EQ _ STEP). clear. fold pre. 
        match goal with |- match ?X with _ => _ end = _ => destruct X as [[[[[out block] pos] m] input]| |] end; try reflexivity.
        match goal with |- match ?X with _ => _ end = _ => destruct X as [[[out' m'] input']| |] end; reflexivity. }
      rewrite EQ. clear EQ STEP. subst pos. cbn [fin].
      pose proof (concat_length_exact B new (okb_len _ _ N1)) as LN.
      assert (Ln : (1 <= length new)%nat) by (destruct new; [congruence|cbn [length]; lia]).
      assert (EBP : exists block', (if (0 <? length (leftover B x))%nat then (blit block 0 (leftover B x), length (leftover B x)) else (block, 0%nat)) = (block', length (leftover B x)) /\
        length block' = B /\ firstn (length (leftover B x)) block' = leftover B x).
      { pose proof (leftover_length B x HB) as LX. pose proof (Nat.mod_upper_bound (length x) B ltac:(lia)).
        destruct (Nat.ltb_spec 0 (length (leftover B x))).
        - eexists. split; [reflexivity|]. split; [rewrite blit_length; lia|]. pose proof (blit_prefix block 0 (leftover B x) ltac:(lia)) as BP. exact BP.
        - destruct (leftover B x); [|cbn [length] in *; lia]. eexists. split; [reflexivity|]. auto. }
      destruct EBP as (block' & EBP1 & EBP2 & EBP3). rewrite EBP1.
      destruct (Nat.ltb_spec (length (pre ++ concat new)) B) as [HLT|HLT]; [rewrite app_length in HLT; nia|].
      assert (HHL : (length (hist ++ inp) <? B)%nat = false) by (apply Nat.ltb_ge; rewrite app_length; unfold x in HX; rewrite app_length in HX; assert (length L <= length hist)%nat by (rewrite LL; apply Nat.mod_le; lia); lia).
      assert (EOUT : outs m0 (hist ++ inp) = outs m0 hist ++ new).
      { unfold outs. rewrite SB. rewrite seqm_app. reflexivity. }
      assert (EMODE : snd (seqm g m0 (blocks B (hist ++ inp))) = snd (seqm g m1 (blocks B x))) by (rewrite SB, seqm_app; reflexivity).
      destruct (removelast_concat new Hne (okb_len _ _ N1)) as [RC1 RC2].
      assert (SIZE : forall pl, length pre = pl -> (let '(input_len, out0) := if (0 <? length L)%nat then ((length inp - (B - length L))%nat, (pl + B)%nat) else (length inp, pl) in
         if ((if (B <=? input_len)%nat then out0 + align_down B input_len else out0) <? B)%nat then Abort else Ok (if (B <=? input_len)%nat then (out0 + align_down B input_len)%nat else out0)) = Ok (length (pre ++ concat new))).
      { intros pl Hpl. rewrite app_length, Hpl, LN. unfold new. rewrite seqm_length, blocks_length.
        assert (LX : length x = (length L + length inp)%nat) by (unfold x; apply app_length).
        assert (AD : forall n, (if (B <=? n)%nat then align_down B n else 0%nat) = (n / B * B)%nat).
        { intros n. rewrite align_down_spec by auto. destruct (Nat.leb_spec B n); [reflexivity|]. rewrite Nat.div_small by lia. reflexivity. }
        assert (AD2 : forall n o, (if (B <=? n)%nat then (o + align_down B n)%nat else o) = (o + n / B * B)%nat).
        { intros n o. rewrite <- AD. destruct (B <=? n)%nat; lia. }
        destruct (Nat.ltb_spec 0 (length L)); rewrite !AD2.
        - assert (ED : (length x / B = S ((length inp - (B - length L)) / B))%nat).
          { replace (length x) with ((length inp - (B - length L)) + 1 * B)%nat by lia. rewrite Nat.div_add by lia. lia. }
          rewrite ED. destruct (Nat.ltb_spec (pl + B + (length inp - (B - length L)) / B * B) B) as [HQ|HQ]; [exfalso; revert HQ; generalize ((length inp - (B - length L)) / B)%nat; intros; nia|]. f_equal. ring.
        - assert (ED : length x = length inp) by lia. rewrite ED.
          assert (1 <= length inp / B)%nat by (rewrite <- (Nat.div_same B) by lia; apply Nat.div_le_mono; lia).
          destruct (Nat.ltb_spec (pl + length inp / B * B) B); [nia|]. reflexivity. }
      destruct up.
      + destruct R10 as (Q1 & Q2 & Q3).
        eexists _, _, _. split; [reflexivity|].
        assert (EPRE : concat (removelast (outs m0 hist)) ++ pre = concat (outs m0 hist) /\ length pre = s_lsize s).
        { unfold pre. destruct (Nat.ltb_spec (length hist) B) as [HH|HH]; rewrite Q2.
          - cbn [firstn]. unfold outs. rewrite (blocks_nil B hist) by auto. auto.
          - rewrite Q3 by lia. assert (ON : outs m0 hist <> []).
            { unfold outs. intros HE. apply (f_equal (@length _)) in HE. rewrite seqm_length, blocks_length in HE. cbn [length] in HE.
              pose proof (Nat.div_le_mono B (length hist) B ltac:(lia) HH) as HD. rewrite Nat.div_same in HD by lia. lia. }
            assert (LL0 : length (last (outs m0 hist) []) = B).
            { assert (HF : Forall (fun b : list Z => length b = B) (outs m0 hist)) by (apply okb_len; auto). rewrite (app_removelast_last [] ON) in HF. apply Forall_app in HF. destruct HF as [_ HF]. inversion HF; auto. }
            rewrite firstn_all2 by lia. split; [|auto]. rewrite (app_removelast_last [] ON) at 3. rewrite concat_app. cbn [concat]. rewrite app_nil_r. reflexivity. }
        destruct EPRE as [EPRE LPRE].
        assert (FW : firstn (length (pre ++ concat new) - B) (pre ++ concat new) = pre ++ concat (removelast new)).
        { rewrite firstn_app. rewrite firstn_all2 by (rewrite app_length; nia). f_equal. rewrite <- RC1. f_equal. rewrite app_length. nia. }
        assert (SW : skipn (length (pre ++ concat new) - B) (pre ++ concat new) = last new []).
        { rewrite skipn_app. rewrite skipn_all2 by (rewrite app_length; nia). cbn [app]. rewrite <- RC2. f_equal. rewrite app_length. nia. }
        split; [|split; [|split; [|split; [|split; [|split]]]]].
        * split; cbn [s_encrypt s_cipher s_type s_padding s_unpad s_mode s_block s_pos s_last s_lsize]; auto; try (rewrite SL; auto); try (rewrite EMODE; reflexivity).
          rewrite HHL, FW, SW, EOUT. split; [|split; [auto|]].
          -- rewrite removelast_app by auto. rewrite concat_app, <- EPRE, Q1, <- app_assoc. reflexivity.
          -- intros _. symmetry. rewrite (app_removelast_last [] Hne) at 1. rewrite app_assoc. apply last_last.
        * apply SIZE. auto.
        * reflexivity.
        * reflexivity.
        * rewrite app_length, LPRE, LN, Q2. destruct (length hist <? B)%nat; [rewrite Nat.add_0_l|rewrite <- (Nat.mul_1_l B) at 1; rewrite <- Nat.mul_add_distr_r]; apply Nat.mod_mul; lia.
        * lia.
        * right. lia.
      + eexists _, _, _. split; [reflexivity|]. split; [|split; [|split; [|split; [|split; [|split]]]]].
        * split; cbn [s_encrypt s_cipher s_type s_padding s_unpad s_mode s_block s_pos s_last s_lsize]; auto; try (rewrite SL; auto); try (rewrite EMODE; reflexivity).
          rewrite firstn_all. rewrite EOUT, concat_app, R10. reflexivity.
        * apply (SIZE 0%nat). reflexivity.
        * reflexivity.
        * reflexivity.
        * unfold pre. cbn [app]. rewrite LN. apply Nat.mod_mul. lia.
        * lia.
        * right. lia.
  Qed.
End Blk.
