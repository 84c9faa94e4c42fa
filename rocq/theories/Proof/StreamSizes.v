(* cipher_stream_t: the final call depends on the absorbed input only, and its sizes *)
From Verif.Base Require Import Prelude.
From Verif.Model Require Import Bio Util Block Encoding Modes CipherStream.
From Verif.Spec Require Import BlockSpec StreamSpec ModesSpec StreamApiSpec.
From Verif.Proof Require Import UtilProof BioProof BufCrypt BlockProof Pkcs7Proof BlockModes GfShift XtsProof StreamApi StreamBlock.
#[local] Ltac Zify.zify_post_hook ::= idtac.

Section Sz.
  Variable c : cipher.
  Hypothesis Hc : cipher_ok c.
  Notation B := (c_size c).
  Notation E := (c_enc c).
  Notation D := (c_dec c).
  Let HB : (0 < B)%nat := B_pos c Hc.
  Notation srp type enc := (srep c type enc (gstep c type enc)).

  Lemma elen b : length b = B -> length (E b) = B. Proof. apply (bc_elen _ _ _ Hc). Qed.
  Lemma dlen b : length b = B -> length (D b) = B. Proof. apply (bc_dlen _ _ _ Hc). Qed.
  Lemma mx_len a b : length (torsion_memxor a b) = Nat.min (length a) (length b).
  Proof. rewrite memxor_xorl, xorl_length. reflexivity. Qed.
  Lemma mx3_len a b : length (torsion_memxor3 a b) = Nat.min (length a) (length b).
  Proof. rewrite memxor3_xorl, xorl_length. reflexivity. Qed.

  Definition MLen (type : mode_id) (m : mstate) : Prop :=
    match type, m with
    | CTS, MCbc p => length p = B
    | XTS, MXts (t, p) => length t = B /\ length p = B
    | _, _ => False
    end.
  Lemma steal_det type (enc : bool) m last L : MLen type m -> length last = B -> (length L < B)%nat ->
    exists m' l' x, length l' = B /\ length x = length L /\ forall b, length b = B -> firstn (length L) b = L ->
      exists b', (if enc then cipher_mode_steal else cipher_mode_unsteal) c type m last b (length L) = Ok (m', l', b') /\ firstn (length L) b' = x.
  Proof.
    intros HM HLa HL. assert (HLt : (length L <? B)%nat = true) by (apply Nat.ltb_lt; auto).
    destruct type; try contradiction; destruct m as [|p|[t p]| | | |]; try contradiction; cbn [MLen] in HM.
    - destruct enc.
      + eexists _, _, _. split; [|split]; [| |intros b Hb HbL; cbn [cipher_mode_steal]; unfold cbc_steal; rewrite HLt, HbL; eexists; split; [reflexivity|]].
        * apply elen. rewrite app_length, mx_len, skipn_length, firstn_length. lia.
        * instantiate (1 := firstn (length L) last). rewrite firstn_length. lia.
        * apply firstn_app_exact. rewrite firstn_length. lia.
      + pose proof (dlen p HM) as HD.
        eexists _, _, _. split; [|split]; [| |intros b Hb HbL; cbn [cipher_mode_unsteal]; unfold cbc_unsteal; rewrite HLt, HbL; eexists; split; [reflexivity|]].
        * rewrite mx_len, dlen, mx3_len; [lia|]. rewrite app_length, skipn_length. lia.
        * instantiate (1 := torsion_memxor L (firstn (length L) (D p))). rewrite mx_len, firstn_length. lia.
        * apply firstn_app_exact. rewrite mx_len, firstn_length. lia.
    - destruct HM as [Ht Hp]. destruct (Nat.eqb_spec (length L) 0) as [E0|E0].
      { exists (MXts (t, p)), last, []. split; [auto|]. split; [cbn [length]; lia|]. intros b Hb HbL. exists b.
        rewrite E0. split; [|reflexivity]. destruct enc; reflexivity. }
      assert (E1 : (length L =? 0)%nat = false) by (apply Nat.eqb_neq; auto).
      destruct enc.
      + eexists _, _, _. split; [|split]; [| |intros b Hb HbL; cbn [cipher_mode_steal]; unfold xts_steal, swap_prefix; rewrite HLt, E1, HbL; eexists; split; [reflexivity|]].
        * cbn [fst]. rewrite mx_len, elen; [lia|]. rewrite mx_len, app_length, skipn_length. lia.
        * instantiate (1 := firstn (length L) last). rewrite firstn_length. lia.
        * apply firstn_app_exact. rewrite firstn_length. lia.
      + set (X := torsion_memxor (D (torsion_memxor (torsion_memxor (E (torsion_memxor last p)) p) t)) t).
        assert (HX : length X = B).
        { unfold X. rewrite mx_len, dlen; [lia|]. rewrite !mx_len, elen; [lia|]. rewrite mx_len. lia. }
        eexists _, _, _. split; [|split]; [| |intros b Hb HbL; cbn [cipher_mode_unsteal]; unfold xts_unsteal, swap_prefix; rewrite HLt, E1, HbL; fold X; eexists; split; [reflexivity|]].
        * rewrite mx_len, dlen; [lia|]. rewrite mx_len, app_length, skipn_length. lia.
        * instantiate (1 := firstn (length L) X). rewrite firstn_length. lia.
        * apply firstn_app_exact. rewrite firstn_length. lia.
  Qed.
  Definition Inv2 (type : mode_id) (m : mstate) : Prop :=
    Inv c type m /\ match m with MXts (t, p) => length p = B | _ => True end.
  Lemma inv2_seqm type enc bs : forall m, Inv2 type m -> Forall (okb B) bs -> Inv2 type (snd (seqm (gstep c type enc) m bs)).
  Proof.
    induction bs as [|b t IH]; intros m [H1 H2] HF; cbn [seqm]; [split; auto|]. inversion HF; subst.
    destruct (inv_step c Hc type enc m b H1 H3) as [_ A].
    assert (A2 : match snd (gstep c type enc m b) with MXts (t, p) => length p = B | _ => True end).
    { destruct type; cbn [gstep Inv] in *; try contradiction; try exact H2; destruct m as [|q|[t0 q]| | | |]; try contradiction;
        try (destruct enc; exact I). cbn [snd]. destruct enc; auto. apply H1. }
    destruct (gstep c type enc m b) as [o m1]. cbn [snd] in *. specialize (IH m1 (conj A A2) H4). destruct (seqm (gstep c type enc) m1 t). exact IH.
  Qed.

  (* what final returns, as a function of the absorbed input *)
  Lemma final_obs type enc m0 pd up hist out s1 s2 : is_stream type = false -> Inv2 type m0 -> bytes hist ->
    up = (pd && ((is_pad type && negb enc) || is_cts type)) ->
    srp type enc m0 pd up hist out s1 -> srp type enc m0 pd up hist out s2 ->
    exists (r : Z) (w : list Z) (n : nat) (s1' s2' : cstream), cipher_stream_final s1 = Ok (r, w, n, s1') /\ cipher_stream_final s2 = Ok (r, w, n, s2') /\
      (w = [] \/ length w = cipher_stream_final_size s1) /\ (n <= length w)%nat /\ (r = 0 \/ r = 1) /\
      (enc = true \/ is_pad type = false -> r = 1 -> n = cipher_stream_final_size s1).
  Proof.
    intros Hs HI Hb Hup [P1 P2 P3 P4 P5 P6 P7 P8 P9 P10] [R1 R2 R3 R4 R5 R6 R7 R8 R9 R10].
    pose proof (leftover_length B hist HB) as LL. pose proof (Nat.mod_upper_bound (length hist) B ltac:(lia)) as LM.
    pose proof (blocks_okb B hist HB Hb) as HBk. pose proof (inv2_seqm type enc _ m0 HI HBk) as HI2.
    assert (Hlast : (B <= length hist)%nat -> length (last (outs c (gstep c type enc) m0 hist) []) = B).
    { intros HL. pose proof (outs_ok c Hc type enc m0 hist (proj1 HI) Hb) as HO. pose proof (outs_ne c Hc type enc m0 hist HL) as HN.
      destruct (outs c (gstep c type enc) m0 hist) as [|y t]; [congruence|]. inversion HO; subst. rewrite last_cons. apply (last_ok c); auto. }
    set (m1 := snd (seqm (gstep c type enc) m0 (blocks B hist))) in *. set (L := leftover B hist) in *.
    unfold cipher_stream_final, cipher_stream_final_size, s_bsize. rewrite P3, R3, P4, R4, P1, R1, P2, R2, P6, R6.
    assert (SIMPLE : forall sz, sz = 0%nat -> exists (r : Z) (w : list Z) (n : nat) (s1' s2' : cstream),
      (if negb (s_pos s1 =? 0)%nat then Ok (0, [], 0%nat, s1) else Ok (1, [], 0%nat, s1)) = Ok (r, w, n, s1') /\
      (if negb (s_pos s2 =? 0)%nat then Ok (0, [], 0%nat, s2) else Ok (1, [], 0%nat, s2)) = Ok (r, w, n, s2') /\
      (w = [] \/ length w = sz) /\ (n <= length w)%nat /\ (r = 0 \/ r = 1) /\ (enc = true \/ is_pad type = false -> r = 1 -> n = sz)).
    { intros sz ->. rewrite P8, R8. destruct (negb (length L =? 0)%nat); (eexists _, _, _, _, _; split; [reflexivity|]; split; [reflexivity|]; auto). }
    assert (EP : pd = true -> is_pad type = true -> exists (r : Z) (w : list Z) (n : nat) (s1' s2' : cstream),
      (if negb enc then if negb (s_pos s1 =? 0)%nat then Ok (0, [], 0%nat, s1) else if (s_lsize s1 =? 0)%nat then Ok (0, [], 0%nat, s1)
        else let '(r, len, dst) := pkcs7_unpad (s_last s1) in Ok (r, dst, Z.to_nat len, s1)
       else match pkcs7_pad (firstn (s_pos s1) (s_block s1)) B with None => Abort | Some b =>
         match encipher s1 m1 b with Ok (o, m) => Ok (1, o, B, with_mode s1 m) | Fail => Fail | Abort => Abort end end) = Ok (r, w, n, s1') /\
      (if negb enc then if negb (s_pos s2 =? 0)%nat then Ok (0, [], 0%nat, s2) else if (s_lsize s2 =? 0)%nat then Ok (0, [], 0%nat, s2)
        else let '(r, len, dst) := pkcs7_unpad (s_last s2) in Ok (r, dst, Z.to_nat len, s2)
       else match pkcs7_pad (firstn (s_pos s2) (s_block s2)) B with None => Abort | Some b =>
         match encipher s2 m1 b with Ok (o, m) => Ok (1, o, B, with_mode s2 m) | Fail => Fail | Abort => Abort end end) = Ok (r, w, n, s2') /\
      (w = [] \/ length w = B) /\ (n <= length w)%nat /\ (r = 0 \/ r = 1) /\ (enc = true \/ is_pad type = false -> r = 1 -> n = B)).
    { intros Hpd Hpad. rewrite Hpd, Hpad in Hup. cbn [andb] in Hup. destruct enc; cbn [negb].
      - rewrite P9, R9. set (b := L ++ repeat (w8 (Z.of_nat (B - length L))) (B - length L)).
        assert (PP : pkcs7_pad L B = Some b) by (unfold pkcs7_pad; destruct (Nat.leb_spec (length L) B); [reflexivity|lia]). rewrite PP.
        assert (Hok : okb B b).
        { split; [unfold b; rewrite app_length, repeat_length; lia|]. apply bytes_app. split; [apply leftover_bytes; auto|]. apply bytes_repeat. unfold w8, byte. pose proof (Z.mod_pos_bound (Z.of_nat (B - length L)) M8 eq_refl). change 256 with M8. lia. }
        assert (E1 : forall s, s_encrypt s = true -> s_cipher s = c -> s_type s = type -> encipher s m1 b = crypt c type true m1 (concat [b])).
        { intros s A1 A2 A3. unfold encipher, crypt. rewrite A1, A2, A3. cbn [concat]. rewrite app_nil_r. reflexivity. }
        rewrite (E1 s1 P1 P2 P3), (E1 s2 R1 R2 R3). rewrite (hcrypt c Hc) by (auto; apply HI2).
        eexists _, _, _, _, _. split; [reflexivity|]. split; [reflexivity|].
        assert (HLn : length (concat (fst (seqm (gstep c type true) m1 [b]))) = B).
        { destruct (inv_step c Hc type true m1 b (proj1 HI2) Hok) as [[A _] _]. cbn [seqm]. destruct (gstep c type true m1 b). cbn [fst concat] in *. rewrite app_nil_r. auto. }
        rewrite HLn. auto.
      - assert (Hu : up = true) by (rewrite Hup; reflexivity). clear Hup. rewrite Hu in P10, R10. destruct P10 as (P10 & P11 & P12), R10 as (R10 & R11 & R12). rewrite P8, R8, P11, R11.
        destruct (negb (length L =? 0)%nat); [eexists _, _, _, _, _; split; [reflexivity|]; split; [reflexivity|]; split; [auto|]; split; [auto|]; split; [auto|]; intros; discriminate|].
        destruct (Nat.ltb_spec (length hist) B) as [HL|HL].
        + change (0 =? 0)%nat with true. cbv iota. eexists _, _, _, _, _; split; [reflexivity|]; split; [reflexivity|]; split; [auto|]; split; [auto|]; split; [auto|]; intros; discriminate.
        + destruct (Nat.eqb_spec B 0) as [?|_]; [lia|]. rewrite P12, R12 by auto.
          set (lb := last (outs c (gstep c type false) m0 hist) []) in *.
          assert (Hbl : bytes lb).
          { pose proof (outs_ok c Hc type false m0 hist (proj1 HI) Hb) as HO. pose proof (outs_ne c Hc type false m0 hist HL) as HN. unfold lb.
            destruct (outs c (gstep c type false) m0 hist) as [|y t]; [congruence|]. inversion HO; subst. rewrite last_cons. apply (last_ok c); auto. }
          specialize (Hlast HL). pose proof (B_small c Hc) as HS.
          assert (A1 : (0 < length lb)%nat) by lia. assert (A2 : Z.of_nat (length lb) + 1 < 2 ^ 31) by lia.
          rewrite (unpad_compute lb Hbl A1 A2). cbv zeta. set (l := rd lb (length lb - 1)).
          eexists _, _, _, _, _. split; [reflexivity|]. split; [reflexivity|]. split; [auto|].
          assert (HV : pad_valid lb l = true -> 1 <= l <= Z.of_nat (length lb)).
          { intros HV. unfold pad_valid in HV. apply andb_prop in HV as [HV _]. lia. }
          destruct (pad_valid lb l); [specialize (HV eq_refl)|]; (split; [lia|]; split; [auto|]; intros [?|HX] ?; [discriminate|congruence]). }
    assert (EC : pd = true -> is_cts type = true -> exists (r : Z) (w : list Z) (n : nat) (s1' s2' : cstream),
      (if (s_lsize s1 =? 0)%nat then Ok (0, [], 0%nat, s1) else
       match (if enc then cipher_mode_steal else cipher_mode_unsteal) c type m1 (s_last s1) (s_block s1) (s_pos s1) with
       | Ok (m, last, block) => Ok (1, last ++ firstn (s_pos s1) block, (B + s_pos s1)%nat,
          mkS enc pd (s_unpad s1) block (s_pos s1) last (s_lsize s1) (s_tag s1) (s_ccm_len s1) c type m) | Fail => Fail | Abort => Abort end) = Ok (r, w, n, s1') /\
      (if (s_lsize s2 =? 0)%nat then Ok (0, [], 0%nat, s2) else
       match (if enc then cipher_mode_steal else cipher_mode_unsteal) c type m1 (s_last s2) (s_block s2) (s_pos s2) with
       | Ok (m, last, block) => Ok (1, last ++ firstn (s_pos s2) block, (B + s_pos s2)%nat,
          mkS enc pd (s_unpad s2) block (s_pos s2) last (s_lsize s2) (s_tag s2) (s_ccm_len s2) c type m) | Fail => Fail | Abort => Abort end) = Ok (r, w, n, s2') /\
      (w = [] \/ length w = (B + s_pos s1)%nat) /\ (n <= length w)%nat /\ (r = 0 \/ r = 1) /\ (enc = true \/ is_pad type = false -> r = 1 -> n = (B + s_pos s1)%nat)).
    { intros Hpd Hcts. rewrite Hpd, Hcts, orb_true_r in Hup. cbn [andb] in Hup. rewrite Hup in P10, R10.
      destruct P10 as (P10 & P11 & P12), R10 as (R10 & R11 & R12). rewrite P11, R11.
      destruct (Nat.ltb_spec (length hist) B) as [HL|HL].
      - change (0 =? 0)%nat with true. cbv iota. eexists _, _, _, _, _; split; [reflexivity|]; split; [reflexivity|]; split; [auto|]; split; [auto|]; split; [auto|]; intros; discriminate.
      - destruct (Nat.eqb_spec B 0) as [?|_]; [lia|]. rewrite P12, R12 by auto. specialize (Hlast HL).
        assert (HM : MLen type m1).
        { destruct HI2 as [A1 A2]. destruct type; try discriminate; destruct m1 as [|q|[t q]| | | |]; try contradiction; cbn [Inv MLen] in *; destruct A1; auto. }
        destruct (steal_det type enc m1 (last (outs c (gstep c type enc) m0 hist) []) L HM Hlast ltac:(lia)) as (m' & l' & x & X1 & X2 & X3).
        rewrite P8 in P9. rewrite R8 in R9. destruct (X3 _ P7 P9) as (b1 & Y1 & Y2). destruct (X3 _ R7 R9) as (b2 & Y3 & Y4).
        rewrite P8, R8, Y1, Y3, Y2, Y4.
        eexists _, _, _, _, _. split; [reflexivity|]. split; [reflexivity|]. rewrite app_length. split; [right; lia|]. split; [lia|]. auto. }
    destruct type; try discriminate.
    - apply SIMPLE. reflexivity.
    - destruct pd; cbn [negb]; [|apply SIMPLE; reflexivity]. apply EP; reflexivity.
    - destruct pd; cbn [negb]; [|apply SIMPLE; reflexivity]. apply EP; reflexivity.
    - destruct pd; cbn [negb]; [|apply SIMPLE; reflexivity]. apply EC; reflexivity.
    - destruct pd; cbn [negb]; [|apply SIMPLE; reflexivity]. apply EC; reflexivity.
  Qed.
End Sz.
