(* GHASH over any chunking *)
From Verif.Base Require Import Prelude.
From Verif.Model Require Import Bio Util Block Encoding Modes.
From Verif.Spec Require Import BlockSpec MacSpec StreamSpec ModesSpec.
From Verif.Proof Require Import BioProof UtilProof BlockProof BufCrypt GhashMul.
#[local] Ltac Zify.zify_post_hook ::= idtac.

Lemma pad_rep {S} (tr : S -> list Z -> S) st0 m st block pos : rep 16 tr false st0 m (st, block, pos) -> (0 < pos)%nat ->
  rep 16 tr false st0 (m ++ pad16 m) (tr st (fill block pos 16 0), fill block pos 16 0, 0%nat).
Proof.
  intros H HP. pose proof (rep_eager 16 tr ltac:(lia) st0 m _ _ _ H) as [E1 [E2 [E3 E4]]].
  unfold pad16. rewrite <- E2.
  assert (LP : (pos < 16)%nat) by (rewrite E2; apply Nat.mod_upper_bound; lia).
  rewrite (Nat.mod_small (16 - pos)) by lia.
  assert (F : fill block pos 16 0 = leftover 16 m ++ repeat 0 (16 - pos)).
  { rewrite <- E4, <- E3. apply fill_full. lia. }
  assert (LL : length (leftover 16 m) = pos) by (rewrite leftover_length by lia; auto).
  assert (LF : length (fill block pos 16 0) = 16%nat) by (rewrite F, app_length, repeat_length; lia).
  destruct (blocks_leftover 16 m ltac:(lia)) as [x [X1 [X2 X3]]].
  exists (length m / 16 + 1)%nat, (m ++ repeat 0 (16 - pos)), [].
  split; [rewrite app_nil_r; auto|]. split; [rewrite app_length, repeat_length; pose proof (Nat.div_mod (length m) 16 ltac:(lia)); lia|].
  split; [|split; [auto|split; [auto|split; [auto|lia]]]].
  pose proof (f_equal (fun z => z ++ repeat 0 (16 - pos)) X1) as X4. cbv beta in X4. rewrite X4. rewrite <- app_assoc.
  rewrite (run_app 16 tr ltac:(lia) (length m / 16)) by auto. rewrite <- F.
  rewrite (run_block 16 tr ltac:(lia) _ (fill block pos 16 0)) by auto.
  rewrite E1. replace (run 16 tr st0 m) with (run 16 tr st0 x) by (unfold run; rewrite X3; reflexivity). reflexivity.
Qed.
Lemma pad16_aligned m : (length (m ++ pad16 m) mod 16 = 0)%nat.
Proof.
  unfold pad16. rewrite app_length, repeat_length. pose proof (Nat.div_mod (length m) 16 ltac:(lia)). pose proof (Nat.mod_upper_bound (length m) 16 ltac:(lia)).
  destruct (Nat.eq_dec (length m mod 16) 0) as [E|E].
  - rewrite E. change ((16 - 0) mod 16)%nat with 0%nat. rewrite Nat.add_0_r. auto.
  - rewrite (Nat.mod_small (16 - _)) by lia. replace (length m + (16 - length m mod 16))%nat with ((length m / 16 + 1) * 16)%nat by lia. apply Nat.mod_mul. lia.
Qed.
Lemma pad16_zero m : (length m mod 16 = 0)%nat -> pad16 m = [].
Proof. intros H. unfold pad16. rewrite H. reflexivity. Qed.

(* a block as a field element *)
Lemma block_val b : length b = 16%nat -> bytes b ->
  gok (read64be b, read64be (skipn 8 b)) /\ gval (read64be b, read64be (skipn 8 b)) = be_val b.
Proof.
  intros HL Hb. pose proof (read64be_range b Hb) as R1. pose proof (read64be_range (skipn 8 b) (bytes_skipn _ _ Hb)) as R2. rewrite M64_eq in *.
  split; [split; cbn [fst snd]; auto|]. unfold gval. cbn [fst snd]. rewrite !read64be_spec by (auto using bytes_skipn).
  do 17 (destruct b as [|? b]; [try discriminate HL|]); [|discriminate HL].
  unfold be_val. cbn [rd nth skipn rev app dval]. lia.
Qed.

Section Key.
  Variable k : gfe.
  Hypothesis Hk : gok k.
  Let tr := ghash_transform (ghash_table k).
  Lemma tr_val st b : gok st -> length b = 16%nat -> bytes b -> gok (tr st b) /\ gval (tr st b) = gmul (Z.lxor (gval st) (be_val b)) (gval k).
  Proof.
    intros Hs HL Hb. destruct (block_val b HL Hb) as [B1 B2]. destruct st as [lo hi]. unfold tr, ghash_transform.
    change (Z.lxor lo (read64be b), Z.lxor hi (read64be (skipn 8 b))) with (gfe_add (lo, hi) (read64be b, read64be (skipn 8 b))).
    destruct (gfe_add_val _ _ Hs B1) as [A1 A2]. destruct (gfe_mul_val k _ Hk A1) as [M1 M2]. split; [auto|]. rewrite M2, A2, B2. reflexivity.
  Qed.
  Lemma run_val m : bytes m -> gok (run 16 tr (0, 0) m) /\ gval (run 16 tr (0, 0) m) = ghash_spec (gval k) m.
  Proof.
    intros Hm. unfold run, ghash_spec. pose proof (blocks_ok 16 m ltac:(lia) Hm) as HB.
    assert (HG : forall l st y, Forall (fun b => length b = 16%nat /\ bytes b) l -> gok st -> gval st = y ->
      gok (fold_left tr l st) /\ gval (fold_left tr l st) = fold_left (fun y b => gmul (Z.lxor y (be_val b)) (gval k)) l y).
    { induction l as [|b l IH]; intros st y HF Hs Hy; [auto|]. inversion HF as [|? ? [F1 F2] F3]; subst. cbn [fold_left].
      destruct (tr_val st b Hs F1 F2) as [T1 T2]. apply IH; auto. }
    apply HG; auto. split; cbn [fst snd]; lia.
  Qed.

  Definition hrep (m : list Z) (g : ghash) : Prop :=
    g_table g = ghash_table k /\ rep 16 tr false (0, 0) m (g_state g, g_block g, g_pos g).
  Lemma hrep_absorb m g x : hrep m g -> hrep (m ++ x) (ghash_absorb g x).
  Proof.
    intros [H1 H2]. unfold ghash_absorb. rewrite H1. fold tr.
    pose proof (update_rep 16 tr ltac:(lia) false (0, 0) m _ _ _ x H2) as HU.
    destruct (buf_update 16 false tr (g_state g) (g_block g) (g_pos g) x) as [[st block] pos]. split; [reflexivity|exact HU].
  Qed.
  Lemma hrep_pad m g : hrep m g -> hrep (m ++ pad16 m) (ghash_pad g).
  Proof.
    intros [H1 H2]. unfold ghash_pad. destruct (Nat.ltb_spec 0 (g_pos g)) as [HP|HP].
    - rewrite H1. split; [reflexivity|]. cbn [g_state g_block g_pos]. apply pad_rep; auto.
    - pose proof (rep_eager 16 tr ltac:(lia) _ m _ _ _ H2) as [_ [E2 _]].
      rewrite pad16_zero by lia. rewrite app_nil_r. split; auto.
  Qed.

  Definition hinv (A C : list Z) (g : ghash) : Prop :=
    g_adlen g = Z.of_nat (length A) mod M64 /\ g_ctlen g = Z.of_nat (length C) /\
    (hrep (padded A ++ C) g \/ (C = [] /\ hrep A g)).
  Lemma hinv_init key : hrep [] (mkG (0, 0) (ghash_table k) key 0 0 0) -> hinv [] [] (mkG (0, 0) (ghash_table k) key 0 0 0).
  Proof. intros H. split; [reflexivity|]. split; [reflexivity|]. right. auto. Qed.
  Lemma hinv_aads chunks : forall A g, g_adlen g = Z.of_nat (length A) mod M64 -> g_ctlen g = 0 -> hrep A g ->
    hinv (A ++ concat chunks) [] (fold_left ghash_aad chunks g).
  Proof.
    induction chunks as [|x t IH]; intros A g H1 H2 H3; cbn [fold_left concat].
    - rewrite app_nil_r. split; [auto|]. split; [auto|]. right. auto.
    - rewrite app_assoc. apply IH.
      + unfold ghash_aad, ghash_absorb. cbn [g_table g_state g_block g_pos g_adlen g_ctlen].
        destruct (buf_update _ _ _ _ _ _ _) as [[st block] pos]. cbn [g_adlen]. rewrite H1. unfold add64, w64.
        rewrite app_length, Nat2Z.inj_add. rewrite Z.add_mod_idemp_l by (rewrite M64_eq; lia). reflexivity.
      + unfold ghash_aad, ghash_absorb. cbn [g_table g_state g_block g_pos g_adlen g_ctlen].
        destruct (buf_update _ _ _ _ _ _ _) as [[st block] pos]. exact H2.
      + unfold ghash_aad. apply hrep_absorb. exact H3.
  Qed.
  Lemma hinv_update A C g x : hinv A C g -> Z.of_nat (length (C ++ x)) < 2 ^ 64 -> hinv A (C ++ x) (ghash_update g x).
  Proof.
    intros (H1 & H2 & H3) HL.
    assert (HP : forall g, g_adlen (ghash_pad g) = g_adlen g /\ g_ctlen (ghash_pad g) = g_ctlen g).
    { intros g0. unfold ghash_pad. destruct (0 <? g_pos g0)%nat; auto. }
    assert (HA : forall g x, g_adlen (ghash_absorb g x) = g_adlen g /\ g_ctlen (ghash_absorb g x) = g_ctlen g).
    { intros g0 x0. unfold ghash_absorb. destruct (buf_update _ _ _ _ _ _ _) as [[st block] pos]. auto. }
    unfold ghash_update. cbv zeta. set (g1 := if g_ctlen g =? 0 then ghash_pad g else g).
    assert (E1 : g_adlen g1 = g_adlen g /\ g_ctlen g1 = g_ctlen g) by (unfold g1; destruct (g_ctlen g =? 0); auto).
    assert (HR : hrep (padded A ++ C) g1).
    { unfold g1. rewrite H2. destruct (Z.eqb_spec (Z.of_nat (length C)) 0) as [E|E].
      - destruct C; [|cbn in E; lia]. rewrite app_nil_r in *. destruct H3 as [H3|[_ H3]].
        + pose proof (hrep_pad _ _ H3) as P. rewrite (pad16_zero (padded A)), app_nil_r in P by apply pad16_aligned. exact P.
        + apply hrep_pad. exact H3.
      - destruct H3 as [H3|[EC _]]; [exact H3|]. subst C. cbn in E. lia. }
    match goal with |- hinv _ _ (ghash_absorb ?g' _) => pose proof (HA g' x) as [Q1 Q2]; set (g2 := g') in * end.
    cbn [g_adlen g_ctlen] in Q1, Q2. subst g2. cbn [g_adlen g_ctlen] in *.
    split; [rewrite Q1; destruct E1; congruence|]. split.
    - rewrite Q2. rewrite (proj2 E1), H2. unfold add64. rewrite app_length, Nat2Z.inj_add in *. apply w64_small. rewrite M64_eq. lia.
    - left. rewrite app_assoc. apply hrep_absorb. exact HR.
  Qed.
  Lemma hinv_updates A chunks : forall C g, hinv A C g -> Z.of_nat (length (C ++ concat chunks)) < 2 ^ 64 ->
    hinv A (C ++ concat chunks) (fold_left ghash_update chunks g).
  Proof.
    induction chunks as [|x t IH]; intros C g H HL; cbn [fold_left concat] in *; [rewrite app_nil_r; auto|].
    rewrite app_assoc in *. apply IH; auto. apply hinv_update; auto. rewrite app_length in HL. lia.
  Qed.
  Lemma len_val n : 0 <= n -> shl64 (n mod M64) 3 = be_val (be_bytes 8 (8 * n)).
  Proof.
    intros Hn. rewrite be_val_be_bytes. unfold shl64, w64. rewrite Z.shiftl_mul_pow2 by lia. rewrite M64_eq.
    change (256 ^ Z.of_nat 8) with (2 ^ 64). rewrite Z.mul_mod_idemp_l by lia. f_equal. lia.
  Qed.
  Lemma be_val_app2 a b : be_val (a ++ b) = be_val a * 256 ^ Z.of_nat (length b) + be_val b.
  Proof. unfold be_val. rewrite rev_app_distr, dval_app by lia. rewrite rev_length. lia. Qed.
  Lemma be_bytes_join lo hi : gok (lo, hi) -> be_bytes 8 lo ++ be_bytes 8 hi = be_bytes 16 (gval (lo, hi)).
  Proof.
    intros [H1 H2]. cbn [fst snd] in *.
    assert (HV : be_val (be_bytes 8 lo ++ be_bytes 8 hi) = gval (lo, hi)).
    { rewrite be_val_app2, !be_val_be_bytes, be_bytes_length. change (256 ^ Z.of_nat 8) with (2 ^ 64). rewrite !Z.mod_small by auto. reflexivity. }
    rewrite <- HV. replace 16%nat with (length (be_bytes 8 lo ++ be_bytes 8 hi)) by (rewrite app_length, !be_bytes_length; reflexivity).
    symmetry. apply be_bytes_be_val. apply bytes_app. split; apply be_bytes_bytes.
  Qed.
  Lemma ghash_final_spec A C g : bytes A -> bytes C -> hinv A C g ->
    ghash_final g = be_bytes 16 (ghash_spec (gval k) (padded A ++ padded C ++ bits64 A ++ bits64 C)).
  Proof.
    intros HA HC (H1 & H2 & H3).
    assert (HR : hrep (padded A ++ padded C) (ghash_pad g)).
    { destruct H3 as [H3|[EC H3]].
      - pose proof (hrep_pad _ _ H3) as P. rewrite <- app_assoc in P. unfold padded at 2.
        replace (pad16 (padded A ++ C)) with (pad16 C) in P; [exact P|].
        pose proof (pad16_aligned A) as HM. fold (padded A) in HM. unfold pad16. rewrite app_length.
        rewrite <- (Nat.add_mod_idemp_l (length (padded A))) by lia. rewrite HM. reflexivity.
      - subst C. pose proof (hrep_pad _ _ H3) as P. change (padded []) with (@nil Z). rewrite app_nil_r. exact P. }
    assert (HP : g_adlen (ghash_pad g) = g_adlen g /\ g_ctlen (ghash_pad g) = g_ctlen g).
    { unfold ghash_pad. destruct (0 <? g_pos g)%nat; auto. }
    unfold ghash_final. cbv zeta. rewrite (proj1 HP), (proj2 HP), H1, H2. destruct HR as [T R].
    pose proof (rep_eager 16 tr ltac:(lia) _ _ _ _ _ R) as [E1 _]. rewrite T.
    assert (HB : bytes (padded A ++ padded C)).
    { apply bytes_app. split; apply bytes_app; (split; [auto|apply bytes_repeat; unfold byte; lia]). }
    destruct (run_val _ HB) as [V1 V2]. rewrite <- E1 in V1, V2.
    set (st := g_state (ghash_pad g)) in *.
    set (lens := bits64 A ++ bits64 C).
    assert (LL : length lens = 16%nat) by (unfold lens, bits64; rewrite app_length, !be_bytes_length; reflexivity).
    assert (LB : bytes lens) by (apply bytes_app; split; apply be_bytes_bytes).
    set (a := shl64 (Z.of_nat (length A) mod M64) 3). set (cl := shl64 (Z.of_nat (length C)) 3).
    assert (Ecl : cl = be_val (bits64 C)).
    { unfold bits64; rewrite <- len_val by lia. unfold cl, shl64, w64. rewrite !Z.shiftl_mul_pow2 by lia. rewrite Z.mul_mod_idemp_l by (rewrite M64_eq; lia). reflexivity. }
    assert (Ea : a = be_val (bits64 A)) by (apply len_val; lia).
    assert (KG : gok (a, cl)).
    { split; cbn [fst snd]; rewrite ?Ea, ?Ecl; unfold bits64; rewrite be_val_be_bytes; apply Z.mod_pos_bound; lia. }
    assert (KV : gval (a, cl) = be_val lens).
    { unfold gval, lens. cbn [fst snd]. rewrite be_val_app2, <- Ea, <- Ecl. unfold bits64. rewrite be_bytes_length. reflexivity. }
    destruct st as [lo hi] eqn:Est. change (Z.lxor lo a, Z.lxor hi cl) with (gfe_add (lo, hi) (a, cl)).
    destruct (gfe_add_val _ _ V1 KG) as [S1 S2]. destruct (gfe_mul_val k _ Hk S1) as [M1 M2].
    destruct (gfe_mul (gfe_add (lo, hi) (a, cl)) (ghash_table k)) as [mlo mhi].
    rewrite !write64be_spec.
    rewrite be_bytes_join by auto. rewrite M2, S2, KV, V2. f_equal.
    unfold ghash_spec. rewrite (app_assoc (padded A)). fold lens.
    assert (HM : (length (padded A ++ padded C) mod 16 = 0)%nat).
    { rewrite app_length, Nat.add_mod by lia. unfold padded. rewrite !pad16_aligned. reflexivity. }
    assert (HX : length (padded A ++ padded C) = (length (padded A ++ padded C) / 16 * 16)%nat).
    { pose proof (Nat.div_mod (length (padded A ++ padded C)) 16 ltac:(lia)). lia. }
    rewrite (blocks_app 16 (length (padded A ++ padded C) / 16) ltac:(lia) _ _ HX).
    rewrite fold_left_app. rewrite (blocks_cons 16 lens) by lia. rewrite (blocks_nil 16 (skipn 16 lens)) by (rewrite skipn_length; lia).
    cbn [fold_left]. rewrite firstn_all2 by lia. reflexivity.
  Qed.
End Key.

(* the whole of ghash *)
Theorem ghash_spec_correct key aads cts : bytes key -> length key = 16%nat -> bytes (concat aads) -> bytes (concat cts) ->
  Z.of_nat (length (concat cts)) < 2 ^ 64 ->
  ghash_final (fold_left ghash_update cts (fold_left ghash_aad aads (ghash_init key))) = gcm_ghash key (concat aads) (concat cts).
Proof.
  intros Hb Hl HA HC HL. destruct (block_val key Hl Hb) as [K1 K2]. unfold gcm_ghash. rewrite <- K2.
  apply ghash_final_spec; auto.
  apply (hinv_updates _ (concat aads) cts []); auto.
  apply (hinv_aads _ aads []); try reflexivity.
  split; [reflexivity|]. apply rep_init; [lia|]. apply repeat_length.
Qed.
