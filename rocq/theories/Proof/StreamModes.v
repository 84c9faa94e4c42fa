(* stream_update is a byte-at-a-time machine; CTR, CFB and OFB *)
From Verif.Base Require Import Prelude.
From Verif.Model Require Import Bio Util Block Encoding Modes.
From Verif.Spec Require Import BlockSpec StreamSpec ModesSpec.
From Verif.Proof Require Import UtilProof BioProof BufCrypt BlockProof BlockModes.
#[local] Ltac Zify.zify_post_hook ::= idtac.

Definition setpos (m : smode) (p : nat) : smode := mkM (m_state m) (m_iv m) p.
Lemma setpos_same m : setpos m (m_pos m) = m. Proof. destruct m; reflexivity. Qed.
Lemma setpos2 m p q : setpos (setpos m p) q = setpos m q. Proof. reflexivity. Qed.

Section Byte.
  Variable size : nat.
  Variable strm : smode -> smode.
  Variable perm : smode -> nat -> list Z -> list Z * smode.
  Variable wf : smode -> Prop.
  Hypothesis Hsize : (1 < size)%nat.
  Hypothesis wf_pos : forall m p, wf m -> wf (setpos m p).
  Hypothesis wf_strm : forall m, wf m -> wf (strm m).
  Hypothesis strm_pos : forall m p, strm (setpos m p) = setpos (strm m) p.
  Hypothesis perm_pos : forall m p q s, perm (setpos m p) q s = (fst (perm m q s), setpos (snd (perm m q s)) p).
  Hypothesis perm_wf : forall m q s, wf m -> (q + length s <= size)%nat -> wf (snd (perm m q s)).
  Hypothesis perm_nil : forall m q, wf m -> (q <= size)%nat -> perm m q [] = ([], m).
  Hypothesis perm_cons : forall m q x s, wf m -> (q + S (length s) <= size)%nat ->
    perm m q (x :: s) = let '(d, m) := perm m q [x] in let '(d', m) := perm m (S q) s in (d ++ d', m).

  Definition bstep (m : smode) (x : Z) : list Z * smode :=
    let m1 := if (m_pos m =? 0)%nat then strm m else m in
    let '(d, m2) := perm m1 (m_pos m) [x] in
    (d, setpos m2 (if (S (m_pos m) =? size)%nat then 0%nat else S (m_pos m))).
  Fixpoint bwise (m : smode) (src : list Z) : list Z * smode :=
    match src with
    | [] => ([], m)
    | x :: t => let '(d, m) := bstep m x in let '(o, m) := bwise m t in (d ++ o, m)
    end.
  Lemma bwise_app a : forall m b, bwise m (a ++ b) =
    let '(d, m) := bwise m a in let '(o, m) := bwise m b in (d ++ o, m).
  Proof.
    induction a as [|x a IH]; intros m b; cbn [app bwise].
    - destruct (bwise m b); reflexivity.
    - destruct (bstep m x) as [d m1]. rewrite IH. destruct (bwise m1 a) as [o m2], (bwise m2 b) as [o' m3]. rewrite app_assoc. reflexivity.
  Qed.
  Definition wrap (p : nat) : nat := if (p =? size)%nat then 0%nat else p.

  Lemma bwise_perm src : forall m pos, wf m -> (0 < pos < size)%nat -> (pos + length src <= size)%nat ->
    bwise (setpos m pos) src = (fst (perm m pos src), setpos (snd (perm m pos src)) (wrap (pos + length src))).
  Proof.
    induction src as [|x s IH]; intros m pos Hw Hp Hl.
    - cbn [bwise length]. rewrite perm_nil by (auto; lia). cbn [fst snd]. unfold wrap.
      destruct (Nat.eqb_spec (pos + 0) size); [lia|]. rewrite Nat.add_0_r. reflexivity.
    - cbn [bwise]. unfold bstep. cbn [setpos m_pos]. fold (setpos m pos).
      destruct (Nat.eqb_spec pos 0); [lia|]. rewrite perm_pos.
      rewrite (perm_cons m pos x s) by (auto; cbn [length] in Hl; lia).
      pose proof (perm_wf m pos [x] Hw ltac:(cbn [length] in *; lia)) as Hw1.
      destruct (perm m pos [x]) as [d m1]. cbn [fst snd] in *. rewrite setpos2.
      destruct (Nat.eqb_spec (S pos) size) as [Es|Es].
      + destruct s; [|cbn [length] in Hl; lia]. rewrite perm_nil by (auto; lia). cbn [bwise fst snd length].
        unfold wrap. destruct (Nat.eqb_spec (pos + 1) size); [|lia]. reflexivity.
      + cbn [length] in *. rewrite IH by (auto; lia). destruct (perm m1 (S pos) s) as [d' m2]. cbn [fst snd].
        do 2 f_equal. f_equal. lia.
  Qed.
  Lemma bwise_start src m : wf m -> (0 < length src <= size)%nat ->
    bwise (setpos m 0) src = (fst (perm (strm m) 0 src), setpos (snd (perm (strm m) 0 src)) (wrap (length src))).
  Proof.
    intros Hw Hl. destruct src as [|x s]; [cbn in Hl; lia|]. cbn [bwise]. unfold bstep. cbn [setpos m_pos]. fold (setpos m 0).
    change (0 =? 0)%nat with true. cbv iota. rewrite strm_pos, perm_pos. cbn [length] in Hl.
    rewrite (perm_cons (strm m) 0 x s) by (auto; lia).
    pose proof (perm_wf (strm m) 0 [x] (wf_strm m Hw) ltac:(cbn [length]; lia)) as Hw1.
    destruct (perm (strm m) 0 [x]) as [d m1]. cbn [fst snd] in *. rewrite setpos2.
    destruct (Nat.eqb_spec 1 size) as [Es|Es]; [lia|].
    rewrite bwise_perm by (auto; lia). destruct (perm m1 1 s) as [d' m2]. reflexivity.
  Qed.

  Lemma bwise_blocks f : forall m src, wf m -> (length src <= f)%nat ->
    let '(d, m', rest) := stream_blocks size strm perm f m src in
    (length rest < size)%nat /\ wf m' /\
    bwise (setpos m 0) src = (let '(o, m'') := bwise (setpos m' 0) rest in (d ++ o, m'')).
  Proof.
    induction f as [|f IH]; intros m src Hw Hf; cbn [stream_blocks].
    - destruct src; [|cbn in Hf; lia]. split; [cbn; lia|]. split; [auto|]. reflexivity.
    - destruct (Nat.leb_spec size (length src)) as [Hle|Hgt].
      + pose proof (perm_wf (strm m) 0 (firstn size src) (wf_strm m Hw) ltac:(rewrite firstn_length; lia)) as Hw1.
        destruct (perm (strm m) 0 (firstn size src)) as [d m1] eqn:Ep. cbn [snd] in Hw1.
        specialize (IH m1 (skipn size src) Hw1 ltac:(rewrite skipn_length; lia)).
        destruct (stream_blocks size strm perm f m1 (skipn size src)) as [[o m2] rest].
        destruct IH as (H1 & H2 & H3). split; [auto|]. split; [auto|].
        rewrite <- (firstn_skipn size src) at 1. rewrite bwise_app.
        rewrite bwise_start by (auto; rewrite firstn_length; lia). rewrite Ep. cbn [fst snd].
        replace (wrap (length (firstn size src))) with 0%nat.
        2:{ unfold wrap. rewrite firstn_length. destruct (Nat.eqb_spec (Nat.min size (length src)) size); lia. }
        rewrite H3. destruct (bwise (setpos m2 0) rest) as [o' m3]. rewrite app_assoc. reflexivity.
      + repeat split; auto. destruct (bwise (setpos m 0) src) as [o m3]. reflexivity.
  Qed.

  Lemma stream_update_bwise m src : wf m -> (m_pos m < size)%nat ->
    stream_update size strm perm m src = bwise m src.
  Proof.
    intros Hw Hp. unfold stream_update.
    destruct (Nat.leb_spec (size - m_pos m) (length src)) as [Hle|Hgt].
    - destruct (Nat.ltb_spec 0 (m_pos m)) as [Hpos|Hpos].
      + pose proof (perm_wf m (m_pos m) (firstn (size - m_pos m) src) Hw ltac:(rewrite firstn_length; lia)) as Hw1.
        destruct (perm m (m_pos m) (firstn (size - m_pos m) src)) as [d m1] eqn:Ep. cbn [snd] in Hw1.
        set (rest := skipn (size - m_pos m) src).
        pose proof (bwise_blocks (length rest) m1 rest Hw1 ltac:(lia)) as HB.
        destruct (stream_blocks size strm perm (length rest) m1 rest) as [[o m2] src2].
        destruct HB as (H1 & H2 & H3).
        assert (Hall : bwise m src = (let '(o', m'') := bwise (setpos m2 0) src2 in ((d ++ o) ++ o', m''))).
        { rewrite <- (firstn_skipn (size - m_pos m) src) at 1. rewrite bwise_app.
          rewrite <- (setpos_same m) at 1. rewrite bwise_perm by (auto; try rewrite firstn_length; lia).
          rewrite Ep. cbn [fst snd]. fold rest.
          replace (wrap (m_pos m + length (firstn (size - m_pos m) src))) with 0%nat.
          2:{ unfold wrap. rewrite firstn_length. destruct (Nat.eqb_spec (m_pos m + Nat.min (size - m_pos m) (length src)) size); lia. }
          rewrite H3. destruct (bwise (setpos m2 0) src2) as [o' m3]. rewrite app_assoc. reflexivity. }
        rewrite Hall. destruct (Nat.ltb_spec 0 (length src2)) as [Hl|Hl].
        * change (0 =? 0)%nat with true. cbv iota. rewrite bwise_start by (auto; lia).
          destruct (perm (strm m2) 0 src2) as [d' m3]. cbn [fst snd]. unfold wrap.
          destruct (Nat.eqb_spec (length src2) size); [lia|]. reflexivity.
        * destruct src2; [|cbn in Hl; lia]. cbn [bwise]. rewrite !app_nil_r. reflexivity.
      + assert (Hp0 : m_pos m = 0%nat) by lia.
        pose proof (bwise_blocks (length src) m src Hw ltac:(lia)) as HB.
        destruct (stream_blocks size strm perm (length src) m src) as [[o m2] src2].
        destruct HB as (H1 & H2 & H3). rewrite <- Hp0, setpos_same in H3. rewrite H3, Hp0.
        destruct (Nat.ltb_spec 0 (length src2)) as [Hl|Hl].
        * change (0 =? 0)%nat with true. cbv iota. rewrite bwise_start by (auto; lia).
          destruct (perm (strm m2) 0 src2) as [d' m3]. cbn [fst snd app]. unfold wrap.
          destruct (Nat.eqb_spec (length src2) size); [lia|]. reflexivity.
        * destruct src2; [|cbn in Hl; lia]. cbn [bwise app]. rewrite !app_nil_r. reflexivity.
    - destruct (Nat.ltb_spec 0 (length src)) as [Hl|Hl].
      + destruct (Nat.eqb_spec (m_pos m) 0) as [Hp0|Hp0].
        * rewrite <- (setpos_same m) at 3. rewrite Hp0. rewrite bwise_start by (auto; lia).
          destruct (perm (strm m) 0 src) as [d' m3]. cbn [fst snd app]. unfold wrap.
          destruct (Nat.eqb_spec (length src) size); [lia|]. reflexivity.
        * rewrite <- (setpos_same m) at 3. rewrite bwise_perm by (auto; lia).
          destruct (perm m (m_pos m) src) as [d' m3]. cbn [fst snd app]. unfold wrap.
          destruct (Nat.eqb_spec (m_pos m + length src) size); [lia|]. reflexivity.
      + destruct src; [|cbn in Hl; lia]. cbn [bwise app]. apply (f_equal (fun x => ([], x))). destruct m; reflexivity.
  Qed.

  Lemma bstep_wf m x : wf m -> (m_pos m < size)%nat -> wf (snd (bstep m x)) /\ (m_pos (snd (bstep m x)) < size)%nat.
  Proof.
    intros Hw Hp. unfold bstep.
    pose proof (perm_wf (if (m_pos m =? 0)%nat then strm m else m) (m_pos m) [x]) as H.
    destruct (perm _ (m_pos m) [x]) as [d m2]. cbn [snd] in *. split.
    - apply wf_pos, H; [destruct (m_pos m =? 0)%nat; auto|cbn [length]; lia].
    - cbn [setpos m_pos]. destruct (Nat.eqb_spec (S (m_pos m)) size); lia.
  Qed.
  Lemma bwise_wf src : forall m, wf m -> (m_pos m < size)%nat -> wf (snd (bwise m src)) /\ (m_pos (snd (bwise m src)) < size)%nat.
  Proof.
    induction src as [|x s IH]; intros m Hw Hp; [split; auto|]. cbn [bwise].
    destruct (bstep_wf m x Hw Hp) as [H1 H2]. destruct (bstep m x) as [d m1]. cbn [snd] in *.
    specialize (IH m1 H1 H2). destruct (bwise m1 s) as [o m2]. exact IH.
  Qed.
  (* any chunking *)
  Lemma stream_calls chunks : forall m, wf m -> (m_pos m < size)%nat ->
    calls (stream_update size strm perm) m chunks = stream_update size strm perm m (concat chunks).
  Proof.
    induction chunks as [|a t IH]; intros m Hw Hp; cbn [calls concat].
    - rewrite stream_update_bwise by auto. reflexivity.
    - rewrite !stream_update_bwise by auto. rewrite bwise_app.
      destruct (bwise_wf a m Hw Hp) as [H1 H2]. destruct (bwise m a) as [d m1]. cbn [snd] in *.
      rewrite IH, stream_update_bwise by auto. reflexivity.
  Qed.
  (* whole blocks, then a short piece *)
  Lemma update_block m b rest : wf m -> m_pos m = 0%nat -> length b = size ->
    stream_update size strm perm m (b ++ rest) =
    let '(d, m1) := perm (strm m) 0 b in
    let '(o, m2) := stream_update size strm perm (setpos m1 0) rest in (d ++ o, m2).
  Proof.
    intros Hw Hp Hb. rewrite stream_update_bwise by (auto; lia). rewrite bwise_app.
    rewrite <- (setpos_same m) at 1. rewrite Hp, bwise_start by (auto; lia).
    pose proof (perm_wf (strm m) 0 b (wf_strm m Hw) ltac:(lia)) as Hw1.
    destruct (perm (strm m) 0 b) as [d m1]. cbn [fst snd] in *. unfold wrap. rewrite Hb, Nat.eqb_refl.
    rewrite stream_update_bwise; [reflexivity|auto|cbn [setpos m_pos]; lia].
  Qed.
  Lemma update_short m b : wf m -> m_pos m = 0%nat -> (0 < length b < size)%nat ->
    stream_update size strm perm m b = (fst (perm (strm m) 0 b), setpos (snd (perm (strm m) 0 b)) (length b)).
  Proof.
    intros Hw Hp Hb. rewrite stream_update_bwise by (auto; lia).
    rewrite <- (setpos_same m) at 1. rewrite Hp, bwise_start by (auto; lia).
    unfold wrap. destruct (Nat.eqb_spec (length b) size); [lia|]. reflexivity.
  Qed.
  Lemma update_nil m : wf m -> (m_pos m < size)%nat -> stream_update size strm perm m [] = ([], m).
  Proof. intros Hw Hp. rewrite stream_update_bwise by auto. reflexivity. Qed.
End Byte.

Definition wfm (n : nat) (m : smode) : Prop := length (m_state m) = n /\ length (m_iv m) = n.

Lemma xor3_cons x s t q : (q < length t)%nat ->
  torsion_memxor3 (x :: s) (skipn q t) = torsion_memxor3 [x] (skipn q t) ++ torsion_memxor3 s (skipn (S q) t).
Proof.
  intros H. destruct (skipn q t) as [|y l] eqn:E.
  { apply (f_equal (@length Z)) in E. rewrite skipn_length in E. cbn in E. lia. }
  assert (E2 : skipn (S q) t = l).
  { replace (S q) with (q + 1)%nat by lia. rewrite skipn_add, E. reflexivity. }
  rewrite E2. cbn [torsion_memxor3]. destruct l; reflexivity.
Qed.
Lemma blit_cons (l : list Z) q d ds : (q + S (length ds) <= length l)%nat ->
  blit (blit l q [d]) (S q) ds = blit l q (d :: ds).
Proof.
  intros H. unfold blit at 1 3. cbn [length].
  replace (firstn (S q) (blit l q [d])) with (firstn q l ++ [d]).
  2:{ replace (S q) with (q + length [d])%nat by (cbn; lia). rewrite blit_prefix by lia. reflexivity. }
  rewrite <- app_assoc. cbn [app]. do 3 f_equal.
  unfold blit. cbn [length]. rewrite app_assoc, skipn_app.
  rewrite skipn_all2 by (rewrite app_length, firstn_length; cbn [length]; lia). cbn [app].
  rewrite <- skipn_add. f_equal. rewrite app_length, firstn_length. cbn [length]. lia.
Qed.
Lemma xor3_len s t : (length s <= length t)%nat -> length (torsion_memxor3 s t) = length s.
Proof. intros H. rewrite memxor3_xorl, xorl_length. lia. Qed.

Section Instances.
  Variable n : nat.
  Hypothesis Hn : (1 < n)%nat.
  Lemma ctr_perm_cons m q x s : wfm n m -> (q + S (length s) <= n)%nat ->
    ctr_xor m q (x :: s) = let '(d, m) := ctr_xor m q [x] in let '(d', m) := ctr_xor m (S q) s in (d ++ d', m).
  Proof. intros [H1 H2] Hq. unfold ctr_xor. rewrite xor3_cons by lia. reflexivity. Qed.
  Lemma cfb_enc_cons m q x s : wfm n m -> (q + S (length s) <= n)%nat ->
    cfb_xor_enc m q (x :: s) = let '(d, m) := cfb_xor_enc m q [x] in let '(d', m) := cfb_xor_enc m (S q) s in (d ++ d', m).
  Proof.
    intros [H1 H2] Hq. unfold cfb_xor_enc. cbn [m_state m_iv m_pos]. rewrite xor3_cons by lia. do 2 f_equal.
    destruct (skipn q (m_state m)) as [|y l] eqn:E.
    { apply (f_equal (@length Z)) in E. rewrite skipn_length in E. cbn in E. lia. }
    cbn [torsion_memxor3 app]. rewrite blit_cons; [reflexivity|].
    rewrite xor3_len; [lia|]. rewrite skipn_length. lia.
  Qed.
  Lemma cfb_dec_cons m q x s : wfm n m -> (q + S (length s) <= n)%nat ->
    cfb_xor_dec m q (x :: s) = let '(d, m) := cfb_xor_dec m q [x] in let '(d', m) := cfb_xor_dec m (S q) s in (d ++ d', m).
  Proof.
    intros [H1 H2] Hq. unfold cfb_xor_dec. cbn [m_state m_iv m_pos]. rewrite xor3_cons by lia. do 2 f_equal.
    rewrite blit_cons by lia. reflexivity.
  Qed.
  Lemma ctr_perm_nil m q : ctr_xor m q [] = ([], m). Proof. reflexivity. Qed.
  Lemma blit_nil (l : list Z) q : blit l q [] = l.
  Proof. unfold blit. cbn [length app]. rewrite Nat.add_0_r. apply firstn_skipn. Qed.
  Lemma cfb_enc_nil m q : cfb_xor_enc m q [] = ([], m).
  Proof. unfold cfb_xor_enc. cbn [torsion_memxor3]. rewrite blit_nil. destruct m; reflexivity. Qed.
  Lemma cfb_dec_nil m q : cfb_xor_dec m q [] = ([], m).
  Proof. unfold cfb_xor_dec. cbn [torsion_memxor3]. rewrite blit_nil. destruct m; reflexivity. Qed.
  Lemma cfb_enc_wf m q s : wfm n m -> (q + length s <= n)%nat -> wfm n (snd (cfb_xor_enc m q s)).
  Proof.
    intros [H1 H2] Hq. split; cbn [cfb_xor_enc snd m_state m_iv]; [auto|].
    rewrite blit_length; [auto|]. rewrite xor3_len by (rewrite skipn_length; lia). lia.
  Qed.
  Lemma cfb_dec_wf m q s : wfm n m -> (q + length s <= n)%nat -> wfm n (snd (cfb_xor_dec m q s)).
  Proof. intros [H1 H2] Hq. split; cbn [cfb_xor_dec snd m_state m_iv]; [auto|]. rewrite blit_length; lia. Qed.
  Lemma wfm_pos m p : wfm n m -> wfm n (setpos m p).
  Proof. intros H. exact H. Qed.
End Instances.
