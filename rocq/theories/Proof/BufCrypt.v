(* The buffered xor loop of chacha20_crypt / salsa20_crypt, for any block function *)
From Verif.Base Require Import Prelude.
From Verif.Model Require Import Bio Util Stream.
From Verif.Spec Require Import StreamSpec.
From Verif.Proof Require Import UtilProof.
#[local] Ltac Zify.zify_post_hook ::= idtac.

Lemma nth_firstn {A} n i (l : list A) d : (i < n)%nat -> nth i (firstn n l) d = nth i l d.
Proof. revert i l. induction n; intros i l H; [lia|]. destruct l, i; cbn; auto. apply IHn. lia. Qed.
Lemma nth_skipn {A} n i (l : list A) d : nth i (skipn n l) d = nth (n + i) l d.
Proof. revert l. induction n; intros l; cbn; auto. destruct l; [destruct i; reflexivity|apply IHn]. Qed.
Lemma firstn_add {A} n m (l : list A) : firstn (n + m) l = firstn n l ++ firstn m (skipn n l).
Proof. revert l. induction n; intros l; cbn; auto. destruct l; [destruct m; reflexivity|]. cbn. f_equal. apply IHn. Qed.
Lemma skipn_add {A} n m (l : list A) : skipn (n + m) l = skipn m (skipn n l).
Proof. revert l. induction n; intros l; cbn; auto. destruct l; [destruct m; reflexivity|]. apply IHn. Qed.
Lemma ks_byte_at block q r : (r < 64)%nat -> ks_byte block (64 * q + r) = nth r (block q) 0.
Proof.
  intros H. unfold ks_byte.
  replace ((64 * q + r) mod 64)%nat with r by (rewrite Nat.add_comm, Nat.mul_comm, Nat.mod_add, Nat.mod_small; lia).
  replace ((64 * q + r) / 64)%nat with q; [reflexivity|].
  rewrite Nat.add_comm, Nat.mul_comm, Nat.div_add by lia. rewrite Nat.div_small by lia. reflexivity.
Qed.
Lemma ks_seg_length block t n : length (ks_seg block t n) = n.
Proof. unfold ks_seg. rewrite map_length, seq_length. reflexivity. Qed.
Lemma map_seq_shift {A} (f : nat -> A) m : forall a b t t', (t + a = t' + b)%nat ->
  map (fun i => f (t + i)%nat) (seq a m) = map (fun i => f (t' + i)%nat) (seq b m).
Proof.
  induction m; intros a b t t' H; cbn [seq map]; [reflexivity|]. rewrite H. f_equal. apply IHm. lia.
Qed.
Lemma ks_seg_app block t n m : ks_seg block t (n + m) = ks_seg block t n ++ ks_seg block (t + n) m.
Proof.
  unfold ks_seg. rewrite seq_app, map_app. f_equal. apply map_seq_shift. lia.
Qed.
Lemma ks_seg_in_block block q r n : (r + n <= 64)%nat -> length (block q) = 64%nat ->
  ks_seg block (64 * q + r) n = firstn n (skipn r (block q)).
Proof.
  intros H HL. apply (list_eq_nth 0).
  - rewrite ks_seg_length, firstn_length, skipn_length. lia.
  - intros i Hi. rewrite ks_seg_length in Hi. unfold ks_seg.
    rewrite (nth_indep _ _ ((fun i => ks_byte block (64 * q + r + i)) 0%nat)) by (rewrite map_length, seq_length; auto).
    rewrite (map_nth (fun i => ks_byte block (64 * q + r + i))). rewrite seq_nth by auto.
    rewrite <- Nat.add_assoc, ks_byte_at by lia.
    rewrite nth_firstn by lia. rewrite nth_skipn. reflexivity.
Qed.
Lemma ks_seg_ext b1 b2 t n : (forall q, (q <= (t + n) / 64)%nat -> b1 q = b2 q) -> ks_seg b1 t n = ks_seg b2 t n.
Proof.
  intros H. unfold ks_seg. apply map_ext_in. intros i Hi. apply in_seq in Hi. unfold ks_byte. rewrite H; [reflexivity|].
  apply Nat.div_le_mono; lia.
Qed.

Section Buf.
  Variable blk : list Z -> list Z * list Z.
  Variable valid : list Z -> Prop.
  Hypothesis blk_len : forall st, valid st -> length (fst (blk st)) = 64%nat.
  Hypothesis blk_valid : forall st, valid st -> valid (snd (blk st)).

  Definition nxt st := snd (blk st).
  Definition kblock (st0 : list Z) (q : nat) : list Z := fst (blk (Nat.iter q nxt st0)).

  Lemma iter_valid q st0 : valid st0 -> valid (Nat.iter q nxt st0).
  Proof. intros H. induction q; cbn; auto. apply blk_valid. auto. Qed.
  Lemma kblock_len st0 q : valid st0 -> length (kblock st0 q) = 64%nat.
  Proof. intros H. apply blk_len, iter_valid. auto. Qed.

  (* context c has consumed 64 q + r bytes of the keystream of st0 *)
  Definition Rep (c : sctx) (st0 : list Z) (q r : nat) : Prop :=
    (r < 64)%nat /\ s_pos c = r /\
    (r = 0%nat -> s_state c = Nat.iter q nxt st0) /\
    (r <> 0%nat -> s_state c = Nat.iter (S q) nxt st0 /\ s_stream c = kblock st0 q).

  Lemma blk_iter st0 q : blk (Nat.iter q nxt st0) = (kblock st0 q, Nat.iter (S q) nxt st0).
  Proof. unfold kblock. cbn [Nat.iter]. unfold nxt at 3. apply surjective_pairing. Qed.

  Lemma crypt_blocks_spec fuel : forall st0 q stream src, valid st0 -> (length src <= fuel)%nat ->
    exists stream', let k := (length src / 64)%nat in
    crypt_blocks blk fuel (Nat.iter q nxt st0) stream src =
      (xorl (firstn (64 * k) src) (ks_seg (kblock st0) (64 * q) (64 * k)),
       Nat.iter (q + k) nxt st0, stream', skipn (64 * k) src).
  Proof.
    induction fuel; intros st0 q stream src Hv Hf; cbn [crypt_blocks].
    - exists stream. destruct src; [|cbn in Hf; lia]. cbn. rewrite Nat.add_0_r. reflexivity.
    - destruct (Nat.leb_spec 64 (length src)) as [L|L].
      + rewrite blk_iter.
        destruct (IHfuel st0 (S q) (kblock st0 q) (skipn 64 src) Hv) as (stream' & E).
        { rewrite skipn_length. lia. }
        exists stream'. cbv zeta in E |- *. rewrite E.
        assert (Ek : (length src / 64 = S (length (skipn 64 src) / 64))%nat).
        { rewrite skipn_length. replace (length src) with (length src - 64 + 1 * 64)%nat at 1 by lia.
          rewrite Nat.div_add by lia. lia. }
        rewrite Ek. set (k := (length (skipn 64 src) / 64)%nat) in *.
        rewrite memxor3_xorl.
        replace (64 * S k)%nat with (64 + 64 * k)%nat by lia.
        rewrite ks_seg_app, firstn_add.
        rewrite xorl_app by (rewrite firstn_length, ks_seg_length; lia).
        replace (64 * q + 64)%nat with (64 * S q)%nat by lia.
        replace (ks_seg (kblock st0) (64 * q) 64) with (kblock st0 q).
        2:{ rewrite <- (Nat.add_0_r (64 * q)), ks_seg_in_block by (try apply kblock_len; auto; lia).
            cbn [skipn]. rewrite firstn_all2; [reflexivity|]. rewrite kblock_len; auto. }
        replace (q + S k)%nat with (S q + k)%nat by lia.
        rewrite skipn_add. reflexivity.
      + exists stream. rewrite Nat.div_small by lia. cbn. rewrite Nat.add_0_r. reflexivity.
  Qed.

  Lemma seg_in st0 q r n : valid st0 -> (r + n <= 64)%nat ->
    ks_seg (kblock st0) (64 * q + r) n = firstn n (skipn r (kblock st0 q)).
  Proof. intros Hv H. apply ks_seg_in_block; auto. apply kblock_len; auto. Qed.

  Lemma xorl_firstn_r (x k : list Z) : xorl x (firstn (length x) k) = xorl x k.
  Proof.
    revert k. induction x as [|a x IH]; intros k; [reflexivity|]. destruct k; [reflexivity|].
    cbn [length firstn]. unfold xorl in *. cbn [map2]. rewrite IH. reflexivity.
  Qed.

  (* the last, partial piece *)
  Lemma crypt_tail st0 q r st stream (src d1 : list Z) : valid st0 -> (r + length src < 64)%nat ->
    (r = 0%nat -> st = Nat.iter q nxt st0) ->
    (r <> 0%nat -> st = Nat.iter (S q) nxt st0 /\ stream = kblock st0 q) ->
    exists c', (if (0 <? length src)%nat then
      let '(stream, st) := if (r =? 0)%nat then blk st else (stream, st) in
      let d2 := torsion_memxor3 src (skipn r stream) in
      (d1 ++ d2, mkS st stream (r + length src))
    else (d1, mkS st stream r)) =
      (d1 ++ xorl src (ks_seg (kblock st0) (64 * q + r) (length src)), c') /\ Rep c' st0 q (r + length src).
  Proof.
    intros Hv HL H0 H1. destruct (Nat.ltb_spec 0 (length src)) as [L|L].
    - assert (E : (if (r =? 0)%nat then blk st else (stream, st)) = (kblock st0 q, Nat.iter (S q) nxt st0)).
      { destruct (Nat.eqb_spec r 0) as [->|N]; [rewrite (H0 eq_refl); apply blk_iter|].
        destruct (H1 N) as [-> ->]. reflexivity. }
      rewrite E. eexists. split.
      + rewrite memxor3_xorl, seg_in by (auto; lia). rewrite xorl_firstn_r. reflexivity.
      + unfold Rep. cbn [s_pos s_state s_stream]. repeat split; auto; lia.
    - destruct src; [|cbn in L; lia]. eexists. split; [cbn; rewrite app_nil_r; reflexivity|].
      rewrite Nat.add_0_r. unfold Rep. cbn [s_pos s_state s_stream]. cbn in HL. repeat split; auto; try lia; apply H1; auto.
  Qed.

  Lemma crypt_rep c st0 q r src : valid st0 -> Rep c st0 q r ->
    exists q' r', (64 * q' + r' = 64 * q + r + length src)%nat /\
      fst (stream_crypt blk c src) = xorl src (ks_seg (kblock st0) (64 * q + r) (length src)) /\
      Rep (snd (stream_crypt blk c src)) st0 q' r'.
  Proof.
    intros Hv (Hr & Hpos & H0 & H1). unfold stream_crypt. rewrite Hpos.
    destruct (Nat.leb_spec (64 - r) (length src)) as [L|L].
    - (* first finish the current block *)
      set (q1 := if (r =? 0)%nat then q else S q).
      set (s1 := if (r =? 0)%nat then src else skipn (64 - r) src).
      set (n1 := (if r =? 0 then 0 else 64 - r)%nat).
      assert (E1 : (if (0 <? r)%nat then
            (torsion_memxor3 (firstn (64 - r) src) (skipn r (s_stream c)), skipn (64 - r) src, 0%nat)
          else ([], src, r)) = (xorl (firstn n1 src) (ks_seg (kblock st0) (64 * q + r) n1), s1, 0%nat)).
      { unfold n1, s1. destruct r as [|r']; [reflexivity|]. change (0 <? S r')%nat with true. cbv iota.
        destruct (H1 ltac:(discriminate)) as [_ ->]. change (S r' =? 0)%nat with false. cbv iota.
        rewrite memxor3_xorl, seg_in by (auto; lia).
        rewrite <- (xorl_firstn_r (firstn (64 - S r') src)). rewrite firstn_length, Nat.min_l by lia.
        rewrite (firstn_all2 (skipn (S r') _)) by (rewrite skipn_length, kblock_len; auto). reflexivity. }
      rewrite E1.
      assert (Est : s_state c = Nat.iter q1 nxt st0).
      { unfold q1. destruct (Nat.eqb_spec r 0) as [->|N]; [apply H0; auto|apply H1; auto]. }
      rewrite Est. destruct (crypt_blocks_spec (length s1) st0 q1 (s_stream c) s1 Hv ltac:(lia)) as (stream' & EB).
      cbv zeta in EB. rewrite EB. set (k := (length s1 / 64)%nat) in *.
      assert (Hs1 : (length s1 = length src - n1)%nat).
      { unfold s1, n1. destruct (r =? 0)%nat; [lia|apply skipn_length]. }
      assert (Hdm : length s1 = (64 * k + length s1 mod 64)%nat) by (apply Nat.div_mod; lia).
      assert (Hm : (length s1 mod 64 < 64)%nat) by (apply Nat.mod_upper_bound; lia).
      assert (Hsk : length (skipn (64 * k) s1) = (length s1 mod 64)%nat) by (rewrite skipn_length; lia).
      assert (Hq1 : (64 * q1 = 64 * q + r + n1)%nat).
      { unfold q1, n1. destruct (Nat.eqb_spec r 0); lia. }
      assert (Hn1 : (n1 <= length src)%nat) by (unfold n1; destruct (r =? 0)%nat; lia).
      destruct (crypt_tail st0 (q1 + k) 0 (Nat.iter (q1 + k) nxt st0) stream' (skipn (64 * k) s1)
        (xorl (firstn n1 src) (ks_seg (kblock st0) (64 * q + r) n1) ++
         xorl (firstn (64 * k) s1) (ks_seg (kblock st0) (64 * q1) (64 * k))) Hv ltac:(rewrite Hsk; lia)) as (c' & ET & HR); auto.
      { intros N; lia. }
      cbv beta iota zeta in ET |- *. rewrite ET. cbn [fst snd]. rewrite Hsk in *. exists (q1 + k)%nat, (length s1 mod 64)%nat.
      split; [lia|]. split; [|exact HR].
      rewrite <- app_assoc. rewrite <- xorl_app by (rewrite firstn_length, ks_seg_length; lia).
      rewrite firstn_skipn. replace (64 * (q1 + k) + 0)%nat with (64 * q1 + 64 * k)%nat by lia.
      rewrite <- ks_seg_app, <- Hdm. rewrite Hq1. rewrite <- xorl_app by (rewrite firstn_length, ks_seg_length; lia).
      rewrite <- ks_seg_app. f_equal; [|f_equal; lia].
      unfold s1, n1. destruct (r =? 0)%nat; [reflexivity|apply firstn_skipn].
    - destruct (crypt_tail st0 q r (s_state c) (s_stream c) src [] Hv ltac:(lia) H0 H1) as (c' & ET & HR).
      cbv beta iota zeta in ET |- *. rewrite ET. cbn [fst snd app]. exists q, (r + length src)%nat. split; [lia|]. auto.
  Qed.

  (* a fresh context *)
  Definition fresh (st0 : list Z) : sctx := mkS st0 (repeat 0 64) 0.
  Lemma rep_fresh st0 : Rep (fresh st0) st0 0 0.
  Proof. unfold Rep. cbn. repeat split; try lia; auto; congruence. Qed.

  Lemma run_rep chunks : forall c st0 q r, valid st0 -> Rep c st0 q r ->
    exists q' r', (64 * q' + r' = 64 * q + r + length (concat chunks))%nat /\
      fst (calls (stream_crypt blk) c chunks) = xorl (concat chunks) (ks_seg (kblock st0) (64 * q + r) (length (concat chunks))) /\
      Rep (snd (calls (stream_crypt blk) c chunks)) st0 q' r'.
  Proof.
    induction chunks as [|m t IH]; intros c st0 q r Hv HR; cbn [calls concat].
    - exists q, r. cbn [length xorl map2 fst snd]. split; [lia|]. split; [reflexivity|exact HR].
    - destruct (crypt_rep c st0 q r m Hv HR) as (q1 & r1 & E1 & EO & HR1).
      destruct (stream_crypt blk c m) as [o c1]. cbn [fst snd] in *.
      destruct (IH c1 st0 q1 r1 Hv HR1) as (q2 & r2 & E2 & EO2 & HR2).
      destruct (calls (stream_crypt blk) c1 t) as [o' c2]. cbn [fst snd] in *. exists q2, r2.
      rewrite app_length. split; [lia|]. split; [|auto]. subst o o'. rewrite E1.
      rewrite ks_seg_app, xorl_app by (rewrite ks_seg_length; auto). reflexivity.
  Qed.

  Lemma run_fresh st0 chunks : valid st0 ->
    fst (calls (stream_crypt blk) (fresh st0) chunks) =
    xorl (concat chunks) (ks_seg (kblock st0) 0 (length (concat chunks))).
  Proof.
    intros Hv. destruct (run_rep chunks (fresh st0) st0 0 0 Hv (rep_fresh st0)) as (q & r & _ & E & _). exact E.
  Qed.
End Buf.
