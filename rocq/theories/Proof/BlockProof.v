(* Block buffering: feeding pieces equals feeding the concatenation *)
From Verif.Base Require Import Prelude.
From Verif.Model Require Import Bio Block.
From Verif.Spec Require Import BlockSpec.
#[local] Ltac Zify.zify_post_hook ::= idtac.

Lemma blocks_nil B m : (length m < B)%nat -> blocks B m = [].
Proof. intros H. unfold blocks. rewrite Nat.div_small by auto. reflexivity. Qed.
Lemma blocks_cons B m : (0 < B)%nat -> (B <= length m)%nat -> blocks B m = firstn B m :: blocks B (skipn B m).
Proof.
  intros HB H. unfold blocks. rewrite skipn_length.
  replace (length m / B)%nat with (S ((length m - B) / B)).
  2:{ replace (length m) with (length m - B + 1 * B)%nat at 2 by lia. rewrite Nat.div_add by lia. lia. }
  cbn [seq map]. f_equal. rewrite <- seq_shift, map_map. apply map_ext. intros i.
  f_equal. replace (S i * B)%nat with (i * B + B)%nat by lia. symmetry.
  rewrite <- (firstn_skipn B m) at 2. rewrite skipn_app.
  rewrite (skipn_all2 (firstn B m)) by (rewrite firstn_length; lia).
  rewrite firstn_length, Nat.min_l by auto. replace (i * B + B - B)%nat with (i * B)%nat by lia. reflexivity.
Qed.
Lemma blocks_app B k : (0 < B)%nat -> forall x y, length x = (k * B)%nat -> blocks B (x ++ y) = blocks B x ++ blocks B y.
Proof.
  intros HB. induction k as [|k IH]; intros x y L.
  { destruct x; [|discriminate L]. rewrite (blocks_nil B []) by (cbn; lia). reflexivity. }
  rewrite (blocks_cons B x) by lia. rewrite (blocks_cons B (x ++ y)) by (rewrite ?app_length; lia).
  rewrite firstn_app, skipn_app. replace (B - length x)%nat with 0%nat by lia. cbn [firstn skipn].
  rewrite app_nil_r. rewrite IH by (rewrite skipn_length; lia). reflexivity.
Qed.
Lemma leftover_app B k x y : (0 < B)%nat -> length x = (k * B)%nat -> leftover B (x ++ y) = leftover B y.
Proof.
  intros HB L. unfold leftover. rewrite app_length, L. rewrite (Nat.add_comm (k * B)), Nat.div_add by lia.
  generalize (length y / B)%nat. intros q.
  rewrite skipn_app. rewrite skipn_all2 by (rewrite L; nia). cbn [app]. rewrite L.
  replace ((q + k) * B - k * B)%nat with (q * B)%nat by nia. reflexivity.
Qed.
Lemma leftover_small B y : (length y < B)%nat -> leftover B y = y.
Proof. intros H. unfold leftover. rewrite Nat.div_small by auto. reflexivity. Qed.
Lemma leftover_length B m : (0 < B)%nat -> length (leftover B m) = (length m mod B)%nat.
Proof. intros H. unfold leftover. rewrite skipn_length. rewrite Nat.mod_eq by lia. lia. Qed.
Lemma leftover_bytes B m : bytes m -> bytes (leftover B m).
Proof. apply bytes_skipn. Qed.
Lemma blocks_leftover B m : (0 < B)%nat -> exists x, m = x ++ leftover B m /\ length x = (length m / B * B)%nat /\ blocks B x = blocks B m.
Proof.
  intros H. pose proof (Nat.mul_div_le (length m) B ltac:(lia)) as HL.
  exists (firstn (length m / B * B) m).
  assert (L : length (firstn (length m / B * B) m) = (length m / B * B)%nat) by (rewrite firstn_length; lia).
  assert (E : m = firstn (length m / B * B) m ++ leftover B m) by (unfold leftover; rewrite firstn_skipn; auto).
  split; [exact E|]. split; [exact L|]. pose proof (f_equal (blocks B) E) as EB. rewrite EB.
  rewrite (blocks_app B (length m / B)) by auto. rewrite (blocks_nil B (leftover B m)); [rewrite app_nil_r; auto|].
  rewrite leftover_length by auto. apply Nat.mod_upper_bound. lia.
Qed.
Lemma blocks_length B m : length (blocks B m) = (length m / B)%nat.
Proof. unfold blocks. rewrite map_length, seq_length. reflexivity. Qed.
Lemma blocks_ok B m : (0 < B)%nat -> bytes m -> Forall (fun b => length b = B /\ bytes b) (blocks B m).
Proof.
  intros HB Hm. apply Forall_forall. intros b Hb. apply in_map_iff in Hb. destruct Hb as [i [<- Hi]].
  apply in_seq in Hi. pose proof (Nat.mul_div_le (length m) B ltac:(lia)). split; [|auto using bytes_firstn, bytes_skipn].
  rewrite firstn_length, skipn_length. nia.
Qed.

(* ---- blit and fill ---- *)
Lemma blit_length block pos raw : (pos + length raw <= length block)%nat -> length (blit block pos raw) = length block.
Proof. intros H. unfold blit. rewrite !app_length, firstn_length, skipn_length. lia. Qed.
Lemma blit_prefix block pos raw : (pos <= length block)%nat -> firstn (pos + length raw) (blit block pos raw) = firstn pos block ++ raw.
Proof.
  intros H. unfold blit. rewrite app_assoc. apply firstn_app_exact. rewrite app_length, firstn_length. lia.
Qed.
Lemma blit_full block pos raw : (pos + length raw = length block)%nat -> blit block pos raw = firstn pos block ++ raw.
Proof. intros H. unfold blit. rewrite skipn_all2 by lia. rewrite app_nil_r. reflexivity. Qed.
Lemma fill_full block pos v : (pos <= length block)%nat -> fill block pos (length block) v = firstn pos block ++ repeat v (length block - pos).
Proof. intros H. unfold fill. apply blit_full. rewrite repeat_length. lia. Qed.
Lemma bytes_blit block pos raw : bytes block -> bytes raw -> bytes (blit block pos raw).
Proof. intros H1 H2. unfold blit. rewrite !bytes_app. auto using bytes_firstn, bytes_skipn. Qed.

Section Buf.
  Context {S : Type}.
  Variable B : nat.
  Variable tr : S -> list Z -> S.
  Hypothesis HB : (0 < B)%nat.

  Definition run (st : S) (m : list Z) : S := fold_left tr (blocks B m) st.
  Lemma run_app k st x y : length x = (k * B)%nat -> run st (x ++ y) = run (run st x) y.
  Proof. intros L. unfold run. rewrite (blocks_app B k) by auto. apply fold_left_app. Qed.
  Lemma run_short st m : (length m < B)%nat -> run st m = st.
  Proof. intros L. unfold run. rewrite blocks_nil by auto. reflexivity. Qed.
  Lemma run_block st m : length m = B -> run st m = tr st m.
  Proof.
    intros L. unfold run. rewrite blocks_cons by lia. rewrite blocks_nil by (rewrite skipn_length; lia).
    rewrite firstn_all2 by lia. reflexivity.
  Qed.

  (* the loop: consumes some blocks x of raw, leaving y *)
  Lemma absorb_spec lz f : forall st raw, (length raw <= f)%nat -> exists k x y, raw = x ++ y /\ length x = (k * B)%nat /\
    absorb B lz tr f st raw = (run st x, y) /\ enough lz (length y) B = false /\
    (x = [] \/ (enough lz (length raw) B = true /\ (lz = true -> y <> []))).
  Proof.
    induction f as [|f IH]; intros st raw L.
    { destruct raw; [|cbn in L; lia]. exists 0%nat, [], []. repeat split; auto; [cbn; rewrite run_short by (cbn; lia); auto|].
      unfold enough. destruct lz; [apply Nat.ltb_ge|apply Nat.leb_gt]; cbn; lia. }
    cbn [absorb]. destruct (enough lz (length raw) B) eqn:E.
    2:{ exists 0%nat, [], raw. split; [auto|]. split; [auto|]. rewrite run_short by (cbn; lia). auto. }
    assert (HL : (B <= length raw)%nat) by (unfold enough in E; destruct lz; lia).
    destruct (IH (tr st (firstn B raw)) (skipn B raw)) as [k [x [y [E1 [E2 [E3 [E4 E5]]]]]]]; [rewrite skipn_length; lia|].
    exists (1 + k)%nat, (firstn B raw ++ x), y.
    assert (LF : length (firstn B raw) = B) by (rewrite firstn_length; lia).
    split; [rewrite <- app_assoc, <- E1, firstn_skipn; auto|].
    split; [rewrite app_length; lia|]. rewrite E3.
    split; [rewrite (run_app 1) by lia; rewrite (run_block st (firstn B raw)) by auto; reflexivity|].
    split; [exact E4|]. right. split; [auto|]. intros LZ. destruct E5 as [->|[_ E5]]; [|auto].
    cbn [app] in E1. subst lz. unfold enough in E. intros ->.
    apply (f_equal (@length Z)) in E1. rewrite skipn_length in E1. cbn in E1. lia.
  Qed.

  (* (st, block, pos) holds the message m *)
  Definition rep (lz : bool) (st0 : S) (m : list Z) (c : S * list Z * nat) : Prop :=
    let '(st, block, pos) := c in
    exists k x r, m = x ++ r /\ length x = (k * B)%nat /\ st = run st0 x /\
      length block = B /\ length r = pos /\ firstn pos block = r /\
      (if lz then (pos <= B)%nat /\ (x <> [] -> (0 < pos)%nat) else (pos < B)%nat).

  Lemma rep_init lz st0 block : length block = B -> rep lz st0 [] (st0, block, 0%nat).
  Proof.
    intros L. exists 0%nat, [], []. repeat split; auto.
    - rewrite run_short by (cbn; lia). auto.
    - destruct lz; [split; [lia|congruence]|lia].
  Qed.

  Lemma update_rep lz st0 m st block pos raw : rep lz st0 m (st, block, pos) ->
    rep lz st0 (m ++ raw) (buf_update B lz tr st block pos raw).
  Proof.
    intros [k [x [r [E1 [E2 [E3 [E4 [E5 [E6 E7]]]]]]]]].
    assert (HP : (pos <= B)%nat) by (destruct lz; lia).
    unfold buf_update. destruct (enough lz (length raw) (B - pos)) eqn:EN.
    2:{ (* not enough: append *)
      assert (LR : (length raw <= B - pos)%nat) by (unfold enough in EN; destruct lz; lia).
      assert (LS : lz = false -> (length raw < B - pos)%nat) by (unfold enough in EN; intros ->; lia).
      destruct (Nat.ltb_spec 0 (length raw)) as [H|H].
      - exists k, x, (r ++ raw). split; [rewrite E1, <- app_assoc; auto|]. split; [auto|]. split; [auto|].
        split; [rewrite blit_length by lia; auto|]. split; [rewrite app_length; lia|].
        split; [rewrite blit_prefix by lia; rewrite E6; auto|]. destruct lz; [|specialize (LS eq_refl); lia]. split; lia.
      - destruct raw; [|cbn in H; lia]. rewrite app_nil_r. exists k, x, r. auto 10. }
    assert (LR : (B - pos <= length raw)%nat) by (unfold enough in EN; destruct lz; lia).
    (* after the optional first block *)
    assert (K : exists k1 x1 raw1 blk1, m ++ raw = x1 ++ raw1 /\ length x1 = (k1 * B)%nat /\ length blk1 = B /\
      (if (0 <? pos)%nat then let b := blit block pos (firstn (B - pos) raw) in (tr st b, b, 0%nat, skipn (B - pos) raw)
       else (st, block, pos, raw)) = (run st0 x1, blk1, 0%nat, raw1) /\ (lz = true -> x1 <> [] -> raw1 <> [])).
    { destruct (Nat.ltb_spec 0 pos) as [H|H].
      - exists (k + 1)%nat, (m ++ firstn (B - pos) raw), (skipn (B - pos) raw), (blit block pos (firstn (B - pos) raw)).
        assert (LF : length (firstn (B - pos) raw) = (B - pos)%nat) by (rewrite firstn_length; lia).
        split; [rewrite <- app_assoc, firstn_skipn; auto|].
        split; [rewrite app_length, E1, app_length; lia|].
        split; [rewrite blit_length by lia; auto|]. split.
        + cbv zeta. do 3 f_equal. rewrite E1, <- app_assoc. rewrite (run_app k) by auto. rewrite <- E3.
          rewrite blit_full by lia. rewrite E6. rewrite run_block by (rewrite app_length; lia). reflexivity.
        + intros -> _ E. apply (f_equal (@length Z)) in E. rewrite skipn_length in E. cbn in E. unfold enough in EN. lia.
      - destruct r; [|cbn in E5; lia]. cbn in E5. subst pos. rewrite app_nil_r in E1. subst m.
        exists k, x, raw, block. repeat split; auto; [congruence|]. intros -> NX. destruct E7 as [_ E7]. specialize (E7 NX). lia. }
    destruct K as [k1 [x1 [raw1 [blk1 [F1 [F2 [F3 [F4 F5]]]]]]]].
    cbv zeta in F4. rewrite F4. clear F4.
    destruct (absorb_spec lz (length raw1) (run st0 x1) raw1 ltac:(lia)) as [k2 [x2 [y [G1 [G2 [G3 [G4 G5]]]]]]].
    rewrite G3.
    assert (FE : forall z, (k1 * B + k2 * B = z * B)%nat -> run (run st0 x1) x2 = run st0 (x1 ++ x2)) by
      (intros; rewrite (run_app k1) by auto; reflexivity).
    assert (LY : (length y <= B)%nat) by (unfold enough in G4; destruct lz; lia).
    assert (LYS : lz = false -> (length y < B)%nat) by (unfold enough in G4; intros ->; lia).
    assert (NY : lz = true -> x1 ++ x2 <> [] -> (0 < length y)%nat).
    { intros LZ NX. destruct y as [|y0 yt]; [|cbn; lia]. exfalso. destruct G5 as [->|[_ G5]].
      - rewrite app_nil_r in NX. apply (F5 LZ NX). rewrite G1. reflexivity.
      - apply (G5 LZ). reflexivity. }
    destruct (Nat.ltb_spec 0 (length y)) as [H|H].
    - exists (k1 + k2)%nat, (x1 ++ x2), y.
      split; [rewrite F1, G1, app_assoc; auto|]. split; [rewrite app_length; lia|].
      split; [apply (FE (k1 + k2)%nat); lia|].
      split; [rewrite blit_length by lia; auto|]. split; [lia|].
      split; [rewrite blit_prefix by lia; reflexivity|]. destruct lz; [split; lia|specialize (LYS eq_refl); lia].
    - destruct y; [|cbn in H; lia]. exists (k1 + k2)%nat, (x1 ++ x2), [].
      split; [rewrite F1, G1, app_assoc; auto|]. split; [rewrite app_length; lia|].
      split; [apply (FE (k1 + k2)%nat); lia|].
      split; [auto|]. split; [auto|]. split; [auto|]. destruct lz; [split; [lia|intros NX; specialize (NY eq_refl NX); cbn in NY; lia]|lia].
  Qed.

  (* reading the eager representation *)
  Lemma rep_eager st0 m st block pos : rep false st0 m (st, block, pos) ->
    st = run st0 m /\ pos = (length m mod B)%nat /\ length block = B /\ firstn pos block = leftover B m.
  Proof.
    intros [k [x [r [E1 [E2 [E3 [E4 [E5 [E6 E7]]]]]]]]]. subst m.
    split; [rewrite (run_app k) by auto; rewrite (run_short _ r) by lia; auto|].
    split; [rewrite app_length, E2, Nat.add_comm, Nat.mod_add, Nat.mod_small by lia; lia|].
    split; [auto|]. rewrite (leftover_app B k) by auto. rewrite leftover_small by lia. auto.
  Qed.

  (* reading the lazy one: the last block, full or partial, is kept back *)
  Definition keep (m : list Z) : nat := ((length m - 1) / B * B)%nat.
  Lemma rep_lazy st0 m st block pos : rep true st0 m (st, block, pos) ->
    st = run st0 (firstn (keep m) m) /\ pos = length (skipn (keep m) m) /\ length block = B /\ firstn pos block = skipn (keep m) m /\
    (pos <= B)%nat.
  Proof.
    intros [k [x [r [E1 [E2 [E3 [E4 [E5 [E6 [E7 E8]]]]]]]]]].
    assert (K : keep m = length x).
    { unfold keep. rewrite E1, app_length, E2. destruct x as [|x0 x'].
      - cbn in E2. rewrite <- E2. cbn [Nat.add]. rewrite Nat.div_small by lia. reflexivity.
      - assert (0 < pos)%nat by (apply E8; discriminate).
        replace (k * B + length r - 1)%nat with (length r - 1 + k * B)%nat by lia.
        rewrite Nat.div_add, Nat.div_small by lia. reflexivity. }
    rewrite K, E1. rewrite firstn_app_exact, skipn_app_exact by auto. auto.
  Qed.
End Buf.
