(* The Poly1305 buffer: chunked updates, padding and the final partial block *)
From Verif.Base Require Import Prelude.
From Verif.Model Require Import Bio Block Mac.
From Verif.Spec Require Import BlockSpec MacSpec.
From Verif.Proof Require Import BioProof BlockProof BufCrypt PolyProof Poly64 Poly32.
#[local] Ltac Zify.zify_post_hook ::= idtac.

Section Buf.
  Context {S : Type}.
  Variable blk : S -> list Z -> bool -> S.
  Variable tag : S -> list Z.
  Let tr (st : S) (b : list Z) : S := blk st b false.

  Lemma poly_blocks_one st data fin : length data = 16%nat -> poly_blocks blk 16 st data fin = blk st data fin.
  Proof.
    intros L. cbn [poly_blocks]. rewrite L. cbn [Nat.leb]. rewrite firstn_all2 by lia.
    rewrite skipn_all2 by lia. reflexivity.
  Qed.
  Lemma poly_blocks_absorb f : forall st data, (length data <= f)%nat ->
    poly_blocks blk f st data false = run 16 tr st data.
  Proof.
    induction f as [|f IH]; intros st data L.
    { destruct data; [|cbn in L; lia]. rewrite run_short by (cbn; lia). reflexivity. }
    cbn [poly_blocks]. destruct (Nat.leb_spec 16 (length data)).
    - rewrite IH by (rewrite skipn_length; lia). unfold run. rewrite (blocks_cons 16 data) by lia. reflexivity.
    - rewrite run_short by lia. reflexivity.
  Qed.
  Lemma absorb_run f : forall st raw, (length raw <= f)%nat ->
    absorb 16 false tr f st raw = (run 16 tr st raw, leftover 16 raw).
  Proof.
    induction f as [|f IH]; intros st raw L.
    { destruct raw; [|cbn in L; lia]. rewrite run_short, leftover_small by (cbn; lia). reflexivity. }
    cbn [absorb]. unfold enough. destruct (Nat.leb_spec 16 (length raw)).
    - rewrite IH by (rewrite skipn_length; lia). unfold run. rewrite (blocks_cons 16 raw) by lia. cbn [fold_left]. f_equal.
      rewrite <- (firstn_skipn 16 raw) at 2. symmetry. apply (leftover_app 16 1); [lia|]. rewrite firstn_length. lia.
    - rewrite run_short, leftover_small by lia. reflexivity.
  Qed.

  Definition as_buf (c : poly S) : S * list Z * nat := (p_st c, p_block c, p_pos c).
  Lemma poly_update_buf c raw : length (p_block c) = 16%nat -> (p_pos c < 16)%nat ->
    as_buf (poly_update blk c raw) = buf_update 16 false tr (p_st c) (p_block c) (p_pos c) raw.
  Proof.
    intros LB LP. unfold poly_update, buf_update, enough. destruct c as [st block pos]. cbn [p_st p_block p_pos] in *.
    assert (T : forall st block (raw : list Z), as_buf (let '(st, block, pos, raw) :=
        (if (16 <=? length raw)%nat then
          let aligned := (length raw - length raw mod 16)%nat in
          (poly_blocks blk aligned st (firstn aligned raw) false, block, 0%nat, skipn aligned raw)
        else (st, block, 0%nat, raw)) in if (0 <? length raw)%nat then mkPoly st (blit block pos raw) (pos + length raw) else mkPoly st block pos)
      = (let '(st, block, pos, raw) := (let '(st, raw) := absorb 16 false tr (length raw) st raw in (st, block, 0%nat, raw)) in
         if (0 <? length raw)%nat then (st, blit block pos raw, (pos + length raw)%nat) else (st, block, pos))).
    { clear LB LP st block pos raw. intros st block raw. rewrite absorb_run by lia. destruct (Nat.leb_spec 16 (length raw)) as [H|H].
      - assert (A : (length raw - length raw mod 16 = length raw / 16 * 16)%nat) by (rewrite Nat.mod_eq by lia; pose proof (Nat.mul_div_le (length raw) 16 ltac:(lia)); lia).
        cbv zeta. rewrite A. fold (leftover 16 raw). pose proof (Nat.mul_div_le (length raw) 16 ltac:(lia)).
        rewrite poly_blocks_absorb by (rewrite firstn_length; lia).
        destruct (blocks_leftover 16 raw ltac:(lia)) as [x [X1 [X2 X3]]].
        replace (firstn (length raw / 16 * 16) raw) with x.
        2:{ rewrite X1 at 2. symmetry. apply firstn_app_exact. auto. }
        replace (run 16 tr st x) with (run 16 tr st raw) by (unfold run; rewrite X3; reflexivity). destruct (0 <? _)%nat; reflexivity.
      - rewrite run_short, leftover_small by lia. destruct (0 <? _)%nat; reflexivity. }
    destruct (Nat.leb_spec (16 - pos) (length raw)) as [H|H].
    - destruct (Nat.ltb_spec 0 pos) as [H1|H1].
      + rewrite poly_blocks_one by (rewrite blit_length; rewrite ?firstn_length; lia). apply T.
      + replace pos with 0%nat by lia. apply T.
    - destruct (0 <? length raw)%nat; reflexivity.
  Qed.

  Lemma poly_rep st0 m c raw : rep 16 tr false st0 m (as_buf c) -> rep 16 tr false st0 (m ++ raw) (as_buf (poly_update blk c raw)).
  Proof.
    intros H. destruct (rep_eager 16 tr ltac:(lia) st0 m _ _ _ H) as [_ [E2 [E3 _]]].
    rewrite poly_update_buf by (auto; rewrite E2; apply Nat.mod_upper_bound; lia).
    apply update_rep; [lia|exact H].
  Qed.
  Lemma poly_rep_calls st0 chunks : forall m c, rep 16 tr false st0 m (as_buf c) ->
    rep 16 tr false st0 (m ++ concat chunks) (as_buf (fold_left (poly_update blk) chunks c)).
  Proof.
    induction chunks as [|x t IH]; intros m c H; cbn [concat fold_left]; [rewrite app_nil_r; auto|].
    rewrite app_assoc. apply IH, poly_rep, H.
  Qed.

  Lemma poly_pad_rep st0 m c : rep 16 tr false st0 m (as_buf c) -> rep 16 tr false st0 (m ++ pad16 m) (as_buf (poly_pad blk c)).
  Proof.
    intros H. destruct c as [st block pos]. pose proof (rep_eager 16 tr ltac:(lia) st0 m _ _ _ H) as [E1 [E2 [E3 E4]]].
    cbn [p_st p_block p_pos] in *. unfold poly_pad, pad16. cbn [p_st p_block p_pos]. rewrite <- E2.
    assert (LP : (pos < 16)%nat) by (rewrite E2; apply Nat.mod_upper_bound; lia).
    destruct (Nat.ltb_spec 0 pos) as [HP|HP].
    - rewrite (Nat.mod_small (16 - pos)) by lia.
      assert (F : fill block pos 16 0 = leftover 16 m ++ repeat 0 (16 - pos)).
      { rewrite <- E4, <- E3. apply fill_full. lia. }
      assert (LL : length (leftover 16 m) = pos) by (rewrite leftover_length by lia; auto).
      assert (LF : length (fill block pos 16 0) = 16%nat) by (rewrite F, app_length, repeat_length; lia).
      rewrite poly_blocks_one by auto.
      destruct (blocks_leftover 16 m ltac:(lia)) as [x [X1 [X2 X3]]].
      exists (length m / 16 + 1)%nat, (m ++ repeat 0 (16 - pos)), []. cbn [p_st p_block p_pos].
      split; [rewrite app_nil_r; auto|]. split; [rewrite app_length, repeat_length; pose proof (Nat.div_mod (length m) 16 ltac:(lia)); lia|].
      split; [|split; [auto|split; [auto|split; [auto|lia]]]].
      pose proof (f_equal (fun z => z ++ repeat 0 (16 - pos)) X1) as X4. cbv beta in X4. rewrite X4. rewrite <- app_assoc. rewrite (run_app 16 tr ltac:(lia) (length m / 16)) by auto. rewrite <- F.
      rewrite (run_block 16 tr ltac:(lia) _ (fill block pos 16 0)) by auto.
      rewrite E1. replace (run 16 tr st0 m) with (run 16 tr st0 x) by (unfold run; rewrite X3; reflexivity). reflexivity.
    - replace pos with 0%nat in * by lia. rewrite Nat.sub_0_r. change (repeat 0 (16 mod 16)) with (@nil Z). rewrite app_nil_r. exact H.
  Qed.

  (* the final call *)
  Lemma poly_final_rep st0 m c : rep 16 tr false st0 m (as_buf c) ->
    poly_final blk tag c = tag (match leftover 16 m with
      | [] => run 16 tr st0 m
      | t => blk (run 16 tr st0 m) (t ++ [1] ++ repeat 0 (15 - length t)) true end).
  Proof.
    intros H. destruct c as [st block pos]. pose proof (rep_eager 16 tr ltac:(lia) st0 m _ _ _ H) as [E1 [E2 [E3 E4]]].
    cbn [p_st p_block p_pos] in *. unfold poly_final. cbn [p_st p_block p_pos]. f_equal.
    assert (LP : (pos < 16)%nat) by (rewrite E2; apply Nat.mod_upper_bound; lia).
    assert (LL : length (leftover 16 m) = pos) by (rewrite leftover_length by lia; auto).
    destruct (Nat.ltb_spec 0 pos) as [HP|HP].
    - assert (F : fill (blit block pos [1]) (pos + 1) 16 0 = leftover 16 m ++ [1] ++ repeat 0 (15 - length (leftover 16 m))).
      { rewrite LL. assert (LB : length (blit block pos [1]) = 16%nat) by (rewrite blit_length; cbn [length]; lia).
        rewrite <- LB at 1. rewrite fill_full by lia. rewrite LB.
        pose proof (blit_prefix block pos [1] ltac:(lia)) as X. cbn [length] in X. rewrite X, E4, <- app_assoc. do 3 f_equal. lia. }
      rewrite poly_blocks_one by (rewrite F, !app_length, repeat_length; cbn [length]; lia).
      rewrite F. destruct (leftover 16 m) eqn:EL; [cbn in LL; lia|]. rewrite E1. reflexivity.
    - destruct (leftover 16 m); [auto|cbn in LL; lia].
  Qed.

  (* abstract values of the accumulator *)
  Variable acc : S -> Z.
  Variable ok : S -> Prop.
  Variable r s : Z.
  Hypothesis Hblk : forall st data fin, ok st -> bytes data -> length data = 16%nat ->
    ok (blk st data fin) /\ acc (blk st data fin) mod p1305 = ((acc st + (le_val data + if fin : bool then 0 else 2 ^ 128)) * r) mod p1305.
  Hypothesis Htag : forall st, ok st -> tag st = le_bytes 16 (acc st mod p1305 + s).

  Lemma le_val_one b : le_val (b ++ [1]) = le_val b + 256 ^ Z.of_nat (length b).
  Proof. unfold le_val. rewrite dval_app. cbn [dval]. lia. Qed.

  Lemma run_acc bs : forall st a, Forall (fun b => length b = 16%nat /\ bytes b) bs -> ok st -> acc st mod p1305 = a mod p1305 ->
    let st' := fold_left tr bs st in ok st' /\ acc st' mod p1305 = fold_left (poly_step r) bs a mod p1305.
  Proof.
    induction bs as [|b t IH]; intros st a HF Ho Ha; cbn [fold_left]; [auto|].
    inversion HF as [|? ? [Lb Bb] HF']. subst. destruct (Hblk st b false Ho Bb Lb) as [O1 A1].
    apply IH; auto. unfold tr. rewrite A1. unfold poly_step. rewrite le_val_one, Lb. change (256 ^ Z.of_nat 16) with (2 ^ 128).
    rewrite Z.mod_mod by (unfold p1305; lia).
    rewrite Z.mul_mod, (Z.add_mod (acc st)), Ha, <- Z.add_mod, <- Z.mul_mod by (unfold p1305; lia). reflexivity.
  Qed.

  Lemma poly_total st0 m c : bytes m -> rep 16 tr false st0 m (as_buf c) -> ok st0 -> acc st0 = 0 ->
    poly_final blk tag c = le_bytes 16 (poly_acc r m + s).
  Proof.
    intros Hm H Ho Ha. rewrite (poly_final_rep st0 m c H).
    destruct (run_acc (blocks 16 m) st0 0 (blocks_ok 16 m ltac:(lia) Hm) Ho ltac:(rewrite Ha; auto)) as [O1 A1].
    fold (run 16 tr st0 m) in O1, A1. unfold poly_acc, poly_pieces. rewrite fold_left_app.
    pose proof (leftover_bytes 16 m Hm) as HLB. pose proof (leftover_length 16 m ltac:(lia)) as HLL.
    pose proof (Nat.mod_upper_bound (length m) 16 ltac:(lia)) as HU.
    destruct (leftover 16 m) as [|t0 t] eqn:EL.
    - cbn [fold_left]. rewrite Htag by auto. do 2 f_equal. rewrite A1.
      destruct (blocks 16 m) as [|b bs] using rev_ind; [reflexivity|]. rewrite fold_left_app. cbn [fold_left]. unfold poly_step.
      apply Z.mod_mod. unfold p1305; lia.
    - set (l := t0 :: t) in *. cbn [fold_left].
      set (d := l ++ [1] ++ repeat 0 (15 - length l)).
      assert (LD : length d = 16%nat) by (unfold d; rewrite !app_length, repeat_length; cbn [length]; lia).
      assert (BD : bytes d).
      { unfold d. rewrite !bytes_app. split; [auto|]. split; [constructor; [unfold byte; lia|constructor]|]. apply bytes_repeat. unfold byte; lia. }
      destruct (Hblk _ d true O1 BD LD) as [O2 A2]. rewrite Htag by auto. do 2 f_equal. rewrite A2. unfold poly_step at 1.
      rewrite Z.add_0_r. replace (le_val d) with (le_val (l ++ [1])).
      2:{ unfold d. rewrite app_assoc. unfold le_val. rewrite (dval_app _ (l ++ [1])). rewrite dval_repeat0. lia. }
      rewrite Z.mul_mod, Z.add_mod, A1, <- Z.add_mod, <- Z.mul_mod by (unfold p1305; lia). reflexivity.
  Qed.
End Buf.

(* both limb representations *)
Lemma le16 key : bytes key -> length key = 32%nat -> 0 <= le_val (firstn 16 (skipn 16 key)) < 2 ^ 128.
Proof.
  intros Hb Hl. pose proof (le_val_range (firstn 16 (skipn 16 key)) (bytes_firstn _ _ (bytes_skipn _ _ Hb))) as X.
  rewrite firstn_length, skipn_length, Hl in X. exact X.
Qed.

Lemma poly64_rep_final key m c : bytes key -> length key = 32%nat -> bytes m ->
  rep 16 (fun st b => p64_block st b false) false (p64_init key) m (as_buf c) -> poly64_final c = poly1305 key m.
Proof.
  intros Hb Hl Hm H. destruct (p64_init_spec key Hb Hl) as [R [V [H0 P]]].
  set (s := le_val (firstn 16 (skipn 16 key))) in *.
  apply (poly_total p64_block p64_tag (fun st => val3 (h64 st))
    (fun st => r64 st = r64 (p64_init key) /\ pad64 st = pad64 (p64_init key) /\ hok64 (h64 st)) (clamp key) s) with (st0 := p64_init key); auto.
  - intros st data fin [O1 [O2 O3]] Bd Ld. destruct (p64_block_spec st data fin Bd Ld ltac:(rewrite O1; auto) O3) as [Q1 [Q2 [Q3 Q4]]].
    split; [split; [congruence|split; [congruence|auto]]|]. rewrite Q4, O1, V. reflexivity.
  - intros st [O1 [O2 O3]]. apply p64_tag_spec; auto; [apply le16; auto|]. rewrite O2, P. reflexivity.
  - split; [auto|]. split; [auto|]. rewrite H0. unfold hok64. lia.

Qed.
Lemma poly32_rep_final key m c : bytes key -> length key = 32%nat -> bytes m ->
  rep 16 (fun st b => p32_block st b false) false (p32_init key) m (as_buf c) -> poly32_final c = poly1305 key m.
Proof.
  intros Hb Hl Hm H. destruct (p32_init_spec key Hb Hl) as [R [V [H0 P]]].
  set (s := le_val (firstn 16 (skipn 16 key))) in *.
  apply (poly_total p32_block p32_tag (fun st => val5 (h32 st))
    (fun st => r32 st = r32 (p32_init key) /\ pad32 st = pad32 (p32_init key) /\ hok32 (h32 st)) (clamp key) s) with (st0 := p32_init key); auto.
  - intros st data fin [O1 [O2 O3]] Bd Ld. destruct (p32_block_spec st data fin Bd Ld ltac:(rewrite O1; auto) O3) as [Q1 [Q2 [Q3 Q4]]].
    split; [split; [congruence|split; [congruence|auto]]|]. rewrite Q4, O1, V. reflexivity.
  - intros st [O1 [O2 O3]]. apply p32_tag_spec; auto; [apply le16; auto|]. rewrite O2, P. reflexivity.
  - split; [auto|]. split; [auto|]. rewrite H0. unfold hok32. lia.

Qed.
