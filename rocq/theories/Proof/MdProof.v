(* The Merkle-Damgard contexts: the byte counter, the buffering and the padding *)
From Verif.Base Require Import Prelude.
From Verif.Model Require Import Bio Block Hash.
From Verif.Spec Require Import BlockSpec ShaSpec.
From Verif.Proof Require Import BioProof BlockProof BufCrypt.

(* ---- the counter ---- *)
Lemma increment_digits k : forall n c, 0 <= n -> 0 <= c < M64 -> increment (digits M64 k n) c = digits M64 k (n + c).
Proof.
  induction k as [|k IH]; intros n c Hn Hc; [reflexivity|]. cbn [digits increment]. cbv zeta.
  assert (HM : 0 < M64) by reflexivity.
  assert (E : add64 (n mod M64) c = (n + c) mod M64) by (unfold add64, w64; apply Zplus_mod_idemp_l).
  rewrite E. f_equal.
  pose proof (Z.div_mod n M64 ltac:(lia)) as D1. pose proof (Z.mod_pos_bound n M64 HM) as B1.
  pose proof (Z.div_mod (n + c) M64 ltac:(lia)) as D2. pose proof (Z.mod_pos_bound (n + c) M64 HM) as B2.
  assert (Q : (n + c) / M64 = n / M64 + (if (n + c) mod M64 <? c then 1 else 0)).
  { assert (K : (n + c) / M64 = n / M64 \/ (n + c) / M64 = n / M64 + 1) by nia.
    destruct (Z.ltb_spec ((n + c) mod M64) c) as [H|H]; destruct K as [K|K]; rewrite K in *; nia. }
  rewrite Q. apply IH; [apply Z.div_pos; lia|]. destruct ((n + c) mod M64 <? c); change M64 with (2 ^ 64); lia.
Qed.
Lemma repeat_digits k : repeat 0 k = digits M64 k 0.
Proof. induction k; [reflexivity|]. cbn [repeat digits]. rewrite Z.mod_0_l, Z.div_0_l by (unfold M64; lia). rewrite IHk. reflexivity. Qed.

Lemma low_word n : Z.lor (shl64 n 3) 0 = (8 * n) mod M64.
Proof. rewrite Z.lor_0_r. unfold shl64, w64. rewrite Z.shiftl_mul_pow2 by lia. f_equal. lia. Qed.
Lemma bits_hi_digits k : forall n p, 0 <= n -> 0 <= p < M64 -> bits_hi p (digits M64 k n) = digits M64 k (8 * n + p / 2 ^ 61).
Proof.
  induction k as [|k IH]; intros n p Hn Hp; [reflexivity|]. cbn [digits bits_hi].
  assert (HM : M64 = 8 * 2 ^ 61) by reflexivity.
  assert (Hq : 0 <= p / 2 ^ 61 < 8) by (split; [apply Z.div_pos; lia|apply Z.div_lt_upper_bound; lia]).
  pose proof (Z.mod_pos_bound n M64 ltac:(reflexivity)) as Bn. pose proof (Z.div_mod n M64 ltac:(lia)) as Dn.
  assert (E1 : shl64 (n mod M64) 3 = 8 * (n mod 2 ^ 61)).
  { unfold shl64, w64. rewrite Z.shiftl_mul_pow2 by lia. change (2 ^ 3) with 8. rewrite Z.mul_comm.
    rewrite Z.mul_mod_idemp_r by lia. rewrite HM. rewrite Z.mul_mod_distr_l by lia. reflexivity. }
  f_equal.
  - rewrite E1. unfold shr. rewrite Z.shiftr_div_pow2 by lia.
    rewrite (Z.mul_comm 8 (n mod _)). change 8 with (2 ^ 3) at 1. rewrite lor_add_low by (try lia; exact Hq).
    change (2 ^ 3) with 8. pose proof (Z.mod_pos_bound n (2 ^ 61) ltac:(lia)) as Bm. pose proof (Z.div_mod n (2 ^ 61) ltac:(lia)) as Dm.
    apply (Zmod_unique_full _ _ (n / 2 ^ 61)); [left; lia|]. rewrite HM. lia.
  - rewrite IH by (try apply Z.div_pos; lia). f_equal.
    pose proof (Z.mod_pos_bound (n mod M64) (2 ^ 61) ltac:(lia)) as Bm. pose proof (Z.div_mod (n mod M64) (2 ^ 61) ltac:(lia)) as Dm.
    apply (Zdiv_unique_full _ _ _ (8 * ((n mod M64) mod 2 ^ 61) + p / 2 ^ 61)); [left; lia|]. rewrite HM in *. lia.
Qed.
Lemma bits_words_digits k n : 0 <= n -> bits_words (digits M64 k n) = digits M64 k (8 * n).
Proof.
  intros Hn. destruct k as [|k]; [reflexivity|]. cbn [digits bits_words].
  assert (HM : M64 = 8 * 2 ^ 61) by reflexivity.
  pose proof (Z.mod_pos_bound n M64 ltac:(reflexivity)) as Bn. pose proof (Z.div_mod n M64 ltac:(lia)) as Dn.
  f_equal.
  - rewrite <- (Z.lor_0_r (shl64 _ _)), low_word. apply Z.mul_mod_idemp_r. lia.
  - rewrite bits_hi_digits by (try apply Z.div_pos; lia). f_equal.
    pose proof (Z.mod_pos_bound (n mod M64) (2 ^ 61) ltac:(lia)) as Bm. pose proof (Z.div_mod (n mod M64) (2 ^ 61) ltac:(lia)) as Dm.
    apply (Zdiv_unique_full _ _ _ (8 * ((n mod M64) mod 2 ^ 61))); [left; lia|]. rewrite HM in *. lia.
Qed.
Lemma le_bytes_add a b n : le_bytes (a + b) n = le_bytes a n ++ le_bytes b (n / 256 ^ Z.of_nat a).
Proof.
  revert n. induction a as [|a IH]; intros n.
  - change (Z.of_nat 0) with 0. rewrite Z.pow_0_r, Z.div_1_r. reflexivity.
  - change (S a + b)%nat with (S (a + b)). unfold le_bytes in *. cbn [digits app]. f_equal. rewrite IH. f_equal. f_equal.
    rewrite Z.div_div by lia. f_equal. rewrite Nat2Z.inj_succ, Z.pow_succ_r by lia. reflexivity.
Qed.
Lemma le_bytes_mod8 n : le_bytes 8 (n mod M64) = le_bytes 8 n.
Proof.
  apply (dval_inj 256); [lia| | |rewrite !le_bytes_length; reflexivity|]; [apply bytes_below, le_bytes_bytes..|].
  fold (le_val (le_bytes 8 (n mod M64))) (le_val (le_bytes 8 n)). rewrite !le_val_le_bytes. change (256 ^ Z.of_nat 8) with M64.
  apply Z.mod_mod. discriminate.
Qed.
Lemma words_le_bytes k : forall n, concat (map write64le (digits M64 k n)) = le_bytes (k * 8) n.
Proof.
  induction k as [|k IH]; intros n; [reflexivity|]. cbn [digits map concat]. rewrite IH, write64le_spec, le_bytes_mod8.
  change (S k * 8)%nat with (8 + k * 8)%nat. rewrite le_bytes_add. reflexivity.
Qed.
Lemma concat_rev {A B} (f : A -> list B) l : concat (map (fun x => rev (f x)) (rev l)) = rev (concat (map f l)).
Proof.
  induction l as [|a l IH]; [reflexivity|]. cbn [rev map concat]. rewrite map_app, concat_app, IH. cbn [map concat].
  rewrite app_nil_r, rev_app_distr. reflexivity.
Qed.
Lemma len_le_spec k n : 0 <= n -> len_le (digits M64 k n) = le_bytes (k * 8) (8 * n).
Proof. intros H. unfold len_le. rewrite bits_words_digits by auto. apply words_le_bytes. Qed.
Lemma len_be_spec k n : 0 <= n -> len_be (digits M64 k n) = be_bytes (k * 8) (8 * n).
Proof.
  intros H. unfold len_be. rewrite bits_words_digits by auto.
  rewrite (map_ext write64be (fun x => rev (write64le x))).
  - rewrite concat_rev, words_le_bytes. reflexivity.
  - intros w. rewrite write64be_spec, write64le_spec. reflexivity.
Qed.

(* ---- blocks ---- *)
Lemma upd_blit (l : list Z) i v : (i < length l)%nat -> upd l i v = blit l i [v].
Proof.
  revert i. induction l as [|a l IH]; intros [|i] H; cbn [length] in H; try lia; [reflexivity|].
  cbn [upd]. rewrite IH by lia. unfold blit. cbn [length Nat.add firstn skipn app]. reflexivity.
Qed.
Lemma firstn_blit block pos raw n : (pos <= length block)%nat -> n = (pos + length raw)%nat ->
  firstn n (blit block pos raw) = firstn pos block ++ raw.
Proof. intros H ->. apply blit_prefix. auto. Qed.

Section Md.
  Context {St : Type}.
  Variable b : nat.
  Variable k : nat.                       (* 64-bit words in the counter *)
  Let B := (2 ^ b)%nat.
  Variable tr : St -> list Z -> St.
  Variable iv : St.
  Hypothesis Hb : (b <= 64)%nat.
  Hypothesis Hk : (0 < k)%nat.

  Definition mdrep (m : list Z) (c : md_t St) : Prop :=
    rep B tr false iv m (md_state c, md_block c, (length m mod B)%nat) /\
    md_size c = digits M64 k (Z.of_nat (length m)).

  Lemma B_pos : (0 < B)%nat.
  Proof. unfold B. pose proof (Nat.pow_nonzero 2 b). lia. Qed.
  Lemma B_Z : Z.of_nat B = 2 ^ Z.of_nat b.
  Proof. unfold B. rewrite Nat2Z.inj_pow. reflexivity. Qed.

  Lemma mdrep_init : mdrep [] (md_init B k iv).
  Proof.
    split; cbn [md_init md_state md_block md_size].
    - change (length (@nil Z)) with 0%nat. rewrite Nat.mod_0_l by (pose proof B_pos; lia).
      apply rep_init; [exact B_pos|apply repeat_length].
    - apply repeat_digits.
  Qed.
  Lemma md_pos_spec m c : mdrep m c -> md_pos B c = (length m mod B)%nat.
  Proof.
    intros [_ HS]. unfold md_pos. rewrite HS. destruct k as [|k']; [lia|]. cbn [digits nth].
    rewrite B_Z, land_mask by lia. rewrite <- B_Z.
    assert (E : (Z.of_nat (length m) mod M64) mod Z.of_nat B = Z.of_nat (length m) mod Z.of_nat B).
    { rewrite B_Z. change M64 with (2 ^ 64). replace (2 ^ 64) with (2 ^ Z.of_nat b * 2 ^ (64 - Z.of_nat b)) by
        (rewrite <- Z.pow_add_r by lia; f_equal; lia).
      rewrite Z.rem_mul_r by (try apply Z.pow_nonzero; lia).
      rewrite (Z.mul_comm (2 ^ Z.of_nat b)), Z.mod_add by (apply Z.pow_nonzero; lia). apply Z.mod_mod. apply Z.pow_nonzero; lia. }
    rewrite E, <- Nat2Z.inj_mod, Nat2Z.id. reflexivity.
  Qed.
  Lemma mdrep_update m c raw : mdrep m c -> Z.of_nat (length raw) < M64 -> mdrep (m ++ raw) (md_update B tr c raw).
  Proof.
    intros HR HL. pose proof (md_pos_spec m c HR) as HP. destruct HR as [HR HS]. unfold md_update. rewrite HP.
    pose proof (update_rep B tr B_pos false iv m _ _ _ raw HR) as U.
    destruct (buf_update B false tr (md_state c) (md_block c) (length m mod B) raw) as [[st' bl'] pos'].
    split; cbn [md_state md_block md_size].
    - destruct (rep_eager B tr B_pos iv _ _ _ _ U) as [_ [E _]]. rewrite <- E. exact U.
    - rewrite HS. rewrite increment_digits by lia. f_equal. rewrite app_length. lia.
  Qed.

  Lemma md_finish_spec lim enc lenf m c : (lim < B)%nat -> mdrep m c ->
    lenf (md_size c) = enc (B - lim)%nat (8 * Z.of_nat (length m)) ->
    length (enc (B - lim)%nat (8 * Z.of_nat (length m))) = (B - lim)%nat ->
    md_finish B lim tr lenf c = md_hash B lim enc tr iv m.
  Proof.
    intros HL HR HE HEL. pose proof (md_pos_spec m c HR) as HP. destruct HR as [HR HS].
    destruct (rep_eager B tr B_pos iv _ _ _ _ HR) as [E1 [_ [E3 E4]]].
    unfold md_finish. rewrite HP, HE. set (p := (length m mod B)%nat) in *.
    set (len := enc (B - lim)%nat (8 * Z.of_nat (length m))) in *.
    assert (Hp : (p < B)%nat) by (apply Nat.mod_upper_bound; pose proof B_pos; lia).
    rewrite upd_blit by lia.
    assert (LB : length (blit (md_block c) p [0x80]) = B) by (rewrite blit_length by (cbn [length]; lia); auto).
    assert (FB : firstn (p + 1) (blit (md_block c) p [0x80]) = leftover B m ++ [0x80])
      by (rewrite firstn_blit by (cbn [length]; lia); rewrite E4; reflexivity).
    set (bl := blit (md_block c) p [0x80]) in *.
    (* the specification *)
    destruct (blocks_leftover B m B_pos) as [x [X1 [X2 _]]].
    assert (LO : length (leftover B m) = p) by (apply leftover_length, B_pos).
    assert (EQ : md_hash B lim enc tr iv m =
      run B tr (run B tr iv x) ((leftover B m ++ [0x80]) ++ repeat 0 (md_zeros B lim (length m)) ++ len)).
    { unfold md_hash, md_pad. fold len.
      assert (A : m ++ [128] ++ repeat 0 (md_zeros B lim (length m)) ++ len =
         x ++ (leftover B m ++ [128]) ++ repeat 0 (md_zeros B lim (length m)) ++ len).
      { rewrite X1 at 1. rewrite <- !app_assoc. reflexivity. }
      rewrite A. change (fold_left tr (blocks B (x ++ (leftover B m ++ [128]) ++ repeat 0 (md_zeros B lim (length m)) ++ len)) iv) with
        (run B tr iv (x ++ (leftover B m ++ [128]) ++ repeat 0 (md_zeros B lim (length m)) ++ len)).
      rewrite (run_app B tr B_pos (length m / B)) by auto. reflexivity. }
    assert (ES : md_state c = run B tr iv x).
    { rewrite E1, X1 at 1. rewrite (run_app B tr B_pos (length m / B)) by auto. apply run_short. rewrite LO. auto. }
    rewrite EQ, <- ES. clear EQ E1 ES.
    assert (HZ : md_zeros B lim (length m) = if (lim <? p + 1)%nat then (lim + B - (p + 1))%nat else (lim - (p + 1))%nat).
    { unfold md_zeros. pose proof B_pos.
      assert (E : ((length m + 1) mod B)%nat = if (p + 1 =? B)%nat then 0%nat else (p + 1)%nat).
      { rewrite <- Nat.add_mod_idemp_l by lia. fold p. destruct (Nat.eqb_spec (p + 1) B) as [->|N]; [apply Nat.mod_same; lia|].
        apply Nat.mod_small. lia. }
      rewrite E. destruct (Nat.eqb_spec (p + 1) B) as [Q|N].
      - rewrite (proj2 (Nat.ltb_lt lim (p + 1))) by lia. rewrite Nat.sub_0_r.
        replace (lim + B)%nat with (lim + 1 * B)%nat by lia. rewrite Nat.mod_add, Nat.mod_small by lia. lia.
      - destruct (Nat.ltb_spec lim (p + 1)) as [Q|Q]; [apply Nat.mod_small; lia|].
        replace (lim + B - (p + 1))%nat with (lim - (p + 1) + 1 * B)%nat by lia. rewrite Nat.mod_add by lia. apply Nat.mod_small. lia. }
    rewrite HZ. clear HZ.
    assert (LP : length (leftover B m ++ [128]) = (p + 1)%nat) by (rewrite app_length, LO; reflexivity).
    destruct (Nat.ltb_spec lim (p + 1)) as [Q|Q]; cbv zeta.
    - (* one more block *)
      assert (F1 : fill bl (p + 1) B 0 = (leftover B m ++ [128]) ++ repeat 0 (B - (p + 1))).
      { rewrite <- LB at 1. rewrite fill_full by lia. rewrite FB, LB. reflexivity. }
      rewrite F1.
      assert (LF : length ((leftover B m ++ [128]) ++ repeat 0 (B - (p + 1))) = B) by (rewrite app_length, LP, repeat_length; lia).
      set (b1 := (leftover B m ++ [128]) ++ repeat 0 (B - (p + 1))) in *.
      replace ((leftover B m ++ [128]) ++ repeat 0 (lim + B - (p + 1)) ++ len) with (b1 ++ repeat 0 lim ++ len).
      2:{ unfold b1. rewrite <- !app_assoc. do 2 f_equal. rewrite !app_assoc. f_equal. rewrite <- repeat_app. f_equal. lia. }
      rewrite (run_app B tr B_pos 1) by lia. rewrite (run_block B tr B_pos _ b1) by auto.
      rewrite run_block by (auto using B_pos; rewrite app_length, repeat_length; lia). f_equal.
      unfold fill. rewrite Nat.sub_0_r. rewrite blit_full.
      + rewrite firstn_blit by (rewrite ?repeat_length; lia). reflexivity.
      + rewrite blit_length by (rewrite repeat_length; lia). lia.
    - (* fits *)
      rewrite run_block; [|exact B_pos|rewrite !app_length, repeat_length, LO; cbn [length]; lia]. f_equal.
      rewrite blit_full.
      + unfold fill. rewrite firstn_blit by (rewrite ?repeat_length; lia). rewrite FB, <- !app_assoc. reflexivity.
      + unfold fill. rewrite blit_length by (rewrite repeat_length; lia). lia.
  Qed.

  (* all chunks *)
  Lemma md_chunks chunks : Forall (fun c => Z.of_nat (length c) < M64) chunks -> forall m c, mdrep m c ->
    mdrep (m ++ concat chunks) (fold_left (md_update B tr) chunks c).
  Proof.
    induction 1 as [|ch chunks Hc Hcs IH]; intros m c HR; cbn [concat fold_left]; [rewrite app_nil_r; exact HR|].
    rewrite app_assoc. apply IH. apply mdrep_update; auto.
  Qed.
End Md.
