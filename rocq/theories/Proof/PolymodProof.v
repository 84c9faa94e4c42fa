(* The checksum step as a linear map. *)
From Coq Require Import String.
From Verif.Base Require Import Prelude.
From Verif.Model Require Import Encoding Bech32.
From Verif.Spec Require Import EncodingSpec Bech32Spec.
From Verif.Proof Require Import EncodingProof.

Lemma sel_mask W G x : 0 <= G < W -> (exists k, 0 <= k /\ W = 2 ^ k) ->
  Z.land G ((- Z.land x 1) mod W) = if Z.testbit x 0 then G else 0.
Proof.
  intros HG (k & Hk & ->). rewrite land_1, <- Z.bit0_mod.
  destruct (Z.testbit x 0); cbn [Z.b2z].
  - apply Z.bits_inj'. intros m Hm. rewrite Z.land_spec, testbit_w by lia.
    destruct (m <? k) eqn:E.
    + change (- (1)) with (-1). rewrite Z.bits_m1 by lia. apply andb_true_r.
    + rewrite (testbit_high G k m) by lia. reflexivity.
  - change (- 0) with 0. rewrite Z.mod_0_l by (apply Z.pow_nonzero; lia). apply Z.land_0_r.
Qed.
Lemma sel_mask32 G x i : 0 <= G < 2 ^ 32 -> 0 <= i ->
  Z.land G (w32 (- Z.land (shr x i) 1)) = if Z.testbit x i then G else 0.
Proof.
  intros. unfold w32. rewrite M32_eq, sel_mask; auto; [|exists 32; lia].
  unfold shr. rewrite Z.shiftr_spec by lia. reflexivity.
Qed.
Lemma sel_mask64 G x i : 0 <= G < 2 ^ 64 -> 0 <= i ->
  Z.land G (w64 (- Z.land (shr x i) 1)) = if Z.testbit x i then G else 0.
Proof.
  intros. unfold w64. rewrite M64_eq, sel_mask; auto; [|exists 64; lia].
  unfold shr. rewrite Z.shiftr_spec by lia. reflexivity.
Qed.

Lemma bech32_step c v : 0 <= c -> Z.lxor (bech32_polymod c) v = pm_step 25 bip173_gen c v.
Proof.
  intros Hc. unfold bech32_polymod, pm_step, bip173_gen, gen_xor.
  cbn [combine map fold_left]. rewrite !sel_mask32 by lia.
  change 0x1ffffff with (2 ^ 25 - 1). rewrite land_mask by lia.
  unfold shl32. rewrite shiftl_mul by lia. unfold w32. rewrite Z.mod_small.
  2:{ pose proof (Z.mod_pos_bound c (2 ^ 25)). unfold M32. lia. }
  unfold shr. rewrite shiftr_div by lia. change (2 ^ 5) with 32. rewrite Z.lxor_0_l.
  rewrite !Z.lxor_assoc. f_equal. rewrite (Z.lxor_comm v). rewrite !Z.lxor_assoc. reflexivity.
Qed.
Lemma cash32_step c v : 0 <= c -> Z.lxor (cash32_polymod c) v = pm_step 35 cash_gen c v.
Proof.
  intros Hc. unfold cash32_polymod, pm_step, cash_gen, gen_xor.
  cbn [combine map fold_left]. rewrite !sel_mask64 by lia.
  change 0x07ffffffff with (2 ^ 35 - 1). rewrite land_mask by lia.
  unfold shl64. rewrite shiftl_mul by lia. unfold w64. rewrite Z.mod_small.
  2:{ pose proof (Z.mod_pos_bound c (2 ^ 35)). unfold M64. lia. }
  unfold shr. rewrite shiftr_div by lia. change (2 ^ 5) with 32. rewrite Z.lxor_0_l.
  rewrite !Z.lxor_assoc. f_equal. rewrite (Z.lxor_comm v). rewrite !Z.lxor_assoc. reflexivity.
Qed.

Lemma fold_lxor_acc l a : fold_left Z.lxor l a = Z.lxor a (fold_left Z.lxor l 0).
Proof.
  revert a. induction l as [|x l IH]; intros a; cbn [fold_left].
  - rewrite Z.lxor_0_r. reflexivity.
  - rewrite IH, (IH (Z.lxor 0 x)), Z.lxor_0_l, Z.lxor_assoc. reflexivity.
Qed.

Ltac xor_solve := apply Z.bits_inj'; intros ? ?; rewrite ?Z.lxor_spec, ?Z.bits_0;
  repeat match goal with |- context [Z.testbit ?a ?b] => destruct (Z.testbit a b) end; reflexivity.

Section Step.
  Variables (n : Z) (gen : list Z).
  Hypothesis Hn : 0 <= n.
  Hypothesis Hg : Forall (below (2 ^ (n + 5))) gen.

  Definition pmz (c : Z) : Z := pm_step n gen c 0.

  Lemma pm_step_split c v : pm_step n gen c v = Z.lxor (pmz c) v.
  Proof.
    unfold pmz, pm_step. rewrite Z.lxor_0_r, !Z.lxor_assoc. f_equal. apply Z.lxor_comm.
  Qed.

  Lemma gen_xor_lin x y : gen_xor gen (Z.lxor x y) = Z.lxor (gen_xor gen x) (gen_xor gen y).
  Proof.
    unfold gen_xor. induction (combine [0; 1; 2; 3; 4] gen) as [|[i g] l IH]; [reflexivity|].
    cbn [map fold_left]. rewrite (fold_lxor_acc _ (Z.lxor 0 _)), IH.
    rewrite (fold_lxor_acc _ (Z.lxor 0 (if Z.testbit x i then _ else _))).
    rewrite (fold_lxor_acc _ (Z.lxor 0 (if Z.testbit y i then _ else _))).
    rewrite Z.lxor_spec, !Z.lxor_0_l.
    set (A := fold_left _ _ 0). set (B := fold_left _ _ 0).
    destruct (Z.testbit x i), (Z.testbit y i); cbn [xorb]; xor_solve.
  Qed.

  Lemma mod_lxor x y : Z.lxor x y mod 2 ^ n = Z.lxor (x mod 2 ^ n) (y mod 2 ^ n).
  Proof.
    apply Z.bits_inj'. intros m Hm. rewrite Z.lxor_spec, !testbit_w, Z.lxor_spec by lia.
    destruct (m <? n); reflexivity.
  Qed.
  Lemma mul32_lxor x y : Z.lxor x y * 32 = Z.lxor (x * 32) (y * 32).
  Proof.
    change 32 with (2 ^ 5). rewrite <- !Z.shiftl_mul_pow2 by lia. apply Z.shiftl_lxor.
  Qed.
  Lemma div_lxor x y : Z.lxor x y / 2 ^ n = Z.lxor (x / 2 ^ n) (y / 2 ^ n).
  Proof. rewrite <- !Z.shiftr_div_pow2 by lia. apply Z.shiftr_lxor. Qed.

  Lemma pmz_lin x y : pmz (Z.lxor x y) = Z.lxor (pmz x) (pmz y).
  Proof.
    unfold pmz, pm_step. rewrite !Z.lxor_0_r, mod_lxor, mul32_lxor, div_lxor, gen_xor_lin.
    rewrite !Z.lxor_assoc. f_equal. rewrite <- !Z.lxor_assoc. f_equal. apply Z.lxor_comm.
  Qed.
  Lemma gen_xor_0 : gen_xor gen 0 = 0.
  Proof.
    pose proof (gen_xor_lin 0 0) as H. rewrite Z.lxor_nilpotent in H.
    rewrite H. apply Z.lxor_nilpotent.
  Qed.

  Lemma pmz_small c : 0 <= c < 2 ^ n -> pmz c = c * 32.
  Proof.
    intros Hc. unfold pmz, pm_step. rewrite Z.mod_small, Z.div_small, gen_xor_0 by lia.
    rewrite !Z.lxor_0_r. reflexivity.
  Qed.
  Lemma pmz_0 : pmz 0 = 0.
  Proof. rewrite pmz_small; [reflexivity|]. pose proof (Z.pow_pos_nonneg 2 n). lia. Qed.

  Lemma gen_xor_range t : 0 <= gen_xor gen t < 2 ^ (n + 5).
  Proof.
    unfold gen_xor. assert (H : forall i g, In (i, g) (combine [0; 1; 2; 3; 4] gen) -> below (2 ^ (n + 5)) g).
    { intros i g Hi. apply in_combine_r in Hi. rewrite Forall_forall in Hg. auto. }
    revert H. generalize (combine [0; 1; 2; 3; 4] gen) as l.
    assert (H0 : 0 < 2 ^ (n + 5)) by (apply Z.pow_pos_nonneg; lia).
    induction l as [|[i g] l IH]; intros H; cbn [map fold_left]; [lia|].
    rewrite fold_lxor_acc. apply lxor_range; [lia| |].
    - rewrite Z.lxor_0_l. destruct (Z.testbit t i); [|lia]. apply (H i). left. reflexivity.
    - apply IH. intros j h Hj. apply (H j). right. exact Hj.
  Qed.

  Lemma pmz_range c : 0 <= pmz c < 2 ^ (n + 5).
  Proof.
    unfold pmz, pm_step. rewrite Z.lxor_0_r. apply lxor_range; [lia| |apply gen_xor_range].
    pose proof (Z.mod_pos_bound c (2 ^ n) ltac:(apply Z.pow_pos_nonneg; lia)).
    rewrite Z.pow_add_r by lia. change (2 ^ 5) with 32. lia.
  Qed.
  Lemma pm_step_range c v : 0 <= v < 2 ^ (n + 5) -> 0 <= pm_step n gen c v < 2 ^ (n + 5).
  Proof. intros. rewrite pm_step_split. apply lxor_range; [lia|apply pmz_range|auto]. Qed.

  Lemma below32_range v : below 32 v -> 0 <= v < 2 ^ (n + 5).
  Proof.
    unfold below. intros. rewrite Z.pow_add_r by lia. change (2 ^ 5) with 32.
    pose proof (Z.pow_pos_nonneg 2 n). nia.
  Qed.
  Lemma pm_fold_range l c : Forall (below 32) l -> 0 <= c < 2 ^ (n + 5) ->
    0 <= fold_left (pm_step n gen) l c < 2 ^ (n + 5).
  Proof.
    intros Hl. revert c. induction Hl as [|v l Hv Hl IH]; intros c Hc; cbn [fold_left]; auto.
    apply IH. apply pm_step_range. apply below32_range. exact Hv.
  Qed.

  (* linearity of a whole run *)
  Lemma pm_fold_lin l1 : forall l2 a b, length l1 = length l2 ->
    fold_left (pm_step n gen) (xorl l1 l2) (Z.lxor a b) =
    Z.lxor (fold_left (pm_step n gen) l1 a) (fold_left (pm_step n gen) l2 b).
  Proof.
    induction l1 as [|x l1 IH]; intros [|y l2] a b E; cbn [length] in E; try discriminate; [reflexivity|].
    unfold xorl in *. cbn [map2 fold_left]. rewrite <- IH by congruence. f_equal.
    rewrite !pm_step_split, pmz_lin, !Z.lxor_assoc. f_equal.
    rewrite <- !Z.lxor_assoc. f_equal. apply Z.lxor_comm.
  Qed.

  Lemma pm_fold_zeros k : forall a, fold_left (pm_step n gen) (repeat 0 k) a = iter_polymod pmz k a.
  Proof. induction k as [|k IH]; intros a; cbn [repeat fold_left iter_polymod]; auto. Qed.

  Lemma xorl_zeros l : xorl (repeat 0 (length l)) l = l.
  Proof. induction l as [|x l IH]; [reflexivity|]. unfold xorl in *. cbn [length repeat map2]. rewrite IH. reflexivity. Qed.

  (* a run from 0 over few enough symbols just packs them *)
  Lemma pm_fold_pack l : Forall (below 32) l -> forall a,
    0 <= a -> a * 32 ^ Z.of_nat (length l) + 32 ^ Z.of_nat (length l) <= 2 ^ (n + 5) ->
    fold_left (pm_step n gen) l a = a * 32 ^ Z.of_nat (length l) + dval 32 (rev l).
  Proof.
    induction 1 as [|v l Hv Hl IH]; intros a Ha Hb; cbn [fold_left length rev].
    - cbn [dval]. rewrite Z.pow_0_r. lia.
    - rewrite dval_app, rev_length. cbn [dval].
      cbn [length] in Hb. replace (Z.of_nat (S (length l))) with (1 + Z.of_nat (length l)) in * by lia.
      rewrite (Z.pow_add_r 32 1) in * by lia. change (32 ^ 1) with 32 in *. unfold below in Hv.
      set (K := 32 ^ Z.of_nat (length l)) in *.
      assert (0 < K) by (apply Z.pow_pos_nonneg; lia).
      assert (Ea : a < 2 ^ n). { rewrite Z.pow_add_r in Hb by lia. change (2 ^ 5) with 32 in Hb. nia. }
      rewrite pm_step_split, pmz_small by lia.
      replace (Z.lxor (a * 32) v) with (a * 32 + v).
      + assert (v * K <= 31 * K) by nia. rewrite IH; [ring|lia|].
        replace ((a * 32 + v) * K + K) with (a * (32 * K) + v * K + K) by ring.
        lia.
      + change 32 with (2 ^ 5). rewrite <- lor_add_low by lia.
        symmetry. apply Z.bits_inj'. intros m Hm. rewrite Z.lxor_spec, Z.lor_spec.
        rewrite <- Z.shiftl_mul_pow2 by lia. rewrite Z.shiftl_spec by lia.
        destruct (Z.ltb_spec m 5).
        * rewrite Z.testbit_neg_r by lia. destruct (Z.testbit v m); reflexivity.
        * rewrite (testbit_high v 5 m) by lia. rewrite xorb_false_r, orb_false_r. reflexivity.
  Qed.

  Lemma pm_fold_tail l a : Forall (below 32) l -> 5 * Z.of_nat (length l) <= n + 5 ->
    fold_left (pm_step n gen) l a = Z.lxor (iter_polymod pmz (length l) a) (dval 32 (rev l)).
  Proof.
    intros Hl Hk. rewrite <- (xorl_zeros l) at 1. rewrite <- (Z.lxor_0_r a) at 1.
    rewrite pm_fold_lin by apply repeat_length. rewrite pm_fold_zeros. f_equal.
    rewrite pm_fold_pack; auto; [lia|].
    change 32 with (2 ^ 5). rewrite <- Z.pow_mul_r by lia.
    rewrite Z.mul_0_l, Z.add_0_l. apply Z.pow_le_mono_r; lia.
  Qed.

  (* the unique checksum *)
  Lemma pm_checksum m a k c : n + 5 = 5 * Z.of_nat m -> 0 <= a < 2 ^ (n + 5) -> 0 <= k < 2 ^ (n + 5) ->
    length c = m -> Forall (below 32) c ->
    (fold_left (pm_step n gen) c a = k <->
     c = bedig 32 m (Z.lxor (iter_polymod pmz m a) k)).
  Proof.
    intros Hm Ha Hk Hc Hc32. rewrite pm_fold_tail by (auto; lia). rewrite Hc.
    split; intros H.
    - rewrite <- H. rewrite <- Z.lxor_assoc, Z.lxor_nilpotent, Z.lxor_0_l.
      rewrite <- Hc. symmetry. apply bedig_unique; auto. lia.
    - rewrite H. unfold bedig. rewrite rev_involutive, dval_digits by lia.
      rewrite Z.mod_small. { rewrite <- Z.lxor_assoc, Z.lxor_nilpotent, Z.lxor_0_l. reflexivity. }
      change 32 with (2 ^ 5). rewrite <- Z.pow_mul_r, <- Hm by lia.
      apply lxor_range; [lia| |auto].
      clear - Hn Hg Ha. revert a Ha. induction m as [|m IH]; intros a Ha; cbn [iter_polymod]; auto.
      apply IH. apply pmz_range.
  Qed.
End Step.

Lemma bip173_gen_ok : Forall (below (2 ^ (25 + 5))) bip173_gen.
Proof. repeat constructor; unfold below; lia. Qed.
Lemma cash_gen_ok : Forall (below (2 ^ (35 + 5))) cash_gen.
Proof. repeat constructor; unfold below; lia. Qed.
