(* The table-driven GF(2^128) multiplication of ghash *)
From Verif.Base Require Import Prelude.
From Verif.Model Require Import Bio Util Block Encoding Modes.
From Verif.Spec Require Import BlockSpec ModesSpec.
From Verif.Proof Require Import BioProof.
#[local] Ltac Zify.zify_post_hook ::= idtac.

Definition gval (g : gfe) : Z := fst g * 2 ^ 64 + snd g.
Definition gok (g : gfe) : Prop := 0 <= fst g < 2 ^ 64 /\ 0 <= snd g < 2 ^ 64.

Lemma gval_testbit g n : gok g -> 0 <= n -> Z.testbit (gval g) n = if n <? 64 then Z.testbit (snd g) n else Z.testbit (fst g) (n - 64).
Proof.
  intros [H1 H2] Hn. unfold gval. rewrite <- lor_add_low by lia. rewrite Z.lor_spec, Z.mul_pow2_bits by lia.
  destruct (Z.ltb_spec n 64).
  - rewrite (Z.testbit_neg_r _ (n - 64)) by lia. reflexivity.
  - rewrite (testbit_high (snd g) 64) by lia. apply Bool.orb_false_r.
Qed.
Lemma gval_range g : gok g -> 0 <= gval g < 2 ^ 128.
Proof. intros [H1 H2]. unfold gval. change (2 ^ 128) with (2 ^ 64 * 2 ^ 64). nia. Qed.
Lemma gval_bits g z : gok g -> (forall n, 0 <= n -> Z.testbit z n = if n <? 64 then Z.testbit (snd g) n else Z.testbit (fst g) (n - 64)) -> gval g = z.
Proof. intros Hg H. apply Z.bits_inj'. intros n Hn. rewrite gval_testbit, H by auto. reflexivity. Qed.

(* ---- gmulx ---- *)
Lemma gmulx_alt v : gmulx v = Z.lxor (Z.shiftr v 1) (if Z.testbit v 0 then 0xe1 * 2 ^ 120 else 0).
Proof. unfold gmulx. rewrite Z.bit0_odd. rewrite Z.shiftr_div_pow2 by lia. reflexivity. Qed.
Lemma gmulx_lxor a b : gmulx (Z.lxor a b) = Z.lxor (gmulx a) (gmulx b).
Proof.
  rewrite !gmulx_alt, Z.shiftr_lxor, Z.lxor_spec.
  destruct (Z.testbit a 0), (Z.testbit b 0); cbn [xorb]; rewrite ?Z.lxor_0_r.
  - rewrite (Z.lxor_comm (Z.shiftr b 1)). rewrite Z.lxor_assoc, <- (Z.lxor_assoc (0xe1 * 2 ^ 120)). rewrite Z.lxor_nilpotent, Z.lxor_0_l. reflexivity.
  - rewrite !Z.lxor_assoc. f_equal. apply Z.lxor_comm.
  - rewrite !Z.lxor_assoc. reflexivity.
  - reflexivity.
Qed.
Lemma gmulx_0 : gmulx 0 = 0. Proof. reflexivity. Qed.
Lemma gmulx_range v : 0 <= v < 2 ^ 128 -> 0 <= gmulx v < 2 ^ 128.
Proof.
  intros H. rewrite gmulx_alt. apply lxor_range; [lia| |].
  - rewrite Z.shiftr_div_pow2 by lia. change (2 ^ 1) with 2. split; [apply Z.div_pos; lia|]. apply Z.div_lt_upper_bound; lia.
  - destruct (Z.testbit v 0); lia.
Qed.
Lemma gmulx_even a : gmulx (Z.shiftl a 1) = a.
Proof.
  rewrite gmulx_alt. rewrite Z.shiftl_spec_low by lia. rewrite Z.lxor_0_r. rewrite Z.shiftr_shiftl_l by lia. apply Z.shiftl_0_r.
Qed.
Definition g4 (v : Z) : Z := gmulx (gmulx (gmulx (gmulx v))).
Lemma g4_lxor a b : g4 (Z.lxor a b) = Z.lxor (g4 a) (g4 b).
Proof. unfold g4. rewrite !gmulx_lxor. reflexivity. Qed.
Lemma g4_split v : 0 <= v -> g4 v = Z.lxor (Z.shiftr v 4) (Z.shiftl (nth (Z.to_nat (Z.land v 15)) ghash_reduction 0) 112).
Proof.
  intros Hv.
  assert (E : v = Z.lxor (Z.shiftl (Z.shiftr v 4) 4) (Z.land v 15)).
  { apply Z.bits_inj'. intros n Hn. rewrite Z.lxor_spec, Z.land_spec. change 15 with (Z.ones 4).
    destruct (Z.ltb_spec n 4).
    - rewrite Z.shiftl_spec_low by lia. rewrite Z.ones_spec_low by lia. rewrite Bool.andb_true_r. destruct (Z.testbit v n); reflexivity.
    - rewrite Z.shiftl_spec, Z.shiftr_spec by lia. rewrite Z.ones_spec_high by lia. rewrite Bool.andb_false_r, Bool.xorb_false_r. f_equal. lia. }
  rewrite E at 1. rewrite g4_lxor. f_equal.
  - unfold g4. replace (Z.shiftl (Z.shiftr v 4) 4) with (Z.shiftl (Z.shiftl (Z.shiftl (Z.shiftl (Z.shiftr v 4) 1) 1) 1) 1) by (rewrite !Z.shiftl_shiftl by lia; reflexivity).
    rewrite !gmulx_even. reflexivity.
  - assert (HR : 0 <= Z.land v 15 < 16) by (change 15 with (Z.ones 4); rewrite Z.land_ones by lia; apply Z.mod_pos_bound; lia).
    revert HR. generalize (Z.land v 15). intros k Hk. apply Z.eqb_eq.
    apply (forall_zseq (fun k => g4 k =? Z.shiftl (nth (Z.to_nat k) ghash_reduction 0) 112) 0 16); [vm_compute; reflexivity|lia].
Qed.

(* ---- gfe operations ---- *)
Lemma land_w64_neg x (b : bool) : 0 <= x < 2 ^ 64 -> Z.land x (w64 (- (if b then 1 else 0))) = if b then x else 0.
Proof.
  intros H. destruct b.
  - change (w64 (- (1))) with (Z.ones 64). rewrite Z.land_ones by lia. apply Z.mod_small. auto.
  - apply Z.land_0_r.
Qed.
Lemma land1_b x : Z.land x 1 = if Z.testbit x 0 then 1 else 0.
Proof. change 1 with (Z.ones 1) at 1. rewrite Z.land_ones by lia. change (2 ^ 1) with 2. rewrite Zmod_odd, Z.bit0_odd. reflexivity. Qed.
Lemma w64_range' x : 0 <= w64 x < 2 ^ 64. Proof. pose proof (w64_range x). rewrite M64_eq in *. auto. Qed.
Lemma shr_range' x n k : 0 <= n -> 0 <= k -> 0 <= x < 2 ^ k -> 0 <= Z.shiftr x n < 2 ^ k.
Proof.
  intros Hn Hk H. rewrite Z.shiftr_div_pow2 by lia. assert (0 < 2 ^ n) by (apply Z.pow_pos_nonneg; lia). split; [apply Z.div_pos; lia|].
  apply Z.le_lt_trans with x; [|lia]. apply Z.div_le_upper_bound; nia.
Qed.
Lemma gfe_add_val a b : gok a -> gok b -> gok (gfe_add a b) /\ gval (gfe_add a b) = Z.lxor (gval a) (gval b).
Proof.
  intros Ha Hb. assert (HG : gok (gfe_add a b)).
  { destruct Ha, Hb. split; cbn [gfe_add fst snd]; apply lxor_range; lia. }
  split; [auto|]. apply gval_bits; auto. intros n Hn. rewrite Z.lxor_spec, !gval_testbit by auto. cbn [gfe_add fst snd].
  destruct (n <? 64); rewrite Z.lxor_spec; reflexivity.
Qed.
Lemma gfe_dbl_val a : gok a -> gok (gfe_dbl a) /\ gval (gfe_dbl a) = gmulx (gval a).
Proof.
  intros Ha. assert (HG : gok (gfe_dbl a)).
  { destruct a as [lo hi], Ha as [H1 H2]. cbn [fst snd] in *. unfold gfe_dbl, shr, shl64. split; cbn [fst snd].
    - apply lxor_range; [lia| |].
      + apply shr_range'; lia.
      + apply land_range_l; lia.
    - apply lor_range; [lia| |apply w64_range']. apply shr_range'; lia. }
  split; [auto|]. apply gval_bits; auto. intros n Hn. rewrite gmulx_alt.
  rewrite Z.lxor_spec, Z.shiftr_spec, !gval_testbit by (auto; lia).
  destruct a as [lo hi], Ha as [H1 H2]. cbn [fst snd] in *. unfold gfe_dbl, shr, shl64. cbn [fst snd].
  rewrite land1_b, land_w64_neg by lia. change (0 <? 64) with true. cbv iota.
  destruct (Z.ltb_spec n 64) as [Hl|Hl].
  - rewrite Z.lor_spec, Z.shiftr_spec, testbit_w64 by lia. replace (n <? 64) with true by (symmetry; apply Z.ltb_lt; lia). cbn [andb].
    rewrite Z.shiftl_spec by lia.
    replace (Z.testbit (if Z.testbit hi 0 then 225 * 2 ^ 120 else 0) n) with false.
    2:{ destruct (Z.testbit hi 0); [rewrite Z.mul_pow2_bits_low by lia; reflexivity|symmetry; apply Z.bits_0]. }
    rewrite Bool.xorb_false_r. destruct (Z.ltb_spec (n + 1) 64).
    + rewrite (Z.testbit_neg_r _ (n - 63)) by lia. symmetry; apply Bool.orb_false_r.
    + rewrite (testbit_high hi 64) by lia. cbn [orb]; f_equal; lia.
  - rewrite Z.lxor_spec, Z.shiftr_spec by lia. replace (n + 1 <? 64) with false by (symmetry; apply Z.ltb_ge; lia).
    f_equal; [f_equal; lia|]. destruct (Z.testbit hi 0); [|rewrite !Z.bits_0; reflexivity].
    change 16212958658533785600 with (225 * 2 ^ 56). rewrite !Z.mul_pow2_bits by lia. f_equal. lia.
Qed.

(* ---- Horner's rule, bit by bit from the low end ---- *)
Section Horner.
  Variable h : Z.
  Fixpoint G (m : nat) (x : Z) : Z :=
    match m with
    | O => 0
    | S k => Z.lxor (gmulx (G k x)) (if Z.testbit x (Z.of_nat k) then h else 0)
    end.
  Lemma G_ext m x y : (forall i, 0 <= i < Z.of_nat m -> Z.testbit x i = Z.testbit y i) -> G m x = G m y.
  Proof.
    induction m as [|m IH]; intros H; [reflexivity|]. cbn [G]. rewrite IH by (intros; apply H; lia). rewrite H by lia. reflexivity.
  Qed.
  Lemma G_4 m x : 0 <= x -> G (m + 4) x = Z.lxor (g4 (G m x)) (G 4 (Z.shiftr x (Z.of_nat m))).
  Proof.
    intros Hx. replace (m + 4)%nat with (S (S (S (S m)))) by lia. cbn [G].
    rewrite !Z.shiftr_spec by lia. rewrite gmulx_0, Z.lxor_0_l.
    replace (Z.of_nat 0 + Z.of_nat m) with (Z.of_nat m) by lia.
    replace (Z.of_nat 1 + Z.of_nat m) with (Z.of_nat (S m)) by lia.
    replace (Z.of_nat 2 + Z.of_nat m) with (Z.of_nat (S (S m))) by lia.
    replace (Z.of_nat 3 + Z.of_nat m) with (Z.of_nat (S (S (S m)))) by lia.
    unfold g4. rewrite !gmulx_lxor. rewrite !Z.lxor_assoc. reflexivity.
  Qed.
  Lemma fold_lxor_gmulx f l : (forall (i : nat), f (S i) = gmulx (f i)) -> forall (t : nat -> bool),
    fold_right (fun i acc => Z.lxor (if t i then f (S i) else 0) acc) 0 l = gmulx (fold_right (fun i acc => Z.lxor (if t i then f i else 0) acc) 0 l).
  Proof.
    intros Hf t. induction l as [|i l IH]; [reflexivity|]. cbn [fold_right]. rewrite IH, gmulx_lxor. f_equal.
    destruct (t i); [apply Hf|reflexivity].
  Qed.
  Lemma G_sum m x : fold_right (fun i acc => Z.lxor (if Z.testbit x (Z.of_nat m - 1 - Z.of_nat i) then Nat.iter i gmulx h else 0) acc) 0 (seq 0 m) = G m x.
  Proof.
    induction m as [|m IH]; [reflexivity|]. cbn [seq fold_right G].
    rewrite <- seq_shift.
    assert (HM : forall (F : nat -> Z -> Z) l, fold_right F 0 (map S l) = fold_right (fun i => F (S i)) 0 l).
    { intros F l. induction l as [|i l IHl]; [reflexivity|]. cbn [map fold_right]. rewrite IHl. reflexivity. }
    rewrite HM. rewrite Z.lxor_comm. f_equal.
    - rewrite <- IH.
      rewrite <- (fold_lxor_gmulx (fun i => Nat.iter i gmulx h) (seq 0 m) (fun i => eq_refl) (fun i => Z.testbit x (Z.of_nat m - 1 - Z.of_nat i))).
      assert (HE : forall (F1 F2 : nat -> Z -> Z) l, (forall i a, F1 i a = F2 i a) -> fold_right F1 0 l = fold_right F2 0 l).
      { intros F1 F2 l HF. induction l as [|i l IHl]; [reflexivity|]. cbn [fold_right]. rewrite IHl, HF. reflexivity. }
      apply HE. intros i a. replace (Z.of_nat (S m) - 1 - Z.of_nat (S i)) with (Z.of_nat m - 1 - Z.of_nat i) by lia. reflexivity.
    - replace (Z.of_nat (S m) - 1 - Z.of_nat 0) with (Z.of_nat m) by lia. reflexivity.
  Qed.
  Lemma gmul_G x : gmul x h = G 128 x.
  Proof. rewrite <- G_sum. reflexivity. Qed.
  Lemma G_range m x : 0 <= h < 2 ^ 128 -> 0 <= G m x < 2 ^ 128.
  Proof.
    intros Hh. induction m as [|m IH]; [cbn [G]; lia|]. cbn [G]. apply lxor_range; [lia|apply gmulx_range; auto|]. destruct (Z.testbit x (Z.of_nat m)); lia.
  Qed.
End Horner.

(* ---- the table ---- *)
Lemma table_val x : gok x -> forall n, 0 <= n < 16 ->
  gok (nth (Z.to_nat n) (ghash_table x) (0, 0)) /\ gval (nth (Z.to_nat n) (ghash_table x) (0, 0)) = G (gval x) 4 n.
Proof.
  intros Hx n Hn.
  assert (HT : ghash_table x =
    let d := gfe_dbl in let a := fun y => gfe_add y x in
    let t4 := d x in let t12 := a t4 in let t2 := d t4 in let t10 := a t2 in let t6 := d t12 in let t14 := a t6 in
    let t1 := d t2 in let t9 := a t1 in let t5 := d t10 in let t13 := a t5 in let t3 := d t6 in let t11 := a t3 in
    let t7 := d t14 in let t15 := a t7 in
    [(0, 0); t1; t2; t3; t4; t5; t6; t7; x; t9; t10; t11; t12; t13; t14; t15]) by reflexivity.
  rewrite HT. clear HT. cbv zeta beta.
  assert (D : forall y, gok y -> gok (gfe_dbl y)) by (intros; apply gfe_dbl_val; auto).
  assert (A : forall y, gok y -> gok (gfe_add y x)) by (intros; apply gfe_add_val; auto).
  assert (DV : forall y, gok y -> gval (gfe_dbl y) = gmulx (gval y)) by (intros; apply gfe_dbl_val; auto).
  assert (AV : forall y, gok y -> gval (gfe_add y x) = Z.lxor (gval y) (gval x)) by (intros; apply gfe_add_val; auto).
  assert (Z0 : gok (0, 0)) by (split; cbn [fst snd]; lia).
  assert (HC : n = 0 \/ n = 1 \/ n = 2 \/ n = 3 \/ n = 4 \/ n = 5 \/ n = 6 \/ n = 7 \/ n = 8 \/ n = 9 \/ n = 10 \/ n = 11 \/ n = 12 \/ n = 13 \/ n = 14 \/ n = 15) by lia.
  destruct HC as [->|[->|[->|[->|[->|[->|[->|[->|[->|[->|[->|[->|[->|[->|[->| ->]]]]]]]]]]]]]]];
    (split;
     [ match goal with |- gok ?t => let t' := eval cbv [nth Z.to_nat Pos.to_nat Pos.iter_op Nat.add] in t in change (gok t') end; auto 20
     | match goal with |- gval ?t = _ => let t' := eval cbv [nth Z.to_nat Pos.to_nat Pos.iter_op Nat.add] in t in change t with t' end;
       cbn [G]; cbv [Z.of_nat Pos.of_succ_nat Pos.succ Z.testbit Pos.testbit Pos.pred_N Pos.pred_double];
       rewrite ?gmulx_0, ?Z.lxor_0_l, ?Z.lxor_0_r, ?gmulx_0, ?Z.lxor_0_l, ?Z.lxor_0_r, ?gmulx_0, ?Z.lxor_0_l, ?Z.lxor_0_r, ?gmulx_0, ?Z.lxor_0_l, ?Z.lxor_0_r;
       repeat first [rewrite DV by auto 20 | rewrite AV by auto 20]; reflexivity ]).
Qed.

(* ---- one nibble ---- *)
Lemma mul_step_val x lo hi word : gok x -> gok (lo, hi) -> 0 <= word ->
  let '(lo2, hi2, word2) := mul_step (ghash_table x) (lo, hi, word) in
  gok (lo2, hi2) /\ word2 = Z.shiftr word 4 /\
  gval (lo2, hi2) = Z.lxor (g4 (gval (lo, hi))) (G (gval x) 4 word).
Proof.
  intros Hx Hg Hw. unfold mul_step.
  assert (HN : 0 <= Z.land word 15 < 16) by (change 15 with (Z.ones 4); rewrite Z.land_ones by lia; apply Z.mod_pos_bound; lia).
  destruct (table_val x Hx _ HN) as [T1 T2].
  set (t := nth (Z.to_nat (Z.land word 15)) (ghash_table x) (0, 0)) in *.
  rewrite (G_ext (gval x) 4 (Z.land word 15) word) in T2.
  2:{ intros i Hi. rewrite Z.land_spec. change 15 with (Z.ones 4). rewrite Z.ones_spec_low by lia. apply Bool.andb_true_r. }
  assert (HM : 0 <= Z.land hi 15 < 16) by (change 15 with (Z.ones 4); rewrite Z.land_ones by lia; apply Z.mod_pos_bound; lia).
  assert (HR : 0 <= nth (Z.to_nat (Z.land hi 15)) ghash_reduction 0 < 2 ^ 16).
  { revert HM. generalize (Z.land hi 15). intros k Hk.
    assert (HB : (0 <=? nth (Z.to_nat k) ghash_reduction 0) && (nth (Z.to_nat k) ghash_reduction 0 <? 2 ^ 16) = true).
    { apply (forall_zseq (fun k => (0 <=? nth (Z.to_nat k) ghash_reduction 0) && (nth (Z.to_nat k) ghash_reduction 0 <? 2 ^ 16)) 0 16); [vm_compute; reflexivity|lia]. }
    lia. }
  assert (HL : Z.land (gval (lo, hi)) 15 = Z.land hi 15).
  { apply Z.bits_inj'. intros n Hn. rewrite !Z.land_spec, gval_testbit by auto. change 15 with (Z.ones 4).
    destruct (Z.ltb_spec n 4); [|rewrite Z.ones_spec_high by lia; rewrite !Bool.andb_false_r; reflexivity].
    replace (n <? 64) with true by (symmetry; apply Z.ltb_lt; lia). reflexivity. }
  pose proof (g4_split (gval (lo, hi)) (proj1 (gval_range _ Hg))) as HS. rewrite HL in HS.
  set (r := nth (Z.to_nat (Z.land hi 15)) ghash_reduction 0) in *.
  unfold shr, shl64.
  set (lo1 := Z.lxor (Z.shiftr lo 4) (w64 (Z.shiftl r 48))). set (hi1 := Z.lor (Z.shiftr hi 4) (w64 (Z.shiftl lo 60))).
  destruct Hg as [Hlo Hhi]. cbn [fst snd] in *.
  assert (H1 : gok (lo1, hi1)).
  { split; cbn [fst snd]; unfold lo1, hi1; [apply lxor_range|apply lor_range]; try lia; try apply w64_range'; apply shr_range'; lia. }
  assert (H2 : gval (lo1, hi1) = g4 (gval (lo, hi))).
  { rewrite HS. apply gval_bits; auto. intros n Hn. cbn [fst snd].
    rewrite Z.lxor_spec, Z.shiftr_spec, gval_testbit by (try lia; split; auto). cbn [fst snd].
    destruct (Z.ltb_spec n 64) as [Hl|Hl].
    - unfold hi1. rewrite Z.lor_spec, Z.shiftr_spec, testbit_w64 by lia. replace (n <? 64) with true by (symmetry; apply Z.ltb_lt; lia). cbn [andb].
      rewrite (Z.shiftl_spec_low r 112 n) by lia. rewrite Bool.xorb_false_r. rewrite Z.shiftl_spec by lia.
      destruct (Z.ltb_spec (n + 4) 64).
      + rewrite (Z.testbit_neg_r _ (n - 60)) by lia. symmetry. apply Bool.orb_false_r.
      + rewrite (testbit_high hi 64) by lia. cbn [orb]. f_equal. lia.
    - unfold lo1. rewrite Z.lxor_spec, Z.shiftr_spec, testbit_w64 by lia. replace (n + 4 <? 64) with false by (symmetry; apply Z.ltb_ge; lia).
      rewrite !Z.shiftl_spec by lia. f_equal; [f_equal; lia|].
      destruct (Z.ltb_spec (n - 64) 64); cbn [andb]; [f_equal; lia|]. apply (testbit_high r 16); lia. }
  destruct t as [t1 t2] eqn:Et. cbn [fst snd].
  change (Z.lxor lo1 t1, Z.lxor hi1 t2, Z.shiftr word 4) with (fst (gfe_add (lo1, hi1) (t1, t2)), snd (gfe_add (lo1, hi1) (t1, t2)), Z.shiftr word 4).
  destruct (gfe_add_val _ _ H1 T1) as [A1 A2].
  split; [|split; [reflexivity|]].
  - exact A1.
  - change (gval (gfe_add (lo1, hi1) (t1, t2)) = Z.lxor (g4 (gval (lo, hi))) (G (gval x) 4 word)). rewrite A2, H2, T2. reflexivity.
Qed.

Lemma mul_iter x y word off k : gok x -> 0 <= word -> 0 <= y -> forall lo hi,
  gok (lo, hi) -> gval (lo, hi) = G (gval x) off y ->
  (forall i, 0 <= i < Z.of_nat (4 * k) -> Z.testbit word i = Z.testbit y (i + Z.of_nat off)) ->
  let '(lo2, hi2, _) := Nat.iter k (mul_step (ghash_table x)) (lo, hi, word) in
  gok (lo2, hi2) /\ gval (lo2, hi2) = G (gval x) (off + 4 * k) y.
Proof.
  intros Hx Hw Hy lo hi Hg HG Hb.
  assert (HI : forall j, (j <= k)%nat -> let '(lo2, hi2, word2) := Nat.iter j (mul_step (ghash_table x)) (lo, hi, word) in
    gok (lo2, hi2) /\ word2 = Z.shiftr word (4 * Z.of_nat j) /\ gval (lo2, hi2) = G (gval x) (off + 4 * j) y).
  { induction j as [|j IH]; intros Hj.
    - cbn [Nat.iter nat_rect]. rewrite Z.shiftr_0_r, Nat.add_0_r. auto.
    - change (Nat.iter (S j) (mul_step (ghash_table x)) (lo, hi, word)) with (mul_step (ghash_table x) (Nat.iter j (mul_step (ghash_table x)) (lo, hi, word))).
      specialize (IH ltac:(lia)). destruct (Nat.iter j (mul_step (ghash_table x)) (lo, hi, word)) as [[l1 h1] w1].
      destruct IH as (I1 & I2 & I3).
      pose proof (mul_step_val x l1 h1 w1 Hx I1) as HM.
      assert (Hw1 : 0 <= w1) by (rewrite I2; apply Z.shiftr_nonneg; auto). specialize (HM Hw1).
      destruct (mul_step (ghash_table x) (l1, h1, w1)) as [[l2 h2] w2]. destruct HM as (M1 & M2 & M3).
      split; [auto|]. split.
      + rewrite M2, I2, Z.shiftr_shiftr by lia. f_equal. lia.
      + rewrite M3, I3. replace (off + 4 * S j)%nat with (off + 4 * j + 4)%nat by lia. rewrite G_4 by auto. f_equal.
        apply G_ext. intros i Hi. rewrite I2, !Z.shiftr_spec by lia. rewrite Hb by lia. f_equal. lia. }
  specialize (HI k (le_n k)). destruct (Nat.iter k (mul_step (ghash_table x)) (lo, hi, word)) as [[l2 h2] w2]. tauto.
Qed.

Theorem gfe_mul_val x y : gok x -> gok y -> gok (gfe_mul y (ghash_table x)) /\ gval (gfe_mul y (ghash_table x)) = gmul (gval y) (gval x).
Proof.
  intros Hx Hy. pose proof (gval_range y Hy) as HR. unfold gfe_mul.
  assert (Z0 : gok (0, 0)) by (split; cbn [fst snd]; lia).
  pose proof (mul_iter x (gval y) (snd y) 0 16 Hx (proj1 (proj2 Hy)) (proj1 HR) 0 0 Z0 eq_refl) as H1.
  match type of H1 with ?A -> _ => assert (HA : A) end.
  { intros i Hi. rewrite gval_testbit by (auto; lia). replace (i + Z.of_nat 0 <? 64) with true by (symmetry; apply Z.ltb_lt; lia). f_equal. lia. }
  specialize (H1 HA). clear HA.
  destruct (Nat.iter 16 (mul_step (ghash_table x)) (0, 0, snd y)) as [[l1 h1] w1]. destruct H1 as [G1 V1].
  pose proof (mul_iter x (gval y) (fst y) 64 16 Hx (proj1 (proj1 Hy)) (proj1 HR) l1 h1 G1 V1) as H2.
  match type of H2 with ?A -> _ => assert (HA : A) end.
  { intros i Hi. rewrite gval_testbit by (auto; lia). replace (i + Z.of_nat 64 <? 64) with false by (symmetry; apply Z.ltb_ge; lia). f_equal. lia. }
  specialize (H2 HA). clear HA.
  destruct (Nat.iter 16 (mul_step (ghash_table x)) (l1, h1, fst y)) as [[l2 h2] w2]. destruct H2 as [G2 V2].
  split; [auto|]. rewrite V2, gmul_G. reflexivity.
Qed.
