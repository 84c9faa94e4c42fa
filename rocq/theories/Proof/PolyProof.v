(* Poly1305: the limb code computes mod 2^130 - 5 *)
From Verif.Base Require Import Prelude.
From Verif.Model Require Import Bio Block Mac.
From Verif.Spec Require Import BlockSpec MacSpec.
From Verif.Proof Require Import BioProof BlockProof BufCrypt.
#[local] Ltac Zify.zify_post_hook ::= idtac.

(* take one let out of the goal P (let x := v in b) *)
Ltac lt :=
  lazymatch goal with
  | |- ?P (let x := ?v in @?b x) => let y := fresh x in pose (y := v); change (P (b y)); cbv beta
  end.
(* name it y with equation H *)
Tactic Notation "lt" ident(y) ident(H) :=
  lazymatch goal with
  | |- ?P (let x := ?v in @?b x) => pose (y := v); change (P (b y)); cbv beta; assert (H : y = v) by reflexivity; clearbody y
  end.

Lemma land_m44 x : Z.land x m44 = x mod 2 ^ 44.
Proof. change m44 with (2 ^ 44 - 1). apply land_mask. lia. Qed.
Lemma land_m42 x : Z.land x m42 = x mod 2 ^ 42.
Proof. change m42 with (2 ^ 42 - 1). apply land_mask. lia. Qed.
Lemma land_m26 x : Z.land x m26 = x mod 2 ^ 26.
Proof. change m26 with (2 ^ 26 - 1). apply land_mask. lia. Qed.
Lemma land_ff32 x : Z.land x 0xffffffff = x mod 2 ^ 32.
Proof. change 0xffffffff with (2 ^ 32 - 1). apply land_mask. lia. Qed.

(* ---- reading limbs of a 16-byte block ---- *)
Lemma le_val_firstn k d : bytes d -> (k <= length d)%nat -> le_val (firstn k d) = le_val d mod 256 ^ Z.of_nat k.
Proof.
  intros H L. rewrite <- (firstn_skipn k d) at 2. unfold le_val. rewrite dval_app, firstn_length, Nat.min_l by auto.
  assert (0 < 256 ^ Z.of_nat k) by (apply Z.pow_pos_nonneg; lia).
  rewrite (Z.mul_comm _ (dval 256 (skipn k d))), Z.mod_add by lia. symmetry. apply Z.mod_small.
  pose proof (le_val_range (firstn k d) (bytes_firstn k d H)) as R. unfold le_val in R. rewrite firstn_length, Nat.min_l in R by auto. auto.
Qed.
Lemma le_val_skipn k d : bytes d -> (k <= length d)%nat -> le_val (skipn k d) = le_val d / 256 ^ Z.of_nat k.
Proof.
  intros H L. rewrite <- (firstn_skipn k d) at 2. unfold le_val. rewrite dval_app, firstn_length, Nat.min_l by auto.
  assert (0 < 256 ^ Z.of_nat k) by (apply Z.pow_pos_nonneg; lia).
  rewrite (Z.mul_comm _ (dval 256 (skipn k d))), Z.div_add by lia.
  pose proof (le_val_range (firstn k d) (bytes_firstn k d H)) as R. unfold le_val in R. rewrite firstn_length, Nat.min_l in R by auto.
  rewrite Z.div_small by auto. lia.
Qed.
Lemma read64le_firstn s : bytes s -> (8 <= length s)%nat -> read64le s = le_val (firstn 8 s).
Proof.
  intros H L. rewrite read64le_spec by auto. do 8 (destruct s as [|? s]; [cbn in L; lia|]). reflexivity.
Qed.
Lemma read32le_firstn s : bytes s -> (4 <= length s)%nat -> read32le s = le_val (firstn 4 s).
Proof.
  intros H L. rewrite read32le_spec by auto. do 4 (destruct s as [|? s]; [cbn in L; lia|]). reflexivity.
Qed.
Lemma read64_at k d : bytes d -> (k + 8 <= length d)%nat -> read64le (skipn k d) = (le_val d / 256 ^ Z.of_nat k) mod 2 ^ 64.
Proof.
  intros H L. rewrite read64le_firstn by (auto using bytes_skipn; rewrite skipn_length; lia).
  rewrite le_val_firstn by (auto using bytes_skipn; rewrite skipn_length; lia). rewrite le_val_skipn by (auto; lia). reflexivity.
Qed.
Lemma read32_at k d : bytes d -> (k + 4 <= length d)%nat -> read32le (skipn k d) = (le_val d / 256 ^ Z.of_nat k) mod 2 ^ 32.
Proof.
  intros H L. rewrite read32le_firstn by (auto using bytes_skipn; rewrite skipn_length; lia).
  rewrite le_val_firstn by (auto using bytes_skipn; rewrite skipn_length; lia). rewrite le_val_skipn by (auto; lia). reflexivity.
Qed.

Section Limbs.
  Variable T : Z.
  Hypothesis HT : 0 <= T < 2 ^ 128.
  Lemma t1_val : T / 2 ^ 64 mod 2 ^ 64 = T / 2 ^ 64.
  Proof. apply Z.mod_small. split; [apply Z.div_pos; lia|apply Z.div_lt_upper_bound; lia]. Qed.
  Lemma mid_limb : Z.lor (shr (T mod 2 ^ 64) 44) (shl64 (T / 2 ^ 64) 20) = w64 (shr T 44).
  Proof.
    apply Z.bits_inj'. intros n Hn. unfold shr, shl64. rewrite Z.lor_spec, !testbit_w64, Z.shiftr_spec, Z.shiftl_spec, Z.shiftr_spec by lia.
    rewrite <- Z.shiftr_div_pow2 by lia.
    destruct (Z.ltb_spec n 20).
    - rewrite (Z.testbit_neg_r _ (n - 20)) by lia. rewrite andb_false_r, orb_false_r.
      rewrite Z.mod_pow2_bits_low by lia. destruct (Z.ltb_spec n 64); [reflexivity|lia].
    - rewrite Z.mod_pow2_bits_high by lia. cbn [orb]. rewrite Z.shiftr_spec by lia. replace (n - 20 + 64) with (n + 44) by lia. reflexivity.
  Qed.
  Lemma low_land c : 0 <= c < 2 ^ 64 -> Z.land (T mod 2 ^ 64) c = Z.land T c.
  Proof.
    intros Hc. apply Z.bits_inj'. intros n Hn. rewrite !Z.land_spec. destruct (Z.ltb_spec n 64).
    - rewrite Z.mod_pow2_bits_low by lia. reflexivity.
    - rewrite (testbit_high c 64 n) by lia. rewrite !andb_false_r. reflexivity.
  Qed.
  Lemma w64_land x c : 0 <= c < 2 ^ 64 -> Z.land (w64 x) c = Z.land x c.
  Proof.
    intros Hc. apply Z.bits_inj'. intros n Hn. rewrite !Z.land_spec, testbit_w64 by lia. destruct (Z.ltb_spec n 64); [reflexivity|].
    rewrite (testbit_high c 64 n) by lia. rewrite !andb_false_r. reflexivity.
  Qed.
  Lemma hi_limb : shr (T / 2 ^ 64) 24 = shr T 88.
  Proof. unfold shr. rewrite <- Z.shiftr_div_pow2, Z.shiftr_shiftr by lia. reflexivity. Qed.
End Limbs.

Lemma shr_div x n : 0 <= n -> shr x n = x / 2 ^ n.
Proof. intros. unfold shr. apply Z.shiftr_div_pow2. lia. Qed.

(* R with the limb masks *)
Lemma clamp_limbs T : 0 <= T < 2 ^ 128 ->
  let R := Z.land T 0x0ffffffc0ffffffc0ffffffc0fffffff in
  Z.land T 0xffc0fffffff + 2 ^ 44 * Z.land (shr T 44) 0xfffffc0ffff + 2 ^ 88 * Z.land (shr T 88) 0x00ffffffc0f = R.
Proof.
  intros HT R.
  assert (E0 : Z.land T 0xffc0fffffff = R mod 2 ^ 44) by (unfold R; rewrite <- land_mask, <- Z.land_assoc by lia; reflexivity).
  assert (E1 : Z.land (shr T 44) 0xfffffc0ffff = R / 2 ^ 44 mod 2 ^ 44).
  { unfold R. rewrite <- (shr_div _ 44) by lia. rewrite <- land_mask by lia. unfold shr. rewrite Z.shiftr_land, <- Z.land_assoc. reflexivity. }
  assert (E2 : Z.land (shr T 88) 0x00ffffffc0f = R / 2 ^ 44 / 2 ^ 44).
  { unfold R. rewrite Z.div_div by lia. change (2 ^ 44 * 2 ^ 44) with (2 ^ 88). rewrite <- (shr_div _ 88) by lia. unfold shr. rewrite Z.shiftr_land. reflexivity. }
  rewrite E0, E1, E2. pose proof (Z.div_mod R (2 ^ 44) ltac:(lia)). pose proof (Z.div_mod (R / 2 ^ 44) (2 ^ 44) ltac:(lia)). lia.
Qed.
Lemma clamp_limbs32 T : 0 <= T < 2 ^ 128 ->
  let R := Z.land T 0x0ffffffc0ffffffc0ffffffc0fffffff in
  Z.land T 0x3ffffff + 2 ^ 26 * Z.land (shr T 26) 0x3ffff03 + 2 ^ 52 * Z.land (shr T 52) 0x3ffc0ff
   + 2 ^ 78 * Z.land (shr T 78) 0x3f03fff + 2 ^ 104 * Z.land (shr T 104) 0x00fffff = R.
Proof.
  intros HT R.
  assert (E0 : Z.land T 0x3ffffff = R mod 2 ^ 26) by (unfold R; rewrite <- land_mask, <- Z.land_assoc by lia; reflexivity).
  assert (E1 : Z.land (shr T 26) 0x3ffff03 = R / 2 ^ 26 mod 2 ^ 26).
  { unfold R. rewrite <- (shr_div _ 26) by lia. rewrite <- land_mask by lia. unfold shr. rewrite Z.shiftr_land, <- Z.land_assoc. reflexivity. }
  assert (E2 : Z.land (shr T 52) 0x3ffc0ff = R / 2 ^ 26 / 2 ^ 26 mod 2 ^ 26).
  { unfold R. rewrite Z.div_div by lia. change (2 ^ 26 * 2 ^ 26) with (2 ^ 52). rewrite <- (shr_div _ 52) by lia. rewrite <- land_mask by lia.
    unfold shr. rewrite Z.shiftr_land, <- Z.land_assoc. reflexivity. }
  assert (E3 : Z.land (shr T 78) 0x3f03fff = R / 2 ^ 26 / 2 ^ 26 / 2 ^ 26 mod 2 ^ 26).
  { unfold R. rewrite !Z.div_div by lia. change (2 ^ 26 * 2 ^ 26 * 2 ^ 26) with (2 ^ 78). change (2 ^ 26 * (2 ^ 26 * 2 ^ 26)) with (2 ^ 78). rewrite <- (shr_div _ 78) by lia. rewrite <- land_mask by lia.
    unfold shr. rewrite Z.shiftr_land, <- Z.land_assoc. reflexivity. }
  assert (E4 : Z.land (shr T 104) 0x00fffff = R / 2 ^ 26 / 2 ^ 26 / 2 ^ 26 / 2 ^ 26).
  { unfold R. rewrite !Z.div_div by lia. change (2 ^ 26 * 2 ^ 26 * 2 ^ 26 * 2 ^ 26) with (2 ^ 104). change (2 ^ 26 * (2 ^ 26 * (2 ^ 26 * 2 ^ 26))) with (2 ^ 104).
    rewrite <- (shr_div _ 104) by lia. unfold shr. rewrite Z.shiftr_land. reflexivity. }
  rewrite E0, E1, E2, E3, E4. pose proof (Z.div_mod R (2 ^ 26) ltac:(lia)). pose proof (Z.div_mod (R / 2 ^ 26) (2 ^ 26) ltac:(lia)).
  pose proof (Z.div_mod (R / 2 ^ 26 / 2 ^ 26) (2 ^ 26) ltac:(lia)). pose proof (Z.div_mod (R / 2 ^ 26 / 2 ^ 26 / 2 ^ 26) (2 ^ 26) ltac:(lia)). lia.
Qed.
