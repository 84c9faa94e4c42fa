From Verif.Base Require Import Prelude.
From Verif.Model Require Import Bio Util.
From Verif.Spec Require Import UtilSpec.
From Verif.Proof Require Import BioProof.

Lemma lxor_zero_iff a b : Z.lxor a b = 0 <-> a = b.
Proof. apply Z.lxor_eq_0_iff. Qed.

Lemma eqbit a b : byte a -> byte b ->
  shr (sub32 (Z.lxor a b) 1) 31 = if a =? b then 1 else 0.
Proof.
  intros Ha Hb. unfold shr.
  assert (Hx : byte (Z.lxor a b)) by auto using byte_lxor. unfold byte in Hx.
  rewrite borrow32 by (change (2 ^ 31) with 2147483648; lia).
  destruct (Z.eqb_spec a b) as [->|N].
  - rewrite Z.lxor_nilpotent. reflexivity.
  - assert (Z.lxor a b <> 0) by (rewrite lxor_zero_iff; auto).
    destruct (Z.ltb_spec (Z.lxor a b) 1); lia.
Qed.

Lemma ltbit a b : byte a -> byte b -> shr (sub32 a b) 31 = if a <? b then 1 else 0.
Proof.
  intros Ha Hb. unfold byte in *. unfold shr.
  apply borrow32; change (2 ^ 31) with 2147483648; lia.
Qed.

Lemma memcmp_loop_done lt x y : bytes x -> bytes y -> (lt = 0 \/ lt = 1) ->
  memcmp_loop (0, lt) x y = (0, lt).
Proof.
  intros Hx. revert y. induction Hx as [|a x Ha Hx IH]; intros y Hy Hl; [reflexivity|].
  destruct Hy as [|b y Hb Hy]; [reflexivity|].
  cbn [memcmp_loop]. unfold memcmp_step. rewrite !Z.land_0_l, Z.lor_0_r. apply IH; auto.
Qed.

Lemma memcmp_loop_spec x y : bytes x -> bytes y -> length x = length y ->
  memcmp_loop (1, 0) x y =
  match lex x y with Eq => (1, 0) | Lt => (0, 1) | Gt => (0, 0) end.
Proof.
  intros Hx. revert y. induction Hx as [|a x Ha Hx IH]; intros y Hy HL.
  - destruct y; [reflexivity|discriminate].
  - destruct Hy as [|b y Hb Hy]; [discriminate|]. cbn [length] in HL.
    cbn [memcmp_loop lex]. unfold memcmp_step. rewrite eqbit, ltbit by auto.
    destruct (Z.compare_spec a b) as [E|E|E].
    + subst b. rewrite Z.eqb_refl, Z.ltb_irrefl. change (Z.lor 0 (Z.land 1 0)) with 0.
      change (Z.land 1 1) with 1. apply IH; auto.
    + replace (a =? b) with false by lia. replace (a <? b) with true by lia.
      apply memcmp_loop_done; auto.
    + replace (a =? b) with false by lia. replace (a <? b) with false by lia.
      apply memcmp_loop_done; auto.
Qed.

Lemma memcmp_correct x y : bytes x -> bytes y -> length x = length y ->
  torsion_memcmp x y = match lex x y with Eq => 0 | Lt => -1 | Gt => 1 end.
Proof.
  intros. unfold torsion_memcmp. rewrite memcmp_loop_spec by auto. destruct (lex x y); reflexivity.
Qed.

Lemma memcmp_var_correct x y : bytes x -> bytes y -> length x = length y ->
  match lex x y with
  | Eq => torsion_memcmp_var x y = 0
  | Lt => torsion_memcmp_var x y < 0
  | Gt => torsion_memcmp_var x y > 0
  end.
Proof.
  intros Hx. revert y. induction Hx as [|a x Ha Hx IH]; intros y Hy HL.
  - destruct y; [reflexivity|discriminate].
  - destruct Hy as [|b y Hb Hy]; [discriminate|]. cbn [length] in HL.
    cbn [lex torsion_memcmp_var]. destruct (Z.compare_spec a b) as [E|E|E].
    + subst. rewrite Z.eqb_refl. cbn [negb]. apply IH; auto.
    + replace (a =? b) with false by lia. cbn [negb]. lia.
    + replace (a =? b) with false by lia. cbn [negb]. lia.
Qed.

Lemma lex_eq_iff x y : lex x y = Eq <-> x = y.
Proof.
  revert y. induction x as [|a x IH]; intros [|b y]; cbn [lex]; try (split; congruence).
  destruct (Z.compare_spec a b); subst.
  - rewrite IH. split; congruence.
  - split; [discriminate|]. intros E; inversion E; lia.
  - split; [discriminate|]. intros E; inversion E; lia.
Qed.

Lemma lor_byte a b : byte a -> byte b -> byte (Z.lor a b).
Proof. unfold byte. change 256 with (2 ^ 8). apply lor_range. lia. Qed.

Lemma memequal_loop_spec x y z : bytes x -> bytes y -> length x = length y -> byte z ->
  byte (memequal_loop z x y) /\ (memequal_loop z x y = 0 <-> z = 0 /\ x = y).
Proof.
  intros Hx. revert y z. induction Hx as [|a x Ha Hx IH]; intros y z Hy HL Hz.
  - destruct y; [|discriminate]. cbn [memequal_loop]. intuition.
  - destruct Hy as [|b y Hb Hy]; [discriminate|]. cbn [length] in HL. cbn [memequal_loop].
    destruct (IH y (Z.lor z (Z.lxor a b))) as [B E]; auto using lor_byte, byte_lxor.
    split; [exact B|]. rewrite E, Z.lor_eq_0_iff, lxor_zero_iff.
    split; [intros [[-> ->] ->]; auto|]. intros [-> E2]. inversion E2; auto.
Qed.

Lemma memequal_correct x y : bytes x -> bytes y -> length x = length y ->
  torsion_memequal x y = 0 \/ torsion_memequal x y = 1 /\ x = y.
Proof.
  intros Hx Hy HL. unfold torsion_memequal, shr.
  destruct (memequal_loop_spec x y 0) as [B E]; auto; [unfold byte; lia|]. unfold byte in B.
  rewrite borrow32 by (change (2 ^ 31) with 2147483648; lia).
  destruct (Z.ltb_spec (memequal_loop 0 x y) 1); [right|left; auto].
  split; auto. apply E. lia.
Qed.

Lemma memequal_iff x y : bytes x -> bytes y -> length x = length y ->
  torsion_memequal x y = if list_eq_dec Z.eq_dec x y then 1 else 0.
Proof.
  intros Hx Hy HL. unfold torsion_memequal, shr.
  destruct (memequal_loop_spec x y 0) as [B E]; auto; [unfold byte; lia|]. unfold byte in B.
  rewrite borrow32 by (change (2 ^ 31) with 2147483648; lia).
  destruct (list_eq_dec Z.eq_dec x y) as [->|N].
  - replace (memequal_loop 0 y y) with 0 by (symmetry; apply E; auto). reflexivity.
  - destruct (Z.ltb_spec (memequal_loop 0 x y) 1); auto. exfalso. apply N, E. lia.
Qed.

Lemma memxor_xorl z x : torsion_memxor z x = xorl z x.
Proof.
  revert x. induction z as [|a z IH]; intros [|b x]; try reflexivity.
  cbn [torsion_memxor]. rewrite IH. reflexivity.
Qed.
Lemma memxor3_xorl z x : torsion_memxor3 z x = xorl z x.
Proof.
  revert x. induction z as [|a z IH]; intros [|b x]; try reflexivity.
  cbn [torsion_memxor3]. rewrite IH. reflexivity.
Qed.

(* ---- murmur3 ---- *)

Lemma rotl32_rol x n : 0 <= x < M32 -> 0 < n < 32 -> rotl32 x n = rol x n.
Proof.
  intros Hx Hn. unfold rotl32, rol, w32. rewrite M32_eq in *.
  rewrite shiftl_mul, shiftr_div by lia.
  assert (E : (x * 2 ^ n) mod 2 ^ 32 = (x mod 2 ^ (32 - n)) * 2 ^ n).
  { replace (2 ^ 32) with (2 ^ (32 - n) * 2 ^ n) by (rewrite <- Z.pow_add_r by lia; f_equal; lia).
    rewrite Z.mul_mod_distr_r by (apply Z.pow_nonzero; lia). reflexivity. }
  rewrite E. apply lor_add_low; [lia|]. split.
  - apply Z.div_pos; [lia|]. apply Z.pow_pos_nonneg; lia.
  - apply Z.div_lt_upper_bound; [apply Z.pow_pos_nonneg; lia|].
    rewrite <- Z.pow_add_r by lia. replace (32 - n + n) with 32 by lia. lia.
Qed.

Lemma rotl32_range x n : 0 <= x < M32 -> 0 < n < 32 -> 0 <= rotl32 x n < M32.
Proof.
  intros Hx Hn. unfold rotl32. rewrite M32_eq in *. apply lor_range; [lia| |].
  - unfold w32. rewrite M32_eq. apply Z.mod_pos_bound. reflexivity.
  - rewrite shiftr_div by lia. split.
    + apply Z.div_pos; [lia|]. apply Z.pow_pos_nonneg; lia.
    + apply Z.le_lt_trans with x; [|lia]. apply Z.div_le_upper_bound; [apply Z.pow_pos_nonneg; lia|].
      assert (1 <= 2 ^ (32 - n)) by (change 1 with (2 ^ 0); apply Z.pow_le_mono_r; lia). nia.
Qed.

Lemma mul32_range x y : 0 <= mul32 x y < M32.
Proof. apply w32_range. Qed.

Lemma mur_k_eq k : mul32 (rotl32 (mul32 k mur_c1) 15) mur_c2 = mur_k k.
Proof. rewrite rotl32_rol by (try apply mul32_range; lia). reflexivity. Qed.

Lemma mur_k_range k : 0 <= mur_k k < M32.
Proof. rewrite <- mur_k_eq. apply mul32_range. Qed.

Lemma lxor32_range x y : 0 <= x < M32 -> 0 <= y < M32 -> 0 <= Z.lxor x y < M32.
Proof. rewrite M32_eq. apply lxor_range. lia. Qed.

Lemma murmur3_block_range h l : 0 <= murmur3_block h l < M32.
Proof. apply w32_range. Qed.

Lemma murmur3_tail_range h l : 0 <= h < M32 -> 0 <= murmur3_tail h l < M32.
Proof.
  intros H. unfold murmur3_tail. cbv zeta. destruct (1 <=? length l)%nat; auto.
  apply lxor32_range; auto using mul32_range.
Qed.

Lemma murmur3_tail_spec h t : bytes t -> 0 <= h < M32 -> (length t < 4)%nat ->
  mur_body h t (murmur3_tail h t).
Proof.
  intros Ht Hh HL.
  destruct t as [|a [|b [|c [|d t]]]]; cbn [length] in HL; try lia.
  - apply mur_nil.
  - unfold murmur3_tail. cbn [length Nat.eqb Nat.leb rd nth].
    apply bytes_cons in Ht as [Ha _]. rewrite mur_k_eq, shl32_byte by (auto; lia).
    rewrite Z.lxor_0_l. replace (a * 2 ^ 0) with (le_val [a]) by (cbn; lia).
    apply mur_tail. cbn [length]. lia.
  - unfold murmur3_tail. cbn [length Nat.eqb Nat.leb rd nth].
    apply bytes_cons in Ht as [Ha Ht]. apply bytes_cons in Ht as [Hb _].
    rewrite mur_k_eq, !shl32_byte by (auto; lia). unfold byte in *.
    rewrite Z.lxor_0_l. change (2 ^ 8) with 256.
    replace (Z.lxor (b * 256) (a * 2 ^ 0)) with (le_val [a; b]).
    + apply mur_tail. cbn [length]. lia.
    + rewrite Z.pow_0_r, Z.mul_1_r. unfold le_val; cbn [dval].
      rewrite Z.lxor_lor.
      * change 256 with (2 ^ 8) at 3. rewrite (lor_add_low b a 8) by (change (2 ^ 8) with 256; lia).
        change (2 ^ 8) with 256. lia.
      * apply Z.bits_inj'. intros m Hm. rewrite Z.land_spec, Z.bits_0. change 256 with (2 ^ 8).
        destruct (Z.ltb_spec m 8).
        -- rewrite Z.mul_pow2_bits_low by lia. reflexivity.
        -- rewrite (testbit_high a 8 m) by (change (2 ^ 8) with 256; lia). apply andb_false_r.
  - unfold murmur3_tail. cbn [length Nat.eqb Nat.leb rd nth].
    apply bytes_cons in Ht as [Ha Ht]. apply bytes_cons in Ht as [Hb Ht]. apply bytes_cons in Ht as [Hc _].
    rewrite mur_k_eq, !shl32_byte by (auto; lia). unfold byte in *.
    rewrite Z.lxor_0_l.
    replace (Z.lxor (Z.lxor (c * 2 ^ 16) (b * 2 ^ 8)) (a * 2 ^ 0)) with (le_val [a; b; c]).
    + apply mur_tail. cbn [length]. lia.
    + rewrite Z.pow_0_r, Z.mul_1_r. unfold le_val; cbn [dval].
      assert (E : Z.lxor (c * 2 ^ 16) (b * 2 ^ 8) = (c * 256 + b) * 2 ^ 8).
      { rewrite Z.lxor_lor.
        - rewrite (lor_add_low c (b * 2 ^ 8) 16) by (change (2 ^ 8) with 256; change (2 ^ 16) with 65536; lia).
          change (2 ^ 8) with 256; change (2 ^ 16) with 65536; lia.
        - apply Z.bits_inj'. intros m Hm. rewrite Z.land_spec, Z.bits_0.
          destruct (Z.ltb_spec m 16).
          + rewrite Z.mul_pow2_bits_low by lia. reflexivity.
          + rewrite (testbit_high (b * 2 ^ 8) 16 m) by (change (2 ^ 8) with 256; change (2 ^ 16) with 65536; lia).
            apply andb_false_r. }
      rewrite E, Z.lxor_lor.
      * rewrite (lor_add_low _ a 8) by (change (2 ^ 8) with 256; lia). change (2 ^ 8) with 256. lia.
      * apply Z.bits_inj'. intros m Hm. rewrite Z.land_spec, Z.bits_0.
        destruct (Z.ltb_spec m 8).
        -- rewrite Z.mul_pow2_bits_low by lia. reflexivity.
        -- rewrite (testbit_high a 8 m) by (change (2 ^ 8) with 256; lia). apply andb_false_r.
Qed.

Lemma murmur3_body fuel h data h1 rest : bytes data -> 0 <= h < M32 -> (length data <= fuel)%nat ->
  murmur3_loop fuel h data = (h1, rest) -> 
  mur_body h data (murmur3_tail h1 rest) /\ 0 <= h1 < M32.
Proof.
  revert h data. induction fuel as [|f IH]; intros h data Hd Hh HF HE; cbn [murmur3_loop] in HE.
  - inversion HE; subst. split; auto. apply murmur3_tail_spec; auto. lia.
  - destruct (Nat.leb_spec 4 (length data)).
    + destruct data as [|a [|b [|c [|d t]]]]; cbn [length] in *; try lia.
      cbn [skipn] in HE. apply IH in HE; [|auto|apply murmur3_block_range|lia].
      * destruct HE as [HE HR]. split; auto.
        apply mur_block. 
        replace (((rol (Z.lxor h (mur_k (le_val [a; b; c; d]))) 13 * 5 + 0xe6546b64) mod 2 ^ 32))
          with (murmur3_block h (a :: b :: c :: d :: t)); [exact HE|].
        unfold murmur3_block. cbv zeta.
        rewrite read32le_spec by auto. cbn [rd nth]. rewrite mur_k_eq.
        rewrite rotl32_rol by (try apply lxor32_range; auto using mur_k_range; lia).
        unfold add32, mul32, w32. rewrite Zplus_mod_idemp_l. reflexivity.
      * change t with (skipn 4 (a :: b :: c :: d :: t)). apply bytes_skipn; auto.
    + inversion HE; subst. split; auto. apply murmur3_tail_spec; auto; lia.
Qed.

Lemma murmur3_fin_spec h len : 0 <= h < M32 -> 0 <= len ->
  murmur3_fin h len = fmix32 (Z.lxor h (len mod 2 ^ 32)).
Proof.
  intros Hh Hl.
  assert (E : w32 (Z.lxor h len) = Z.lxor h (len mod 2 ^ 32)).
  { apply Z.bits_inj'. intros m Hm. rewrite testbit_w32, !Z.lxor_spec, testbit_w by lia.
    destruct (Z.ltb_spec m 32); [reflexivity|].
    rewrite (testbit_high h 32 m) by (rewrite <- ?M32_eq; lia). reflexivity. }
  unfold murmur3_fin. rewrite E. unfold fmix32, shr, mul32, w32, M32. cbv zeta.
  rewrite !shiftr_div by lia. reflexivity.
Qed.

Lemma murmur3_correct data seed : bytes data -> 0 <= seed < M32 ->
  is_murmur3 data seed (murmur3_sum data seed).
Proof.
  intros Hd Hs. unfold murmur3_sum.
  destruct (murmur3_loop (length data) seed data) as [h1 rest] eqn:E.
  apply murmur3_body in E as [E R]; auto.
  exists (murmur3_tail h1 rest). split; auto. apply murmur3_fin_spec; [|lia].
  apply murmur3_tail_range; auto.
Qed.

Lemma mur_body_fun h d h1 h2 : mur_body h d h1 -> mur_body h d h2 -> h1 = h2.
Proof.
  intros H. revert h2. induction H; intros h2 H2.
  - inversion H2; subst; auto. cbn [length] in *. lia.
  - destruct t as [|a [|b [|c [|e t]]]]; cbn [length] in *; try lia; inversion H2; subst; auto.
  - inversion H2; subst; auto. cbn [length] in *. lia.
Qed.

Lemma murmur3_correct_iff data seed r : bytes data -> 0 <= seed < M32 ->
  (murmur3_sum data seed = r <-> is_murmur3 data seed r).
Proof.
  intros Hd Hs. split.
  - intros <-. apply murmur3_correct; auto.
  - intros [h [Hb ->]]. destruct (murmur3_correct data seed Hd Hs) as [h' [Hb' ->]].
    rewrite (mur_body_fun _ _ _ _ Hb Hb'). reflexivity.
Qed.

Lemma memxor_involutive z x : length z = length x ->
  torsion_memxor (torsion_memxor z x) x = z.
Proof. intros. rewrite !memxor_xorl. apply xorl_involutive. lia. Qed.

Lemma memxor_nth z x i : length z = length x -> (i < length z)%nat ->
  nth i (torsion_memxor z x) 0 = Z.lxor (nth i z 0) (nth i x 0).
Proof.
  revert x i. induction z as [|a z IH]; intros [|b x] i HL Hi; cbn [length] in *; try lia.
  destruct i; cbn [torsion_memxor nth]; auto. apply IH; lia.
Qed.
Lemma memxor3_nth z x i : length z = length x -> (i < length z)%nat ->
  nth i (torsion_memxor3 z x) 0 = Z.lxor (nth i z 0) (nth i x 0).
Proof. intros. rewrite memxor3_xorl, <- memxor_xorl. apply memxor_nth; auto. Qed.
Lemma memxor_length z x : length z = length x -> length (torsion_memxor z x) = length z.
Proof. intros H. rewrite memxor_xorl, xorl_length, <- H. lia. Qed.
Lemma memxor3_length z x : length z = length x -> length (torsion_memxor3 z x) = length z.
Proof. intros H. rewrite memxor3_xorl, xorl_length, <- H. lia. Qed.
