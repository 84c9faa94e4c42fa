From Verif.Base Require Import Prelude.
From Verif.Model Require Import Bio.

Lemma shl32_byte b n : byte b -> 0 <= n <= 24 -> shl32 b n = b * 2 ^ n.
Proof.
  intros Hb Hn. unfold shl32. rewrite shiftl_mul by lia. apply w32_small.
  assert (0 < 2 ^ n) by (apply Z.pow_pos_nonneg; lia).
  assert (2 ^ n <= 2 ^ 24) by (apply Z.pow_le_mono_r; lia).
  change (2 ^ 24) with 16777216 in *. unfold byte, M32 in *. nia.
Qed.

Lemma shl64_byte b n : byte b -> 0 <= n <= 56 -> shl64 b n = b * 2 ^ n.
Proof.
  intros Hb Hn. unfold shl64. rewrite shiftl_mul by lia. apply w64_small.
  assert (0 < 2 ^ n) by (apply Z.pow_pos_nonneg; lia).
  assert (2 ^ n <= 2 ^ 56) by (apply Z.pow_le_mono_r; lia).
  change (2 ^ 56) with 72057594037927936 in *. unfold byte, M64 in *. nia.
Qed.

Lemma lor_lo a b n : 0 <= n -> 0 <= b < 2 ^ n -> 
  forall x, x = a * 2 ^ n -> Z.lor x b = x + b.
Proof. intros Hn Hb x ->. apply lor_add_low; auto. Qed.

Lemma read32_words a b c d : byte a -> byte b -> byte c -> byte d ->
  Z.lor (Z.lor (Z.lor (shl32 d 24) (shl32 c 16)) (shl32 b 8)) a
  = a + 256 * b + 65536 * c + 16777216 * d.
Proof.
  intros Ha Hb Hc Hd. rewrite !shl32_byte by (auto; lia). unfold byte in *.
  change (2 ^ 24) with 16777216. change (2 ^ 16) with 65536. change (2 ^ 8) with 256.
  rewrite (lor_lo d (c * 65536) 24) by (change (2 ^ 24) with 16777216; lia).
  rewrite (lor_lo (d * 256 + c) (b * 256) 16) by (change (2 ^ 16) with 65536; lia).
  rewrite (lor_lo (d * 65536 + c * 256 + b) a 8) by (change (2 ^ 8) with 256; lia).
  lia.
Qed.

Lemma read64_words b0 b1 b2 b3 b4 b5 b6 b7 : byte b0 -> byte b1 -> byte b2 -> byte b3 ->
  byte b4 -> byte b5 -> byte b6 -> byte b7 ->
  Z.lor (Z.lor (Z.lor (Z.lor (Z.lor (Z.lor (Z.lor
    (shl64 b7 56) (shl64 b6 48)) (shl64 b5 40))
    (shl64 b4 32)) (shl64 b3 24)) (shl64 b2 16))
    (shl64 b1 8)) b0
  = le_val [b0; b1; b2; b3; b4; b5; b6; b7].
Proof.
  intros. rewrite !shl64_byte by (auto; lia). unfold byte in *.
  change (2 ^ 56) with 72057594037927936. change (2 ^ 48) with 281474976710656.
  change (2 ^ 40) with 1099511627776. change (2 ^ 32) with 4294967296.
  change (2 ^ 24) with 16777216. change (2 ^ 16) with 65536. change (2 ^ 8) with 256.
  rewrite (lor_lo b7 (b6 * 281474976710656) 56) by (change (2 ^ 56) with 72057594037927936; lia).
  rewrite (lor_lo (b7 * 256 + b6) (b5 * 1099511627776) 48) by (change (2 ^ 48) with 281474976710656; lia).
  rewrite (lor_lo (b7 * 65536 + b6 * 256 + b5) (b4 * 4294967296) 40) by (change (2 ^ 40) with 1099511627776; lia).
  rewrite (lor_lo (b7 * 16777216 + b6 * 65536 + b5 * 256 + b4) (b3 * 16777216) 32)
    by (change (2 ^ 32) with 4294967296; lia).
  rewrite (lor_lo (b7 * 4294967296 + b6 * 16777216 + b5 * 65536 + b4 * 256 + b3) (b2 * 65536) 24)
    by (change (2 ^ 24) with 16777216; lia).
  rewrite (lor_lo (b7 * 1099511627776 + b6 * 4294967296 + b5 * 16777216 + b4 * 65536 + b3 * 256 + b2) (b1 * 256) 16)
    by (change (2 ^ 16) with 65536; lia).
  rewrite (lor_lo (b7 * 281474976710656 + b6 * 1099511627776 + b5 * 4294967296 + b4 * 16777216 + b3 * 65536 + b2 * 256 + b1) b0 8)
    by (change (2 ^ 8) with 256; lia).
  unfold le_val. cbn [dval]. lia.
Qed.

Lemma rd_byte s i : bytes s -> byte (rd s i).
Proof. intros H. unfold rd. apply (Forall_nth_d byte); auto. unfold byte; lia. Qed.

(* value of the 4 (8) bytes at the pointer *)
Lemma read32le_spec s : bytes s -> read32le s = le_val [rd s 0; rd s 1; rd s 2; rd s 3].
Proof.
  intros H. unfold read32le. rewrite read32_words by (apply rd_byte; auto).
  unfold le_val. cbn [dval]. lia.
Qed.
Lemma read32be_spec s : bytes s -> read32be s = be_val [rd s 0; rd s 1; rd s 2; rd s 3].
Proof.
  intros H. unfold read32be. rewrite read32_words by (apply rd_byte; auto).
  unfold be_val. cbn [rev app dval]. lia.
Qed.
Lemma read64le_spec s : bytes s ->
  read64le s = le_val [rd s 0; rd s 1; rd s 2; rd s 3; rd s 4; rd s 5; rd s 6; rd s 7].
Proof. intros H. unfold read64le. apply read64_words; apply rd_byte; auto. Qed.
Lemma read64be_spec s : bytes s ->
  read64be s = be_val [rd s 0; rd s 1; rd s 2; rd s 3; rd s 4; rd s 5; rd s 6; rd s 7].
Proof. intros H. unfold read64be. rewrite read64_words by (apply rd_byte; auto). reflexivity. Qed.
Lemma read16be_spec s : bytes s -> read16be s = be_val [rd s 0; rd s 1].
Proof.
  intros H. unfold read16be, w16. pose proof (rd_byte s 0 H). pose proof (rd_byte s 1 H).
  unfold byte in *. rewrite shiftl_mul by lia. change (2 ^ 8) with 256.
  rewrite Z.mod_small by (unfold M16; lia).
  rewrite (lor_lo (rd s 0) (rd s 1) 8) by (change (2 ^ 8) with 256; lia).
  unfold be_val. cbn [rev app dval]. lia.
Qed.

Lemma read32le_range s : bytes s -> 0 <= read32le s < M32.
Proof.
  intros H. rewrite read32le_spec by auto.
  change M32 with (256 ^ Z.of_nat (length [rd s 0; rd s 1; rd s 2; rd s 3])).
  apply le_val_range. repeat constructor; apply rd_byte; auto.
Qed.
Lemma read32be_range s : bytes s -> 0 <= read32be s < M32.
Proof.
  intros H. rewrite read32be_spec by auto.
  change M32 with (256 ^ Z.of_nat (length [rd s 0; rd s 1; rd s 2; rd s 3])).
  apply be_val_range. repeat constructor; apply rd_byte; auto.
Qed.
Lemma read64le_range s : bytes s -> 0 <= read64le s < M64.
Proof.
  intros H. rewrite read64le_spec by auto.
  change M64 with (256 ^ Z.of_nat 8).
  apply (le_val_range [rd s 0; rd s 1; rd s 2; rd s 3; rd s 4; rd s 5; rd s 6; rd s 7]).
  repeat constructor; apply rd_byte; auto.
Qed.
Lemma read64be_range s : bytes s -> 0 <= read64be s < M64.
Proof.
  intros H. rewrite read64be_spec by auto.
  change M64 with (256 ^ Z.of_nat 8).
  apply (be_val_range [rd s 0; rd s 1; rd s 2; rd s 3; rd s 4; rd s 5; rd s 6; rd s 7]).
  repeat constructor; apply rd_byte; auto.
Qed.

Lemma write32le_spec w : write32le w = le_bytes 4 w.
Proof.
  unfold write32le, le_bytes, shr, w8, M8. cbn [digits].
  rewrite !shiftr_div by lia. rewrite !Z.div_div by lia.
  rewrite Z.pow_0_r, Z.div_1_r. reflexivity.
Qed.
Lemma write64le_spec w : write64le w = le_bytes 8 w.
Proof.
  unfold write64le, le_bytes, shr, w8, M8. cbn [digits].
  rewrite !shiftr_div by lia. rewrite !Z.div_div by lia.
  rewrite Z.pow_0_r, Z.div_1_r. reflexivity.
Qed.
Lemma write32be_spec w : write32be w = be_bytes 4 w.
Proof. unfold be_bytes. change (digits 256 4 w) with (le_bytes 4 w). rewrite <- write32le_spec. reflexivity. Qed.
Lemma write64be_spec w : write64be w = be_bytes 8 w.
Proof. unfold be_bytes. change (digits 256 8 w) with (le_bytes 8 w). rewrite <- write64le_spec. reflexivity. Qed.

Lemma write32le_bytes w : bytes (write32le w).
Proof. rewrite write32le_spec. apply le_bytes_bytes. Qed.
Lemma write64le_bytes w : bytes (write64le w).
Proof. rewrite write64le_spec. apply le_bytes_bytes. Qed.
Lemma write32be_bytes w : bytes (write32be w).
Proof. rewrite write32be_spec. apply be_bytes_bytes. Qed.
Lemma write64be_bytes w : bytes (write64be w).
Proof. rewrite write64be_spec. apply be_bytes_bytes. Qed.

(* increment: little-endian counter arithmetic modulo 256^n *)
Lemma inc_le_loop_spec x c : bytes x -> 0 <= c <= 1 ->
  inc_le_loop c x = le_bytes (length x) (le_val x + c).
Proof.
  intros H. revert c. induction H as [|b t Hb Ht IH]; intros c Hc; [reflexivity|].
  cbn [inc_le_loop length]. unfold le_bytes, le_val in *. cbn [digits dval].
  unfold byte in Hb. f_equal.
  - unfold w8, M8. lia.
  - rewrite IH by (unfold shr; rewrite shiftr_div by lia; change (2 ^ 8) with 256; lia).
    f_equal. unfold shr. rewrite shiftr_div by lia. change (2 ^ 8) with 256. lia.
Qed.

Lemma inc_le_var_loop_spec x c : bytes x -> 0 <= c <= 1 ->
  inc_le_var_loop c x = le_bytes (length x) (le_val x + c).
Proof.
  intros H. revert c. induction H as [|b t Hb Ht IH]; intros c Hc; [reflexivity|].
  cbn [inc_le_var_loop].
  destruct (c =? 0) eqn:E.
  - replace c with 0 by lia. rewrite Z.add_0_r. symmetry. apply le_bytes_le_val.
    constructor; auto.
  - cbn [length]. unfold le_bytes, le_val in *. cbn [digits dval]. unfold byte in Hb.
    assert (c = 1) by lia. subst c. f_equal.
    + unfold w8, M8. lia.
    + rewrite IH by (destruct (_ <? _); lia). f_equal. unfold w8, M8.
      destruct (Z.ltb_spec ((b + 1) mod 256) 1); lia.
Qed.

Lemma increment_le_spec x : bytes x -> increment_le x = le_bytes (length x) (le_val x + 1).
Proof. intros. apply inc_le_loop_spec; auto; lia. Qed.
Lemma increment_le_var_spec x : bytes x -> increment_le_var x = le_bytes (length x) (le_val x + 1).
Proof. intros. apply inc_le_var_loop_spec; auto; lia. Qed.
Lemma increment_be_spec x : bytes x -> increment_be x = be_bytes (length x) (be_val x + 1).
Proof.
  intros. unfold increment_be, be_bytes, be_val.
  rewrite inc_le_loop_spec by (auto using bytes_rev; lia). rewrite rev_length. reflexivity.
Qed.
Lemma increment_be_var_spec x : bytes x -> increment_be_var x = be_bytes (length x) (be_val x + 1).
Proof.
  intros. unfold increment_be_var, be_bytes, be_val.
  rewrite inc_le_var_loop_spec by (auto using bytes_rev; lia). rewrite rev_length. reflexivity.
Qed.
