(* xts_shift and cmac_shift double in GF(2^64) / GF(2^128) *)
From Verif.Base Require Import Prelude.
From Verif.Model Require Import Bio Util Block Encoding Modes.
From Verif.Spec Require Import BlockSpec StreamSpec ModesSpec.
From Verif.Proof Require Import UtilProof BioProof BufCrypt.

Fixpoint dl (c : Z) (l : list Z) : list Z :=
  match l with [] => [] | b :: t => (2 * b) mod 256 + c :: dl (b / 128) t end.
Lemma dl_length c l : length (dl c l) = length l.
Proof. revert c. induction l; intros c; cbn; auto. Qed.
Lemma dl_bytes l : forall c, 0 <= c <= 1 -> bytes l -> bytes (dl c l).
Proof.
  induction l as [|b t IH]; intros c Hc Hl; cbn [dl]; [constructor|]. apply bytes_cons in Hl as [Hb Ht].
  unfold byte in Hb. apply bytes_cons. split; [unfold byte; lia|]. apply IH; auto. lia.
Qed.
Lemma dl_val l : forall c, 0 <= c <= 1 -> bytes l ->
  le_val (dl c l) + 256 ^ Z.of_nat (length l) * (last l (128 * c) / 128) = 2 * le_val l + c.
Proof.
  induction l as [|b t IH]; intros c Hc Hl.
  - cbn [dl last length le_val dval]. change (256 ^ Z.of_nat 0) with 1. rewrite (Z.mul_comm 128 c), Z.div_mul by lia. lia.
  - apply bytes_cons in Hl as [Hb Ht]. unfold byte in Hb. cbn [dl]. unfold le_val in *. cbn [dval].
    specialize (IH (b / 128) ltac:(lia) Ht).
    replace (last (b :: t) (128 * c)) with (last t b).
    2:{ clear. revert b. induction t as [|y l IH]; intros x; [reflexivity|]. cbn [last] in *. destruct l; [reflexivity|]. apply IH. }
    replace (last t (128 * (b / 128)) / 128) with (last t b / 128) in IH.
    2:{ destruct t as [|y t']; [cbn [last]; rewrite (Z.mul_comm 128), Z.div_mul by lia; reflexivity|]. f_equal. clear.
        revert y. induction t' as [|z t' IHt]; intros y; [reflexivity|]. cbn [last] in *. apply IHt. }
    cbn [length]. rewrite Nat2Z.inj_succ, Z.pow_succ_r by lia.
    assert (E : 2 * b = (2 * b) mod 256 + 256 * (b / 128)).
    { rewrite (Z.div_mod (2 * b) 256) at 1 by lia. replace (2 * b / 256) with (b / 128); [lia|].
      change 256 with (2 * 128). rewrite Z.div_mul_cancel_l by lia. reflexivity. }
    lia.
Qed.
Lemma dl_nth l : forall c i, bytes l -> (i < length l)%nat ->
  nth i (dl c l) 0 = if (0 <? i)%nat then Z.lor (w8 (Z.shiftl (rd l i) 1)) (shr (rd l (i - 1)) 7)
                     else (2 * rd l 0) mod 256 + c.
Proof.
  induction l as [|b t IH]; intros c i Hl Hi; [cbn in Hi; lia|]. apply bytes_cons in Hl as [Hb Ht].
  destruct i as [|i]; [reflexivity|]. cbn [dl nth]. cbn [length] in Hi.
  rewrite IH by (auto; lia). change (0 <? S i)%nat with true. cbv iota.
  change (rd (b :: t) (S i)) with (rd t i). replace (S i - 1)%nat with i by lia.
  assert (HL : forall x y, byte x -> byte y -> Z.lor (w8 (Z.shiftl x 1)) (shr y 7) = (2 * x) mod 256 + y / 128).
  { intros x y Hx Hy. unfold byte in *. unfold shr. rewrite shiftr_div by lia. change (2 ^ 7) with 128.
    rewrite shiftl_mul by lia. unfold w8, M8. change (2 ^ 1) with 2.
    replace ((x * 2) mod 256) with (Z.shiftl (x mod 128) 1).
    2:{ rewrite shiftl_mul by lia. change (2 ^ 1) with 2. change 256 with (128 * 2). rewrite Z.mul_mod_distr_r by lia. reflexivity. }
    rewrite lor_shiftl_add by lia. rewrite (Z.mul_comm 2 x). change 256 with (128 * 2). rewrite Z.mul_mod_distr_r by lia. cbn. lia. }
  destruct i as [|i].
  - cbn [Nat.ltb Nat.leb]. change (rd (b :: t) 0) with b. rewrite HL; [reflexivity| |auto]. apply rd_byte; auto.
  - change (0 <? S i)%nat with true. cbv iota. change (rd (b :: t) (S i)) with (rd t i). replace (S i - 1)%nat with i by lia. reflexivity.
Qed.

Lemma last_rd l d : l <> [] -> last l d = rd l (length l - 1).
Proof.
  intros H. destruct l as [|x l]; [congruence|]. clear H. revert x. induction l as [|y l IH]; intros x; [reflexivity|].
  change (last (x :: y :: l) d) with (last (y :: l) d). rewrite IH. cbn [length]. unfold rd.
  replace (S (S (length l)) - 1)%nat with (S (S (length l) - 1)) by lia. reflexivity.
Qed.

Lemma xts_shift_spec src : bytes src -> length src = 8%nat \/ length src = 16%nat ->
  xts_shift src = le_bytes (length src) (mulx (length src) (le_val src)).
Proof.
  intros Hs HB.
  set (p := if (length src =? 8)%nat then 0x1b else 0x87).
  set (cc := rd src (length src - 1) / 128).
  assert (Hlast : byte (rd src (length src - 1))) by (apply rd_byte; auto). unfold byte in Hlast.
  assert (Hcc : cc = 0 \/ cc = 1) by (unfold cc; lia).
  assert (Hp : 0 <= p < 256) by (unfold p; destruct (length src =? 8)%nat; lia).
  assert (HD : xts_shift src = upd (dl 0 src) 0 (Z.lxor (rd (dl 0 src) 0) (p * cc))).
  { unfold xts_shift.
    replace (map _ (seq 0 (length src))) with (dl 0 src).
    2:{ apply (list_eq_nth 0); [rewrite dl_length, map_length, seq_length; reflexivity|].
        intros i Hi. rewrite dl_length in Hi. rewrite dl_nth by auto.
        rewrite (nth_indep _ _ ((fun i : nat =>
          if (0 <? i)%nat then Z.lor (w8 (Z.shiftl (rd src i) 1)) (shr (rd src (i - 1)) 7)
          else w8 (Z.shiftl (rd src 0) 1)) 0%nat)) by (rewrite map_length, seq_length; auto).
        rewrite (map_nth (fun i : nat =>
          if (0 <? i)%nat then Z.lor (w8 (Z.shiftl (rd src i) 1)) (shr (rd src (i - 1)) 7)
          else w8 (Z.shiftl (rd src 0) 1))). rewrite seq_nth by auto. cbn [Nat.add].
        destruct (0 <? i)%nat; [reflexivity|]. rewrite shiftl_mul by lia. unfold w8, M8. change (2 ^ 1) with 2.
        rewrite Z.add_0_r. f_equal. lia. }
    assert (Hm : forall x, Z.land (w8 x) (- cc) = w8 x * cc).
    { intros x. destruct Hcc as [-> | ->]; [cbn; rewrite Z.land_0_r; lia|]. change (- (1)) with (-1). rewrite Z.land_m1_r. lia. }
    replace (shr (rd src (length src - 1)) 7) with cc by (unfold shr; rewrite shiftr_div by lia; reflexivity).
    rewrite !Hm.
    assert (Hpv : nth (length src / 16) poly_table 0 = p) by (unfold p; destruct HB as [-> | ->]; reflexivity).
    rewrite Hpv.
    replace (w8 (shr p 16)) with 0 by (unfold p; destruct (length src =? 8)%nat; reflexivity).
    replace (w8 (shr p 8)) with 0 by (unfold p; destruct (length src =? 8)%nat; reflexivity).
    replace (w8 (shr p 0)) with p by (unfold p; destruct (length src =? 8)%nat; reflexivity).
    rewrite Z.mul_0_l, !Z.lxor_0_r.
    assert (Hu : forall (l : list Z) i, upd l i (rd l i) = l).
    { clear. induction l as [|x l IH]; intros i; [destruct i; reflexivity|]. destruct i; cbn; [reflexivity|]. f_equal. apply IH. }
    rewrite !Hu. reflexivity. }
  rewrite HD.
  pose proof (dl_val src 0 ltac:(lia) Hs) as HV.
  assert (Hne : src <> []) by (destruct src; [destruct HB as [HB|HB]; discriminate HB|congruence]).
  rewrite last_rd in HV by auto. fold cc in HV.
  pose proof (le_val_range src Hs) as HR.
  pose proof (dl_bytes src 0 ltac:(lia) Hs) as Hdb.
  pose proof (le_val_range (dl 0 src) Hdb) as HRd. rewrite dl_length in HRd.
  assert (Hn : 256 ^ Z.of_nat (length src) = 2 ^ (8 * Z.of_nat (length src))).
  { change 256 with (2 ^ 8). rewrite <- Z.pow_mul_r by lia. reflexivity. }
  assert (Hmx : mulx (length src) (le_val src) = Z.lxor (le_val (dl 0 src)) (p * cc)).
  { unfold mulx. rewrite <- Hn.
    change (rpoly (length src)) with p.
    destruct Hcc as [E|E]; rewrite E in *.
    - destruct (Z.ltb_spec (2 * le_val src) (256 ^ Z.of_nat (length src))); [|lia]. rewrite Z.mul_0_r, Z.lxor_0_r. lia.
    - destruct (Z.ltb_spec (2 * le_val src) (256 ^ Z.of_nat (length src))) as [Hlt|Hge]; [lia|].
      rewrite Z.mul_1_r. replace (2 * le_val src) with (256 ^ Z.of_nat (length src) + le_val (dl 0 src)) by lia.
      assert (Hpl : p < 256 ^ Z.of_nat (length src)).
      { apply Z.lt_le_trans with 256; [lia|]. destruct HB as [-> | ->]; vm_compute; discriminate. }
      rewrite Hn in *.
      assert (HX : forall a, 0 <= a < 2 ^ (8 * Z.of_nat (length src)) -> 2 ^ (8 * Z.of_nat (length src)) + a = Z.lxor (2 ^ (8 * Z.of_nat (length src))) a).
      { intros a Ha. rewrite <- (Z.mul_1_l (2 ^ _)) at 1. rewrite <- lor_add_low by lia.
        apply Z.bits_inj'. intros n Hn0. rewrite Z.lor_spec, Z.lxor_spec. rewrite Z.mul_1_l.
        destruct (Z.eq_dec n (8 * Z.of_nat (length src))) as [-> |Hd].
        - rewrite (testbit_high a (8 * Z.of_nat (length src))) by lia. rewrite Z.pow2_bits_true by lia. reflexivity.
        - rewrite Z.pow2_bits_false by lia. destruct (Z.testbit a n); reflexivity. }
      rewrite (HX (le_val (dl 0 src))), (HX p) by lia.
      rewrite Z.lxor_assoc. rewrite (Z.lxor_comm (2 ^ _) p).
      rewrite <- (Z.lxor_assoc (le_val _) p), Z.lxor_comm, Z.lxor_assoc, Z.lxor_nilpotent, Z.lxor_0_r. reflexivity. }
  rewrite Hmx.
  (* xor into the low byte *)
  destruct (dl 0 src) as [|x0 xs] eqn:Ed. { apply (f_equal (@length Z)) in Ed. rewrite dl_length in Ed. destruct src; [congruence|discriminate]. }
  apply bytes_cons in Hdb as [Hx0 Hxs]. unfold byte in Hx0.
  assert (Hpc : 0 <= p * cc < 256) by (destruct Hcc as [-> | ->]; lia).
  assert (Hlow : Z.lxor (le_val (x0 :: xs)) (p * cc) = le_val (Z.lxor x0 (p * cc) :: xs)).
  { unfold le_val. cbn [dval].
    assert (Hf : forall a, 0 <= a < 256 -> a + 256 * dval 256 xs = Z.lxor a (Z.shiftl (dval 256 xs) 8)).
    { intros a Ha. rewrite Z.add_comm. replace (256 * dval 256 xs) with (dval 256 xs * 2 ^ 8) by (change (2^8) with 256; lia).
      rewrite <- lor_add_low by (change (2^8) with 256; lia). rewrite <- shiftl_mul by lia.
      apply Z.bits_inj'. intros n Hn0. rewrite Z.lor_spec, Z.lxor_spec. destruct (Z.ltb_spec n 8).
      - rewrite Z.shiftl_spec_low by lia. destruct (Z.testbit a n); reflexivity.
      - rewrite (testbit_high a 8) by lia. rewrite orb_false_r, xorb_false_l. reflexivity. }
    rewrite (Hf x0) by lia. rewrite (Hf (Z.lxor x0 (p * cc))).
    2:{ pose proof (lxor_range x0 (p * cc) 8 ltac:(lia) ltac:(change (2^8) with 256; lia) ltac:(change (2^8) with 256; lia)) as Hr. change (2 ^ 8) with 256 in Hr. lia. }
    rewrite !Z.lxor_assoc. f_equal. apply Z.lxor_comm. }
  rewrite Hlow. cbn [rd nth upd].
  assert (Hl2 : length (Z.lxor x0 (p * cc) :: xs) = length src).
  { cbn [length]. apply (f_equal (@length Z)) in Ed. rewrite dl_length in Ed. cbn [length] in Ed. lia. }
  rewrite <- Hl2. symmetry. apply le_bytes_le_val. apply bytes_cons. split; auto.
  apply byte_lxor; unfold byte; lia.
Qed.

Lemma cmac_shift_rev src : length src = 8%nat \/ length src = 16%nat -> cmac_shift src = rev (xts_shift (rev src)).
Proof.
  intros [H|H].
  - do 8 (destruct src as [|? src]; [discriminate|]). destruct src; [|discriminate]. reflexivity.
  - do 16 (destruct src as [|? src]; [discriminate|]). destruct src; [|discriminate]. reflexivity.
Qed.
Lemma cmac_shift_spec src : bytes src -> length src = 8%nat \/ length src = 16%nat ->
  cmac_shift src = dbl_be (length src) src.
Proof.
  intros Hs HB. rewrite cmac_shift_rev by auto.
  rewrite xts_shift_spec by (try apply bytes_rev; try rewrite rev_length; auto). rewrite rev_length. reflexivity.
Qed.

Lemma mulx_range B v : B = 8%nat \/ B = 16%nat -> 0 <= v < 2 ^ (8 * Z.of_nat B) -> 0 <= mulx B v < 2 ^ (8 * Z.of_nat B).
Proof.
  intros HB Hv.
  assert (Hn : 256 ^ Z.of_nat B = 2 ^ (8 * Z.of_nat B)).
  { change 256 with (2 ^ 8). rewrite <- Z.pow_mul_r by lia. reflexivity. }
  set (s := le_bytes B v).
  assert (Hs : bytes s) by apply le_bytes_bytes.
  assert (Hl : length s = B) by apply le_bytes_length.
  assert (Hval : le_val s = v) by (unfold s; rewrite le_val_le_bytes, Hn; apply Z.mod_small; lia).
  unfold mulx. destruct (Z.ltb_spec (2 * v) (2 ^ (8 * Z.of_nat B))); [lia|].
  set (n := 8 * Z.of_nat B) in *.
  assert (H2 : 0 <= 2 * v < 2 ^ (n + 1)) by (rewrite Z.pow_add_r by (unfold n; lia); change (2 ^ 1) with 2; lia).
  assert (Hr : 0 <= rpoly B < 2 ^ n).
  { split; [unfold rpoly; destruct (B =? 8)%nat; lia|]. unfold rpoly, n. destruct HB as [-> | ->]; reflexivity. }
  assert (Hn0 : 0 <= n) by (unfold n; lia).
  pose proof (lxor_range (2 * v) (2 ^ n + rpoly B) (n + 1) ltac:(lia) H2
    ltac:(rewrite Z.pow_add_r by lia; change (2 ^ 1) with 2; lia)) as HR.
  assert (Hb : Z.testbit (Z.lxor (2 * v) (2 ^ n + rpoly B)) n = false).
  { rewrite Z.lxor_spec. replace (2 * v) with (1 * 2 ^ n + (2 * v - 2 ^ n)) by lia.
    rewrite <- lor_add_low by (rewrite Z.pow_add_r in H2 by lia; change (2 ^ 1) with 2 in H2; lia).
    replace (2 ^ n + rpoly B) with (1 * 2 ^ n + rpoly B) by lia. rewrite <- lor_add_low by lia.
    rewrite !Z.lor_spec, !Z.mul_1_l, Z.pow2_bits_true by lia. reflexivity. }
  split; [lia|]. apply bits_below; [lia| |lia]. intros m Hm. destruct (Z.eq_dec m n) as [-> |]; [auto|].
  apply (testbit_high _ (n + 1)); lia.
Qed.
