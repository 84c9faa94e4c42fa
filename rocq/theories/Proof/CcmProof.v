(* CCM over any chunking *)
From Verif.Base Require Import Prelude.
From Verif.Model Require Import Bio Util Block Encoding Modes.
From Verif.Spec Require Import BlockSpec MacSpec StreamSpec ModesSpec.
From Verif.Proof Require Import BioProof UtilProof BlockProof BufCrypt BlockModes GfShift XtsProof StreamModes CtrProof GhashProof MacModes AeadModes.
#[local] Ltac Zify.zify_post_hook ::= idtac.

(* the smallest length-field width >= 2 that holds len *)
Definition ccm_width (L : nat) (len : Z) : Prop :=
  (2 <= L <= 8)%nat /\ 0 <= len < 256 ^ Z.of_nat L /\ (L = 2%nat \/ 256 ^ (Z.of_nat L - 1) <= len).

Lemma bit_count_spec f : forall x z, 0 <= x < 2 ^ Z.of_nat f ->
  exists k, bit_count f x z = z + k /\ 0 <= k <= Z.of_nat f /\ x < 2 ^ k /\ (k = 0 \/ 2 ^ (k - 1) <= x).
Proof.
  induction f as [|f IH]; intros x z Hx; cbn [bit_count].
  - exists 0. rewrite Z.add_0_r. change (2 ^ Z.of_nat 0) with 1 in Hx. change (2 ^ 0) with 1. lia.
  - destruct (Z.ltb_spec 0 x) as [HP|HP].
    + rewrite Nat2Z.inj_succ, Z.pow_succ_r in Hx by lia.
      assert (Ex : shr x 1 = x / 2) by (unfold shr; rewrite Z.shiftr_div_pow2 by lia; reflexivity).
      pose proof (Z.div_mod x 2 ltac:(lia)). pose proof (Z.mod_pos_bound x 2 ltac:(lia)).
      destruct (IH (shr x 1) (z + 1)) as (k & K1 & K2 & K3 & K4); [rewrite Ex; lia|]. rewrite Ex in *.
      exists (k + 1). rewrite K1. split; [lia|]. split; [lia|]. rewrite Z.pow_add_r by lia. change (2 ^ 1) with 2. split; [lia|].
      right. replace (k + 1 - 1) with k by lia. destruct K4 as [->|K4]; [change (2 ^ 0) with 1; lia|].
      replace k with (k - 1 + 1) by lia. destruct (Z.eq_dec k 0) as [->|]; [cbn; lia|]. rewrite Z.pow_add_r by lia. change (2 ^ 1) with 2. lia.
    + exists 0. rewrite Z.add_0_r. change (2 ^ 0) with 1. lia.
Qed.
Lemma p256_mono a b : 0 <= a <= b -> 256 ^ a <= 256 ^ b.
Proof. intros. apply Z.pow_le_mono_r; lia. Qed.
Lemma log256_spec len : 0 <= len < 2 ^ 64 -> exists L, ccm_log256 len = Z.of_nat L /\ ccm_width L len.
Proof.
  intros Hl. unfold ccm_log256. destruct (bit_count_spec 64 len 0) as (k & K1 & K2 & K3 & K4); [exact Hl|]. rewrite K1. rewrite Z.add_0_l.
  pose proof (Z.div_mod (k + 7) 8 ltac:(lia)) as D. pose proof (Z.mod_pos_bound (k + 7) 8 ltac:(lia)) as Dm.
  set (z := (k + 7) / 8) in *.
  assert (P256 : forall t, 0 <= t -> 256 ^ t = 2 ^ (8 * t)) by (intros t Ht; change 256 with (2 ^ 8); rewrite <- Z.pow_mul_r by lia; reflexivity).
  destruct (Z.ltb_spec z 2) as [Hz|Hz].
  - exists 2%nat. split; [reflexivity|]. split; [lia|]. split; [|auto]. split; [lia|]. rewrite P256 by lia.
    apply Z.lt_le_trans with (2 ^ k); [auto|]. apply Z.pow_le_mono_r; lia.
  - exists (Z.to_nat z). rewrite Z2Nat.id by lia. split; [auto|]. split; [lia|]. rewrite Z2Nat.id by lia. rewrite !P256 by lia. split.
    + split; [lia|]. apply Z.lt_le_trans with (2 ^ k); [auto|]. apply Z.pow_le_mono_r; lia.
    + right. destruct K4 as [->|K4]; [exfalso; lia|]. apply Z.le_trans with (2 ^ (k - 1)); [|auto]. apply Z.pow_le_mono_r; lia.
Qed.
Lemma ccm_width_unique L L' len : ccm_width L len -> ccm_width L' len -> L = L'.
Proof.
  intros (A1 & A2 & A3) (B1 & B2 & B3).
  destruct (Nat.lt_trichotomy L L') as [H|[H|H]]; auto; exfalso.
  - destruct B3 as [->|B3]; [lia|]. pose proof (p256_mono (Z.of_nat L) (Z.of_nat L' - 1) ltac:(lia)). lia.
  - destruct A3 as [->|A3]; [lia|]. pose proof (p256_mono (Z.of_nat L') (Z.of_nat L - 1) ltac:(lia)). lia.
Qed.

Lemma be_val_cat a b : be_val (a ++ b) = be_val a * 256 ^ Z.of_nat (length b) + be_val b.
Proof. unfold be_val. rewrite rev_app_distr, dval_app, rev_length. lia. Qed.
Lemma be_bytes_S k x : be_bytes (S k) x = be_bytes k (x / 256) ++ [x mod 256].
Proof. unfold be_bytes. cbn [digits rev]. reflexivity. Qed.
Lemma be_bytes_pad k : forall L x, 0 <= x < 256 ^ Z.of_nat L -> be_bytes (k + L) x = repeat 0 k ++ be_bytes L x.
Proof.
  intros L x Hx. rewrite <- (be_bytes_be_val (repeat 0 k ++ be_bytes L x)).
  - rewrite app_length, repeat_length, be_bytes_length. f_equal.
    assert (E0 : be_val (repeat 0 k) = 0).
    { clear. unfold be_val. induction k as [|k IH]; [reflexivity|]. cbn [repeat rev]. rewrite dval_app, IH. cbn [dval]. lia. }
    rewrite be_val_cat. rewrite E0, be_val_be_bytes, Z.mod_small by auto. lia.
  - apply bytes_app. split; [apply bytes_repeat; unfold byte; lia|apply be_bytes_bytes].
Qed.
Lemma skipn_upd (l : list Z) i v : (i < length l)%nat -> skipn i (upd l i v) = v :: skipn (S i) l.
Proof.
  revert i. induction l as [|a l IH]; intros i Hi; cbn [length] in Hi; [lia|].
  destruct i as [|i]; [reflexivity|]. apply IH. lia.
Qed.
Lemma firstn_upd (l : list Z) i v n : (n <= i)%nat -> firstn n (upd l i v) = firstn n l.
Proof.
  revert i n. induction l as [|a l IH]; intros i n Hi; [destruct i; reflexivity|].
  destruct i as [|i]; [replace n with 0%nat by lia; reflexivity|]. destruct n as [|n]; [reflexivity|]. cbn [upd firstn]. f_equal. apply IH. lia.
Qed.
Lemma lm_loop_spec k : forall fuel i stop block lm, (k <= fuel)%nat -> (i + 1 = stop + k)%nat -> (1 <= stop)%nat -> (i < length block)%nat ->
  0 <= lm ->
  lm_loop fuel i stop block lm = (firstn stop block ++ be_bytes k lm ++ skipn (i + 1) block, lm / 256 ^ Z.of_nat k).
Proof.
  induction k as [|k IH]; intros fuel i stop block lm Hf Hi Hs Hb Hl.
  - change (256 ^ Z.of_nat 0) with 1. rewrite Z.div_1_r. replace (i + 1)%nat with stop by lia. cbn [be_bytes digits rev app].
    change (be_bytes 0 lm) with (@nil Z). cbn [app]. rewrite firstn_skipn.
    destruct fuel as [|f]; cbn [lm_loop]; [reflexivity|]. destruct (Nat.leb_spec stop i); [lia|reflexivity].
  - destruct fuel as [|f]; [lia|]. cbn [lm_loop]. destruct (Nat.leb_spec stop i); [|lia].
    assert (Es : shr lm 8 = lm / 256) by (unfold shr; rewrite Z.shiftr_div_pow2 by lia; reflexivity).
    assert (Ea : Z.land lm 0xff = lm mod 256) by (change 0xff with (Z.ones 8); rewrite Z.land_ones by lia; reflexivity).
    rewrite Es, Ea. rewrite IH by first [lia | rewrite upd_length; lia | apply Z.div_pos; lia].
    f_equal.
    + rewrite firstn_upd by lia. rewrite be_bytes_S, <- app_assoc. do 2 f_equal. replace (i - 1 + 1)%nat with i by lia.
      rewrite skipn_upd by lia. replace (i + 1)%nat with (S i) by lia. reflexivity.
    + rewrite Nat2Z.inj_succ, Z.pow_succ_r by lia. rewrite Z.div_div by lia. reflexivity.
Qed.

(* the nonce the code ends up using *)
Definition ccm_nonce (L : nat) (iv : list Z) : list Z :=
  firstn (15 - L) iv ++ repeat 0 (15 - L - length iv).
Lemma ccm_nonce_length L iv : (L <= 15)%nat -> length (ccm_nonce L iv) = (15 - L)%nat.
Proof. intros. unfold ccm_nonce. rewrite app_length, firstn_length, repeat_length. lia. Qed.

Lemma write16be_spec16 w : write16be w = be_bytes 2 w.
Proof.
  unfold write16be, be_bytes. cbn [digits rev app]. unfold shr. rewrite Z.shiftr_div_pow2 by lia. reflexivity.
Qed.
Lemma ccm_a_length L n i : (1 <= L)%nat -> length n = (15 - L)%nat -> (L <= 15)%nat -> length (ccm_a L n i) = 16%nat.
Proof. intros. unfold ccm_a. rewrite !app_length, be_bytes_length. cbn [length]. lia. Qed.
Lemma ccm_a_bytes L n i : (1 <= L <= 8)%nat -> bytes n -> bytes (ccm_a L n i).
Proof. intros. unfold ccm_a. apply bytes_app. split; [constructor; [unfold byte; lia|constructor]|]. apply bytes_app. split; [auto|apply be_bytes_bytes]. Qed.
Lemma ccm_a_counter L n i j : (2 <= L <= 8)%nat -> bytes n -> length n = (15 - L)%nat -> Z.of_nat (i + j) < 256 ^ Z.of_nat L ->
  counter 16 16 (ccm_a L n i) j = ccm_a L n (i + j).
Proof.
  intros HL Hn Hl Hr. unfold counter. change (16 - 16)%nat with 0%nat. cbn [firstn skipn app].
  rewrite <- (be_bytes_be_val (ccm_a L n (i + j))) by (apply ccm_a_bytes; auto; lia).
  rewrite ccm_a_length by lia. f_equal. unfold ccm_a. rewrite !app_assoc.
  rewrite !(be_val_cat (_ ++ n)). rewrite !be_bytes_length, !be_val_be_bytes, !Z.mod_small by lia. lia.
Qed.

Lemma repeat_bytes0 n : bytes (repeat 0 n).
Proof. apply bytes_repeat. unfold byte. lia. Qed.
Lemma firstn_repeat0 (v : Z) a b : (a <= b)%nat -> firstn a (repeat v b) = repeat v a.
Proof. revert b. induction a as [|a IH]; intros b H; [reflexivity|]. destruct b as [|b]; [lia|]. cbn [repeat firstn]. rewrite IH by lia. reflexivity. Qed.
Lemma skipn_repeat0 (v : Z) a b : skipn a (repeat v b) = repeat v (b - a).
Proof. revert b. induction a as [|a IH]; intros b; [rewrite Nat.sub_0_r; reflexivity|]. destruct b as [|b]; [reflexivity|]. cbn [repeat skipn]. rewrite IH. reflexivity. Qed.
Lemma ccm_nonce_bytes L iv : bytes iv -> bytes (ccm_nonce L iv).
Proof. intros. unfold ccm_nonce. apply bytes_app. split; [apply bytes_firstn; auto|apply repeat_bytes0]. Qed.

Definition ccm_tag_len (M : nat) : Prop := (4 <= M <= 16)%nat /\ Nat.even M = true.

Lemma pad16_skip x y : (length x mod 16 = 0)%nat -> pad16 (x ++ y) = pad16 y.
Proof.
  intros H. unfold pad16. rewrite app_length. rewrite Nat.add_mod, H by lia. cbn [Nat.add]. rewrite Nat.mod_mod by lia. reflexivity.
Qed.
Lemma padded_mod x : (length (padded x) mod 16 = 0)%nat.
Proof.
  unfold padded, pad16. rewrite app_length, repeat_length. pose proof (Nat.mod_upper_bound (length x) 16 ltac:(lia)) as H.
  pose proof (Nat.div_mod (length x) 16 ltac:(lia)) as D. set (q := (length x / 16)%nat) in *. set (r := (length x mod 16)%nat) in *.
  destruct (Nat.eq_dec r 0) as [E0|E0].
  - rewrite E0. replace ((16 - 0) mod 16)%nat with 0%nat by reflexivity. rewrite D, E0. rewrite !Nat.add_0_r, Nat.mul_comm. apply Nat.mod_mul. lia.
  - rewrite (Nat.mod_small (16 - r)) by lia. replace (length x + (16 - r))%nat with ((q + 1) * 16)%nat by lia. apply Nat.mod_mul. lia.
Qed.
Lemma some_eq {A} (x y : A) : Some x = Some y -> x = y.
Proof. congruence. Qed.

Section Ccm.
  Variable c : cipher.
  Hypothesis Hc : cipher_ok c.
  Notation B := (c_size c).
  Notation E := (c_enc c).
  Hypothesis H16 : c_size c = 16%nat.
  Let H1 : (1 < B)%nat := B_gt1 c Hc.

  Lemma ccm_init_spec iv : ccm_init c iv =
    if (length iv <? 7)%nat then None
    else Some (mkCcm (mkM (firstn 13 iv ++ repeat 0 (16 - length (firstn 13 iv))) (repeat 0 16) (length (firstn 13 iv))) (cbcmac_init c)).
  Proof.
    unfold ccm_init. rewrite H16. change (16 =? 16)%nat with true. cbv iota. destruct (Nat.ltb_spec (length iv) 7); [reflexivity|].
    assert (EK : firstn (if (13 <? length iv)%nat then 13%nat else length iv) iv = firstn 13 iv).
    { destruct (Nat.ltb_spec 13 (length iv)); [reflexivity|]. rewrite (firstn_all2 (n := 13)) by lia. apply firstn_all. }
    assert (EL : (if (13 <? length iv)%nat then 13%nat else length iv) = length (firstn 13 iv)).
    { rewrite firstn_length. destruct (Nat.ltb_spec 13 (length iv)); lia. }
    rewrite EK, EL. unfold blit. cbn [firstn app Nat.add]. rewrite skipn_repeat0. reflexivity.
  Qed.

  Lemma flag_range M L (ad : bool) : ccm_tag_len M -> (2 <= L <= 8)%nat ->
    let f := 64 * (if ad then 1 else 0) + 8 * ((Z.of_nat M - 2) / 2) + (Z.of_nat L - 1) in
    w8 f = f /\ Z.land f 7 = Z.of_nat L - 1.
  Proof.
    intros [HM HE] HL. cbn zeta.
    assert (HQ : 1 <= (Z.of_nat M - 2) / 2 <= 7) by (split; [apply Z.div_le_lower_bound|apply Z.div_le_upper_bound]; lia).
    set (q := (Z.of_nat M - 2) / 2) in *. split.
    - unfold w8. apply Z.mod_small. unfold M8. destruct ad; lia.
    - change 7 with (Z.ones 3). rewrite Z.land_ones by lia. change (2 ^ 3) with 8.
      replace (64 * (if ad then 1 else 0) + 8 * q + (Z.of_nat L - 1)) with (Z.of_nat L - 1 + (8 * (if ad then 1 else 0) + q) * 8) by lia.
      rewrite Z.mod_add by lia. apply Z.mod_small. lia.
  Qed.
  Lemma even_land M : Nat.even M = true -> Z.land (Z.of_nat M) 1 = 0.
  Proof.
    intros HE. apply Nat.even_spec in HE. destruct HE as [k ->]. change 1 with (Z.ones 1). rewrite Z.land_ones by lia.
    change (2 ^ 1) with 2. rewrite Nat2Z.inj_mul, Z.mul_comm. apply Z.mod_mul. lia.
  Qed.
  Lemma even_land_conv M : Z.land (Z.of_nat M) 1 = 0 -> Nat.even M = true.
  Proof.
    intros HE. change 1 with (Z.ones 1) in HE. rewrite Z.land_ones in HE by lia. change (2 ^ 1) with 2 in HE. apply Nat.even_spec.
    exists (M / 2)%nat. pose proof (Z.div_mod (Z.of_nat M) 2 ltac:(lia)) as D. rewrite HE in D.
    pose proof (Nat.div_mod M 2 ltac:(lia)). pose proof (Nat.mod_upper_bound M 2 ltac:(lia)). lia.
  Qed.

  Lemma ccm_la_spec (aad : list Z) h m : Z.of_nat (length aad) < 2 ^ 64 -> absorbed c false m h ->
    absorbed c false (m ++ ccm_la aad)
     (if Z.of_nat (length aad) <? 0xff00 then cbcmac_update c h (write16be (Z.of_nat (length aad)))
      else if Z.of_nat (length aad) - 1 <? 0xffffffff then
        cbcmac_update c h (write16be 0xfffe ++ write32be (w32 (Z.of_nat (length aad))))
      else cbcmac_update c h (write16be 0xffff ++ write64be (Z.of_nat (length aad)))).
  Proof.
    intros HL HA. unfold ccm_la. destruct (Z.ltb_spec (Z.of_nat (length aad)) 0xff00).
    { rewrite write16be_spec16. apply absorbed_update; auto. }
    destruct (Z.ltb_spec (Z.of_nat (length aad) - 1) 0xffffffff); destruct (Z.ltb_spec (Z.of_nat (length aad)) (2 ^ 32)); try lia.
    - rewrite write32be_spec. unfold w32. rewrite Z.mod_small by (unfold M32; lia). apply absorbed_update; auto.
    - rewrite write64be_spec. apply absorbed_update; auto.
  Qed.

  Lemma ccm_setup_spec iv M aad len L m0 : bytes iv -> ccm_init c iv = Some m0 -> ccm_tag_len M -> Z.of_nat (length aad) < 2 ^ 64 -> ccm_width L len ->
    exists m1, ccm_setup c m0 len (Z.of_nat M) aad = Ok m1 /\
      wfm B (ccm_ctr m1) /\ m_pos (ccm_ctr m1) = 0%nat /\ m_iv (ccm_ctr m1) = ccm_a L (ccm_nonce L iv) 1 /\
      absorbed c false (ccm_b0 L M (ccm_nonce L iv) (negb (length aad =? 0)%nat) len ++ match aad with [] => [] | _ => padded (ccm_la aad ++ aad) end) (ccm_hash m1).
  Proof.
    intros Hi HI HM HA HW. rewrite ccm_init_spec in HI. destruct (Nat.ltb_spec (length iv) 7) as [|H7]; [discriminate|].
    apply some_eq in HI. subst m0.
    destruct HW as (W1 & W2 & W3).
    assert (HLz : ccm_log256 len = Z.of_nat L).
    { destruct (log256_spec len) as (L' & E1 & E2).
      - pose proof (p256_mono (Z.of_nat L) 8 ltac:(lia)) as HP. change (256 ^ 8) with (2 ^ 64) in HP. lia.
      - rewrite E1. f_equal. apply (ccm_width_unique _ _ len E2). split; [auto|]. split; auto. }
    unfold ccm_setup. cbn [ccm_ctr m_state m_pos ccm_hash]. rewrite HLz, H16. change (negb (16 =? 16)%nat) with false. cbv iota.
    set (v := firstn 13 iv). assert (Hv : (7 <= length v <= 13)%nat) by (unfold v; rewrite firstn_length; lia).
    destruct (Nat.ltb_spec (length v) 7); [lia|]. destruct (Nat.ltb_spec 13 (length v)); [lia|]. cbn [orb]. cbv iota.
    destruct (Z.ltb_spec (15 - Z.of_nat L) 7); [lia|]. destruct (Z.ltb_spec 13 (15 - Z.of_nat L)); [lia|]. cbn [orb]. cbv iota.
    destruct HM as [HM HE]. destruct (Z.ltb_spec (Z.of_nat M) 4); [lia|]. destruct (Z.ltb_spec 16 (Z.of_nat M)); [lia|]. rewrite even_land by auto.
    change (negb (0 =? 0)) with false. cbn [orb]. cbv iota.
    set (k := if 15 - Z.of_nat L <? Z.of_nat (length v) then Z.to_nat (15 - Z.of_nat L) else length v).
    assert (Hk : k = Nat.min (15 - L) (length iv)).
    { unfold k. destruct (Z.ltb_spec (15 - Z.of_nat L) (Z.of_nat (length v))); unfold v in *; rewrite firstn_length in *; lia. }
    assert (En : firstn k (v ++ repeat 0 (16 - length v)) = firstn (15 - L) iv).
    { rewrite firstn_app. replace (k - length v)%nat with 0%nat by (unfold v; rewrite firstn_length; lia). cbn [firstn]. rewrite app_nil_r.
      unfold v. rewrite firstn_firstn. replace (Nat.min k 13) with k by lia. rewrite Hk.
      destruct (Nat.le_gt_cases (15 - L) (length iv)); [rewrite Nat.min_l by lia; reflexivity|].
      rewrite Nat.min_r by lia. rewrite firstn_all, firstn_all2 by lia. reflexivity. }
    rewrite En. set (n0 := firstn (15 - L) iv) in *. assert (Hn0 : length n0 = k) by (unfold n0; rewrite firstn_length; lia).
    set (ad := if 0 <? Z.of_nat (length aad) then 1 else 0).
    assert (Had : ad = if negb (length aad =? 0)%nat then 1 else 0).
    { unfold ad. destruct (Z.ltb_spec 0 (Z.of_nat (length aad))); destruct (Nat.eqb_spec (length aad) 0); cbn [negb]; auto; lia. }
    destruct (flag_range M L (negb (length aad =? 0)%nat) (conj HM HE) W1) as [F1 F2]. rewrite <- Had in F1, F2. rewrite F1.
    set (f := 64 * ad + 8 * ((Z.of_nat M - 2) / 2) + (Z.of_nat L - 1)) in *.
    assert (Eb : blit (upd (repeat 0 16) 0 f) 1 n0 = f :: n0 ++ repeat 0 (15 - k)).
    { unfold blit. rewrite Hn0. change (upd (repeat 0 16) 0 f) with (f :: repeat 0 15). cbn [firstn Nat.add skipn app]. rewrite skipn_repeat0. reflexivity. }
    rewrite Eb. rewrite (lm_loop_spec (15 - k)); try lia; [|cbn [length]; rewrite app_length, repeat_length; lia].
    change (15 + 1)%nat with 16%nat.
    assert (Ef : firstn (1 + k) (f :: n0 ++ repeat 0 (15 - k)) = f :: n0).
    { cbn [Nat.add firstn]. f_equal. apply firstn_app_exact. auto. }
    assert (Es : skipn 16 (f :: n0 ++ repeat 0 (15 - k)) = []).
    { apply skipn_all2. cbn [length]. rewrite app_length, repeat_length. lia. }
    rewrite Ef, Es, app_nil_r.
    rewrite (Z.div_small len).
    2:{ split; [lia|]. pose proof (p256_mono (Z.of_nat L) (Z.of_nat (15 - k)) ltac:(lia)). lia. }
    change (negb (0 =? 0)) with false. cbv iota.
    assert (EB : (f :: n0) ++ be_bytes (15 - k) len = ccm_b0 L M (ccm_nonce L iv) (negb (length aad =? 0)%nat) len).
    { unfold ccm_b0, ccm_nonce. rewrite <- Had. cbn [app]. f_equal. rewrite <- app_assoc. unfold n0. f_equal.
      replace (15 - k)%nat with ((15 - L - length iv) + L)%nat by lia. rewrite be_bytes_pad by lia. reflexivity. }
    rewrite EB.
    assert (HB0 : absorbed c false (ccm_b0 L M (ccm_nonce L iv) (negb (length aad =? 0)%nat) len) (cbcmac_update c (cbcmac_init c) (ccm_b0 L M (ccm_nonce L iv) (negb (length aad =? 0)%nat) len))).
    { apply (absorbed_update c Hc false []). apply absorbed_init; auto. }
    assert (LN := ccm_nonce_length L iv ltac:(lia)). assert (BN := ccm_nonce_bytes L iv Hi).
    eexists. split; [reflexivity|]. cbn [ccm_ctr ccm_hash m_pos m_iv].
    assert (EA : fst (lm_loop 16 14 (1 + Z.to_nat (15 - Z.of_nat L))
        (upd (upd (ccm_b0 L M (ccm_nonce L iv) (negb (length aad =? 0)%nat) len) 0
           (Z.land (rd (ccm_b0 L M (ccm_nonce L iv) (negb (length aad =? 0)%nat) len) 0) 7)) 15 1) 0) = ccm_a L (ccm_nonce L iv) 1).
    { unfold ccm_b0. rewrite <- Had. fold f. change (rd ([f] ++ ccm_nonce L iv ++ be_bytes L len) 0) with f. rewrite F2.
      change (upd ([f] ++ ccm_nonce L iv ++ be_bytes L len) 0 (Z.of_nat L - 1)) with ((Z.of_nat L - 1) :: ccm_nonce L iv ++ be_bytes L len).
      replace (Z.to_nat (15 - Z.of_nat L)) with (15 - L)%nat by lia.
      assert (HLn : length (Z.of_nat L - 1 :: ccm_nonce L iv ++ be_bytes L len) = 16%nat) by (cbn [length]; rewrite app_length, be_bytes_length; lia).
      rewrite (lm_loop_spec (L - 1)); try lia; [|rewrite upd_length; lia]. cbn [fst].
      change (14 + 1)%nat with 15%nat. rewrite firstn_upd by lia. rewrite skipn_upd by lia. rewrite (skipn_all2 (n := 16)) by lia.
      unfold ccm_a. cbn [Nat.add firstn app]. f_equal. rewrite (firstn_app_exact (ccm_nonce L iv)) by lia. f_equal.
      destruct L as [|l]; [lia|]. rewrite be_bytes_S. replace (S l - 1)%nat with l by lia. reflexivity. }
    split; [|split; [reflexivity|split; [exact EA|]]].
    - split; cbn [m_state m_iv]; rewrite ?H16.
      + rewrite app_length, repeat_length. lia.
      + rewrite EA. apply ccm_a_length; lia.
    - destruct aad as [|a0 aad].
      + subst ad. cbn [length] in *. change (0 <? Z.of_nat 0) with false. change (0 =? 1) with false. cbv iota. rewrite app_nil_r. exact HB0.
      + assert (Had1 : ad = 1) by (rewrite Had; reflexivity). rewrite Had1. change (1 =? 1) with true. cbv iota.
        set (A := a0 :: aad) in *. set (b0 := ccm_b0 L M (ccm_nonce L iv) (negb (length A =? 0)%nat) len) in *.
        assert (Lb0 : length b0 = 16%nat) by (unfold b0, ccm_b0; rewrite !app_length, be_bytes_length; cbn [length]; lia).
        replace (b0 ++ padded (ccm_la A ++ A)) with (padded (b0 ++ (ccm_la A ++ A))).
        * apply absorbed_pad; auto. rewrite app_assoc. apply absorbed_update; auto. apply ccm_la_spec; auto.
        * unfold padded. rewrite pad16_skip by (rewrite Lb0; reflexivity). rewrite <- !app_assoc. reflexivity.
  Qed.

  Lemma ccm_keystream L n src : ccm_width L (Z.of_nat (length src)) -> bytes n -> length n = (15 - L)%nat ->
    xor_stream (ctr_block 16 E 16 (ccm_a L n 1)) src = ccm_cipher E L n src.
  Proof.
    intros (W1 & W2 & _) Hb Hl. unfold ccm_cipher, xor_stream. f_equal. apply keystream_ext. intros i Hi'. unfold ctr_block.
    rewrite ccm_a_counter by (auto; lia). reflexivity.
  Qed.
  Lemma ccm_cipher_length L n m : (2 <= L <= 8)%nat -> length n = (15 - L)%nat -> length (ccm_cipher E L n m) = length m.
  Proof.
    intros HL Hn. unfold ccm_cipher. apply (xor_stream_length _ 16); [lia|]. intros i. rewrite <- H16. apply (bc_elen _ _ _ Hc). rewrite H16. apply ccm_a_length; lia.
  Qed.
  Lemma ccm_cipher_invol L n m : (2 <= L <= 8)%nat -> length n = (15 - L)%nat -> ccm_cipher E L n (ccm_cipher E L n m) = m.
  Proof.
    intros HL Hn. unfold ccm_cipher. apply (xor_stream_invol _ 16); [lia|]. intros i. rewrite <- H16. apply (bc_elen _ _ _ Hc). rewrite H16. apply ccm_a_length; lia.
  Qed.

  Lemma cbc_mac_length l : Forall (fun b : list Z => length b = B) l -> length (cbc_mac B E l) = B.
  Proof.
    intros HF. unfold cbc_mac. assert (HS : length (repeat 0 B) = B) by apply repeat_length. revert HS. generalize (repeat 0 B).
    induction HF as [|b l Hb HF IH]; intros st Hs; [auto|]. cbn [fold_left]. apply IH. apply (bc_elen _ _ _ Hc). rewrite xorl_length. lia.
  Qed.
  Lemma ccm_digest_spec L n src m h x : ccm_width L (Z.of_nat (length src)) -> bytes n -> length n = (15 - L)%nat ->
    wfm B m -> m_pos m = 0%nat -> m_iv m = ccm_a L n 1 -> absorbed c false x h ->
    ccm_digest c (mkCcm (snd (ctr_crypt c m src)) h) = xorl (cbc_mac 16 E (blocks 16 (padded x))) (E (ccm_a L n 0)).
  Proof.
    intros (W1 & W2 & _) Hb Hl Hw Hp Hm Hx. unfold ccm_digest. cbn [ccm_ctr ccm_hash].
    rewrite (cbcmac_final_spec c Hc x h H16 Hx).
    destruct (ctr_upd_iv B (ctr_stream c) H1 (ctr_wf c Hc) (fun m p => eq_refl) m src Hw ltac:(lia)) as (j & J1 & J2).
    fold (ctr_crypt c) in J2. change (stream_update B (ctr_stream c) ctr_xor m src) with (ctr_crypt c m src) in J2.
    destruct (ctr_upd_wf B (ctr_stream c) H1 (ctr_wf c Hc) (fun m p => eq_refl) m src Hw ltac:(lia)) as [V1 V2].
    change (stream_update B (ctr_stream c) ctr_xor m src) with (ctr_crypt c m src) in V1, V2.
    assert (J3 : m_iv (snd (ctr_crypt c m src)) = ccm_a L n (1 + j)).
    { rewrite J2. rewrite (iter_counter c (ctr_stream c) B (ccm_a L n 1) m); auto.
      - rewrite H16. apply ccm_a_counter; auto.
        pose proof (p256_mono 2 (Z.of_nat L) ltac:(lia)) as HP. change (256 ^ 2) with 65536 in HP.
        rewrite H16, Hp in J1. change (0 =? 0)%nat with true in J1. cbv iota in J1. set (q := 256 ^ Z.of_nat L) in *. clearbody q. lia.
      - rewrite H16. apply ccm_a_length; lia.
      - apply ccm_a_bytes; auto; lia.
      - intros m' K1 K2. cbn [ctr_stream m_iv]. rewrite increment_be_var_spec by auto. rewrite Nat.sub_diag. cbn [firstn skipn app].
        rewrite K1. reflexivity. }
    rewrite J3. change (rd (ccm_a L n (1 + j)) 0) with (Z.of_nat L - 1).
    assert (E7 : Z.land (Z.of_nat L - 1) 7 = Z.of_nat L - 1).
    { change 7 with (Z.ones 3). rewrite Z.land_ones by lia. apply Z.mod_small. change (2 ^ 3) with 8. lia. }
    rewrite E7. replace (Z.to_nat (16 - (Z.of_nat L - 1 + 1))) with (16 - L)%nat by lia.
    assert (EF : fill (ccm_a L n (1 + j)) (16 - L) 16 0 = ccm_a L n 0).
    { unfold fill. replace (16 - (16 - L))%nat with L by lia. rewrite blit_full by (rewrite repeat_length, ccm_a_length; lia).
      unfold ccm_a. rewrite !app_assoc. rewrite firstn_app_exact by (rewrite app_length; cbn [length]; lia). f_equal.
      rewrite <- (app_nil_r (repeat 0 L)). change (@nil Z) with (be_bytes 0 (Z.of_nat 0)) at 1. rewrite <- (be_bytes_pad L 0) by (cbn; lia).
      rewrite Nat.add_0_r. reflexivity. }
    rewrite EF. unfold ctr_crypt.
    rewrite (ctr_upd_one B (ctr_stream c) H1 (ctr_wf c Hc) (fun m p => eq_refl)).
    - cbn [fst]. cbn [ctr_stream m_state m_iv]. reflexivity.
    - split; cbn [m_state m_iv]; [apply V1|rewrite H16; apply ccm_a_length; lia].
    - reflexivity.
    - rewrite <- H16. apply cbc_mac_length. apply blocks_len. lia.
  Qed.

  Theorem ccm_encrypt_spec iv M aad msgs L : bytes iv -> (7 <= length iv)%nat -> ccm_tag_len M -> Z.of_nat (length aad) < 2 ^ 64 ->
    ccm_width L (Z.of_nat (length (concat msgs))) ->
    exists m0 m1, ccm_init c iv = Some m0 /\ ccm_setup c m0 (Z.of_nat (length (concat msgs))) (Z.of_nat M) aad = Ok m1 /\
      let '(ct, m2) := calls (ccm_encrypt c) m1 msgs in
      ct = ccm_cipher E L (ccm_nonce L iv) (concat msgs) /\
      ccm_digest c m2 = ccm_tag E L M (ccm_nonce L iv) aad (concat msgs).
  Proof.
    intros Hi H7 HM HA HW. destruct (ccm_init c iv) as [m0|] eqn:EI.
    2:{ rewrite ccm_init_spec in EI. destruct (Nat.ltb_spec (length iv) 7); [lia|discriminate]. }
    destruct (ccm_setup_spec iv M aad (Z.of_nat (length (concat msgs))) L m0 Hi EI HM HA HW) as (m1 & S0 & S1 & S2 & S3 & S4).
    exists m0, m1. split; [auto|]. split; [auto|].
    rewrite (calls_in (ctr_crypt c) (cbcmac_update c) (fun m ct h => mkCcm ct h) ccm_ctr ccm_hash (ccm_encrypt c)); try reflexivity.
    2:{ intros m x. unfold ccm_encrypt, ccm_crypt. destruct (ctr_crypt c (ccm_ctr m) x); reflexivity. }
    2:{ intros [? ?]; reflexivity. }
    assert (LN := ccm_nonce_length L iv ltac:(destruct HW; lia)). assert (BN := ccm_nonce_bytes L iv Hi).
    change (calls (ctr_crypt c)) with (calls (stream_update B (ctr_stream c) ctr_xor)).
    rewrite (ctr_calls B (ctr_stream c) H1 (ctr_wf c Hc) (fun m p => eq_refl)) by (auto; lia).
    change (stream_update B (ctr_stream c) ctr_xor) with (ctr_crypt c). split.
    - rewrite (ctr_crypt_spec c Hc) by (auto; rewrite S3; apply ccm_a_bytes; auto; destruct HW; lia). rewrite S3.
      rewrite <- ccm_keystream by auto. rewrite H16. reflexivity.
    - pose proof (absorbed_updates c Hc false msgs _ _ S4) as HX.
      etransitivity; [exact (ccm_digest_spec L (ccm_nonce L iv) (concat msgs) _ _ _ HW BN LN S1 S2 S3 HX)|]. unfold ccm_tag, ccm_blocks. f_equal. f_equal. f_equal.
      set (b0 := ccm_b0 _ _ _ _ _). set (ap := match aad with [] => [] | _ => _ end).
      assert (L0 : length b0 = 16%nat) by (unfold b0, ccm_b0; rewrite !app_length, be_bytes_length; cbn [length]; destruct HW; lia).
      assert (LA : (length ap mod 16 = 0)%nat) by (unfold ap; destruct aad; [reflexivity|apply padded_mod]).
      unfold padded. rewrite pad16_skip; [rewrite <- !app_assoc; reflexivity|].
      rewrite app_length, L0. rewrite <- Nat.add_mod_idemp_r by lia. rewrite LA. reflexivity.
  Qed.
  Theorem ccm_decrypt_spec iv M aad cts L : bytes iv -> (7 <= length iv)%nat -> ccm_tag_len M -> Z.of_nat (length aad) < 2 ^ 64 ->
    ccm_width L (Z.of_nat (length (concat cts))) ->
    exists m0 m1, ccm_init c iv = Some m0 /\ ccm_setup c m0 (Z.of_nat (length (concat cts))) (Z.of_nat M) aad = Ok m1 /\
      let '(m, m2) := calls (ccm_decrypt c) m1 cts in
      m = ccm_cipher E L (ccm_nonce L iv) (concat cts) /\
      ccm_digest c m2 = ccm_tag E L M (ccm_nonce L iv) aad m.
  Proof.
    intros Hi H7 HM HA HW. destruct (ccm_init c iv) as [m0|] eqn:EI.
    2:{ rewrite ccm_init_spec in EI. destruct (Nat.ltb_spec (length iv) 7); [lia|discriminate]. }
    destruct (ccm_setup_spec iv M aad (Z.of_nat (length (concat cts))) L m0 Hi EI HM HA HW) as (m1 & S0 & S1 & S2 & S3 & S4).
    exists m0, m1. split; [auto|]. split; [auto|].
    destruct (calls_out (ctr_crypt c) (cbcmac_update c) (fun m ct h => mkCcm ct h) ccm_ctr ccm_hash (ccm_decrypt c)) with (chunks := cts) (m := m1)
      as (outs & O1 & O2); try reflexivity.
    { intros m x. unfold ccm_decrypt, ccm_crypt. destruct (ctr_crypt c (ccm_ctr m) x); reflexivity. }
    { intros [? ?]; reflexivity. }
    rewrite O2.
    assert (LN := ccm_nonce_length L iv ltac:(destruct HW; lia)). assert (BN := ccm_nonce_bytes L iv Hi).
    change (calls (ctr_crypt c)) with (calls (stream_update B (ctr_stream c) ctr_xor)) in *.
    rewrite (ctr_calls B (ctr_stream c) H1 (ctr_wf c Hc) (fun m p => eq_refl)) in * by (auto; lia).
    change (stream_update B (ctr_stream c) ctr_xor) with (ctr_crypt c) in *.
    assert (EC : concat outs = ccm_cipher E L (ccm_nonce L iv) (concat cts)).
    { rewrite O1. rewrite (ctr_crypt_spec c Hc) by (auto; rewrite S3; apply ccm_a_bytes; auto; destruct HW; lia). rewrite S3.
      rewrite <- ccm_keystream by auto. rewrite H16. reflexivity. }
    split; [auto|].
    pose proof (absorbed_updates c Hc false outs _ _ S4) as HX.
    etransitivity; [exact (ccm_digest_spec L (ccm_nonce L iv) (concat cts) _ _ _ HW BN LN S1 S2 S3 HX)|].
    assert (ELen : length (concat outs) = length (concat cts)) by (rewrite EC; apply ccm_cipher_length; auto; destruct HW; lia).
    unfold ccm_tag, ccm_blocks. rewrite ELen. f_equal. f_equal. f_equal.
    set (b0 := ccm_b0 _ _ _ _ _). set (ap := match aad with [] => [] | _ => _ end).
    assert (L0 : length b0 = 16%nat) by (unfold b0, ccm_b0; rewrite !app_length, be_bytes_length; cbn [length]; destruct HW; lia).
    assert (LA : (length ap mod 16 = 0)%nat) by (unfold ap; destruct aad; [reflexivity|apply padded_mod]).
    unfold padded. rewrite pad16_skip; [rewrite <- !app_assoc; reflexivity|].
    rewrite app_length, L0. rewrite <- Nat.add_mod_idemp_r by lia. rewrite LA. reflexivity.
  Qed.
End Ccm.
