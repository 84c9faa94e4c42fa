(* the digits of an integer (C56) *)
From Verif.Base Require Import Prelude.
From Verif.Spec Require Import StrSpec.
From Verif.Model Require Import Encoding Hash Mpn Mpz MpzStr.
From Verif.Proof Require Import MpnProof MpnShift MpnDiv MpnPowm MpzProof MpzBits MpzLogic MpzImport MpzStrProof.
(* the digits of a positive number, lowest first, none superfluous *)
Definition isdigits (base : Z) (ds : list Z) (v : Z) : Prop := Forall (below base) ds /\ dval base ds = v /\ last ds 0 <> 0 /\ ds <> [].
Lemma isdigits_len base ds v : 2 <= base -> isdigits base ds v -> base ^ (Z.of_nat (length ds) - 1) <= v < base ^ Z.of_nat (length ds).
Proof.
  intros Hb (H1 & H2 & H3 & H4). destruct (exists_last H4) as (r & a & ->). rewrite last_last in H3. apply Forall_app in H1. destruct H1 as (R & A). pose proof (Forall_inv A) as Ha. unfold below in Ha. rewrite dval_app in H2. cbn [dval] in H2. rewrite app_length. cbn [length].
  pose proof (dval_range base r ltac:(lia) R) as RB. replace (Z.of_nat (length r + 1) - 1) with (Z.of_nat (length r)) by lia. replace (Z.of_nat (length r + 1)) with (Z.succ (Z.of_nat (length r))) by lia. rewrite Z.pow_succ_r by lia. pose proof (Z.pow_pos_nonneg base (Z.of_nat (length r)) ltac:(lia) ltac:(lia)). nia.
Qed.
Lemma low_digits shift : 0 < shift -> forall n x, 0 <= x < (2 ^ shift) ^ Z.of_nat n -> let ds := limb_digits n x shift (2 ^ shift - 1) in Forall (below (2 ^ shift)) ds /\ length ds = n /\ dval (2 ^ shift) ds = x.
Proof.
  intros Hs. assert (P : 0 < 2 ^ shift) by (apply Z.pow_pos_nonneg; lia). induction n as [|n IH]; intros x Hx; cbn [limb_digits].
  - change (Z.of_nat 0) with 0 in Hx. rewrite Z.pow_0_r in Hx. repeat split; [constructor|cbn [dval]; lia].
  - replace (2 ^ shift - 1) with (Z.ones shift) by (rewrite Z.ones_equiv; lia). rewrite Z.land_ones by lia. rewrite Z.shiftr_div_pow2 by lia. replace (Z.ones shift) with (2 ^ shift - 1) by (rewrite Z.ones_equiv; lia). rewrite Nat2Z.inj_succ, Z.pow_succ_r in Hx by lia.
    destruct (IH (x / 2 ^ shift)) as (F & L & V); [split; [apply Z.div_pos; lia|apply Z.div_lt_upper_bound; lia]|]. split; [constructor; [exact (Z.mod_pos_bound x _ P)|exact F]|]. split; [cbn [length]; rewrite L; reflexivity|]. cbn [dval]. rewrite V. pose proof (Z.div_mod x (2 ^ shift) ltac:(lia)). lia.
Qed.
Lemma top_digits_ok shift : 0 < shift -> forall fuel x, 0 < x < (2 ^ shift) ^ Z.of_nat fuel -> exists ds, top_digits fuel x shift (2 ^ shift - 1) = Some ds /\ isdigits (2 ^ shift) ds x.
Proof.
  intros Hs. assert (P : 0 < 2 ^ shift) by (apply Z.pow_pos_nonneg; lia). induction fuel as [|f IH]; intros x Hx; cbn [top_digits].
  - change (Z.of_nat 0) with 0 in Hx. rewrite Z.pow_0_r in Hx. lia.
  - replace (2 ^ shift - 1) with (Z.ones shift) by (rewrite Z.ones_equiv; lia). rewrite Z.land_ones by lia. rewrite Z.shiftr_div_pow2 by lia. replace (Z.ones shift) with (2 ^ shift - 1) by (rewrite Z.ones_equiv; lia). rewrite Nat2Z.inj_succ, Z.pow_succ_r in Hx by lia. pose proof (Z.div_mod x (2 ^ shift) ltac:(lia)) as DM. pose proof (Z.mod_pos_bound x _ P) as MB.
    destruct (Z.eqb_spec (x / 2 ^ shift) 0) as [E|E].
    + eexists. split; [reflexivity|]. rewrite E in DM. split; [constructor; [exact MB|constructor]|]. split; [cbn [dval]; lia|]. split; [cbn [last]; lia|discriminate].
    + destruct (IH (x / 2 ^ shift)) as (ds & T & F & V & L & N). { split; [pose proof (Z.div_pos x (2 ^ shift) ltac:(lia) P); lia|apply Z.div_lt_upper_bound; lia]. }
      rewrite T. eexists. split; [reflexivity|]. split; [constructor; [exact MB|exact F]|]. split; [cbn [dval]; rewrite V; lia|]. split; [destruct ds; [contradiction|exact L]|discriminate].
Qed.
Section Out.
Variable w : Z.
Variable k : nat.
Hypothesis Hk : (0 < k)%nat.
Hypothesis Wk : w = 8 * Z.of_nat k.
Local Notation Hw := (Hw w k Hk Wk).
Notation B := (LB w).
Notation limb := (below (LB w)).
Notation limbs := (Forall (below (LB w))).
Notation val := (dval (LB w)).
Lemma limbs_digits shift n : 0 < shift -> (2 ^ shift) ^ Z.of_nat n = B -> forall l r, limbs l -> Forall (below (2 ^ shift)) r ->
  let ds := flat_map (fun x => limb_digits n x shift (2 ^ shift - 1)) l ++ r in Forall (below (2 ^ shift)) ds /\ dval (2 ^ shift) ds = val l + B ^ Z.of_nat (length l) * dval (2 ^ shift) r.
Proof.
  intros Hs Hn. induction l as [|a l IH]; intros r Hl Hr; cbn [flat_map app].
  - split; [exact Hr|]. cbn [dval length]. change (Z.of_nat 0) with 0. rewrite Z.pow_0_r. lia.
  - destruct (IH r (Forall_inv_tail Hl) Hr) as (F & V). pose proof (Forall_inv Hl) as Ha. unfold below in Ha. destruct (low_digits shift Hs n a ltac:(rewrite Hn; exact Ha)) as (F1 & L1 & V1). rewrite <- app_assoc. split; [apply Forall_app; split; assumption|]. rewrite dval_app, V, V1, L1, Hn. cbn [dval length]. rewrite Nat2Z.inj_succ, Z.pow_succ_r by lia. ring.
Qed.
Lemma getbits_ok x pos width : limbs x -> 0 <= pos -> 0 < width < w -> mpn_getbits w x pos width = val x / 2 ^ pos mod 2 ^ width.
Proof.
  intros Hx Hp Hwd. pose proof Hw as W0. unfold mpn_getbits. pose proof (Z.div_mod pos w ltac:(lia)) as DM. pose proof (Z.mod_pos_bound pos w W0) as MB. assert (S0 : 0 <= pos / w) by (apply Z.div_pos; lia). set (s := pos / w) in *. set (r := pos mod w) in *.
  assert (RB : forall n, 0 <= n -> Z.testbit (val x / 2 ^ pos mod 2 ^ width) n = if n <? width then (if r + n <? w then Z.testbit (nth (Z.to_nat s) x 0) (r + n) else Z.testbit (nth (Z.to_nat s + 1) x 0) (r + n - w)) else false).
  { intros n Hn. destruct (Z.ltb_spec n width) as [G|G]; [|apply Z.mod_pow2_bits_high; lia]. rewrite Z.mod_pow2_bits_low by exact G. rewrite Z.div_pow2_bits by lia. rewrite (val_bit w W0 x (n + pos) Hx) by lia. destruct (Z.ltb_spec (r + n) w) as [G1|G1].
    - rewrite <- (Z.div_unique (n + pos) w s (r + n)) by lia. rewrite <- (Z.mod_unique (n + pos) w s (r + n)) by lia. reflexivity.
    - rewrite <- (Z.div_unique (n + pos) w (s + 1) (r + n - w)) by lia. rewrite <- (Z.mod_unique (n + pos) w (s + 1) (r + n - w)) by lia. rewrite Z2Nat.inj_add by lia. reflexivity. }
  assert (NL : forall i n, w <= n -> Z.testbit (nth i x 0) n = false). { intros i n Hn. apply (below_high w); [lia| |exact Hn]. destruct (Nat.lt_ge_cases i (length x)) as [G|G]; [exact (proj1 (Forall_forall _ _) Hx _ (nth_In x 0 G))|rewrite nth_overflow by exact G; exact (limb0 w W0)]. }
  apply Z.bits_inj'. intros n Hn. rewrite (RB n Hn). destruct (Z.leb_spec (Z.of_nat (length x)) s) as [GL|GL].
  - rewrite Z.bits_0. rewrite !nth_overflow by lia. rewrite !Z.bits_0. destruct (n <? width); [destruct (r + n <? w)|]; reflexivity.
  - assert (ZB : Z.testbit (Z.land (Z.shiftr (nth (Z.to_nat s) x 0) r) (2 ^ width - 1)) n = if n <? width then Z.testbit (nth (Z.to_nat s) x 0) (r + n) else false).
    { replace (2 ^ width - 1) with (Z.ones width) by (rewrite Z.ones_equiv; lia). rewrite Z.land_spec, Z.shiftr_spec by exact Hn. rewrite Z.testbit_ones by lia. destruct (Z.leb_spec 0 n); [|lia]. rewrite (Z.add_comm n r). destruct (n <? width); cbn [andb]; [apply andb_true_r|apply andb_false_r]. }
    destruct (Z.ltb_spec w (r + width)) as [G1|G1]; cbn [andb].
    + destruct (Z.ltb_spec (s + 1) (Z.of_nat (length x))) as [G2|G2].
      * rewrite Z.lor_spec, ZB. unfold tr, LB. replace (2 ^ (r + width - w) - 1) with (Z.ones (r + width - w)) by (rewrite Z.ones_equiv; lia). destruct (Z.ltb_spec n width) as [G|G].
        -- rewrite Z.mod_pow2_bits_low by lia. rewrite Z.shiftl_spec by exact Hn. destruct (Z.ltb_spec (r + n) w) as [G3|G3].
           ++ rewrite (Z.testbit_neg_r _ (n - (w - r))) by lia. apply orb_false_r.
           ++ rewrite NL by lia. cbn [orb]. rewrite Z.land_spec, Z.testbit_ones by lia. replace (n - (w - r)) with (r + n - w) by lia. destruct (Z.leb_spec 0 (r + n - w)); [|lia]. destruct (Z.ltb_spec (r + n - w) (r + width - w)); [|lia]. cbn [andb]. apply andb_true_r.
        -- cbn [orb]. destruct (Z.lt_ge_cases n w) as [G4|G4]; [|apply Z.mod_pow2_bits_high; lia]. rewrite Z.mod_pow2_bits_low by lia. rewrite Z.shiftl_spec by exact Hn. rewrite Z.land_spec, Z.testbit_ones by lia. destruct (Z.ltb_spec (n - (w - r)) (r + width - w)); [lia|]. rewrite andb_false_r, andb_false_r. reflexivity.
      * rewrite ZB. destruct (Z.ltb_spec n width) as [G|G]; [|reflexivity]. destruct (Z.ltb_spec (r + n) w) as [G3|G3]; [reflexivity|]. rewrite NL by lia. rewrite nth_overflow by lia. rewrite Z.bits_0. reflexivity.
    + rewrite ZB. destruct (Z.ltb_spec n width) as [G|G]; [|reflexivity]. destruct (Z.ltb_spec (r + n) w); [reflexivity|lia].
Qed.
Lemma bit_digits_ok x width bits : limbs x -> 0 < width < w -> 2 ^ (bits - 1) <= val x < 2 ^ bits -> forall fuel pos, 0 <= pos < bits -> bits - pos <= width * Z.of_nat fuel ->
  exists ds, bit_digits w fuel x pos width bits = Some ds /\ isdigits (2 ^ width) ds (val x / 2 ^ pos).
Proof.
  intros Hx Hwd HV. assert (P : 0 < 2 ^ width) by (apply Z.pow_pos_nonneg; lia). induction fuel as [|f IH]; intros pos Hp Hf; [lia|]. cbn [bit_digits]. rewrite (getbits_ok x pos width Hx) by lia. assert (PP : 0 < 2 ^ pos) by (apply Z.pow_pos_nonneg; lia). assert (V0 : 0 <= val x) by (pose proof (Z.pow_nonneg 2 (bits - 1) ltac:(lia)); lia).
  pose proof (Z.mod_pos_bound (val x / 2 ^ pos) _ P) as MB. pose proof (Z.div_mod (val x / 2 ^ pos) (2 ^ width) ltac:(lia)) as DM. assert (DD : val x / 2 ^ pos / 2 ^ width = val x / 2 ^ (pos + width)) by (rewrite Z.div_div by lia; rewrite <- Z.pow_add_r by lia; reflexivity).
  destruct (Z.ltb_spec (pos + width) bits) as [G|G].
  - destruct (IH (pos + width)) as (ds & T & F & V & L & N); [lia|nia|]. rewrite T. eexists. split; [reflexivity|]. split; [constructor; [exact MB|exact F]|]. split; [cbn [dval]; rewrite V, <- DD; lia|]. split; [destruct ds; [contradiction|exact L]|discriminate].
  - eexists. split; [reflexivity|]. assert (Q0 : val x / 2 ^ (pos + width) = 0). { apply Z.div_small. split; [exact V0|]. apply Z.lt_le_trans with (2 ^ bits); [lia|apply Z.pow_le_mono_r; lia]. }
    assert (Q1 : 1 <= val x / 2 ^ pos). { apply Z.div_le_lower_bound; [exact PP|]. rewrite Z.mul_1_r. apply Z.le_trans with (2 ^ (bits - 1)); [apply Z.pow_le_mono_r; lia|lia]. }
    rewrite Q0 in DD. rewrite DD in DM. split; [constructor; [exact MB|constructor]|]. split; [cbn [dval]; lia|]. split; [cbn [last]; lia|discriminate].
Qed.
Lemma init_1_ok base : 2 <= base <= 62 -> exists den, mpn_divmod_init_1 w base = Ok den /\ forall t, limbs t -> let '(q, r) := mpn_divmod_inner_1 w t den in length q = length t /\ limbs q /\ 0 <= r < base /\ val t = val q * base + r.
Proof.
  intros Hb. pose proof (B_big w k Hk Wk) as BB. pose proof Hw as W0. unfold mpn_divmod_init_1. destruct (Z.eqb_spec base 0); [lia|]. eexists. split; [reflexivity|]. intros t Ht. unfold mpn_divmod_inner_1. cbn [den_shift den_vp den_inv hd]. destruct (clz_spec w W0 base ltac:(unfold below; lia) ltac:(lia)) as (C1 & C2 & C3). set (s := mp_clz w base) in *.
  assert (P : 0 < base * 2 ^ s) by (apply Z.mul_pos_pos; [lia|apply Z.pow_pos_nonneg; lia]). rewrite Z.shiftl_mul_pow2 by lia. rewrite (tr_small w) by (unfold below; lia). apply (divmod_small_spec w W0 t s base (mp_inv_2by1 w (base * 2 ^ s)) Ht); try assumption; try lia. apply (inv_2by1_spec w W0); [unfold below; lia|exact C2].
Qed.
Lemma div_digits_ok base den : 2 <= base <= 62 -> (forall t, limbs t -> let '(q, r) := mpn_divmod_inner_1 w t den in length q = length t /\ limbs q /\ 0 <= r < base /\ val t = val q * base + r) ->
  forall fuel t, normal w t -> t <> [] -> val t < base ^ Z.of_nat fuel -> exists ds, div_digits w fuel t den = Some ds /\ isdigits base ds (val t).
Proof.
  intros Hb HD. pose proof (B_big w k Hk Wk) as BB. pose proof Hw as W0. induction fuel as [|f IH]; intros t N NN Hf.
  - change (Z.of_nat 0) with 0 in Hf. rewrite Z.pow_0_r in Hf. pose proof (normal_pos w W0 t N NN). lia.
  - cbn [div_digits]. pose proof (HD t (proj1 N)) as D. destruct (mpn_divmod_inner_1 w t den) as [q r]. destruct D as (D1 & D2 & D3 & D4). assert (DT : (if nth (length q - 1) q 0 =? 0 then firstn (length q - 1) q else q) = drop_top q) by (unfold drop_top; destruct (nth (length q - 1) q 0 =? 0); [reflexivity|cbn; rewrite Nat.sub_0_r; symmetry; apply firstn_all]). rewrite DT.
    pose proof (normal_pos w W0 t N NN) as NP. destruct (drop_top_spec w W0 q D2) as (N' & V').
    { rewrite D1. intros G. replace (Z.of_nat (length t - 1)) with (Z.succ (Z.of_nat (length t - 2))) in NP by lia. rewrite Z.pow_succ_r in NP by lia. set (X := B ^ Z.of_nat (length t - 2)) in *. assert (0 < X) by (apply Bpow_pos; exact W0). nia. }
    set (u := drop_top q) in *. rewrite Nat2Z.inj_succ, Z.pow_succ_r in Hf by lia. destruct (Nat.eqb_spec (length u) 0) as [E|E].
    + destruct u; [|discriminate]. cbn [dval] in V'. eexists. split; [reflexivity|]. split; [constructor; [exact D3|constructor]|]. split; [cbn [dval]; lia|]. split; [cbn [last]; lia|discriminate].
    + assert (UN : u <> []) by (intros X; rewrite X in E; contradiction). destruct (IH u N' UN) as (ds & T & F & V & L & NE); [rewrite V'; nia|]. rewrite T. eexists. split; [reflexivity|]. split; [constructor; [exact D3|exact F]|]. split; [cbn [dval]; rewrite V, V'; lia|]. split; [destruct ds; [contradiction|exact L]|discriminate].
Qed.
Lemma fuel_ok x base : limbs x -> 2 <= base -> val x < base ^ Z.of_nat (str_fuel w x).
Proof.
  intros Hx Hb. pose proof Hw as W0. pose proof (val_range w W0 x Hx) as R. apply Z.lt_le_trans with (1 := proj2 R). unfold LB. rewrite <- Z.pow_mul_r by lia. apply Z.le_trans with (2 ^ Z.of_nat (str_fuel w x)); [apply Z.pow_le_mono_r; [lia|unfold str_fuel; nia]|apply Z.pow_le_mono_l; lia].
Qed.
Lemma digits_ok x base : 2 <= base <= 62 -> normal w x -> x <> [] -> exists ds, mpn_digits w x base = Some ds /\ isdigits base ds (val x).
Proof.
  intros Hb N NN. pose proof Hw as W0. pose proof (proj1 N) as Hx. assert (LX : last x 0 <> 0) by (destruct (proj1 (normal_last w W0 x Hx) N) as [C|C]; [contradiction|exact C]). unfold mpn_digits. destruct ((base =? 2) || (base =? 4) || (base =? 16)) eqn:E.
  - assert (SH : exists sh, mp_bitlen (base - 1) = sh /\ (sh = 1 \/ sh = 2 \/ sh = 4) /\ base = 2 ^ sh). { destruct (Z.eqb_spec base 2) as [->|]; [exists 1; repeat split; auto|]. destruct (Z.eqb_spec base 4) as [->|]; [exists 2; repeat split; auto|]. destruct (Z.eqb_spec base 16) as [->|]; [exists 4; repeat split; auto|discriminate]. }
    destruct SH as (sh & -> & S3 & SB). assert (S0 : 0 < sh) by lia. assert (DW : w = sh * (w / sh)) by (apply Z.div_exact; [lia|]; apply Z.mod_divide; [lia|]; rewrite Wk; destruct S3 as [S3|[S3|S3]]; rewrite S3; [exists (8 * Z.of_nat k)|exists (4 * Z.of_nat k)|exists (2 * Z.of_nat k)]; lia).
    assert (DN : 0 <= w / sh) by (apply Z.div_pos; lia). rewrite SB. destruct (top_digits_ok sh S0 (str_fuel w x) (nth (length x - 1) x 0)) as (r & T & F & V & L & RN).
    { rewrite <- SB. rewrite (MpnPowm.last_nth x NN). pose proof (last_limb w x Hx NN) as LL. unfold below in LL. split; [lia|]. apply Z.le_lt_trans with (val x); [|apply fuel_ok; [exact Hx|lia]]. pose proof (val_last w W0 x NN Hx) as VL. pose proof (Bpow_pos w W0 (length x - 1)). nia. }
    rewrite T. eexists. split; [reflexivity|]. destruct (exists_last NN) as (x0 & a & EX). assert (FX : firstn (length x - 1) x = x0) by (rewrite EX, app_length; cbn [length]; replace (length x0 + 1 - 1)%nat with (length x0) by lia; apply firstn_app_exact; reflexivity). rewrite FX.
    assert (H0 : limbs x0) by (rewrite EX in Hx; apply Forall_app in Hx; exact (proj1 Hx)). destruct (limbs_digits sh (Z.to_nat (w / sh)) S0 ltac:(rewrite Z2Nat.id by exact DN; rewrite <- Z.pow_mul_r by lia; unfold LB; f_equal; lia) x0 r H0 F) as (F' & V'). split; [exact F'|]. split; [rewrite V', V; rewrite EX at 3; rewrite dval_app; cbn [dval]; replace (nth (length x - 1) x 0) with a; [ring|]; rewrite EX, app_length; cbn [length]; rewrite app_nth2 by lia; replace (length x0 + 1 - 1 - length x0)%nat with 0%nat by lia; reflexivity|]. split.
    + destruct (exists_last RN) as (r0 & c & ->). rewrite app_assoc, last_last. rewrite last_last in L. exact L.
    + intros C. apply app_eq_nil in C. destruct C as (_ & C). contradiction.
  - destruct (is_pow2 base) eqn:P2.
    + destruct (pow2_bases base Hb P2) as (S1 & S2). set (sh := mp_bitlen (base - 1)) in *. destruct (top_bits w k Hk Wk x Hx NN LX) as (T1 & T2). set (b := Z.of_nat (length x) * w - mp_clz w (nth (length x - 1) x 0)) in *.
      destruct (bit_digits_ok x sh b Hx ltac:(lia) T1 (str_fuel w x) 0 ltac:(lia)) as (ds & T & D); [unfold str_fuel; nia|]. exists ds. split; [exact T|]. rewrite <- S2 in D. rewrite Z.pow_0_r, Z.div_1_r in D. exact D.
    + destruct (init_1_ok base Hb) as (den & E1 & E2). rewrite E1. exact (div_digits_ok base den Hb E2 (str_fuel w x) x N NN (fuel_ok x base Hx ltac:(lia))).
Qed.
Lemma isdigits_size base ds v n : 2 <= base -> isdigits base ds v -> 0 <= n -> base ^ (n - 1) <= v < base ^ n -> n = Z.of_nat (length ds).
Proof.
  intros Hb D Hn H. pose proof (isdigits_len base ds v Hb D) as L. assert (A : n - 1 < Z.of_nat (length ds)) by (apply (Z.pow_lt_mono_r_iff base); lia). assert (A' : Z.of_nat (length ds) - 1 < n) by (apply (Z.pow_lt_mono_r_iff base); lia). lia.
Qed.
Lemma sizeinbase_ok x base : 2 <= base <= 62 -> limbs x -> exists n, mpn_sizeinbase w x base = Some (Ok n) /\ (val x = 0 -> n = 1) /\ (val x <> 0 -> forall ds, isdigits base ds (val x) -> n = Z.of_nat (length ds)).
Proof.
  intros Hb Hl. pose proof Hw as W0. destruct (stripped_spec w W0 x Hl) as (N & V). unfold mpn_sizeinbase. destruct (Z.ltb_spec base 2); [lia|]. rewrite <- V. set (u := stripped x) in *. clearbody u. clear x Hl V. destruct (Nat.eqb_spec (length u) 0) as [E|E].
  - destruct u; [|discriminate]. exists 1. split; [reflexivity|]. split; [reflexivity|]. cbn [dval]. intros C. contradiction.
  - assert (NN : u <> []) by (intros ->; contradiction). pose proof (normal_pos w W0 u N NN) as NP. pose proof (proj1 N) as Hu. destruct (is_pow2 base) eqn:P2.
    + assert (LX : last u 0 <> 0) by (destruct (proj1 (normal_last w W0 u Hu) N) as [C|C]; [contradiction|exact C]). destruct (pow2_bases base Hb P2) as (S1 & S2). set (sh := mp_bitlen (base - 1)) in *. destruct (top_bits w k Hk Wk u Hu NN LX) as (T1 & T2). set (b := Z.of_nat (length u) * w - mp_clz w (nth (length u - 1) u 0)) in *.
      eexists. split; [reflexivity|]. split; [lia|]. intros _ ds D. set (n := (b + sh - 1) / sh). pose proof (Z.div_mod (b + sh - 1) sh ltac:(lia)) as DM. pose proof (Z.mod_pos_bound (b + sh - 1) sh ltac:(lia)) as MB. fold n in DM. assert (n1 : 1 <= n) by (apply Z.div_le_lower_bound; lia).
      apply (isdigits_size base ds (val u) n); [lia|exact D|lia|]. rewrite S2. rewrite <- !Z.pow_mul_r by lia. split; [apply Z.le_trans with (2 ^ (b - 1)); [apply Z.pow_le_mono_r; nia|lia]|apply Z.lt_le_trans with (2 ^ b); [lia|apply Z.pow_le_mono_r; nia]].
    + destruct (init_1_ok base Hb) as (den & E1 & E2). rewrite E1. destruct (div_digits_ok base den Hb E2 (str_fuel w u) u N NN (fuel_ok u base Hu ltac:(lia))) as (ds0 & T & D0). rewrite T. eexists. split; [reflexivity|]. split; [lia|]. intros _ ds D. apply (isdigits_size base ds (val u)); [lia|exact D|lia|]. exact (isdigits_len base ds0 (val u) ltac:(lia) D0).
Qed.
Lemma isz_parts x v : isz w x v -> normal w (lm x) /\ val (lm x) = Z.abs v /\ (size x <? 0) = (v <? 0).
Proof.
  intros [(neg & l & -> & N & NZ) V]. rewrite (mkz_zval w) in V by exact NZ. rewrite (lm_mkz neg l), mkz_size_neg by exact NZ. pose proof Hw as W0. pose proof (val_range w W0 l (proj1 N)) as R. unfold sg in V. split; [exact N|]. destruct neg.
  - assert (NN : l <> []) by (intros C; discriminate (NZ C)). pose proof (normal_pos w W0 l N NN). split; [lia|]. symmetry. apply Z.ltb_lt. lia.
  - split; [lia|]. symmetry. apply Z.ltb_ge. lia.
Qed.
Lemma fold_dval base l : fold_left (fun a d => a * base + d) (rev l) 0 = dval base l.
Proof. induction l as [|a l IH]; [reflexivity|]. cbn [rev]. rewrite fold_left_app, IH. cbn [fold_left dval]. ring. Qed.
Lemma get_str_ok x v base : isz w x v -> 2 <= base <= 62 -> exists s, numeral base (Z.abs v) s /\ mpz_get_str w x base = Some (Ok (if v <? 0 then 45 :: s else s)) /\ mpz_sizeinbase w x base = Some (Ok (Z.of_nat (length s))).
Proof.
  intros Hx Hb. pose proof Hw as W0. destruct (isz_parts x v Hx) as (N & V & SN). unfold mpz_get_str, mpz_sizeinbase. pose proof (proj1 N) as Hl. destruct (sizeinbase_ok (lm x) base Hb Hl) as (n & SZ & S0 & S1). rewrite SZ. rewrite SN. unfold mpn_get_str. destruct (Z.ltb_spec base 2); [lia|]. destruct (Z.ltb_spec 62 base); [lia|]. cbn [orb].
  destruct (stripped_spec w W0 (lm x) Hl) as (N2 & V2). destruct (Nat.eqb_spec (length (stripped (lm x))) 0) as [E|E].
  - destruct (stripped (lm x)); [|discriminate]. cbn [dval] in V2. exists [48]. assert (v = 0) by lia. subst v. split; [exists [0]; repeat split; [constructor; [unfold below; lia|constructor]|left; reflexivity|discriminate]|]. split; [reflexivity|]. rewrite S0 by lia. reflexivity.
  - assert (NN : stripped (lm x) <> []) by (intros C; rewrite C in E; contradiction). pose proof (normal_pos w W0 _ N2 NN) as NP. destruct (digits_ok (stripped (lm x)) base Hb N2 NN) as (ds & T & D). rewrite T. rewrite V2 in D. change (if base <=? 36 then charset_36 else charset_62) with (charset_of base). exists (rev (map (fun d => nth (Z.to_nat d) (charset_of base) 0) ds)).
    assert (M : map (fun d => nth (Z.to_nat d) (charset_of base) 0) ds = map (digit_char base) ds). { apply map_ext_in. intros d Hd. exact (proj1 (charset_ok base d Hb (proj1 (Forall_forall _ _) (proj1 D) d Hd))). }
    rewrite M. split.
    + destruct D as (F & DV & L & NE). exists (rev ds). split; [symmetry; apply map_rev|]. split; [apply Forall_rev; exact F|]. split; [rewrite fold_dval, DV; exact V|]. split; [right; destruct (exists_last NE) as (r & c & ->); rewrite last_last in L; rewrite rev_app_distr; exact L|]. intros C. apply NE. rewrite <- (rev_involutive ds), C. reflexivity.
    + split; [destruct (v <? 0); reflexivity|]. rewrite (S1 ltac:(lia) ds D). rewrite rev_length, map_length. reflexivity.
Qed.
(* a numeral is read back *)
Lemma read_fold base ds : 2 <= base <= 62 -> Forall (below base) ds -> forall acc, read_digits base acc (map (digit_char base) ds) = Some (fold_left (fun a d => a * base + d) ds acc).
Proof. intros Hb. induction ds as [|d ds IH]; intros H acc; [reflexivity|]. cbn [map read_digits fold_left]. destruct (charset_ok base d Hb (Forall_inv H)) as (_ & C2 & C3 & _). rewrite C3, C2. apply IH. exact (Forall_inv_tail H). Qed.
Lemma read_numeral base v s : 2 <= base <= 62 -> numeral base v s -> read_integer base s = Some v /\ read_integer base (45 :: s) = Some (- v) /\ bytes s.
Proof.
  intros Hb (ds & -> & F & V & L & NE). assert (U : read_unsigned base (map (digit_char base) ds) = Some v). { unfold read_unsigned. destruct (Z.eqb_spec base 0); [lia|]. cbn [negb]. unfold read_natural. destruct (Z.leb_spec 2 base); [|lia]. destruct (Z.leb_spec base 62); [|lia]. cbn [andb]. rewrite (read_fold base ds Hb F 0), V. reflexivity. }
  split; [|split].
  - destruct ds as [|d ds]; [contradiction|]. destruct (charset_ok base d Hb (Forall_inv F)) as (_ & _ & C3 & C4 & C5 & _). unfold read_integer. cbn [map trim] in U |- *. rewrite C3. revert C4 C5 U. generalize (digit_char base d) as a. intros a C4 C5 U. destruct a as [|a|a]; try exact U. do 6 (destruct a as [a|a|]; try exact U); contradiction.
  - unfold read_integer. cbn [trim]. change (space 45) with false. cbv iota. rewrite U. reflexivity.
  - apply Forall_forall. intros c Hc. apply in_map_iff in Hc. destruct Hc as (d & <- & Hd). exact (proj2 (proj2 (proj2 (proj2 (proj2 (charset_ok base d Hb (proj1 (Forall_forall _ _) F d Hd))))))).
Qed.
End Out.
