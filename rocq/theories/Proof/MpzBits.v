(* Shifts and two's complement operations on signed integers. *)
From Verif.Base Require Import Prelude.
From Verif.Model Require Import Encoding Hash Mpn Mpz.
From Verif.Proof Require Import MpnProof MpnShift MpnDiv MpzProof MpzOps.

(* bit facts on Z *)
Lemma neg_testbit : forall X p, 0 <= p -> Z.testbit (- X) p = xorb (Z.testbit X p) (negb (X mod 2 ^ p =? 0)).
Proof.
  intros X p Hp. rewrite !Z.testbit_odd, !Z.shiftr_div_pow2 by exact Hp. assert (P : 0 < 2 ^ p) by (apply Z.pow_pos_nonneg; lia).
  pose proof (Z.div_mod X (2 ^ p) ltac:(lia)) as D. pose proof (Z.mod_pos_bound X (2 ^ p) P) as R.
  destruct (Z.eqb_spec (X mod 2 ^ p) 0) as [E|E]; cbn [negb].
  - destruct (div_eq_bounds (- X) (2 ^ p) (- (X / 2 ^ p)) P) as [E1 _]; [lia|]. rewrite E1, xorb_false_r. apply Z.odd_opp.
  - destruct (div_eq_bounds (- X) (2 ^ p) (- (X / 2 ^ p) - 1) P) as [E1 _]; [lia|]. rewrite E1, xorb_true_r.
    rewrite Z.odd_sub, Z.odd_opp. cbn [Z.odd]. apply xorb_true_r.
Qed.
Lemma pow2_testbit_land : forall a n, 0 <= n -> Z.testbit a n = false -> Z.land a (2 ^ n) = 0.
Proof.
  intros a n Hn H. apply Z.bits_inj'. intros m Hm. rewrite Z.land_spec, Z.bits_0, Z.pow2_bits_eqb by exact Hn.
  destruct (Z.eqb_spec n m) as [E|E]; [subst m; rewrite H; reflexivity|apply andb_false_r].
Qed.
Lemma setbit_add : forall a n, 0 <= n -> Z.setbit a n = a + (if Z.testbit a n then 0 else 2 ^ n).
Proof.
  intros a n Hn. unfold Z.setbit. rewrite Z.shiftl_1_l. destruct (Z.testbit a n) eqn:E.
  - rewrite Z.add_0_r. apply Z.bits_inj'. intros m Hm. rewrite Z.lor_spec, Z.pow2_bits_eqb by exact Hn.
    destruct (Z.eqb_spec n m) as [Em|Em]; [subst m; rewrite E; reflexivity|apply orb_false_r].
  - pose proof (pow2_testbit_land a n Hn E) as L. rewrite (Z.add_nocarry_lxor _ _ L), (Z.lxor_lor _ _ L). reflexivity.
Qed.
Lemma clearbit_sub : forall a n, 0 <= n -> Z.clearbit a n = a - (if Z.testbit a n then 2 ^ n else 0).
Proof.
  intros a n Hn. unfold Z.clearbit. rewrite Z.shiftl_1_l. destruct (Z.testbit a n) eqn:E.
  - symmetry. apply Z.sub_nocarry_ldiff. apply Z.bits_inj'. intros m Hm. rewrite Z.ldiff_spec, Z.bits_0, Z.pow2_bits_eqb by exact Hn.
    destruct (Z.eqb_spec n m) as [Em|Em]; [subst m; rewrite E; reflexivity|reflexivity].
  - rewrite Z.sub_0_r. apply Z.bits_inj'. intros m Hm. rewrite Z.ldiff_spec, Z.pow2_bits_eqb by exact Hn.
    destruct (Z.eqb_spec n m) as [Em|Em]; [subst m; rewrite E; reflexivity|apply andb_true_r].
Qed.
Lemma bits_split : forall w a A n, 0 <= w -> 0 <= a < 2 ^ w -> 0 <= n -> Z.testbit (a + 2 ^ w * A) n = if n <? w then Z.testbit a n else Z.testbit A (n - w).
Proof.
  intros w a A n Hw Ha Hn. assert (P : 0 < 2 ^ w) by (apply Z.pow_pos_nonneg; lia). rewrite Z.mul_comm.
  destruct (Z.ltb_spec n w) as [L|L].
  - rewrite <- (Z.mod_pow2_bits_low (a + A * 2 ^ w) w n) by lia. rewrite Z.mod_add, Z.mod_small by lia. reflexivity.
  - replace (Z.testbit (a + A * 2 ^ w) n) with (Z.testbit (a + A * 2 ^ w) (n - w + w)) by (f_equal; lia). rewrite <- (Z.div_pow2_bits (a + A * 2 ^ w) w (n - w)) by lia. rewrite Z.div_add, Z.div_small by lia. reflexivity.
Qed.

(* operations that act bit by bit, and their limb form *)
Definition splits (w : Z) (op : Z -> Z -> Z) (f : Z -> Z -> Z) : Prop := forall a b A C, below (2 ^ w) a -> below (2 ^ w) b ->
  below (2 ^ w) (f a b) /\ op (a + 2 ^ w * A) (b + 2 ^ w * C) = f a b + 2 ^ w * op A C.
Lemma bitop_splits : forall w (op f : Z -> Z -> Z) (bo : bool -> bool -> bool), 0 <= w ->
  (forall a b n, 0 <= n -> Z.testbit (op a b) n = bo (Z.testbit a n) (Z.testbit b n)) ->
  (forall a b, below (2 ^ w) a -> below (2 ^ w) b -> below (2 ^ w) (f a b)) ->
  (forall a b n, below (2 ^ w) a -> below (2 ^ w) b -> 0 <= n < w -> Z.testbit (f a b) n = bo (Z.testbit a n) (Z.testbit b n)) -> splits w op f.
Proof.
  intros w op f bo Hw Hop Hr Hf a b A C Ha Hb. split; [apply Hr; assumption|]. apply Z.bits_inj'. intros n Hn.
  rewrite Hop by exact Hn. rewrite !bits_split by (try exact Hw; try exact Hn; try exact Ha; try exact Hb; apply Hr; assumption).
  destruct (Z.ltb_spec n w) as [L|L]; [rewrite Hf by (try assumption; lia); reflexivity|rewrite Hop by lia; reflexivity].
Qed.
Lemma below_bits : forall w a, 0 <= w -> (forall n, w <= n -> Z.testbit a n = false) -> 0 <= a -> below (2 ^ w) a.
Proof.
  intros w a Hw H Ha. split; [exact Ha|]. destruct (Z.eq_dec a 0) as [E|E]; [subst a; apply Z.pow_pos_nonneg; lia|].
  apply Z.log2_lt_pow2; [lia|]. destruct (Z_lt_dec (Z.log2 a) w) as [L|L]; [exact L|]. pose proof (Z.bit_log2 a ltac:(lia)) as T. rewrite H in T by lia. discriminate.
Qed.
Lemma below_high : forall w a n, 0 <= w -> below (2 ^ w) a -> w <= n -> Z.testbit a n = false.
Proof.
  intros w a n Hw Ha Hn. pose proof (bits_split w a 0 n Hw Ha ltac:(lia)) as E. rewrite Z.mul_0_r, Z.add_0_r in E. rewrite E.
  destruct (Z.ltb_spec n w); [lia|apply Z.bits_0].
Qed.
Lemma land_below : forall w a b, 0 <= w -> below (2 ^ w) a -> below (2 ^ w) b -> below (2 ^ w) (Z.land a b).
Proof.
  intros w a b Hw Ha Hb. apply below_bits; [exact Hw| |apply Z.land_nonneg; left; apply Ha].
  intros n Hn. rewrite Z.land_spec, (below_high w a n Hw Ha Hn). reflexivity.
Qed.
Lemma lor_below : forall w a b, 0 <= w -> below (2 ^ w) a -> below (2 ^ w) b -> below (2 ^ w) (Z.lor a b).
Proof.
  intros w a b Hw Ha Hb. apply below_bits; [exact Hw| |apply Z.lor_nonneg; split; [apply Ha|apply Hb]].
  intros n Hn. rewrite Z.lor_spec, (below_high w a n Hw Ha Hn), (below_high w b n Hw Hb Hn). reflexivity.
Qed.
Lemma lxor_below : forall w a b, 0 <= w -> below (2 ^ w) a -> below (2 ^ w) b -> below (2 ^ w) (Z.lxor a b).
Proof.
  intros w a b Hw Ha Hb. apply below_bits; [exact Hw| |apply Z.lxor_nonneg; split; intros; [apply Hb|apply Ha]].
  intros n Hn. rewrite Z.lxor_spec, (below_high w a n Hw Ha Hn), (below_high w b n Hw Hb Hn). reflexivity.
Qed.
Lemma land_splits : forall w, 0 <= w -> splits w Z.land Z.land.
Proof. intros w Hw. apply (bitop_splits w _ _ andb Hw); intros; try apply Z.land_spec. apply land_below; assumption. Qed.
Lemma lor_splits : forall w, 0 <= w -> splits w Z.lor Z.lor.
Proof. intros w Hw. apply (bitop_splits w _ _ orb Hw); intros; try apply Z.lor_spec. apply lor_below; assumption. Qed.
Lemma lxor_splits : forall w, 0 <= w -> splits w Z.lxor Z.lxor.
Proof. intros w Hw. apply (bitop_splits w _ _ xorb Hw); intros; try apply Z.lxor_spec. apply lxor_below; assumption. Qed.
Definition flipz (b : bool) (a : Z) : Z := if b then Z.lnot a else a.
Lemma lmask_below : forall w b, 0 <= w -> below (2 ^ w) (lmask w b).
Proof. intros w b Hw. assert (0 < 2 ^ w) by (apply Z.pow_pos_nonneg; lia). unfold lmask, LB, below. destruct b; lia. Qed.
Lemma lmask_bit : forall w b n, 0 <= n < w -> Z.testbit (lmask w b) n = b.
Proof.
  intros w b n Hn. unfold lmask, LB. destruct b; [|apply Z.bits_0]. rewrite <- (Z.ones_equiv w) || replace (2 ^ w - 1) with (Z.ones w) by (rewrite Z.ones_equiv; lia).
  apply Z.ones_spec_low. exact Hn.
Qed.
Lemma flip_bit : forall b a n, 0 <= n -> Z.testbit (flipz b a) n = xorb (Z.testbit a n) b.
Proof. intros [] a n Hn; unfold flipz; [rewrite Z.lnot_spec, xorb_true_r by exact Hn|rewrite xorb_false_r]; reflexivity. Qed.
Lemma flip_splits : forall w bx bw, 0 <= w ->
  splits w (fun a b => Z.land (flipz bx a) (flipz bw b)) (fun a b => Z.land (Z.lxor a (lmask w bx)) (Z.lxor b (lmask w bw))).
Proof.
  intros w bx bw Hw. apply (bitop_splits w _ _ (fun p q => (xorb p bx && xorb q bw)%bool) Hw).
  - intros a b n Hn. rewrite Z.land_spec, !flip_bit by exact Hn. reflexivity.
  - intros a b Ha Hb. apply land_below; [exact Hw| |]; (apply lxor_below; [exact Hw| |apply lmask_below; exact Hw]); assumption.
  - intros a b n Ha Hb Hn. rewrite Z.land_spec, !Z.lxor_spec, !lmask_bit by exact Hn. reflexivity.
Qed.

Section MpzBits.
Variable w : Z.
Hypothesis Hw : 0 < w.
Notation B := (LB w).
Notation limb := (below (LB w)).
Notation limbs := (Forall (below (LB w))).
Notation val := (dval (LB w)).
Notation normal := (normal w).
Notation isz := (isz w).
Notation okz := (okz w).

Lemma pow_split : forall bits, 0 <= bits -> 2 ^ bits = B ^ Z.of_nat (Z.to_nat (bits / w)) * 2 ^ (bits mod w).
Proof.
  intros bits Hb. assert (0 <= bits / w) by (apply Z.div_pos; lia). pose proof (Z.mod_pos_bound bits w Hw). pose proof (Z.div_mod bits w ltac:(lia)) as D.
  rewrite Z2Nat.id by assumption. unfold LB. rewrite <- Z.pow_mul_r, <- Z.pow_add_r by lia. f_equal. exact D.
Qed.
Lemma pow_lt_B : forall r, 0 <= r < w -> 0 < 2 ^ r /\ 2 * 2 ^ r <= B.
Proof.
  intros r Hr. split; [apply Z.pow_pos_nonneg; lia|]. unfold LB. rewrite <- Z.pow_succ_r by lia. apply Z.pow_le_mono_r; lia.
Qed.
Lemma val_app : forall a b : list Z, val (a ++ b) = val a + B ^ Z.of_nat (length a) * val b.
Proof. intros a b. apply dval_app. Qed.
Lemma val_split : forall (l : list Z) s, (s <= length l)%nat -> val l = val (firstn s l) + B ^ Z.of_nat s * val (skipn s l).
Proof. intros l s H. rewrite <- (firstn_skipn s l) at 1. rewrite val_app, firstn_length_le by exact H. reflexivity. Qed.
Lemma val_skip : forall l s, limbs l -> (s <= length l)%nat -> val (skipn s l) = val l / B ^ Z.of_nat s /\ val (firstn s l) = val l mod B ^ Z.of_nat s.
Proof.
  intros l s Hl H. pose proof (val_split l s H) as E. pose proof (firstn_val_range w Hw l s Hl H) as R. pose proof (Bpow_pos w Hw s).
  destruct (div_eq_bounds (val l) (B ^ Z.of_nat s) (val (skipn s l))) as [E1 E2]; [lia|lia|]. split; [lia|]. rewrite E2. lia.
Qed.
Lemma normal_skip : forall l s, normal l -> (s < length l)%nat -> normal (skipn s l).
Proof.
  intros l s Hl H. pose proof (normal_last w Hw l (proj1 Hl)) as NL. apply NL in Hl as HL. destruct HL as [E|E]; [subst l; cbn [length] in H; lia|].
  apply (normal_last w Hw); [apply Forall_skipn; exact (proj1 Hl)|]. right. rewrite <- (firstn_skipn s l) in E.
  assert (Hn : skipn s l <> []) by (intros E0; pose proof (skipn_length s l) as SL; rewrite E0 in SL; cbn [length] in SL; lia).
  destruct (exists_last Hn) as (m & a & Em). rewrite Em in *. rewrite app_assoc, last_last in E. rewrite last_last. exact E.
Qed.
Lemma repeat0_val : forall n, val (repeat 0 n) = 0.
Proof. intros n. apply dval_repeat0. Qed.
Lemma repeat0_limbs : forall n, limbs (repeat 0 n).
Proof. intros n. apply Forall_forall. intros a Ha. apply repeat_spec in Ha. subst a. apply limb0. exact Hw. Qed.

Lemma mul_2exp_spec : forall x bits u, isz x u -> 0 <= bits -> isz (mpz_mul_2exp w x bits) (u * 2 ^ bits).
Proof.
  intros x bits u Hx Hb. open_z Hx nx lx Nx Zx. unfold mpz_mul_2exp. rewrite mkz_size_0, lm_mkz, neg_p_mkz by exact Zx.
  destruct (length lx =? 0)%nat eqn:Ex.
  { apply Nat.eqb_eq, length_zero_iff_nil in Ex. subst lx. rewrite (Zx eq_refl). apply isz_0; exact Hw. }
  apply nonempty_len in Ex. destruct (Z.eqb_spec bits 0) as [E|E].
  { subst bits. rewrite Z.pow_0_r, Z.mul_1_r. apply isz_mkz; [exact Nx|reflexivity]. }
  rewrite (pow_split bits Hb). set (s := Z.to_nat (bits / w)). pose proof (Z.mod_pos_bound bits w Hw) as Rr. set (r := bits mod w) in *.
  assert (SG : forall a b c, sg nx a * (b * c) = sg nx (b * (a * c))) by (intros a b c; destruct nx; unfold sg; ring). rewrite SG.
  pose proof (normal_pos w Hw lx Nx Ex) as P. pose proof (Bpow_pos w Hw s) as Ps. destruct (pow_lt_B r Rr) as [Pr _].
  assert (Low : B ^ Z.of_nat (s + (length lx - 1)) <= B ^ Z.of_nat s * (val lx * 2 ^ r)).
  { rewrite (Bpow_add w). apply Z.mul_le_mono_nonneg_l; [lia|]. pose proof (Z.mul_le_mono_nonneg_l 1 (2 ^ r) (val lx) ltac:(lia) ltac:(lia)). lia. }
  assert (Ln : (1 <= length lx)%nat) by (destruct lx; [contradiction|cbn [length]; lia]).
  destruct (Z.eqb_spec r 0) as [Er|Er]; cbn [negb].
  - apply isz_mkz.
    + split; [apply Forall_app; split; [apply repeat0_limbs|exact (proj1 Nx)]|right]. rewrite app_length, repeat_length, val_app, repeat0_val, repeat_length.
      rewrite Er, Z.pow_0_r, Z.mul_1_r in Low. replace (s + length lx - 1)%nat with (s + (length lx - 1))%nat by (clear - Ln; lia). lia.
    + rewrite val_app, repeat0_val, repeat_length, Er, Z.pow_0_r, Z.mul_1_r. reflexivity.
  - pose proof (mpn_lshift_spec w Hw r ltac:(lia) lx (proj1 Nx)) as M. destruct (mpn_lshift w lx r) as [z c]. destruct M as (M1 & M2 & M3 & M4).
    destruct (pow_lt_B r Rr) as [_ Pr2].
    assert (V : forall t, val (repeat 0 s ++ z ++ t) = B ^ Z.of_nat s * (val z + B ^ Z.of_nat (length lx) * val t)).
    { intros t. rewrite !val_app, repeat0_val, repeat_length, M1. lia. }
    assert (Vc : val z + B ^ Z.of_nat (length lx) * val (if negb (c =? 0) then [c] else []) = val lx * 2 ^ r).
    { clear - M4. destruct (Z.eqb_spec c 0) as [Ec|Ec]; cbn [negb dval]; [subst c|]; lia. }
    apply isz_mkz; [|rewrite V, Vc; reflexivity]. split.
    + apply Forall_app; split; [apply repeat0_limbs|]. apply Forall_app; split; [exact M2|]. destruct (Z.eqb_spec c 0); cbn [negb]; [constructor|constructor; [clear - M3 Pr2 Pr; unfold below; lia|constructor]].
    + right. rewrite V, Vc, !app_length, repeat_length, M1. destruct (Z.eqb_spec c 0) as [Ec|Ec]; cbn [negb length].
      * replace (s + (length lx + 0) - 1)%nat with (s + (length lx - 1))%nat by (clear - Ln; lia). exact Low.
      * replace (s + (length lx + 1) - 1)%nat with (s + length lx)%nat by (clear - Ln; lia). rewrite (Bpow_add w). apply Z.mul_le_mono_nonneg_l; [lia|]. rewrite <- M4.
        pose proof (val_range w Hw z M2) as H1. pose proof (Bpow_pos w Hw (length lx)) as H2. assert (H3 : 1 <= c) by (clear - M3 Ec; lia). pose proof (Z.mul_le_mono_nonneg_l 1 c (B ^ Z.of_nat (length lx)) ltac:(clear - H2; lia) H3) as H4. clear - H1 H4. lia.
Qed.
Lemma quo_2exp_spec : forall x bits u, isz x u -> 0 <= bits -> isz (mpz_quo_2exp w x bits) (Z.quot u (2 ^ bits)).
Proof.
  intros x bits u Hx Hb. open_z Hx nx lx Nx Zx. unfold mpz_quo_2exp. rewrite mkz_size_0, lm_mkz, neg_p_mkz by exact Zx.
  pose proof (val_range w Hw lx (proj1 Nx)) as Rx. assert (P2 : 0 < 2 ^ bits) by (apply Z.pow_pos_nonneg; lia).
  pose proof (quot_sg nx false (val lx) (2 ^ bits) ltac:(lia) P2) as Q. unfold sg at 2 in Q. rewrite Q, xorb_false_r. clear Q.
  destruct (length lx =? 0)%nat eqn:Ex.
  { apply Nat.eqb_eq, length_zero_iff_nil in Ex. subst lx. rewrite (Zx eq_refl). apply isz_0; exact Hw. }
  apply nonempty_len in Ex. destruct (Z.eqb_spec bits 0) as [E|E].
  { subst bits. rewrite Z.pow_0_r, Z.div_1_r. apply isz_mkz; [exact Nx|reflexivity]. }
  pose proof (pow_split bits Hb) as PS. set (s := Z.to_nat (bits / w)) in *. pose proof (Z.mod_pos_bound bits w Hw) as Rr. set (r := bits mod w) in *.
  destruct (pow_lt_B r Rr) as [Pr Pr2]. pose proof (Bpow_pos w Hw s) as Ps.
  destruct (Nat.leb_spec (length lx) s) as [L|L].
  { rewrite Z.div_small. replace (sg nx 0) with 0 by (destruct nx; reflexivity). apply isz_0; exact Hw. split; [lia|].
    pose proof (Bpow_le w Hw (length lx) s L). rewrite PS. pose proof (Z.mul_le_mono_nonneg_l 1 (2 ^ r) (B ^ Z.of_nat s) ltac:(lia) ltac:(lia)). lia. }
  assert (Dv : val lx / 2 ^ bits = val (skipn s lx) / 2 ^ r) by (rewrite PS, <- Z.div_div, <- (proj1 (val_skip lx s (proj1 Nx) ltac:(lia))) by lia; reflexivity). rewrite Dv.
  pose proof (normal_skip lx s Nx L) as NS. pose proof (skipn_length s lx) as SL.
  destruct (Z.eqb_spec r 0) as [Er|Er]; cbn [negb].
  - rewrite Er, Z.pow_0_r, Z.div_1_r. apply isz_mkz; [exact NS|reflexivity].
  - pose proof (mpn_rshift_spec w Hw r ltac:(lia) (skipn s lx) (proj1 NS)) as M. destruct (mpn_rshift w (skipn s lx) r) as [z c]. destruct M as (M1 & M2 & M3 & _). cbn [fst].
    destruct (drop_top_spec w Hw z M2) as (D1 & D2); [|apply isz_mkz; [exact D1|rewrite D2, M3; reflexivity]].
    intros L2. rewrite M1, M3 in *. apply Z.div_le_lower_bound; [lia|].
    pose proof (normal_pos w Hw (skipn s lx) NS ltac:(intros E0; rewrite E0 in L2; cbn [length] in L2; lia)) as P.
    replace (length (skipn s lx) - 1)%nat with (S (length (skipn s lx) - 2)) in P by (clear - L2; lia). rewrite Bpow_S in P.
    pose proof (Bpow_pos w Hw (length (skipn s lx) - 2)) as Pm.
    pose proof (Z.mul_le_mono_nonneg_r (2 ^ r) B (B ^ Z.of_nat (length (skipn s lx) - 2)) ltac:(lia) ltac:(lia)). lia.
Qed.

(* masking the top limb *)
Lemma upd_val : forall l i v, (i < length l)%nat -> val (upd l i v) = val l + B ^ Z.of_nat i * (v - nth i l 0).
Proof.
  induction l as [|a l IH]; intros i v H; cbn [length] in H; [lia|]. destruct i as [|i]; cbn [upd nth].
  - rewrite !val_cons by exact Hw. change (Z.of_nat 0) with 0. rewrite Z.pow_0_r. ring.
  - rewrite !val_cons, IH, Bpow_S by (exact Hw || lia). ring.
Qed.
Lemma upd_limbs : forall l i v, limbs l -> limb v -> limbs (upd l i v).
Proof.
  induction l as [|a l IH]; intros i v Hl Hv; [exact Hl|]. destruct i as [|i]; cbn [upd].
  - constructor; [exact Hv|exact (Forall_inv_tail Hl)].
  - constructor; [exact (Forall_inv Hl)|apply IH; [exact (Forall_inv_tail Hl)|exact Hv]].
Qed.
Lemma land_ones_mod : forall a lo, 0 <= lo -> Z.land a (2 ^ lo - 1) = a mod 2 ^ lo.
Proof. intros a lo H. replace (2 ^ lo - 1) with (Z.ones lo) by (rewrite Z.ones_equiv; lia). apply Z.land_ones. exact H. Qed.
Lemma nth_limb : forall l i, limbs l -> limb (nth i l 0).
Proof. intros l i Hl. apply Forall_nth_d; [exact Hl|apply limb0; exact Hw]. Qed.
Lemma mask_spec : forall z lo, limbs z -> 0 < lo < w -> (1 <= length z)%nat ->
  limbs (mask_top z lo) /\ val (mask_top z lo) = val z mod (B ^ Z.of_nat (length z - 1) * 2 ^ lo).
Proof.
  intros z lo Hz Hl H1. unfold mask_top. destruct (Z.eqb_spec lo 0) as [E|E]; [lia|]. cbn [negb]. rewrite land_ones_mod by lia.
  pose proof (nth_limb z (length z - 1) Hz) as L. unfold below in L. destruct (pow_lt_B lo ltac:(lia)) as [P P2].
  pose proof (Z.mod_pos_bound (nth (length z - 1) z 0) (2 ^ lo) P) as Rm. split; [apply upd_limbs; [exact Hz|unfold below; lia]|].
  rewrite upd_val by lia. set (n := (length z - 1)%nat) in *. set (t := nth n z 0) in *.
  pose proof (val_firstn_S w z n ltac:(lia)) as V. rewrite firstn_all2 in V by lia. fold t in V. pose proof (firstn_val_range w Hw z n Hz ltac:(lia)) as R.
  set (F := val (firstn n z)) in *. pose proof (Bpow_pos w Hw n) as Pn. set (N := B ^ Z.of_nat n) in *. rewrite V.
  pose proof (Z.div_mod t (2 ^ lo) ltac:(lia)) as D.
  destruct (div_eq_bounds (F + N * t) (N * 2 ^ lo) (t / 2 ^ lo)) as [_ E2]; [apply Z.mul_pos_pos; lia| |].
  - set (q := t / 2 ^ lo) in *. set (m := t mod 2 ^ lo) in *. set (C := 2 ^ lo) in *. clearbody q m C N F. rewrite D.
    assert (N * (m + 1) <= N * C) by (apply Z.mul_le_mono_nonneg_l; lia). assert (0 <= N * m) by (apply Z.mul_nonneg_nonneg; lia). split; lia.
  - rewrite E2. set (q := t / 2 ^ lo) in *. set (m := t mod 2 ^ lo) in *. set (C := 2 ^ lo) in *. clearbody q m C N F. rewrite D. ring.
Qed.
Lemma ceil_split : forall bits, 0 < bits -> let s := Z.to_nat (bits / w) in
  Z.to_nat ((bits + w - 1) / w) = if bits mod w =? 0 then s else S s.
Proof.
  intros bits Hb s. pose proof (Z.mod_pos_bound bits w Hw) as R. pose proof (Z.div_mod bits w ltac:(lia)) as D. assert (0 <= bits / w) by (apply Z.div_pos; lia).
  unfold s. destruct (Z.eqb_spec (bits mod w) 0) as [E|E].
  - destruct (div_eq_bounds (bits + w - 1) w (bits / w) Hw) as [E1 _]; [lia|]. rewrite E1. reflexivity.
  - destruct (div_eq_bounds (bits + w - 1) w (bits / w + 1) Hw) as [E1 _]; [lia|]. rewrite E1. lia.
Qed.
(* the low bits of a limb array that reaches them *)
Lemma mask_low : forall z bits, limbs z -> 0 < bits -> length z = Z.to_nat ((bits + w - 1) / w) ->
  normal (stripped (mask_top z (bits mod w))) /\ val (stripped (mask_top z (bits mod w))) = val z mod 2 ^ bits.
Proof.
  intros z bits Hz Hb Hl. pose proof (ceil_split bits Hb) as C. cbv zeta in C. rewrite C in Hl. pose proof (pow_split bits ltac:(lia)) as PS.
  pose proof (Z.mod_pos_bound bits w Hw) as R. set (s := Z.to_nat (bits / w)) in *. clearbody s. destruct (Z.eqb_spec (bits mod w) 0) as [E|E].
  - unfold mask_top. rewrite E. cbn [Z.eqb negb]. destruct (stripped_spec w Hw z Hz) as (S1 & S2). split; [exact S1|]. rewrite S2, PS, E, Z.pow_0_r, Z.mul_1_r.
    pose proof (val_range w Hw z Hz) as V. rewrite Hl in V. symmetry. apply Z.mod_small. exact V.
  - destruct (mask_spec z (bits mod w) Hz ltac:(lia) ltac:(lia)) as (M1 & M2). destruct (stripped_spec w Hw _ M1) as (S1 & S2). split; [exact S1|].
    rewrite S2, M2, PS, Hl. replace (S s - 1)%nat with s by (clear; lia). reflexivity.
Qed.
Lemma firstn_mod : forall l bits, limbs l -> 0 < bits -> (Z.to_nat ((bits + w - 1) / w) <= length l)%nat ->
  val (firstn (Z.to_nat ((bits + w - 1) / w)) l) mod 2 ^ bits = val l mod 2 ^ bits.
Proof.
  intros l bits Hl Hb H. set (zn := Z.to_nat ((bits + w - 1) / w)) in *. rewrite (proj2 (val_skip l zn Hl H)).
  pose proof (Z.div_mod (bits + w - 1) w ltac:(lia)) as D. pose proof (Z.mod_pos_bound (bits + w - 1) w Hw) as R.
  assert (0 <= (bits + w - 1) / w) by (apply Z.div_pos; lia).
  assert (E : B ^ Z.of_nat zn = 2 ^ bits * 2 ^ (w * ((bits + w - 1) / w) - bits)).
  { unfold zn, LB. rewrite Z2Nat.id, <- Z.pow_mul_r, <- Z.pow_add_r by lia. f_equal. lia. }
  rewrite E. set (K := 2 ^ (w * ((bits + w - 1) / w) - bits)). assert (0 < K) by (apply Z.pow_pos_nonneg; lia). assert (0 < 2 ^ bits) by (apply Z.pow_pos_nonneg; lia).
  rewrite Z.rem_mul_r by lia. rewrite (Z.mul_comm (2 ^ bits) (_ mod K)), Z.mod_add by lia. apply Z.mod_mod. lia.
Qed.
Lemma small_bits : forall l bits, limbs l -> 0 < bits -> (length l < Z.to_nat ((bits + w - 1) / w))%nat -> val l < 2 ^ bits.
Proof.
  intros l bits Hl Hb H. pose proof (val_range w Hw l Hl) as R. pose proof (ceil_split bits Hb) as C. cbv zeta in C. rewrite C in H.
  rewrite (pow_split bits) by lia. set (s := Z.to_nat (bits / w)) in *. destruct (pow_lt_B (bits mod w) (Z.mod_pos_bound bits w Hw)) as [P _].
  assert (length l <= s)%nat by (destruct (bits mod w =? 0); lia). pose proof (Bpow_le w Hw (length l) s ltac:(assumption)). pose proof (Bpow_pos w Hw s).
  pose proof (Z.mul_le_mono_nonneg_l 1 (2 ^ (bits mod w)) (B ^ Z.of_nat s) ltac:(lia) ltac:(lia)). lia.
Qed.
Lemma low_mask_list : forall l bits, normal l -> 0 < bits ->
  let zn := Z.to_nat ((bits + w - 1) / w) in
  let '(zn, lo) := if (length l <? zn)%nat then (length l, 0) else (zn, bits mod w) in
  normal (stripped (mask_top (firstn zn l) lo)) /\ val (stripped (mask_top (firstn zn l) lo)) = val l mod 2 ^ bits.
Proof.
  intros l bits Nl Hb zn. destruct (Nat.ltb_spec (length l) zn) as [L|L].
  - unfold mask_top. cbn [Z.eqb negb]. rewrite firstn_all. destruct (stripped_spec w Hw l (proj1 Nl)) as (S1 & S2). split; [exact S1|].
    rewrite S2. symmetry. apply Z.mod_small. split; [apply (val_range w Hw l (proj1 Nl))|apply small_bits; [exact (proj1 Nl)|exact Hb|exact L]].
  - destruct (mask_low (firstn zn l) bits (Forall_firstn _ _ _ _ (proj1 Nl)) Hb) as (M1 & M2); [apply firstn_length_le; exact L|].
    split; [exact M1|]. rewrite M2. apply firstn_mod; [exact (proj1 Nl)|exact Hb|exact L].
Qed.
Lemma rem_2exp_spec : forall x bits u, isz x u -> 0 <= bits -> isz (mpz_rem_2exp w x bits) (Z.rem u (2 ^ bits)).
Proof.
  intros x bits u Hx Hb. open_z Hx nx lx Nx Zx. unfold mpz_rem_2exp. rewrite mkz_size_0, lm_mkz, neg_p_mkz by exact Zx.
  pose proof (val_range w Hw lx (proj1 Nx)) as Rx. assert (P2 : 0 < 2 ^ bits) by (apply Z.pow_pos_nonneg; lia).
  pose proof (rem_sg nx false (val lx) (2 ^ bits) ltac:(lia) P2) as Q. unfold sg at 2 in Q. rewrite Q. clear Q.
  destruct (length lx =? 0)%nat eqn:Ex; cbn [orb].
  { apply Nat.eqb_eq, length_zero_iff_nil in Ex. subst lx. rewrite (Zx eq_refl). cbn [dval]. rewrite Z.mod_0_l by lia. apply isz_0; exact Hw. }
  destruct (Z.eqb_spec bits 0) as [E|E].
  { subst bits. rewrite Z.pow_0_r, Z.mod_1_r. replace (sg nx 0) with 0 by (destruct nx; reflexivity). apply isz_0; exact Hw. }
  pose proof (low_mask_list lx bits Nx ltac:(lia)) as M. cbv zeta in M |- *. destruct (length lx <? Z.to_nat ((bits + w - 1) / w))%nat; destruct M as (M1 & M2); (apply isz_mkz; [exact M1|rewrite M2; reflexivity]).
Qed.
Lemma div_2exp_spec : forall x bits u, isz x u -> 0 <= bits -> okz (mpz_div_2exp w x bits) (u / 2 ^ bits).
Proof.
  intros x bits u Hx Hb. unfold mpz_div_2exp. rewrite (isz_neg w Hw x u Hx). assert (P2 : 0 < 2 ^ bits) by (apply Z.pow_pos_nonneg; lia).
  destruct (Z.ltb_spec u 0) as [L|L].
  - destruct (sub_ui_spec w Hw (mpz_neg x) 1 (- u) (neg_spec w x u Hx) (limb1 w Hw)) as (z & E & Hz). rewrite E. cbn [bind].
    pose proof (quo_2exp_spec z bits _ Hz Hb) as Hq. destruct (add_ui_spec w Hw _ 1 _ Hq (limb1 w Hw)) as (z' & E' & Hz'). rewrite E'. cbn [bind]. apply okz_z.
    replace (u / 2 ^ bits) with (- (Z.quot (- u - 1) (2 ^ bits) + 1)); [apply neg_spec; exact Hz'|].
    rewrite Z.quot_div_nonneg by lia. pose proof (Z.div_mod (- u - 1) (2 ^ bits) ltac:(lia)) as D. pose proof (Z.mod_pos_bound (- u - 1) (2 ^ bits) P2) as R.
    destruct (div_eq_bounds u (2 ^ bits) (- ((- u - 1) / 2 ^ bits + 1)) P2) as [E1 _]; [lia|]. symmetry. exact E1.
  - apply okz_z. rewrite <- Z.quot_div_nonneg by lia. apply quo_2exp_spec; assumption.
Qed.
Lemma com_limbs : forall z, limbs z -> limbs (map (fun a => B - 1 - a) z) /\ val (map (fun a => B - 1 - a) z) = B ^ Z.of_nat (length z) - 1 - val z.
Proof.
  induction z as [|a z IH]; intros Hz; [split; [constructor|cbn; lia]|]. destruct (IH (Forall_inv_tail Hz)) as (I1 & I2). pose proof (Forall_inv Hz) as Ha. unfold below in Ha.
  cbn [map length]. rewrite !val_cons, Bpow_S, I2 by exact Hw. split; [constructor; [unfold below; lia|exact I1]|ring].
Qed.
Lemma mod_2exp_spec : forall x bits u, isz x u -> 0 <= bits -> isz (mpz_mod_2exp w x bits) (u mod 2 ^ bits).
Proof.
  intros x bits u Hx Hb. open_z Hx nx lx Nx Zx. unfold mpz_mod_2exp. rewrite mkz_size_0, lm_mkz, mkz_size_neg by exact Zx.
  pose proof (val_range w Hw lx (proj1 Nx)) as Rx. assert (P2 : 0 < 2 ^ bits) by (apply Z.pow_pos_nonneg; lia).
  destruct (length lx =? 0)%nat eqn:Ex; cbn [orb].
  { apply Nat.eqb_eq, length_zero_iff_nil in Ex. subst lx. rewrite (Zx eq_refl). unfold sg. cbn [dval]. rewrite Z.mod_0_l by lia. apply isz_0; exact Hw. }
  apply nonempty_len in Ex. destruct (Z.eqb_spec bits 0) as [E|E].
  { subst bits. rewrite Z.pow_0_r, Z.mod_1_r. apply isz_0; exact Hw. }
  destruct nx.
  2:{ pose proof (low_mask_list lx bits Nx ltac:(lia)) as M. cbv zeta in M |- *. destruct (length lx <? Z.to_nat ((bits + w - 1) / w))%nat; destruct M as (M1 & M2); (apply isz_mkz; [exact M1|rewrite M2; reflexivity]). }
  cbv zeta. set (zn := Z.to_nat ((bits + w - 1) / w)).
  set (z := if (length lx <? zn)%nat then fst (mpn_sub_1 w lx 1) ++ repeat 0 (zn - length lx) else fst (mpn_sub_1 w (firstn zn lx) 1)).
  assert (Z1 : (1 <= zn)%nat). { unfold zn. rewrite ceil_split by lia. cbv zeta. destruct (Z.eqb_spec (bits mod w) 0) as [E0|E0]; [|lia].
    assert (1 <= bits / w) by (apply Z.div_le_lower_bound; [lia|]; pose proof (Z.div_mod bits w ltac:(lia)); assert (0 < bits / w) by (apply Z.div_str_pos; split; [lia|]; destruct (Z_lt_dec bits w); [rewrite Z.mod_small in E0 by lia; lia|lia]); pose proof (Z.mul_le_mono_nonneg_l 1 (bits / w) w ltac:(lia) ltac:(lia)); lia). lia. }
  assert (G : length z = zn /\ limbs z /\ (val z - (val lx - 1)) mod 2 ^ bits = 0).
  { unfold z. destruct (Nat.ltb_spec (length lx) zn) as [L|L].
    - pose proof (sub_1_spec w Hw lx 1 (proj1 Nx) (limb1 w Hw) ltac:(intros E0; contradiction)) as M. destruct (mpn_sub_1 w lx 1) as [t c]. destruct M as (M1 & M2 & M3 & M4). cbn [fst].
      rewrite app_length, repeat_length, M1, val_app, repeat0_val. split; [lia|]. split; [apply Forall_app; split; [exact M2|apply repeat0_limbs]|].
      unfold carry in M3. pose proof (normal_pos w Hw lx Nx Ex) as P. pose proof (val_range w Hw t M2) as Rt. rewrite M1 in Rt.
      assert (c = 0) by (destruct (Z.eq_dec c 0); [assumption|assert (c = 1) by lia; subst c; lia]). subst c.
      replace (val t + B ^ Z.of_nat (length t) * 0 - (val lx - 1)) with 0 by lia. apply Z.mod_0_l. lia.
    - assert (F : length (firstn zn lx) = zn) by (apply firstn_length_le; exact L).
      pose proof (sub_1_spec w Hw (firstn zn lx) 1 (Forall_firstn _ _ _ _ (proj1 Nx)) (limb1 w Hw) ltac:(intros E0; rewrite E0 in F; cbn [length] in F; lia)) as M.
      destruct (mpn_sub_1 w (firstn zn lx) 1) as [t c]. destruct M as (M1 & M2 & M3 & M4). cbn [fst]. rewrite F in *. split; [exact M1|]. split; [exact M2|].
      pose proof (firstn_mod lx bits (proj1 Nx) ltac:(lia) L) as FM. fold zn in FM.
      assert (D1 : (B ^ Z.of_nat zn) mod 2 ^ bits = 0).
      { pose proof (Z.div_mod (bits + w - 1) w ltac:(lia)) as D. pose proof (Z.mod_pos_bound (bits + w - 1) w Hw) as R. assert (0 <= (bits + w - 1) / w) by (apply Z.div_pos; lia).
        unfold zn, LB. rewrite Z2Nat.id, <- Z.pow_mul_r by lia. replace (w * ((bits + w - 1) / w)) with (bits + (w * ((bits + w - 1) / w) - bits)) by lia. rewrite Z.pow_add_r, Z.mul_comm by lia. apply Z.mod_mul. lia. }
      apply Z.mod_divide in D1; [|lia]. destruct D1 as (k & Dk). pose proof (Z.div_mod (val (firstn zn lx)) (2 ^ bits) ltac:(lia)) as Q1. pose proof (Z.div_mod (val lx) (2 ^ bits) ltac:(lia)) as Q2.
      replace (val t - (val lx - 1)) with ((val (firstn zn lx) / 2 ^ bits - val lx / 2 ^ bits + k * c) * 2 ^ bits) by (rewrite Dk in M4; rewrite FM in Q1; lia). apply Z.mod_mul. lia. }
  clearbody z. destruct G as (G1 & G2 & G3). destruct (com_limbs z G2) as (C1 & C2).
  destruct (mask_low (map (fun a => B - 1 - a) z) bits C1 ltac:(lia)) as (M1 & M2); [rewrite map_length; exact G1|].
  apply isz_mkz; [exact M1|]. rewrite M2, C2, G1. unfold sg.
  assert (D1 : (B ^ Z.of_nat zn) mod 2 ^ bits = 0).
  { pose proof (Z.div_mod (bits + w - 1) w ltac:(lia)) as D. pose proof (Z.mod_pos_bound (bits + w - 1) w Hw) as R. assert (0 <= (bits + w - 1) / w) by (apply Z.div_pos; lia).
    unfold zn, LB. rewrite Z2Nat.id, <- Z.pow_mul_r by lia. replace (w * ((bits + w - 1) / w)) with (bits + (w * ((bits + w - 1) / w) - bits)) by lia. rewrite Z.pow_add_r, Z.mul_comm by lia. apply Z.mod_mul. lia. }
  apply Z.mod_divide in D1; [|lia]. destruct D1 as (k & Dk). apply Z.mod_divide in G3; [|lia]. destruct G3 as (j & Dj).
  replace (B ^ Z.of_nat zn - 1 - val z) with (- val lx + (k - j) * 2 ^ bits) by lia. apply Z.mod_add. lia.
Qed.
End MpzBits.
