(* Two's complement logic on signed integers. *)
From Verif.Base Require Import Prelude.
From Verif.Model Require Import Encoding Hash Mpn Mpz.
From Verif.Proof Require Import MpnProof MpnShift MpnDiv MpzProof MpzOps MpzBits.

Section MpzLogic.
Variable w : Z.
Hypothesis Hw : 0 < w.
Notation B := (LB w).
Notation limb := (below (LB w)).
Notation limbs := (Forall (below (LB w))).
Notation val := (dval (LB w)).
Notation normal := (normal w).
Notation isz := (isz w).
Notation okz := (okz w).
Notation long := (long w).

(* one bit of a limb array *)
Lemma val_bit : forall l p, limbs l -> 0 <= p -> Z.testbit (val l) p = Z.testbit (nth (Z.to_nat (p / w)) l 0) (p mod w).
Proof.
  induction l as [|a l IH]; intros p Hl Hp; [destruct (Z.to_nat (p / w)); cbn [nth dval]; rewrite !Z.bits_0; reflexivity|].
  rewrite val_cons by exact Hw. unfold LB at 1. rewrite bits_split by (try lia; exact (Forall_inv Hl)).
  destruct (Z.ltb_spec p w) as [L|L].
  - rewrite Z.div_small, Z.mod_small by lia. reflexivity.
  - rewrite (IH (p - w) (Forall_inv_tail Hl) ltac:(lia)).
    assert (E : p = (p - w) + 1 * w) by lia. assert (D0 : 0 <= (p - w) / w) by (apply Z.div_pos; lia).
    rewrite E at 3 4. rewrite Z.div_add, Z.mod_add by lia. rewrite Z2Nat.inj_add by lia. change (Z.to_nat 1) with 1%nat.
    rewrite Nat.add_1_r. reflexivity.
Qed.
Lemma skip_nth : forall (l : list Z) s, (s < length l)%nat -> skipn s l = nth s l 0 :: skipn (S s) l.
Proof. induction l as [|a l IH]; intros s L; cbn [length] in L; [lia|]. destruct s as [|s]; [reflexivity|]. cbn [skipn nth]. apply IH. lia. Qed.
Lemma divisible_spec : forall x bits u, isz x u -> 0 <= bits -> mpz_divisible_2exp_p w x bits = (u mod 2 ^ bits =? 0).
Proof.
  intros x bits u Hx Hb. open_z Hx nx lx Nx Zx. unfold mpz_divisible_2exp_p. rewrite mkz_size_0, lm_mkz.
  assert (P2 : 0 < 2 ^ bits) by (apply Z.pow_pos_nonneg; lia).
  assert (S : (sg nx (val lx) mod 2 ^ bits =? 0) = (val lx mod 2 ^ bits =? 0)).
  { destruct nx; unfold sg; [|reflexivity]. destruct (Z.eqb_spec (val lx mod 2 ^ bits) 0) as [E|E].
    - apply Z.eqb_eq. apply Z.mod_opp_l_z; [lia|exact E].
    - apply Z.eqb_neq. intros E2. apply E. rewrite <- (Z.opp_involutive (val lx)). apply Z.mod_opp_l_z; [lia|exact E2]. }
  rewrite S. clear S. pose proof (val_range w Hw lx (proj1 Nx)) as Rx. pose proof (pow_split w Hw bits Hb) as PS. cbv zeta. set (s := Z.to_nat (bits / w)) in *.
  pose proof (Z.mod_pos_bound bits w Hw) as Rr. destruct (pow_lt_B w _ Rr) as [Pr _]. pose proof (Bpow_pos w Hw s) as Ps.
  destruct (length lx =? 0)%nat eqn:Ex.
  { apply Nat.eqb_eq, length_zero_iff_nil in Ex. subst lx. cbn [dval]. rewrite Z.mod_0_l by lia. reflexivity. }
  apply nonempty_len in Ex. pose proof (normal_pos w Hw lx Nx Ex) as P. destruct (Nat.leb_spec (length lx) s) as [L|L].
  { symmetry. apply Z.eqb_neq. rewrite Z.mod_small; [lia|]. split; [lia|]. pose proof (Bpow_le w Hw (length lx) s L).
    rewrite PS. pose proof (Z.mul_le_mono_nonneg_l 1 (2 ^ (bits mod w)) (B ^ Z.of_nat s) ltac:(lia) ltac:(lia)). lia. }
  rewrite land_ones_mod by lia. set (r := bits mod w) in *.
  assert (E : val lx mod 2 ^ bits = val (firstn s lx) + B ^ Z.of_nat s * (nth s lx 0 mod 2 ^ r)).
  { destruct (val_skip w Hw lx s (proj1 Nx) ltac:(lia)) as (V1 & V2). rewrite PS, Z.rem_mul_r, <- V1, <- V2 by lia. f_equal. f_equal.
    assert (Sk : skipn s lx = nth s lx 0 :: skipn (S s) lx).
    { apply skip_nth; exact L. }
    rewrite Sk, val_cons by exact Hw. set (V := val (skipn (S s) lx)). clearbody V. assert (EB : B = 2 ^ r * 2 ^ (w - r)) by (unfold LB; rewrite <- Z.pow_add_r by lia; f_equal; lia).
    rewrite EB. replace (nth s lx 0 + 2 ^ r * 2 ^ (w - r) * V) with (nth s lx 0 + (2 ^ (w - r) * V) * 2 ^ r) by ring. apply Z.mod_add. lia. }
  rewrite E. pose proof (firstn_val_range w Hw lx s (proj1 Nx) ltac:(lia)) as RF. pose proof (Z.mod_pos_bound (nth s lx 0) (2 ^ r) Pr) as RM.
  rewrite (mpn_zero_p_spec w Hw) by (apply Forall_firstn; exact (proj1 Nx)).
  destruct (Z.eqb_spec (nth s lx 0 mod 2 ^ r) 0) as [E0|E0]; cbn [negb].
  - rewrite E0, Z.mul_0_r, Z.add_0_r. reflexivity.
  - symmetry. apply Z.eqb_neq. pose proof (Z.mul_le_mono_nonneg_l 1 (nth s lx 0 mod 2 ^ r) (B ^ Z.of_nat s) ltac:(lia) ltac:(lia)). lia.
Qed.
Lemma bit_beyond : forall l p, limbs l -> 0 <= p -> (length l <= Z.to_nat (p / w))%nat -> Z.testbit (val l) p = false.
Proof. intros l p Hl Hp H. rewrite val_bit, nth_overflow by assumption. apply Z.bits_0. Qed.
Lemma val_beyond : forall l p, limbs l -> 0 <= p -> (length l <= Z.to_nat (p / w))%nat -> val l < 2 ^ p.
Proof.
  intros l p Hl Hp H. pose proof (val_range w Hw l Hl). rewrite (pow_split w Hw p Hp). set (s := Z.to_nat (p / w)) in *.
  pose proof (Bpow_le w Hw (length l) s H). pose proof (Bpow_pos w Hw s). destruct (pow_lt_B w _ (Z.mod_pos_bound p w Hw)) as [Pr _].
  pose proof (Z.mul_le_mono_nonneg_l 1 (2 ^ (p mod w)) (B ^ Z.of_nat s) ltac:(lia) ltac:(lia)). lia.
Qed.
Lemma tstbit_spec : forall x p u, isz x u -> 0 <= p -> mpz_tstbit w x p = Z.testbit u p.
Proof.
  intros x p u Hx Hp. pose proof (divisible_spec x p u Hx Hp) as Dv. revert Dv. open_z Hx nx lx Nx Zx. intros Dv. unfold mpz_tstbit.
  rewrite mkz_size_neg, lm_mkz, Dv by exact Zx. clear Dv. cbv zeta. pose proof (val_range w Hw lx (proj1 Nx)) as Rx. pose proof (Z.mod_pos_bound p w Hw) as Rr.
  assert (P2 : 0 < 2 ^ p) by (apply Z.pow_pos_nonneg; lia).
  replace (Z.odd (Z.shiftr (nth (Z.to_nat (p / w)) lx 0) (p mod w))) with (Z.testbit (val lx) p) by (rewrite val_bit, Z.testbit_odd by (exact Hp || exact (proj1 Nx)); reflexivity).
  destruct (Nat.leb_spec (length lx) (Z.to_nat (p / w))) as [L|L].
  - pose proof (bit_beyond lx p (proj1 Nx) Hp L) as T. pose proof (val_beyond lx p (proj1 Nx) Hp L) as V. destruct nx; unfold sg; [|symmetry; exact T].
    rewrite neg_testbit, T by exact Hp. assert (Hn : lx <> []) by (intros E; discriminate (Zx E)). pose proof (normal_pos w Hw lx Nx Hn).
    rewrite Z.mod_small by lia. destruct (Z.eqb_spec (val lx) 0); [lia|reflexivity].
  - destruct nx; unfold sg; [|reflexivity]. rewrite neg_testbit by exact Hp. f_equal. f_equal.
    destruct (Z.eqb_spec (val lx mod 2 ^ p) 0) as [E|E].
    + apply Z.eqb_eq. apply Z.mod_opp_l_z; [lia|exact E].
    + apply Z.eqb_neq. intros E2. apply E. rewrite <- (Z.opp_involutive (val lx)). apply Z.mod_opp_l_z; [lia|exact E2].
Qed.
Lemma nz_opp_mod : forall a m, 0 < m -> (- a) mod m = 0 <-> a mod m = 0.
Proof.
  intros a m Hm. split; intros E; [rewrite <- (Z.opp_involutive a)|]; apply Z.mod_opp_l_z; (lia || exact E).
Qed.
Lemma bit_pow : forall p, 0 <= p -> B ^ Z.of_nat (Z.to_nat (p / w)) * 2 ^ (p mod w) = 2 ^ p.
Proof. intros p Hp. symmetry. apply (pow_split w Hw p Hp). Qed.
Lemma setbit_abs_spec : forall nx lx p, normal lx -> 0 <= p -> (lx = [] -> nx = false) ->
  isz (mpz_setbit_abs w (mkz nx lx) p) (sg nx (Z.setbit (val lx) p)).
Proof.
  intros nx lx p Nx Hp Zx. unfold mpz_setbit_abs. rewrite lm_mkz, neg_p_mkz by exact Zx. cbv zeta. set (s := Z.to_nat (p / w)) in *.
  pose proof (Z.mod_pos_bound p w Hw) as Rr. destruct (pow_lt_B w _ Rr) as [Pr Pr2]. set (r := p mod w) in *.
  set (l := if (length lx <? s + 1)%nat then lx ++ repeat 0 (s + 1 - length lx) else lx).
  assert (G : limbs l /\ val l = val lx /\ (s < length l)%nat /\ (length l = Nat.max (length lx) (s + 1))).
  { unfold l. destruct (Nat.ltb_spec (length lx) (s + 1)) as [L|L].
    - rewrite val_app, repeat0_val, app_length, repeat_length, Z.mul_0_r, Z.add_0_r. split; [apply Forall_app; split; [exact (proj1 Nx)|apply repeat0_limbs; exact Hw]|]. split; [reflexivity|lia].
    - split; [exact (proj1 Nx)|]. split; [reflexivity|lia]. }
  clearbody l. destruct G as (G1 & G2 & G3 & G4). pose proof (nth_limb w Hw l s G1) as Ln.
  assert (Lv : limb (Z.lor (nth s l 0) (2 ^ r))) by (apply lor_below; [lia|exact Ln|unfold below; unfold LB in Pr2; lia]).
  pose proof (val_bit l p G1 Hp) as T. fold s r in T.
  assert (V : val (upd l s (Z.lor (nth s l 0) (2 ^ r))) = Z.setbit (val lx) p).
  { rewrite (upd_val w) by exact G3. rewrite <- (Z.shiftl_1_l r). fold (Z.setbit (nth s l 0) r). rewrite !setbit_add, <- G2, T by lia.
    rewrite <- (bit_pow p Hp). fold s r. destruct (Z.testbit (nth s l 0) r); ring. }
  apply isz_mkz; [|rewrite V; reflexivity]. split; [apply upd_limbs; assumption|]. right. rewrite V, upd_length, setbit_add by exact Hp.
  rewrite G4. pose proof (val_range w Hw lx (proj1 Nx)) as Rx. destruct (Nat.max_spec (length lx) (s + 1)) as [[M1 M2]|[M1 M2]]; rewrite M2.
  - replace (s + 1 - 1)%nat with s by lia. rewrite bit_beyond by (exact (proj1 Nx) || exact Hp || (fold s; lia)).
    pose proof (bit_pow p Hp) as BP. fold s r in BP. pose proof (Bpow_pos w Hw s). pose proof (Z.mul_le_mono_nonneg_l 1 (2 ^ r) (B ^ Z.of_nat s) ltac:(lia) ltac:(lia)). lia.
  - pose proof (normal_pos w Hw lx Nx ltac:(intros E; subst lx; cbn [length] in M1; lia)). assert (0 < 2 ^ p) by (apply Z.pow_pos_nonneg; lia). destruct (Z.testbit (val lx) p); lia.
Qed.
Lemma not_bit : forall a r, 0 <= r < w -> limb a -> Z.land a (B - 1 - 2 ^ r) = Z.clearbit a r.
Proof.
  intros a r Hr Ha. unfold Z.clearbit. rewrite Z.shiftl_1_l. destruct (pow_lt_B w r Hr) as [Pr Pr2].
  replace (B - 1 - 2 ^ r) with (Z.ldiff (Z.ones w) (2 ^ r)).
  - apply Z.bits_inj'. intros n Hn. rewrite Z.land_spec, !Z.ldiff_spec. destruct (Z_lt_dec n w) as [L|L].
    + rewrite Z.ones_spec_low by lia. reflexivity.
    + rewrite (below_high w a n) by (lia || exact Ha). reflexivity.
  - rewrite <- Z.sub_nocarry_ldiff; [rewrite Z.ones_equiv; unfold LB; lia|]. apply Z.bits_inj'. intros n Hn. rewrite Z.ldiff_spec, Z.bits_0, Z.pow2_bits_eqb by lia.
    destruct (Z.eqb_spec r n) as [E|E]; [subst n; rewrite Z.ones_spec_low by lia; reflexivity|reflexivity].
Qed.
Lemma clrbit_abs_spec : forall nx lx p, normal lx -> 0 <= p -> (lx = [] -> nx = false) ->
  isz (mpz_clrbit_abs w (mkz nx lx) p) (sg nx (Z.clearbit (val lx) p)).
Proof.
  intros nx lx p Nx Hp Zx. unfold mpz_clrbit_abs. rewrite lm_mkz, neg_p_mkz by exact Zx. cbv zeta. set (s := Z.to_nat (p / w)) in *.
  pose proof (Z.mod_pos_bound p w Hw) as Rr. set (r := p mod w) in *. pose proof (val_bit lx p (proj1 Nx) Hp) as T. fold s r in T.
  destruct (Nat.ltb_spec s (length lx)) as [L|L].
  - pose proof (nth_limb w Hw lx s (proj1 Nx)) as Ln. rewrite not_bit by assumption.
    assert (Lv : limb (Z.clearbit (nth s lx 0) r)).
    { rewrite <- not_bit by assumption. apply land_below; [lia|exact Ln|]. destruct (pow_lt_B w r Rr) as [Pr Pr2]. unfold below, LB in *. lia. }
    destruct (stripped_spec w Hw (upd lx s (Z.clearbit (nth s lx 0) r))) as (S1 & S2); [apply upd_limbs; [exact (proj1 Nx)|exact Lv]|].
    apply isz_mkz; [exact S1|]. rewrite S2, (upd_val w) by exact L. f_equal. rewrite !clearbit_sub, T by lia. rewrite <- (bit_pow p Hp). fold s r. destruct (Z.testbit (nth s lx 0) r); ring.
  - rewrite clearbit_sub, bit_beyond, Z.sub_0_r by (exact (proj1 Nx) || exact Hp || exact L). apply isz_mkz; [exact Nx|reflexivity].
Qed.
Lemma mod_S : forall a p, 0 <= p -> a mod 2 ^ (p + 1) = a mod 2 ^ p + (if Z.testbit a p then 2 ^ p else 0).
Proof.
  intros a p Hp. assert (P : 0 < 2 ^ p) by (apply Z.pow_pos_nonneg; lia). rewrite Z.pow_add_r, Z.pow_1_r, Z.rem_mul_r by lia. f_equal.
  rewrite Z.testbit_odd, Z.shiftr_div_pow2, Zmod_odd by exact Hp. destruct (Z.odd (a / 2 ^ p)); lia.
Qed.
Lemma setbit_spec : forall x p u, isz x u -> 0 <= p -> 0 <= u \/ u mod 2 ^ (p + 1) <> 0 -> isz (mpz_setbit w x p) (Z.setbit u p).
Proof.
  intros x p u Hx Hp. pose proof (divisible_spec x p u Hx Hp) as Dv. revert Dv. open_z Hx nx lx Nx Zx. intros Dv Hc. unfold mpz_setbit. rewrite Dv, mkz_size_neg by exact Zx. clear Dv.
  pose proof (val_range w Hw lx (proj1 Nx)) as Rx. assert (P2 : 0 < 2 ^ p) by (apply Z.pow_pos_nonneg; lia).
  destruct nx; cbn [andb]; [|exact (setbit_abs_spec false lx p Nx Hp Zx)].
  assert (Hn : lx <> []) by (intros E; discriminate (Zx E)). pose proof (normal_pos w Hw lx Nx Hn) as Pv.
  destruct Hc as [Hc|Hc]; unfold sg in *; [lia|]. pose proof (neg_testbit (val lx) p Hp) as NT. rewrite mod_S in Hc by exact Hp.
  destruct (Z.eqb_spec ((- val lx) mod 2 ^ p) 0) as [E|E]; cbn [negb].
  - rewrite E in Hc. rewrite setbit_add by exact Hp. pose proof (proj1 (nz_opp_mod (val lx) (2 ^ p) P2) E) as E'. rewrite E' in NT. cbn [Z.eqb negb] in NT. rewrite xorb_false_r in NT.
    destruct (Z.testbit (- val lx) p) eqn:T; [|lia]. pose proof (setbit_abs_spec true lx p Nx Hp Zx) as S. rewrite setbit_add, <- NT in S by exact Hp. unfold sg in S.
    replace (- val lx + 0) with (- (val lx + 0)) by lia. exact S.
  - assert (E' : val lx mod 2 ^ p <> 0) by (intros E0; apply E, nz_opp_mod; assumption).
    pose proof (clrbit_abs_spec true lx p Nx Hp Zx) as S. rewrite clearbit_sub in S by exact Hp. unfold sg in S. rewrite setbit_add, NT by exact Hp.
    destruct (Z.eqb_spec (val lx mod 2 ^ p) 0) as [E0|_]; [contradiction|]. cbn [negb]. rewrite xorb_true_r. destruct (Z.testbit (val lx) p); cbn [negb].
    + replace (- val lx + 2 ^ p) with (- (val lx - 2 ^ p)) by lia. exact S.
    + replace (- val lx + 0) with (- (val lx - 0)) by lia. exact S.
Qed.
Lemma clrbit_spec : forall x p u, isz x u -> 0 <= p -> 0 <= u \/ u mod 2 ^ (p + 1) = 0 \/ u mod 2 ^ p <> 0 -> isz (mpz_clrbit w x p) (Z.clearbit u p).
Proof.
  intros x p u Hx Hp. pose proof (divisible_spec x p u Hx Hp) as Dv. revert Dv. open_z Hx nx lx Nx Zx. intros Dv Hc. unfold mpz_clrbit. rewrite Dv, mkz_size_neg by exact Zx. clear Dv.
  pose proof (val_range w Hw lx (proj1 Nx)) as Rx. assert (P2 : 0 < 2 ^ p) by (apply Z.pow_pos_nonneg; lia).
  destruct nx; cbn [andb]; [|exact (clrbit_abs_spec false lx p Nx Hp Zx)].
  assert (Hn : lx <> []) by (intros E; discriminate (Zx E)). pose proof (normal_pos w Hw lx Nx Hn) as Pv.
  destruct Hc as [Hc|Hc]; unfold sg in *; [lia|]. pose proof (neg_testbit (val lx) p Hp) as NT. rewrite mod_S in Hc by exact Hp.
  destruct (Z.eqb_spec ((- val lx) mod 2 ^ p) 0) as [E|E]; cbn [negb].
  - rewrite clearbit_sub by exact Hp. pose proof (proj1 (nz_opp_mod (val lx) (2 ^ p) P2) E) as E'. rewrite E' in NT. cbn [Z.eqb negb] in NT. rewrite xorb_false_r in NT.
    destruct (Z.testbit (- val lx) p) eqn:T; [lia|]. pose proof (clrbit_abs_spec true lx p Nx Hp Zx) as S. rewrite clearbit_sub, <- NT in S by exact Hp. unfold sg in S.
    replace (- val lx - 0) with (- (val lx - 0)) by lia. exact S.
  - assert (E' : val lx mod 2 ^ p <> 0) by (intros E0; apply E, nz_opp_mod; assumption).
    pose proof (setbit_abs_spec true lx p Nx Hp Zx) as S. rewrite setbit_add in S by exact Hp. unfold sg in S. rewrite clearbit_sub, NT by exact Hp.
    destruct (Z.eqb_spec (val lx mod 2 ^ p) 0) as [E0|_]; [contradiction|]. cbn [negb]. rewrite xorb_true_r. destruct (Z.testbit (val lx) p); cbn [negb].
    + replace (- val lx - 0) with (- (val lx + 0)) by lia. exact S.
    + replace (- val lx - 2 ^ p) with (- (val lx + 2 ^ p)) by lia. exact S.
Qed.
Lemma combit_spec : forall x p u, isz x u -> 0 <= p -> 0 <= u \/ u mod 2 ^ p <> 0 -> isz (mpz_combit w x p) (Z.lxor u (2 ^ p)).
Proof.
  intros x p u Hx Hp Hc. unfold mpz_combit. rewrite (tstbit_spec x p u Hx Hp). assert (P2 : 0 < 2 ^ p) by (apply Z.pow_pos_nonneg; lia).
  destruct (Z.testbit u p) eqn:T; cbn [negb].
  - replace (Z.lxor u (2 ^ p)) with (Z.clearbit u p); [apply clrbit_spec; [exact Hx|exact Hp|tauto]|].
    apply Z.bits_inj'. intros n Hn. rewrite Z.lxor_spec, Z.clearbit_eqb, Z.pow2_bits_eqb by lia. destruct (Z.eqb_spec p n) as [E|E]; [subst n; rewrite T; reflexivity|cbn [negb]; rewrite andb_true_r, xorb_false_r; reflexivity].
  - replace (Z.lxor u (2 ^ p)) with (Z.setbit u p).
    + apply setbit_spec; [exact Hx|exact Hp|]. destruct Hc as [Hc|Hc]; [left; exact Hc|right]. rewrite mod_S, T by exact Hp. lia.
    + apply Z.bits_inj'. intros n Hn. rewrite Z.lxor_spec, Z.setbit_eqb, Z.pow2_bits_eqb by lia. destruct (Z.eqb_spec p n) as [E|E]; [subst n; rewrite T; reflexivity|cbn [orb]; rewrite xorb_false_r; reflexivity].
Qed.

(* the limb loops *)
Lemma bit_loop_spec : forall op f g, splits w op f -> (forall a, g a = f a 0) -> op 0 0 = 0 -> forall xs ys cx cy cz,
  limbs xs -> limbs ys -> (length ys <= length xs)%nat -> carry cx -> carry cy -> carry cz -> cx <= val xs -> cy <= val ys ->
  let '(zs, c) := bit_loop w f g cx cy cz xs ys in
  length zs = length xs /\ limbs zs /\ carry c /\ val zs + B ^ Z.of_nat (length xs) * c = op (val xs - cx) (val ys - cy) + cz.
Proof.
  intros op f g Sp Hg H00. assert (L0 : limb 0) by (apply limb0; exact Hw). pose proof (LB_ge2 w Hw) as B2.
  induction xs as [|x xs IH]; intros ys cx cy cz Hx Hy Hl Cx Cy Cz Gx Gy.
  - destruct ys; [|cbn [length] in Hl; lia]. cbn [bit_loop dval length] in *. unfold carry in *. split; [reflexivity|]. split; [constructor|]. split; [exact Cz|].
    replace (0 - cx) with 0 by lia. replace (0 - cy) with 0 by lia. rewrite H00. change (B ^ Z.of_nat 0) with 1. lia.
  - cbn [bit_loop]. pose proof (mp_sub_spec w Hw x cx (Forall_inv Hx) (carry_limb w Hw cx Cx)) as M. destruct (mp_sub w x cx) as [zx cx']. destruct M as (M1 & M2 & M3).
    pose proof (val_range w Hw xs (Forall_inv_tail Hx)) as Rx. rewrite val_cons in Gx |- * by exact Hw.
    assert (EX : x + B * val xs - cx = zx + 2 ^ w * (val xs - cx')) by (fold (LB w); lia).
    assert (GX : cx' <= val xs). { assert (0 <= zx + B * (val xs - cx')) by (unfold LB in *; lia). unfold below in M1. destruct (Z_lt_dec (val xs - cx') 0) as [N|N]; [|lia].
      assert (B * (val xs - cx') <= B * (-1)) by (apply Z.mul_le_mono_nonneg_l; lia). lia. }
    destruct ys as [|y ys].
    + cbn [dval] in *. unfold carry in Cy. assert (cy = 0) by lia. subst cy. rewrite Hg. destruct (Sp zx 0 (val xs - cx') 0 M1 L0) as (F1 & F2).
      pose proof (mp_add_spec w Hw (f zx 0) cz F1 (carry_limb w Hw cz Cz)) as A. destruct (mp_add w (f zx 0) cz) as [z cz']. destruct A as (A1 & A2 & A3).
      specialize (IH [] cx' 0 cz' (Forall_inv_tail Hx) (Forall_nil _) ltac:(cbn [length]; lia) M2 Cy A2 GX ltac:(cbn [dval]; lia)).
      destruct (bit_loop w f g cx' 0 cz' xs []) as [zs c]. destruct IH as (I1 & I2 & I3 & I4). cbn [length dval] in * |- . cbn [length]. change (val []) with 0 in *. rewrite val_cons, Bpow_S by exact Hw.
      split; [lia|]. split; [constructor; assumption|]. split; [exact I3|]. rewrite EX. rewrite Z.mul_0_r, Z.add_0_r in F2. rewrite Z.sub_diag in *. rewrite F2. fold (LB w).
      rewrite <- Z.mul_assoc. set (N := B ^ Z.of_nat (length xs) * c) in *. clearbody N. assert (E : B * (val zs + N) = B * (op (val xs - cx') 0 + cz')) by (f_equal; exact I4). lia.
    + pose proof (mp_sub_spec w Hw y cy (Forall_inv Hy) (carry_limb w Hw cy Cy)) as M'. destruct (mp_sub w y cy) as [zy cy']. destruct M' as (M1' & M2' & M3').
      pose proof (val_range w Hw ys (Forall_inv_tail Hy)) as Ry. rewrite val_cons in Gy |- * by exact Hw.
      assert (EY : y + B * val ys - cy = zy + 2 ^ w * (val ys - cy')) by (fold (LB w); lia).
      assert (GY : cy' <= val ys). { assert (0 <= zy + B * (val ys - cy')) by (unfold LB in *; lia). unfold below in M1'. destruct (Z_lt_dec (val ys - cy') 0) as [N|N]; [|lia].
        assert (B * (val ys - cy') <= B * (-1)) by (apply Z.mul_le_mono_nonneg_l; lia). lia. }
      destruct (Sp zx zy (val xs - cx') (val ys - cy') M1 M1') as (F1 & F2).
      pose proof (mp_add_spec w Hw (f zx zy) cz F1 (carry_limb w Hw cz Cz)) as A. destruct (mp_add w (f zx zy) cz) as [z cz']. destruct A as (A1 & A2 & A3).
      cbn [length] in Hl. specialize (IH ys cx' cy' cz' (Forall_inv_tail Hx) (Forall_inv_tail Hy) ltac:(lia) M2 M2' A2 GX GY).
      destruct (bit_loop w f g cx' cy' cz' xs ys) as [zs c]. destruct IH as (I1 & I2 & I3 & I4). cbn [length]. rewrite val_cons, Bpow_S by exact Hw.
      split; [lia|]. split; [constructor; assumption|]. split; [exact I3|]. rewrite EX, EY, F2. fold (LB w).
      rewrite <- Z.mul_assoc. set (N := B ^ Z.of_nat (length xs) * c) in *. clearbody N. assert (E : B * (val zs + N) = B * (op (val xs - cx') (val ys - cy') + cz')) by (f_equal; exact I4). lia.
Qed.
Lemma loop_list : forall op f g, splits w op f -> (forall a, g a = f a 0) -> op 0 0 = 0 -> forall xs ys cx cy cz,
  limbs xs -> limbs ys -> (length ys <= length xs)%nat -> carry cx -> carry cy -> carry cz -> cx <= val xs -> cy <= val ys ->
  let z := (let '(z, c) := bit_loop w f g cx cy cz xs ys in z ++ [c]) in limbs z /\ val z = op (val xs - cx) (val ys - cy) + cz.
Proof.
  intros op f g Sp Hg H00 xs ys cx cy cz Hx Hy Hl Cx Cy Cz Gx Gy z. unfold z. pose proof (bit_loop_spec op f g Sp Hg H00 xs ys cx cy cz Hx Hy Hl Cx Cy Cz Gx Gy) as L.
  destruct (bit_loop w f g cx cy cz xs ys) as [zs c]. destruct L as (L1 & L2 & L3 & L4). rewrite val_snoc, L1 by exact Hw. split; [|exact L4].
  apply Forall_app; split; [exact L2|]. constructor; [apply carry_limb; assumption|constructor].
Qed.
Lemma map2_val : forall op f, splits w op f -> op 0 0 = 0 -> forall xs ys, limbs xs -> limbs ys -> length xs = length ys ->
  limbs (map2 f xs ys) /\ val (map2 f xs ys) = op (val xs) (val ys).
Proof.
  intros op f Sp H00. induction xs as [|x xs IH]; intros ys Hx Hy El; destruct ys as [|y ys]; cbn [length] in El; try lia.
  - cbn [map2 dval]. split; [constructor|symmetry; exact H00].
  - destruct (IH ys (Forall_inv_tail Hx) (Forall_inv_tail Hy) ltac:(lia)) as (I1 & I2). cbn [map2]. destruct (Sp x y (val xs) (val ys) (Forall_inv Hx) (Forall_inv Hy)) as (F1 & F2).
    rewrite !val_cons by exact Hw. unfold LB at 3 5. fold (LB w). split; [constructor; assumption|]. rewrite I2. symmetry. exact F2.
Qed.
Lemma map2_tail : forall op f, splits w op f -> (forall a, op a 0 = a) -> forall xs ys, limbs xs -> limbs ys -> (length ys <= length xs)%nat ->
  let z := map2 f (firstn (length ys) xs) ys ++ skipn (length ys) xs in limbs z /\ val z = op (val xs) (val ys).
Proof.
  intros op f Sp H0 xs. induction xs as [|x xs IH]; intros ys Hx Hy Hl; destruct ys as [|y ys]; cbn [length] in Hl; try lia.
  - cbn. split; [constructor|symmetry; apply H0].
  - cbn [length firstn skipn map2 app dval]. split; [exact Hx|]. symmetry. apply H0.
  - cbv zeta. cbn [length firstn skipn map2 app]. destruct (IH ys (Forall_inv_tail Hx) (Forall_inv_tail Hy) ltac:(lia)) as (I1 & I2). cbv zeta in I1, I2.
    destruct (Sp x y (val xs) (val ys) (Forall_inv Hx) (Forall_inv Hy)) as (F1 & F2). rewrite !val_cons, I2 by exact Hw. fold (LB w) in F1, F2. split; [constructor; assumption|]. symmetry. exact F2.
Qed.
Lemma map2_low : forall op f, splits w op f -> (forall a, op a 0 = 0) -> forall xs ys, limbs xs -> limbs ys -> (length ys <= length xs)%nat ->
  let z := map2 f (firstn (length ys) xs) ys in limbs z /\ val z = op (val xs) (val ys).
Proof.
  intros op f Sp H0 xs. induction xs as [|x xs IH]; intros ys Hx Hy Hl; destruct ys as [|y ys]; cbn [length] in Hl; try lia.
  - cbn. split; [constructor|symmetry; apply H0].
  - cbn [length firstn map2 dval]. split; [constructor|]. symmetry. apply H0.
  - cbv zeta. cbn [length firstn map2]. destruct (IH ys (Forall_inv_tail Hx) (Forall_inv_tail Hy) ltac:(lia)) as (I1 & I2). cbv zeta in I1, I2.
    destruct (Sp x y (val xs) (val ys) (Forall_inv Hx) (Forall_inv Hy)) as (F1 & F2). rewrite !val_cons, I2 by exact Hw. fold (LB w) in F1, F2. split; [constructor; assumption|]. symmetry. exact F2.
Qed.
Lemma cswap_spec : forall (P : mpz -> mpz -> Prop), (forall x y, P x y -> P y x) -> (forall x y, (length (lm y) <= length (lm x))%nat -> P x y) -> forall x y, P x y.
Proof. intros P Hs H x y. destruct (Nat.le_ge_cases (length (lm y)) (length (lm x))); [apply H; assumption|apply Hs, H; assumption]. Qed.
Lemma cswap_cases : forall x y u v, isz x u -> isz y v -> exists x' y' u' v', cswap x y = (x', y') /\ isz x' u' /\ isz y' v' /\ (length (lm y') <= length (lm x'))%nat /\
  ((u' = u /\ v' = v) \/ (u' = v /\ v' = u)).
Proof.
  intros x y u v Hx Hy. unfold cswap. destruct (Nat.ltb_spec (length (lm x)) (length (lm y))) as [L|L].
  - exists y, x, v, u. split; [reflexivity|]. split; [exact Hy|]. split; [exact Hx|]. split; [lia|right; split; reflexivity].
  - exists x, y, u, v. split; [reflexivity|]. split; [exact Hx|]. split; [exact Hy|]. split; [lia|left; split; reflexivity].
Qed.
Lemma cy1 : carry 1. Proof. unfold carry; lia. Qed.
Lemma cyb : forall b, carry (Z.b2z b). Proof. intros []; unfold carry; cbn; lia. Qed.
Lemma neg_lnot : forall a, - a = Z.lnot (a - 1).
Proof. intros a. unfold Z.lnot. lia. Qed.
Lemma neg_pos : forall nx lx, normal lx -> (lx = [] -> nx = false) -> Z.b2z nx <= val lx.
Proof.
  intros nx lx Nx Zx. destruct nx; cbn [Z.b2z]; [|apply (val_range w Hw lx (proj1 Nx))]. assert (Hn : lx <> []) by (intros E; discriminate (Zx E)). pose proof (normal_pos w Hw lx Nx Hn). lia.
Qed.
Lemma land_le0 : forall a b, 0 <= a -> Z.land a b <= a.
Proof.
  intros a b Ha. assert (E : Z.ldiff (Z.land a b) a = 0) by (apply Z.bits_inj'; intros n Hn; rewrite Z.ldiff_spec, Z.land_spec, Z.bits_0; destruct (Z.testbit a n), (Z.testbit b n); reflexivity).
  apply Z.sub_nocarry_ldiff in E. assert (0 <= Z.ldiff a (Z.land a b)) by (apply Z.ldiff_nonneg; left; exact Ha). lia.
Qed.
Lemma flip_g : forall bx bw a, (fun a => Z.land (Z.lxor a (lmask w bx)) (lmask w bw)) a = (fun a b => Z.land (Z.lxor a (lmask w bx)) (Z.lxor b (lmask w bw))) a 0.
Proof. intros. cbv beta. rewrite Z.lxor_0_l. reflexivity. Qed.
Lemma and_spec : forall x y u v, isz x u -> isz y v -> isz (mpz_and w x y) (Z.land u v).
Proof.
  intros x y u v Hx Hy. unfold mpz_and. destruct (cswap_cases x y u v Hx Hy) as (x' & y' & u' & v' & E & Hx' & Hy' & L & D). rewrite E.
  replace (Z.land u v) with (Z.land u' v') by (destruct D as [[-> ->]|[-> ->]]; [reflexivity|apply Z.land_comm]). clear x y u v Hx Hy E D. revert L.
  open_z Hx' nx lx Nx Zx. open_z Hy' ny ly Ny Zy. rewrite !lm_mkz. intros L. cbv zeta. rewrite land_ltb, lor_ltb, !mkz_size_neg, !neg_p_mkz by assumption.
  pose proof (neg_pos nx lx Nx Zx) as Gx. pose proof (neg_pos ny ly Ny Zy) as Gy.
  destruct nx, ny; cbn [andb orb] in *.
  - destruct (loop_list Z.lor Z.lor (fun a => a) (lor_splits w ltac:(lia)) (fun a => eq_sym (Z.lor_0_r a)) eq_refl lx ly 1 1 1 (proj1 Nx) (proj1 Ny) L cy1 cy1 cy1 Gx Gy) as (Z1 & Z2).
    destruct (stripped_spec w Hw _ Z1) as (S1 & S2). apply isz_mkz; [exact S1|]. rewrite S2, Z2. unfold sg. rewrite (neg_lnot (val lx)), (neg_lnot (val ly)), <- Z.lnot_lor. unfold Z.lnot. lia.
  - pose proof (bit_loop_spec _ _ (fun a => Z.land (Z.lxor a (lmask w true)) (lmask w false)) (flip_splits w true false ltac:(lia)) (flip_g true false) eq_refl lx ly 1 0 0 (proj1 Nx) (proj1 Ny) L cy1 carry0 carry0 Gx Gy) as M.
    cbn [Z.b2z]. destruct (bit_loop w _ _ 1 0 0 lx ly) as [z c]. destruct M as (M1 & M2 & M3 & M4). cbn [fst]. destruct (stripped_spec w Hw z M2) as (S1 & S2). apply isz_mkz; [exact S1|]. rewrite S2. unfold sg, flipz in *.
    rewrite (neg_lnot (val lx)). rewrite Z.sub_0_r, Z.add_0_r in M4. unfold carry in M3.
    pose proof (val_range w Hw z M2) as Rz. rewrite M1 in Rz. pose proof (val_range w Hw ly (proj1 Ny)) as Ry. pose proof (Bpow_le w Hw _ _ L).
    assert (Hle : Z.land (Z.lnot (val lx - 1)) (val ly) <= val ly) by (rewrite Z.land_comm; apply land_le0; lia).
    assert (c = 0) by (destruct (Z.eq_dec c 0); [assumption|]; assert (c = 1) by lia; subst c; lia). subst c. lia.
  - pose proof (bit_loop_spec _ _ (fun a => Z.land (Z.lxor a (lmask w false)) (lmask w true)) (flip_splits w false true ltac:(lia)) (flip_g false true) eq_refl lx ly 0 1 0 (proj1 Nx) (proj1 Ny) L carry0 cy1 carry0 Gx Gy) as M.
    cbn [Z.b2z]. destruct (bit_loop w _ _ 0 1 0 lx ly) as [z c]. destruct M as (M1 & M2 & M3 & M4). cbn [fst]. destruct (stripped_spec w Hw z M2) as (S1 & S2). apply isz_mkz; [exact S1|]. rewrite S2. unfold sg, flipz in *.
    rewrite (neg_lnot (val ly)). rewrite Z.sub_0_r, Z.add_0_r in M4. unfold carry in M3.
    pose proof (val_range w Hw z M2) as Rz. rewrite M1 in Rz. pose proof (val_range w Hw lx (proj1 Nx)) as Rx.
    assert (Hle : Z.land (val lx) (Z.lnot (val ly - 1)) <= val lx) by (apply land_le0; lia).
    assert (c = 0) by (destruct (Z.eq_dec c 0); [assumption|]; assert (c = 1) by lia; subst c; lia). subst c. lia.
  - destruct (map2_low Z.land Z.land (land_splits w ltac:(lia)) Z.land_0_r lx ly (proj1 Nx) (proj1 Ny) L) as (Z1 & Z2).
    destruct (stripped_spec w Hw _ Z1) as (S1 & S2). apply isz_mkz; [exact S1|]. rewrite S2, Z2. reflexivity.
Qed.
Lemma ior_spec : forall x y u v, isz x u -> isz y v -> isz (mpz_ior w x y) (Z.lor u v).
Proof.
  intros x y u v Hx Hy. unfold mpz_ior. destruct (cswap_cases x y u v Hx Hy) as (x' & y' & u' & v' & E & Hx' & Hy' & L & D). rewrite E.
  replace (Z.lor u v) with (Z.lor u' v') by (destruct D as [[-> ->]|[-> ->]]; [reflexivity|apply Z.lor_comm]). clear x y u v Hx Hy E D. revert L.
  open_z Hx' nx lx Nx Zx. open_z Hy' ny ly Ny Zy. rewrite !lm_mkz. intros L. cbv zeta. rewrite lor_ltb, !mkz_size_neg, !neg_p_mkz by assumption.
  pose proof (neg_pos nx lx Nx Zx) as Gx. pose proof (neg_pos ny ly Ny Zy) as Gy.
  destruct (nx || ny) eqn:O.
  - set (bx := negb nx && xorb nx ny) in *. set (bw := negb ny && xorb nx ny) in *.
    assert (H00 : Z.land (flipz bx 0) (flipz bw 0) = 0) by (destruct nx, ny; reflexivity).
    destruct (loop_list _ _ _ (flip_splits w bx bw ltac:(lia)) (flip_g bx bw) H00 lx ly (Z.b2z nx) (Z.b2z ny) 1 (proj1 Nx) (proj1 Ny) L (cyb nx) (cyb ny) cy1 Gx Gy) as (Z1 & Z2).
    destruct (stripped_spec w Hw _ Z1) as (S1 & S2). apply isz_mkz; [exact S1|]. rewrite S2, Z2. clear - O. unfold sg at 1.
    destruct nx, ny; try discriminate; unfold sg, bx, bw, flipz; cbn [negb xorb andb Z.b2z]; rewrite ?Z.sub_0_r.
    + rewrite (neg_lnot (val lx)), (neg_lnot (val ly)), <- Z.lnot_land. unfold Z.lnot. lia.
    + rewrite (neg_lnot (val lx)). replace (Z.lor (Z.lnot (val lx - 1)) (val ly)) with (Z.lnot (Z.land (val lx - 1) (Z.lnot (val ly)))) by (rewrite Z.lnot_land, Z.lnot_involutive; reflexivity). unfold Z.lnot. lia.
    + rewrite (neg_lnot (val ly)). replace (Z.lor (val lx) (Z.lnot (val ly - 1))) with (Z.lnot (Z.land (Z.lnot (val lx)) (val ly - 1))) by (rewrite Z.lnot_land, Z.lnot_involutive; reflexivity). unfold Z.lnot. lia.
  - destruct nx, ny; try discriminate. destruct (map2_tail Z.lor Z.lor (lor_splits w ltac:(lia)) Z.lor_0_r lx ly (proj1 Nx) (proj1 Ny) L) as (Z1 & Z2).
    destruct (stripped_spec w Hw _ Z1) as (S1 & S2). apply isz_mkz; [exact S1|]. rewrite S2, Z2. reflexivity.
Qed.
Lemma xor_spec : forall x y u v, isz x u -> isz y v -> isz (mpz_xor w x y) (Z.lxor u v).
Proof.
  intros x y u v Hx Hy. unfold mpz_xor. destruct (cswap_cases x y u v Hx Hy) as (x' & y' & u' & v' & E & Hx' & Hy' & L & D). rewrite E.
  replace (Z.lxor u v) with (Z.lxor u' v') by (destruct D as [[-> ->]|[-> ->]]; [reflexivity|apply Z.lxor_comm]). clear x y u v Hx Hy E D. revert L.
  open_z Hx' nx lx Nx Zx. open_z Hy' ny ly Ny Zy. rewrite !lm_mkz. intros L. cbv zeta. rewrite lor_ltb, neg_ltb, !mkz_size_neg, !neg_p_mkz by assumption.
  pose proof (neg_pos nx lx Nx Zx) as Gx. pose proof (neg_pos ny ly Ny Zy) as Gy.
  destruct (nx || ny) eqn:O.
  - destruct (loop_list Z.lxor Z.lxor (fun a => a) (lxor_splits w ltac:(lia)) (fun a => eq_sym (Z.lxor_0_r a)) eq_refl lx ly (Z.b2z nx) (Z.b2z ny) (Z.b2z (xorb nx ny)) (proj1 Nx) (proj1 Ny) L (cyb nx) (cyb ny) (cyb _) Gx Gy) as (Z1 & Z2).
    destruct (stripped_spec w Hw _ Z1) as (S1 & S2). apply isz_mkz; [exact S1|]. rewrite S2, Z2. clear - O.
    destruct nx, ny; try discriminate; unfold sg; cbn [xorb Z.b2z]; rewrite ?Z.sub_0_r, ?Z.add_0_r.
    + rewrite (neg_lnot (val lx)), (neg_lnot (val ly)). apply Z.bits_inj'. intros n Hn. rewrite !Z.lxor_spec, !Z.lnot_spec by exact Hn. destruct (Z.testbit (val lx - 1) n), (Z.testbit (val ly - 1) n); reflexivity.
    + rewrite (neg_lnot (val lx)), <- Z.lnot_lxor_l. unfold Z.lnot. lia.
    + rewrite (neg_lnot (val ly)), <- Z.lnot_lxor_r. unfold Z.lnot. lia.
  - destruct nx, ny; try discriminate. destruct (map2_tail Z.lxor Z.lxor (lxor_splits w ltac:(lia)) Z.lxor_0_r lx ly (proj1 Nx) (proj1 Ny) L) as (Z1 & Z2).
    destruct (stripped_spec w Hw _ Z1) as (S1 & S2). apply isz_mkz; [exact S1|]. rewrite S2, Z2. reflexivity.
Qed.
Lemma com_spec : forall x u, isz x u -> okz (mpz_com w x) (Z.lnot u).
Proof.
  intros x u Hx. unfold mpz_com. rewrite (isz_neg w Hw x u Hx). destruct (Z.ltb_spec u 0) as [L|L].
  - replace (Z.lnot u) with (- u - 1) by (unfold Z.lnot; lia). apply sub_ui_spec; [exact Hw|apply neg_spec; exact Hx|apply limb1; exact Hw].
  - destruct (add_ui_spec w Hw x 1 u Hx (limb1 w Hw)) as (z & E & Hz). rewrite E. cbn [bind]. apply okz_z. replace (Z.lnot u) with (- (u + 1)) by (unfold Z.lnot; lia). apply neg_spec. exact Hz.
Qed.

(* one machine word against an integer *)
Lemma land_mod : forall a y, limb y -> Z.land a y = Z.land (a mod B) y.
Proof.
  intros a y Hy. apply Z.bits_inj'. intros n Hn. rewrite !Z.land_spec. unfold LB. destruct (Z_lt_dec n w) as [L|L].
  - rewrite Z.mod_pow2_bits_low by lia. reflexivity.
  - rewrite (below_high w y n) by (exact Hy || lia). rewrite !andb_false_r. reflexivity.
Qed.
Lemma val_mod : forall l, limbs l -> val l mod B = nth 0 l 0.
Proof.
  intros l Hl. pose proof (LB_ge2 w Hw). destruct l as [|a l]; [cbn [dval nth]; apply Z.mod_0_l; lia|]. rewrite val_cons, Z.mul_comm, Z.mod_add by (exact Hw || lia). cbn [nth]. apply Z.mod_small. exact (Forall_inv Hl).
Qed.
Lemma pred_mod : forall l, limbs l -> (val l - 1) mod B = tr w (nth 0 l 0 - 1).
Proof. intros l Hl. unfold tr. rewrite <- (val_mod l Hl). fold (LB w). pose proof (LB_ge2 w Hw). rewrite Zminus_mod_idemp_l. reflexivity. Qed.
Lemma lnot_mod : forall a, Z.lnot a mod B = B - 1 - a mod B.
Proof.
  intros a. pose proof (LB_ge2 w Hw). pose proof (Z.mod_pos_bound a B ltac:(lia)). pose proof (Z.div_mod a B ltac:(lia)). unfold Z.lnot.
  symmetry. apply (Z.mod_unique _ _ (- (a / B) - 1)); lia.
Qed.
Lemma and_ui_spec : forall x y u, isz x u -> limb y -> mpz_and_ui w x y = Z.land u y /\ limb (mpz_and_ui w x y).
Proof.
  intros x y u Hx Hy. assert (Lr : limb (Z.land u y)) by (rewrite land_mod by exact Hy; apply land_below; [lia| |exact Hy]; pose proof (LB_ge2 w Hw); apply Z.mod_pos_bound; lia).
  enough (E : mpz_and_ui w x y = Z.land u y) by (rewrite E; split; [reflexivity|exact Lr]). clear Lr.
  rewrite land_mod by exact Hy. open_z Hx nx lx Nx Zx. unfold mpz_and_ui. rewrite mkz_size_neg, mkz_size_0, lm_mkz by exact Zx. destruct nx; unfold sg.
  - rewrite neg_lnot, lnot_mod, pred_mod by exact (proj1 Nx). apply Z.land_comm.
  - rewrite val_mod by exact (proj1 Nx). destruct lx; [reflexivity|]. reflexivity.
Qed.
Lemma and_si_spec : forall x y u, isz x u -> long y -> isz (mpz_and_si w x y) (Z.land u y).
Proof.
  intros x y u Hx Hy. unfold mpz_and_si. destruct (Z.ltb_spec y 0) as [L|L].
  - apply and_spec; [exact Hx|apply set_si_spec; assumption].
  - destruct (and_ui_spec x y u Hx (long_limb w Hw y Hy L)) as (E & Lm). pose proof (set_ui_spec w Hw _ Lm) as S. rewrite E in S at 2. exact S.
Qed.
Lemma mkz_pos : forall l, MkMpz (Z.of_nat (length l)) l = mkz false l.
Proof. reflexivity. Qed.
Lemma upd0 : forall (a : Z) l v, upd (a :: l) 0 v = v :: l.
Proof. reflexivity. Qed.
Lemma lor_ge : forall a b, 0 <= a -> 0 <= b -> a <= Z.lor a b.
Proof.
  intros a b Ha Hb. assert (E : Z.ldiff a (Z.lor a b) = 0) by (apply Z.bits_inj'; intros n Hn; rewrite Z.ldiff_spec, Z.lor_spec, Z.bits_0; destruct (Z.testbit a n), (Z.testbit b n); reflexivity).
  apply Z.sub_nocarry_ldiff in E. assert (0 <= Z.ldiff (Z.lor a b) a) by (apply Z.ldiff_nonneg; left; apply Z.lor_nonneg; lia). lia.
Qed.
Lemma low_op : forall op f a l y, splits w op f -> (forall v, op v 0 = v) -> limbs (a :: l) -> limb y -> limb (f a y) /\ val (f a y :: l) = op (val (a :: l)) y.
Proof.
  intros op f a l y Sp H0 Hl Hy. destruct (Sp a y (val l) 0 (Forall_inv Hl) Hy) as (F1 & F2). split; [exact F1|]. rewrite !val_cons by exact Hw. rewrite Z.mul_0_r, Z.add_0_r, H0 in F2. symmetry. exact F2.
Qed.
Lemma ior_ui_spec : forall x y u, isz x u -> limb y -> isz (mpz_ior_ui w x y) (Z.lor u y).
Proof.
  intros x y u Hx Hy. unfold mpz_ior_ui. rewrite (isz_neg w Hw x u Hx). destruct (Z.ltb_spec u 0) as [L|L]; [apply ior_spec; [exact Hx|apply set_ui_spec; assumption]|].
  destruct (size x =? 0) eqn:E0; [rewrite (isz_size0 w x u Hx E0); apply set_ui_spec; assumption|].
  revert E0 L. open_z Hx nx lx Nx Zx. intros E0 L. rewrite mkz_size_0 in E0. destruct lx as [|a l]; [discriminate|]. pose proof (normal_pos w Hw (a :: l) Nx ltac:(discriminate)) as P.
  destruct nx; unfold sg in *; [lia|]. rewrite lm_mkz. cbn [nth]. rewrite upd0. destruct (low_op Z.lor Z.lor a l y (lor_splits w ltac:(lia)) Z.lor_0_r (proj1 Nx) Hy) as (F & V).
  replace (MkMpz (size (mkz false (a :: l))) (Z.lor a y :: l)) with (mkz false (Z.lor a y :: l)) by reflexivity. apply isz_mkz; [|exact V].
  split; [constructor; [exact F|exact (Forall_inv_tail (proj1 Nx))]|]. right. rewrite V. cbn [length] in *. unfold below in Hy. pose proof (lor_ge (val (a :: l)) y ltac:(lia) ltac:(lia)). lia.
Qed.
Lemma ior_si_spec : forall x y u, 1 < w -> isz x u -> long y -> isz (mpz_ior_si w x y) (Z.lor u y).
Proof.
  intros x y u W1 Hx Hy. unfold mpz_ior_si. destruct (limb_cast_spec w Hw y Hy) as (C & Lc). destruct (Z.ltb_spec y 0) as [L|L]; [|apply ior_ui_spec; [exact Hx|apply long_limb; assumption]].
  cbv zeta. rewrite C in *. set (v := Z.abs y) in *. assert (Ev : y = - v) by lia. assert (V1 : 1 <= v) by lia. assert (V2 : v <= 2 ^ (w - 1)) by (unfold MpzProof.long in Hy; lia).
  clearbody v. subst y. clear L C Hy. pose proof (half2 w Hw) as H2. assert (HH : 2 <= 2 ^ (w - 1)) by (change 2 with (2 ^ 1) at 1; apply Z.pow_le_mono_r; lia).
  assert (Lv : limb (v - 1)) by (unfold below; lia). replace (tr w (v - 1)) with (v - 1) by (symmetry; apply Z.mod_small; exact Lv).
  assert (K : forall a, isz (mpz_neg (mpz_set_ui (tr w (Z.land a (v - 1) + 1)))) (- (Z.land a (v - 1) + 1))).
  { intros a. apply neg_spec. assert (A : 0 <= Z.land a (v - 1)) by (apply Z.land_nonneg; lia). assert (A2 : Z.land a (v - 1) <= v - 1) by (rewrite Z.land_comm; apply land_le0; lia).
    assert (Lr : limb (Z.land a (v - 1) + 1)) by (unfold below; lia). unfold tr. rewrite Z.mod_small by exact Lr. apply set_ui_spec; assumption. }
  open_z Hx nx lx Nx Zx. rewrite mkz_size_neg, lm_mkz by exact Zx. destruct nx; unfold sg.
  - rewrite <- pred_mod by exact (proj1 Nx). rewrite <- land_mod by exact Lv. rewrite (neg_lnot (val lx)), (neg_lnot v), <- Z.lnot_land.
    replace (Z.lnot (Z.land (val lx - 1) (v - 1))) with (- (Z.land (val lx - 1) (v - 1) + 1)) by (unfold Z.lnot; lia). apply K.
  - cbn [size mkz]. destruct (Z.ltb_spec 0 (Z.of_nat (length lx))) as [G|G].
    + rewrite Z.land_comm, <- val_mod, <- lnot_mod, <- land_mod by (exact (proj1 Nx) || exact Lv). rewrite (neg_lnot v).
      replace (Z.lor (val lx) (Z.lnot (v - 1))) with (- (Z.land (Z.lnot (val lx)) (v - 1) + 1)); [apply K|].
      rewrite <- (Z.lnot_involutive (val lx)) at 2. rewrite <- Z.lnot_land. unfold Z.lnot. lia.
    + destruct lx; [|cbn [length] in G; lia]. cbn [dval]. rewrite Z.lor_0_l. apply neg_spec, set_ui_spec; assumption.
Qed.
Lemma xor_ui_spec : forall x y u, isz x u -> limb y -> isz (mpz_xor_ui w x y) (Z.lxor u y).
Proof.
  intros x y u Hx Hy. unfold mpz_xor_ui. rewrite (isz_neg w Hw x u Hx). destruct (Z.ltb_spec u 0) as [L|L]; [apply xor_spec; [exact Hx|apply set_ui_spec; assumption]|].
  destruct (size x =? 0) eqn:E0; [rewrite (isz_size0 w x u Hx E0); rewrite Z.lxor_0_l; apply set_ui_spec; assumption|].
  revert E0 L. open_z Hx nx lx Nx Zx. intros E0 L. rewrite mkz_size_0 in E0. destruct lx as [|a l]; [discriminate|]. pose proof (normal_pos w Hw (a :: l) Nx ltac:(discriminate)) as P.
  destruct nx; unfold sg in *; [lia|]. rewrite lm_mkz. cbn [nth]. rewrite upd0. destruct (low_op Z.lxor Z.lxor a l y (lxor_splits w ltac:(lia)) Z.lxor_0_r (proj1 Nx) Hy) as (F & V).
  destruct (drop_top_spec w Hw (Z.lxor a y :: l)) as (D1 & D2); [constructor; [exact F|exact (Forall_inv_tail (proj1 Nx))]| |apply isz_mkz; [exact D1|unfold sg; rewrite D2, V; reflexivity]].
  cbn [length] in *. intros G. destruct l as [|b l]; [cbn [length] in G; lia|]. rewrite val_cons in P |- * by exact Hw. cbn [length] in *.
  pose proof (Forall_inv (proj1 Nx)) as La. unfold below in La, F. pose proof (LB_ge2 w Hw) as B2. pose proof (val_range w Hw _ (Forall_inv_tail (proj1 Nx))) as Rv.
  replace (S (S (length l)) - 1)%nat with (S (length l)) in P by lia. replace (S (S (length l)) - 2)%nat with (length l) by lia. rewrite Bpow_S in P by exact Hw.
  set (V' := val (b :: l)) in *. set (N := B ^ Z.of_nat (length l)) in *. assert (N <= V').
  { destruct (Z_lt_dec V' N) as [Q|Q]; [|lia]. assert (B * (V' + 1) <= B * N) by (apply Z.mul_le_mono_nonneg_l; lia). lia. }
  assert (1 * V' <= B * V') by (apply Z.mul_le_mono_nonneg_r; lia). lia.
Qed.
Lemma xor_si_spec : forall x y u, isz x u -> long y -> isz (mpz_xor_si w x y) (Z.lxor u y).
Proof.
  intros x y u Hx Hy. unfold mpz_xor_si. destruct (Z.ltb_spec y 0) as [L|L]; [apply xor_spec; [exact Hx|apply set_si_spec; assumption]|apply xor_ui_spec; [exact Hx|apply long_limb; assumption]].
Qed.
Lemma bitlen_spec : forall x u, isz x u -> mpz_bitlen w x = if u =? 0 then 0 else Z.log2 (Z.abs u) + 1.
Proof.
  intros x u Hx. open_z Hx nx lx Nx Zx. unfold mpz_bitlen. rewrite lm_mkz. assert (A : Z.abs (sg nx (val lx)) = val lx) by (pose proof (val_range w Hw lx (proj1 Nx)); destruct nx; unfold sg; lia).
  destruct (length lx =? 0)%nat eqn:Ex.
  { apply Nat.eqb_eq, length_zero_iff_nil in Ex. subst lx. destruct nx; reflexivity. }
  apply nonempty_len in Ex. pose proof (normal_pos w Hw lx Nx Ex) as P. destruct (Z.eqb_spec (sg nx (val lx)) 0) as [E|E]; [lia|]. rewrite A. clear A E.
  destruct (exists_last Ex) as (l & a & El). subst lx. pose proof (proj1 Nx) as Hl. apply Forall_app in Hl. destruct Hl as (Hl & Ha). apply Forall_inv in Ha.
  rewrite app_length in *. cbn [length] in *. replace (length l + 1 - 1)%nat with (length l) in * by lia. rewrite app_nth2, Nat.sub_diag by lia. cbn [nth].
  rewrite val_snoc in * by exact Hw. pose proof (val_range w Hw l Hl) as Rl. pose proof (Bpow_pos w Hw (length l)) as Pn. set (N := B ^ Z.of_nat (length l)) in *.
  assert (A0 : a <> 0) by (intros E; subst a; lia). pose proof (clz_spec w Hw a Ha A0) as C. cbv zeta in C. set (s := mp_clz w a) in *. clearbody s. destruct C as (C1 & C2 & C3).
  assert (EN : N = 2 ^ (w * Z.of_nat (length l))) by (unfold N, LB; rewrite <- Z.pow_mul_r by lia; reflexivity).
  rewrite Nat2Z.inj_add. change (Z.of_nat 1) with 1. set (n := Z.of_nat (length l)) in *. assert (n0 : 0 <= n) by lia. clearbody n. clear P. unfold below in Ha.
  rewrite (Z.log2_unique _ ((n + 1) * w - s - 1)); [lia| |].
  - assert (0 <= w * n) by (apply Z.mul_nonneg_nonneg; lia). lia.
  - assert (0 <= w * n) by (apply Z.mul_nonneg_nonneg; lia). assert (P1 : 0 < 2 ^ s) by (apply Z.pow_pos_nonneg; lia). assert (P2 : 0 < 2 ^ (w - s - 1)) by (apply Z.pow_pos_nonneg; lia).
    replace ((n + 1) * w - s - 1) with (w * n + (w - s - 1)) by ring. replace (Z.succ (w * n + (w - s - 1))) with (w * n + (w - s - 1) + 1) by lia. rewrite !Z.pow_add_r, <- EN, Z.pow_1_r by lia.
    assert (EB : B = 2 * (2 ^ (w - s - 1) * 2 ^ s)). { unfold LB. rewrite <- Z.pow_add_r, <- Z.pow_succ_r by lia. f_equal. lia. }
    set (p := 2 ^ (w - s - 1)) in *. set (q := 2 ^ s) in *. assert (G1 : p <= a) by (apply (Z.mul_le_mono_pos_r p a q P1); lia). assert (G2 : a < 2 * p) by (apply (Z.mul_lt_mono_pos_r q a (2 * p) P1); lia).
    pose proof (Z.mul_le_mono_nonneg_l p a N ltac:(lia) G1). pose proof (Z.mul_le_mono_nonneg_l (a + 1) (2 * p) N ltac:(lia) ltac:(lia)). lia.
Qed.
End MpzLogic.
