(* Montgomery and Barrett reduction on limb arrays. *)
From Verif.Base Require Import Prelude.
From Verif.Model Require Import Encoding Hash Mpn Mpz MpnMod.
From Verif.Proof Require Import MpnProof MpnShift MpnDiv MpzProof MpzOps MpzBits MpzLogic.

(* Newton's step for the inverse modulo a power of two *)
Lemma newton_double : forall d m j, 0 <= j -> (d * m - 1) mod 2 ^ j = 0 -> (d * (m * (2 - d * m)) - 1) mod 2 ^ (2 * j) = 0.
Proof.
  intros d m j Hj H. assert (P : 0 < 2 ^ j) by (apply Z.pow_pos_nonneg; lia). apply Z.mod_divide in H; [|lia]. destruct H as (q & E).
  apply Z.mod_divide; [apply Z.pow_nonzero; lia|]. exists (- (q * q)). replace (2 * j) with (j + j) by lia. rewrite Z.pow_add_r by lia.
  replace (d * (m * (2 - d * m)) - 1) with (- ((d * m - 1) * (d * m - 1))) by ring. rewrite E. ring.
Qed.
Lemma mod_pow_le : forall a j k, 0 <= j <= k -> a mod 2 ^ k = 0 -> a mod 2 ^ j = 0.
Proof.
  intros a j k Hj H. assert (0 < 2 ^ j) by (apply Z.pow_pos_nonneg; lia). assert (0 < 2 ^ k) by (apply Z.pow_pos_nonneg; lia).
  apply Z.mod_divide in H; [|lia]. destruct H as (q & E). apply Z.mod_divide; [lia|]. exists (q * 2 ^ (k - j)).
  rewrite <- Z.mul_assoc, <- Z.pow_add_r by lia. replace (k - j + j) with k by lia. exact E.
Qed.
Lemma odd_sqr8 : forall d, Z.odd d = true -> (d * d - 1) mod 2 ^ 3 = 0.
Proof.
  intros d H. change (2 ^ 3) with 8. rewrite Zminus_mod, Z.mul_mod by lia. pose proof (Z.mod_pos_bound d 8 ltac:(lia)) as R.
  assert (O : Z.odd (d mod 8) = true). { rewrite (Z.div_mod d 8) in H by lia. rewrite Z.odd_add, Z.odd_mul in H. cbn [Z.odd andb] in H. rewrite xorb_false_l in H. exact H. }
  set (e := d mod 8) in *. clearbody e. assert (C : e = 0 \/ e = 1 \/ e = 2 \/ e = 3 \/ e = 4 \/ e = 5 \/ e = 6 \/ e = 7) by lia.
  destruct C as [C|[C|[C|[C|[C|[C|[C|C]]]]]]]; rewrite C in *; try discriminate; reflexivity.
Qed.

Section MpnMod.
Variable w : Z.
Hypothesis Hw : 0 < w.
Notation B := (LB w).
Notation limb := (below (LB w)).
Notation limbs := (Forall (below (LB w))).
Notation val := (dval (LB w)).

Lemma inv_step_ok : forall d m j, 0 <= j -> (d * m - 1) mod 2 ^ (Z.min j w) = 0 -> (d * inv_step w d m - 1) mod 2 ^ (Z.min (2 * j) w) = 0.
Proof.
  intros d m j Hj H. pose proof (LB_ge2 w Hw) as B2. unfold inv_step, tr.
  rewrite Zmult_mod_idemp_r. assert (E : exists t, (m * (2 - (d * m) mod B)) mod B = m * (2 - d * m) + B * t).
  { rewrite <- Zmult_mod_idemp_r, Zminus_mod_idemp_r, Zmult_mod_idemp_r. exists (- (m * (2 - d * m) / B)).
    rewrite Z.mod_eq by (clear - B2; lia). ring. }
  destruct E as (t & E). rewrite E. replace (d * (m * (2 - d * m) + B * t) - 1) with (d * (m * (2 - d * m)) - 1 + d * t * B) by ring.
  assert (N : (d * (m * (2 - d * m)) - 1) mod 2 ^ (Z.min (2 * j) w) = 0).
  { assert (J : 0 <= Z.min j w) by (clear - Hj Hw; lia). pose proof (newton_double d m (Z.min j w) J H) as N. apply (mod_pow_le _ _ (2 * Z.min j w)); [clear - Hj Hw; lia|exact N]. }
  assert (P : 0 < 2 ^ Z.min (2 * j) w) by (clear - Hj Hw; apply Z.pow_pos_nonneg; lia). rewrite Z.add_mod, N by (clear - P; lia).
  replace ((d * t * B) mod 2 ^ Z.min (2 * j) w) with 0; [apply Z.mod_0_l; clear - P; lia|]. symmetry. apply (mod_pow_le _ _ w); [clear - Hj Hw; lia|]. unfold LB. apply Z.mod_mul. clear - Hw. apply Z.pow_nonzero; lia.
Qed.
Lemma inv_mod_spec : forall d, limb d -> Z.odd d = true -> w <= 48 \/ w = 64 -> exists m, mp_inv_mod w d = Ok m /\ limb m /\ (d * m) mod B = 1.
Proof.
  intros d Hd Ho H48. pose proof (LB_ge2 w Hw) as B2. unfold mp_inv_mod. rewrite Ho. eexists. split; [reflexivity|]. cbv zeta.
  pose proof (odd_sqr8 d Ho) as I0. assert (I0' : (d * d - 1) mod 2 ^ (Z.min 3 w) = 0) by (apply (mod_pow_le _ _ 3); [lia|exact I0]).
  pose proof (inv_step_ok d d 3 ltac:(lia) I0') as I1. pose proof (inv_step_ok d _ 6 ltac:(lia) I1) as I2.
  pose proof (inv_step_ok d _ 12 ltac:(lia) I2) as I3. pose proof (inv_step_ok d _ 24 ltac:(lia) I3) as I4. pose proof (inv_step_ok d _ 48 ltac:(lia) I4) as I5.
  set (m4 := inv_step w d (inv_step w d (inv_step w d (inv_step w d d)))) in *.
  assert (L : forall a b, limb (inv_step w a b)) by (intros; unfold inv_step, tr; apply Z.mod_pos_bound; lia).
  assert (F : forall m, (d * m - 1) mod 2 ^ w = 0 -> (d * m) mod B = 1).
  { intros m E. replace (d * m) with (d * m - 1 + 1) by ring. unfold LB in *. rewrite Z.add_mod, E, Z.add_0_l, Z.mod_mod by lia. apply Z.mod_small. lia. }
  destruct (Z.eqb_spec w 64) as [E|E].
  - split; [apply L|]. apply F. replace (Z.min (2 * 48) w) with w in I5 by (clear - E; lia). exact I5.
  - split; [apply L|]. apply F. replace (Z.min (2 * 24) w) with w in I4 by (clear - E H48; lia). exact I4.
Qed.

(* masks *)
Lemma all_ones_land : forall x, limb x -> Z.land x (B - 1) = x.
Proof.
  intros x Hx. unfold LB in *. replace (2 ^ w - 1) with (Z.ones w) by (rewrite Z.ones_equiv; lia). rewrite Z.land_ones by lia. apply Z.mod_small. exact Hx.
Qed.
Lemma sel_spec : forall x y b, limb x -> limb y -> sel w (tr w (- Z.b2z b)) x y = if b then y else x.
Proof.
  intros x y b Hx Hy. pose proof (LB_ge2 w Hw) as B2. unfold sel. destruct b; cbn [Z.b2z].
  - change (tr w (- (1))) with (tr w (-1)). replace (tr w (-1)) with (B - 1) by (unfold tr; apply (Z.mod_unique _ _ (-1)); lia). replace (B - 1 - (B - 1)) with 0 by lia. rewrite Z.land_0_r, Z.lor_0_l. apply all_ones_land. exact Hy.
  - change (tr w (- 0)) with (tr w 0). replace (tr w 0) with 0 by (unfold tr; symmetry; apply Z.mod_0_l; lia). rewrite Z.sub_0_r, Z.land_0_r, Z.lor_0_r. apply all_ones_land. exact Hx.
Qed.
Lemma cnd_select_spec : forall xs ys b, limbs xs -> limbs ys -> length xs = length ys -> mpn_cnd_select w xs ys b = if b then ys else xs.
Proof.
  unfold mpn_cnd_select. induction xs as [|x xs IH]; intros [|y ys] b Hx Hy Hl; try discriminate Hl; [destruct b; reflexivity|].
  cbn [map2]. rewrite (sel_spec x y b (Forall_inv Hx) (Forall_inv Hy)), (IH ys b (Forall_inv_tail Hx) (Forall_inv_tail Hy)) by (cbn [length] in Hl; lia).
  destruct b; reflexivity.
Qed.
(* one conditional subtraction *)
Lemma reduce_weak_spec : forall xs ms hi, limbs xs -> limbs ms -> length xs = length ms -> carry hi ->
  let T := val xs + B ^ Z.of_nat (length ms) * hi in
  T - val ms < B ^ Z.of_nat (length ms) ->
  let '(z, b) := mpn_reduce_weak w xs ms hi in
  length z = length ms /\ limbs z /\ b = (val ms <=? T) /\ val z = if val ms <=? T then T - val ms else T.
Proof.
  intros xs ms hi Hx Hm Hl Hh T HT. unfold mpn_reduce_weak. pose proof (mpn_sub_n_spec w Hw xs ms Hx Hm Hl) as S.
  destruct (mpn_sub_n w xs ms) as [t c]. destruct S as (S1 & S2 & S3 & S4). rewrite cnd_select_spec by (assumption || congruence). rewrite Hl in *.
  pose proof (val_range w Hw xs Hx) as Rx. pose proof (val_range w Hw ms Hm) as Rm. rewrite Hl in Rx. set (N := B ^ Z.of_nat (length ms)) in *. unfold carry in Hh.
  assert (Hh2 : hi = 0 \/ hi = 1) by lia. unfold T in *. destruct (Z.ltb_spec (val xs) (val ms)) as [L|L]; subst c; destruct Hh2 as [-> | ->]; rewrite ?Z.mul_0_r, ?Z.add_0_r, ?Z.mul_1_r in *; try change (0 <? 1) with true; try change (1 <? 1) with false; try change (0 <? 0) with false; try change (1 <? 0) with false; cbn [Z.b2z]; try change (1 =? 0) with false; try change (0 =? 0) with true; cbv iota.
  - destruct (Z.leb_spec (val ms) (val xs)) as [G|G]; [lia|]. split; [exact Hl|]. split; [exact Hx|]. split; reflexivity.
  - destruct (Z.leb_spec (val ms) (val xs + N)) as [G|G]; [|lia]. split; [lia|]. split; [exact S2|]. split; [reflexivity|]. rewrite S3. symmetry. apply (Z.mod_unique _ _ (-1)); lia.
  - destruct (Z.leb_spec (val ms) (val xs)) as [G|G]; [|lia]. split; [lia|]. split; [exact S2|]. split; [reflexivity|]. rewrite S3. apply Z.mod_small. lia.
  - lia.
Qed.

(* division remainder *)
Lemma mod_spec : forall xs ms, limbs xs -> limbs ms -> ms <> [] -> last ms 0 <> 0 -> (length ms <= length xs)%nat ->
  exists r, mpn_mod w xs ms = Ok r /\ length r = length ms /\ limbs r /\ val r = val xs mod val ms.
Proof.
  intros xs ms Hx Hm Hn Hl Hle. unfold mpn_mod. pose proof (mpn_divmod_spec w Hw xs ms Hx Hm) as D. destruct (mpn_divmod w xs ms) as [[q r]| |]; [|contradiction|exfalso; destruct D as [D|[D|D]]; [contradiction|lia|contradiction]].
  cbn [bind snd]. exists r. destruct D as (_ & _ & _ & _ & _ & D1 & D2 & _ & D3). split; [reflexivity|]. split; [exact D1|]. split; assumption.
Qed.

(* Montgomery *)
Lemma window_val : forall t c, t <> [] -> limbs t -> nth 0 t 0 = 0 -> B * val (tl t ++ [c]) = val t + B ^ Z.of_nat (length t) * c /\ length (tl t ++ [c]) = length t.
Proof.
  intros t c Hn Ht H0. destruct t as [|a t]; [contradiction|]. cbn [nth tl length] in *. subst a. rewrite val_snoc, val_cons, app_length by exact Hw. cbn [length]. rewrite Bpow_S by exact Hw. split; [ring|lia].
Qed.
Lemma val_low : forall t, limbs t -> val t mod B = nth 0 t 0.
Proof. intros t Ht. apply (val_mod w Hw t Ht). Qed.
Lemma mont_low : forall t ms k, limbs t -> limbs ms -> (nth 0 ms 0 * k) mod B = B - 1 -> (val t + val ms * tr w (nth 0 t 0 * k)) mod B = 0.
Proof.
  intros t ms k Ht Hm Hk. pose proof (LB_ge2 w Hw) as B2. rewrite <- (val_low t Ht). rewrite <- (val_low ms Hm) in Hk. unfold tr.
  rewrite Z.add_mod, Z.mul_mod_idemp_r, Z.mul_assoc by lia. rewrite (Z.mul_comm (val ms)), <- Z.mul_assoc. rewrite Z.mul_mod_idemp_l by lia.
  rewrite <- (Z.mul_mod_idemp_r (val t) (val ms * k)) by lia. rewrite <- (Z.mul_mod_idemp_l (val ms) k) by lia. rewrite Hk.
  rewrite <- Z.add_mod by lia. replace (val t + val t * (B - 1)) with (val t * B) by ring. apply Z.mod_mul. lia.
Qed.
Lemma tl_limbs : forall (t : list Z), limbs t -> limbs (tl t).
Proof. intros [|a t] H; [exact H|exact (Forall_inv_tail H)]. Qed.
Lemma carry_lor : forall a b, carry a -> carry b -> a + b <= 1 -> Z.lor a b = a + b /\ carry (Z.lor a b).
Proof. intros a b Ha Hb H. unfold carry in *. assert (C : a = 0 /\ b = 0 \/ a = 0 /\ b = 1 \/ a = 1 /\ b = 0) by lia. destruct C as [[-> ->]|[[-> ->]|[-> ->]]]; cbn; lia. Qed.
(* one round: T' B = T + x y + q m *)
Lemma mont_step_spec : forall xs ms k t c y, limbs xs -> limbs ms -> limbs t -> length xs = length ms -> length t = length ms -> ms <> [] -> limb y -> carry c ->
  (nth 0 ms 0 * k) mod B = B - 1 ->
  let N := B ^ Z.of_nat (length ms) in
  0 <= val t + N * c < val xs + val ms ->
  let '(t', c') := mont_step w xs ms k (t, c) y in
  length t' = length ms /\ limbs t' /\ carry c' /\ 0 <= val t' + N * c' < val xs + val ms /\
  exists q, 0 <= q < B /\ B * (val t' + N * c') = val t + N * c + val xs * y + q * val ms.
Proof.
  intros xs ms k t c y Hx Hm Ht Lx Lt Hn Hy Hc Hk N HT. pose proof (LB_ge2 w Hw) as B2. unfold mont_step, mpn_addmul_1.
  pose proof (addmul_1_loop_spec w Hw xs t 0 y Ht Hx ltac:(congruence) (limb0 w Hw) Hy) as A1. destruct (addmul_1_loop w 0 t xs y) as [t1 c2]. destruct A1 as (A1 & A2 & A3 & A4).
  set (u := tr w (nth 0 t1 0 * k)). assert (Lu : limb u) by (unfold u, tr; apply Z.mod_pos_bound; lia).
  pose proof (addmul_1_loop_spec w Hw ms t1 0 u A2 Hm ltac:(congruence) (limb0 w Hw) Lu) as M1. destruct (addmul_1_loop w 0 t1 ms u) as [t2 c3]. destruct M1 as (M1 & M2 & M3 & M4).
  rewrite Lx in A4. fold N in A4, M4. rewrite Z.add_0_r in A4, M4.
  pose proof (Bpow_pos w Hw (length ms)) as PN. fold N in PN.
  assert (Z0 : nth 0 t2 0 = 0).
  { rewrite <- (val_low t2 M2). replace (val t2) with (val t1 + val ms * u - N * c3) by lia. assert (EN : exists n, N = n * B).
    { unfold N. destruct ms as [|m0 ms']; [contradiction|]. cbn [length]. rewrite Bpow_S by exact Hw. exists (B ^ Z.of_nat (length ms')). ring. }
    destruct EN as (n & EN). rewrite EN. replace (val t1 + val ms * u - n * B * c3) with (val t1 + val ms * u + (- (n * c3)) * B) by ring. rewrite Z.mod_add by lia. apply mont_low; assumption. }
  assert (Lc : limb c) by (apply carry_limb; assumption).
  pose proof (mp_add_spec w Hw c c2 Lc A3) as P1. destruct (mp_add w c c2) as [cx d2]. destruct P1 as (P1 & P2 & P3).
  pose proof (mp_add_spec w Hw cx c3 P1 M3) as P4. destruct (mp_add w cx c3) as [cy d3]. destruct P4 as (P4 & P5 & P6).
  assert (Hn2 : t2 <> []) by (intros E; subst t2; cbn [length] in M1; destruct ms; [contradiction|discriminate]).
  destruct (window_val t2 cy Hn2 M2 Z0) as (W1 & W2). rewrite M1 in W1, W2. fold N in W1.
  set (V := val (tl t2 ++ [cy])) in *. unfold below in Hy, Lu. assert (EQ : B * (V + N * (d2 + d3)) = val t + N * c + val xs * y + u * val ms).
  { rewrite Z.mul_add_distr_l, W1. replace (B * (N * (d2 + d3))) with (N * (B * d2) + N * (B * d3)) by ring.
    assert (X1 : B * d2 = c + c2 - cx) by lia. assert (X2 : B * d3 = cx + c3 - cy) by lia. rewrite X1, X2. rewrite (Z.mul_comm u). lia. }
  pose proof (val_range w Hw xs Hx) as Rx. pose proof (val_range w Hw ms Hm) as Rm. rewrite Lx in Rx. fold N in Rx, Rm.
  assert (LT : limbs (tl t2 ++ [cy])) by (apply Forall_app; split; [apply tl_limbs; exact M2|constructor; [exact P4|constructor]]).
  pose proof (val_range w Hw _ LT) as RV. fold V in RV. rewrite W2 in RV. fold N in RV.
  assert (BND : B * (V + N * (d2 + d3)) < B * (val xs + val ms)).
  { rewrite EQ. pose proof (Z.mul_le_mono_nonneg_l y (B - 1) (val xs) ltac:(lia) ltac:(lia)). pose proof (Z.mul_le_mono_nonneg_r u (B - 1) (val ms) ltac:(lia) ltac:(lia)). lia. }
  apply Z.mul_lt_mono_pos_l in BND; [|lia].
  assert (DD : d2 + d3 <= 1). { destruct (Z_le_dec (d2 + d3) 1) as [G|G]; [exact G|]. pose proof (Z.mul_le_mono_nonneg_l 2 (d2 + d3) N ltac:(lia) ltac:(lia)). lia. }
  destruct (carry_lor d2 d3 P2 P5 DD) as (O1 & O2). rewrite O1. unfold carry in P2, P5. pose proof (Z.mul_nonneg_nonneg N (d2 + d3) ltac:(lia) ltac:(lia)).
  split; [exact W2|]. split; [exact LT|]. split; [rewrite <- O1; exact O2|]. split; [lia|]. exists u. split; [exact Lu|exact EQ].
Qed.
Lemma mont_fold : forall xs ms k, limbs xs -> limbs ms -> length xs = length ms -> ms <> [] -> (nth 0 ms 0 * k) mod B = B - 1 ->
  let N := B ^ Z.of_nat (length ms) in
  forall ys t c, limbs ys -> limbs t -> length t = length ms -> carry c -> 0 <= val t + N * c < val xs + val ms ->
  let '(t', c') := fold_left (mont_step w xs ms k) ys (t, c) in
  length t' = length ms /\ limbs t' /\ carry c' /\ 0 <= val t' + N * c' < val xs + val ms /\
  exists q, 0 <= q < B ^ Z.of_nat (length ys) /\ B ^ Z.of_nat (length ys) * (val t' + N * c') = val t + N * c + val xs * val ys + q * val ms.
Proof.
  intros xs ms k Hx Hm Lx Hn Hk N. induction ys as [|y ys IH]; intros t c Hy Ht Lt Hc HT.
  - cbn [fold_left length dval]. split; [exact Lt|]. split; [exact Ht|]. split; [exact Hc|]. split; [exact HT|]. exists 0. change (B ^ Z.of_nat 0) with 1. split; lia.
  - cbn [fold_left]. pose proof (mont_step_spec xs ms k t c y Hx Hm Ht Lx Lt Hn (Forall_inv Hy) Hc Hk HT) as M. destruct (mont_step w xs ms k (t, c) y) as [t1 c1].
    destruct M as (M1 & M2 & M3 & M4 & q & Q1 & M5). fold N in M4, M5. specialize (IH t1 c1 (Forall_inv_tail Hy) M2 M1 M3 M4). destruct (fold_left (mont_step w xs ms k) ys (t1, c1)) as [t' c'].
    destruct IH as (I1 & I2 & I3 & I4 & q' & Q2 & I5). split; [exact I1|]. split; [exact I2|]. split; [exact I3|]. split; [exact I4|]. exists (q + B * q'). cbn [length]. rewrite Bpow_S, val_cons by exact Hw.
    split; [clear - Q1 Q2 Hw; pose proof (LB_ge2 w Hw) as B2; set (K := B ^ Z.of_nat (length ys)) in *; pose proof (Z.mul_le_mono_nonneg_l q' (K - 1) B ltac:(lia) ltac:(lia)); pose proof (Z.mul_nonneg_nonneg B q' ltac:(lia) ltac:(lia)); lia|].
    rewrite <- Z.mul_assoc, I5. replace (B * (val t1 + N * c1 + val xs * val ys + q' * val ms)) with (B * (val t1 + N * c1) + B * (val xs * val ys + q' * val ms)) by ring. rewrite M5. ring.
Qed.
Lemma montmul_inner_spec : forall xs ys ms k, limbs xs -> limbs ys -> limbs ms -> length xs = length ms -> length ys = length ms -> ms <> [] -> 0 < val ms -> (nth 0 ms 0 * k) mod B = B - 1 ->
  let N := B ^ Z.of_nat (length ms) in
  exists t c, mpn_montmul_inner w xs ys ms k = Ok (t, c) /\ length t = length ms /\ limbs t /\ carry c /\ 0 <= val t + N * c < val xs + val ms /\
  exists q, 0 <= q < N /\ N * (val t + N * c) = val xs * val ys + q * val ms.
Proof.
  intros xs ys ms k Hx Hy Hm Lx Ly Hn Pm Hk N. destruct ys as [|y ys]; [destruct ms; [contradiction|discriminate]|]. unfold mpn_montmul_inner.
  pose proof (val_range w Hw xs Hx) as Rx. pose proof (val_range w Hw ms Hm) as Rm. pose proof (Bpow_pos w Hw (length ms)) as PN. fold N in PN.
  (* the first round is a round from zero *)
  assert (F : (let '(t, c2) := mpn_mul_1 w xs y in let '(t, c3) := mpn_addmul_1 w t ms (tr w (nth 0 t 0 * k)) in let '(top, c1) := mp_add w c2 c3 in (tl t ++ [top], c1)) = mont_step w xs ms k (repeat 0 (length ms), 0) y).
  { unfold mont_step. assert (E : mpn_addmul_1 w (repeat 0 (length ms)) xs y = mpn_mul_1 w xs y).
    { unfold mpn_addmul_1, mpn_mul_1. pose proof (addmul_1_loop_spec w Hw xs (repeat 0 (length ms)) 0 y (repeat0_limbs w Hw _) Hx ltac:(rewrite repeat_length; congruence) (limb0 w Hw) (Forall_inv Hy)) as A.
      pose proof (mul_1_loop_spec w Hw xs 0 y Hx (limb0 w Hw) (Forall_inv Hy)) as M. destruct (addmul_1_loop w 0 (repeat 0 (length ms)) xs y) as [r c]. destruct (mul_1_loop w 0 xs y) as [r' c'].
      destruct A as (A1 & A2 & A3 & A4). destruct M as (M1 & M2 & M3 & M4). rewrite repeat0_val in A4. pose proof (val_range w Hw r A2) as Rr. pose proof (val_range w Hw r' M2) as Rr'. rewrite A1 in Rr. rewrite M1 in Rr'.
      set (K := B ^ Z.of_nat (length xs)) in *. assert (Ec : c = c').
      { destruct (Z.lt_trichotomy c c') as [Q|[Q|Q]]; [|exact Q|].
        - pose proof (Z.mul_le_mono_nonneg_l (c + 1) c' K ltac:(lia) ltac:(lia)). lia.
        - pose proof (Z.mul_le_mono_nonneg_l (c' + 1) c K ltac:(lia) ltac:(lia)). lia. }
      subst c'. f_equal. apply (dval_inj (LB w)); [pose proof (LB_ge2 w Hw); lia|exact A2|exact M2|congruence|lia]. }
    rewrite E. destruct (mpn_mul_1 w xs y) as [t c2] eqn:Em. destruct (mpn_addmul_1 w t ms (tr w (nth 0 t 0 * k))) as [t' c3] eqn:Ea.
    unfold mpn_mul_1 in Em. pose proof (mul_1_loop_spec w Hw xs 0 y Hx (limb0 w Hw) (Forall_inv Hy)) as M. rewrite Em in M. destruct M as (M1 & M2 & M3 & M4).
    pose proof (mp_add_spec w Hw 0 c2 (limb0 w Hw) M3) as P. destruct (mp_add w 0 c2) as [cx d2]. destruct P as (P1 & P2 & P3). unfold below, carry in *. pose proof (LB_ge2 w Hw) as B2.
    assert (d2 = 0) by (destruct (Z.eq_dec d2 0); [assumption|]; assert (d2 = 1) by lia; subst d2; lia). subst d2. assert (cx = c2) by lia. subst cx. destruct (mp_add w c2 c3) as [cy d3]. reflexivity. }
  destruct (mpn_mul_1 w xs y) as [t c2]. destruct (mpn_addmul_1 w t ms (tr w (nth 0 t 0 * k))) as [t' c3]. destruct (mp_add w c2 c3) as [top c1]. rewrite F.
  assert (LR : length (repeat 0 (length ms)) = length ms) by apply repeat_length.
  pose proof (mont_fold xs ms k Hx Hm Lx Hn Hk (y :: ys) (repeat 0 (length ms)) 0 Hy (repeat0_limbs w Hw _) LR carry0 ltac:(rewrite repeat0_val; lia)) as G.
  cbn [fold_left] in G. destruct (fold_left (mont_step w xs ms k) ys (mont_step w xs ms k (repeat 0 (length ms), 0) y)) as [u c]. destruct G as (G1 & G2 & G3 & G4 & q & Q & G5).
  exists u, c. split; [reflexivity|]. split; [exact G1|]. split; [exact G2|]. split; [exact G3|]. split; [exact G4|]. exists q. rewrite Ly in G5, Q. fold N in G5, Q. rewrite repeat0_val in G5. split; [exact Q|lia].
Qed.
End MpnMod.
