(* Barrett reduction, and inversion by exponentiation. *)
From Coq Require Import Zpow_facts Znumtheory.
From Verif.Base Require Import Prelude.
From Verif.Model Require Import Encoding Hash Mpn Mpz MpnMod.
From Verif.Proof Require Import MpnProof MpnShift MpnDiv MpzProof MpzOps MpzBits MpzLogic MpnModProof MpnPow MpnPowm Fermat.

Section w.
Variable w : Z.
Hypothesis Hw : 0 < w.
Notation B := (LB w).
Notation limb := (below (LB w)).
Notation limbs := (Forall (below (LB w))).
Notation val := (dval (LB w)).

Lemma strip_unique : forall q k, limbs q -> (0 < k <= length q)%nat -> B ^ Z.of_nat (k - 1) <= val q < B ^ Z.of_nat k -> mpn_strip q (length q) = k /\ val (firstn k q) = val q.
Proof.
  intros q k Hq Hk R. destruct (mpn_strip_spec w (length q) q (le_n _)) as (S1 & S2 & S3). rewrite firstn_all in S2. set (s := mpn_strip q (length q)) in *.
  assert (Rs : val q < B ^ Z.of_nat s). { rewrite <- S2. apply (firstn_val_range w Hw q s Hq S1). }
  assert (L1 : (k <= s)%nat). { destruct (le_lt_dec k s) as [L|L]; [exact L|exfalso]. pose proof (Bpow_le w Hw s (k - 1) ltac:(lia)). lia. }
  destruct S3 as [S3|S3]; [lia|]. assert (L2 : (s <= k)%nat).
  { destruct (le_lt_dec s k) as [L|L]; [exact L|exfalso]. replace s with (S (s - 1)) in S2 by lia. rewrite (val_firstn_S w) in S2 by lia. pose proof (firstn_val_range w Hw q (s - 1) Hq ltac:(lia)) as F.
    pose proof (nth_limb w Hw q (s - 1) Hq) as [G1 G2]. pose proof (Bpow_le w Hw k (s - 1) ltac:(lia)) as G3. pose proof (Bpow_pos w Hw (s - 1)) as G4.
    pose proof (Z.mul_le_mono_nonneg_l 1 (nth (s - 1) q 0) (B ^ Z.of_nat (s - 1)) ltac:(lia) ltac:(lia)). lia. }
  assert (E : s = k) by lia. split; [exact E|]. rewrite <- E. exact S2.
Qed.
Lemma barrett_spec : forall ms shift, limbs ms -> ms <> [] -> last ms 0 <> 0 -> (2 * length ms <= shift)%nat ->
  (val ms <> B ^ (Z.of_nat (length ms) - 1) -> exists b, mpn_barrett w ms shift = Ok b /\ length b = (shift - length ms + 1)%nat /\ limbs b /\ val b = B ^ Z.of_nat shift / val ms) /\
  (val ms = B ^ (Z.of_nat (length ms) - 1) -> mpn_barrett w ms shift = Abort).
Proof.
  intros ms shift Hms Hne Hl Hs. pose proof (n_pos ms Hne) as Np. set (n := length ms) in *. pose proof (LB_ge2 w Hw) as B2.
  assert (V1 : B ^ Z.of_nat (n - 1) <= val ms < B ^ Z.of_nat n).
  { pose proof (val_range w Hw ms Hms) as R. fold n in R. split; [|lia]. pose proof (val_last w Hw ms Hne Hms) as L. fold n in L. pose proof (last_limb w ms Hms Hne) as [L1 L2]. pose proof (Bpow_pos w Hw (n - 1)) as P1.
    pose proof (Z.mul_le_mono_nonneg_r 1 (last ms 0) (B ^ Z.of_nat (n - 1)) ltac:(lia) ltac:(lia)). lia. }
  pose proof (Bpow_pos w Hw (n - 1)) as P1.
  replace (Z.of_nat n - 1) with (Z.of_nat (n - 1)) by lia. unfold mpn_barrett. fold n. destruct (Nat.eqb_spec n 0) as [E|_]; [lia|]. destruct (Nat.ltb_spec shift (n * 2)) as [E|_]; [lia|]. cbn [orb].
  set (np := repeat 0 shift ++ [1]). assert (Hnp : limbs np) by (apply Forall_app; split; [apply repeat0_limbs; lia|constructor; [split; lia|constructor]]).
  assert (Lnp : length np = (shift + 1)%nat) by (unfold np; rewrite app_length, repeat_length; reflexivity). assert (Vnp : val np = B ^ Z.of_nat shift) by (unfold np; rewrite val_snoc, repeat0_val, repeat_length; ring).
  pose proof (mpn_divmod_spec w Hw np ms Hnp Hms) as D. destruct (mpn_divmod w np ms) as [[q r]| |]; [|contradiction|destruct D as [D|[D|D]]; [contradiction| |contradiction]; fold n in D; lia].
  destruct D as (_ & _ & _ & Lq & Hq & _ & _ & Vq & _). fold n in Lq. rewrite Lnp in Lq. rewrite Vnp in Vq. cbn [bind fst].
  assert (BS : B ^ Z.of_nat shift = B ^ Z.of_nat (shift - n + 1) * B ^ Z.of_nat (n - 1)) by (rewrite <- Z.pow_add_r by lia; f_equal; lia).
  assert (BS2 : B ^ Z.of_nat shift = B ^ Z.of_nat (shift - n) * B ^ Z.of_nat n) by (rewrite <- Z.pow_add_r by lia; f_equal; lia).
  assert (Q1 : B ^ Z.of_nat (shift - n) <= val q).
  { rewrite Vq. apply Z.div_le_lower_bound; [lia|]. rewrite BS2, Z.mul_comm. apply Z.mul_le_mono_nonneg_l; [pose proof (Bpow_pos w Hw (shift - n)); lia|lia]. }
  pose proof (Bpow_pos w Hw (shift - n + 1)) as P2. rewrite <- Lq. split; intros Hm.
  - assert (Q2 : val q < B ^ Z.of_nat (shift - n + 1)).
    { rewrite Vq. apply Z.div_lt_upper_bound; [lia|]. rewrite BS, Z.mul_comm. apply Z.mul_lt_mono_pos_r; lia. }
    destruct (strip_unique q (shift - n + 1) Hq ltac:(lia)) as (E1 & E2); [replace (shift - n + 1 - 1)%nat with (shift - n)%nat by lia; lia|]. rewrite E1, Nat.eqb_refl.
    exists (firstn (shift - n + 1) q). split; [reflexivity|]. split; [apply firstn_length_le; lia|]. split; [apply Forall_firstn; exact Hq|]. rewrite E2. exact Vq.
  - assert (Q2 : val q = B ^ Z.of_nat (shift - n + 1)) by (rewrite Vq, Hm, BS; apply Z.div_mul; lia).
    assert (KB : (0 < shift - n + 2 <= length q)%nat) by (clear - Lq Hs Np; lia). destruct (strip_unique q (shift - n + 2) Hq KB) as (E1 & _).
    { replace (shift - n + 2 - 1)%nat with (shift - n + 1)%nat by (clear; lia). rewrite Q2. split; [apply Z.le_refl|]. replace (shift - n + 2)%nat with (S (shift - n + 1)) by (clear; lia). rewrite Bpow_S. pose proof (Z.mul_le_mono_nonneg_r 2 B (B ^ Z.of_nat (shift - n + 1)) ltac:(clear - P2; lia) B2) as Q3. clear - Q3 P2. lia. }
    rewrite E1. destruct (Nat.eqb_spec (shift - n + 2) (shift - n + 1)) as [E|E]; [clear - E; lia|reflexivity].
Qed.

Lemma barrett_est : forall x m K, 0 < m -> 0 < K -> 0 <= x < K -> let h := (x * (K / m)) / K in 0 <= x - h * m < 2 * m.
Proof.
  intros x m K Hm HK Hx h. set (b := K / m) in *. pose proof (Z.div_mod K m ltac:(lia)) as D. fold b in D. pose proof (Z.mod_pos_bound K m Hm) as R. set (e := K mod m) in *.
  pose proof (Z.div_mod (x * b) K ltac:(lia)) as D2. fold h in D2. pose proof (Z.mod_pos_bound (x * b) K HK) as R2. set (f := (x * b) mod K) in *.
  assert (E : K * (x - h * m) = x * e + f * m). { replace (K * (x - h * m)) with (x * K - (K * h) * m) by ring. rewrite D at 1. replace (K * h) with (x * b - f) by lia. ring. }
  assert (xe : 0 <= x * e <= (K - 1) * (m - 1)) by (split; [apply Z.mul_nonneg_nonneg; lia|apply Z.mul_le_mono_nonneg; lia]).
  assert (fm : 0 <= f * m <= (K - 1) * m) by (split; [apply Z.mul_nonneg_nonneg; lia|apply Z.mul_le_mono_nonneg_r; lia]).
  clear - E xe fm HK Hm. set (y := x - h * m) in *. split.
  - apply Z.nlt_ge. intros C. pose proof (Z.mul_le_mono_nonneg_l y (-1) K ltac:(lia) ltac:(lia)). lia.
  - apply Z.nle_gt. intros C. pose proof (Z.mul_le_mono_nonneg_l (2 * m) y K ltac:(lia) C) as A. replace ((K - 1) * (m - 1)) with (K * m - K - m + 1) in xe by ring. replace ((K - 1) * m) with (K * m - m) in fm by ring. replace (K * (2 * m)) with (2 * (K * m)) in A by ring. lia.
Qed.
Lemma val_skipn : forall (l : list Z) k, limbs l -> (k <= length l)%nat -> val (skipn k l) = val l / B ^ Z.of_nat k.
Proof.
  intros l k Hl Hk. pose proof (firstn_val_range w Hw l k Hl Hk) as R. rewrite <- (firstn_skipn k l) at 2. rewrite val_app, firstn_length_le by exact Hk. pose proof (Bpow_pos w Hw k).
  rewrite Z.mul_comm, Z.div_add by lia. rewrite Z.div_small by lia. reflexivity.
Qed.
Lemma val_firstn_mod : forall (l : list Z) k, limbs l -> (k <= length l)%nat -> val (firstn k l) = val l mod B ^ Z.of_nat k.
Proof.
  intros l k Hl Hk. pose proof (firstn_val_range w Hw l k Hl Hk) as R. rewrite <- (firstn_skipn k l) at 2. rewrite val_app, firstn_length_le by exact Hk. pose proof (Bpow_pos w Hw k).
  rewrite Z.mul_comm, Z.mod_add by lia. rewrite Z.mod_small by lia. reflexivity.
Qed.
Lemma reduce_spec : forall xs bs ms shift, limbs xs -> limbs ms -> ms <> [] -> last ms 0 <> 0 -> (2 * length ms <= shift)%nat -> length xs = shift -> mpn_barrett w ms shift = Ok bs ->
  length (mpn_reduce w xs bs ms shift) = length ms /\ limbs (mpn_reduce w xs bs ms shift) /\ val (mpn_reduce w xs bs ms shift) = val xs mod val ms.
Proof.
  intros xs bs ms shift Hx Hms Hne Hl Hs Lx Eb. pose proof (n_pos ms Hne) as Np. destruct (barrett_spec ms shift Hms Hne Hl Hs) as (B1 & B2). pose proof (LB_ge2 w Hw) as BB.
  assert (Hm : val ms <> B ^ (Z.of_nat (length ms) - 1)) by (intros E; rewrite (B2 E) in Eb; discriminate). destruct (B1 Hm) as (b & Eb' & Lb & Hb & Vb). rewrite Eb in Eb'. apply (f_equal (fun o => match o with Ok a => a | _ => [] end)) in Eb'. subst b. clear B1 B2.
  set (n := length ms) in *. pose proof (val_range w Hw xs Hx) as Rx. rewrite Lx in Rx. pose proof (val_range w Hw ms Hms) as Rm. fold n in Rm. set (K := B ^ Z.of_nat shift) in *.
  assert (M0 : 0 < val ms). { pose proof (val_last w Hw ms Hne Hms) as L. fold n in L. pose proof (last_limb w ms Hms Hne) as [L1 L2]. pose proof (Bpow_pos w Hw (n - 1)) as P1.
    pose proof (Z.mul_le_mono_nonneg_r 1 (last ms 0) (B ^ Z.of_nat (n - 1)) ltac:(lia) ltac:(lia)). lia. }
  pose proof (barrett_est (val xs) (val ms) K M0 ltac:(lia) Rx) as BE. cbv zeta in BE. rewrite <- Vb in BE.
  unfold mpn_reduce. cbv zeta. fold n. destruct (mpn_mul_spec w Hw xs bs Hx Hb) as (A1 & A2 & A3). set (h := skipn shift (mpn_mul w xs bs)).
  assert (Vh : val h = (val xs * val bs) / K) by (unfold h; rewrite val_skipn, A3 by (assumption || lia); reflexivity). assert (Lh : length h = (shift - n + 1)%nat) by (unfold h; rewrite skipn_length; lia).
  assert (Hh : limbs h) by (apply Forall_skipn; exact A2). rewrite <- Vh in BE. destruct (mpn_mul_spec w Hw h ms Hh Hms) as (C1 & C2 & C3). set (p := firstn shift (mpn_mul w h ms)).
  assert (Lp : length p = shift) by (unfold p; apply firstn_length_le; fold n in C1; lia). assert (Hp : limbs p) by (apply Forall_firstn; exact C2).
  assert (HM : 0 <= val h * val ms) by (apply Z.mul_nonneg_nonneg; [apply (val_range w Hw h Hh)|lia]).
  assert (Vp : val p = val h * val ms) by (unfold p; rewrite val_firstn_mod, C3 by (assumption || fold n in C1; lia); apply Z.mod_small; fold K; lia).
  pose proof (mpn_sub_n_spec w Hw xs p Hx Hp ltac:(congruence)) as S. destruct (mpn_sub_n w xs p) as [q c]. destruct S as (S1 & S2 & S3 & _). cbn [fst]. rewrite Lx in S1, S3. fold K in S3. rewrite Vp, Z.mod_small in S3 by (clear - BE HM Rx; lia).
  rewrite <- S3 in BE. assert (Ln : (n < length q)%nat) by lia. pose proof (firstn_val_range w Hw q n S2 ltac:(lia)) as F1. pose proof (val_firstn_mod q (S n) S2 ltac:(lia)) as F2. rewrite (val_firstn_S w) in F2 by lia.
  rewrite Z.mod_small in F2. 2:{ split; [lia|]. rewrite Bpow_S. apply (Z.lt_le_trans _ (2 * val ms)); [lia|]. apply (Z.le_trans _ (2 * B ^ Z.of_nat n)); [clear - Rm; lia|]. apply Z.mul_le_mono_nonneg_r; [clear - Rm; lia|exact BB]. }
  pose proof (nth_limb w Hw q n S2) as [G1 G2]. assert (HC : carry (nth n q 0)).
  { split; [lia|]. apply Z.nlt_ge. intros G. pose proof (Z.mul_le_mono_nonneg_l 2 (nth n q 0) (B ^ Z.of_nat n) ltac:(lia) ltac:(lia)). lia. }
  pose proof (reduce_weak_spec w Hw (firstn n q) ms (nth n q 0) ltac:(apply Forall_firstn; exact S2) Hms ltac:(apply firstn_length_le; lia) HC) as RW. cbv zeta in RW. fold n in RW. rewrite F2 in RW. specialize (RW ltac:(lia)).
  destruct (mpn_reduce_weak w (firstn n q) ms (nth n q 0)) as [z cz]. destruct RW as (R1 & R2 & _ & R3). cbn [fst]. split; [exact R1|]. split; [exact R2|]. rewrite R3. destruct (Z.leb_spec (val ms) (val q)) as [L|L].
  - apply (Z.mod_unique _ _ (val h + 1)); lia.
  - apply (Z.mod_unique _ _ (val h)); lia.
Qed.

(* ---- inversion by exponentiation ---- *)
Lemma lor_fold_zero : forall l a, 0 <= a -> (forall x, In x l -> 0 <= x) -> 0 <= fold_left Z.lor l a /\ (fold_left Z.lor l a = 0 <-> a = 0 /\ forall x, In x l -> x = 0).
Proof.
  induction l as [|x l IH]; intros a Ha Hl; cbn [fold_left]; [split; [exact Ha|]; split; [intros E; split; [exact E|intros y []]|intros [E _]; exact E]|].
  destruct (IH (Z.lor a x)) as (I1 & I2); [apply Z.lor_nonneg; split; [exact Ha|apply Hl; left; reflexivity]|intros y Hy; apply Hl; right; exact Hy|]. split; [exact I1|]. rewrite I2, Z.lor_eq_0_iff. split.
  - intros ((E1 & E2) & E3). split; [exact E1|]. intros y [Hy|Hy]; [congruence|apply E3; exact Hy].
  - intros (E1 & E2). split; [split; [exact E1|apply E2; left; reflexivity]|]. intros y Hy. apply E2. right. exact Hy.
Qed.
Lemma fold_lor_limb : forall l a, limb a -> limbs l -> limb (fold_left Z.lor l a).
Proof.
  induction l as [|x l IH]; intros a Ha Hl; [exact Ha|]. inversion Hl; subst. cbn [fold_left]. apply IH; [|assumption]. destruct Ha, H1. unfold LB in *. split; [apply Z.lor_nonneg; lia|].
  destruct (Z.eq_dec (Z.lor a x) 0) as [E|E]; [rewrite E; apply Z.pow_pos_nonneg; lia|]. assert (0 <= Z.lor a x) by (apply Z.lor_nonneg; lia). apply Z.log2_lt_pow2; [lia|]. rewrite Z.log2_lor by lia.
  apply Z.max_lub_lt; [destruct (Z.eq_dec a 0) as [Z0|Z0]|destruct (Z.eq_dec x 0) as [Z0|Z0]]; try (rewrite Z0; exact Hw); apply Z.log2_lt_pow2; lia.
Qed.
Lemma sec_zero_p_spec : forall xs, limbs xs -> 1 < w -> mpn_sec_zero_p w xs = Z.b2z (val xs =? 0).
Proof.
  intros xs Hx W1. unfold mpn_sec_zero_p. cbv zeta. set (v := fold_left Z.lor xs 0). assert (Lv : limb v) by (apply fold_lor_limb; [split; [lia|apply Z.pow_pos_nonneg; lia]|exact Hx]).
  destruct (lor_fold_zero xs 0 (Z.le_refl 0)) as (V0 & VZ). { intros x Hi. rewrite Forall_forall in Hx. apply Hx in Hi. destruct Hi. assumption. } fold v in V0, VZ.
  assert (VV : v = 0 <-> val xs = 0).
  { rewrite VZ. clear - Hx Hw. split.
    - intros (_ & H). induction xs as [|x l IH]; [reflexivity|]. inversion Hx; subst. rewrite val_cons, IH, (H x (or_introl eq_refl)) by (assumption || intros y Hy; apply H; right; exact Hy). ring.
    - intros E. split; [reflexivity|]. induction xs as [|x l IH]; [intros y []|]. inversion Hx; subst. rewrite val_cons in E. pose proof (val_range w Hw l H2) as R. destruct H1 as [P1 P2]. pose proof (LB_ge2 w Hw).
      assert (Q : 0 <= LB w * dval (LB w) l) by (apply Z.mul_nonneg_nonneg; lia). assert (dval (LB w) l = 0) by (destruct (Z.eq_mul_0 (LB w) (dval (LB w) l)) as [A _]; destruct (A ltac:(lia)); lia). intros y [Hy|Hy]; [lia|]. apply IH; assumption. }
  set (u := Z.lor (Z.shiftr v 1) (Z.land v 1)). assert (U : 0 <= u < 2 ^ (w - 1) /\ (u = 0 <-> v = 0)).
  { destruct Lv as [_ L2]. unfold LB in L2. unfold u. split.
    - assert (S1 : 0 <= Z.shiftr v 1 < 2 ^ (w - 1)). { rewrite Z.shiftr_div_pow2 by lia. change (2 ^ 1) with 2. split; [apply Z.div_pos; lia|]. apply Z.div_lt_upper_bound; [lia|]. rewrite <- Z.pow_succ_r by lia. replace (Z.succ (w - 1)) with w by lia. exact L2. }
      assert (S2 : 0 <= Z.land v 1 < 2). { change 1 with (Z.ones 1). rewrite Z.land_ones by lia. apply Z.mod_pos_bound. reflexivity. }
      split; [apply Z.lor_nonneg; lia|]. destruct (Z.eq_dec (Z.lor (Z.shiftr v 1) (Z.land v 1)) 0) as [E|E]; [rewrite E; apply Z.pow_pos_nonneg; lia|].
      assert (0 <= Z.lor (Z.shiftr v 1) (Z.land v 1)) by (apply Z.lor_nonneg; lia). apply Z.log2_lt_pow2; [lia|]. rewrite Z.log2_lor by lia. apply Z.max_lub_lt.
      + destruct (Z.eq_dec (Z.shiftr v 1) 0) as [Z0|Z0]; [rewrite Z0; cbn; lia|apply Z.log2_lt_pow2; lia].
      + assert (Q : Z.land v 1 = 0 \/ Z.land v 1 = 1) by lia. destruct Q as [Q|Q]; rewrite Q; cbn; lia.
    - rewrite Z.lor_eq_0_iff, Z.shiftr_div_pow2 by lia. change (2 ^ 1) with 2. change 1 with (Z.ones 1). rewrite Z.land_ones by lia. change (2 ^ 1) with 2. pose proof (Z.div_mod v 2 ltac:(lia)). split; [lia|intros E; rewrite E; split; reflexivity]. }
  destruct U as (U1 & U2). assert (PB : LB w = 2 * 2 ^ (w - 1)) by (unfold LB; rewrite <- Z.pow_succ_r by lia; f_equal; lia). rewrite Z.shiftr_div_pow2 by lia. unfold tr. set (e := val xs =? 0). assert (Ee : e = (val xs =? 0)) by reflexivity. clearbody e. rewrite PB. rewrite Ee. clear e Ee. set (H := 2 ^ (w - 1)) in *. destruct (Z.eqb_spec (val xs) 0) as [E|E]; cbn [Z.b2z].
  - apply VV in E. apply U2 in E. rewrite E. rewrite <- (Z.mod_unique (0 - 1) (2 * H) (-1) (2 * H - 1)) by lia. symmetry. apply (Z.div_unique _ _ 1 (H - 1)); lia.
  - assert (u <> 0) by (intros F; apply E, VV, U2, F). rewrite Z.mod_small by lia. apply Z.div_small. lia.
Qed.
Lemma sec_invert_spec : forall xs ms, 4 < w -> (w <= 48 \/ w = 64) -> limbs xs -> limbs ms -> ms <> [] -> last ms 0 <> 0 -> Z.odd (nth 0 ms 0) = true -> (length xs <= length ms)%nat -> 3 <= val ms ->
  exists z, mpn_sec_invert w xs ms = Ok (z, Z.b2z (negb (val z =? 0))) /\ length z = length ms /\ limbs z /\ val z = (val xs ^ (val ms - 2)) mod val ms.
Proof.
  intros xs ms W4 W64 Hx Hms Hne Hl Ho Lx M3. unfold mpn_sec_invert. pose proof (n_pos ms Hne) as Np. rewrite last_nth by exact Hne. pose proof (LB_ge2 w Hw) as B2. assert (BG : 16 < LB w). { unfold LB. change 16 with (2 ^ 4). apply Z.pow_lt_mono_r; lia. }
  destruct (Nat.eqb_spec (length ms) 0) as [E|_]; [lia|]. destruct (Z.eqb_spec (last ms 0) 0) as [E|_]; [contradiction|]. rewrite Ho. cbn [orb negb].
  destruct ((length ms =? 1)%nat && (nth 0 ms 0 =? 1)) eqn:E1.
  { exfalso. apply andb_true_iff in E1. destruct E1 as [E1 E2]. apply Nat.eqb_eq in E1. apply Z.eqb_eq in E2. destruct ms as [|h [|? ?]]; try discriminate. cbn [nth] in E2. subst h. rewrite val_cons in M3. cbn [dval] in M3. lia. }
  pose proof (sub_1_spec w Hw ms 2 Hms ltac:(split; lia) ltac:(intros E; contradiction)) as S. destruct (mpn_sub_1 w ms 2) as [ys c]. destruct S as (S1 & S2 & S3 & S4). cbn [fst].
  pose proof (val_range w Hw ys S2) as Ry. pose proof (val_range w Hw ms Hms) as Rm. rewrite S1 in Ry. assert (C0 : c = 0 \/ c = 1) by (destruct S3; lia). assert (Vy : val ys = val ms - 2) by (destruct C0 as [C|C]; rewrite C in S4; lia).
  set (yn := (length ms - Nat.b2n (nth (length ms - 1) ys 0%Z =? 0)%Z)%nat). assert (VF : val (firstn yn ys) = val ms - 2).
  { rewrite <- Vy. unfold yn. destruct (Z.eqb_spec (nth (length ms - 1) ys 0) 0) as [E|E]; cbn [Nat.b2n].
    - rewrite <- (firstn_all ys) at 2. replace (length ys) with (S (length ms - 1)) by lia. rewrite (val_firstn_S w) by lia. rewrite E, Z.mul_0_r, Z.add_0_r. reflexivity.
    - rewrite Nat.sub_0_r, <- S1, firstn_all. reflexivity. }
  destruct (sec_powm_spec w W4 xs (firstn yn ys) ms Hx ltac:(apply Forall_firstn; exact S2) Hms Hne Hl Ho W64 Lx) as (z & Ez & Lz & Hz & Vz). rewrite Ez. cbn [bind]. rewrite sec_zero_p_spec by (assumption || lia).
  exists z. split; [|split; [exact Lz|split; [exact Hz|rewrite Vz, VF; reflexivity]]]. destruct (val z =? 0); reflexivity.
Qed.
End w.
