(* Modular exponentiation on limb arrays is x^y mod m. *)
From Coq Require Import Zpow_facts Znumtheory.
From Verif.Base Require Import Prelude.
From Verif.Model Require Import Encoding Hash Mpn Mpz MpnMod.
From Verif.Proof Require Import MpnProof MpnShift MpnDiv MpzProof MpzOps MpzBits MpzLogic MpnModProof MpnPow.

Definition cong (m a b : Z) : Prop := exists q, a = b + q * m.
Lemma cong_refl : forall m a, cong m a a.
Proof. intros m a. exists 0. ring. Qed.
Lemma cong_mod : forall m a b, m <> 0 -> cong m a b -> a mod m = b mod m.
Proof. intros m a b Hm (q & E). rewrite E. apply Z.mod_add. exact Hm. Qed.
Lemma mod_cong : forall m a b, m <> 0 -> a mod m = b mod m -> cong m a b.
Proof. intros m a b Hm E. exists (a / m - b / m). pose proof (Z.div_mod a m Hm) as A. pose proof (Z.div_mod b m Hm) as C. rewrite E in A. rewrite Z.mul_sub_distr_r. lia. Qed.
Lemma cong_sym : forall m a b, cong m a b -> cong m b a.
Proof. intros m a b (q & E). exists (- q). rewrite E. ring. Qed.
Lemma cong_trans : forall m a b c, cong m a b -> cong m b c -> cong m a c.
Proof. intros m a b c (q & E) (r & F). exists (q + r). rewrite E, F. ring. Qed.
Lemma cong_mul : forall m a b c d, cong m a b -> cong m c d -> cong m (a * c) (b * d).
Proof. intros m a b c d (q & E) (r & F). exists (q * d + b * r + q * r * m). rewrite E, F. ring. Qed.
Lemma cong_cancel : forall m n a b, rel_prime m n -> cong m (n * a) (n * b) -> cong m a b.
Proof.
  intros m n a b R (q & E). assert (D : (m | n * (a - b))) by (exists q; rewrite Z.mul_sub_distr_l, E; ring).
  apply Gauss in D; [|exact R]. destruct D as (c & D). exists c. lia.
Qed.

Section w.
Variable w : Z.
Hypothesis W4 : 4 < w.
Notation B := (LB w).
Notation limb := (below (LB w)).
Notation limbs := (Forall (below (LB w))).
Notation val := (dval (LB w)).
Let Hw : 0 < w. Proof. lia. Qed.

Lemma odd_rel_prime : forall m k, 0 <= k -> Z.odd m = true -> rel_prime m (B ^ k).
Proof.
  intros m k Hk Ho. unfold LB. rewrite <- Z.pow_mul_r by lia. apply rel_prime_Zpower_r; [apply Z.mul_nonneg_nonneg; lia|]. apply rel_prime_sym, prime_rel_prime; [apply prime_2|].
  intros (q & E). rewrite E, Z.odd_mul, andb_false_r in Ho. discriminate.
Qed.
Lemma val_odd : forall ms, limbs ms -> Z.odd (val ms) = Z.odd (nth 0 ms 0).
Proof.
  intros [|m ms] _; [reflexivity|]. rewrite val_cons. cbn [nth]. rewrite Z.odd_add, Z.odd_mul. unfold LB. replace (2 ^ w) with (2 * 2 ^ (w - 1)) by (rewrite <- Z.pow_succ_r by lia; f_equal; lia).
  rewrite Z.odd_mul. change (Z.odd 2) with false. cbn [andb]. apply xorb_false_r.
Qed.
Lemma set1_spec : forall n, (0 < n)%nat -> length (mpn_set_1 n 1) = n /\ limbs (mpn_set_1 n 1) /\ val (mpn_set_1 n 1) = 1.
Proof.
  intros [|n] Hn; [lia|]. cbn [mpn_set_1]. split; [cbn [length]; rewrite repeat_length; reflexivity|]. split.
  - constructor; [|apply repeat0_limbs; lia]. pose proof (LB_ge2 w Hw). split; lia.
  - rewrite val_cons, repeat0_val. ring.
Qed.
Lemma pad_spec : forall xs n, limbs xs -> (length xs <= n)%nat -> length (xs ++ repeat 0 (n - length xs)) = n /\ limbs (xs ++ repeat 0 (n - length xs)) /\ val (xs ++ repeat 0 (n - length xs)) = val xs.
Proof.
  intros xs n Hx L. split; [rewrite app_length, repeat_length; lia|]. split; [apply Forall_app; split; [exact Hx|apply repeat0_limbs; lia]|]. rewrite val_app, repeat0_val. ring.
Qed.
Lemma last_nth : forall (ms : list Z), ms <> [] -> nth (length ms - 1) ms 0 = last ms 0.
Proof. intros ms H. destruct (exists_last H) as (l & x & E). subst ms. rewrite last_last, app_length. cbn [length]. rewrite app_nth2 by lia. replace (length l + 1 - 1 - length l)%nat with 0%nat by lia. reflexivity. Qed.

Section m.
Variable ms : list Z.
Hypothesis Hms : limbs ms.
Hypothesis Hne : ms <> [].
Hypothesis Hl : last ms 0 <> 0.
Notation n := (length ms).
Notation N := (B ^ Z.of_nat (length ms)).
Notation m := (val ms).

Lemma n_pos : (0 < length ms)%nat. Proof. clear - Hne. destruct ms; [contradiction|cbn [length]; lia]. Qed.
Lemma m_ge : 1 <= B ^ (Z.of_nat n - 1) <= m.
Proof.
  destruct (exists_last Hne) as (l & x & E). pose proof Hms as H. rewrite E in H, Hl |- *. rewrite last_last in Hl. apply Forall_app in H. destruct H as [H1 H2]. inversion H2; subst. destruct H3.
  rewrite app_length. cbn [length]. replace (Z.of_nat (length l + 1) - 1) with (Z.of_nat (length l)) by lia. rewrite val_snoc. pose proof (val_range w Hw l H1). pose proof (Bpow_pos w Hw (length l)).
  pose proof (Z.mul_le_mono_nonneg_l 1 x (B ^ Z.of_nat (length l)) ltac:(lia) ltac:(lia)). lia.
Qed.
Lemma m_rng : 0 < m < N.
Proof. pose proof m_ge. pose proof (val_range w Hw ms Hms). lia. Qed.

Definition vec (l : list Z) : Prop := length l = n /\ limbs l.

Lemma one_le : forall T q, 0 <= q < N -> forall v, 0 <= v < N -> N * T = v + q * m -> T <= m.
Proof.
  intros T q Hq v Hv E. pose proof m_rng as M. destruct (Z_le_gt_dec T m) as [L|L]; [exact L|exfalso].
  pose proof (Z.mul_le_mono_nonneg_l (m + 1) T N ltac:(lia) ltac:(lia)) as A. pose proof (Z.mul_le_mono_nonneg_r q (N - 1) m ltac:(lia) ltac:(lia)) as C.
  rewrite Z.mul_add_distr_l, Z.mul_1_r in A. rewrite Z.mul_sub_distr_r in C. lia.
Qed.

Variable k : Z.
Hypothesis Hk : (nth 0 ms 0 * k) mod B = B - 1.

Lemma montmul_spec : forall xs ys, vec xs -> vec ys ->
  exists z, mpn_montmul w xs ys ms k = Ok z /\ vec z /\ cong m (N * val z) (val xs * val ys).
Proof.
  intros xs ys (Lx & Hx) (Ly & Hy). pose proof m_rng as M. destruct (montmul_inner_spec w Hw xs ys ms k Hx Hy Hms Lx Ly Hne ltac:(lia) Hk) as (t & c & E & Lt & Ht & Hc & R & q & Hq & EQ).
  unfold mpn_montmul. rewrite E. cbn [bind fst snd]. pose proof (val_range w Hw xs Hx) as Rx. rewrite Lx in Rx. pose proof (val_range w Hw t Ht) as Rt. rewrite Lt in Rt. destruct (Z.eqb_spec c 0) as [C|C]; cbn [negb].
  - exists t. split; [reflexivity|]. split; [split; assumption|]. exists q. rewrite <- EQ, C. ring.
  - pose proof (mpn_sub_n_spec w Hw t ms Ht Hms Lt) as S. destruct (mpn_sub_n w t ms) as [z cz]. destruct S as (S1 & S2 & S3 & _). cbn [fst]. exists z. split; [reflexivity|]. split; [split; [congruence|exact S2]|].
    assert (c = 1) by (destruct Hc; lia). subst c. rewrite Lt in S3. assert (Z1 : val z = val t + N - m) by (rewrite S3; symmetry; apply (Z.mod_unique _ _ (-1)); lia).
    exists (q - N). rewrite Z1. rewrite Z.mul_1_r in EQ. rewrite Z.mul_sub_distr_l, EQ. ring.
Qed.
Lemma montmul_one : forall xs, vec xs -> exists z, mpn_montmul w xs (mpn_set_1 n 1) ms k = Ok z /\ vec z /\ val z <= m /\ cong m (N * val z) (val xs).
Proof.
  intros xs (Lx & Hx). pose proof m_rng as M. destruct (set1_spec n n_pos) as (O1 & O2 & O3). destruct (montmul_inner_spec w Hw xs (mpn_set_1 n 1) ms k Hx O2 Hms Lx O1 Hne ltac:(lia) Hk) as (t & c & E & Lt & Ht & Hc & R & q & Hq & EQ).
  unfold mpn_montmul. rewrite E. cbn [bind fst snd]. pose proof (val_range w Hw xs Hx) as Rx. rewrite Lx in Rx. pose proof (val_range w Hw t Ht) as Rt. rewrite Lt in Rt. rewrite O3, Z.mul_1_r in EQ.
  pose proof (one_le _ q Hq (val xs) Rx EQ) as T1. assert (C : c = 0 \/ c = 1) by (destruct Hc; lia). destruct C as [C|C]; subst c; [|exfalso; rewrite Z.mul_1_r in T1; lia]. rewrite Z.mul_0_r, Z.add_0_r in *. exists t. split; [reflexivity|]. split; [split; assumption|]. split; [exact T1|]. exists q. exact EQ.
Qed.
Lemma sec_montmul_spec : forall xs ys, vec xs -> vec ys ->
  exists z, mpn_sec_montmul w xs ys ms k = Ok z /\ vec z /\ cong m (N * val z) (val xs * val ys) /\ (val xs <= m -> val z < m) /\ (val ys = 1 -> val z < m).
Proof.
  intros xs ys (Lx & Hx) (Ly & Hy). pose proof m_rng as M. destruct (montmul_inner_spec w Hw xs ys ms k Hx Hy Hms Lx Ly Hne ltac:(lia) Hk) as (t & c & E & Lt & Ht & Hc & R & q & Hq & EQ).
  unfold mpn_sec_montmul. rewrite E. cbn [bind fst snd]. pose proof (val_range w Hw xs Hx) as Rx. rewrite Lx in Rx. pose proof (val_range w Hw t Ht) as Rt. rewrite Lt in Rt.
  pose proof (reduce_weak_spec w Hw t ms c Ht Hms Lt Hc) as S. cbv zeta in S. specialize (S ltac:(lia)). destruct (mpn_reduce_weak w t ms c) as [z b]. destruct S as (S1 & S2 & _ & S3). cbn [fst]. exists z.
  split; [reflexivity|]. split; [split; assumption|]. set (T := val t + N * c) in *. split; [|split].
  - rewrite S3. destruct (m <=? T); [exists (q - N); rewrite Z.mul_sub_distr_l|exists q]; rewrite EQ; ring.
  - intros L. rewrite S3. destruct (Z.leb_spec m T); lia.
  - intros L. rewrite L, Z.mul_1_r in EQ. pose proof (one_le T q Hq (val xs) Rx EQ). rewrite S3. destruct (Z.leb_spec m T); lia.
Qed.
End m.

(* ---- parameters ---- *)
Lemma mont_spec : forall ms, limbs ms -> ms <> [] -> last ms 0 <> 0 -> Z.odd (nth 0 ms 0) = true -> (w <= 48 \/ w = 64) ->
  exists k rr, mpn_mont w ms = Ok (k, rr) /\ (nth 0 ms 0 * k) mod B = B - 1 /\ length rr = length ms /\ limbs rr /\
  val rr = (B ^ Z.of_nat (length ms) * B ^ Z.of_nat (length ms)) mod val ms.
Proof.
  intros ms Hms Hne Hl Ho W64. unfold mpn_mont. pose proof (n_pos ms Hne) as Np. destruct (Nat.eqb_spec (length ms) 0) as [E|_]; [lia|].
  pose proof (LB_ge2 w Hw) as B2. assert (L0 : limb (nth 0 ms 0)) by (apply nth_limb; [exact Hw|exact Hms]). destruct (inv_mod_spec w Hw _ L0 Ho W64) as (i & Ei & Li & Ri). rewrite Ei. cbn [bind].
  assert (HL : limbs (repeat 0 (length ms * 2) ++ [1])) by (apply Forall_app; split; [apply repeat0_limbs; lia|constructor; [split; lia|constructor]]).
  destruct (mod_spec w Hw (repeat 0 (length ms * 2) ++ [1]) ms HL Hms Hne Hl ltac:(rewrite app_length, repeat_length; cbn [length]; lia)) as (r & Er & Lr & Hr & Vr). rewrite Er. cbn [bind].
  exists (tr w (- i)), r. split; [reflexivity|]. split; [|split; [exact Lr|split; [exact Hr|]]].
  - unfold tr. rewrite Zmult_mod_idemp_r. replace (nth 0 ms 0 * - i) with (- (nth 0 ms 0 * i)) by ring. symmetry. apply (Z.mod_unique _ _ (- ((nth 0 ms 0 * i) / B) - 1)); [lia|].
    pose proof (Z.div_mod (nth 0 ms 0 * i) B ltac:(lia)) as D. rewrite Ri in D. rewrite D at 1. ring.
  - rewrite Vr. f_equal. rewrite val_snoc, repeat0_val, repeat_length. replace (Z.of_nat (length ms * 2)) with (Z.of_nat (length ms) + Z.of_nat (length ms)) by lia. rewrite Z.pow_add_r by lia. ring.
Qed.

Lemma pow_add_nn : forall X e f, 0 <= e -> 0 <= f -> X ^ (e + f) = X ^ e * X ^ f.
Proof. intros X e f He Hf. apply Z.pow_add_r; assumption. Qed.

(* ---- division based ---- *)
Lemma div_powm_spec : forall xs ys ms, limbs xs -> limbs ms -> ms <> [] -> last ms 0 <> 0 -> (length xs <= length ms)%nat -> normal w ys -> ys <> [] ->
  exists z, mpn_div_powm w xs ys ms = Ok z /\ length z = length ms /\ limbs z /\ val z = (val xs ^ val ys) mod val ms.
Proof.
  intros xs ys ms Hx Hms Hne Hl Lx Ny Yn. unfold mpn_div_powm. cbv zeta. pose proof (m_rng ms Hms Hne Hl) as M. destruct (pad_spec xs (length ms) Hx Lx) as (P1 & P2 & P3). set (a := xs ++ repeat 0 (length ms - length xs)) in *.
  set (P := fun (l : list Z) (e : Z) => vec ms l /\ cong (val ms) (val l) (val xs ^ e)).
  destruct (slide_pow_spec w W4 (fun x y => mpn_mod w (mpn_mul w x y) ms) (fun x => bind (mpn_sqr w x) (fun s => mpn_mod w s ms)) P) with (ys := ys) (a := a) as (r & Er & (Lr & Hr) & Cr).
  - intros u v e f He Hf ((Lu & Hu) & Cu) ((Lv & Hv) & Cv). destruct (mpn_mul_spec w Hw u v Hu Hv) as (A1 & A2 & A3).
    destruct (mod_spec w Hw (mpn_mul w u v) ms A2 Hms Hne Hl ltac:(lia)) as (c & Ec & Lc & Hc & Vc). exists c. split; [exact Ec|]. split; [split; assumption|].
    apply (cong_trans _ _ (val u * val v)); [|rewrite pow_add_nn by assumption; apply cong_mul; assumption]. apply mod_cong; [lia|]. rewrite Vc, A3. apply Z.mod_mod. lia.
  - intros u e He ((Lu & Hu) & Cu). pose proof (mpn_sqr_spec w Hw u Hu ltac:(lia)) as S. destruct (mpn_sqr w u) as [s| |]; try contradiction. destruct S as (A1 & A2 & A3). cbn [bind].
    destruct (mod_spec w Hw s ms A2 Hms Hne Hl ltac:(lia)) as (c & Ec & Lc & Hc & Vc). exists c. split; [exact Ec|]. split; [split; assumption|].
    apply (cong_trans _ _ (val u * val u)); [|replace (2 * e) with (e + e) by lia; rewrite pow_add_nn by assumption; apply cong_mul; assumption]. apply mod_cong; [lia|]. rewrite Vc, A3. apply Z.mod_mod. lia.
  - exact Ny.
  - exact Yn.
  - split; [split; assumption|]. rewrite P3, Z.pow_1_r. apply cong_refl.
  - rewrite Er. cbn [bind]. pose proof (mpn_cmp_full w Hw r ms Hr Hms Lr) as C. rewrite Lr in C. rewrite C. pose proof (val_range w Hw r Hr) as Rr. apply cong_mod in Cr; [|lia]. destruct (Z.leb_spec 0 (Z.sgn (val r - val ms))) as [G|G].
    + destruct (mod_spec w Hw r ms Hr Hms Hne Hl ltac:(rewrite Lr; apply le_n)) as (c & Ec & Lc & Hc & Vc). exists c. split; [exact Ec|]. split; [exact Lc|]. split; [exact Hc|]. congruence.
    + exists r. split; [reflexivity|]. split; [exact Lr|]. split; [exact Hr|]. rewrite <- Cr. symmetry. apply Z.mod_small. clear - G Rr. lia.
Qed.

(* ---- Montgomery ---- *)
Lemma mont_powm_spec : forall xs ys ms, limbs xs -> limbs ms -> ms <> [] -> last ms 0 <> 0 -> Z.odd (nth 0 ms 0) = true -> (w <= 48 \/ w = 64) -> (length xs <= length ms)%nat -> normal w ys -> ys <> [] ->
  exists z, mpn_mont_powm w xs ys ms = Ok z /\ length z = length ms /\ limbs z /\ val z = (val xs ^ val ys) mod val ms.
Proof.
  intros xs ys ms Hx Hms Hne Hl Ho W64 Lx Ny Yn. unfold mpn_mont_powm. cbv zeta. pose proof (m_rng ms Hms Hne Hl) as M. destruct (pad_spec xs (length ms) Hx Lx) as (P1 & P2 & P3). set (a := xs ++ repeat 0 (length ms - length xs)) in *.
  destruct (mont_spec ms Hms Hne Hl Ho W64) as (k & rr & Em & Hk & Lrr & Hrr & Vrr). rewrite Em. cbn [bind].
  assert (RP : rel_prime (val ms) (B ^ Z.of_nat (length ms))) by (apply odd_rel_prime; [lia|rewrite val_odd; assumption]). set (N := B ^ Z.of_nat (length ms)) in *.
  set (P := fun (l : list Z) (e : Z) => vec ms l /\ cong (val ms) (val l) (val xs ^ e * N)).
  destruct (montmul_spec ms Hms Hne Hl k Hk a rr (conj P1 P2) (conj Lrr Hrr)) as (a1 & Ea & Va & Ca). fold N in Ca. rewrite Ea. cbn [bind].
  assert (Pa : P a1 1).
  { split; [exact Va|]. apply (cong_cancel _ N); [exact RP|]. eapply cong_trans; [exact Ca|]. rewrite P3, Z.pow_1_r. replace (N * (val xs * N)) with (val xs * (N * N)) by ring. apply cong_mul; [apply cong_refl|].
    apply mod_cong; [lia|]. rewrite Vrr. apply Z.mod_mod. lia. }
  assert (MM : forall u v e f, 0 <= e -> 0 <= f -> P u e -> P v f -> exists c, mpn_montmul w u v ms k = Ok c /\ P c (e + f)).
  { intros u v e f He Hf (Vu & Cu) (Vv & Cv). destruct (montmul_spec ms Hms Hne Hl k Hk u v Vu Vv) as (c & Ec & Vc & Cc). fold N in Cc. exists c. split; [exact Ec|]. split; [exact Vc|].
    apply (cong_cancel _ N); [exact RP|]. eapply cong_trans; [exact Cc|]. rewrite pow_add_nn by assumption. replace (N * (val xs ^ e * val xs ^ f * N)) with ((val xs ^ e * N) * (val xs ^ f * N)) by ring. apply cong_mul; assumption. }
  destruct (slide_pow_spec w W4 (fun x y => mpn_montmul w x y ms k) (fun x => mpn_montmul w x x ms k) P MM) with (ys := ys) (a := a1) as (r & Er & Vr & Cr).
  - intros u e He Pu. replace (2 * e) with (e + e) by lia. apply MM; assumption.
  - exact Ny.
  - exact Yn.
  - exact Pa.
  - rewrite Er. cbn [bind]. destruct (montmul_one ms Hms Hne Hl k Hk r Vr) as (z & Ez & (Lz & Hz) & Bz & Cz). fold N in Cz. rewrite Ez. cbn [bind].
    assert (CC : cong (val ms) (val z) (val xs ^ val ys)). { apply (cong_cancel _ N); [exact RP|]. eapply cong_trans; [exact Cz|]. rewrite Z.mul_comm. exact Cr. }
    apply cong_mod in CC; [|lia]. pose proof (mpn_cmp_full w Hw z ms Hz Hms Lz) as C. rewrite Lz in C. rewrite C. pose proof (val_range w Hw z Hz) as Rz. destruct (Z.leb_spec 0 (Z.sgn (val z - val ms))) as [G|G].
    + assert (Ez0 : val z = val ms) by (clear - G Bz; lia). pose proof (mpn_sub_n_spec w Hw z ms Hz Hms Lz) as S. destruct (mpn_sub_n w z ms) as [s cz]. destruct S as (S1 & S2 & S3 & _). cbn [fst]. rewrite Ez0, Z.sub_diag, Z.mod_0_l in S3 by (apply Z.pow_nonzero; pose proof (LB_ge2 w Hw); lia).
      assert (Ls : length s = length ms) by congruence. pose proof (mpn_cmp_full w Hw s ms S2 Hms Ls) as C2. rewrite Ls in C2. rewrite C2, S3. destruct (Z.leb_spec 0 (Z.sgn (0 - val ms))) as [G2|G2]; [clear - G2 M; lia|].
      exists s. split; [reflexivity|]. split; [exact Ls|]. split; [exact S2|]. rewrite S3, <- CC, Ez0. symmetry. apply Z.mod_same. lia.
    + exists z. split; [reflexivity|]. split; [exact Lz|]. split; [exact Hz|]. rewrite <- CC. symmetry. apply Z.mod_small. clear - G Rz. lia.
Qed.

Lemma strip_normal : forall ys, limbs ys -> normal w (firstn (mpn_strip ys (length ys)) ys) /\ val (firstn (mpn_strip ys (length ys)) ys) = val ys.
Proof. intros ys Hy. exact (stripped_spec w Hw ys Hy). Qed.

Lemma powm_spec : forall xs ys ms, limbs xs -> limbs ys -> limbs ms -> ms <> [] -> last ms 0 <> 0 -> (w <= 48 \/ w = 64) -> (length xs <= length ms)%nat ->
  exists z, mpn_powm w xs ys ms = Ok z /\ length z = length ms /\ limbs z /\ val z = (val xs ^ val ys) mod val ms.
Proof.
  intros xs ys ms Hx Hy Hms Hne Hl W64 Lx. unfold mpn_powm. pose proof (n_pos ms Hne) as Np. pose proof (m_rng ms Hms Hne Hl) as M. rewrite last_nth by exact Hne.
  destruct (Nat.eqb_spec (length ms) 0) as [E|_]; [lia|]. destruct (Z.eqb_spec (last ms 0) 0) as [E|_]; [contradiction|]. cbn [orb]. destruct (Nat.ltb_spec (length ms) (length xs)) as [L|_]; [lia|].
  destruct (strip_normal ys Hy) as (Ny & Vy). set (y := firstn (mpn_strip ys (length ys)) ys) in *.
  destruct ((length ms =? 1)%nat && (nth 0 ms 0 =? 1)) eqn:E1.
  - apply andb_true_iff in E1. destruct E1 as [E1 E2]. apply Nat.eqb_eq in E1. apply Z.eqb_eq in E2. exists (repeat 0 (length ms)). split; [reflexivity|]. split; [apply repeat_length|]. split; [apply repeat0_limbs; lia|].
    rewrite repeat0_val. replace (val ms) with 1; [symmetry; apply Z.mod_1_r|]. destruct ms as [|h [|? ?]]; try discriminate. cbn [nth] in E2. subst h. rewrite val_cons. cbn [dval]. ring.
  - assert (M2 : 2 <= val ms).
    { destruct (Z_le_gt_dec 2 (val ms)) as [G|G]; [exact G|exfalso]. assert (V1 : val ms = 1) by lia. pose proof (m_ge ms Hms Hne Hl) as MG. destruct (Nat.eqb_spec (length ms) 1) as [L1|L1]; cbn [andb] in E1.
      - destruct ms as [|h [|? ?]]; try discriminate. rewrite val_cons in V1. cbn [dval nth] in V1, E1. replace h with 1 in E1 by lia. discriminate.
      - pose proof (Bpow_le w Hw 1 (length ms - 1) ltac:(lia)) as BB. change (Z.of_nat 1) with 1 in BB. rewrite Z.pow_1_r in BB. pose proof (LB_ge2 w Hw). replace (Z.of_nat (length ms - 1)) with (Z.of_nat (length ms) - 1) in BB by lia. lia. }
    destruct (Nat.eqb_spec (length y) 0) as [Y0|Y0].
    + destruct (set1_spec (length ms) Np) as (O1 & O2 & O3). exists (mpn_set_1 (length ms) 1). split; [reflexivity|]. split; [exact O1|]. split; [exact O2|]. rewrite O3. destruct y; [|discriminate]. rewrite <- Vy. cbn [dval]. rewrite Z.pow_0_r. symmetry. apply Z.mod_small. lia.
    + assert (Yn : y <> []) by (intros E; rewrite E in Y0; apply Y0; reflexivity). pose proof (normal_pos w Hw y Ny Yn) as PY. rewrite <- Vy. destruct (Nat.eqb_spec (length xs) 0) as [X0|X0].
      * exists (repeat 0 (length ms)). split; [reflexivity|]. split; [apply repeat_length|]. split; [apply repeat0_limbs; lia|]. rewrite repeat0_val. destruct xs; [|discriminate]. cbn [dval]. rewrite Z.pow_0_l by lia. symmetry. apply Z.mod_0_l. lia.
      * destruct ((1 <? length y)%nat && Z.odd (nth 0 ms 0)) eqn:E2.
        -- apply andb_true_iff in E2. destruct E2 as [_ E2]. apply mont_powm_spec; assumption.
        -- apply div_powm_spec; assumption.
Qed.

(* ---- fixed window ---- *)
Lemma tab_select_spec : forall wnd b s n, (forall e, In e wnd -> length e = n /\ limbs e) -> length s = n -> limbs s -> length wnd = 16%nat -> 0 <= b < 16 ->
  tab_select w wnd b s = nth (Z.to_nat b) wnd [].
Proof.
  intros wnd b s n He Ls Hs L16 Hb. unfold tab_select.
  assert (G : forall l off s, length s = n -> limbs s -> (forall e, In e l -> length e = n /\ limbs e) ->
    fold_left (fun s jt => mpn_cnd_select w s (snd jt) (Z.of_nat (fst jt) =? b)) (combine (seq off (length l)) l) s = if (off <=? Z.to_nat b)%nat && (Z.to_nat b <? off + length l)%nat then nth (Z.to_nat b - off) l [] else s).
  { induction l as [|e l IH]; intros off s0 L0 H0 HE.
    - cbn [length seq combine fold_left]. destruct (Nat.leb_spec off (Z.to_nat b)); destruct (Nat.ltb_spec (Z.to_nat b) (off + 0)); try reflexivity; lia.
    - cbn [length seq combine fold_left fst snd]. destruct (HE e (or_introl eq_refl)) as [Le Hle]. rewrite cnd_select_spec by (assumption || congruence).
      destruct (Z.eqb_spec (Z.of_nat off) b) as [E|E].
      + rewrite IH by (auto || intros x Hx; apply HE; right; exact Hx). subst b. rewrite Nat2Z.id, Nat.sub_diag. destruct (Nat.leb_spec (S off) off); [lia|]. cbn [andb]. destruct (Nat.leb_spec off off); [|lia]. destruct (Nat.ltb_spec off (off + S (length l))); [|lia]. reflexivity.
      + rewrite IH by (auto || intros x Hx; apply HE; right; exact Hx). assert (off <> Z.to_nat b) by lia. destruct (Nat.leb_spec (S off) (Z.to_nat b)); destruct (Nat.leb_spec off (Z.to_nat b)); try lia; cbn [andb]; [|reflexivity].
        replace (S off + length l)%nat with (off + S (length l))%nat by lia. destruct (Nat.ltb_spec (Z.to_nat b) (off + S (length l))); [|reflexivity]. replace (Z.to_nat b - off)%nat with (S (Z.to_nat b - S off)) by lia. reflexivity. }
  rewrite <- L16. rewrite G by assumption. rewrite L16. cbn [Nat.leb andb]. destruct (Nat.ltb_spec (Z.to_nat b) (0 + 16)) as [L|L]; [|lia]. rewrite Nat.sub_0_r. reflexivity.
Qed.

Lemma sec_powm_spec : forall xs ys ms, limbs xs -> limbs ys -> limbs ms -> ms <> [] -> last ms 0 <> 0 -> Z.odd (nth 0 ms 0) = true -> (w <= 48 \/ w = 64) -> (length xs <= length ms)%nat ->
  exists z, mpn_sec_powm w xs ys ms = Ok z /\ length z = length ms /\ limbs z /\ val z = (val xs ^ val ys) mod val ms.
Proof.
  intros xs ys ms Hx Hy Hms Hne Hl Ho W64 Lx. unfold mpn_sec_powm. pose proof (n_pos ms Hne) as Np. pose proof (m_rng ms Hms Hne Hl) as M. rewrite last_nth by exact Hne.
  destruct (Nat.eqb_spec (length ms) 0) as [E|_]; [lia|]. destruct (Z.eqb_spec (last ms 0) 0) as [E|_]; [contradiction|]. rewrite Ho. cbn [orb negb]. destruct (Nat.ltb_spec (length ms) (length xs)) as [L|_]; [lia|].
  destruct (pad_spec xs (length ms) Hx Lx) as (P1 & P2 & P3). set (a := xs ++ repeat 0 (length ms - length xs)) in *. cbv zeta.
  destruct (mont_spec ms Hms Hne Hl Ho W64) as (k & rr & Em & Hk & Lrr & Hrr & Vrr). rewrite Em. cbn [bind].
  assert (RP : rel_prime (val ms) (B ^ Z.of_nat (length ms))) by (apply odd_rel_prime; [lia|rewrite val_odd; assumption]). set (N := B ^ Z.of_nat (length ms)) in *.
  set (P := fun (l : list Z) (e : Z) => vec ms l /\ cong (val ms) (val l) (val xs ^ e * N)).
  assert (CRR : cong (val ms) (val rr) (N * N)) by (apply mod_cong; [lia|]; rewrite Vrr; apply Z.mod_mod; lia).
  destruct (set1_spec (length ms) Np) as (O1 & O2 & O3).
  destruct (sec_montmul_spec ms Hms Hne Hl k Hk (mpn_set_1 (length ms) 1) rr (conj O1 O2) (conj Lrr Hrr)) as (w0 & E0 & V0 & C0 & _). fold N in C0. rewrite E0. cbn [bind].
  destruct (sec_montmul_spec ms Hms Hne Hl k Hk a rr (conj P1 P2) (conj Lrr Hrr)) as (w1 & Ew1 & V1 & C1 & _). fold N in C1. rewrite Ew1. cbn [bind].
  assert (PW0 : P w0 0). { split; [exact V0|]. apply (cong_cancel _ N); [exact RP|]. eapply cong_trans; [exact C0|]. rewrite O3, Z.pow_0_r. replace (N * (1 * N)) with (1 * (N * N)) by ring. apply cong_mul; [apply cong_refl|exact CRR]. }
  assert (PW1 : P w1 1). { split; [exact V1|]. apply (cong_cancel _ N); [exact RP|]. eapply cong_trans; [exact C1|]. rewrite P3, Z.pow_1_r. replace (N * (val xs * N)) with (val xs * (N * N)) by ring. apply cong_mul; [apply cong_refl|exact CRR]. }
  assert (MM : forall u v e f, 0 <= e -> 0 <= f -> P u e -> P v f -> exists c, mpn_sec_montmul w u v ms k = Ok c /\ P c (e + f)).
  { intros u v e f He Hf (Vu & Cu) (Vv & Cv). destruct (sec_montmul_spec ms Hms Hne Hl k Hk u v Vu Vv) as (c & Ec & Vc & Cc & _). fold N in Cc. exists c. split; [exact Ec|]. split; [exact Vc|].
    apply (cong_cancel _ N); [exact RP|]. eapply cong_trans; [exact Cc|]. rewrite pow_add_nn by assumption. replace (N * (val xs ^ e * val xs ^ f * N)) with ((val xs ^ e * N) * (val xs ^ f * N)) by ring. apply cong_mul; assumption. }
  assert (SS : forall u e, 0 <= e -> P u e -> exists c, mpn_sec_montmul w u u ms k = Ok c /\ P c (2 * e)) by (intros u e He Pu; replace (2 * e) with (e + e) by lia; apply MM; assumption).
  destruct (wnd_fill_spec (fun x y => mpn_sec_montmul w x y ms k) (fun x => mpn_sec_montmul w x x ms k) P MM SS 14 w1 w1 1 1 ltac:(lia) ltac:(lia) PW1 PW1) as (t & Et & Lt & Ht). rewrite Et. cbn [bind].
  set (wnd := w0 :: w1 :: t). assert (LW : length wnd = 16%nat) by (unfold wnd; cbn [length]; lia).
  assert (PW : forall j, (j < 16)%nat -> P (nth j wnd []) (Z.of_nat j)).
  { intros [|[|j]] Hj; unfold wnd; cbn [nth]; [exact PW0|exact PW1|]. replace (Z.of_nat (S (S j))) with (1 + Z.of_nat (S j) * 1) by lia. apply Ht. lia. }
  assert (WV : forall e, In e wnd -> length e = length ms /\ limbs e). { intros e He. apply (In_nth _ _ []) in He. destruct He as (j & Hj & Ej). rewrite LW in Hj. destruct (PW j Hj) as (Q & _). rewrite Ej in Q. exact Q. }
  set (Y := val ys). pose proof (val_range w Hw ys Hy) as RY. fold Y in RY.
  set (steps := Z.to_nat ((Z.of_nat (length ys) * w + 3) / 4)).
  assert (ST : Y / 2 ^ (4 * Z.of_nat steps) = 0).
  { apply Z.div_small. split; [lia|]. unfold LB in RY. rewrite <- Z.pow_mul_r in RY by lia. apply (Z.lt_le_trans _ (2 ^ (w * Z.of_nat (length ys)))); [lia|]. apply Z.pow_le_mono_r; [lia|]. unfold steps.
    assert (Q0 : 0 <= Z.of_nat (length ys) * w) by (apply Z.mul_nonneg_nonneg; lia). set (q := Z.of_nat (length ys) * w) in *. rewrite Z2Nat.id by (apply Z.div_pos; lia). pose proof (Z.div_mod (q + 3) 4 ltac:(lia)). pose proof (Z.mod_pos_bound (q + 3) 4 ltac:(lia)). rewrite (Z.mul_comm w). fold q. clearbody q. clear - H H0 Q0. lia. }
  assert (LOOP : forall i r s, (i <= steps)%nat -> P r (Y / 2 ^ (4 * Z.of_nat i)) -> vec ms s -> exists z, sec_steps w ms k wnd ys steps i r s = Ok z /\ P z Y).
  { induction i as [|i IH]; intros r s Hi Pr Vs.
    - cbn [sec_steps]. exists r. split; [reflexivity|]. change (4 * Z.of_nat 0) with 0 in Pr. change (2 ^ 0) with 1 in Pr. rewrite Z.div_1_r in Pr. exact Pr.
    - cbn [sec_steps]. cbv zeta. rewrite getbits_spec by (assumption || (clear; lia)). fold Y. replace (Z.of_nat i * 4) with (4 * Z.of_nat i) by (clear; lia). set (b := (Y / 2 ^ (4 * Z.of_nat i)) mod 16). pose proof (Z.mod_pos_bound (Y / 2 ^ (4 * Z.of_nat i)) 16 ltac:(lia)) as Rb. fold b in Rb.
      rewrite (tab_select_spec wnd b s (length ms)) by (assumption || apply Vs). assert (b16 : (Z.to_nat b < 16)%nat) by (clear - Rb; clearbody b; lia). pose proof (PW (Z.to_nat b) b16) as Pb. rewrite Z2Nat.id in Pb by (clear - Rb; lia). set (e := nth (Z.to_nat b) wnd []) in *.
      pose proof (bits_low Y (4 * Z.of_nat i) 4 ltac:(clear; lia) ltac:(clear; lia)) as BL. change (2 ^ 4) with 16 in BL. fold b in BL. replace (4 * Z.of_nat i + 4) with (4 * Z.of_nat (S i)) in BL by (clear; lia).
      destruct (Nat.eqb_spec (S i) steps) as [E|E]; cbn [bind].
      + apply IH; [clear - Hi; lia| |exact (proj1 Pb)]. rewrite BL. rewrite E at 1. rewrite ST, Z.mul_0_r, Z.add_0_l. exact Pb.
      + assert (D0 : 0 <= Y / 2 ^ (4 * Z.of_nat (S i))) by (apply Z.div_pos; [apply RY|apply Z.pow_pos_nonneg; clear; lia]).
        destruct (sqrs_spec (fun x y => mpn_sec_montmul w x y ms k) (fun x => mpn_sec_montmul w x x ms k) P MM SS 4 r _ D0 Pr) as (r1 & Er1 & Pr1). rewrite Er1. cbn [bind]. change (2 ^ Z.of_nat 4) with 16 in Pr1.
        assert (D1 : 0 <= 16 * (Y / 2 ^ (4 * Z.of_nat (S i)))) by (apply Z.mul_nonneg_nonneg; [discriminate|exact D0]).
        destruct (MM r1 e _ b D1 (proj1 Rb) Pr1 Pb) as (r2 & Er2 & Pr2). rewrite Er2. cbn [bind]. apply IH; [clear - Hi; lia| |exact (proj1 Pb)]. rewrite BL. exact Pr2. }
  destruct (LOOP steps w0 (repeat 0 (length ms)) (le_n _)) as (r & Er & Vr & Cr).
  { rewrite ST. exact PW0. }
  { split; [apply repeat_length|apply repeat0_limbs; lia]. }
  rewrite Er. cbn [bind]. destruct (sec_montmul_spec ms Hms Hne Hl k Hk r (mpn_set_1 (length ms) 1) Vr (conj O1 O2)) as (z & Ez & (Lz & Hz) & Cz & _ & Bz). fold N in Cz. specialize (Bz O3). exists z. split; [exact Ez|]. split; [exact Lz|]. split; [exact Hz|].
  assert (CC : cong (val ms) (val z) (val xs ^ Y)). { apply (cong_cancel _ N); [exact RP|]. eapply cong_trans; [exact Cz|]. rewrite O3, Z.mul_1_r, Z.mul_comm. rewrite Z.mul_comm in Cr. rewrite Z.mul_comm. exact Cr. }
  apply cong_mod in CC; [|lia]. rewrite <- CC. symmetry. apply Z.mod_small. pose proof (val_range w Hw z Hz) as Rz. clear - Rz Bz. lia.
Qed.
End w.
