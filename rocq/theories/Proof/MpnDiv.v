(* Division in mpi.c: the 2-by-1 reciprocal, the half-limb division, and Algorithm D. *)
From Verif.Base Require Import Prelude.
From Verif.Model Require Import Encoding Mpn.
From Verif.Proof Require Import MpnProof MpnShift.

(* integer facts *)
Lemma div_eq_bounds : forall a d q, 0 < d -> q * d <= a < (q + 1) * d -> a / d = q /\ a mod d = a - q * d.
Proof.
  intros a d q Hd H. assert (a / d = q) by (symmetry; apply Z.div_unique with (r := a - q * d); lia).
  split; [assumption|]. rewrite Z.mod_eq by lia. nia.
Qed.
Lemma lt_of_mul : forall a b c, 0 < c -> a * c < b * c -> a < b.
Proof. intros. nia. Qed.
Lemma le_of_mul : forall a b c, 0 < c -> a * c <= b * c -> a <= b.
Proof. intros. nia. Qed.

Section Mg.
(* the reciprocal division of Moller and Granlund over the integers *)
Variables B d v u1 u0 Q1 Q0 : Z.
Hypothesis HB : 2 <= B.
Hypothesis Hd : 0 <= d < B.
Hypothesis Hn : B <= 2 * d.
Hypothesis Hv : 0 <= v < B.
Hypothesis Hk : 1 <= B * B - (B + v) * d <= d.
Hypothesis Hu1 : 0 <= u1 < d.
Hypothesis Hu0 : 0 <= u0 < B.
Hypothesis HQ0 : 0 <= Q0 < B.
Hypothesis HQ : Q1 * B + Q0 = v * u1 + (u1 * B + u0).
Definition mg_r := u1 * B + u0 - (Q1 + 1) * d.
Definition mg_k := B * B - (B + v) * d.
Lemma mg_eq : B * mg_r = u1 * mg_k + u0 * (B - d) + Q0 * d - B * d.
Proof.
  unfold mg_r, mg_k. assert (E : Q1 * B * d = (v * u1 + (u1 * B + u0) - Q0) * d) by (f_equal; lia).
  transitivity (B * (u1 * B + u0) - Q1 * B * d - B * d); [ring|]. rewrite E. ring.
Qed.
Lemma mg_uk : 0 <= u1 * mg_k <= d * d - d.
Proof. fold mg_k in Hk. nia. Qed.
Lemma mg_u0 : 0 <= u0 * (B - d) <= (B - 1) * (B - d).
Proof. nia. Qed.
Lemma mg_Q1 : 0 <= Q1 < B.
Proof.
  assert (0 <= v * u1) by nia. assert (0 <= u1 * B) by nia.
  split.
  - destruct (Z_lt_dec Q1 0); [|lia]. exfalso. assert (Q1 * B <= -1 * B) by nia. lia.
  - assert (E : v * u1 + (u1 * B + u0) < B * B).
    { assert ((B + v) * u1 <= (B + v) * (d - 1)) by (apply Z.mul_le_mono_nonneg_l; lia). lia. }
    apply (lt_of_mul _ _ B); lia.
Qed.
Lemma mg_low : 0 <= mg_r + d.
Proof.
  pose proof mg_eq. pose proof mg_uk. pose proof mg_u0. assert (0 <= Q0 * d) by (apply Z.mul_nonneg_nonneg; lia).
  apply (le_of_mul _ _ B); lia.
Qed.
Lemma mg_neg : mg_r < 0 -> Q0 < mg_r + B.
Proof.
  intros H. pose proof mg_eq. pose proof mg_uk. pose proof mg_u0.
  assert (Q0 * (B - d) < B * (B - d)) by (apply Z.mul_lt_mono_pos_r; lia).
  apply (lt_of_mul _ _ B); [lia|]. lia.
Qed.
Lemma mg_big : Q0 < mg_r -> mg_r < B - d.
Proof.
  intros H. pose proof mg_eq. pose proof mg_uk. pose proof mg_u0.
  assert (Q0 * d <= (mg_r - 1) * d) by (apply Z.mul_le_mono_nonneg_r; lia).
  apply (lt_of_mul _ _ (B - d)); [lia|]. lia.
Qed.
End Mg.

Section MpnDiv.
Variable w : Z.
Hypothesis Hw : 0 < w.
Notation B := (LB w).
Notation limb := (below B).
Notation limbs := (Forall (below B)).
Notation val := (dval B).
Notation tr := (tr w).

Lemma HB2 : 2 <= B.
Proof. exact (LB_ge2 w Hw). Qed.

Definition recip (d v : Z) : Prop := 0 <= v < B /\ 1 <= B * B - (B + v) * d <= d.
Lemma inv_2by1_spec : forall d, limb d -> B <= 2 * d -> recip d (mp_inv_2by1 w d).
Proof.
  intros d Hd Hn. unfold mp_inv_2by1, mp_div. cbn [fst]. pose proof HB2 as HB. unfold below in Hd. unfold recip.
  set (n := (B - 1 - d) * B + (B - 1)). pose proof (Z.div_mod n d ltac:(lia)). pose proof (Z.mod_pos_bound n d ltac:(lia)).
  assert (Hn0 : 0 <= n) by (unfold n; nia).
  assert (0 <= n / d) by (apply Z.div_pos; lia).
  assert (En : n = B * B - B * d - 1) by (unfold n; ring).
  split; [|lia]. split; [lia|]. apply (lt_of_mul _ _ d); [lia|]. nia.
Qed.
Lemma mp_div_2by1_spec : forall u1 u0 d v, limb u0 -> limb d -> B <= 2 * d -> recip d v -> 0 <= u1 < d ->
  let '(q, r) := mp_div_2by1 w u1 u0 d v in limb q /\ 0 <= r < d /\ u1 * B + u0 = q * d + r.
Proof.
  intros u1 u0 d v Hu0 Hd Hn [Hv Hk] Hu1. pose proof HB2 as HB. unfold mp_div_2by1.
  assert (Lu1 : limb u1) by (unfold below in *; lia).
  pose proof (mp_mul_spec w Hw v u1 Hv Lu1) as M. destruct (mp_mul w v u1) as [hi lo]. destruct M as (M1 & M2 & M3 & M4 & _).
  cbv zeta.
  (* the two-limb candidate *)
  set (q0 := tr (lo + u0)). set (q1 := tr (hi + tr (u1 + Z.b2z (q0 <? u0)))).
  assert (Hq0 : 0 <= q0 < B) by (apply (tr_range w Hw)).
  assert (HQ : q1 * B + q0 = v * u1 + (u1 * B + u0) /\ 0 <= q1 < B).
  { pose proof (mp_add_spec w Hw lo u0 M2 Hu0) as A. unfold mp_add in A. fold q0 in A. destruct A as (A1 & A2 & A3).
    unfold carry in A2. unfold q1. rewrite (tr_small w (u1 + Z.b2z (q0 <? u0))) by (unfold below in *; lia).
    assert (Eq : (hi + (u1 + Z.b2z (q0 <? u0))) * B + q0 = v * u1 + (u1 * B + u0)) by lia.
    pose proof (mg_Q1 B d v u1 u0 _ q0 HB Hd Hn Hv Hk Hu1 Hu0 Hq0 Eq) as R.
    rewrite (tr_small w (hi + (u1 + Z.b2z (q0 <? u0)))) by exact R. split; [exact Eq|exact R]. }
  clearbody q1 q0. destruct HQ as (HQ & Hq1).
  assert (Glow : 0 <= mg_r B d u1 u0 q1 + d) by (apply (mg_low B d v u1 u0 q1 q0); assumption).
  assert (Gneg : mg_r B d u1 u0 q1 < 0 -> q0 < mg_r B d u1 u0 q1 + B) by (apply (mg_neg B d v u1 u0 q1 q0); assumption).
  assert (Gbig : q0 < mg_r B d u1 u0 q1 -> mg_r B d u1 u0 q1 < B - d) by (apply (mg_big B d v u1 u0 q1 q0); assumption).
  unfold below in *.
  remember (mg_r B d u1 u0 q1) as r eqn:Er. unfold mg_r in Er.
  assert (Hu : u1 * B + u0 < d * B).
  { assert ((u1 + 1) * B <= d * B) by (apply Z.mul_le_mono_nonneg_r; lia). lia. }
  assert (Hu' : 0 <= u1 * B) by (apply Z.mul_nonneg_nonneg; lia).
  assert (Hmod : tr (u0 - tr (tr (q1 + 1) * d)) = tr r).
  { unfold Mpn.tr. rewrite Er. rewrite Z.mul_mod_idemp_l by lia. rewrite <- Zminus_mod_idemp_r, Z.mod_mod, Zminus_mod_idemp_r by lia.
    replace (u1 * B + u0 - (q1 + 1) * d) with (u0 - (q1 + 1) * d + u1 * B) by ring. rewrite Z.mod_add by lia. reflexivity. }
  rewrite Hmod. clear Hmod.
  assert (Hm1 : tr (tr (q1 + 1) - 1) = q1).
  { unfold Mpn.tr. rewrite Zminus_mod_idemp_l. replace (q1 + 1 - 1) with q1 by lia. apply Z.mod_small. lia. }
  destruct (Z_lt_dec r 0) as [Rn|Rn].
  - specialize (Gneg Rn). assert (Et : tr r = r + B) by (rewrite (tr_eq w Hw r 1); unfold below; lia).
    rewrite Et. replace (r + B >? q0) with true by (symmetry; apply Z.gtb_lt; lia).
    rewrite Hm1. assert (E2 : tr (r + B + d) = r + d) by (rewrite (tr_eq w Hw (r + B + d) (-1)); unfold below; lia).
    rewrite E2. replace (d <=? r + d) with false by (symmetry; apply Z.leb_gt; lia).
    split; [lia|]. split; [lia|]. lia.
  - assert (Rub : r < B).
    { destruct (Z_lt_dec q0 r) as [Q|Q]; [pose proof (Gbig Q); lia|lia]. }
    assert (Et : tr r = r) by (apply tr_small; unfold below; lia). rewrite Et.
    assert (Hq1' : q1 + 1 < B).
    { apply (lt_of_mul _ _ d); [lia|]. lia. }
    destruct (Z_lt_dec q0 r) as [Q|Q].
    + replace (r >? q0) with true by (symmetry; apply Z.gtb_lt; lia). specialize (Gbig Q).
      rewrite Hm1. assert (E2 : tr (r + d) = r + d) by (apply tr_small; unfold below; lia). rewrite E2.
      replace (d <=? r + d) with true by (symmetry; apply Z.leb_le; lia).
      rewrite (tr_small w (q1 + 1)), (tr_small w (r + d - d)) by (unfold below; lia).
      split; [lia|]. split; [lia|]. lia.
    + replace (r >? q0) with false by (symmetry; rewrite Z.gtb_ltb; apply Z.ltb_ge; lia).
      rewrite (tr_small w (q1 + 1)) by (unfold below; lia).
      destruct (Z.leb_spec d r) as [R2|R2].
      * assert (q1 + 1 + 1 < B). { apply (lt_of_mul _ _ d); [lia|]. lia. }
        rewrite (tr_small w (q1 + 1 + 1)), (tr_small w (r - d)) by (unfold below; lia).
        split; [lia|]. split; [lia|]. lia.
      * split; [lia|]. split; [lia|]. lia.
Qed.

(* normalization *)
Lemma clz_spec : forall d, limb d -> d <> 0 -> let s := mp_clz w d in 0 <= s < w /\ B <= 2 * (d * 2 ^ s) /\ d * 2 ^ s < B.
Proof.
  intros d Hd Hn. unfold mp_clz, mp_bitlen. destruct (Z.eqb_spec d 0) as [E|E]; [contradiction|]. cbv zeta. unfold below in Hd.
  assert (Hp : 0 < d) by lia. pose proof (Z.log2_spec d Hp) as L. pose proof (Z.log2_nonneg d).
  assert (Hl : Z.log2 d < w) by (apply Z.log2_lt_pow2; [exact Hp|apply Hd]).
  split; [lia|]. unfold LB in *. set (l := Z.log2 d) in *. clearbody l.
  assert (E1 : 2 ^ w = 2 ^ l * 2 ^ (w - (l + 1)) * 2).
  { rewrite <- Z.pow_add_r by lia. replace w with (l + (w - (l + 1)) + 1) at 1 by lia. rewrite Z.pow_add_r by lia. reflexivity. }
  rewrite Z.pow_succ_r in L by lia. assert (0 < 2 ^ (w - (l + 1))) by (apply Z.pow_pos_nonneg; lia). nia.
Qed.

(* one limb of a short division *)
Lemma small_limb : forall s d r n, 0 <= s < w -> 0 < d -> d * 2 ^ s < B -> 0 <= r < d -> limb n ->
  let '(n1, n0) := if negb (s =? 0) then (Z.lor (tr (Z.shiftl r s)) (Z.shiftr n (w - s)), tr (Z.shiftl n s)) else (r, n) in
  limb n0 /\ 0 <= n1 < d * 2 ^ s /\ n1 * B + n0 = (r * B + n) * 2 ^ s.
Proof.
  intros s d r n Hs Hd Hds Hr Hn. destruct (Z.eqb_spec s 0) as [E|E]; cbn [negb].
  - subst s. change (2 ^ 0) with 1. split; [exact Hn|]. split; [lia|lia].
  - assert (Hs' : 0 < s < w) by lia.
    rewrite (lsh_limb w Hw s Hs' r n Hn), (shl_split w s Hs' n).
    pose proof (C_pos w s Hs') as [C1 D1]. pose proof (CD w s Hs') as ECD. pose proof (lim_div w Hw s Hs' n Hn) as Ln.
    pose proof (Z.mod_pos_bound n (2 ^ (w - s)) D1) as Mn. pose proof (Z.div_mod n (2 ^ (w - s)) ltac:(lia)) as En.
    set (C := 2 ^ s) in *. set (D := 2 ^ (w - s)) in *. clearbody C D.
    assert (HrD : r mod D = r) by (apply Z.mod_small; nia). rewrite HrD.
    split; [unfold below; nia|]. split; [nia|]. rewrite <- ECD. rewrite En at 3. ring.
Qed.
Lemma divmod_small_spec : forall np s d m, limbs np -> 0 <= s < w -> 0 < d -> d * 2 ^ s < B -> B <= 2 * (d * 2 ^ s) ->
  recip (d * 2 ^ s) m ->
  let '(qs, r) := mpn_divmod_small_2by1 w np s (d * 2 ^ s) m in
  length qs = length np /\ limbs qs /\ 0 <= r < d /\ val np = val qs * d + r.
Proof.
  induction np as [|n np IH]; intros s d m Hnp Hs Hd Hlt Hnorm Hm.
  - cbn [mpn_divmod_small_2by1 length dval]. split; [reflexivity|]. split; [constructor|]. lia.
  - cbn [mpn_divmod_small_2by1]. specialize (IH s d m (Forall_inv_tail Hnp) Hs Hd Hlt Hnorm Hm).
    destruct (mpn_divmod_small_2by1 w np s (d * 2 ^ s) m) as [qs r]. destruct IH as (I1 & I2 & I3 & I4).
    pose proof (small_limb s d r n Hs Hd Hlt I3 (Forall_inv Hnp)) as SL.
    destruct (if negb (s =? 0) then (Z.lor (tr (Z.shiftl r s)) (Z.shiftr n (w - s)), tr (Z.shiftl n s)) else (r, n)) as [n1 n0].
    destruct SL as (S1 & S2 & S3). assert (HC : 0 < 2 ^ s) by (apply Z.pow_pos_nonneg; lia).
    pose proof (mp_div_2by1_spec n1 n0 (d * 2 ^ s) m S1 ltac:(unfold below; nia) Hnorm Hm S2) as M.
    destruct (mp_div_2by1 w n1 n0 (d * 2 ^ s) m) as [q r']. destruct M as (M1 & M2 & M3).
    rewrite Z.shiftr_div_pow2 by lia. set (C := 2 ^ s) in *. clearbody C.
    assert (Er : r' = (r * B + n - q * d) * C) by lia.
    rewrite Er, Z.div_mul by lia. split; [cbn [length]; lia|]. split; [constructor; assumption|].
    assert (Hr : 0 <= r * B + n - q * d < d) by nia. split; [exact Hr|]. rewrite !val_cons, I4. lia.
Qed.

(* Algorithm D. P is the weight of the third limb from the top of the divisor. *)
Section Est.
Variables P v1 v0 vl u2 u1 u0 ul : Z.
Hypothesis HP : 1 <= P.
Hypothesis Hv1 : limb v1.
Hypothesis Hv0 : limb v0.
Hypothesis Hu1 : limb u1.
Hypothesis Hu0 : limb u0.
Hypothesis Hu2 : limb u2.
Hypothesis Hvl : 0 <= vl < P.
Hypothesis Hul : 0 <= ul < P.
Hypothesis Hnorm : B <= 2 * v1.
Definition dV2 := v1 * B + v0.
Definition dU3 := (u2 * B + u1) * B + u0.
Definition dV := vl + P * dV2.
Definition dU := ul + P * dU3.
Hypothesis Hlt : dU < dV * B.
Lemma dV2_ge : B <= dV2.
Proof.
  pose proof HB2 as HB. unfold dV2, below in *. assert (1 * B <= v1 * B) by (apply Z.mul_le_mono_nonneg_r; lia). lia.
Qed.
Lemma dV_pos : 0 < dV.
Proof.
  pose proof HB2 as HB. pose proof dV2_ge as Hz1. unfold dV. assert (1 * 1 <= P * dV2) by (apply Z.mul_le_mono_nonneg; lia). lia.
Qed.
Notation q := (dU / dV).
Lemma dq : q * dV <= dU < (q + 1) * dV.
Proof.
  pose proof dV_pos as Hz2. pose proof (Z.div_mod dU dV ltac:(lia)). pose proof (Z.mod_pos_bound dU dV ltac:(lia)). lia.
Qed.
Lemma dU3_nonneg : 0 <= dU3.
Proof.
  unfold dU3, below in *. pose proof HB2 as HB. assert (0 <= u2 * B) by (apply Z.mul_nonneg_nonneg; lia).
  assert (0 <= (u2 * B + u1) * B) by (apply Z.mul_nonneg_nonneg; lia). lia.
Qed.
Lemma dq_range : 0 <= q < B.
Proof.
  pose proof dV_pos as Hz2. pose proof dU3_nonneg. assert (0 <= P * dU3) by (apply Z.mul_nonneg_nonneg; lia).
  split; [apply Z.div_pos; [unfold dU; lia|lia]|]. apply Z.div_lt_upper_bound; lia.
Qed.
(* the quotient by the two top limbs is an upper bound *)
Lemma dq_V2 : q * dV2 <= dU3.
Proof.
  pose proof dq as Hd. pose proof dq_range as Hr. remember q as x eqn:Ex. clear Ex.
  assert (H1 : x * dV2 * P <= x * dV).
  { unfold dV. assert (0 <= x * vl) by (apply Z.mul_nonneg_nonneg; lia). lia. }
  assert (H2 : x * dV2 * P < (dU3 + 1) * P) by (unfold dU in Hd; lia).
  apply lt_of_mul in H2; lia.
Qed.
Lemma dq_v1 : q * v1 <= u2 * B + u1.
Proof.
  pose proof dq_V2 as H. pose proof dq_range as Hr. pose proof HB2 as HB. remember q as x eqn:Ex. clear Ex.
  unfold dV2, dU3 in H. unfold below in *.
  assert (0 <= x * v0) by (apply Z.mul_nonneg_nonneg; lia).
  assert (H3 : x * v1 * B < (u2 * B + u1 + 1) * B) by lia. apply lt_of_mul in H3; lia.
Qed.
Lemma u2_le : u2 <= v1.
Proof.
  pose proof HB2 as HB. pose proof Hlt as Hl. unfold below in *.
  assert (H1 : dV < P * ((v1 + 1) * B)).
  { assert (P * (dV2 + 1) <= P * ((v1 + 1) * B)); [|unfold dV; lia]. apply Z.mul_le_mono_nonneg_l; [lia|]. unfold dV2. lia. }
  assert (H2 : P * (u2 * B * B) <= dU).
  { assert (P * (u2 * B * B) <= P * dU3); [|unfold dU; lia]. apply Z.mul_le_mono_nonneg_l; [lia|]. unfold dU3.
    assert (0 <= u1 * B) by (apply Z.mul_nonneg_nonneg; lia). lia. }
  assert (H3 : dV * B < P * ((v1 + 1) * B) * B) by (apply Z.mul_lt_mono_pos_r; lia).
  assert (H4 : u2 * (P * B * B) < (v1 + 1) * (P * B * B)) by lia.
  apply lt_of_mul in H4; [lia|]. assert (0 < P * B) by (apply Z.mul_pos_pos; lia). apply Z.mul_pos_pos; lia.
Qed.
(* a candidate not too big for the two top limbs is at most one too big *)
Lemma cand_upper : forall qh, 0 <= qh < B -> qh * dV2 <= dU3 -> qh <= q + 1.
Proof.
  intros qh Hq H. destruct (Z_le_dec qh (q + 1)) as [|Hc]; [assumption|]. exfalso.
  pose proof dq as Hd. pose proof dq_range as Hr. pose proof dV2_ge as Hz1. pose proof dV_pos as Hz2.
  assert (H1 : (q + 1) * dV <= (qh - 1) * dV) by (apply Z.mul_le_mono_nonneg_r; lia).
  assert (H2 : (qh - 1) * dV <= (qh - 1) * (P * (dV2 + 1))) by (apply Z.mul_le_mono_nonneg_l; [lia|unfold dV; lia]).
  assert (H3 : P * (qh * dV2) <= dU) by (assert (P * (qh * dV2) <= P * dU3) by (apply Z.mul_le_mono_nonneg_l; lia); unfold dU; lia).
  assert (H4 : (qh * dV2) * P < ((qh - 1) * (dV2 + 1)) * P) by lia.
  apply lt_of_mul in H4; lia.
Qed.
Lemma top_equal : u2 = v1 -> B - 2 <= q.
Proof.
  intros E. pose proof dq as Hd. pose proof dV_pos as Hz2. pose proof HB2 as HB. unfold below in *.
  assert (H1 : (B - 2) * dV <= dU).
  { assert (H2 : (B - 2) * dV <= (B - 2) * (P * ((v1 + 1) * B))).
    { apply Z.mul_le_mono_nonneg_l; [lia|]. assert (P * (dV2 + 1) <= P * ((v1 + 1) * B)); [|unfold dV; lia].
      apply Z.mul_le_mono_nonneg_l; [lia|]. unfold dV2. lia. }
    assert (H3 : ((B - 2) * (v1 + 1)) * (P * B) <= (v1 * B) * (P * B)).
    { apply Z.mul_le_mono_nonneg_r; [apply Z.mul_nonneg_nonneg; lia|]. lia. }
    assert (H4 : P * (v1 * B * B) <= P * dU3).
    { apply Z.mul_le_mono_nonneg_l; [lia|]. unfold dU3. rewrite E. assert (0 <= u1 * B) by (apply Z.mul_nonneg_nonneg; lia). lia. }
    unfold dU. lia. }
  apply Z.div_le_lower_bound; lia.
Qed.
Lemma est_exits : forall f qh rh, 0 <= qh < B -> 0 <= rh < B -> qh * v1 + rh = u2 * B + u1 -> q <= qh ->
  B <= rh + Z.of_nat f * v1 ->
  let r := est_loop w f v1 v0 u0 qh rh in 0 <= r < B /\ q <= r /\ r * dV2 <= dU3.
Proof.
  induction f as [|f IH]; intros qh rh Hq Hr He Hge Hf; [cbn in Hf; lia|].
  cbn [est_loop]. unfold mp_mul_gt_2.
  pose proof HB2 as HB. pose proof dq_range as Hqr.
  pose proof (mp_mul_spec w Hw qh v0 Hq Hv0) as M. destruct (mp_mul w qh v0) as [x1 x0]. destruct M as (M1 & M2 & M3 & _).
  assert (Hcond : ((x1 >? rh) || (x1 =? rh) && (x0 >? u0))%bool = true <-> rh * B + u0 < qh * v0).
  { unfold below in *. rewrite orb_true_iff, andb_true_iff, Z.gtb_lt, Z.eqb_eq, Z.gtb_lt. rewrite <- M3. split.
    - intros [L|[L1 L2]]; [|subst; lia]. assert ((rh + 1) * B <= x1 * B) by (apply Z.mul_le_mono_nonneg_r; lia). lia.
    - intros L. destruct (Z_lt_dec rh x1); [left; assumption|]. destruct (Z.eq_dec x1 rh); [right; lia|].
      exfalso. assert ((x1 + 1) * B <= rh * B) by (apply Z.mul_le_mono_nonneg_r; lia). lia. }
  assert (EU : dU3 = (qh * v1 + rh) * B + u0) by (unfold dU3; rewrite <- He; reflexivity).
  assert (EV : qh * dV2 = qh * v1 * B + qh * v0) by (unfold dV2; ring).
  destruct ((x1 >? rh) || (x1 =? rh) && (x0 >? u0))%bool eqn:Ec.
  - assert (L : rh * B + u0 < qh * v0) by (apply Hcond; reflexivity). clear Hcond.
    assert (Hgt : q < qh).
    { destruct (Z.eq_dec q qh) as [E|]; [|lia]. exfalso. pose proof dq_V2 as H2. rewrite E in H2. lia. }
    rewrite (tr_small w (qh - 1)) by (unfold below in *; lia).
    unfold below in Hv1.
    destruct (Z_lt_dec (rh + v1) B) as [N|N].
    + rewrite (tr_small w (rh + v1)) by (unfold below in *; lia).
      replace (rh + v1 <? v1) with false by (symmetry; apply Z.ltb_ge; lia).
      apply IH; try lia.
    + rewrite (tr_eq w Hw (rh + v1) (-1)) by (unfold below in *; lia).
      replace (rh + v1 + -1 * B <? v1) with true by (symmetry; apply Z.ltb_lt; lia).
      cbv zeta. split; [lia|]. split; [lia|].
      assert (H1 : (qh - 1) * v0 <= B * B) by (unfold below in *; apply Z.mul_le_mono_nonneg; lia).
      assert (H2 : B * B <= (rh + v1) * B) by (apply Z.mul_le_mono_nonneg_r; lia).
      unfold dV2. unfold below in *. lia.
  - cbv zeta. split; [exact Hq|]. split; [exact Hge|].
    destruct (Z_lt_dec (rh * B + u0) (qh * v0)) as [L|L]; [apply Hcond in L; discriminate L|]. lia.
Qed.
End Est.

Lemma split_top2 : forall l : list Z, (2 <= length l)%nat ->
  exists l0 a b, l = l0 ++ [a; b] /\ length l0 = (length l - 2)%nat.
Proof.
  intros l H. assert (H1 : l <> []) by (intros X; subst l; cbn [length] in H; lia).
  destruct (exists_last H1) as (l1 & b & E1). subst l. rewrite app_length in H. cbn [length] in H.
  assert (H2 : l1 <> []) by (intros X; subst l1; cbn [length] in H; lia).
  destruct (exists_last H2) as (l2 & a & E2). subst l1. exists l2, a, b. split; [rewrite <- app_assoc; reflexivity|].
  rewrite !app_length. cbn [length]. lia.
Qed.
Lemma nth_app_at : forall (l m : list Z) i, nth (length l + i) (l ++ m) 0 = nth i m 0.
Proof. intros l m i. rewrite app_nth2 by lia. f_equal. lia. Qed.

Theorem div_step_spec : forall vp m u, limbs vp -> limbs u -> (2 <= length vp)%nat -> length u = S (length vp) ->
  B <= 2 * last vp 0 -> recip (last vp 0) m -> val u < val vp * B ->
  let '(q, r) := div_step w vp m u in
  q = val u / val vp /\ limb q /\ length r = length vp /\ limbs r /\ val r = val u mod val vp.
Proof.
  intros vp m u Hvp Hu Hl Hlu Hnorm Hm Hlt. pose proof HB2 as HB.
  destruct (split_top2 vp Hl) as (vl & v0 & v1 & Ev & Lv).
  destruct (split_top2 u ltac:(lia)) as (ul' & u1 & u2 & Eu & Lu).
  destruct (split_top2 (ul' ++ [u1]) ltac:(rewrite app_length; cbn [length]; lia)) as (ul & u0 & u1' & Eu' & Lu').
  rewrite app_length in Lu'. cbn [length] in Lu'.
  assert (E1 : u = ul ++ [u0; u1'; u2]).
  { rewrite Eu. change [u1; u2] with ([u1] ++ [u2]). rewrite app_assoc, Eu', <- app_assoc. reflexivity. }
  clear Eu Eu'. rename u1' into w1. clear Lu. 
  assert (Ell : length ul = length vl) by (rewrite E1 in Hlu; rewrite app_length in Hlu; cbn [length] in Hlu; lia).
  assert (Elv : length vp = (length vl + 2)%nat) by (rewrite Ev, app_length; reflexivity).
  assert (Hlast : last vp 0 = v1) by (rewrite Ev; change [v0; v1] with ([v0] ++ [v1]); rewrite app_assoc; apply last_last).
  rewrite Hlast in Hnorm, Hm.
  (* values *)
  set (P := B ^ Z.of_nat (length vl)).
  assert (HP : 1 <= P) by (pose proof (Bpow_pos w Hw (length vl)); unfold P; lia).
  assert (LV := Hvp). rewrite Ev in LV. apply Forall_app in LV. destruct LV as [Lvl LV].
  assert (Lv0 : limb v0) by exact (Forall_inv LV). assert (Lv1 : limb v1) by exact (Forall_inv (Forall_inv_tail LV)).
  assert (LU := Hu). rewrite E1 in LU. apply Forall_app in LU. destruct LU as [Lul LU].
  assert (Lu0 : limb u0) by exact (Forall_inv LU). assert (Lu1 : limb w1) by exact (Forall_inv (Forall_inv_tail LU)).
  assert (Lu2 : limb u2) by exact (Forall_inv (Forall_inv_tail (Forall_inv_tail LU))).
  pose proof (val_range w Hw vl Lvl) as Rvl. fold P in Rvl.
  pose proof (val_range w Hw ul Lul) as Rul. rewrite Ell in Rul. fold P in Rul.
  assert (EV : val vp = dV P v1 v0 (val vl)).
  { rewrite Ev, dval_app. fold P. cbn [dval]. unfold dV, dV2. ring. }
  assert (EU : val u = dU P u2 w1 u0 (val ul)).
  { rewrite E1, dval_app, Ell. fold P. cbn [dval]. unfold dU, dU3. ring. }
  rewrite EV, EU in *.
  assert (Hqr : 0 <= dU P u2 w1 u0 (val ul) / dV P v1 v0 (val vl) < B) by (apply dq_range; assumption).
  assert (Hqd : (dU P u2 w1 u0 (val ul) / dV P v1 v0 (val vl)) * dV P v1 v0 (val vl) <= dU P u2 w1 u0 (val ul) <
    (dU P u2 w1 u0 (val ul) / dV P v1 v0 (val vl) + 1) * dV P v1 v0 (val vl)) by (apply dq; assumption).
  assert (HVpos : 0 < dV P v1 v0 (val vl)) by (apply dV_pos; assumption).
  remember (dU P u2 w1 u0 (val ul) / dV P v1 v0 (val vl)) as q eqn:Eq.
  unfold div_step. cbv zeta.
  replace (nth (length vp) u 0) with u2 by (rewrite Elv, E1, <- Ell, nth_app_at; reflexivity).
  replace (nth (length vp - 1) vp 0) with v1 by (replace (length vp - 1)%nat with (length vl + 1)%nat by lia; rewrite Ev, nth_app_at; reflexivity).
  replace (nth (length vp - 1) u 0) with w1 by (replace (length vp - 1)%nat with (length ul + 1)%nat by lia; rewrite E1, nth_app_at; reflexivity).
  replace (nth (length vp - 2) vp 0) with v0 by (replace (length vp - 2)%nat with (length vl + 0)%nat by lia; rewrite Ev, nth_app_at; reflexivity).
  replace (nth (length vp - 2) u 0) with u0 by (replace (length vp - 2)%nat with (length ul + 0)%nat by lia; rewrite E1, nth_app_at; reflexivity).
  (* the estimate *)
  assert (Hest : exists qh, (if u2 =? v1 then B - 1
      else let '(qhat, rhat) := mp_div_2by1 w u2 w1 v1 m in est_loop w 3 v1 v0 u0 qhat rhat) = qh /\ 0 <= qh < B /\ q <= qh <= q + 1).
  { assert (Hle : u2 <= v1) by (apply (u2_le P v1 v0 (val vl) u2 w1 u0 (val ul)); assumption).
    destruct (Z.eqb_spec u2 v1) as [E|E].
    - exists (B - 1). split; [reflexivity|]. split; [lia|].
      assert (B - 2 <= q) by (rewrite Eq; apply top_equal; assumption). lia.
    - unfold below in *.
      pose proof (mp_div_2by1_spec u2 w1 v1 m Lu1 Lv1 Hnorm Hm ltac:(lia)) as M.
      destruct (mp_div_2by1 w u2 w1 v1 m) as [qh rh]. destruct M as (M1 & M2 & M3). unfold below in *.
      assert (Hq1 : q * v1 <= u2 * B + w1) by (rewrite Eq; apply dq_v1; assumption).
      assert (Hqq : q <= qh).
      { assert (q * v1 < (qh + 1) * v1) by lia. apply lt_of_mul in H; lia. }
      rewrite Eq in Hqq.
      assert (X : let r := est_loop w 3 v1 v0 u0 qh rh in 0 <= r < B /\ dU P u2 w1 u0 (val ul) / dV P v1 v0 (val vl) <= r /\ r * dV2 v1 v0 <= dU3 u2 w1 u0).
      { apply est_exits; unfold below in *; try assumption; try lia. }
      cbv zeta in X. destruct X as (X1 & X2 & X3). exists (est_loop w 3 v1 v0 u0 qh rh). split; [reflexivity|]. split; [exact X1|].
      rewrite Eq. split; [exact X2|]. apply cand_upper; assumption. }
  destruct Hest as (qh & Hqh & Rqh & Bqh). rewrite Hqh. clear Hqh.
  (* multiply and subtract *)
  assert (Hfu : firstn (length vp) u = ul ++ [u0; w1]).
  { rewrite Elv, <- Ell, E1. replace (length ul + 2)%nat with (length (ul ++ [u0; w1])) by (rewrite app_length; reflexivity).
    change [u0; w1; u2] with ([u0; w1] ++ [u2]). rewrite app_assoc, firstn_app_exact by reflexivity. reflexivity. }
  assert (Luf : limbs (firstn (length vp) u)) by (apply Forall_firstn; exact Hu).
  assert (Lfl : length (firstn (length vp) u) = length vp) by (apply firstn_length_le; lia).
  assert (Hval : val (firstn (length vp) u) + B ^ Z.of_nat (length vp) * u2 = dU P u2 w1 u0 (val ul)).
  { rewrite Hfu, dval_app, Ell. fold P. cbn [dval].
    assert (EP : B ^ Z.of_nat (length vp) = P * B * B).
    { unfold P. rewrite Elv. replace (length vl + 2)%nat with (S (S (length vl))) by lia. rewrite !(Bpow_S w). ring. }
    rewrite EP. unfold dU, dU3. ring. }
  unfold mpn_submul_1.
  pose proof (submul_1_loop_spec w Hw vp (firstn (length vp) u) 0 qh Luf Hvp Lfl (limb0 w Hw) Rqh) as M.
  destruct (submul_1_loop w 0 (firstn (length vp) u) vp qh) as [lo c]. destruct M as (M1 & M2 & M3 & M4).
  rewrite EV in M4.
  pose proof (mp_sub_spec w Hw u2 c Lu2 M3) as S. destruct (mp_sub w u2 c) as [t c2]. destruct S as (S1 & S2 & S3).
  pose proof (val_range w Hw lo M2) as Rlo. rewrite M1 in Rlo.
  pose proof (val_range w Hw vp Hvp) as RV. rewrite EV in RV.
  remember (B ^ Z.of_nat (length vp)) as N eqn:EN.
  remember (dV P v1 v0 (val vl)) as V eqn:EV0. remember (dU P u2 w1 u0 (val ul)) as U eqn:EU0.
  assert (Hsum : val lo + N * (t - B * c2) = U - V * qh).
  { assert (Ht : N * (t - B * c2) = N * (u2 - c)) by (f_equal; lia). lia. }
  assert (Hmod : U mod V = U - q * V) by (apply (div_eq_bounds U V q); lia).
  unfold carry in S2. unfold below in S1.
  assert (Hc2 : c2 = 0 \/ c2 = 1) by lia.
  assert (Hqc : qh = q \/ qh = q + 1) by lia.
  destruct Hqc as [Hqc|Hqc].
  - assert (Ec2 : c2 = 0).
    { destruct Hc2 as [|Hc2]; [assumption|]. exfalso. subst c2.
      assert (N * (t - B * 1) <= N * (-1)) by (apply Z.mul_le_mono_nonneg_l; lia). subst qh. lia. }
    subst c2. cbn [Z.eqb negb].
    assert (Et : t = 0).
    { destruct (Z_lt_dec 0 t); [|lia]. exfalso. assert (N * 1 <= N * (t - B * 0)) by (apply Z.mul_le_mono_nonneg_l; lia). subst qh. lia. }
    subst t qh. split; [reflexivity|]. split; [exact Rqh|]. split; [exact M1|]. split; [exact M2|]. lia.
  - assert (Ec2 : c2 = 1).
    { destruct Hc2 as [Hc2|]; [|assumption]. exfalso. subst c2.
      assert (0 <= N * (t - B * 0)) by (apply Z.mul_nonneg_nonneg; lia). subst qh. lia. }
    subst c2. cbn [Z.eqb negb].
    assert (Et : t = B - 1).
    { destruct (Z_lt_dec t (B - 1)); [|lia]. exfalso. assert (N * (t - B * 1) <= N * (-2)) by (apply Z.mul_le_mono_nonneg_l; lia). subst qh. lia. }
    subst t.
    pose proof (mpn_add_n_spec w Hw lo vp M2 Hvp M1) as A. destruct (mpn_add_n w lo vp) as [z c3]. destruct A as (A1 & A2 & A3 & A4).
    rewrite M1, <- EN, EV in A4. cbn [fst]. rewrite tr_small by (unfold below; lia).
    pose proof (val_range w Hw z A2) as Rz. rewrite A1, M1, <- EN in Rz.
    split; [lia|]. split; [unfold below; lia|]. split; [lia|]. split; [exact A2|].
    unfold carry in A3. assert (c3 = 0 \/ c3 = 1) as [|] by lia; subst c3; subst qh; lia.
Qed.

Theorem div_loop_spec : forall vp m, limbs vp -> (2 <= length vp)%nat -> B <= 2 * last vp 0 -> recip (last vp 0) m ->
  forall lo hi, limbs lo -> limbs hi -> length hi = length vp -> val hi < val vp ->
  let '(qs, r) := div_loop w vp m lo hi in
  length qs = length lo /\ limbs qs /\ length r = length vp /\ limbs r /\ val r < val vp /\
  val lo + B ^ Z.of_nat (length lo) * val hi = val qs * val vp + val r.
Proof.
  intros vp m Hvp Hl Hnorm Hm. induction lo as [|u lo IH]; intros hi Hlo Hhi Hlh Hlt.
  - cbn [div_loop length dval]. change (B ^ Z.of_nat 0) with 1. split; [reflexivity|]. split; [constructor|]. split; [exact Hlh|].
    split; [exact Hhi|]. split; [exact Hlt|]. lia.
  - cbn [div_loop]. specialize (IH hi (Forall_inv_tail Hlo) Hhi Hlh Hlt).
    destruct (div_loop w vp m lo hi) as [qs h]. destruct IH as (I1 & I2 & I3 & I4 & I5 & I6).
    pose proof HB2 as HB. pose proof (Forall_inv Hlo) as Lu.
    assert (Hw2 : val (u :: h) < val vp * B).
    { rewrite val_cons. unfold below in Lu. assert ((val h + 1) * B <= val vp * B) by (apply Z.mul_le_mono_nonneg_r; lia). lia. }
    pose proof (div_step_spec vp m (u :: h) Hvp ltac:(constructor; assumption) Hl ltac:(cbn [length]; lia) Hnorm Hm Hw2) as D.
    destruct (div_step w vp m (u :: h)) as [q r]. destruct D as (D1 & D2 & D3 & D4 & D5).
    pose proof (val_range w Hw vp Hvp) as RV. pose proof (val_range w Hw h I4) as Rh.
    assert (HV : 0 < val vp) by lia.
    pose proof (Z.div_mod (val (u :: h)) (val vp) ltac:(lia)) as DM. rewrite <- D1, <- D5 in DM. rewrite val_cons in DM.
    pose proof (Z.mod_pos_bound (val (u :: h)) (val vp) HV) as MB. rewrite <- D5 in MB.
    split; [cbn [length]; lia|]. split; [constructor; assumption|]. split; [exact D3|]. split; [exact D4|]. split; [lia|].
    cbn [length]. rewrite (Bpow_S w), !val_cons.
    assert (E2 : B * (val lo + B ^ Z.of_nat (length lo) * val hi) = B * (val qs * val vp + val h)) by (rewrite I6; reflexivity).
    clear - DM E2. lia.
Qed.

Lemma last_limb : forall xs, limbs xs -> xs <> [] -> limb (last xs 0).
Proof.
  intros xs Hx Hn. destruct (exists_last Hn) as (l & a & E). subst xs. rewrite last_last. apply Forall_app in Hx. exact (Forall_inv (proj2 Hx)).
Qed.
Lemma val_last : forall xs : list Z, xs <> [] -> limbs xs -> last xs 0 * B ^ Z.of_nat (length xs - 1) <= val xs < (last xs 0 + 1) * B ^ Z.of_nat (length xs - 1).
Proof.
  intros xs Hn Hx. destruct (exists_last Hn) as (l & a & E). subst xs. rewrite last_last, val_snoc, app_length. cbn [length].
  replace (length l + 1 - 1)%nat with (length l) by lia. apply Forall_app in Hx. pose proof (val_range w Hw l (proj1 Hx)). lia.
Qed.

(* the normalized divisor *)
Definition den_ok (dp : list Z) (den : mp_divisor_t) : Prop :=
  let s := den_shift den in
  0 <= s < w /\ length (den_vp den) = length dp /\ limbs (den_vp den) /\ val (den_vp den) = val dp * 2 ^ s /\
  B <= 2 * last (den_vp den) 0 /\ recip (last (den_vp den) 0) (den_inv den).
Lemma precomp_spec : forall dp, limbs dp ->
  match mpn_divmod_precomp w dp with
  | Ok den => dp <> [] /\ last dp 0 <> 0 /\ den_ok dp den
  | Fail => False
  | Abort => dp = [] \/ last dp 0 = 0
  end.
Proof.
  intros dp Hd. unfold mpn_divmod_precomp. destruct dp as [|d0 dp']; [left; reflexivity|]. cbn [length Nat.eqb orb].
  set (dp := d0 :: dp') in *. assert (Hne : dp <> []) by discriminate.
  destruct (Z.eqb_spec (last dp 0) 0) as [E|E]; [right; exact E|]. cbv zeta.
  pose proof (last_limb dp Hd Hne) as Ll. pose proof (clz_spec (last dp 0) Ll E) as Cz. cbv zeta in Cz.
  set (s := mp_clz w (last dp 0)) in *. clearbody s. destruct Cz as (C1 & C2 & C3).
  assert (HC : 0 < 2 ^ s) by (apply Z.pow_pos_nonneg; lia). pose proof HB2 as HB.
  split; [exact Hne|]. split; [exact E|]. unfold den_ok. cbn [den_shift den_vp den_inv].
  assert (Main : forall vp, length vp = length dp -> limbs vp -> val vp = val dp * 2 ^ s ->
    0 <= s < w /\ length vp = length dp /\ limbs vp /\ val vp = val dp * 2 ^ s /\
    B <= 2 * last vp 0 /\ recip (last vp 0) (mp_inv_2by1 w (last vp 0))).
  { intros vp V1 V2 V3. assert (Hvn : vp <> []) by (intros X; subst vp; discriminate V1).
    pose proof (last_limb vp V2 Hvn) as Lv. pose proof (val_last vp Hvn V2) as B1. pose proof (val_last dp Hne Hd) as B2.
    rewrite V1 in B1. pose proof (Bpow_pos w Hw (length dp - 1)) as PP. remember (B ^ Z.of_nat (length dp - 1)) as N eqn:EN. clear EN.
    assert (Hn : last dp 0 * 2 ^ s <= last vp 0).
    { assert (last dp 0 * 2 ^ s * N < (last vp 0 + 1) * N).
      { assert (last dp 0 * N * 2 ^ s <= val dp * 2 ^ s) by (apply Z.mul_le_mono_nonneg_r; lia). lia. }
      apply lt_of_mul in H; lia. }
    split; [exact C1|]. split; [exact V1|]. split; [exact V2|]. split; [exact V3|]. split; [lia|].
    apply inv_2by1_spec; [exact Lv|lia]. }
  destruct (length dp' =? 0)%nat eqn:E1.
  - apply Nat.eqb_eq in E1. destruct dp' as [|]; [|discriminate E1]. cbn [last] in *. 
    unfold dp in C2, C3. cbn [last] in C2, C3. unfold dp. cbn [hd].
    rewrite Z.shiftl_mul_pow2 by lia. 
    assert (Ht : tr (d0 * 2 ^ s) = d0 * 2 ^ s).
    { apply tr_small. unfold below. split; [|exact C3]. apply Z.mul_nonneg_nonneg; [|lia]. pose proof (Forall_inv Hd) as X. unfold below in X. lia. }
    rewrite Ht. apply Main; [reflexivity| |unfold dp; cbn [dval]; lia].
    constructor; [|constructor]. rewrite <- Ht. apply (tr_range w Hw).
  - destruct (Z.eqb_spec s 0) as [Es|Es]; cbn [negb].
    + apply Main; [reflexivity|exact Hd|]. subst s. change (2 ^ 0) with 1. lia.
    + pose proof (mpn_lshift_spec w Hw s ltac:(lia) dp Hd) as L. destruct (mpn_lshift w dp s) as [z c]. cbn [fst].
      destruct L as (L1 & L2 & L3 & L4). apply Main; [exact L1|exact L2|].
      (* nothing is shifted out *)
      assert (Hc : c = 0).
      { destruct (Z_lt_dec 0 c); [|lia]. exfalso. pose proof (val_last dp Hne Hd) as B2.
        pose proof (val_range w Hw z L2) as Rz. assert (EN : B ^ Z.of_nat (length dp) = B * B ^ Z.of_nat (length dp - 1)).
        { rewrite <- (Bpow_S w). f_equal. f_equal. unfold dp. cbn [length]. lia. }
        rewrite EN in L4. pose proof (Bpow_pos w Hw (length dp - 1)) as PP. remember (B ^ Z.of_nat (length dp - 1)) as N eqn:EN'. clear EN'.
        pose proof (C_pos w s ltac:(lia)) as [_ HD]. pose proof (CD w s ltac:(lia)) as ECD.
        assert (Hl1 : last dp 0 + 1 <= 2 ^ (w - s)).
        { rewrite <- ECD in C3. rewrite (Z.mul_comm (last dp 0)) in C3. assert (last dp 0 < 2 ^ (w - s)); [|lia]. apply (Z.mul_lt_mono_pos_l (2 ^ s)); lia. }
        assert (H1 : val dp * 2 ^ s < B * N).
        { assert (val dp < 2 ^ (w - s) * N).
          { assert ((last dp 0 + 1) * N <= 2 ^ (w - s) * N) by (apply Z.mul_le_mono_nonneg_r; lia). lia. }
          assert (val dp * 2 ^ s < 2 ^ (w - s) * N * 2 ^ s) by (apply Z.mul_lt_mono_pos_r; lia).
          replace (B * N) with (2 ^ (w - s) * N * 2 ^ s) by (rewrite <- ECD; ring). assumption. }
        assert (B * N * 1 <= B * N * c) by (apply Z.mul_le_mono_nonneg_l; [apply Z.mul_nonneg_nonneg; lia|lia]). lia. }
      subst c. lia.
Qed.
Lemma divmod_large_spec : forall np dp den, limbs np -> limbs dp -> (2 <= length dp)%nat -> (length dp <= length np)%nat ->
  last dp 0 <> 0 -> den_ok dp den ->
  let '(q, r) := mpn_divmod_large_2by1 w np den in
  length q = (length np - length dp + 1)%nat /\ limbs q /\ length r = length dp /\ limbs r /\
  val q = val np / val dp /\ val r = val np mod val dp.
Proof.
  intros np dp den Hn Hd Hl2 Hln Hlast (D1 & D2 & D3 & D4 & D5 & D6). unfold mpn_divmod_large_2by1. cbv zeta.
  rewrite D2. set (s := den_shift den) in *. clearbody s. remember (den_vp den) as vp eqn:Evp. clear Evp. remember (den_inv den) as m eqn:Em. clear Em.
  pose proof HB2 as HB. assert (HC : 0 < 2 ^ s) by (apply Z.pow_pos_nonneg; lia).
  assert (Hup : exists up, (if negb (s =? 0) then let '(z, c) := mpn_lshift w np s in z ++ [c] else np ++ [0]) = up /\
    length up = S (length np) /\ limbs up /\ val up = val np * 2 ^ s).
  { destruct (Z.eqb_spec s 0) as [Es|Es]; cbn [negb].
    - exists (np ++ [0]). split; [reflexivity|]. split; [rewrite app_length; cbn [length]; lia|].
      split; [apply Forall_app; split; [exact Hn|constructor; [apply (limb0 w Hw)|constructor]]|]. rewrite val_snoc. subst s. change (2 ^ 0) with 1. lia.
    - pose proof (mpn_lshift_spec w Hw s ltac:(lia) np Hn) as L. destruct (mpn_lshift w np s) as [z c]. destruct L as (L1 & L2 & L3 & L4).
      exists (z ++ [c]). split; [reflexivity|]. split; [rewrite app_length; cbn [length]; lia|].
      split; [apply Forall_app; split; [exact L2|constructor; [|constructor]]|rewrite val_snoc, L1; lia].
      pose proof (CD w s ltac:(lia)) as ECD. pose proof (C_pos w s ltac:(lia)) as [_ HD]. unfold below. rewrite <- ECD.
      assert (2 ^ s * 1 <= 2 ^ s * 2 ^ (w - s)) by (apply Z.mul_le_mono_nonneg_l; lia). lia. }
  destruct Hup as (up & Hup & U1 & U2 & U3). rewrite Hup. clear Hup.
  set (k := (length np - length dp + 1)%nat).
  assert (Hlo : length (firstn k up) = k) by (apply firstn_length_le; unfold k; lia).
  assert (Hhi : length (skipn k up) = length dp) by (rewrite skipn_length; unfold k; lia).
  assert (Hval : val up = val (firstn k up) + B ^ Z.of_nat k * val (skipn k up)).
  { rewrite <- (firstn_skipn k up) at 1. rewrite dval_app, Hlo. reflexivity. }
  assert (Hne : dp <> []) by (destruct dp; [cbn [length] in Hl2; lia|discriminate]).
  pose proof (val_last dp Hne Hd) as BL. pose proof (last_limb dp Hd Hne) as LL. unfold below in LL.
  pose proof (Bpow_pos w Hw (length dp - 1)) as PP. pose proof (Bpow_pos w Hw k) as PK.
  pose proof (val_range w Hw np Hn) as Rn. pose proof (val_range w Hw (firstn k up) (Forall_firstn _ _ k up U2)) as Rlo.
  assert (HDge : 1 * B ^ Z.of_nat (length dp - 1) <= val dp).
  { assert (1 * B ^ Z.of_nat (length dp - 1) <= last dp 0 * B ^ Z.of_nat (length dp - 1)) by (apply Z.mul_le_mono_nonneg_r; lia). lia. }
  assert (EN : B ^ Z.of_nat (length np) = B ^ Z.of_nat (length dp - 1) * B ^ Z.of_nat k).
  { rewrite <- Z.pow_add_r by lia. f_equal. unfold k. lia. }
  assert (Hlt : val (skipn k up) < val vp).
  { rewrite D4. apply (lt_of_mul _ _ (B ^ Z.of_nat k)); [exact PK|].
    assert (H1 : val np * 2 ^ s < B ^ Z.of_nat (length dp - 1) * B ^ Z.of_nat k * 2 ^ s) by (apply Z.mul_lt_mono_pos_r; lia).
    assert (H2 : B ^ Z.of_nat (length dp - 1) * (B ^ Z.of_nat k * 2 ^ s) <= val dp * (B ^ Z.of_nat k * 2 ^ s)).
    { apply Z.mul_le_mono_nonneg_r; [apply Z.mul_nonneg_nonneg; lia|lia]. }
    lia. }
  pose proof (div_loop_spec vp m D3 ltac:(lia) D5 D6 (firstn k up) (skipn k up) (Forall_firstn _ _ k up U2) (Forall_skipn _ _ k up U2) ltac:(lia) Hlt) as L.
  destruct (div_loop w vp m (firstn k up) (skipn k up)) as [qs r]. destruct L as (L1 & L2 & L3 & L4 & L5 & L6).
  rewrite Hlo, <- Hval, U3, D4 in L6. rewrite D4 in L5. rewrite Hlo in L1. rewrite D2 in L3.
  pose proof (val_range w Hw r L4) as Rr.
  assert (HDpos : 0 < val dp) by lia.
  assert (Er : val r = (val np - val qs * val dp) * 2 ^ s) by lia.
  assert (Hrem : 0 <= val np - val qs * val dp < val dp).
  { split; [|apply (lt_of_mul _ _ (2 ^ s)); lia]. apply (le_of_mul _ _ (2 ^ s)); lia. }
  destruct (div_eq_bounds (val np) (val dp) (val qs) HDpos ltac:(lia)) as [Q1 Q2].
  split; [exact L1|]. split; [exact L2|].
  destruct (Z.eqb_spec s 0) as [Es|Es]; cbn [negb].
  - split; [exact L3|]. split; [exact L4|]. split; [lia|]. rewrite Q2, Er. subst s. change (2 ^ 0) with 1. lia.
  - pose proof (mpn_rshift_spec w Hw s ltac:(lia) r L4) as R. destruct (mpn_rshift w r s) as [z c]. cbn [fst]. destruct R as (R1 & R2 & R3 & _).
    split; [lia|]. split; [exact R2|]. split; [lia|]. rewrite R3, Er, Z.div_mul by lia. lia.
Qed.

Theorem mpn_divmod_spec : forall np dp, limbs np -> limbs dp ->
  match mpn_divmod w np dp with
  | Ok (q, r) => dp <> [] /\ (length dp <= length np)%nat /\ last dp 0 <> 0 /\
     length q = (length np - length dp + 1)%nat /\ limbs q /\ length r = length dp /\ limbs r /\
     val q = val np / val dp /\ val r = val np mod val dp
  | Fail => False
  | Abort => dp = [] \/ (length np < length dp)%nat \/ last dp 0 = 0
  end.
Proof.
  intros np dp Hn Hd. unfold mpn_divmod. destruct (Nat.eqb_spec (length dp) 0) as [E0|E0].
  { cbn [orb]. left. destruct dp; [reflexivity|discriminate E0]. }
  destruct (Nat.ltb_spec (length np) (length dp)) as [E1|E1]; cbn [orb].
  { right. left. exact E1. }
  pose proof (precomp_spec dp Hd) as P. destruct (mpn_divmod_precomp w dp) as [den| |]; [|contradiction|tauto].
  destruct P as (P1 & P2 & P3). unfold mpn_divmod_inner. cbv zeta. pose proof P3 as (D1 & D2 & D3 & D4 & D5 & D6). rewrite D2.
  destruct (Nat.ltb_spec (length np) (length dp)) as [E2|_]; [lia|].
  destruct (Nat.eqb_spec (length dp) 1) as [E3|E3].
  - destruct dp as [|d [|]]; cbn [length] in E3; try lia. destruct (den_vp den) as [|v [|]] eqn:Ev; cbn [length] in D2; try lia.
    cbn [hd]. cbn [dval last] in *. replace (v + B * 0) with v in D4 by lia. replace (d + B * 0) with d in * by lia.
    pose proof (Forall_inv Hd) as Ld. unfold below in Ld. pose proof (Forall_inv D3) as Lv. unfold below in Lv.
    rewrite D4 in *. 
    pose proof (divmod_small_spec np (den_shift den) d (den_inv den) Hn D1 ltac:(lia) ltac:(lia) D5 D6) as M.
    destruct (mpn_divmod_small_2by1 w np (den_shift den) (d * 2 ^ den_shift den) (den_inv den)) as [qs r].
    destruct M as (M1 & M2 & M3 & M4). destruct (div_eq_bounds (val np) d (val qs) ltac:(lia) ltac:(lia)) as [Q1 Q2].
    split; [discriminate|]. cbn [length] in *. split; [lia|]. split; [exact P2|]. split; [lia|]. split; [exact M2|]. split; [reflexivity|].
    split; [constructor; [unfold below; lia|constructor]|]. split; [lia|]. cbn [dval]. lia.
  - pose proof (divmod_large_spec np dp den Hn Hd ltac:(lia) E1 P2 P3) as L.
    destruct (mpn_divmod_large_2by1 w np den) as [q r]. split; [exact P1|]. split; [exact E1|]. split; [exact P2|]. exact L.
Qed.
Theorem mpn_divmod_1_spec : forall np d, limbs np -> limb d ->
  match mpn_divmod_1 w np d with
  | Ok (q, r) => d <> 0 /\ length q = length np /\ limbs q /\ val q = val np / d /\ r = val np mod d
  | Fail => False
  | Abort => d = 0
  end.
Proof.
  intros np d Hn Hd. unfold mpn_divmod_1, mpn_divmod_init_1. destruct (Z.eqb_spec d 0) as [E|E]; [exact E|].
  pose proof HB2 as HB. unfold below in Hd.
  destruct np as [|n0 np'].
  { split; [exact E|]. split; [reflexivity|]. split; [constructor|]. cbn [dval]. rewrite Z.div_0_l, Z.mod_0_l by lia. split; reflexivity. }
  set (np := n0 :: np') in *. assert (G : match mpn_divmod_small_2by1 w np (mp_clz w d) (tr (Z.shiftl d (mp_clz w d))) (mp_inv_2by1 w (tr (Z.shiftl d (mp_clz w d)))) with
    | (q, r) => d <> 0 /\ length q = length np /\ limbs q /\ val q = val np / d /\ r = val np mod d end).
  { pose proof (clz_spec d Hd E) as C. cbv zeta in C. set (s := mp_clz w d) in *. clearbody s. destruct C as (C1 & C2 & C3).
    assert (HC : 0 < 2 ^ s) by (apply Z.pow_pos_nonneg; lia).
    assert (Hds : 0 <= d * 2 ^ s) by (apply Z.mul_nonneg_nonneg; lia).
    rewrite Z.shiftl_mul_pow2 by lia. rewrite (tr_small w (d * 2 ^ s)) by (unfold below; lia).
    pose proof (divmod_small_spec np s d (mp_inv_2by1 w (d * 2 ^ s)) Hn C1 ltac:(lia) C3 C2) as M.
    destruct (mpn_divmod_small_2by1 w np s (d * 2 ^ s) (mp_inv_2by1 w (d * 2 ^ s))) as [q r].
    destruct M as (M1 & M2 & M3 & M4); [apply inv_2by1_spec; [unfold below; lia|exact C2]|].
    destruct (div_eq_bounds (val np) d (val q) ltac:(lia) ltac:(lia)) as [Q1 Q2].
    split; [exact E|]. split; [exact M1|]. split; [exact M2|]. lia. }
  destruct np' as [|n1 np''].
  - cbv zeta. pose proof (Forall_inv Hn) as L. unfold below in L. pose proof (Z.div_mod n0 d E). pose proof (Z.mod_pos_bound n0 d ltac:(lia)).
    assert (0 <= n0 / d) by (apply Z.div_pos; lia).
    assert (n0 / d <= n0) by (apply Z.div_le_upper_bound; [lia|]; assert (1 * n0 <= d * n0) by (apply Z.mul_le_mono_nonneg_r; lia); lia).
    assert (0 <= d * (n0 / d)) by (apply Z.mul_nonneg_nonneg; lia).
    rewrite (tr_small w (n0 / d * d)), tr_small by (unfold below; lia).
    unfold np. cbn [dval length]. replace (n0 + B * 0) with n0 by lia. split; [exact E|]. split; [reflexivity|].
    split; [constructor; [unfold below; lia|constructor]|]. split; lia.
  - unfold np in G |- *. cbv zeta. cbn [den_shift den_vp den_inv hd]. exact G.
Qed.

(* the half-limb division *)
Section Half.
Variables b vn1 vn0 U un : Z.
Hypothesis Hb : 2 <= b.
Hypothesis EB : B = b * b.
Hypothesis Hv1 : 0 <= vn1 < b.
Hypothesis Hv0 : 0 <= vn0 < b.
Hypothesis Hn1 : b <= 2 * vn1.
Hypothesis Hun : 0 <= un < b.
Notation d := (vn1 * b + vn0).
Hypothesis HU : 0 <= U < d.
Notation N := (U * b + un).
Notation q := (N / d).
Lemma half_d : 0 < d < B.
Proof.
  assert (1 * b <= vn1 * b) by (apply Z.mul_le_mono_nonneg_r; lia). assert ((vn1 + 1) * b <= b * b) by (apply Z.mul_le_mono_nonneg_r; lia). lia.
Qed.
Lemma half_q : 0 <= q < b /\ q * d <= N < (q + 1) * d.
Proof.
  pose proof half_d. pose proof (Z.div_mod N d ltac:(lia)). pose proof (Z.mod_pos_bound N d ltac:(lia)).
  assert (0 <= U * b) by (apply Z.mul_nonneg_nonneg; lia). assert ((U + 1) * b <= d * b) by (apply Z.mul_le_mono_nonneg_r; lia).
  split; [|lia]. split; [apply Z.div_pos; lia|]. apply Z.div_lt_upper_bound; lia.
Qed.
Lemma hd_fix_spec : forall f qh rh, q <= qh <= b + 1 -> 0 <= rh < b -> qh * vn1 + rh = U -> b <= rh + Z.of_nat f * vn1 ->
  hd_fix w f b vn1 vn0 un qh rh = q.
Proof.
  induction f as [|f IH]; intros qh rh Hq Hr He Hf; [cbn in Hf; lia|].
  cbn [hd_fix]. pose proof half_q as (Q1 & Q2). pose proof half_d as Hd.
  assert (Hbb : b + 1 < b * b) by (assert (2 * b <= b * b) by (apply Z.mul_le_mono_nonneg_r; lia); destruct (Z.eq_dec b 2); lia).
  assert (H2b : 2 * b <= b * b) by (apply Z.mul_le_mono_nonneg_r; lia).
  assert (EN : N = (qh * vn1 + rh) * b + un) by (rewrite He; reflexivity).
  assert (Exact : forall x y, x * vn1 + y = U -> q <= x -> 0 <= x -> x * vn0 <= y * b + un -> x = q).
  { intros x y X1 X2 X0 X3. assert (x * d <= N) by (rewrite <- X1; lia).
    assert (x * d < (q + 1) * d) by lia. apply lt_of_mul in H0; lia. }
  destruct ((b <=? qh) || (Mpn.tr w (rh * b + un) <? Mpn.tr w (qh * vn0)))%bool eqn:Ec.
  - (* too big *)
    assert (Hgt : q < qh).
    { destruct (Z.leb_spec b qh) as [Lb|Lb]; [lia|]. cbn [orb] in Ec. apply Z.ltb_lt in Ec.
      assert (R1 : 0 <= rh * b + un < B) by (rewrite EB; assert ((rh + 1) * b <= b * b) by (apply Z.mul_le_mono_nonneg_r; lia); assert (0 <= rh * b) by (apply Z.mul_nonneg_nonneg; lia); lia).
      assert (R2 : 0 <= qh * vn0 < B) by (rewrite EB; apply pr_lt; lia).
      rewrite !tr_small in Ec by assumption. destruct (Z.eq_dec q qh) as [E|]; [|lia]. exfalso.
      rewrite E in Q2. lia. }
    rewrite (tr_small w (qh - 1)) by (unfold below; lia). rewrite (tr_small w (rh + vn1)) by (unfold below; lia). cbv zeta.
    destruct (Z.leb_spec b (rh + vn1)) as [L|L].
    + apply (Exact (qh - 1) (rh + vn1)); try lia.
      (* qh - 1 < b *)
      assert (Hs : qh - 1 < b).
      { destruct (Z_lt_dec (qh - 1) b); [assumption|]. exfalso. assert (b * vn1 <= (qh - 1) * vn1) by (apply Z.mul_le_mono_nonneg_r; lia). lia. }
      assert ((qh - 1) * vn0 <= b * b) by (apply Z.mul_le_mono_nonneg; lia).
      assert (b * b <= (rh + vn1) * b) by (apply Z.mul_le_mono_nonneg_r; lia). lia.
    + apply IH; lia.
  - apply orb_false_iff in Ec. destruct Ec as [E1 E2]. apply Z.leb_gt in E1. apply Z.ltb_ge in E2.
    assert (R1 : 0 <= rh * b + un < B) by (rewrite EB; assert ((rh + 1) * b <= b * b) by (apply Z.mul_le_mono_nonneg_r; lia); assert (0 <= rh * b) by (apply Z.mul_nonneg_nonneg; lia); lia).
    assert (R2 : 0 <= qh * vn0 < B) by (rewrite EB; apply pr_lt; lia).
    rewrite !tr_small in E2 by assumption. apply (Exact qh rh); lia.
Qed.
Lemma hd_digit : forall rhat, rhat = tr (U - tr (U / vn1 * vn1)) -> hd_fix w 3 b vn1 vn0 un (U / vn1) rhat = q.
Proof.
  intros rhat Er. pose proof half_q as (Q1 & Q2). pose proof half_d as Hd.
  pose proof (Z.div_mod U vn1 ltac:(lia)) as DM. pose proof (Z.mod_pos_bound U vn1 ltac:(lia)) as MB.
  assert (0 <= U / vn1) by (apply Z.div_pos; lia).
  assert (0 <= U / vn1 * vn1) by (apply Z.mul_nonneg_nonneg; lia).
  rewrite (tr_small w (U / vn1 * vn1)), tr_small in Er by (unfold below; lia).
  apply hd_fix_spec; try lia. split.
  - apply Z.div_le_lower_bound; [lia|]. assert (Hx : q * vn1 * b < (U + 1) * b).
    { assert (0 <= q * vn0) by (apply Z.mul_nonneg_nonneg; lia). lia. }
    apply lt_of_mul in Hx; lia.
  - assert (U / vn1 < b + 2); [|lia]. apply Z.div_lt_upper_bound; lia.
Qed.
End Half.

Theorem mp_div_hd_spec : forall h n1 n0 d, w = 2 * h -> limb n1 -> limb n0 -> limb d -> n1 < d ->
  mp_div_hd w n1 n0 d = Ok (mp_div w n1 n0 d).
Proof.
  intros h n1 n0 d Eh H1 H0 Hd Hlt. pose proof HB2 as HB. unfold below in H1, H0, Hd. unfold mp_div_hd, mp_div.
  destruct (Z.eqb_spec n1 0) as [E|E].
  - subst n1. replace (0 * B + n0) with n0 by lia. pose proof (Z.div_mod n0 d ltac:(lia)). pose proof (Z.mod_pos_bound n0 d ltac:(lia)).
    assert (0 <= n0 / d) by (apply Z.div_pos; lia). assert (0 <= n0 / d * d) by (apply Z.mul_nonneg_nonneg; lia).
    cbv zeta. rewrite (tr_small w (n0 / d * d)), tr_small by (unfold below; lia). f_equal. f_equal. lia.
  - destruct (Z.leb_spec d n1) as [L|_]; [lia|]. cbv zeta.
    assert (Ew : w / 2 = h) by (rewrite Eh, Z.mul_comm; apply Z.div_mul; lia). rewrite Ew.
    pose proof (clz_spec d Hd ltac:(lia)) as C. cbv zeta in C. set (s := mp_clz w d) in *. clearbody s. destruct C as (C1 & C2 & C3).
    assert (HC : 0 < 2 ^ s) by (apply Z.pow_pos_nonneg; lia). assert (Hh : 0 < h) by lia.
    assert (EB : B = 2 ^ h * 2 ^ h) by (unfold LB; rewrite <- Z.pow_add_r by lia; f_equal; lia).
    assert (Hb : 2 <= 2 ^ h) by (change 2 with (2 ^ 1) at 1; apply Z.pow_le_mono_r; lia).
    assert (Em : forall a, Z.land a (2 ^ h - 1) = a mod 2 ^ h).
    { intros a. rewrite <- Z.land_ones by lia. f_equal. rewrite Z.ones_equiv. lia. }
    assert (Hds : 0 <= d * 2 ^ s) by (apply Z.mul_nonneg_nonneg; lia).
    rewrite !Em. rewrite !(Z.shiftr_div_pow2 _ h) by lia. rewrite (Z.shiftl_mul_pow2 d s) by lia. rewrite (tr_small w (d * 2 ^ s)) by (unfold below; lia).
    pose proof (small_limb s d n1 n0 C1 ltac:(lia) C3 ltac:(lia) ltac:(unfold below; lia)) as SL.
    set (un32 := if negb (s =? 0) then Z.lor (tr (Z.shiftl n1 s)) (Z.shiftr n0 (w - s)) else n1) in *.
    set (un10 := if negb (s =? 0) then tr (Z.shiftl n0 s) else n0) in *.
    assert (SL' : limb un10 /\ 0 <= un32 < d * 2 ^ s /\ un32 * B + un10 = (n1 * B + n0) * 2 ^ s).
    { unfold un10, un32. destruct (negb (s =? 0)); exact SL. }
    clear SL. destruct SL' as (S1 & S2 & S3). clearbody un32 un10. unfold below in S1.
    set (b := 2 ^ h) in *. clearbody b. set (D := d * 2 ^ s) in *.
    assert (Dec : forall a, 0 <= a < B -> 0 <= a / b < b /\ 0 <= a mod b < b /\ a = (a / b) * b + a mod b).
    { intros a Ha. split; [|split; [apply Z.mod_pos_bound; lia|rewrite Z.mul_comm; apply Z.div_mod; lia]].
      split; [apply Z.div_pos; lia|apply Z.div_lt_upper_bound; lia]. }
    destruct (Dec D ltac:(lia)) as (D1 & D2 & D3). destruct (Dec un10 S1) as (T1 & T2 & T3).
    set (v1 := D / b) in *. set (v0 := D mod b) in *. set (x1 := un10 / b) in *. set (x0 := un10 mod b) in *. clearbody v1 v0 x1 x0.
    assert (Hn1 : b <= 2 * v1).
    { assert (b * b < (2 * v1 + 2) * b) by lia. apply lt_of_mul in H; [|lia].
      (* b is even *)
      destruct (Z.eq_dec (2 * v1 + 1) b) as [Eo|]; [|lia]. exfalso.
      assert (Hev : exists t, b * b = 2 * t).
      { exists (2 ^ (w - 1)). rewrite <- EB. unfold LB. rewrite <- Z.pow_succ_r by lia. f_equal. lia. }
      destruct Hev as (t & Ht). rewrite <- Eo in Ht. lia. }
    rewrite D3 in S2 at 1.
    assert (Q1e : hd_fix w 3 b v1 v0 x1 (un32 / v1) (tr (un32 - tr (un32 / v1 * v1))) = (un32 * b + x1) / (v1 * b + v0)).
    { apply hd_digit; try assumption; try lia; reflexivity. }
    rewrite Q1e. clear Q1e. rewrite <- D3. rewrite <- D3 in S2.
    set (q1 := (un32 * b + x1) / D).
    assert (HD0 : 0 < D) by lia.
    pose proof (Z.div_mod (un32 * b + x1) D ltac:(lia)) as DM1. pose proof (Z.mod_pos_bound (un32 * b + x1) D HD0) as MB1. fold q1 in DM1.
    assert (Et1 : tr (un32 * b + x1 - q1 * D) = (un32 * b + x1) mod D).
    { rewrite tr_small by (unfold below; lia). lia. }
    rewrite Et1. set (un21 := (un32 * b + x1) mod D) in *. clearbody un21.
    assert (Hq1 : 0 <= q1 < b).
    { assert (0 <= un32 * b) by (apply Z.mul_nonneg_nonneg; lia). assert ((un32 + 1) * b <= D * b) by (apply Z.mul_le_mono_nonneg_r; lia).
      split; [apply Z.div_pos; lia|apply Z.div_lt_upper_bound; lia]. }
    clearbody q1.
    assert (Q0e : hd_fix w 3 b v1 v0 x0 (un21 / v1) (tr (un21 - tr (un21 / v1 * v1))) = (un21 * b + x0) / (v1 * b + v0)).
    { apply hd_digit; try assumption; try lia; reflexivity. }
    rewrite Q0e. clear Q0e. rewrite <- D3.
    set (q0 := (un21 * b + x0) / D).
    pose proof (Z.div_mod (un21 * b + x0) D ltac:(lia)) as DM0. pose proof (Z.mod_pos_bound (un21 * b + x0) D HD0) as MB0. fold q0 in DM0.
    set (R := (un21 * b + x0) mod D) in *. clearbody R.
    assert (Hq0 : 0 <= q0 < b).
    { assert (0 <= un21 * b) by (apply Z.mul_nonneg_nonneg; lia). assert ((un21 + 1) * b <= D * b) by (apply Z.mul_le_mono_nonneg_r; lia).
      split; [apply Z.div_pos; lia|apply Z.div_lt_upper_bound; lia]. }
    clearbody q0.
    rewrite (tr_small w (un21 * b + x0 - q0 * D)) by (unfold below; lia).
    assert (Hqq : 0 <= q1 * b + q0 < B) by (rewrite EB; apply combine_range; lia). rewrite (tr_small w (q1 * b + q0)) by exact Hqq.
    rewrite Z.shiftr_div_pow2 by lia.
    assert (EF : (n1 * B + n0) * 2 ^ s = (q1 * b + q0) * D + R).
    { rewrite <- S3, T3. transitivity ((un32 * b + x1) * b + x0); [rewrite EB; ring|]. rewrite DM1.
      transitivity (D * q1 * b + (un21 * b + x0)); [ring|]. rewrite DM0. ring. }
    unfold D in EF, MB0.
    assert (ER : R = (n1 * B + n0 - (q1 * b + q0) * d) * 2 ^ s) by lia.
    replace (un21 * b + x0 - q0 * D) with R by lia. rewrite ER, Z.div_mul by lia.
    assert (HR : 0 <= n1 * B + n0 - (q1 * b + q0) * d < d).
    { split; [apply (le_of_mul _ _ (2 ^ s)); lia|apply (lt_of_mul _ _ (2 ^ s)); lia]. }
    destruct (div_eq_bounds (n1 * B + n0) d (q1 * b + q0) ltac:(lia) ltac:(lia)) as [F1 F2]. rewrite F1, F2. reflexivity.
Qed.
End MpnDiv.
