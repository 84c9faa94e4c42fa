(* Powers by repeated squaring and Newton's iteration for integer roots. *)
From Verif.Base Require Import Prelude.
From Verif.Model Require Import Encoding MpnMod NumTheory.
From Verif.Proof Require Import NumGcd.

Lemma pow_pos_spec : forall p z u, pow_pos p z u = z * u ^ Zpos p.
Proof.
  induction p as [p IH|p IH|]; intros z u; cbn [pow_pos].
  - rewrite IH. rewrite Pos2Z.inj_xI, Z.pow_add_r, Z.pow_mul_r, Z.pow_1_r, Z.pow_2_r by lia. ring.
  - rewrite IH. rewrite Pos2Z.inj_xO, Z.pow_mul_r, Z.pow_2_r by lia. reflexivity.
  - rewrite Z.pow_1_r. reflexivity.
Qed.
Lemma sq_pos_spec : forall p z, sq_pos p z = z ^ (2 ^ Zpos (Pos.size p)).
Proof.
  assert (K : forall q z, (z * z) ^ (2 ^ Zpos q) = z ^ (2 ^ Zpos (Pos.succ q))).
  { intros q z. rewrite Pos2Z.inj_succ, Z.pow_succ_r by lia. rewrite Z.pow_mul_r by lia. rewrite Z.pow_2_r. reflexivity. }
  induction p as [p IH|p IH|]; intros z; cbn [sq_pos Pos.size]; [rewrite IH; apply K|rewrite IH; apply K|]. rewrite <- Z.pow_2_r. reflexivity.
Qed.
Lemma pow2_of_land y : 1 < y -> Z.land y (y - 1) = 0 -> y = 2 ^ (Z.log2 (y - 1) + 1).
Proof.
  intros Hy Hl. pose proof (Z.log2_spec y ltac:(lia)) as [L1 L2]. pose proof (Z.log2_nonneg y) as Lk. set (k := Z.log2 y) in *. rewrite Z.pow_succ_r in L2 by lia.
  assert (E : y = 2 ^ k).
  { destruct (Z.eq_dec y (2 ^ k)) as [e|n]; [exact e|exfalso].
    assert (B1 : Z.testbit y k = true) by (apply Z.bit_log2; lia).
    assert (B2 : Z.testbit (y - 1) k = true).
    { assert (Ek : Z.log2 (y - 1) = k) by (apply Z.log2_unique; [lia|rewrite Z.pow_succ_r by lia; lia]). rewrite <- Ek. apply Z.bit_log2. lia. }
    assert (B : Z.testbit (Z.land y (y - 1)) k = true) by (rewrite Z.land_spec, B1, B2; reflexivity). rewrite Hl, Z.bits_0 in B. discriminate. }
  assert (Hk : 0 < k). { destruct (Z.eq_dec k 0) as [e|n]; [rewrite e in E; cbn in E; lia|lia]. }
  clearbody k. assert (Ek : Z.log2 (y - 1) = k - 1). { rewrite E. rewrite Z.sub_1_r. apply Z.log2_pred_pow2. exact Hk. }
  rewrite Ek. replace (k - 1 + 1) with k by lia. exact E.
Qed.
Lemma size_log2 p : Zpos (Pos.size p) = Z.log2 (Zpos p) + 1.
Proof. destruct p as [p|p|]; cbn [Pos.size Z.log2]; try rewrite Pos2Z.inj_succ; lia. Qed.
Lemma mpz_pow_ui_spec x y : 0 <= y -> mpz_pow_ui x y = x ^ y.
Proof.
  intros Hy. unfold mpz_pow_ui. destruct (Z.eqb_spec y 0) as [->|N0]; [reflexivity|]. destruct (Z.eqb_spec y 1) as [->|N1]; [rewrite Z.pow_1_r; reflexivity|].
  destruct (Z.eqb_spec x 0) as [->|Nx]; [rewrite Z.pow_0_l by lia; reflexivity|].
  destruct (Z.eqb_spec (Z.land y (y - 1)) 0) as [E|E].
  - apply pow2_of_land in E; [|lia]. destruct (y - 1) as [|p|p] eqn:Ep; try lia. rewrite sq_pos_spec, size_log2. rewrite <- E. reflexivity.
  - destruct y as [|p|p]; try lia. rewrite pow_pos_spec. ring.
Qed.

(* the tangent line of s^k lies below the curve *)
Lemma tangent : forall (n : nat) r s, 0 <= r -> 0 <= s -> r ^ (Z.of_nat (S n)) - s ^ (Z.of_nat (S n)) >= Z.of_nat (S n) * s ^ (Z.of_nat n) * (r - s).
Proof.
  induction n as [|n IH]; intros r s Hr Hs.
  - change (Z.of_nat 1) with 1. change (Z.of_nat 0) with 0. rewrite !Z.pow_1_r, Z.pow_0_r. lia.
  - pose proof (IH r s Hr Hs) as I. set (k := Z.of_nat (S n)) in *. assert (Hk : 0 < k) by lia.
    replace (Z.of_nat (S (S n))) with (Z.succ k) by lia. replace (Z.of_nat n) with (k - 1) in I by lia.
    rewrite !Z.pow_succ_r by lia. assert (Ek : s ^ k = s * s ^ (k - 1)) by (rewrite <- Z.pow_succ_r by lia; f_equal; lia).
    assert (Pk : 0 <= s ^ (k - 1)) by (apply Z.pow_nonneg; lia). set (c := s ^ (k - 1)) in *. set (R := r ^ k) in *. rewrite Ek in *. clearbody c R k.
    assert (I' : r * (R - s * c) >= r * (k * c * (r - s))) by (apply Z.le_ge; apply Z.mul_le_mono_nonneg_l; lia).
    assert (Q : 0 <= k * c * ((r - s) * (r - s))) by (apply Z.mul_nonneg_nonneg; [apply Z.mul_nonneg_nonneg; lia|apply Z.square_nonneg]).
    replace (r * R - s * (s * c)) with (r * (R - s * c) + s * c * (r - s)) by ring.
    replace (Z.succ k * (s * c) * (r - s)) with (r * (k * c * (r - s)) + s * c * (r - s) - k * c * ((r - s) * (r - s))) by (unfold Z.succ; ring). lia.
Qed.

Section Newton.
Variables (x k r : Z).
Hypothesis Hk : 1 <= k.
Hypothesis Hr : 0 <= r /\ r ^ k <= x < (r + 1) ^ k.

Lemma newton s : 0 < s -> let u := (s * (k - 1) + x / s ^ (k - 1)) / k in r <= u /\ (r < s -> 0 <= u < s).
Proof using Hk Hr.
  intros Hs. cbv zeta. assert (Hp : 0 < s ^ (k - 1)) by (apply Z.pow_pos_nonneg; lia).
  assert (Ek : s ^ k = s * s ^ (k - 1)) by (rewrite <- Z.pow_succ_r by lia; f_equal; lia).
  assert (L : k * r - s * (k - 1) <= x / s ^ (k - 1)).
  { apply Z.div_le_lower_bound; [exact Hp|]. pose proof (tangent (Z.to_nat (k - 1)) r s (proj1 Hr)) as T.
    rewrite Nat2Z.inj_succ, Z2Nat.id in T by lia. replace (Z.succ (k - 1)) with k in T by lia. specialize (T ltac:(lia)).
    rewrite Ek in T. replace (s ^ (k - 1) * (k * r - s * (k - 1))) with (k * s ^ (k - 1) * (r - s) + s * s ^ (k - 1)) by ring. lia. }
  assert (A : r <= (s * (k - 1) + x / s ^ (k - 1)) / k) by (apply Z.div_le_lower_bound; lia). split; [exact A|].
  intros Hrs. split; [lia|]. apply Z.div_lt_upper_bound; [lia|].
  assert (x / s ^ (k - 1) < s).
  { apply Z.div_lt_upper_bound; [exact Hp|]. rewrite Z.mul_comm, <- Ek. apply (Z.lt_le_trans _ ((r + 1) ^ k)); [lia|]. apply Z.pow_le_mono_l. lia. }
  lia.
Qed.
End Newton.

Lemma root_exists k x : 1 <= k -> 0 <= x -> exists r, 0 <= r /\ r ^ k <= x < (r + 1) ^ k.
Proof.
  intros Hk. revert x. apply natlike_ind.
  - exists 0. rewrite Z.pow_0_l by lia. rewrite Z.pow_1_l by lia. lia.
  - intros x Hx (r & R0 & R1 & R2). destruct (Z.eq_dec (Z.succ x) ((r + 1) ^ k)) as [e|n].
    + exists (r + 1). split; [lia|]. split; [lia|]. rewrite e. apply Z.pow_lt_mono_l; lia.
    + exists r. lia.
Qed.
Lemma root_lt_start k x r : 1 <= k -> 0 < x -> 0 <= r /\ r ^ k <= x -> r < 2 ^ ((bitlen x + k - 1) / k + 1).
Proof.
  intros Hk Hx [R0 R1]. unfold bitlen. destruct (Z.eqb_spec x 0) as [e|_]; [lia|]. rewrite Z.abs_eq by lia.
  pose proof (Z.log2_spec x Hx) as [_ L2]. pose proof (Z.log2_nonneg x) as L0. set (l := Z.log2 x) in *. clearbody l.
  replace (l + 1 + k - 1) with (l + k) by lia.
  assert (D : l + 1 <= k * ((l + k) / k)). { pose proof (Z.div_mod (l + k) k ltac:(lia)). pose proof (Z.mod_pos_bound (l + k) k ltac:(lia)). lia. }
  assert (Dn : 0 <= (l + k) / k) by (apply Z.div_pos; lia). set (d := (l + k) / k) in *. clearbody d.
  assert (B : r < 2 ^ d).
  { destruct (Z.lt_ge_cases r (2 ^ d)) as [G|G]; [exact G|exfalso].
    assert (P1 : (2 ^ d) ^ k <= r ^ k) by (apply Z.pow_le_mono_l; split; [apply Z.pow_nonneg; lia|exact G]).
    rewrite <- Z.pow_mul_r in P1 by lia. assert (P2 : 2 ^ Z.succ l <= 2 ^ (d * k)) by (apply Z.pow_le_mono_r; lia). lia. }
  apply (Z.lt_le_trans _ (2 ^ d)); [exact B|]. apply Z.pow_le_mono_r; lia.
Qed.

Lemma quot_neg_l a b : 0 < b -> Z.quot (- a) b = - Z.quot a b.
Proof. intros H. apply Z.quot_opp_l. lia. Qed.

(* the loop on |x|, sg being the sign of x *)
Lemma root_loop x k r sg p s0 : 1 <= k -> 0 < x -> 0 <= r -> r ^ k <= x < (r + 1) ^ k -> (sg = 1 \/ sg = -1 /\ Z.odd k = true) -> r < s0 -> s0 < Zpos p ->
  until p (root_step (sg * x) k) (sg * s0) = inr (sg * r).
Proof.
  intros Hk Hx Hr0 Hr Hsg Hs0 Hp.
  destruct (until_done (fun s => exists t, s = sg * t /\ r <= t /\ 0 < t) (fun s => s = sg * r) (fun s => sg * s) (root_step (sg * x) k)) with (p := p) (s := sg * s0) as (v & E & ->).
  - intros s (t & -> & Ht & Ht0). destruct (newton x k r Hk (conj Hr0 Hr) t Ht0) as [N1 N2].
    unfold root_step. rewrite mpz_pow_ui_spec by lia.
    assert (Ep : (sg * t) ^ (k - 1) = t ^ (k - 1)).
    { rewrite Z.pow_mul_l. destruct Hsg as [->|[-> Ok]]; [rewrite Z.pow_1_l by lia; ring|].
      assert (Oe : Z.even (k - 1) = true). { rewrite <- Z.negb_odd, Z.odd_sub, Ok. reflexivity. }
      apply Z.even_spec in Oe. destruct Oe as [j Hj]. rewrite Hj. rewrite Z.pow_mul_r by lia. change ((-1) ^ 2) with 1. rewrite Z.pow_1_l by lia. ring. }
    rewrite Ep. assert (Pp : 0 < t ^ (k - 1)) by (apply Z.pow_pos_nonneg; lia).
    assert (Eq : Z.quot (sg * x) (t ^ (k - 1)) = sg * (x / t ^ (k - 1))).
    { destruct Hsg as [->|[-> _]]; [rewrite !Z.mul_1_l; apply Z.quot_div_nonneg; lia|]. replace (-1 * x) with (- x) by ring. rewrite quot_neg_l by lia. rewrite Z.quot_div_nonneg by lia. ring. }
    rewrite Eq. set (q := x / t ^ (k - 1)) in *. assert (Hq : 0 <= q) by (apply Z.div_pos; lia). clearbody q.
    assert (Eu : Z.quot (sg * t * (k - 1) + sg * q) k = sg * ((t * (k - 1) + q) / k)).
    { replace (sg * t * (k - 1) + sg * q) with (sg * (t * (k - 1) + q)) by ring. assert (0 <= t * (k - 1) + q) by (apply Z.add_nonneg_nonneg; [apply Z.mul_nonneg_nonneg|]; lia).
      destruct Hsg as [->|[-> _]]; [rewrite !Z.mul_1_l; apply Z.quot_div_nonneg; lia|]. replace (-1 * (t * (k - 1) + q)) with (- (t * (k - 1) + q)) by ring. rewrite quot_neg_l by lia. rewrite Z.quot_div_nonneg by lia. ring. }
    rewrite Eu. set (u := (t * (k - 1) + q) / k) in *. clearbody u. assert (Hu : 0 <= u) by (clear - N1 Hr0; lia).
    assert (Ab : forall z, 0 <= z -> Z.abs (sg * z) = z) by (clear - Hsg; intros z Hz; destruct Hsg as [->|[-> _]]; lia).
    rewrite (Ab u Hu), (Ab t) by lia. assert (Sq : forall z, sg * (sg * z) = z) by (intros z; destruct Hsg as [->|[-> _]]; lia).
    destruct (Z.ltb_spec u t) as [L|L].
    + rewrite !Sq. split; [|lia]. exists u. split; [reflexivity|]. split; [exact N1|].
      destruct (Z.eq_dec u 0) as [e|n]; [|lia]. exfalso. assert (r = 0) by (clear - e N1 Hr0; lia). subst r. rewrite Z.add_0_l, Z.pow_1_l in Hr by lia. lia.
    + f_equal. destruct (Z.eq_dec t r) as [e|n]; [exact e|exfalso]. lia.
  - exists s0. split; [reflexivity|]. lia.
  - destruct Hsg as [->|[-> _]]; lia.
  - exact E.
Qed.
(* truncated k-th root *)
Definition is_root (x k s : Z) : Prop := Z.abs s ^ k <= Z.abs x < (Z.abs s + 1) ^ k /\ 0 <= s * x.
Lemma mpz_rootrem_spec x k : 1 <= k -> (0 <= x \/ Z.odd k = true) -> exists s, mpz_rootrem x k = Ok (Some (s, x - s ^ k)) /\ is_root x k s.
Proof.
  intros Hk Hs. unfold mpz_rootrem. destruct (Z.eqb_spec k 0) as [e|_]; [lia|].
  assert (Ev : (x <? 0) && Z.even k = false). { destruct Hs as [H|H]; [destruct (Z.ltb_spec x 0); [lia|reflexivity]|]. rewrite <- Z.negb_odd, H. apply andb_false_r. }
  rewrite Ev. destruct (Z.eqb_spec x 0) as [->|Nx].
  { exists 0. rewrite Z.pow_0_l by lia. split; [reflexivity|]. unfold is_root. cbn [Z.abs]. rewrite Z.pow_0_l, Z.pow_1_l by lia. lia. }
  destruct (root_exists k (Z.abs x) Hk) as (r & R0 & R1); [lia|].
  assert (B : bitlen x = bitlen (Z.abs x)) by (unfold bitlen; rewrite Z.abs_involutive; destruct (Z.eqb_spec x 0); destruct (Z.eqb_spec (Z.abs x) 0); lia).
  assert (St : r < 2 ^ ((bitlen x + k - 1) / k + 1)) by (rewrite B; apply root_lt_start; [exact Hk|lia|lia]).
  set (u := 2 ^ ((bitlen x + k - 1) / k + 1)) in *. clearbody u. set (sg := Z.sgn x).
  assert (Hsg : sg = 1 \/ sg = -1 /\ Z.odd k = true). { destruct Hs as [H|H]; [left; unfold sg; lia|]. destruct (Z.ltb_spec x 0); [right|left]; unfold sg; [split; [lia|exact H]|lia]. }
  assert (Eu : (if x <? 0 then - u else u) = sg * u) by (unfold sg; destruct (Z.ltb_spec x 0); nia).
  assert (Ex : x = sg * Z.abs x) by (unfold sg; lia).
  rewrite Eu. assert (Ea : Z.abs (sg * u) = u) by (clear - Hsg St R0; destruct Hsg as [->|[-> _]]; lia). rewrite Ea. clearbody sg.
  assert (L : until (Z.to_pos (u + 1)) (root_step x k) (sg * u) = inr (sg * r)).
  { rewrite Ex at 1. apply root_loop; try assumption; try lia. }
  rewrite L. exists (sg * r). rewrite mpz_pow_ui_spec by lia. split; [reflexivity|]. unfold is_root.
  assert (Er : Z.abs (sg * r) = r) by (clear - Hsg R0; destruct Hsg as [->|[-> _]]; lia). rewrite Er. split; [exact R1|].
  rewrite Ex. replace (sg * r * (sg * Z.abs x)) with (sg * sg * (r * Z.abs x)) by ring. apply Z.mul_nonneg_nonneg; [destruct Hsg as [->|[-> _]]; lia|]. apply Z.mul_nonneg_nonneg; lia.
Qed.
Lemma sqrt_step_root x s : 0 <= x -> 0 < s -> sqrt_step x s = root_step x 2 s.
Proof.
  intros Hx Hs. unfold sqrt_step, root_step. rewrite mpz_pow_ui_spec by lia. change (2 - 1) with 1. rewrite Z.pow_1_r, Z.mul_1_r.
  assert (E : Z.shiftr (s + Z.quot x s) 1 = Z.quot (s + Z.quot x s) 2).
  { rewrite Z.shiftr_div_pow2 by lia. symmetry. apply Z.quot_div_nonneg; [|lia]. pose proof (Z.quot_pos x s Hx Hs). lia. }
  rewrite E. reflexivity.
Qed.
Lemma sqrt_loop x r s0 p : 0 < x -> 0 <= r -> r ^ 2 <= x < (r + 1) ^ 2 -> r < s0 -> s0 < Zpos p -> until p (sqrt_step x) s0 = inr r.
Proof.
  intros Hx Hr0 Hr Hs0 Hp.
  destruct (until_done (fun t => r <= t /\ 0 < t) (fun s => s = r) (fun s => s) (sqrt_step x)) with (p := p) (s := s0) as (v & E & ->).
  - intros t [Ht Ht0]. destruct (newton x 2 r ltac:(lia) (conj Hr0 Hr) t Ht0) as [N1 N2].
    change (2 - 1) with 1 in *. rewrite Z.pow_1_r, Z.mul_1_r in *. unfold sqrt_step.
    rewrite Z.quot_div_nonneg by lia. rewrite Z.shiftr_div_pow2 by lia. change (2 ^ 1) with 2.
    set (u := (t + x / t) / 2) in *. clearbody u. rewrite !Z.abs_eq by lia. destruct (Z.ltb_spec u t) as [L|L].
    + split; [|lia]. split; [exact N1|]. destruct (Z.eq_dec u 0) as [e|n]; [|lia]. exfalso. assert (r = 0) by lia. subst r. change ((0 + 1) ^ 2) with 1 in Hr. lia.
    + destruct (Z.eq_dec t r) as [e|n]; [exact e|exfalso]. lia.
  - lia.
  - exact Hp.
  - exact E.
Qed.
Lemma mpz_sqrtrem_spec x : 0 <= x -> mpz_sqrtrem x = Ok (Some (Z.sqrt x, x - Z.sqrt x * Z.sqrt x)).
Proof.
  intros Hx. unfold mpz_sqrtrem. destruct (Z.ltb_spec x 0) as [L|_]; [lia|]. destruct (Z.eqb_spec x 0) as [->|N]; [reflexivity|].
  pose proof (Z.sqrt_spec x Hx) as S. pose proof (Z.sqrt_nonneg x) as S0. set (r := Z.sqrt x) in *. clearbody r. unfold Z.succ in S.
  pose proof (root_lt_start 2 x r ltac:(lia) ltac:(lia)) as B. replace (bitlen x + 2 - 1) with (bitlen x + 1) in B by lia.
  rewrite (sqrt_loop x r) with (s0 := 2 ^ ((bitlen x + 1) / 2 + 1)); [reflexivity|lia|exact S0|rewrite !Z.pow_2_r; exact S| |].
  - apply B. rewrite Z.pow_2_r. lia.
  - assert (0 < 2 ^ ((bitlen x + 1) / 2 + 1)). { apply Z.pow_pos_nonneg; [lia|]. assert (0 <= bitlen x) by (unfold bitlen; destruct (x =? 0); [lia|]; pose proof (Z.log2_nonneg (Z.abs x)); lia). assert (0 <= (bitlen x + 1) / 2) by (apply Z.div_pos; lia). lia. }
    rewrite Z2Pos.id by lia. lia.
Qed.
Lemma mpz_perfect_square_spec x : exists b, mpz_perfect_square_p x = Some b /\ (b = true <-> exists s, x = s * s).
Proof.
  unfold mpz_perfect_square_p. destruct (Z.ltb_spec x 0) as [L|L].
  - exists false. split; [reflexivity|]. split; [discriminate|]. intros [s Hs]. nia.
  - rewrite mpz_sqrtrem_spec by exact L. eexists. split; [reflexivity|]. rewrite Z.eqb_eq. split.
    + intros E. exists (Z.sqrt x). lia.
    + intros [s ->]. replace (s * s) with (Z.abs s * Z.abs s) by (destruct s; cbn; lia). rewrite Z.sqrt_square by lia. lia.
Qed.
