(* The binary gcd loops: exactness of gcd, Bezout coefficients and modular inverses. *)
From Coq Require Import Znumtheory.
From Verif.Base Require Import Prelude.
From Verif.Model Require Import Encoding MpnMod NumTheory.

Section Until.
Context {S R : Type} (Inv : S -> Prop) (Post : R -> Prop) (m : S -> Z) (f : S -> S + R).
Hypothesis Hstep : forall s, Inv s -> match f s with inl s' => Inv s' /\ 0 <= m s' < m s | inr r => Post r end.

Lemma until_run : forall p s, Inv s ->
  match until p f s with inl s' => Inv s' /\ 0 <= m s' /\ m s' <= m s - Zpos p | inr r => Post r end.
Proof using Hstep.
  induction p as [p IH|p IH|]; intros s Hs; cbn [until].
  - pose proof (Hstep s Hs) as H0. destruct (f s) as [s1|r]; [|exact H0]. destruct H0 as [I1 M1].
    pose proof (IH s1 I1) as H1. destruct (until p f s1) as [s2|r]; [|exact H1]. destruct H1 as (I2 & N2 & M2).
    pose proof (IH s2 I2) as H2. destruct (until p f s2) as [s3|r]; [|exact H2]. destruct H2 as (I3 & N3 & M3).
    split; [exact I3|]. split; [exact N3|]. rewrite Pos2Z.inj_xI. lia.
  - pose proof (IH s Hs) as H1. destruct (until p f s) as [s2|r]; [|exact H1]. destruct H1 as (I2 & N2 & M2).
    pose proof (IH s2 I2) as H2. destruct (until p f s2) as [s3|r]; [|exact H2]. destruct H2 as (I3 & N3 & M3).
    split; [exact I3|]. split; [exact N3|]. rewrite Pos2Z.inj_xO. lia.
  - pose proof (Hstep s Hs) as H0. destruct (f s) as [s1|r]; [|exact H0]. destruct H0 as [I1 M1]. split; [exact I1|]. lia.
Qed.
Lemma until_done : forall p s, Inv s -> m s < Zpos p -> exists r, until p f s = inr r /\ Post r.
Proof using Hstep.
  intros p s Hs Hm. pose proof (until_run p s Hs) as H. destruct (until p f s) as [s'|r]; [exfalso; lia|].
  exists r. split; [reflexivity|exact H].
Qed.
End Until.

Lemma ctz_nonneg u : 0 <= ctz u.
Proof. destruct u as [|p|p]; cbn [ctz]; try lia. induction p; cbn [pos_ctz]; lia. Qed.
Lemma ctz_spec u : 0 < u -> exists o, u = 2 ^ ctz u * o /\ Z.odd o = true /\ 0 < o.
Proof.
  destruct u as [|p|p]; intros H; try lia. clear H. induction p as [p IH|p IH|]; cbn [ctz pos_ctz].
  - exists (Zpos (xI p)). split; [reflexivity|]. split; [reflexivity|lia].
  - destruct IH as (o & E & O & P). exists o. split; [|split; assumption]. cbn [ctz] in E.
    pose proof (ctz_nonneg (Zpos p)) as N. cbn [ctz] in N. rewrite Pos2Z.inj_xO, E at 1. rewrite Z.pow_add_r by lia. ring.
  - exists 1. split; [reflexivity|]. split; [reflexivity|lia].
Qed.
Lemma oddp_spec u : 0 < u -> u = 2 ^ ctz u * oddp u /\ Z.odd (oddp u) = true /\ 0 < oddp u <= u.
Proof.
  intros H. destruct (ctz_spec u H) as (o & E & O & P). pose proof (ctz_nonneg u) as N.
  assert (Hp : 0 < 2 ^ ctz u) by (apply Z.pow_pos_nonneg; lia).
  assert (Eo : oddp u = o).
  { unfold oddp. rewrite Z.shiftr_div_pow2 by lia. rewrite E at 1. rewrite Z.mul_comm, Z.div_mul by lia. reflexivity. }
  rewrite Eo. split; [exact E|]. split; [exact O|]. split; [exact P|]. assert (o <= 2 ^ ctz u * o) by nia. lia.
Qed.
Lemma odd_rel2 : forall v k, Z.odd v = true -> rel_prime (2 ^ Z.of_nat k) v.
Proof.
  intros v k Hv. assert (H2 : rel_prime 2 v).
  { apply prime_rel_prime; [exact prime_2|]. intros [q Hq]. rewrite Hq, Z.odd_mul in Hv. cbn in Hv. rewrite andb_false_r in Hv. discriminate. }
  induction k as [|k IH].
  - cbn. apply rel_prime_1.
  - rewrite Nat2Z.inj_succ, Z.pow_succ_r by lia. apply rel_prime_sym. apply rel_prime_mult; apply rel_prime_sym; assumption.
Qed.
Lemma gcd_pow2_l k u v : 0 <= k -> Z.odd v = true -> Z.gcd (2 ^ k * u) v = Z.gcd u v.
Proof.
  intros Hk Hv. assert (Hr : rel_prime (2 ^ k) v) by (rewrite <- (Z2Nat.id k) by lia; apply odd_rel2; exact Hv).
  apply Z.gcd_unique; [apply Z.gcd_nonneg| | |].
  - apply Z.divide_mul_r. apply Z.gcd_divide_l.
  - apply Z.gcd_divide_r.
  - intros q H1 H2. apply Z.gcd_greatest; [|exact H2]. apply (Gauss q (2 ^ k) u H1).
    apply (rel_prime_div v (2 ^ k) q); [apply rel_prime_sym; exact Hr|exact H2].
Qed.
Lemma gcd_oddp u v : 0 < u -> 0 < v -> Z.odd u = true \/ Z.odd v = true -> Z.gcd (oddp u) (oddp v) = Z.gcd u v.
Proof.
  intros Hu Hv Ho. destruct (oddp_spec u Hu) as (Eu & Ou & _). destruct (oddp_spec v Hv) as (Ev & Ov & _).
  pose proof (ctz_nonneg u) as Nu. pose proof (ctz_nonneg v) as Nv.
  destruct Ho as [Ho|Ho].
  - assert (E : Z.gcd u v = Z.gcd u (oddp v)).
    { rewrite (Z.gcd_comm u v), (Z.gcd_comm u (oddp v)). rewrite Ev at 1. apply gcd_pow2_l; assumption. }
    rewrite E. rewrite Eu at 2. symmetry. apply gcd_pow2_l; assumption.
  - assert (E : Z.gcd u v = Z.gcd (oddp u) v) by (rewrite Eu at 1; apply gcd_pow2_l; assumption).
    rewrite E. rewrite (Z.gcd_comm (oddp u) v), (Z.gcd_comm (oddp u)). rewrite Ev at 2. symmetry. apply gcd_pow2_l; assumption.
Qed.
Lemma gcd_sub_l u v : Z.gcd (u - v) v = Z.gcd u v.
Proof. rewrite Z.gcd_comm. rewrite (Z.gcd_sub_diag_r v u). apply Z.gcd_comm. Qed.
Lemma gcd_sub_r u v : Z.gcd u (v - u) = Z.gcd u v.
Proof. apply Z.gcd_sub_diag_r. Qed.

(* one step of the loop, on values *)
Lemma gcd_step_spec g : forall s : Z * Z,
  (0 <= fst s /\ 0 < snd s /\ (Z.odd (fst s) = true \/ Z.odd (snd s) = true) /\ Z.gcd (fst s) (snd s) = g) ->
  match gcd_step s with
  | inl s' => (0 <= fst s' /\ 0 < snd s' /\ (Z.odd (fst s') = true \/ Z.odd (snd s') = true) /\ Z.gcd (fst s') (snd s') = g) /\
              0 <= fst s' + snd s' < fst s + snd s
  | inr r => r = g
  end.
Proof.
  intros [u v]. cbn [fst snd]. intros (Hu & Hv & Ho & Hg). cbn [gcd_step]. destruct (Z.eqb_spec u 0) as [E|N].
  - subst u. rewrite Z.gcd_0_l in Hg. rewrite <- Hg. symmetry. apply Z.abs_eq. lia.
  - assert (Hu' : 0 < u) by lia. pose proof (gcd_oddp u v Hu' Hv Ho) as G.
    destruct (oddp_spec u Hu') as (_ & Ou & Bu). destruct (oddp_spec v Hv) as (_ & Ov & Bv).
    destruct (Z.leb_spec (oddp v) (oddp u)) as [L|L]; cbn [fst snd].
    + split; [|lia]. split; [lia|]. split; [lia|]. split; [right; exact Ov|]. rewrite gcd_sub_l, G. exact Hg.
    + split; [|lia]. split; [lia|]. split; [lia|]. split; [left; exact Ou|]. rewrite gcd_sub_r, G. exact Hg.
Qed.

Lemma lor_pos x y : 0 < x -> 0 < y -> 0 < Z.lor x y.
Proof.
  intros Hx Hy. assert (0 <= Z.lor x y) by (apply Z.lor_nonneg; lia). assert (Z.lor x y <> 0); [|lia]. intros E. apply Z.lor_eq_0_iff in E. lia.
Qed.
Lemma ctz_lor_min : forall p q, pos_ctz (Pos.lor p q) = Z.min (pos_ctz p) (pos_ctz q).
Proof.
  induction p as [p IH|p IH|]; destruct q as [q|q|]; cbn [Pos.lor pos_ctz];
    try (pose proof (ctz_nonneg (Zpos p)) as Np; cbn [ctz] in Np); try (pose proof (ctz_nonneg (Zpos q)) as Nq; cbn [ctz] in Nq);
    try rewrite IH; lia.
Qed.
Lemma ctz_lor x y : 0 < x -> 0 < y -> ctz (Z.lor x y) = Z.min (ctz x) (ctz y).
Proof. destruct x as [|p|p]; destruct y as [|q|q]; intros; try lia. cbn [Z.lor ctz]. apply ctz_lor_min. Qed.

(* dividing both operands by the common power of two *)
Lemma common_shift x y : 0 < x -> 0 < y -> let r := Z.min (ctz x) (ctz y) in
  0 <= r /\ x = 2 ^ r * Z.shiftr x r /\ y = 2 ^ r * Z.shiftr y r /\ 0 < Z.shiftr x r <= x /\ 0 < Z.shiftr y r <= y /\
  (Z.odd (Z.shiftr x r) = true \/ Z.odd (Z.shiftr y r) = true).
Proof.
  intros Hx Hy. cbv zeta. destruct (ctz_spec x Hx) as (o & E & O & P). destruct (ctz_spec y Hy) as (o' & E' & O' & P').
  pose proof (ctz_nonneg x) as N. pose proof (ctz_nonneg y) as N'. set (a := ctz x) in *. set (b := ctz y) in *. clearbody a b.
  assert (K : forall c r o, 0 <= r <= c -> 0 < o -> Z.shiftr (2 ^ c * o) r = 2 ^ (c - r) * o /\ 2 ^ c * o = 2 ^ r * (2 ^ (c - r) * o) /\ 0 < 2 ^ (c - r) * o <= 2 ^ c * o).
  { clear. intros c r o Hr Ho. assert (E : 2 ^ c = 2 ^ r * 2 ^ (c - r)) by (rewrite <- Z.pow_add_r by lia; f_equal; lia).
    assert (P1 : 0 < 2 ^ r) by (apply Z.pow_pos_nonneg; lia). assert (P2 : 0 < 2 ^ (c - r)) by (apply Z.pow_pos_nonneg; lia).
    split; [|split].
    - rewrite Z.shiftr_div_pow2 by lia. rewrite E. replace (2 ^ r * 2 ^ (c - r) * o) with ((2 ^ (c - r) * o) * 2 ^ r) by ring. apply Z.div_mul. lia.
    - rewrite E. ring.
    - split; [apply Z.mul_pos_pos; lia|]. rewrite E. assert (0 < 2 ^ (c - r) * o) by (apply Z.mul_pos_pos; lia). nia. }
  destruct (Z.le_ge_cases a b) as [L|L].
  - rewrite Z.min_l by exact L. rewrite E, E'. destruct (K a a o (conj N (Z.le_refl a)) P) as (A1 & A2 & A3). destruct (K b a o' (conj N L) P') as (B1 & B2 & B3).
    rewrite A1, B1. split; [exact N|]. split; [exact A2|]. split; [exact B2|]. split; [exact A3|]. split; [exact B3|]. left.
    rewrite Z.sub_diag. rewrite Z.pow_0_r, Z.mul_1_l. exact O.
  - rewrite Z.min_r by exact L. rewrite E, E'. destruct (K a b o (conj N' L) P) as (A1 & A2 & A3). destruct (K b b o' (conj N' (Z.le_refl b)) P') as (B1 & B2 & B3).
    rewrite A1, B1. split; [exact N'|]. split; [exact A2|]. split; [exact B2|]. split; [exact A3|]. split; [exact B3|]. right.
    rewrite Z.sub_diag. rewrite Z.pow_0_r, Z.mul_1_l. exact O'.
Qed.

Lemma mpn_gcd_spec x y : 0 < x -> 0 < y -> mpn_gcd x y = Some (Z.gcd x y).
Proof.
  intros Hx Hy. unfold mpn_gcd. rewrite (ctz_lor x y Hx Hy). destruct (common_shift x y Hx Hy) as (R & Ex & Ey & Bx & By & Od).
  set (r := Z.min (ctz x) (ctz y)) in *. clearbody r. set (u := Z.shiftr x r) in *. set (v := Z.shiftr y r) in *. clearbody u v.
  destruct (until_done (fun s : Z * Z => 0 <= fst s /\ 0 < snd s /\ (Z.odd (fst s) = true \/ Z.odd (snd s) = true) /\ Z.gcd (fst s) (snd s) = Z.gcd u v)
    (fun g => g = Z.gcd u v) (fun s => fst s + snd s) gcd_step (gcd_step_spec (Z.gcd u v)) (Z.to_pos (x + y + 1)) (u, v)) as (g & E & G).
  - cbn [fst snd]. split; [lia|]. split; [lia|]. split; [exact Od|reflexivity].
  - cbn [fst snd]. rewrite Z2Pos.id by lia. lia.
  - rewrite E, G. f_equal. rewrite Z.shiftl_mul_pow2 by lia. rewrite Ex, Ey. rewrite Z.gcd_mul_mono_l.
    rewrite Z.abs_eq by (apply Z.pow_nonneg; lia). apply Z.mul_comm.
Qed.
Lemma mpz_gcd_spec x y : mpz_gcd x y = Some (Z.gcd x y).
Proof.
  unfold mpz_gcd. destruct (Z.eqb_spec x 0) as [->|Nx]; [reflexivity|].
  destruct (Z.eqb_spec y 0) as [->|Ny]; [destruct x; reflexivity|].
  rewrite mpn_gcd_spec by lia. rewrite Z.gcd_abs_l, Z.gcd_abs_r. reflexivity.
Qed.
Lemma mpz_lcm_spec x y : mpz_lcm x y = Some (Z.lcm x y).
Proof.
  unfold mpz_lcm. destruct (Z.eqb_spec x 0) as [->|Nx]; cbn [orb]; [reflexivity|].
  destruct (Z.eqb_spec y 0) as [->|Ny]; cbn [orb]; [rewrite Z.lcm_0_r; reflexivity|].
  rewrite mpz_gcd_spec. f_equal. unfold Z.lcm. assert (G : Z.gcd x y <> 0) by (intros E; apply Z.gcd_eq_0_l in E; lia).
  destruct (Z.gcd_divide_l x y) as [a Ha]. destruct (Z.gcd_divide_r x y) as [b Hb]. set (g := Z.gcd x y) in *. clearbody g.
  assert (E1 : Z.quot x g = a) by (rewrite Ha; apply Z.quot_mul; exact G).
  assert (E2 : y / g = b) by (rewrite Hb; apply Z.div_mul; exact G). rewrite E1, E2, Hb, Ha. f_equal. ring.
Qed.
