(* Extended gcd and modular inverses. *)
From Coq Require Import Znumtheory.
From Verif.Base Require Import Prelude.
From Verif.Model Require Import Encoding MpnMod NumTheory.
From Verif.Proof Require Import NumGcd.

Lemma odd_ev z : Z.odd z = true -> exists q, z = 2 * q + 1.
Proof. intros H. apply Z.odd_spec in H. exact H. Qed.
Lemma nodd_ev z : Z.odd z = false -> exists q, z = 2 * q.
Proof. intros H. rewrite <- Z.negb_even in H. apply negb_false_iff in H. apply Z.even_spec in H. exact H. Qed.

Lemma sgn_abs_l y : Z.abs y * Z.sgn y = y.
Proof. destruct y; cbn; lia. Qed.
Lemma quot_2 z q : z = 2 * q -> Z.quot z 2 = q.
Proof. intros ->. rewrite Z.mul_comm. apply Z.quot_mul. lia. Qed.

(* one halving keeps A*up + B*vp at half its value *)
Lemma halve_spec up vp a b h : (Z.odd up = true \/ Z.odd vp = true) -> a * up + b * vp = 2 * h ->
  fst (halve up vp (a, b)) * up + snd (halve up vp (a, b)) * vp = h.
Proof.
  intros Ho E. unfold halve.
  assert (Eo : xorb (Z.odd a && Z.odd up) (Z.odd b && Z.odd vp) = false).
  { rewrite <- !Z.odd_mul, <- Z.odd_add, E, Z.odd_mul. reflexivity. }
  destruct (Z.odd a || Z.odd b) eqn:Ab; cbn [fst snd].
  - assert (K1 : Z.odd (a + vp) = false).
    { rewrite Z.odd_add. destruct (Z.odd up); destruct (Z.odd vp); destruct (Z.odd a); destruct (Z.odd b); cbn in *; try reflexivity; try discriminate; destruct Ho; discriminate. }
    assert (K2 : Z.odd (b - up) = false).
    { rewrite Z.odd_sub. destruct (Z.odd up); destruct (Z.odd vp); destruct (Z.odd a); destruct (Z.odd b); cbn in *; try reflexivity; try discriminate; destruct Ho; discriminate. }
    apply nodd_ev in K1. apply nodd_ev in K2. destruct K1 as [p Hp]. destruct K2 as [q Hq].
    rewrite (quot_2 _ _ Hp), (quot_2 _ _ Hq). nia.
  - apply orb_false_iff in Ab. destruct Ab as [K1 K2]. apply nodd_ev in K1. apply nodd_ev in K2. destruct K1 as [p Hp]. destruct K2 as [q Hq].
    rewrite (quot_2 _ _ Hp), (quot_2 _ _ Hq). nia.
Qed.
Lemma halves_spec up vp : (Z.odd up = true \/ Z.odd vp = true) -> forall n ab h, fst ab * up + snd ab * vp = 2 ^ Z.of_nat n * h ->
  let ab' := Nat.iter n (halve up vp) ab in fst ab' * up + snd ab' * vp = h.
Proof.
  intros Ho. induction n as [|n IH]; intros ab h E.
  - cbn. cbn in E. rewrite E. destruct h; reflexivity.
  - cbv zeta. change (Nat.iter (S n) (halve up vp) ab) with (halve up vp (Nat.iter n (halve up vp) ab)). pose proof (IH ab (2 * h)) as I. cbv zeta in I.
    destruct (Nat.iter n (halve up vp) ab) as [a b]. cbn [fst snd] in I. apply halve_spec; [exact Ho|]. apply I.
    rewrite E, Nat2Z.inj_succ, Z.pow_succ_r by lia. ring.
Qed.

Definition einv (up vp g : Z) (s : Z * Z * (Z * Z) * (Z * Z)) : Prop :=
  let '(u, v, ab, cd) := s in
  0 <= u /\ 0 < v /\ (Z.odd u = true \/ Z.odd v = true) /\ Z.gcd u v = g /\
  fst ab * up + snd ab * vp = u /\ fst cd * up + snd cd * vp = v.
Lemma egcd_step_spec up vp g : (Z.odd up = true \/ Z.odd vp = true) -> forall s, einv up vp g s ->
  match egcd_step up vp s with
  | inl s' => einv up vp g s' /\ 0 <= fst (fst (fst s')) + snd (fst (fst s')) < fst (fst (fst s)) + snd (fst (fst s))
  | inr r => fst r = g /\ fst (snd r) * up + snd (snd r) * vp = g
  end.
Proof.
  intros Hodd [[[u v] ab] cd] (Hu & Hv & Ho & Hg & Eab & Ecd). unfold egcd_step. destruct (Z.eqb_spec u 0) as [E|N].
  - cbn [fst snd]. rewrite E, Z.gcd_0_l, Z.abs_eq in Hg by lia. split; [exact Hg|]. rewrite <- Hg. exact Ecd.
  - assert (Hu' : 0 < u) by lia. pose proof (gcd_oddp u v Hu' Hv Ho) as G.
    destruct (oddp_spec u Hu') as (Eu & Ou & Bu). destruct (oddp_spec v Hv) as (Ev & Ov & Bv).
    change (Z.shiftr u (ctz u)) with (oddp u). change (Z.shiftr v (ctz v)) with (oddp v).
    pose proof (halves_spec up vp Hodd (Z.to_nat (ctz u)) ab (oddp u)) as H1. rewrite Z2Nat.id in H1 by apply ctz_nonneg. rewrite Eab in H1. specialize (H1 Eu).
    pose proof (halves_spec up vp Hodd (Z.to_nat (ctz v)) cd (oddp v)) as H2. rewrite Z2Nat.id in H2 by apply ctz_nonneg. rewrite Ecd in H2. specialize (H2 Ev).
    cbv zeta in H1, H2. unfold halves. cbv zeta.
    destruct (Nat.iter (Z.to_nat (ctz u)) (halve up vp) ab) as [a b]. destruct (Nat.iter (Z.to_nat (ctz v)) (halve up vp) cd) as [c d].
    cbn [fst snd] in H1, H2. set (u' := oddp u) in *. set (v' := oddp v) in *. clearbody u' v'.
    clear Eab Ecd Eu Ev.
    destruct (Z.leb_spec v' u') as [L|L]; cbn [fst snd].
    + split; [|lia]. unfold einv. cbn [fst snd]. split; [lia|]. split; [lia|]. split; [right; exact Ov|].
      split; [rewrite gcd_sub_l, G; exact Hg|]. split; [|exact H2]. rewrite <- H1, <- H2. ring.
    + split; [|lia]. unfold einv. cbn [fst snd]. split; [lia|]. split; [lia|]. split; [left; exact Ou|].
      split; [rewrite gcd_sub_r, G; exact Hg|]. split; [exact H1|]. rewrite <- H1, <- H2. ring.
Qed.
Lemma mpz_gcdext_spec x y : exists s t, mpz_gcdext x y = Some (Z.gcd x y, s, t) /\ s * x + t * y = Z.gcd x y.
Proof.
  unfold mpz_gcdext. destruct (Z.eqb_spec x 0) as [->|Nx].
  { exists 0, (Z.sgn y). split; [reflexivity|]. change (Z.gcd 0 y) with (Z.abs y). rewrite Z.mul_0_l, Z.mul_comm. cbn [Z.add]. apply Z.sgn_abs. }
  destruct (Z.eqb_spec y 0) as [->|Ny].
  { exists (Z.sgn x), 0. rewrite Z.gcd_0_r. split; [reflexivity|]. rewrite Z.mul_0_r, Z.add_0_r, Z.mul_comm. apply Z.sgn_abs. }
  cbv zeta. destruct (common_shift (Z.abs x) (Z.abs y)) as (R & Ex & Ey & Bx & By & Od); [lia|lia|].
  set (r := Z.min (ctz (Z.abs x)) (ctz (Z.abs y))) in *. clearbody r.
  set (up := Z.shiftr (Z.abs x) r) in *. set (vp := Z.shiftr (Z.abs y) r) in *. clearbody up vp.
  destruct (until_done (einv up vp (Z.gcd up vp)) (fun r => fst r = Z.gcd up vp /\ fst (snd r) * up + snd (snd r) * vp = Z.gcd up vp)
    (fun s => fst (fst (fst s)) + snd (fst (fst s))) (egcd_step up vp) (egcd_step_spec up vp (Z.gcd up vp) Od)
    (Z.to_pos (Z.abs x + Z.abs y + 1)) (up, vp, (1, 0), (0, 1))) as ([v [c d]] & E & G & Bz).
  - unfold einv. cbn [fst snd]. split; [lia|]. split; [lia|]. split; [exact Od|]. split; [reflexivity|]. split; ring.
  - cbn [fst snd]. rewrite Z2Pos.id by lia. lia.
  - rewrite E. cbn [fst snd] in G, Bz. exists (if x <? 0 then - c else c), (if y <? 0 then - d else d).
    assert (Eg : Z.shiftl v r = Z.gcd x y).
    { rewrite Z.shiftl_mul_pow2 by lia. rewrite <- (Z.gcd_abs_l x), <- (Z.gcd_abs_r _ y). rewrite Ex, Ey, Z.gcd_mul_mono_l.
      rewrite Z.abs_eq by (apply Z.pow_nonneg; lia). rewrite G. apply Z.mul_comm. }
    rewrite Eg. split; [reflexivity|]. rewrite <- Eg, Z.shiftl_mul_pow2 by lia. rewrite G, <- Bz.
    assert (S1 : (if x <? 0 then - c else c) * x = c * Z.abs x) by (destruct (Z.ltb_spec x 0); [rewrite Z.abs_neq by lia|rewrite Z.abs_eq by lia]; ring).
    assert (S2 : (if y <? 0 then - d else d) * y = d * Z.abs y) by (destruct (Z.ltb_spec y 0); [rewrite Z.abs_neq by lia|rewrite Z.abs_eq by lia]; ring).
    rewrite S1, S2, Ex, Ey. ring.
Qed.

(* halving modulo an odd number *)
Lemma mhalve_spec y x a h : Z.odd y = true -> 0 <= a < y -> (exists q, a * x = 2 * h + q * y) ->
  0 <= mhalve y a < y /\ exists q, mhalve y a * x = h + q * y.
Proof.
  intros Hy Ha [q Hq]. apply odd_ev in Hy. destruct Hy as [k Hk]. unfold mhalve.
  assert (K : exists t, (if Z.odd a then a + y else a) = 2 * t /\ (2 * t = a + y \/ 2 * t = a)).
  { destruct (Z.odd a) eqn:Oa.
    - apply odd_ev in Oa. destruct Oa as [j Hj]. exists (j + k + 1). split; [lia|left; lia].
    - apply nodd_ev in Oa. destruct Oa as [j Hj]. exists j. split; [lia|right; lia]. }
  destruct K as (t & Et & Ct). rewrite Et. rewrite Z.shiftr_div_pow2 by lia. change (2 ^ 1) with 2. rewrite (Z.mul_comm 2 t), Z.div_mul by lia.
  split; [lia|]. assert (Cq : exists q', 2 * (t * x) = 2 * h + q' * y).
  { destruct Ct as [C|C]; [exists (q + x)|exists q]; rewrite Z.mul_assoc, C; [|exact Hq]. rewrite Z.mul_add_distr_r, Hq. ring. }
  destruct Cq as [q' Hq']. destruct (Z.odd q') eqn:Oq.
  - apply odd_ev in Oq. destruct Oq as [j ->]. exfalso. rewrite Hk in Hq'. assert (X : 2 * (t * x - h - j * (2 * k + 1) - k) = 1) by lia. lia.
  - apply nodd_ev in Oq. destruct Oq as [j ->]. exists j. lia.
Qed.
Lemma mhalves_spec y x : Z.odd y = true -> forall n a h, 0 <= a < y -> (exists q, a * x = 2 ^ Z.of_nat n * h + q * y) ->
  let a' := Nat.iter n (mhalve y) a in 0 <= a' < y /\ exists q, a' * x = h + q * y.
Proof.
  intros Hy. induction n as [|n IH]; intros a h Ha [q Hq].
  - cbn. split; [exact Ha|]. exists q. rewrite Hq. change (2 ^ Z.of_nat 0) with 1. ring.
  - cbv zeta. change (Nat.iter (S n) (mhalve y) a) with (mhalve y (Nat.iter n (mhalve y) a)). destruct (IH a (2 * h) Ha) as [I1 I2].
    { exists q. rewrite Hq, Nat2Z.inj_succ, Z.pow_succ_r by lia. ring. }
    apply mhalve_spec; assumption.
Qed.
Lemma sub_mod_spec y x a b u v : 0 <= a < y -> 0 <= b < y -> (exists q, a * x = u + q * y) -> (exists q, b * x = v + q * y) ->
  0 <= sub_mod a b y < y /\ exists q, sub_mod a b y * x = u - v + q * y.
Proof.
  intros Ha Hb [q Hq] [q' Hq']. unfold sub_mod. destruct (Z.ltb_spec a b) as [L|L]; (split; [lia|]).
  - exists (q - q' + x). transitivity (a * x - b * x + y * x); [ring|]. rewrite Hq, Hq'. ring.
  - exists (q - q'). transitivity (a * x - b * x); [ring|]. rewrite Hq, Hq'. ring.
Qed.

Definition iinv (x y g : Z) (s : Z * Z * Z * Z) : Prop :=
  let '(u, v, a, b) := s in
  0 <= u /\ 0 < v /\ (Z.odd u = true \/ Z.odd v = true) /\ Z.gcd u v = g /\ 0 <= a < y /\ 0 <= b < y /\
  (exists q, a * x = u + q * y) /\ (exists q, b * x = v + q * y).
Lemma inv_step_spec x y g : Z.odd y = true -> forall s, iinv x y g s ->
  match inv_step y s with
  | inl s' => iinv x y g s' /\ 0 <= fst (fst (fst s')) + snd (fst (fst s')) < fst (fst (fst s)) + snd (fst (fst s))
  | inr r => fst r = g /\ 0 <= snd r < y /\ exists q, snd r * x = g + q * y
  end.
Proof.
  intros Hy [[[u v] a] b] (Hu & Hv & Ho & Hg & Ha & Hb & Ea & Eb). unfold inv_step. destruct (Z.eqb_spec u 0) as [E|N].
  - cbn [fst snd]. rewrite E, Z.gcd_0_l, Z.abs_eq in Hg by lia. split; [exact Hg|]. split; [exact Hb|]. rewrite <- Hg. exact Eb.
  - assert (Hu' : 0 < u) by lia. pose proof (gcd_oddp u v Hu' Hv Ho) as G.
    destruct (oddp_spec u Hu') as (Eu & Ou & Bu). destruct (oddp_spec v Hv) as (Ev & Ov & Bv).
    change (Z.shiftr u (ctz u)) with (oddp u). change (Z.shiftr v (ctz v)) with (oddp v).
    pose proof (mhalves_spec y x Hy (Z.to_nat (ctz u)) a (oddp u) Ha) as H1. rewrite Z2Nat.id in H1 by apply ctz_nonneg. rewrite <- Eu in H1. specialize (H1 Ea).
    pose proof (mhalves_spec y x Hy (Z.to_nat (ctz v)) b (oddp v) Hb) as H2. rewrite Z2Nat.id in H2 by apply ctz_nonneg. rewrite <- Ev in H2. specialize (H2 Eb).
    cbv zeta in H1, H2. cbv zeta. generalize dependent (Nat.iter (Z.to_nat (ctz u)) (mhalve y) a). intros a' [A1 A2].
    generalize dependent (Nat.iter (Z.to_nat (ctz v)) (mhalve y) b). intros b' [B1 B2].
    clear Ea Eb. set (u' := oddp u) in *. set (v' := oddp v) in *. clearbody u' v'. clear Eu Ev.
    destruct (Z.leb_spec v' u') as [L|L]; cbn [fst snd].
    + destruct (sub_mod_spec y x a' b' u' v' A1 B1 A2 B2) as [M1 M2].
      split; [|lia]. split; [lia|]. split; [lia|]. split; [right; exact Ov|].
      split; [rewrite gcd_sub_l, G; exact Hg|]. split; [exact M1|]. split; [exact B1|]. split; [exact M2|exact B2].
    + destruct (sub_mod_spec y x b' a' v' u' B1 A1 B2 A2) as [M1 M2].
      split; [|lia]. split; [lia|]. split; [lia|]. split; [left; exact Ou|].
      split; [rewrite gcd_sub_r, G; exact Hg|]. split; [exact A1|]. split; [exact M1|]. split; [exact A2|exact M2].
Qed.
(* what a returned inverse is *)
Definition inverse_of (x y : Z) (r : option Z) : Prop :=
  match r with
  | Some z => Z.gcd x y = 1 /\ 0 <= z < Z.abs y /\ (x * z) mod Z.abs y = 1 mod Z.abs y
  | None => Z.gcd x y <> 1
  end.
Lemma mpn_invert_spec x y : 0 <= x -> 1 < y -> Z.odd y = true -> exists r, mpn_invert x y = Some r /\ inverse_of x y r.
Proof.
  intros Hx Hy Oy. unfold mpn_invert. destruct (Z.eqb_spec y 1) as [E|_]; [lia|].
  destruct (until_done (iinv x y (Z.gcd x y)) (fun r => fst r = Z.gcd x y /\ 0 <= snd r < y /\ exists q, snd r * x = Z.gcd x y + q * y)
    (fun s => fst (fst (fst s)) + snd (fst (fst s))) (inv_step y) (inv_step_spec x y (Z.gcd x y) Oy)
    (Z.to_pos (x + y + 1)) (x, y, 1, 0)) as ([v b] & E & G & Bb & q & Hq).
  - unfold iinv. split; [lia|]. split; [lia|]. split; [right; exact Oy|]. split; [reflexivity|]. split; [lia|]. split; [lia|].
    split; [exists 0; ring|]. exists (-1). ring.
  - cbn [fst snd]. rewrite Z2Pos.id by lia. lia.
  - rewrite E. cbn [fst snd] in *. subst v. destruct (Z.eqb_spec (Z.gcd x y) 1) as [G1|G1].
    + eexists. split; [reflexivity|]. cbn [inverse_of]. split; [exact G1|]. rewrite Z.abs_eq by lia. split; [exact Bb|].
      rewrite Z.mul_comm, Hq, G1. apply Z_mod_plus_full.
    + eexists. split; [reflexivity|]. exact G1.
Qed.
Lemma gcd_mod_abs x y : y <> 0 -> Z.gcd (x mod Z.abs y) y = Z.gcd x y.
Proof. intros H. rewrite <- (Z.gcd_abs_r _ y), <- (Z.gcd_abs_r x y). rewrite Z.gcd_mod by lia. apply Z.gcd_comm. Qed.
Lemma mpz_invert_spec x y : 1 < Z.abs y -> exists r, mpz_invert x y = Some r /\ inverse_of x y r.
Proof.
  intros Hy. unfold mpz_invert. destruct (Z.eqb_spec x 0) as [->|Nx]; cbn [orb].
  { exists None. split; [reflexivity|]. cbn [inverse_of]. change (Z.gcd 0 y) with (Z.abs y). lia. }
  destruct (Z.eqb_spec y 0) as [->|Ny]; [cbn in Hy; lia|]. destruct (Z.eqb_spec (Z.abs y) 1) as [E|N1]; [lia|].
  destruct (Z.odd y) eqn:Oy.
  - set (x' := if (x <? 0) || (Z.abs y <=? Z.abs x) then x mod Z.abs y else x).
    assert (K : 0 <= x' /\ Z.gcd x' y = Z.gcd x y /\ x' mod Z.abs y = x mod Z.abs y).
    { unfold x'. destruct ((x <? 0) || (Z.abs y <=? Z.abs x)) eqn:C.
      - split; [apply Z.mod_pos_bound; lia|]. split; [apply gcd_mod_abs; exact Ny|]. apply Z.mod_mod. lia.
      - apply orb_false_iff in C. destruct C as [C _]. apply Z.ltb_ge in C. split; [exact C|]. split; reflexivity. }
    clearbody x'. destruct K as (K1 & K2 & K3).
    destruct (mpn_invert_spec x' (Z.abs y) K1 Hy) as (r & E & I); [destruct y; exact Oy|]. exists r. split; [exact E|].
    destruct r as [z|]; cbn [inverse_of] in *; rewrite ?Z.gcd_abs_r, ?Z.abs_involutive, ?K2 in I; [|exact I].
    destruct I as (I1 & I2 & I3). split; [exact I1|]. split; [exact I2|]. rewrite <- I3. rewrite <- (Z.mul_mod_idemp_l x), <- (Z.mul_mod_idemp_l x') by lia. rewrite K3. reflexivity.
  - destruct (mpz_gcdext_spec x y) as (s & t & E & Bz). rewrite E. destruct (Z.eqb_spec (Z.gcd x y) 1) as [G|G].
    + eexists. split; [reflexivity|]. cbn [inverse_of]. split; [exact G|]. split; [apply Z.mod_pos_bound; lia|].
      rewrite Z.mul_mod_idemp_r by lia. replace (x * s) with (1 + (- t * Z.sgn y) * Z.abs y); [apply Z_mod_plus_full|].
      rewrite <- Z.mul_assoc, (Z.mul_comm (Z.sgn y)), sgn_abs_l. lia.
    + eexists. split; [reflexivity|]. exact G.
Qed.
