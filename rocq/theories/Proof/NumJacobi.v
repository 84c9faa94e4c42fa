(* The binary Jacobi loop computes any function that obeys the laws of the Jacobi symbol. *)
From Verif.Base Require Import Prelude.
From Verif.Model Require Import Encoding MpnMod NumTheory.
From Verif.Proof Require Import NumGcd NumInv.

(* the laws: periodicity, the two trivial values, multiplicativity, the value at 2, and reciprocity *)
Definition jacobi_laws (J : Z -> Z -> Z) : Prop :=
  (forall a n, 0 < n -> Z.odd n = true -> J (a mod n) n = J a n) /\
  (forall a, J a 1 = 1) /\
  (forall n, 1 < n -> Z.odd n = true -> J 0 n = 0) /\
  (forall a b n, 0 < n -> Z.odd n = true -> J (a * b) n = J a n * J b n) /\
  (forall n, 0 < n -> Z.odd n = true -> J 2 n = if (n mod 8 =? 1) || (n mod 8 =? 7) then 1 else -1) /\
  (forall m n, 0 < m -> 0 < n -> Z.odd m = true -> Z.odd n = true -> J m n = (if (m mod 4 =? 3) && (n mod 4 =? 3) then -1 else 1) * J n m).

Section Laws.
Variable J : Z -> Z -> Z.
Hypothesis HJ : jacobi_laws J.

Lemma flip8_two v : 0 < v -> Z.odd v = true -> J 2 v = if flip8 v then -1 else 1.
Proof using HJ.
  intros Hv Ov. destruct HJ as (_ & _ & _ & _ & H2 & _). rewrite (H2 v Hv Ov). unfold flip8.
  assert (B : v mod 8 = 1 \/ v mod 8 = 3 \/ v mod 8 = 5 \/ v mod 8 = 7).
  { apply odd_ev in Ov. destruct Ov as [q ->]. pose proof (Z.mod_pos_bound (2 * q + 1) 8 ltac:(lia)).
    pose proof (Z.div_mod (2 * q + 1) 8 ltac:(lia)). lia. }
  destruct B as [->|[->|[->| ->]]]; reflexivity.
Qed.
Lemma J_pow2 v : 0 < v -> Z.odd v = true -> forall n u, J (2 ^ Z.of_nat n * u) v = (if Z.odd (Z.of_nat n) && flip8 v then -1 else 1) * J u v.
Proof using HJ.
  intros Hv Ov. destruct (HJ) as (_ & _ & _ & HM & _ & _). induction n as [|n IH]; intros u.
  - change (2 ^ Z.of_nat 0) with 1. cbn [Z.of_nat Z.odd andb]. rewrite !Z.mul_1_l. reflexivity.
  - rewrite Nat2Z.inj_succ, Z.pow_succ_r by lia. rewrite <- Z.mul_assoc, HM by assumption. rewrite IH, flip8_two by assumption.
    rewrite Z.odd_succ, <- Z.negb_odd. destruct (Z.odd (Z.of_nat n)); destruct (flip8 v); cbn [negb andb]; ring.
Qed.
Lemma J_sub u v : 0 < v -> Z.odd v = true -> J (u - v) v = J u v.
Proof using HJ.
  intros Hv Ov. destruct HJ as (Hp & _). rewrite <- (Hp (u - v)), <- (Hp u) by assumption. f_equal.
  replace (u - v) with (u + (-1) * v) by ring. apply Z_mod_plus_full.
Qed.
Definition jinv (t : Z) (s : Z * Z * Z) : Prop := let '(u, v, j) := s in 0 <= u /\ 0 < v /\ Z.odd v = true /\ j * J u v = t.
Lemma neg_if_mul b j c : neg_if b j * c = j * ((if b then -1 else 1) * c).
Proof. unfold neg_if. destruct b; ring. Qed.
Lemma jac_step_spec t : forall s, jinv t s ->
  match jac_step s with
  | inl s' => jinv t s' /\ 0 <= fst (fst s') + snd (fst s') < fst (fst s) + snd (fst s)
  | inr r => (if fst r =? 1 then snd r else 0) = t
  end.
Proof using HJ.
  intros [[u v] j] (Hu & Hv & Ov & Ej). destruct (HJ) as (_ & H1 & H0 & HM & _ & HR). unfold jac_step. destruct (Z.eqb_spec u 0) as [E|N].
  - rewrite E in Ej. cbn [fst snd]. destruct (Z.eqb_spec v 1) as [E1|N1].
    + rewrite E1, H1 in Ej. lia.
    + rewrite H0 in Ej by (lia || assumption). lia.
  - assert (Hu' : 0 < u) by lia. destruct (oddp_spec u Hu') as (Eu & Ou & Bu). pose proof (ctz_nonneg u) as Nc.
    change (Z.shiftr u (ctz u)) with (oddp u).
    assert (Ej1 : neg_if (Z.odd (ctz u) && flip8 v) j * J (oddp u) v = t).
    { rewrite neg_if_mul. rewrite <- (Z2Nat.id (ctz u) Nc). rewrite <- J_pow2 by assumption. rewrite Z2Nat.id by exact Nc. rewrite <- Eu. exact Ej. }
    cbv zeta. set (j1 := neg_if (Z.odd (ctz u) && flip8 v) j) in *. clearbody j1. set (u1 := oddp u) in *. clearbody u1. clear Eu Ej.
    (* the swap *)
    set (T := if u1 <? v then (v, u1, neg_if ((v mod 4 =? 3) && (u1 mod 4 =? 3)) j1) else (u1, v, j1)).
    assert (K : exists a b i, T = (a, b, i) /\ 0 < b <= a /\ Z.odd a = true /\ Z.odd b = true /\ a + b = u1 + v /\ i * J a b = t).
    { unfold T. destruct (Z.ltb_spec u1 v) as [L|L].
      - exists v, u1, (neg_if ((v mod 4 =? 3) && (u1 mod 4 =? 3)) j1). split; [reflexivity|]. split; [lia|]. split; [exact Ov|]. split; [exact Ou|]. split; [lia|].
        rewrite neg_if_mul. rewrite (HR v u1) by (lia || assumption). rewrite Z.mul_assoc, <- Ej1. destruct ((v mod 4 =? 3) && (u1 mod 4 =? 3)) eqn:C.
        + assert (C' : (u1 mod 4 =? 3) && (v mod 4 =? 3) = true) by (rewrite andb_comm; exact C). rewrite (HR u1 v), C' by (lia || assumption). ring.
        + assert (C' : (u1 mod 4 =? 3) && (v mod 4 =? 3) = false) by (rewrite andb_comm; exact C). rewrite (HR u1 v), C' by (lia || assumption). ring.
      - exists u1, v, j1. split; [reflexivity|]. split; [lia|]. split; [exact Ou|]. split; [exact Ov|]. split; [lia|]. exact Ej1. }
    destruct K as (a & b & i & -> & Hb & Oa & Ob & Sab & Ei). cbn [fst snd].
    assert (Ea : exists h, a - b = 2 * h). { apply nodd_ev. rewrite Z.odd_sub, Oa, Ob. reflexivity. } destruct Ea as [h Eh].
    assert (Es : Z.shiftr (a - b) 1 = h) by (rewrite Eh, Z.shiftr_div_pow2 by lia; rewrite Z.mul_comm; apply Z.div_mul; lia).
    rewrite Es. split; [|lia]. split; [lia|]. split; [lia|]. split; [exact Ob|]. rewrite neg_if_mul.
    rewrite <- flip8_two by (lia || assumption). rewrite <- HM by (lia || assumption). rewrite <- Eh, J_sub by (lia || assumption). exact Ei.
Qed.
Lemma mpn_jacobi_spec x y : 0 <= x -> 0 < y -> Z.odd y = true -> mpn_jacobi x y = Some (J x y).
Proof using HJ.
  intros Hx Hy Oy. unfold mpn_jacobi.
  destruct (until_done (jinv (J x y)) (fun r => (if fst r =? 1 then snd r else 0) = J x y) (fun s => fst (fst s) + snd (fst s)) jac_step (jac_step_spec (J x y))
    (Z.to_pos (x + y + 1)) (x, y, 1)) as ([v j] & E & G).
  - split; [exact Hx|]. split; [exact Hy|]. split; [exact Oy|]. ring.
  - cbn [fst snd]. rewrite Z2Pos.id by lia. lia.
  - rewrite E. cbn [fst snd] in G. rewrite G. reflexivity.
Qed.
Lemma mpz_jacobi_spec x y : Z.odd y = true -> mpz_jacobi x y = Ok (Some ((if (x <? 0) && (y <? 0) then -1 else 1) * J x (Z.abs y))).
Proof using HJ.
  intros Oy. unfold mpz_jacobi. rewrite Oy. cbn [negb]. cbv zeta.
  assert (Ny : 0 < Z.abs y) by (destruct y; cbn in Oy; try discriminate; lia). assert (Oa : Z.odd (Z.abs y) = true) by (destruct y; exact Oy).
  set (x' := if (x <? 0) || (Z.abs y <=? Z.abs x) then x mod Z.abs y else x).
  assert (K : 0 <= x' /\ J x' (Z.abs y) = J x (Z.abs y)).
  { unfold x'. destruct ((x <? 0) || (Z.abs y <=? Z.abs x)) eqn:C.
    - split; [apply Z.mod_pos_bound; lia|]. destruct HJ as (Hp & _). apply Hp; assumption.
    - apply orb_false_iff in C. destruct C as [C _]. apply Z.ltb_ge in C. split; [exact C|reflexivity]. }
  destruct K as [K1 K2]. rewrite (mpn_jacobi_spec x' (Z.abs y) K1 Ny Oa). rewrite K2. do 2 f_equal. unfold neg_if. destruct ((x <? 0) && (y <? 0)); ring.
Qed.
End Laws.
