(* Merkle-Damgard padding: shape and injectivity *)
From Verif.Base Require Import Prelude.
From Verif.Model Require Import Bio.
From Verif.Spec Require Import BlockSpec ShaSpec.
From Verif.Proof Require Import BlockProof.

Lemma md_pad_length B L enc m : (0 < B)%nat -> (L <= B)%nat -> (forall k n, length (enc k n) = k) ->
  exists q, length (md_pad B L enc m) = (q * B)%nat.
Proof.
  intros HB HL HE. unfold md_pad. rewrite !app_length, repeat_length, HE. cbn [length]. unfold md_zeros.
  set (n := length m). pose proof (Nat.div_mod (n + 1) B ltac:(lia)) as D1. pose proof (Nat.mod_upper_bound (n + 1) B ltac:(lia)) as U1.
  set (r := ((n + 1) mod B)%nat) in *. pose proof (Nat.div_mod (L + B - r) B ltac:(lia)) as D2.
  pose proof (Nat.mod_upper_bound (L + B - r) B ltac:(lia)) as U2.
  set (d := ((L + B - r) / B)%nat) in *. set (q := ((n + 1) / B)%nat) in *.
  exists (q + 2 - d)%nat.
  assert (d <= 2)%nat by nia. nia.
Qed.
Lemma blocks_concat B : (0 < B)%nat -> forall q m, length m = (q * B)%nat -> concat (blocks B m) = m.
Proof.
  intros HB. induction q as [|q IH]; intros m HL.
  - destruct m; [|discriminate HL]. rewrite blocks_nil by (cbn; lia). reflexivity.
  - rewrite blocks_cons by lia. cbn [concat]. rewrite IH by (rewrite skipn_length; lia). apply firstn_skipn.
Qed.
Lemma app_inj_r {A} (a1 a2 b1 b2 : list A) : length b1 = length b2 -> a1 ++ b1 = a2 ++ b2 -> a1 = a2 /\ b1 = b2.
Proof.
  intros HL E. assert (HA : length a1 = length a2) by (apply (f_equal (@length A)) in E; rewrite !app_length in E; lia).
  split.
  - rewrite <- (firstn_app_exact a1 b1 (length a1) eq_refl), E, HA. apply firstn_app_exact. reflexivity.
  - rewrite <- (skipn_app_exact a1 b1 (length a1) eq_refl), E, HA. apply skipn_app_exact. reflexivity.
Qed.
Lemma md_pad_inj B L enc m1 m2 : (L < B)%nat -> (forall k n, length (enc k n) = k) ->
  (forall x y, 0 <= x < 256 ^ Z.of_nat (B - L) -> 0 <= y < 256 ^ Z.of_nat (B - L) -> enc (B - L)%nat x = enc (B - L)%nat y -> x = y) ->
  8 * Z.of_nat (length m1) < 256 ^ Z.of_nat (B - L) -> 8 * Z.of_nat (length m2) < 256 ^ Z.of_nat (B - L) ->
  blocks B (md_pad B L enc m1) = blocks B (md_pad B L enc m2) -> m1 = m2.
Proof.
  intros HL HE HI H1 H2 E.
  destruct (md_pad_length B L enc m1 ltac:(lia) ltac:(lia) HE) as [q1 L1]. destruct (md_pad_length B L enc m2 ltac:(lia) ltac:(lia) HE) as [q2 L2].
  apply (f_equal (@concat Z)) in E. rewrite (blocks_concat B ltac:(lia) q1), (blocks_concat B ltac:(lia) q2) in E by auto.
  unfold md_pad in E. rewrite !app_assoc in E. apply app_inj_r in E; [|rewrite !HE; reflexivity]. destruct E as [E1 E2].
  apply HI in E2; [|lia|lia]. assert (EL : length m1 = length m2) by lia.
  rewrite EL in E1. apply app_inj_r in E1; [|reflexivity]. destruct E1 as [E1 _]. apply app_inj_r in E1; [|reflexivity]. apply E1.
Qed.
