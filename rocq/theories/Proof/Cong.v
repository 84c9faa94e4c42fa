(* Congruence modulo n, as Zdiv.eqm, with powers. *)
From Coq Require Import Znumtheory Zpow_facts.
From Verif.Base Require Import Prelude.
From Verif.Proof Require Import Fermat.

Notation "a ≡ b ⟦ n ⟧" := (Zdiv.eqm n a b) (at level 70, b at next level).

Lemma eqm_iff n a b : 0 < n -> (a ≡ b ⟦ n ⟧ <-> (n | a - b)).
Proof.
  intros Hn. unfold eqm. split; intros E.
  - apply Z.mod_divide; [lia|]. rewrite Zminus_mod, E, Z.sub_diag, Z.mod_0_l by lia. reflexivity.
  - destruct E as (c & E). replace a with (b + c * n) by lia. apply Z.mod_add. lia.
Qed.
Lemma eqm_small n a b : 0 <= a < n -> 0 <= b < n -> a ≡ b ⟦ n ⟧ -> a = b.
Proof. unfold eqm. intros Ha Hb E. rewrite !Z.mod_small in E by assumption. exact E. Qed.
Lemma eqm_mod n a : a mod n ≡ a ⟦ n ⟧. Proof. apply Zmod_eqm. Qed.
Lemma eqm_refl n a : a ≡ a ⟦ n ⟧. Proof. unfold eqm. reflexivity. Qed.
Lemma eqm_sym n a b : a ≡ b ⟦ n ⟧ -> b ≡ a ⟦ n ⟧. Proof. unfold eqm. intros ->. reflexivity. Qed.
Lemma eqm_trans n a b c : a ≡ b ⟦ n ⟧ -> b ≡ c ⟦ n ⟧ -> a ≡ c ⟦ n ⟧. Proof. unfold eqm. intros -> ->. reflexivity. Qed.
Lemma eqm_mul n a b c d : a ≡ b ⟦ n ⟧ -> c ≡ d ⟦ n ⟧ -> a * c ≡ b * d ⟦ n ⟧. Proof. intros H1 H2. apply Zmult_eqm; assumption. Qed.
Lemma eqm_add n a b c d : a ≡ b ⟦ n ⟧ -> c ≡ d ⟦ n ⟧ -> a + c ≡ b + d ⟦ n ⟧. Proof. intros H1 H2. apply Zplus_eqm; assumption. Qed.
Lemma eqm_sub n a b c d : a ≡ b ⟦ n ⟧ -> c ≡ d ⟦ n ⟧ -> a - c ≡ b - d ⟦ n ⟧. Proof. intros H1 H2. apply Zminus_eqm; assumption. Qed.
Lemma eqm_pow n a b e : a ≡ b ⟦ n ⟧ -> a ^ e ≡ b ^ e ⟦ n ⟧.
Proof.
  intros E. destruct (Z.neg_nonneg_cases e) as [N|P]; [rewrite !Z.pow_neg_r by exact N; apply eqm_refl|].
  revert e P. apply natlike_ind; [apply eqm_refl|]. intros e He IH. rewrite !Z.pow_succ_r by exact He. apply eqm_mul; assumption.
Qed.
Global Instance eqm_pow_proper n : Morphisms.Proper (Morphisms.respectful (eqm n) (Morphisms.respectful eq (eqm n))) Z.pow.
Proof. intros a b E e e' <-. apply eqm_pow. exact E. Qed.
Lemma eqm_div n m a b : 0 < n -> 0 < m -> (m | n) -> a ≡ b ⟦ n ⟧ -> a ≡ b ⟦ m ⟧.
Proof. intros Hn Hm D E. apply eqm_iff in E; [|exact Hn]. apply eqm_iff; [exact Hm|]. eapply Z.divide_trans; eassumption. Qed.
Lemma eqm_crt p q a b : 0 < p -> 0 < q -> rel_prime p q -> a ≡ b ⟦ p ⟧ -> a ≡ b ⟦ q ⟧ -> a ≡ b ⟦ p * q ⟧.
Proof.
  intros Hp Hq R E1 E2. apply eqm_iff in E1; [|exact Hp]. apply eqm_iff in E2; [|exact Hq]. apply eqm_iff; [nia|].
  destruct E1 as (u & E1). assert (D : (q | u)). { apply Gauss with p; [rewrite Z.mul_comm, <- E1; exact E2|apply rel_prime_sym; exact R]. }
  destruct D as (v & ->). exists v. rewrite E1. ring.
Qed.
Lemma eqm_0 n a : 0 < n -> (a ≡ 0 ⟦ n ⟧ <-> (n | a)).
Proof. intros Hn. rewrite eqm_iff by exact Hn. rewrite Z.sub_0_r. reflexivity. Qed.

(* exponents may be changed by multiples of p - 1, as long as they stay positive *)
Lemma fermat_exp p a x y : prime p -> 0 < x -> 0 < y -> x ≡ y ⟦ p - 1 ⟧ -> a ^ x ≡ a ^ y ⟦ p ⟧.
Proof.
  intros Hp Hx Hy E. pose proof (prime_ge_2 p Hp) as P2. destruct (Z.eq_dec (a mod p) 0) as [A0|A1].
  - assert (Z0 : forall e, 0 < e -> a ^ e ≡ 0 ⟦ p ⟧).
    { intros e He. eapply eqm_trans; [apply eqm_pow, (eqm_trans _ _ (a mod p)); [apply eqm_sym, eqm_mod|rewrite A0; apply eqm_refl]|].
      rewrite Z.pow_0_l by exact He. apply eqm_refl. }
    eapply eqm_trans; [apply Z0; exact Hx|]. apply eqm_sym, Z0. exact Hy.
  - assert (G : forall e k, 0 <= e -> 0 <= k -> a ^ (e + k * (p - 1)) ≡ a ^ e ⟦ p ⟧).
    { intros e k He Hk. rewrite Z.pow_add_r by nia. rewrite (Z.mul_comm k), Z.pow_mul_r by lia.
      eapply eqm_trans; [apply eqm_mul; [apply eqm_refl|apply eqm_pow with (b := 1)]|].
      - unfold eqm. rewrite fermat by assumption. rewrite Z.mod_small; lia.
      - rewrite Z.pow_1_l by exact Hk. rewrite Z.mul_1_r. apply eqm_refl. }
    assert (Q : forall e, 0 <= e -> a ^ e ≡ a ^ (e mod (p - 1)) ⟦ p ⟧).
    { intros e He. pose proof (Z.mod_pos_bound e (p - 1) ltac:(lia)) as B. rewrite (Z.div_mod e (p - 1)) at 1 by lia.
      rewrite Z.add_comm, (Z.mul_comm (p - 1)). apply G; [lia|]. apply Z.div_pos; lia. }
    destruct (Z.eq_dec p 2) as [->|N].
    { eapply eqm_trans; [apply Q; lia|]. eapply eqm_trans; [|apply eqm_sym, Q; lia]. change (2 - 1) with 1. rewrite !Z.mod_1_r. apply eqm_refl. }
    eapply eqm_trans; [apply Q; lia|]. unfold eqm in E. rewrite E. apply eqm_sym, Q. lia.
Qed.
