(* keccak_compress is the permutation of FIPS 202 *)
From Verif.Base Require Import Prelude.
From Verif.Model Require Import Bio Keccak.
From Verif.Spec Require Import KeccakSpec.

Definition lane_ok (v : Z) : Prop := 0 <= v < 2 ^ 64.

Lemma rotl64_lrot v n : lane_ok v -> 0 <= n < 64 -> rotl64 v n = lrot v n.
Proof.
  intros Hv Hn. unfold rotl64, lrot, w64. change M64 with (2 ^ 64). rewrite Z.shiftl_mul_pow2, Z.shiftr_div_pow2 by lia.
  assert (E : (v * 2 ^ n) mod 2 ^ 64 = (v mod 2 ^ (64 - n)) * 2 ^ n).
  { replace (2 ^ 64) with (2 ^ (64 - n) * 2 ^ n) by (rewrite <- Z.pow_add_r by lia; f_equal; lia).
    rewrite Z.mul_mod_distr_r by lia. reflexivity. }
  rewrite E. apply lor_add_low; [lia|]. split; [apply Z.div_pos; unfold lane_ok in Hv; lia|].
  apply Z.div_lt_upper_bound; [lia|]. rewrite <- Z.pow_add_r by lia. replace (64 - n + n) with 64 by lia. unfold lane_ok in Hv. lia.
Qed.
Lemma lrot_ok v n : lane_ok v -> 0 <= n < 64 -> lane_ok (lrot v n).
Proof.
  intros Hv Hn. unfold lane_ok in *. unfold lrot.
  assert (E : (v * 2 ^ n) mod 2 ^ 64 = (v mod 2 ^ (64 - n)) * 2 ^ n).
  { replace (2 ^ 64) with (2 ^ (64 - n) * 2 ^ n) by (rewrite <- Z.pow_add_r by lia; f_equal; lia).
    rewrite Z.mul_mod_distr_r by lia. reflexivity. }
  rewrite E. pose proof (Z.mod_pos_bound v (2 ^ (64 - n)) ltac:(lia)).
  assert (0 <= v / 2 ^ (64 - n) < 2 ^ n).
  { split; [apply Z.div_pos; lia|]. apply Z.div_lt_upper_bound; [lia|]. rewrite <- Z.pow_add_r by lia. replace (64 - n + n) with 64 by lia. lia. }
  assert (2 ^ 64 = 2 ^ (64 - n) * 2 ^ n) by (rewrite <- Z.pow_add_r by lia; f_equal; lia). nia.
Qed.
Lemma lxor_ok a b : lane_ok a -> lane_ok b -> lane_ok (Z.lxor a b).
Proof. apply lxor_range. lia. Qed.
Lemma andnot_ok a b : lane_ok a -> lane_ok b -> Z.land (not64 a) b = Z.land (Z.lnot a) b /\ lane_ok (Z.land (Z.lnot a) b).
Proof.
  intros Ha Hb. unfold lane_ok in *.
  assert (E : Z.land (not64 a) b = Z.land (Z.lnot a) b).
  { apply Z.bits_inj'. intros n Hn. rewrite !Z.land_spec. destruct (Z.ltb_spec n 64) as [H|H].
    - f_equal. unfold not64. change M64 with (2 ^ 64). replace (2 ^ 64 - 1 - a) with (Z.lnot a mod 2 ^ 64).
      + rewrite Z.mod_pow2_bits_low by lia. reflexivity.
      + unfold Z.lnot. replace (Z.pred (- a)) with ((2 ^ 64 - 1 - a) + (-1) * 2 ^ 64) by lia.
        rewrite Z.mod_add by lia. apply Z.mod_small. lia.
    - rewrite (Z.bits_above_log2 b n); [rewrite !andb_false_r; reflexivity|lia|].
      destruct (Z.eq_dec b 0) as [->|]; [cbn; lia|]. apply Z.log2_lt_pow2; [lia|].
      apply Z.lt_le_trans with (2 ^ 64); [lia|]. apply Z.pow_le_mono_r; lia. }
  split; [exact E|]. rewrite <- E. rewrite Z.land_comm. apply land_range_l; [lia|auto].
Qed.

Definition st_ok (A : list Z) : Prop := length A = 25%nat /\ Forall lane_ok A.

Ltac split25 A H :=
  do 25 (destruct A as [|? A]; [discriminate H|]); destruct A; [|discriminate H].
Ltac lanes HF := repeat match type of HF with Forall _ (_ :: _) => let h := fresh "K" in inversion HF as [|? ? h HF']; subst; clear HF; rename HF' into HF end.

Lemma k_theta_spec A : st_ok A -> k_theta A = theta A /\ st_ok (theta A).
Proof.
  intros [HL HF]. split25 A HL. lanes HF. clear HL HF.
  cbv -[Z.lxor rotl64 lrot lane_ok]. rewrite !Z.lxor_0_r.
  rewrite <- !Z.lxor_assoc.
  rewrite !rotl64_lrot by (try lia; repeat apply lxor_ok; auto).
  split; [reflexivity|]. split; [reflexivity|].
  repeat first [apply Forall_cons | apply Forall_nil]; repeat first [assumption | apply lxor_ok | apply lrot_ok; [|lia]].
Qed.
Lemma k_rho_spec A : st_ok A -> k_rho A = rho A /\ st_ok (rho A).
Proof.
  intros [HL HF]. split25 A HL. lanes HF. clear HL HF.
  cbv -[rotl64 lrot lane_ok].
  rewrite !rotl64_lrot by (auto; lia).
  assert (E0 : forall v, lane_ok v -> lrot v 0 = v).
  { intros v Hv. unfold lrot, lane_ok in *. change (64 - 0) with 64. rewrite Z.mul_1_r, Z.mod_small, Z.div_small by lia. lia. }
  rewrite E0 by auto.
  split; [reflexivity|]. split; [reflexivity|].
  repeat first [apply Forall_cons | apply Forall_nil]; first [assumption | apply lrot_ok; [assumption|lia]].
Qed.
Lemma k_pi_spec A : st_ok A -> k_pi A = pi A /\ st_ok (pi A).
Proof.
  intros [HL HF]. split25 A HL. lanes HF. clear HL HF.
  cbv -[lane_ok]. split; [reflexivity|]. split; [reflexivity|].
  repeat first [apply Forall_cons | apply Forall_nil]; assumption.
Qed.
Lemma k_chi_spec A : st_ok A -> k_chi A = chi A /\ st_ok (chi A).
Proof.
  intros [HL HF]. split25 A HL. lanes HF. clear HL HF.
  cbv -[lane_ok Z.lxor Z.land Z.lnot not64].
  repeat match goal with |- context [Z.land (not64 ?a) ?b] => rewrite (proj1 (andnot_ok a b ltac:(assumption) ltac:(assumption))) end.
  split; [reflexivity|]. split; [reflexivity|].
  repeat first [apply Forall_cons | apply Forall_nil]; (apply lxor_ok; [assumption|apply andnot_ok; assumption]).
Qed.
Lemma k_iota_spec ir A : st_ok A -> (ir < 24)%nat -> k_iota (nth ir keccak_RC 0) A = iota ir A /\ st_ok (iota ir A).
Proof.
  intros [HL HF] HI.
  assert (ER : nth ir keccak_RC 0 = RC ir /\ lane_ok (RC ir)).
  { assert (C : forallb (fun i => (nth i keccak_RC 0 =? RC i) && (0 <=? RC i) && (RC i <? 2 ^ 64)) (seq 0 24) = true) by (vm_compute; reflexivity).
    rewrite forallb_forall in C. specialize (C ir). rewrite in_seq in C. specialize (C ltac:(lia)).
    rewrite !andb_true_iff in C. unfold lane_ok. lia. }
  destruct ER as [-> HR].
  split25 A HL. lanes HF. clear HL HF. unfold iota. remember (RC ir) as rc eqn:Erc. clear Erc HI.
  cbv -[lane_ok Z.lxor]. split; [reflexivity|]. split; [reflexivity|].
  repeat first [apply Forall_cons | apply Forall_nil]; first [assumption | apply lxor_ok; assumption].
Qed.
Lemma keccak_round_spec ir A : st_ok A -> (ir < 24)%nat -> keccak_round A (nth ir keccak_RC 0) = rnd A ir /\ st_ok (rnd A ir).
Proof.
  intros H HI. unfold keccak_round, rnd.
  destruct (k_theta_spec A H) as [E1 H1]. rewrite E1. destruct (k_rho_spec _ H1) as [E2 H2]. rewrite E2.
  destruct (k_pi_spec _ H2) as [E3 H3]. rewrite E3. destruct (k_chi_spec _ H3) as [E4 H4]. rewrite E4. exact (k_iota_spec ir _ H4 HI).
Qed.
Lemma fold_map_rel {A B C} (f : A -> B -> A) (g : A -> C -> A) (h : C -> B) (P : A -> Prop) (Q : C -> Prop) :
  (forall i a, P a -> Q i -> f a (h i) = g a i /\ P (g a i)) ->
  forall l a, Forall Q l -> P a -> fold_left f (map h l) a = fold_left g l a /\ P (fold_left g l a).
Proof.
  intros H l. induction l as [|i l IH]; intros a HF Ha; [split; [reflexivity|exact Ha]|].
  inversion HF as [|? ? Hi HF']; subst. destruct (H i a Ha Hi) as [E Ha'].
  cbn [map fold_left]. rewrite E. apply IH; auto.
Qed.
Lemma keccak_round_spec' ir A : st_ok A -> (ir < 24)%nat -> keccak_round A ((fun i => nth i keccak_RC 0) ir) = rnd A ir /\ st_ok (rnd A ir).
Proof. exact (keccak_round_spec ir A). Qed.
Lemma RC_list : keccak_RC = map (fun i => nth i keccak_RC 0) (seq 0 24).
Proof. reflexivity. Qed.
Lemma rounds_lt : Forall (fun i => (i < 24)%nat) (seq 0 24).
Proof. apply Forall_forall. intros i Hi. apply in_seq in Hi. lia. Qed.
Lemma compress_fold A : keccak_compress A = fold_left keccak_round (map (fun i => nth i keccak_RC 0) (seq 0 24)) A.
Proof. rewrite <- RC_list. reflexivity. Qed.
Lemma keccak_f_fold A : keccak_f A = fold_left rnd (seq 0 24) A.
Proof. reflexivity. Qed.
Theorem keccak_compress_spec A : st_ok A -> keccak_compress A = keccak_f A /\ st_ok (keccak_f A).
Proof. intros H. rewrite compress_fold, keccak_f_fold. exact (fold_map_rel keccak_round rnd _ st_ok _ keccak_round_spec' (seq 0 24) A rounds_lt H). Qed.
