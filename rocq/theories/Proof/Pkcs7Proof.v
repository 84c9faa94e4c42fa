(* PKCS#7 padding and its constant-time removal *)
From Verif.Base Require Import Prelude.
From Verif.Model Require Import Bio Util Block Encoding Modes.
From Verif.Spec Require Import BlockSpec ModesSpec.
From Verif.Proof Require Import UtilProof BioProof BufCrypt.

Lemma bit_and r b : Z.land (if r : bool then 1 else 0) (if b : bool then 1 else 0) = if r && b then 1 else 0.
Proof. destruct r, b; reflexivity. Qed.
Lemma bit_or r b : Z.lor (if r : bool then 1 else 0) (if b : bool then 1 else 0) = if r || b then 1 else 0.
Proof. destruct r, b; reflexivity. Qed.
Lemma mask_bit x (b : bool) : 0 <= x < M32 -> Z.land x (w32 (- (if b then 1 else 0))) = if b then x else 0.
Proof.
  intros H. destruct b.
  - change (w32 (- (1))) with (2 ^ 32 - 1). rewrite land_mask by lia. apply Z.mod_small. rewrite <- M32_eq. exact H.
  - change (w32 (- 0)) with 0. apply Z.land_0_r.
Qed.

Lemma forallb_map {A C} (f : A -> C) p l : forallb p (map f l) = forallb (fun x => p (f x)) l.
Proof. induction l; cbn; [reflexivity|]. rewrite IHl. reflexivity. Qed.
Lemma forallb_ext {A} (p q : A -> bool) l : (forall x, p x = q x) -> forallb p l = forallb q l.
Proof. intros H. induction l; cbn; [reflexivity|]. rewrite IHl, H. reflexivity. Qed.

Lemma unpad_loop_spec bend left src : 0 <= bend < 2 ^ 31 -> byte left -> bytes src -> forall i (res : bool),
  0 <= i -> i + Z.of_nat (length src) < 2 ^ 31 ->
  unpad_loop bend left i (if res then 1 else 0) src =
  if res && forallb (fun j => (i + Z.of_nat j <? bend) || (rd src j =? left)) (seq 0 (length src)) then 1 else 0.
Proof.
  intros Hb Hl. induction src as [|ch t IH]; intros Hs i res Hi Hn.
  - cbn. rewrite andb_true_r. reflexivity.
  - apply bytes_cons in Hs as [Hc Hs]. cbn [unpad_loop]. cbn [length] in Hn. rewrite Nat2Z.inj_succ in Hn.
    unfold shr at 1. rewrite borrow32 by lia. rewrite eqbit by auto.
    rewrite bit_or, bit_and.
    replace (add32 i 1) with (i + 1) by (unfold add32; rewrite w32_small; [reflexivity|rewrite M32_eq; lia]).
    rewrite IH by (auto; lia).
    cbn [length seq forallb]. rewrite <- seq_shift, forallb_map.
    change (rd (ch :: t) 0) with ch. rewrite Z.add_0_r.
    rewrite <- andb_assoc. 
    rewrite (forallb_ext _ (fun x : nat => (i + Z.of_nat (S x) <? bend) || (rd (ch :: t) (S x) =? left)));
      [reflexivity|]. intros j.
    change (rd (ch :: t) (S j)) with (rd t j). f_equal. f_equal. lia.
Qed.

Definition pad_valid (b : list Z) (l : Z) : bool :=
  (1 <=? l) && (l <=? Z.of_nat (length b)) &&
  forallb (fun j => (Z.of_nat j <? Z.of_nat (length b) - l) || (rd b j =? l)) (seq 0 (length b)).

Lemma unpad_compute b : bytes b -> (0 < length b)%nat -> Z.of_nat (length b) + 1 < 2 ^ 31 ->
  let l := rd b (length b - 1) in
  pkcs7_unpad b = (if pad_valid b l then 1 else 0, if pad_valid b l then Z.of_nat (length b) - l else 0, b).
Proof.
  intros Hb H0 Hn l. unfold pkcs7_unpad.
  rewrite (w32_small (Z.of_nat (length b))) by (rewrite M32_eq; lia).
  replace (sub32 (Z.of_nat (length b)) 1) with (Z.of_nat (length b - 1))
    by (unfold sub32; rewrite w32_small by (rewrite M32_eq; lia); lia).
  rewrite Nat2Z.id. fold l. cbv zeta.
  assert (Hl : byte l) by (apply rd_byte; exact Hb).
  assert (Hl' : 0 <= l < 256) by exact Hl.
  unfold shr. rewrite borrow32 by lia.
  replace (Z.lxor (if l <? 1 then 1 else 0) 1) with (if 1 <=? l then 1 else 0)
    by (destruct (Z.ltb_spec l 1), (Z.leb_spec 1 l); try lia; reflexivity).
  rewrite (bit_and true (1 <=? l)). cbn [andb].
  replace (sub32 (sub32 l (Z.of_nat (length b))) 1) with (sub32 l (Z.of_nat (length b) + 1)).
  2:{ unfold sub32, w32. rewrite Zminus_mod_idemp_l. f_equal. lia. }
  rewrite borrow32 by lia.
    replace (l <? Z.of_nat (length b) + 1) with (l <=? Z.of_nat (length b))
      by (destruct (Z.leb_spec l (Z.of_nat (length b))), (Z.ltb_spec l (Z.of_nat (length b) + 1)); lia || reflexivity).
    rewrite bit_and, mask_bit by (rewrite M32_eq; lia).
    replace (sub32 (Z.of_nat (length b)) (if (1 <=? l) && (l <=? Z.of_nat (length b)) then l else 0))
      with (Z.of_nat (length b) - (if (1 <=? l) && (l <=? Z.of_nat (length b)) then l else 0)).
    2:{ unfold sub32. rewrite w32_small; [reflexivity|]. rewrite M32_eq.
        destruct ((1 <=? l) && (l <=? Z.of_nat (length b))) eqn:Ev; [apply andb_prop in Ev as [E1 E2]|]; lia. }
    rewrite unpad_loop_spec; try lia; auto.
    2:{ destruct ((1 <=? l) && (l <=? Z.of_nat (length b))) eqn:Ev; [apply andb_prop in Ev as [E1 E2]|]; lia. }
    2:{ destruct ((1 <=? l) && (l <=? Z.of_nat (length b))); [auto|unfold byte; lia]. }
    rewrite mask_bit.
    2:{ rewrite M32_eq. destruct ((1 <=? l) && (l <=? Z.of_nat (length b))) eqn:Ev; [apply andb_prop in Ev as [E1 E2]|]; lia. }
    unfold pad_valid. destruct ((1 <=? l) && (l <=? Z.of_nat (length b))); reflexivity.
Qed.

Lemma pad_valid_iff b l : l = rd b (length b - 1) -> (0 < length b)%nat ->
  pad_valid b l = true <-> exists n, l = Z.of_nat n /\ pkcs7_canonical b n.
Proof.
  intros Hl H0. unfold pad_valid, pkcs7_canonical. split.
  - intros H. apply andb_prop in H as [H HF]. apply andb_prop in H as [H1 H2].
    exists (Z.to_nat l). rewrite Z2Nat.id by lia. split; [reflexivity|]. split; [lia|].
    rewrite forallb_forall in HF.
    apply (list_eq_nth 0). { rewrite skipn_length, repeat_length. lia. }
    intros i Hi. rewrite skipn_length in Hi. rewrite nth_skipn.
    specialize (HF (length b - Z.to_nat l + i)%nat). rewrite in_seq in HF.
    specialize (HF ltac:(lia)).
    rewrite (nth_indep (repeat l _) 0 l) by (rewrite repeat_length; lia). rewrite nth_repeat.
    apply orb_prop in HF as [HF|HF]; [lia|]. unfold rd in HF. lia.
  - intros (n & -> & [Hn HS]). rewrite !andb_true_iff. repeat split; try lia.
    apply forallb_forall. intros j Hj. apply in_seq in Hj.
    destruct (Z.ltb_spec (Z.of_nat j) (Z.of_nat (length b) - Z.of_nat n)); [reflexivity|]. cbn [orb].
    apply Z.eqb_eq. unfold rd.
    replace j with (length b - n + (j - (length b - n)))%nat by lia.
    rewrite <- nth_skipn, HS. rewrite (nth_indep _ _ (Z.of_nat n)) by (rewrite repeat_length; lia). apply nth_repeat.
Qed.
