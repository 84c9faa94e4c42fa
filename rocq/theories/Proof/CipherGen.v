(* Common parts of the block cipher proofs: blocks of words, sequences of inverse steps, rotations *)
From Verif.Base Require Import Prelude.
From Verif.Model Require Import Encoding Bio Util Hash Blowfish Ciphers64 Ciphers128.
From Verif.Proof Require Import BioProof UtilProof BlowfishProof FinInv.

Definition hword (x : Z) : Prop := 0 <= x < M16.
Definition wpair (x : Z * Z) : Prop := word (fst x) /\ word (snd x).
Definition qof (P : Z -> Prop) (x : quad) : Prop := let '(a, b, c, d) := x in P a /\ P b /\ P c /\ P d.
Definition wquad := qof word.
Definition hquad := qof hword.
Definition block (n : nat) (s : list Z) : Prop := bytes s /\ length s = n.

(* ---- 16-bit reads and writes ---- *)
Lemma read16le_spec s : bytes s -> read16le s = le_val [rd s 0; rd s 1].
Proof.
  intros H. unfold read16le, w16. pose proof (rd_byte s 0 H) as H0. pose proof (rd_byte s 1 H) as H1. unfold byte in *.
  rewrite Z.shiftl_mul_pow2 by lia. rewrite Z.mod_small by (unfold M16; change (2 ^ 8) with 256; lia).
  rewrite (lor_add_low (rd s 1) (rd s 0) 8) by (try lia; change (2 ^ 8) with 256; lia). unfold le_val. cbn [dval]. change (2 ^ 8) with 256. lia.
Qed.
Lemma write16be_spec w : write16be w = be_bytes 2 w.
Proof. unfold write16be, be_bytes. cbn [digits rev app]. unfold shr. rewrite Z.shiftr_div_pow2 by lia. reflexivity. Qed.
Lemma write16le_spec w : write16le w = le_bytes 2 w.
Proof. unfold write16le, le_bytes. cbn [digits rev app]. unfold shr. rewrite !Z.shiftr_div_pow2 by lia. rewrite Z.pow_0_r, Z.div_1_r. reflexivity. Qed.

(* a word format: n bytes a word *)
Record fmt (n : nat) (P : Z -> Prop) (r : list Z -> Z) (w : Z -> list Z) : Prop := MkFmt {
  f_range : forall s, bytes s -> P (r s);
  f_bytes : forall x, bytes (w x);
  f_len : forall x, length (w x) = n;
  f_rw : forall x t, P x -> r (w x ++ t) = x;
  f_wr : forall s, bytes s -> (n <= length s)%nat -> w (r s) = firstn n s }.
Lemma firstn4 (s : list Z) : (4 <= length s)%nat -> firstn 4 s = [rd s 0; rd s 1; rd s 2; rd s 3].
Proof. intros L. destruct s as [|a [|b [|c [|d s]]]]; try (cbn in L; lia). reflexivity. Qed.
Lemma firstn2 (s : list Z) : (2 <= length s)%nat -> firstn 2 s = [rd s 0; rd s 1].
Proof. intros L. destruct s as [|a [|b s]]; try (cbn in L; lia). reflexivity. Qed.
Lemma bytes4 s : bytes s -> bytes [rd s 0; rd s 1; rd s 2; rd s 3].
Proof. intros H. repeat constructor; apply (rd_byte s _ H). Qed.
Lemma bytes2 s : bytes s -> bytes [rd s 0; rd s 1].
Proof. intros H. repeat constructor; apply (rd_byte s _ H). Qed.
Lemma fmt32be : fmt 4 word read32be write32be.
Proof.
  constructor; intros.
  - apply read32be_range; assumption.
  - apply write32be_bytes.
  - reflexivity.
  - change (read32be (write32be x ++ t)) with (read32be (write32be x)). rewrite read32be_spec by apply write32be_bytes.
    change [rd (write32be x) 0; rd (write32be x) 1; rd (write32be x) 2; rd (write32be x) 3] with (write32be x).
    rewrite write32be_spec, be_val_be_bytes. apply Z.mod_small. exact H.
  - rewrite read32be_spec, write32be_spec by assumption. rewrite firstn4 by assumption. apply (be_bytes_be_val [rd s 0; rd s 1; rd s 2; rd s 3]), bytes4; assumption.
Qed.
Lemma fmt32le : fmt 4 word read32le write32le.
Proof.
  constructor; intros.
  - apply read32le_range; assumption.
  - apply write32le_bytes.
  - reflexivity.
  - change (read32le (write32le x ++ t)) with (read32le (write32le x)). rewrite read32le_spec by apply write32le_bytes.
    change [rd (write32le x) 0; rd (write32le x) 1; rd (write32le x) 2; rd (write32le x) 3] with (write32le x).
    rewrite write32le_spec, le_val_le_bytes. apply Z.mod_small. exact H.
  - rewrite read32le_spec, write32le_spec by assumption. rewrite firstn4 by assumption. apply (le_bytes_le_val [rd s 0; rd s 1; rd s 2; rd s 3]), bytes4; assumption.
Qed.
Lemma fmt16be : fmt 2 hword read16be write16be.
Proof.
  constructor; intros.
  - rewrite read16be_spec by assumption. exact (be_val_range _ (bytes2 s H)).
  - rewrite write16be_spec. apply be_bytes_bytes.
  - reflexivity.
  - change (read16be (write16be x ++ t)) with (read16be (write16be x)). rewrite read16be_spec by (rewrite write16be_spec; apply be_bytes_bytes).
    change [rd (write16be x) 0; rd (write16be x) 1] with (write16be x). rewrite write16be_spec, be_val_be_bytes. apply Z.mod_small. exact H.
  - rewrite read16be_spec, write16be_spec by assumption. rewrite firstn2 by assumption. apply (be_bytes_be_val [rd s 0; rd s 1]), bytes2; assumption.
Qed.
Lemma fmt16le : fmt 2 hword read16le write16le.
Proof.
  constructor; intros.
  - rewrite read16le_spec by assumption. exact (le_val_range _ (bytes2 s H)).
  - rewrite write16le_spec. apply le_bytes_bytes.
  - reflexivity.
  - change (read16le (write16le x ++ t)) with (read16le (write16le x)). rewrite read16le_spec by (rewrite write16le_spec; apply le_bytes_bytes).
    change [rd (write16le x) 0; rd (write16le x) 1] with (write16le x). rewrite write16le_spec, le_val_le_bytes. apply Z.mod_small. exact H.
  - rewrite read16le_spec, write16le_spec by assumption. rewrite firstn2 by assumption. apply (le_bytes_le_val [rd s 0; rd s 1]), bytes2; assumption.
Qed.

(* a block format: the words of a block of n bytes *)
Record bfmt (n : nat) {A : Type} (ok : A -> Prop) (ld : list Z -> A) (st : A -> list Z) : Prop := MkBfmt {
  b_ok : forall s, bytes s -> ok (ld s);
  b_block : forall x, ok x -> bytes (st x) /\ length (st x) = n;
  b_ls : forall x, ok x -> ld (st x) = x;
  b_sl : forall s, bytes s -> length s = n -> st (ld s) = s }.
Lemma bytes_skipn n s : bytes s -> bytes (skipn n s).
Proof. intros H. unfold bytes in *. rewrite <- (firstn_skipn n s) in H. apply Forall_app in H. apply H. Qed.
Lemma skipn_app_at (n : nat) (a t : list Z) : length a = n -> skipn n (a ++ t) = t.
Proof. intros <-. rewrite skipn_app, skipn_all, Nat.sub_diag. reflexivity. Qed.
Lemma quad_fmt n P r w : fmt n P r w ->
  bfmt (4 * n) (qof P) (fun s => (r s, r (skipn n s), r (skipn (2 * n) s), r (skipn (3 * n) s)))
    (fun x : quad => let '(a, b, c, d) := x in w a ++ w b ++ w c ++ w d).
Proof.
  intros [Fr Fb Fl Frw Fwr]. constructor.
  - intros s Hs. cbn. repeat split; apply Fr; auto using bytes_skipn.
  - intros [[[a b] c] d] _. split; [unfold bytes; rewrite !Forall_app; repeat split; apply Fb|]. rewrite !app_length, !Fl. lia.
  - intros [[[a b] c] d] (Ha & Hb & Hc & Hd).
    assert (E2 : skipn (2 * n) (w a ++ w b ++ w c ++ w d) = w c ++ w d).
    { rewrite (app_assoc (w a)). apply skipn_app_at. rewrite app_length, !Fl. lia. }
    assert (E3 : skipn (3 * n) (w a ++ w b ++ w c ++ w d) = w d).
    { rewrite (app_assoc (w a)), (app_assoc (w a ++ w b)). apply skipn_app_at. rewrite !app_length, !Fl. lia. }
    rewrite E2, E3, (skipn_app_at n (w a)) by apply Fl. rewrite !Frw by assumption. rewrite <- (app_nil_r (w d)) at 1. rewrite Frw by assumption. reflexivity.
  - intros s Hs L. rewrite !Fwr by (auto using bytes_skipn; rewrite ?skipn_length; lia).
    assert (S2 : forall i j : nat, skipn i (skipn j s) = skipn (j + i) s) by (clear; induction s as [|a s IH]; intros i [|j]; cbn; rewrite ?skipn_nil; auto).
    assert (E4 : firstn n (skipn (3 * n) s) = skipn (3 * n) s) by (apply firstn_all2; rewrite skipn_length; lia).
    assert (E3 : firstn n (skipn (2 * n) s) ++ skipn (3 * n) s = skipn (2 * n) s).
    { rewrite <- (firstn_skipn n (skipn (2 * n) s)) at 2. rewrite S2. replace (2 * n + n)%nat with (3 * n)%nat by lia. reflexivity. }
    assert (E2 : firstn n (skipn n s) ++ skipn (2 * n) s = skipn n s).
    { rewrite <- (firstn_skipn n (skipn n s)) at 2. rewrite S2. replace (n + n)%nat with (2 * n)%nat by lia. reflexivity. }
    rewrite E4, E3, E2. apply firstn_skipn.
Qed.

Lemma fmt_ld4 r w : fmt 4 word r w -> bfmt 16 wquad (ld4 r) (st4 w).
Proof. intros F. exact (quad_fmt 4 word r w F). Qed.
Lemma fmt_ld4h r w : fmt 2 hword r w -> bfmt 8 hquad (ld4h r) (st4h w).
Proof. intros F. exact (quad_fmt 2 hword r w F). Qed.
Lemma fmt_ld2 : bfmt 8 wpair ld2 st2.
Proof.
  destruct fmt32be as [Fr Fb Fl Frw Fwr]. constructor.
  - intros s Hs. split; apply Fr; auto using bytes_skipn.
  - intros [a b] _. unfold st2. cbn [fst snd]. split; [unfold bytes; rewrite Forall_app; split; apply Fb|]. rewrite app_length, !Fl. reflexivity.
  - intros [a b] [Ha Hb]. cbn [fst snd] in *. unfold ld2, st2. cbn [fst snd]. rewrite (skipn_app_at 4) by apply Fl. rewrite Frw by assumption.
    rewrite <- (app_nil_r (write32be b)). rewrite Frw by assumption. reflexivity.
  - intros s Hs L. unfold st2, ld2. cbn [fst snd]. rewrite !Fwr by (auto using bytes_skipn; rewrite ?skipn_length; lia).
    rewrite (firstn_all2 (skipn 4 s)) by (rewrite skipn_length; lia). apply firstn_skipn.
Qed.

(* an inverse on words gives inverses both ways on blocks *)
Lemma block_inverse n {A} (ok : A -> Prop) ld st (E D : A -> A) : bfmt n ok ld st ->
  (forall x, ok x -> ok (E x) /\ D (E x) = x) ->
  forall s, bytes s -> length s = n -> st (D (ld (st (E (ld s))))) = s /\ st (E (ld (st (D (ld s))))) = s.
Proof.
  intros [Bok Bb Bls Bsl] HE.
  assert (L : forall s, bytes s -> length s = n -> st (D (ld (st (E (ld s))))) = s).
  { intros s Hs Ls. destruct (HE (ld s) (Bok s Hs)) as [O I]. rewrite Bls by exact O. rewrite I. apply Bsl; assumption. }
  intros s Hs Ls. split; [apply L; assumption|].
  apply (finite_right_inverse n (fun s => st (E (ld s))) (fun s => st (D (ld s)))); [|exact L|exact Hs|exact Ls].
  intros x Hx Lx. apply Bb. apply HE. apply Bok. exact Hx.
Qed.
Lemma block_bytes n {A} (ok : A -> Prop) ld st (E : A -> A) s : bfmt n ok ld st -> (forall x, ok x -> ok (E x)) -> bytes s -> bytes (st (E (ld s))) /\ length (st (E (ld s))) = n.
Proof. intros [Bok Bb Bls Bsl] HE Hs. apply Bb, HE, Bok, Hs. Qed.

(* folds of inverse steps *)
Lemma fold_inverse {A I J} (ok : A -> Prop) (f : A -> I -> A) (g : A -> J -> A) is js :
  Forall2 (fun i j => forall x, ok x -> ok (f x i) /\ g (f x i) j = x) is js ->
  forall x, ok x -> ok (fold_left f is x) /\ fold_left g (rev js) (fold_left f is x) = x.
Proof.
  induction 1 as [|i j is js H _ IH]; intros x Hx; [auto|]. cbn [fold_left rev]. destruct (H x Hx) as [O E]. destruct (IH _ O) as [O2 E2].
  split; [exact O2|]. rewrite fold_left_app, E2. exact E.
Qed.
Lemma pipe_inverse {A} (ok : A -> Prop) (fs gs : list (A -> A)) :
  Forall2 (fun f g => forall x, ok x -> ok (f x) /\ g (f x) = x) fs (rev gs) -> forall x, ok x -> ok (pipe fs x) /\ pipe gs (pipe fs x) = x.
Proof. intros H x Hx. unfold pipe. rewrite <- (rev_involutive gs). apply (fold_inverse ok (fun x f => f x) (fun x f => f x) fs (rev gs)); assumption. Qed.
(* the same through a change of registers *)
Lemma pipe_inverse_swap {A} (ok : A -> Prop) (sw : A -> A) (fs gs : list (A -> A)) :
  Forall2 (fun f g => forall x, ok x -> ok (f x) /\ g (sw (f x)) = sw x) fs (rev gs) -> forall x, ok x -> ok (pipe fs x) /\ pipe gs (sw (pipe fs x)) = sw x.
Proof.
  intros H. rewrite <- (rev_involutive gs). revert H. generalize (rev gs). clear gs. intros gs H.
  induction H as [|f g fs gs H _ IH]; intros x Hx; [auto|]. unfold pipe in *. cbn [fold_left rev]. destruct (H x Hx) as [O E]. destruct (IH _ O) as [O2 E2].
  split; [exact O2|]. rewrite fold_left_app, E2. exact E.
Qed.

(* ---- words ---- *)
Lemma word_bits x : (forall i, 32 <= i -> Z.testbit x i = false) -> word x.
Proof.
  intros H. assert (E : x = x mod 2 ^ 32).
  { apply Z.bits_inj'. intros m Hm. rewrite testbit_w by lia. destruct (m <? 32) eqn:E; [reflexivity|]. apply H. lia. }
  rewrite E. unfold word. apply Z.mod_pos_bound. reflexivity.
Qed.
Lemma word_high x i : word x -> 32 <= i -> Z.testbit x i = false.
Proof. intros H Hi. apply (testbit_high x 32); [exact H|exact Hi]. Qed.
Lemma word_eq x y : word x -> word y -> (forall i, 0 <= i < 32 -> Z.testbit x i = Z.testbit y i) -> x = y.
Proof.
  intros Hx Hy H. apply Z.bits_inj'. intros i Hi. destruct (Z.lt_ge_cases i 32); [apply H; lia|]. rewrite !word_high by assumption. reflexivity.
Qed.
Lemma word_and a b : word a -> word (Z.land a b).
Proof. intros H. unfold word. change M32 with (2 ^ 32). apply land_range_l; [lia|exact H]. Qed.
Lemma word_or a b : word a -> word b -> word (Z.lor a b).
Proof. intros. unfold word. change M32 with (2 ^ 32). apply lor_range; [lia|assumption|assumption]. Qed.
Lemma word_mod x : word (x mod M32).
Proof. unfold word. apply Z.mod_pos_bound. reflexivity. Qed.
Lemma word_add a b : word (add32 a b). Proof. apply word_mod. Qed.
Lemma word_sub a b : word (sub32 a b). Proof. apply word_mod. Qed.
Lemma word_shl a n : word (shl32 a n). Proof. apply word_mod. Qed.
Lemma word_0 : word 0. Proof. unfold word, M32; lia. Qed.
Lemma word_shr a n : word a -> 0 <= n -> word (shr a n).
Proof. intros H Hn. apply word_bits. intros i Hi. unfold shr. rewrite Z.shiftr_spec by lia. apply word_high; [exact H|lia]. Qed.
Lemma word_rotl x n : word x -> 0 <= 32 - n -> word (rotl32 x n).
Proof. intros. unfold rotl32. apply word_or; [apply word_mod|apply word_shr; assumption]. Qed.
Lemma word_rotr x n : word x -> 0 <= n -> word (rotr32 x n).
Proof. intros. unfold rotr32. apply word_or; [apply word_shr; assumption|apply word_mod]. Qed.
Lemma rd_all (P : Z -> Prop) l i : Forall P l -> P 0 -> P (rd l i).
Proof. intros H H0. unfold rd. apply Forall_nth_d; assumption. Qed.
Lemma words_check l : forallb (fun x => (0 <=? x) && (x <? M32)) l = true -> Forall word l.
Proof. intros H. apply Forall_forall. intros x Hx. rewrite forallb_forall in H. specialize (H x Hx). unfold word. lia. Qed.
Lemma rotl_bit x n i : word x -> 0 < n < 32 -> 0 <= i < 32 -> Z.testbit (rotl32 x n) i = Z.testbit x ((i - n) mod 32).
Proof.
  intros Hx Hn Hi. unfold rotl32. rewrite Z.lor_spec, testbit_w32, Z.shiftl_spec, Z.shiftr_spec by lia.
  replace (i <? 32) with true by lia. rewrite andb_true_l. destruct (Z.lt_ge_cases i n) as [C|C].
  - rewrite (Z.testbit_neg_r x (i - n)) by lia. cbn [orb]. f_equal.
    apply (Z.mod_unique_pos _ _ (-1)); lia.
  - rewrite (word_high x (i + (32 - n))) by (auto; lia). rewrite orb_false_r. f_equal. symmetry. apply Z.mod_small. lia.
Qed.
Lemma rotr_bit x n i : word x -> 0 < n < 32 -> 0 <= i < 32 -> Z.testbit (rotr32 x n) i = Z.testbit x ((i + n) mod 32).
Proof.
  intros Hx Hn Hi. unfold rotr32. rewrite Z.lor_spec, testbit_w32, Z.shiftl_spec, Z.shiftr_spec by lia.
  replace (i <? 32) with true by lia. rewrite andb_true_l. destruct (Z.lt_ge_cases (i + n) 32) as [C|C].
  - rewrite (Z.testbit_neg_r x (i - (32 - n))) by lia. rewrite orb_false_r. f_equal. symmetry. apply Z.mod_small. lia.
  - rewrite (word_high x (i + n)) by (auto; lia). cbn [orb]. f_equal. apply (Z.mod_unique_pos _ _ 1); lia.
Qed.
Lemma rotr_rotl x n : word x -> 0 < n < 32 -> rotr32 (rotl32 x n) n = x.
Proof.
  intros Hx Hn. apply word_eq; [apply word_rotr; [apply word_rotl; [exact Hx|lia]|lia]|exact Hx|]. intros i Hi.
  rewrite rotr_bit by first [assumption | apply word_rotl; [exact Hx|lia]]. pose proof (Z.mod_pos_bound (i + n) 32 eq_refl). rewrite rotl_bit by (auto; lia). f_equal.
  rewrite Zminus_mod_idemp_l. replace (i + n - n) with i by lia. apply Z.mod_small. exact Hi.
Qed.
Lemma rotl_rotr x n : word x -> 0 < n < 32 -> rotl32 (rotr32 x n) n = x.
Proof.
  intros Hx Hn. apply word_eq; [apply word_rotl; [apply word_rotr; [exact Hx|lia]|lia]|exact Hx|]. intros i Hi.
  rewrite rotl_bit by first [assumption | apply word_rotr; [exact Hx|lia]]. pose proof (Z.mod_pos_bound (i - n) 32 eq_refl). rewrite rotr_bit by (auto; lia). f_equal.
  rewrite Zplus_mod_idemp_l. replace (i - n + n) with i by lia. apply Z.mod_small. exact Hi.
Qed.
Lemma xx_l a b : Z.lxor b (Z.lxor b a) = a.
Proof. rewrite <- Z.lxor_assoc, Z.lxor_nilpotent, Z.lxor_0_l. reflexivity. Qed.
Lemma Ok_inj {A} (a b : A) : Ok a = Ok b -> a = b.
Proof. intros E. congruence. Qed.
