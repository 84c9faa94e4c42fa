From Coq Require Import Permutation.
From Verif.Base Require Import Prelude.
From Verif.Model Require Import Bio Util Stream.
From Verif.Spec Require Import StreamSpec.
From Verif.Proof Require Import BioProof UtilProof BufCrypt.
#[local] Ltac Zify.zify_post_hook ::= idtac.

(* ---- ARC4 ---- *)
Lemma count_upd (l : list Z) x : forall i v, (i < length l)%nat ->
  (count_occ Z.eq_dec (upd l i v) x + (if Z.eq_dec (nth i l 0%Z) x then 1 else 0) =
   count_occ Z.eq_dec l x + (if Z.eq_dec v x then 1 else 0))%nat.
Proof.
  induction l as [|a l IH]; intros i v Hi; [cbn in Hi; lia|].
  destruct i as [|i]; cbn [upd nth count_occ].
  - destruct (Z.eq_dec v x), (Z.eq_dec a x); lia.
  - cbn [length] in Hi. specialize (IH i v ltac:(lia)). destruct (Z.eq_dec a x); lia.
Qed.

Lemma swap_perm s i j : 0 <= i < Z.of_nat (length s) -> 0 <= j < Z.of_nat (length s) ->
  Permutation (swap s i j) s.
Proof.
  intros Hi Hj. apply (Permutation_count_occ Z.eq_dec). intros x. unfold swap, rd.
  set (a := Z.to_nat i). set (b := Z.to_nat j).
  pose proof (count_upd s x a (nth b s 0) ltac:(lia)) as E1.
  pose proof (count_upd (upd s a (nth b s 0)) x b (nth a s 0) ltac:(rewrite upd_length; lia)) as E2.
  destruct (Nat.eq_dec a b) as [E|N].
  - rewrite <- E in *. rewrite nth_upd_same in E2 by lia. destruct (Z.eq_dec (nth a s 0) x); lia.
  - rewrite nth_upd_other in E2 by auto. lia.
Qed.

Definition perm256 (s : list Z) : Prop := Permutation s (zseq 0 256).
Lemma perm256_len s : perm256 s -> length s = 256%nat.
Proof. intros H. apply Permutation_length in H. rewrite zseq_length in H. exact H. Qed.
Lemma land255_range x : 0 <= Z.land x 255 < 256.
Proof. rewrite land_255. apply Z.mod_pos_bound. lia. Qed.
Lemma swap_perm256 s i j : perm256 s -> 0 <= i < 256 -> 0 <= j < 256 -> perm256 (swap s i j).
Proof.
  intros H Hi Hj. pose proof (perm256_len s H). eapply Permutation_trans; [apply swap_perm; lia|exact H].
Qed.
Lemma ksa_perm n : forall i j s key, perm256 s -> 0 <= i -> i + Z.of_nat n <= 256 -> perm256 (arc4_ksa n i j s key).
Proof.
  induction n; intros i j s key H Hi Hn; cbn [arc4_ksa]; auto.
  apply IHn; try lia. apply swap_perm256; auto; [lia|apply land255_range].
Qed.

Definition arc4_inv (c : arc4) : Prop := perm256 (a_s c) /\ 0 <= a_i c < 256 /\ 0 <= a_j c < 256.
Lemma arc4_init_inv key c : arc4_init key = Some c -> arc4_inv c.
Proof.
  unfold arc4_init. destruct (negb _); [discriminate|].
  assert (HP : perm256 (arc4_ksa 256 0 0 (zseq 0 256) key)) by (apply ksa_perm; [apply Permutation_refl|lia|lia]).
  revert HP. generalize (arc4_ksa 256 0 0 (zseq 0 256) key). intros s HP E. injection E as <-.
  split; [exact HP|cbn [a_i a_j]; lia].
Qed.
Lemma arc4_step_inv c : arc4_inv c -> arc4_inv (snd (arc4_step c)).
Proof.
  intros (H & Hi & Hj). unfold arc4_step. cbn [snd a_s a_i a_j]. split; [|cbn; split; apply land255_range].
  cbn [a_s]. apply swap_perm256; auto; apply land255_range.
Qed.
Lemma arc4_crypt_inv src : forall c, arc4_inv c -> arc4_inv (snd (arc4_crypt c src)).
Proof.
  induction src as [|x t IH]; intros c H; cbn [arc4_crypt]; auto.
  pose proof (arc4_step_inv c H) as H1. destruct (arc4_step c) as [k c1]. cbn [snd] in H1.
  specialize (IH c1 H1). destruct (arc4_crypt c1 t). exact IH.
Qed.
Lemma arc4_app a : forall c b, arc4_crypt c (a ++ b) =
  (fst (arc4_crypt c a) ++ fst (arc4_crypt (snd (arc4_crypt c a)) b), snd (arc4_crypt (snd (arc4_crypt c a)) b)).
Proof.
  induction a as [|x a IH]; intros c b; cbn [app arc4_crypt fst snd]; [apply surjective_pairing|].
  destruct (arc4_step c) as [k c1]. rewrite IH. destruct (arc4_crypt c1 a) as [o c2]. reflexivity.
Qed.
Lemma arc4_invol m : forall c, fst (arc4_crypt c (fst (arc4_crypt c m))) = m /\
  snd (arc4_crypt c (fst (arc4_crypt c m))) = snd (arc4_crypt c m).
Proof.
  induction m as [|x m IH]; intros c; cbn [arc4_crypt fst snd]; auto.
  destruct (arc4_step c) as [k c1] eqn:E. specialize (IH c1). destruct (arc4_crypt c1 m) as [o c2] eqn:E2.
  cbn [fst snd] in *. cbn [arc4_crypt]. rewrite E.
  destruct (arc4_crypt c1 o) as [o' c3]. cbn [fst snd] in *. destruct IH as [-> ->].
  rewrite Z.lxor_assoc, Z.lxor_nilpotent, Z.lxor_0_r. auto.
Qed.

(* the classical description, on a function table *)
Lemma swap_nth s i j k : 0 <= i < Z.of_nat (length s) -> 0 <= j < Z.of_nat (length s) ->
  rd (swap s i j) k = if (Z.of_nat k =? j) then rd s (Z.to_nat i) else if (Z.of_nat k =? i) then rd s (Z.to_nat j) else rd s k.
Proof.
  intros Hi Hj. unfold swap, rd.
  destruct (Z.eqb_spec (Z.of_nat k) j) as [E|N].
  - replace k with (Z.to_nat j) by lia. rewrite nth_upd_same; [reflexivity|]. rewrite upd_length. lia.
  - rewrite nth_upd_other by lia. destruct (Z.eqb_spec (Z.of_nat k) i) as [E|N'].
    + replace k with (Z.to_nat i) by lia. rewrite nth_upd_same; [reflexivity|lia].
    + rewrite nth_upd_other by lia. reflexivity.
Qed.

(* ---- words and bytes ---- *)
Lemma words_bytes_unwords w : words_bytes w = unwords w.
Proof.
  unfold words_bytes, unwords. induction w as [|a w IH]; cbn [flat_map map concat]; [reflexivity|].
  rewrite IH, write32le_spec. reflexivity.
Qed.
Lemma read32le_val s : bytes s -> (4 <= length s)%nat -> read32le s = le_val (firstn 4 s).
Proof.
  intros Hb HL. rewrite read32le_spec by auto. destruct s as [|a [|b [|c [|d s]]]]; cbn [length] in HL; try lia. reflexivity.
Qed.
Lemma unwords_length w : length (unwords w) = (4 * length w)%nat.
Proof.
  unfold unwords. induction w as [|a w IH]; [reflexivity|]. cbn [map concat]. rewrite app_length, le_bytes_length, IH. cbn [length]. lia.
Qed.
Lemma unwords_bytes w : bytes (unwords w).
Proof.
  unfold unwords. induction w as [|a w IH]; [constructor|]. cbn [map concat]. apply bytes_app. split; auto. apply le_bytes_bytes.
Qed.
Lemma le_words_read2 s : bytes s -> (8 <= length s)%nat -> le_words 2 s = [read32le s; read32le (skipn 4 s)].
Proof.
  intros H L. cbn [le_words]. rewrite !read32le_val by (try apply bytes_skipn; rewrite ?skipn_length; auto; lia). reflexivity.
Qed.
Lemma skip44 {A} (s : list A) n m : skipn n (skipn m s) = skipn (m + n) s.
Proof. symmetry. apply skipn_add. Qed.
Lemma le_words_read n : forall s, bytes s -> (4 * n <= length s)%nat ->
  le_words n s = map (fun i => read32le (skipn (4 * i) s)) (seq 0 n).
Proof.
  induction n; intros s H L; [reflexivity|]. cbn [le_words seq map].
  f_equal; [cbn [Nat.mul skipn]; symmetry; apply read32le_val; auto; lia|].
  rewrite IHn by (try apply bytes_skipn; rewrite ?skipn_length; auto; lia).
  rewrite <- seq_shift, map_map. apply map_ext. intros i. rewrite skip44. f_equal. f_equal. lia.
Qed.
Lemma le_words_length n : forall s, length (le_words n s) = n.
Proof. induction n; intros s; cbn [le_words length]; auto. Qed.

Lemma some_inj {A} (a b : A) : Some a = Some b -> a = b.
Proof. congruence. Qed.
Definition word (x : Z) : Prop := 0 <= x < M32.
Lemma rd_word x i : Forall word x -> word (rd x i).
Proof. intros H. unfold rd. apply (Forall_nth_d word); [auto|unfold word, M32; lia]. Qed.
Definition wstate (st : list Z) : Prop := Forall word st /\ length st = 16%nat.
Lemma read32le_word s : bytes s -> word (read32le s).
Proof. apply read32le_range. Qed.

(* ---- ChaCha20 rounds ---- *)
Ltac list16 x H :=
  do 16 (destruct x as [|? x]; [discriminate H|]); destruct x as [|? x]; [|discriminate H].

Lemma cc_dround_spec x : length x = 16%nat -> cc_dround x = of_rows (cha_double (to_rows x)).
Proof. intros H. list16 x H. reflexivity. Qed.
Lemma sa_dround_spec x : length x = 16%nat -> sa_dround x = of_rows (sal_double (to_rows x)).
Proof. intros H. list16 x H. reflexivity. Qed.

Lemma cc_qround_len x a b c d : length (cc_qround x a b c d) = length x.
Proof. unfold cc_qround. rewrite !upd_length. reflexivity. Qed.
Lemma sa_qround_len x a b c d : length (sa_qround x a b c d) = length x.
Proof. unfold sa_qround. rewrite !upd_length. reflexivity. Qed.
Lemma cc_dround_len x : length (cc_dround x) = length x.
Proof. unfold cc_dround. rewrite !cc_qround_len. reflexivity. Qed.
Lemma sa_dround_len x : length (sa_dround x) = length x.
Proof. unfold sa_dround. rewrite !sa_qround_len. reflexivity. Qed.

Definition rowsok '((a, b, c, d) : rows) : Prop :=
  length a = 4%nat /\ length b = 4%nat /\ length c = 4%nat /\ length d = 4%nat.
Lemma to_of r : rowsok r -> to_rows (of_rows r) = r.
Proof.
  destruct r as [[[a b] c] d]. intros (Ha & Hb & Hc & Hd).
  do 4 (destruct a as [|? a]; [discriminate Ha|]); destruct a; [|discriminate Ha].
  do 4 (destruct b as [|? b]; [discriminate Hb|]); destruct b; [|discriminate Hb].
  do 4 (destruct c as [|? c]; [discriminate Hc|]); destruct c; [|discriminate Hc]. reflexivity.
Qed.
Lemma of_to x : length x = 16%nat -> of_rows (to_rows x) = x.
Proof. intros H. list16 x H. reflexivity. Qed.
Lemma rowsok_to x : length x = 16%nat -> rowsok (to_rows x).
Proof. intros H. list16 x H. repeat split. Qed.
Ltac iterS := repeat match goal with |- context [Nat.iter (S ?n) ?f ?x] => change (Nat.iter (S n) f x) with (f (Nat.iter n f x)) end.
Lemma iter_succ_r {A} n (f : A -> A) x : Nat.iter (S n) f x = Nat.iter n f (f x).
Proof. induction n; [reflexivity|]. change (f (Nat.iter (S n) f x) = f (Nat.iter n f (f x))). f_equal. exact IHn. Qed.
Lemma iter_len (f : list Z -> list Z) n x : (forall x, length (f x) = length x) -> length (Nat.iter n f x) = length x.
Proof. intros H. induction n; [reflexivity|]. iterS. rewrite H. exact IHn. Qed.
Lemma times_iter {A} n (f : A -> A) x : times n f x = Nat.iter n f x.
Proof.
  revert x. induction n; intros x; [reflexivity|]. cbn [times]. rewrite IHn.
  symmetry. apply iter_succ_r.
Qed.
Lemma rounds_rows (f : list Z -> list Z) (g : rows -> rows) n x :
  (forall x, length x = 16%nat -> f x = of_rows (g (to_rows x))) -> (forall r, rowsok r -> rowsok (g r)) ->
  length x = 16%nat -> Nat.iter n f x = of_rows (Nat.iter n g (to_rows x)) /\ rowsok (Nat.iter n g (to_rows x)).
Proof.
  intros Hf Hg Hx. induction n.
  - split; [symmetry; apply of_to; auto|apply rowsok_to; auto].
  - change (Nat.iter (S n) f x) with (f (Nat.iter n f x)).
    change (Nat.iter (S n) g (to_rows x)) with (g (Nat.iter n g (to_rows x))).
    destruct IHn as [-> Hr]. split; [|auto]. rewrite Hf, to_of; auto.
    destruct (Nat.iter n g (to_rows x)) as [[[a b] c] d]. destruct Hr as (Ha & Hb & Hc & Hd).
    cbn [of_rows]. rewrite !app_length. lia.
Qed.
Ltac rows4 :=
  intros r; destruct r as [[[a b] c] d]; intros (Ha & Hb & Hc & Hd);
  do 4 (destruct a as [|? a]; [discriminate Ha|]); destruct a; [|discriminate Ha];
  do 4 (destruct b as [|? b]; [discriminate Hb|]); destruct b; [|discriminate Hb];
  do 4 (destruct c as [|? c]; [discriminate Hc|]); destruct c; [|discriminate Hc];
  do 4 (destruct d as [|? d]; [discriminate Hd|]); destruct d; [|discriminate Hd]; repeat split.
Lemma cha_double_ok : forall r, rowsok r -> rowsok (cha_double r).
Proof. rows4. Qed.
Lemma sal_double_ok : forall r, rowsok r -> rowsok (sal_double r).
Proof. rows4. Qed.
Lemma cc_perm_spec x : length x = 16%nat -> times 10 cc_dround x = cha_perm x.
Proof. intros H. rewrite times_iter. apply rounds_rows; auto using cc_dround_spec, cha_double_ok. Qed.
Lemma sa_perm_spec x : length x = 16%nat -> times 10 sa_dround x = sal_perm x.
Proof. intros H. rewrite times_iter. apply rounds_rows; auto using sa_dround_spec, sal_double_ok. Qed.

(* blocks *)
Lemma cc_block_spec st : length st = 16%nat -> chacha20_block st = (cha_core st, bump st 12 13).
Proof. intros H. unfold chacha20_block. unfold cha_core, vadd. rewrite cc_perm_spec, words_bytes_unwords by auto. reflexivity. Qed.
Lemma sa_block_spec st : length st = 16%nat -> salsa20_block st = (sal_core st, bump st 8 9).
Proof. intros H. unfold salsa20_block. unfold sal_core, vadd. rewrite sa_perm_spec, words_bytes_unwords by auto. reflexivity. Qed.
Lemma cc_perm_len st : length st = 16%nat -> length (cha_perm st) = 16%nat.
Proof.
  intros H. rewrite <- cc_perm_spec by auto. rewrite times_iter, iter_len; auto using cc_dround_len.
Qed.
Lemma sa_perm_len st : length st = 16%nat -> length (sal_perm st) = 16%nat.
Proof.
  intros H. rewrite <- sa_perm_spec by auto. rewrite times_iter, iter_len; auto using sa_dround_len.
Qed.
Lemma cha_core_len st : length st = 16%nat -> length (cha_core st) = 64%nat.
Proof. intros H. unfold cha_core, vadd. rewrite unwords_length, map2_length, cc_perm_len, H by auto. reflexivity. Qed.
Lemma sal_core_len st : length st = 16%nat -> length (sal_core st) = 64%nat.
Proof. intros H. unfold sal_core, vadd. rewrite unwords_length, map2_length, sa_perm_len, H by auto. reflexivity. Qed.

(* ---- counters ---- *)
Lemma bump_len st lo hi : length (bump st lo hi) = length st.
Proof. unfold bump. rewrite !upd_length. reflexivity. Qed.

Definition ctr64 (st : list Z) (lo hi : nat) : Z := rd st lo + M32 * rd st hi.
Definition set64 (st : list Z) (lo hi : nat) (v : Z) : list Z :=
  upd (upd st lo (v mod M32)) hi (v / M32 mod M32).

Lemma upd_upd {A} (l : list A) i v w : upd (upd l i v) i w = upd l i w.
Proof. revert i. induction l as [|a l IH]; intros [|i]; cbn [upd]; auto. f_equal. apply IH. Qed.
Lemma upd_comm {A} (l : list A) i j v w : i <> j -> upd (upd l i v) j w = upd (upd l j w) i v.
Proof.
  revert i j. induction l as [|a l IH]; intros [|i] [|j] H; cbn [upd]; auto; try congruence.
  f_equal. apply IH. congruence.
Qed.
Lemma upd_same {A} (l : list A) i d : upd l i (nth i l d) = l.
Proof. revert i. induction l as [|a l IH]; intros [|i]; cbn [upd nth]; auto. f_equal. apply IH. Qed.

Lemma set64_lo st lo hi v : lo <> hi -> (lo < length st)%nat -> rd (set64 st lo hi v) lo = v mod M32.
Proof. intros N H. unfold rd, set64. rewrite nth_upd_other by auto. apply nth_upd_same. auto. Qed.
Lemma set64_hi st lo hi v : (hi < length st)%nat -> rd (set64 st lo hi v) hi = v / M32 mod M32.
Proof. intros H. unfold rd, set64. apply nth_upd_same. rewrite upd_length. auto. Qed.
Lemma set64_over st lo hi v a b : lo <> hi -> upd (upd (set64 st lo hi v) lo a) hi b = upd (upd st lo a) hi b.
Proof.
  intros N. unfold set64. rewrite (upd_comm (upd st lo _) hi lo) by auto. rewrite !upd_upd. reflexivity.
Qed.
Lemma rd_upd_same l i v : (i < length l)%nat -> rd (upd l i v) i = v.
Proof. apply nth_upd_same. Qed.
Lemma rd_upd_other l i j v : i <> j -> rd (upd l i v) j = rd l j.
Proof. apply nth_upd_other. Qed.
Lemma bump_spec st lo hi v : lo <> hi -> (lo < length st)%nat -> (hi < length st)%nat -> 0 <= v ->
  bump (set64 st lo hi v) lo hi = set64 st lo hi (v + 1).
Proof.
  intros N Hl Hh Hv. unfold bump. rewrite set64_over by auto.
  rewrite rd_upd_other by auto. rewrite rd_upd_same by (unfold set64; rewrite !upd_length; auto).
  rewrite set64_hi, set64_lo by auto.
  unfold add32, w32. rewrite Z.add_mod_idemp_l by discriminate.
  unfold set64. f_equal.
  pose proof (Z.div_mod v M32 ltac:(discriminate)) as D. pose proof (Z.mod_pos_bound v M32 ltac:(reflexivity)) as B.
  set (q := v / M32) in *. set (r := v mod M32) in *.
  assert (E : (v + 1) / M32 = q + (if (v + 1) mod M32 <? 1 then 1 else 0)).
  { destruct (Z.eq_dec r (M32 - 1)) as [E|E].
    - assert (F : v + 1 = (q + 1) * M32) by lia. rewrite F. rewrite Z.mod_mul, Z.div_mul by discriminate. reflexivity.
    - assert (F : v + 1 = (r + 1) + q * M32) by lia. rewrite F. rewrite Z.mod_add, Z.div_add by discriminate.
      rewrite Z.div_small, Z.mod_small by lia. destruct (Z.ltb_spec (r + 1) 1); lia. }
  rewrite E. apply Z.add_mod_idemp_l. discriminate.
Qed.
Lemma set64_ctr st lo hi : lo <> hi -> Forall word st -> (lo < length st)%nat -> (hi < length st)%nat ->
  set64 st lo hi (ctr64 st lo hi) = st.
Proof.
  intros N Hw Hl Hh. unfold set64, ctr64.
  assert (Bl : word (rd st lo)) by (apply rd_word; auto).
  assert (Bh : word (rd st hi)) by (apply rd_word; auto). unfold word in *.
  rewrite (Z.mul_comm M32), Z.mod_add, Z.div_add by discriminate.
  rewrite Z.mod_small, Z.div_small, Z.add_0_l, Z.mod_small by lia.
  unfold rd. rewrite upd_same, upd_same. reflexivity.
Qed.
Lemma iter_bump st lo hi q : lo <> hi -> Forall word st -> (lo < length st)%nat -> (hi < length st)%nat ->
  Nat.iter q (fun s => bump s lo hi) st = set64 st lo hi (ctr64 st lo hi + Z.of_nat q).
Proof.
  intros N Hw Hl Hh. assert (0 <= ctr64 st lo hi).
  { unfold ctr64. assert (word (rd st lo)) by (apply rd_word; auto).
    assert (word (rd st hi)) by (apply rd_word; auto). unfold word, M32 in *. lia. }
  induction q.
  - rewrite Z.add_0_r, set64_ctr; auto.
  - iterS. rewrite IHq, bump_spec by (auto; lia). f_equal. lia.
Qed.

(* ---- keystream blocks ---- *)
Definition len16 (st : list Z) : Prop := length st = 16%nat.
Lemma cc_blk_len st : len16 st -> length (fst (chacha20_block st)) = 64%nat.
Proof. intros H. rewrite cc_block_spec by auto. apply cha_core_len. auto. Qed.
Lemma cc_blk_valid st : len16 st -> len16 (snd (chacha20_block st)).
Proof. intros H. unfold len16 in *. rewrite cc_block_spec by auto. cbn [snd]. rewrite bump_len. auto. Qed.
Lemma sa_blk_len st : len16 st -> length (fst (salsa20_block st)) = 64%nat.
Proof. intros H. rewrite sa_block_spec by auto. apply sal_core_len. auto. Qed.
Lemma sa_blk_valid st : len16 st -> len16 (snd (salsa20_block st)).
Proof. intros H. unfold len16 in *. rewrite sa_block_spec by auto. cbn [snd]. rewrite bump_len. auto. Qed.

Lemma iter_nxt blk lo hi st q : (forall s, len16 s -> snd (blk s) = bump s lo hi) -> len16 st ->
  Nat.iter q (nxt blk) st = Nat.iter q (fun s => bump s lo hi) st /\ len16 (Nat.iter q (nxt blk) st).
Proof.
  intros H Hs. induction q; [split; [reflexivity|exact Hs]|]. destruct IHq as [E L]. iterS. 
  change (nxt blk (Nat.iter q (nxt blk) st)) with (snd (blk (Nat.iter q (nxt blk) st))).
  rewrite H by auto. rewrite <- E. split; auto. unfold len16 in *. rewrite bump_len. auto.
Qed.

Lemma cc_kblock st q : wstate st -> kblock chacha20_block st q = cha_core (set64 st 12 13 (ctr64 st 12 13 + Z.of_nat q)).
Proof.
  intros [Hw Hl]. unfold kblock. assert (HB : forall s, len16 s -> snd (chacha20_block s) = bump s 12 13)
    by (intros s Hs; rewrite cc_block_spec by auto; reflexivity).
  destruct (iter_nxt chacha20_block 12 13 st q HB Hl) as [E L].
  rewrite cc_block_spec by auto. cbn [fst]. rewrite E, iter_bump; auto; rewrite Hl; lia.
Qed.
Lemma sa_kblock st q : wstate st -> kblock salsa20_block st q = sal_core (set64 st 8 9 (ctr64 st 8 9 + Z.of_nat q)).
Proof.
  intros [Hw Hl]. unfold kblock. assert (HB : forall s, len16 s -> snd (salsa20_block s) = bump s 8 9)
    by (intros s Hs; rewrite sa_block_spec by auto; reflexivity).
  destruct (iter_nxt salsa20_block 8 9 st q HB Hl) as [E L].
  rewrite sa_block_spec by auto. cbn [fst]. rewrite E, iter_bump; auto; rewrite Hl; lia.
Qed.

(* ---- initial states ---- *)
Lemma key_ok_iff key : key_ok key = true <-> length key = 16%nat \/ length key = 32%nat.
Proof. unfold key_ok. rewrite orb_true_iff, !Nat.eqb_eq. tauto. Qed.

Lemma cc_head_spec key : bytes key -> key_ok key = true -> cc_head key = consts key ++ key_words key.
Proof.
  intros Hb Hk. apply key_ok_iff in Hk. unfold cc_head, consts, key_words, key_at. destruct Hk as [E|E]; rewrite E.
  - cbn [Nat.ltb Nat.leb Nat.eqb]. rewrite le_words_read by (auto; lia). reflexivity.
  - cbn [Nat.ltb Nat.leb Nat.eqb]. rewrite le_words_read by (auto; lia). reflexivity.
Qed.
Lemma sa_state_spec key n4 : bytes key -> key_ok key = true -> sa_state key n4 = sal_expand key n4.
Proof.
  intros Hb Hk. apply key_ok_iff in Hk. unfold sa_state, sal_expand, consts, key_words, key_at. destruct Hk as [E|E]; rewrite E.
  - cbn [Nat.ltb Nat.leb Nat.eqb]. rewrite le_words_read by (auto; lia). reflexivity.
  - cbn [Nat.ltb Nat.leb Nat.eqb]. rewrite le_words_read by (auto; lia). reflexivity.
Qed.

Ltac wordsl := repeat first [apply Forall_nil|apply Forall_cons];
  try (apply read32le_word; repeat apply bytes_skipn; assumption).
Lemma cc_head_ok key : bytes key -> Forall word (cc_head key) /\ length (cc_head key) = 12%nat.
Proof.
  intros Hb. unfold cc_head, key_at. split; [|reflexivity].
  wordsl; try destruct (_ <? _)%nat; unfold word, M32; lia.
Qed.
Lemma sa_state_ok key n4 : bytes key -> Forall word n4 -> length n4 = 4%nat -> wstate (sa_state key n4).
Proof.
  intros Hb Hn HL. unfold sa_state, key_at. split.
  - apply Forall_app. split; [|apply Forall_app; split; auto].
    + wordsl; try destruct (_ <? _)%nat; unfold word, M32; lia.
    + wordsl; try destruct (_ <? _)%nat; unfold word, M32; lia.
  - rewrite !app_length, HL. reflexivity.
Qed.
Lemma cc_tail_ok nonce ctr t : bytes nonce -> cc_tail nonce ctr = Some t -> Forall word t /\ length t = 4%nat.
Proof.
  intros Hb. unfold cc_tail. 
  destruct (_ =? 8)%nat; [|destruct (_ =? 12)%nat; [|destruct (_ =? 16)%nat; [|discriminate]]]; intros E; apply some_inj in E; subst t;
  (split; [|reflexivity]); wordsl; try apply w32_range.
Qed.
Lemma sa_mid_ok nonce ctr t : bytes nonce -> sa_mid nonce ctr = Some t -> Forall word t /\ length t = 4%nat.
Proof.
  intros Hb. unfold sa_mid. 
  destruct (_ =? 8)%nat; [|destruct (_ =? 12)%nat; [|destruct (_ =? 16)%nat; [|discriminate]]]; intros E; apply some_inj in E; subst t;
  (split; [|reflexivity]); wordsl; try apply w32_range.
Qed.

Lemma chacha20_derive_spec key nonce : bytes key -> key_ok key = true -> bytes nonce -> (16 <= length nonce)%nat ->
  chacha20_derive key nonce = Some (hchacha key (firstn 16 nonce)).
Proof.
  intros Hk Hok Hn HL. unfold chacha20_derive. rewrite Hok. cbn [negb]. f_equal.
  rewrite words_bytes_unwords. unfold hchacha. rewrite cc_head_spec by auto.
  replace (le_words 4 (firstn 16 nonce)) with [read32le nonce; read32le (skipn 4 nonce); read32le (skipn 8 nonce); read32le (skipn 12 nonce)].
  2:{ transitivity (le_words 4 nonce); [rewrite le_words_read by (auto; lia); reflexivity|].
      do 16 (destruct nonce as [|? nonce]; [cbn in HL; lia|]). reflexivity. }
  assert (L : length (consts key ++ key_words key) = 12%nat) by (rewrite <- cc_head_spec by auto; reflexivity).
  rewrite app_assoc. set (st := (consts key ++ key_words key) ++ _) in *.
  assert (LS : length st = 16%nat) by (unfold st; rewrite app_length, L; reflexivity).
  rewrite cc_perm_spec by auto. pose proof (cc_perm_len st LS) as LP. f_equal.
  destruct (cha_perm st) as [|x0 x]; [discriminate LP|].
  do 15 (destruct x as [|? x]; [discriminate LP|]); destruct x; [reflexivity|discriminate LP].
Qed.
Lemma salsa20_derive_spec key nonce : bytes key -> key_ok key = true -> bytes nonce -> (16 <= length nonce)%nat ->
  salsa20_derive key nonce = Some (hsalsa key (firstn 16 nonce)).
Proof.
  intros Hk Hok Hn HL. unfold salsa20_derive. rewrite Hok. cbn [negb]. f_equal.
  rewrite words_bytes_unwords. unfold hsalsa. rewrite sa_state_spec by auto.
  replace (le_words 4 (firstn 16 nonce)) with [read32le nonce; read32le (skipn 4 nonce); read32le (skipn 8 nonce); read32le (skipn 12 nonce)].
  2:{ transitivity (le_words 4 nonce); [rewrite le_words_read by (auto; lia); reflexivity|].
      do 16 (destruct nonce as [|? nonce]; [cbn in HL; lia|]). reflexivity. }
  set (n4 := [_; _; _; _]).
  assert (LS : length (sal_expand key n4) = 16%nat) by (rewrite <- sa_state_spec by auto; reflexivity).
  rewrite sa_perm_spec by auto. reflexivity.
Qed.
(* ---- injectivity of the rounds ---- *)
Lemma step_inj i (G : list Z -> Z -> Z) : 
  (forall x y, length x = length y -> (forall k, k <> i -> rd x k = rd y k) -> G x = G y) ->
  (forall x v w, Forall word x -> word v -> word w -> G x v = G x w -> v = w) ->
  forall x y, Forall word x -> Forall word y -> length x = length y -> (i < length x)%nat ->
  upd x i (G x (rd x i)) = upd y i (G y (rd y i)) -> x = y.
Proof.
  intros HG Hinj x y Hx Hy HL Hi E.
  assert (Hk : forall k, k <> i -> rd x k = rd y k).
  { intros k N. unfold rd. rewrite <- (nth_upd_other x i k (G x (rd x i)) 0) by auto. rewrite E. apply nth_upd_other. auto. }
  assert (Hv : G x (rd x i) = G y (rd y i)).
  { rewrite <- (nth_upd_same x i (G x (rd x i)) 0) by auto. rewrite E. apply nth_upd_same. lia. }
  rewrite <- (HG x y HL Hk) in Hv.
  apply Hinj in Hv; auto; try (apply rd_word; auto).
  apply (list_eq_nth 0); auto. intros k _. destruct (Nat.eq_dec k i) as [->|N]; [exact Hv|apply Hk; auto].
Qed.

Lemma add32_inj a b c : word a -> word b -> add32 a c = add32 b c -> a = b.
Proof.
  unfold word, add32, w32. intros Ha Hb E.
  assert (E2 : (a + c - c) mod M32 = (b + c - c) mod M32) by (rewrite Zminus_mod, E, <- Zminus_mod; reflexivity).
  rewrite !Z.add_simpl_r, !Z.mod_small in E2 by auto. exact E2.
Qed.
Lemma lxor_inj a b c : Z.lxor a c = Z.lxor b c -> a = b.
Proof.
  intros E. assert (E2 : Z.lxor (Z.lxor a c) c = Z.lxor (Z.lxor b c) c) by congruence.
  rewrite !Z.lxor_assoc, Z.lxor_nilpotent, !Z.lxor_0_r in E2. exact E2.
Qed.
Lemma rotl32_testbit x n m : word x -> 0 < n < 32 -> 0 <= m ->
  Z.testbit (rotl32 x n) m = if m <? n then Z.testbit x (m + 32 - n) else if m <? 32 then Z.testbit x (m - n) else false.
Proof.
  intros Hx Hn Hm. unfold rotl32. rewrite Z.lor_spec, testbit_w32, Z.shiftl_spec, Z.shiftr_spec by lia.
  destruct (Z.ltb_spec m n).
  - rewrite (Z.testbit_neg_r x (m - n)) by lia. rewrite andb_false_r. cbn [orb]. f_equal. lia.
  - rewrite (testbit_high x 32 (m + (32 - n))) by (unfold word, M32 in Hx; try lia; change (2 ^ 32) with 4294967296; lia).
    rewrite orb_false_r. destruct (m <? 32); reflexivity.
Qed.
Lemma rotl32_inj a b n : word a -> word b -> 0 < n < 32 -> rotl32 a n = rotl32 b n -> a = b.
Proof.
  intros Ha Hb Hn E. apply Z.bits_inj'. intros m Hm.
  destruct (Z.lt_ge_cases m 32) as [L|L].
  - assert (HT : forall k, 0 <= k -> Z.testbit (rotl32 a n) k = Z.testbit (rotl32 b n) k) by (intros; congruence).
    destruct (Z.lt_ge_cases m (32 - n)) as [L2|L2].
    + specialize (HT (m + n) ltac:(lia)). rewrite !rotl32_testbit in HT by (auto; lia).
      destruct (Z.ltb_spec (m + n) n); [lia|]. destruct (Z.ltb_spec (m + n) 32); [|lia].
      rewrite Z.add_simpl_r in HT. exact HT.
    + specialize (HT (m + n - 32) ltac:(lia)). rewrite !rotl32_testbit in HT by (auto; lia).
      destruct (Z.ltb_spec (m + n - 32) n); [|lia]. replace (m + n - 32 + 32 - n) with m in HT by lia. exact HT.
  - rewrite !(testbit_high _ 32) by (unfold word, M32 in *; try lia; change (2 ^ 32) with 4294967296; lia). reflexivity.
Qed.
Lemma rotl32_word x n : word x -> 0 < n < 32 -> word (rotl32 x n).
Proof.
  intros Hx Hn. unfold word. rewrite M32_eq. unfold rotl32. apply lor_range; [lia| |].
  - rewrite <- M32_eq. apply w32_range.
  - rewrite <- M32_eq. unfold word in Hx. rewrite shiftr_div by lia. split; [apply Z.div_pos; [lia|apply Z.pow_pos_nonneg; lia]|].
    apply Z.le_lt_trans with x; [|lia]. apply Z.div_le_upper_bound; [apply Z.pow_pos_nonneg; lia|].
    assert (1 <= 2 ^ (32 - n)) by (change 1 with (2 ^ 0); apply Z.pow_le_mono_r; lia). nia.
Qed.
Lemma lxor_word a b : word a -> word b -> word (Z.lxor a b).
Proof. unfold word. rewrite M32_eq. apply lxor_range. lia. Qed.
Lemma add32_word a b : word (add32 a b).
Proof. apply w32_range. Qed.

(* one statement of either QROUND *)
Lemma add_step_inj i j x y : i <> j -> Forall word x -> Forall word y -> length x = length y -> (i < length x)%nat ->
  upd x i (add32 (rd x i) (rd x j)) = upd y i (add32 (rd y i) (rd y j)) -> x = y.
Proof.
  intros N. apply (step_inj i (fun x v => add32 v (rd x j))).
  - intros a b _ H. rewrite (H j) by auto. reflexivity.
  - intros a v w _. apply add32_inj.
Qed.
Lemma rot_step_inj i j n x y : i <> j -> 0 < n < 32 -> Forall word x -> Forall word y -> length x = length y -> (i < length x)%nat ->
  upd x i (rotl32 (Z.lxor (rd x i) (rd x j)) n) = upd y i (rotl32 (Z.lxor (rd y i) (rd y j)) n) -> x = y.
Proof.
  intros N Hn. apply (step_inj i (fun x v => rotl32 (Z.lxor v (rd x j)) n)).
  - intros a b _ H. rewrite (H j) by auto. reflexivity.
  - intros a v w Ha Hv Hw E. apply rotl32_inj in E; auto; try (apply lxor_word; auto; apply rd_word; auto).
    apply lxor_inj in E. auto.
Qed.
Lemma xor_step_inj i j k n x y : i <> j -> i <> k -> Forall word x -> Forall word y -> length x = length y -> (i < length x)%nat ->
  upd x i (Z.lxor (rd x i) (rotl32 (add32 (rd x j) (rd x k)) n)) = upd y i (Z.lxor (rd y i) (rotl32 (add32 (rd y j) (rd y k)) n)) -> x = y.
Proof.
  intros N N2. apply (step_inj i (fun x v => Z.lxor v (rotl32 (add32 (rd x j) (rd x k)) n))).
  - intros a b _ H. rewrite (H j), (H k) by auto. reflexivity.
  - intros a v w _ _ _ E. apply lxor_inj in E. auto.
Qed.
Lemma upd_wstate x i v : wstate x -> word v -> wstate (upd x i v).
Proof. intros [H L] Hv. split; [apply Forall_upd; auto|rewrite upd_length; auto]. Qed.

Definition sadd i j x := upd x i (add32 (rd x i) (rd x j)).
Definition srot n i j x := upd x i (rotl32 (Z.lxor (rd x i) (rd x j)) n).
Definition sxor n i j k x := upd x i (Z.lxor (rd x i) (rotl32 (add32 (rd x j) (rd x k)) n)).
Lemma cc_qround_steps x a b c d : cc_qround x a b c d =
  srot 7 b c (sadd c d (srot 8 d a (sadd a b (srot 12 b c (sadd c d (srot 16 d a (sadd a b x))))))).
Proof. reflexivity. Qed.
Lemma sa_qround_steps x a b c d : sa_qround x a b c d =
  sxor 18 a d c (sxor 13 d c b (sxor 9 c b a (sxor 7 b a d x))).
Proof. reflexivity. Qed.

(* f maps word states to word states injectively *)
Definition winj (f : list Z -> list Z) : Prop :=
  (forall x, wstate x -> wstate (f x)) /\ (forall x y, wstate x -> wstate y -> f x = f y -> x = y).
Lemma winj_comp f g : winj f -> winj g -> winj (fun x => f (g x)).
Proof. intros [F1 F2] [G1 G2]. split; intros; auto. Qed.
Lemma sadd_winj i j : i <> j -> (i < 16)%nat -> winj (sadd i j).
Proof.
  intros N Hi. split.
  - intros x H. apply upd_wstate; auto. apply add32_word.
  - intros x y [Hx Lx] [Hy Ly] E. apply add_step_inj in E; auto; lia.
Qed.
Lemma srot_winj n i j : i <> j -> (i < 16)%nat -> 0 < n < 32 -> winj (srot n i j).
Proof.
  intros N Hi Hn. split.
  - intros x H. apply upd_wstate; auto. apply rotl32_word; auto. apply lxor_word; apply rd_word, H.
  - intros x y [Hx Lx] [Hy Ly] E. apply rot_step_inj in E; auto; lia.
Qed.
Lemma sxor_winj n i j k : i <> j -> i <> k -> (i < 16)%nat -> 0 < n < 32 -> winj (sxor n i j k).
Proof.
  intros N N2 Hi Hn. split.
  - intros x H. apply upd_wstate; auto. apply lxor_word; [apply rd_word, H|]. apply rotl32_word; auto. apply add32_word.
  - intros x y [Hx Lx] [Hy Ly] E. apply xor_step_inj in E; auto; lia.
Qed.
Lemma cc_qround_winj a b c d : (a < 16)%nat -> (b < 16)%nat -> (c < 16)%nat -> (d < 16)%nat ->
  a <> b -> a <> d -> b <> c -> c <> d -> winj (fun x => cc_qround x a b c d).
Proof.
  intros. change (winj (fun x => srot 7 b c (sadd c d (srot 8 d a (sadd a b (srot 12 b c (sadd c d (srot 16 d a (sadd a b x))))))))).
  apply winj_comp; [apply srot_winj; auto; lia|].
  apply winj_comp; [apply sadd_winj; auto; lia|].
  apply winj_comp; [apply srot_winj; auto; lia|].
  apply winj_comp; [apply sadd_winj; auto; lia|].
  apply winj_comp; [apply srot_winj; auto; lia|].
  apply winj_comp; [apply sadd_winj; auto; lia|].
  apply winj_comp; [apply srot_winj; auto; lia|]. apply sadd_winj; auto.
Qed.
Lemma sa_qround_winj a b c d : (a < 16)%nat -> (b < 16)%nat -> (c < 16)%nat -> (d < 16)%nat ->
  a <> b -> a <> c -> a <> d -> b <> c -> b <> d -> c <> d -> winj (fun x => sa_qround x a b c d).
Proof.
  intros. change (winj (fun x => sxor 18 a d c (sxor 13 d c b (sxor 9 c b a (sxor 7 b a d x))))).
  apply winj_comp; [apply sxor_winj; auto; lia|].
  apply winj_comp; [apply sxor_winj; auto; lia|].
  apply winj_comp; [apply sxor_winj; auto; lia|]. apply sxor_winj; auto; lia.
Qed.
Lemma cc_dround_winj : winj cc_dround.
Proof.
  unfold cc_dround. cbv zeta.
  apply (winj_comp (fun x => cc_qround x 3 4 9 14)); [apply cc_qround_winj; lia|].
  apply (winj_comp (fun x => cc_qround x 2 7 8 13)); [apply cc_qround_winj; lia|].
  apply (winj_comp (fun x => cc_qround x 1 6 11 12)); [apply cc_qround_winj; lia|].
  apply (winj_comp (fun x => cc_qround x 0 5 10 15)); [apply cc_qround_winj; lia|].
  apply (winj_comp (fun x => cc_qround x 3 7 11 15)); [apply cc_qround_winj; lia|].
  apply (winj_comp (fun x => cc_qround x 2 6 10 14)); [apply cc_qround_winj; lia|].
  apply (winj_comp (fun x => cc_qround x 1 5 9 13)); [apply cc_qround_winj; lia|]. apply cc_qround_winj; lia.
Qed.
Lemma sa_dround_winj : winj sa_dround.
Proof.
  unfold sa_dround. cbv zeta.
  apply (winj_comp (fun x => sa_qround x 15 12 13 14)); [apply sa_qround_winj; lia|].
  apply (winj_comp (fun x => sa_qround x 10 11 8 9)); [apply sa_qround_winj; lia|].
  apply (winj_comp (fun x => sa_qround x 5 6 7 4)); [apply sa_qround_winj; lia|].
  apply (winj_comp (fun x => sa_qround x 0 1 2 3)); [apply sa_qround_winj; lia|].
  apply (winj_comp (fun x => sa_qround x 15 3 7 11)); [apply sa_qround_winj; lia|].
  apply (winj_comp (fun x => sa_qround x 10 14 2 6)); [apply sa_qround_winj; lia|].
  apply (winj_comp (fun x => sa_qround x 5 9 13 1)); [apply sa_qround_winj; lia|]. apply sa_qround_winj; lia.
Qed.
Lemma times_winj n f : winj f -> winj (times n f).
Proof.
  intros H. induction n; cbn [times]; [split; auto|]. apply (winj_comp (times n f) f); auto.
Qed.
