(* Blowfish: decipher inverts encipher under every key schedule the code can build *)
From Verif.Base Require Import Prelude.
From Verif.Model Require Import Encoding Bio Util Hash Blowfish.
From Verif.Proof Require Import BioProof UtilProof LinOps.

Definition word (x : Z) : Prop := 0 <= x < M32.
Lemma word_xor a b : word a -> word b -> word (Z.lxor a b).
Proof. unfold word. change M32 with (2 ^ 32). apply lxor_range. lia. Qed.
Lemma xx a b : Z.lxor (Z.lxor a b) b = a.
Proof. rewrite Z.lxor_assoc, Z.lxor_nilpotent, Z.lxor_0_r. reflexivity. Qed.
Lemma bf_two_inv c x a b : let '(l, r) := bf_two c x (a, b) in bf_two c (r, l) (b, a) = (snd x, fst x).
Proof. destruct x as [l r]. unfold bf_two. cbn [fst snd]. rewrite !xx. reflexivity. Qed.
Lemma bf_fold_inv c ks : forall x, let '(l, r) := fold_left (bf_two c) ks x in
  fold_left (bf_two c) (map (fun k => (snd k, fst k)) (rev ks)) (r, l) = (snd x, fst x).
Proof.
  induction ks as [|[a b] ks IH]; intros x; cbn [fold_left]; [destruct x; reflexivity|].
  pose proof (bf_two_inv c x a b) as E. specialize (IH (bf_two c x (a, b))). destruct (bf_two c x (a, b)) as [l1 r1].
  destruct (fold_left (bf_two c) ks (l1, r1)) as [l r]. cbn [rev]. rewrite map_app, fold_left_app, IH. cbn [map fold_left fst snd]. exact E.
Qed.
Theorem decipher_encipher c x : blowfish_decipher c (blowfish_encipher c x) = x.
Proof.
  unfold blowfish_encipher. set (ks := [(1, 2); (3, 4); (5, 6); (7, 8); (9, 10); (11, 12); (13, 14); (15, 16)]%nat).
  pose proof (bf_fold_inv c ks (Z.lxor (fst x) (rd (bf_P c) 0), snd x)) as E. cbn [fst snd] in E.
  destruct (fold_left (bf_two c) ks (Z.lxor (fst x) (rd (bf_P c) 0), snd x)) as [l r]. unfold blowfish_decipher. cbn [fst snd]. rewrite xx.
  change [(16, 15); (14, 13); (12, 11); (10, 9); (8, 7); (6, 5); (4, 3); (2, 1)]%nat with (map (fun k : nat * nat => (snd k, fst k)) (rev ks)).
  rewrite E. rewrite xx. destruct x. reflexivity.
Qed.
Theorem encipher_decipher c x : blowfish_encipher c (blowfish_decipher c x) = x.
Proof.
  unfold blowfish_decipher. set (ks := [(16, 15); (14, 13); (12, 11); (10, 9); (8, 7); (6, 5); (4, 3); (2, 1)]%nat).
  pose proof (bf_fold_inv c ks (Z.lxor (fst x) (rd (bf_P c) 17), snd x)) as E. cbn [fst snd] in E.
  destruct (fold_left (bf_two c) ks (Z.lxor (fst x) (rd (bf_P c) 17), snd x)) as [l r]. unfold blowfish_encipher. cbn [fst snd]. rewrite xx.
  change [(1, 2); (3, 4); (5, 6); (7, 8); (9, 10); (11, 12); (13, 14); (15, 16)]%nat with (map (fun k : nat * nat => (snd k, fst k)) (rev ks)).
  rewrite E. rewrite xx. destruct x. reflexivity.
Qed.

(* ---- ranges ---- *)
Definition Pok (c : blowfish_t) : Prop := Forall word (bf_P c).
Lemma Pk c i : Pok c -> word (rd (bf_P c) i).
Proof. intros H. unfold rd. apply Forall_nth_d; [exact H|]. unfold word, M32. lia. Qed.
Lemma sub_word T x : word (substitute T x).
Proof. unfold substitute, add32, w32, word. apply Z.mod_pos_bound. unfold M32. lia. Qed.
Lemma fold_word c ks : Pok c -> forall x, word (fst x) -> word (snd x) -> let y := fold_left (bf_two c) ks x in word (fst y) /\ word (snd y).
Proof.
  intros HP. induction ks as [|[a b] ks IH]; intros [l r] Hl Hr; cbn [fold_left]; [auto|]. cbn [fst snd] in *. apply IH; unfold bf_two; cbn [fst snd]; repeat apply word_xor; auto using sub_word, Pk.
Qed.
Lemma encipher_word c x : Pok c -> word (fst x) -> word (snd x) -> word (fst (blowfish_encipher c x)) /\ word (snd (blowfish_encipher c x)).
Proof.
  intros HP H1 H2. unfold blowfish_encipher.
  pose proof (fold_word c [(1, 2); (3, 4); (5, 6); (7, 8); (9, 10); (11, 12); (13, 14); (15, 16)]%nat HP (Z.lxor (fst x) (rd (bf_P c) 0), snd x) (word_xor _ _ H1 (Pk c 0 HP)) H2) as [F1 F2].
  destruct (fold_left _ _ _) as [l r]. cbn [fst snd] in *. split; [apply word_xor; auto using Pk|auto].
Qed.
Lemma decipher_word c x : Pok c -> word (fst x) -> word (snd x) -> word (fst (blowfish_decipher c x)) /\ word (snd (blowfish_decipher c x)).
Proof.
  intros HP H1 H2. unfold blowfish_decipher.
  pose proof (fold_word c [(16, 15); (14, 13); (12, 11); (10, 9); (8, 7); (6, 5); (4, 3); (2, 1)]%nat HP (Z.lxor (fst x) (rd (bf_P c) 17), snd x) (word_xor _ _ H1 (Pk c 17 HP)) H2) as [F1 F2].
  destruct (fold_left _ _ _) as [l r]. cbn [fst snd] in *. split; [apply word_xor; auto using Pk|auto].
Qed.
Lemma s2w_word data off : bytes data -> word (fst (blowfish_stream2word data off)).
Proof.
  intros H. unfold blowfish_stream2word. cbv zeta. destruct (length data =? 0)%nat; cbn [fst]; [unfold word, M32; lia|].
  assert (B : forall i, byte (rd data i)) by (intros; apply rd_byte; auto).
  assert (S8 : forall i k, 0 <= k <= 24 -> word (Z.shiftl (rd data i) k)).
  { intros i k Hk. specialize (B i). unfold byte in B. unfold word. rewrite Z.shiftl_mul_pow2 by lia.
    assert (2 ^ k <= 2 ^ 24) by (apply Z.pow_le_mono_r; lia). change (2 ^ 24) with 16777216 in *. unfold M32. nia. }
  assert (L : forall a b, word a -> word b -> word (Z.lor a b)) by (unfold word; change M32 with (2 ^ 32); intros; apply lor_range; lia).
  repeat apply L; try (apply S8; lia). specialize (B ((off + 3) mod length data)%nat). unfold byte, word, M32 in *. lia.
Qed.
Lemma keyP_word P key : bytes key -> forall off, Forall word P -> Forall word (bf_keyP P key off).
Proof.
  intros Hk. induction P as [|p P IH]; intros off HP; cbn [bf_keyP]; [constructor|]. inversion HP; subst.
  pose proof (s2w_word key off Hk) as W. destruct (blowfish_stream2word key off) as [w o]. constructor; [apply word_xor; auto|auto].
Qed.
Definition stok (a : blowfish_t * (Z * Z * nat)) : Prop := Pok (fst a) /\ word (fst (fst (snd a))) /\ word (snd (fst (snd a))).
Lemma next_word c data s : bytes data -> Pok c -> word (fst (fst s)) -> word (snd (fst s)) -> word (fst (fst (bf_next c data s))) /\ word (snd (fst (bf_next c data s))).
Proof.
  intros Hd HP H1 H2. destruct s as [[xl xr] off]. cbn [fst snd] in *. unfold bf_next.
  pose proof (s2w_word data off Hd) as W1. destruct (blowfish_stream2word data off) as [w o]. cbn [fst] in W1.
  pose proof (s2w_word data o Hd) as W2. destruct (blowfish_stream2word data o) as [w2 o2]. cbn [fst] in W2.
  apply encipher_word; auto; apply word_xor; auto.
Qed.
Lemma Forall_upd (P : Z -> Prop) l i v : Forall P l -> P v -> Forall P (upd l i v).
Proof.
  intros H Hv. revert i. induction H as [|a l Ha Hl IH]; intros [|i]; cbn [upd]; constructor; auto.
Qed.
Lemma fillP_ok data a i : bytes data -> stok a -> stok (bf_fillP data a i).
Proof.
  intros Hd [HP [H1 H2]]. destruct a as [c s]. cbn [fst snd] in *. unfold bf_fillP. pose proof (next_word c data s Hd HP H1 H2) as [N1 N2].
  destruct (bf_next c data s) as [[xl xr] off]. cbn [fst snd] in *. split; [|auto]. unfold Pok. cbn [fst bf_P]. apply Forall_upd; [apply Forall_upd|]; auto.
Qed.
Lemma fillS_ok data a ik : bytes data -> stok a -> stok (bf_fillS data a ik).
Proof.
  intros Hd [HP [H1 H2]]. destruct a as [c s]. cbn [fst snd] in *. unfold bf_fillS. pose proof (next_word c data s Hd HP H1 H2) as [N1 N2].
  destruct (bf_next c data s) as [[xl xr] off]. cbn [fst snd] in *. split; [|auto]. exact HP.
Qed.
Lemma fold_stok {B} (f : blowfish_t * (Z * Z * nat) -> B -> blowfish_t * (Z * Z * nat)) l : (forall a b, stok a -> stok (f a b)) -> forall a, stok a -> stok (fold_left f l a).
Proof. intros H. induction l as [|b l IH]; intros a Ha; cbn [fold_left]; auto. Qed.
Lemma expand_ok c key data : bytes key -> bytes data -> Pok c -> Pok (bf_expand c key data).
Proof.
  intros Hk Hd HP. unfold bf_expand. cbv zeta.
  assert (H0 : stok (MkBf (bf_S c) (bf_keyP (bf_P c) key 0), (0, 0, 0%nat))).
  { split; [unfold Pok; cbn [fst bf_P]; apply keyP_word; auto|]. cbn [fst snd]. unfold word, M32. lia. }
  apply (fold_stok (bf_fillS data)); [intros; apply fillS_ok; auto|]. apply (fold_stok (bf_fillP data)); [intros; apply fillP_ok; auto|]. exact H0.
Qed.
Lemma initial_ok : Pok blowfish_initial.
Proof.
  unfold Pok. apply Forall_forall. intros x Hx. assert (C : forallb (fun x => (0 <=? x) && (x <? M32)) (bf_P blowfish_initial) = true) by (vm_compute; reflexivity).
  rewrite forallb_forall in C. specialize (C x Hx). unfold word. lia.
Qed.
Lemma bf_init_ok key salt : bytes key -> bytes salt -> Pok (blowfish_init key salt).
Proof.
  intros Hk Hs. pose proof initial_ok as I0. unfold blowfish_init. cbv zeta. revert I0. generalize blowfish_initial. intros c0 I0.
  pose proof (bytes_firstn 72 _ Hk) as K1. pose proof (bytes_firstn 1096 _ Hs) as K2.
  destruct (_ <? _)%nat; unfold blowfish_expandstate, blowfish_expand0state; apply expand_ok; first [assumption | constructor].
Qed.

(* ---- bytes ---- *)
Lemma read_write_be a b : word a -> word b -> read32be (write32be a ++ write32be b) = a /\ read32be (skipn 4 (write32be a ++ write32be b)) = b.
Proof.
  intros Ha Hb. rewrite !write32be_spec. split.
  - rewrite read32be_spec by (apply bytes_app; split; apply be_bytes_bytes).
    assert (E : forall x t, be_val [rd (be_bytes 4 x ++ t) 0; rd (be_bytes 4 x ++ t) 1; rd (be_bytes 4 x ++ t) 2; rd (be_bytes 4 x ++ t) 3] = be_val (be_bytes 4 x)).
    { intros x t. unfold be_bytes. cbn. reflexivity. }
    rewrite E, be_val_be_bytes. apply Z.mod_small. unfold word, M32 in *. lia.
  - change (skipn 4 (be_bytes 4 a ++ be_bytes 4 b)) with (be_bytes 4 b). rewrite read32be_spec by apply be_bytes_bytes.
    change (be_val [rd (be_bytes 4 b) 0; rd (be_bytes 4 b) 1; rd (be_bytes 4 b) 2; rd (be_bytes 4 b) 3]) with (be_val (be_bytes 4 b)).
    rewrite be_val_be_bytes. apply Z.mod_small. unfold word, M32 in *. lia.
Qed.
Lemma write_read_be s : bytes s -> length s = 8%nat -> write32be (read32be s) ++ write32be (read32be (skipn 4 s)) = s.
Proof.
  intros Hb HL. do 8 (destruct s as [|? s]; [discriminate HL|]). destruct s; [|discriminate HL]. cbn [skipn].
  rewrite !write32be_spec. rewrite !read32be_spec by (first [exact Hb | exact (bytes_skipn 4 _ Hb)]). unfold rd. cbn [nth].
  pose proof (bytes_firstn 4 _ Hb) as B1. pose proof (bytes_skipn 4 _ Hb) as B2. cbn [firstn skipn] in B1, B2.
  change 4%nat with (length [z; z0; z1; z2]) at 1. rewrite be_bytes_be_val by exact B1.
  change 4%nat with (length [z3; z4; z5; z6]). rewrite be_bytes_be_val by exact B2. reflexivity.
Qed.
Lemma read32be_word s : bytes s -> word (read32be s).
Proof. intros H. unfold word. apply read32be_range. auto. Qed.
Theorem bf_roundtrip key salt src : bytes key -> bytes salt -> bytes src -> length src = 8%nat ->
  let c := blowfish_init key salt in
  blowfish_decrypt c (blowfish_encrypt c src) = src /\ blowfish_encrypt c (blowfish_decrypt c src) = src.
Proof.
  intros Hk Hs Hb HL c. pose proof (bf_init_ok key salt Hk Hs) as HP. fold c in HP.
  assert (W1 : word (read32be src)) by (apply read32be_word; auto). assert (W2 : word (read32be (skipn 4 src))) by (apply read32be_word, bytes_skipn; auto).
  unfold blowfish_decrypt, blowfish_encrypt, bf_crypt.
  pose proof (decipher_encipher c (read32be src, read32be (skipn 4 src))) as E1. pose proof (encipher_decipher c (read32be src, read32be (skipn 4 src))) as E2.
  pose proof (encipher_word c (read32be src, read32be (skipn 4 src)) HP W1 W2) as [A1 A2]. pose proof (decipher_word c (read32be src, read32be (skipn 4 src)) HP W1 W2) as [B1 B2].
  destruct (blowfish_encipher c (read32be src, read32be (skipn 4 src))) as [el er]. destruct (blowfish_decipher c (read32be src, read32be (skipn 4 src))) as [dl dr].
  cbn [fst snd] in *. destruct (read_write_be el er A1 A2) as [R1 R2]. destruct (read_write_be dl dr B1 B2) as [R3 R4].
  rewrite R1, R2, R3, R4, E1, E2. split; apply write_read_be; auto.
Qed.
