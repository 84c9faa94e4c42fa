(* Twofish: decryption inverts encryption *)
From Verif.Base Require Import Prelude.
From Verif.Model Require Import Encoding Bio Util Hash Blowfish Ciphers64 Ciphers128.
From Verif.Proof Require Import BioProof BlowfishProof FinInv CipherGen Serpent.

Lemma tf_half x1 x2 u v : word x1 -> word x2 -> word u -> word v ->
  word (rotr32 (Z.lxor x1 u) 1) /\ word (Z.lxor (rotl32 x2 1) v) /\
  Z.lxor (rotl32 (rotr32 (Z.lxor x1 u) 1) 1) u = x1 /\ rotr32 (Z.lxor (Z.lxor (rotl32 x2 1) v) v) 1 = x2.
Proof.
  intros H1 H2 Hu Hv. assert (A : word (Z.lxor x1 u)) by (apply word_xor; assumption). assert (B : word (rotl32 x2 1)) by (apply word_rotl; [exact H2|lia]).
  split; [apply word_rotr; [exact A|lia]|]. split; [apply word_xor; assumption|]. rewrite rotl_rotr, !xx, rotr_rotl by (try assumption; lia). split; reflexivity.
Qed.
Lemma tf_round_inv c i j x : j = S i -> wquad x -> wquad (tf_round c x i) /\ tf_unround c (tf_round c x i) j = x.
Proof.
  intros ->. destruct x as [[[ia ib] ic] id]. intros (Wa & Wb & Wc & Wd). unfold tf_round. cbv zeta.
  set (t2 := tf_t2 c ib). set (t1 := add32 (tf_t1 c ia) t2).
  pose proof (tf_half ic id (add32 t1 (rd (tf_k c) (8 + i * 4 + 0))) (add32 (add32 t2 t1) (rd (tf_k c) (8 + i * 4 + 1))) Wc Wd (word_add _ _) (word_add _ _)) as (A1 & A2 & A3 & A4).
  set (ic' := rotr32 (Z.lxor ic (add32 t1 (rd (tf_k c) (8 + i * 4 + 0)))) 1) in *. set (id' := Z.lxor (rotl32 id 1) (add32 (add32 t2 t1) (rd (tf_k c) (8 + i * 4 + 1)))) in *.
  set (u2 := tf_t2 c id'). set (u1 := add32 (tf_t1 c ic') u2).
  pose proof (tf_half ia ib (add32 u1 (rd (tf_k c) (8 + i * 4 + 2))) (add32 (add32 u2 u1) (rd (tf_k c) (8 + i * 4 + 3))) Wa Wb (word_add _ _) (word_add _ _)) as (B1 & B2 & B3 & B4).
  set (ia' := rotr32 (Z.lxor ia (add32 u1 (rd (tf_k c) (8 + i * 4 + 2)))) 1) in *. set (ib' := Z.lxor (rotl32 ib 1) (add32 (add32 u2 u1) (rd (tf_k c) (8 + i * 4 + 3)))) in *.
  split; [exact (conj B1 (conj B2 (conj A1 A2)))|]. unfold tf_unround. cbv zeta. fold u2. fold u1.
  replace (4 + S i * 4 + 2)%nat with (8 + i * 4 + 2)%nat by lia. replace (4 + S i * 4 + 3)%nat with (8 + i * 4 + 3)%nat by lia.
  replace (4 + S i * 4 + 0)%nat with (8 + i * 4 + 0)%nat by lia. replace (4 + S i * 4 + 1)%nat with (8 + i * 4 + 1)%nat by lia.
  rewrite B3, B4. fold t2. fold t1. rewrite A3, A4. reflexivity.
Qed.
Lemma get4_words k i : Forall word k -> wquad (get4 k i).
Proof. intros H. repeat split; apply (rd_all word k _ H word_0). Qed.
Theorem twofish_words c x : Forall word (tf_k c) -> wquad x -> wquad (twofish_encipher c x) /\ twofish_decipher c (twofish_encipher c x) = x.
Proof.
  intros K W. unfold twofish_encipher. destruct (xor_q_inv x (get4 (tf_k c) 0) (get4_words _ 0 K) W) as [W1 E1].
  destruct (fold_inverse wquad (tf_round c) (tf_unround c) (seq 0 8) (seq 1 8)) with (x := xor_q x (get4 (tf_k c) 0)) as [W2 E2].
  { cbn [seq]. repeat (apply Forall2_cons; [intros y Wy; apply tf_round_inv; [reflexivity|exact Wy]|]). apply Forall2_nil. }
  { exact W1. }
  destruct (fold_left (tf_round c) (seq 0 8) (xor_q x (get4 (tf_k c) 0))) as [[[ia ib] ic] id] eqn:EF. destruct W2 as (Wa & Wb & Wc & Wd).
  destruct (xor_q_inv (ic, id, ia, ib) (get4 (tf_k c) 4) (get4_words _ 4 K) (conj Wc (conj Wd (conj Wa Wb)))) as [W3 _].
  split; [exact W3|]. unfold twofish_decipher, xor_q at 1, get4. cbn [Nat.add].
  change (xor_q (Z.lxor ia (rd (tf_k c) 6), Z.lxor ib (rd (tf_k c) 7), Z.lxor ic (rd (tf_k c) 4), Z.lxor id (rd (tf_k c) 5)) (rd (tf_k c) 6, rd (tf_k c) 7, rd (tf_k c) 4, rd (tf_k c) 5))
    with (Z.lxor (Z.lxor ia (rd (tf_k c) 6)) (rd (tf_k c) 6), Z.lxor (Z.lxor ib (rd (tf_k c) 7)) (rd (tf_k c) 7), Z.lxor (Z.lxor ic (rd (tf_k c) 4)) (rd (tf_k c) 4), Z.lxor (Z.lxor id (rd (tf_k c) 5)) (rd (tf_k c) 5)).
  rewrite !xx. change [8; 7; 6; 5; 4; 3; 2; 1]%nat with (rev (seq 1 8)). rewrite E2. exact E1.
Qed.
Lemma init_k_words bits key c : twofish_init bits key = Ok c -> Forall word (tf_k c).
Proof.
  unfold twofish_init. destruct (negb _); [discriminate|]. intros E. apply Ok_inj in E. subst c. cbn [tf_k].
  apply Forall_flat_map. apply Forall_forall. intros i _. unfold twofish_subkey. constructor; [apply word_add|]. constructor; [|constructor].
  apply word_rotl; [apply word_add|lia].
Qed.
Theorem twofish_roundtrip bits key c src : twofish_init bits key = Ok c -> bytes src -> length src = 16%nat ->
  twofish_decrypt c (twofish_encrypt c src) = src /\ twofish_encrypt c (twofish_decrypt c src) = src.
Proof.
  intros E. apply (block_inverse 16 wquad (ld4 read32le) (st4 write32le) (twofish_encipher c) (twofish_decipher c)).
  - apply fmt_ld4, fmt32le.
  - intros x W. apply twofish_words; [exact (init_k_words bits key c E)|exact W].
Qed.
