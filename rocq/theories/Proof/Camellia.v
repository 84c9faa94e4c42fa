(* Camellia: decryption inverts encryption *)
From Verif.Base Require Import Prelude.
From Verif.Model Require Import Encoding Bio Util Hash Blowfish Ciphers64 Ciphers128.
From Verif.Proof Require Import BioProof BlowfishProof FinInv CipherGen Serpent Twofish.

Lemma S1_words : Forall word camellia_S1. Proof. apply words_check. vm_compute. reflexivity. Qed.
Lemma S2_words : Forall word camellia_S2. Proof. apply words_check. vm_compute. reflexivity. Qed.
Lemma S3_words : Forall word camellia_S3. Proof. apply words_check. vm_compute. reflexivity. Qed.
Lemma S4_words : Forall word camellia_S4. Proof. apply words_check. vm_compute. reflexivity. Qed.
Lemma z0_word t : word (cam_z0 t).
Proof. unfold cam_z0. repeat apply word_xor; apply (rd_all word); auto using word_0, S1_words, S2_words, S3_words, S4_words. Qed.
Lemma z1_word t : word (cam_z1 t).
Proof. unfold cam_z1. repeat apply word_xor; apply (rd_all word); auto using word_0, S1_words, S2_words, S3_words, S4_words. Qed.
Lemma swap2_ok x : wquad x -> wquad (swap2 x).
Proof. destruct x as [[[a b] c] d]. intros (A & B & C & D). exact (conj C (conj D (conj A B))). Qed.
Lemma swap2_swap2 x : swap2 (swap2 x) = x.
Proof. destruct x as [[[a b] c] d]. reflexivity. Qed.
Lemma x4 d r y : Z.lxor (Z.lxor (Z.lxor (Z.lxor d r) y) r) y = d.
Proof. apply Z.bits_inj'. intros i _. rewrite !Z.lxor_spec. destruct (Z.testbit d i), (Z.testbit r i), (Z.testbit y i); reflexivity. Qed.
Lemma F1_inv x k0 k1 : wquad x -> wquad (cam_F1 x k0 k1) /\ cam_F1 (cam_F1 x k0 k1) k0 k1 = x.
Proof.
  destruct x as [[[a b] c] d]. intros (A & B & C & D). unfold cam_F1. cbv zeta.
  pose proof (z0_word (Z.lxor k0 a)) as H0. pose proof (z1_word (Z.lxor k1 b)) as H1. set (z := cam_z0 (Z.lxor k0 a)) in *. set (z' := cam_z1 (Z.lxor k1 b)) in *. clearbody z z'.
  assert (HR : word (rotr32 z 8)) by (apply word_rotr; [exact H0|lia]).
  split.
  - split; [exact A|]. split; [exact B|]. split; repeat apply word_xor; assumption.
  - rewrite xx, x4. reflexivity.
Qed.
(* each step of decryption undoes one step of encryption, with the halves exchanged *)
Definition dual (f g : quad -> quad) : Prop := forall x, wquad x -> wquad (f x) /\ g (swap2 (f x)) = swap2 x.
Lemma F_dual k i j sw : dual (cam_F sw k i j) (cam_F (negb sw) k i j).
Proof.
  intros x W. destruct sw; cbn [negb]; unfold cam_F.
  - destruct (F1_inv (swap2 x) (rd k i) (rd k j) (swap2_ok x W)) as [O E]. split; [apply swap2_ok, O|]. rewrite swap2_swap2. exact E.
  - destruct (F1_inv x (rd k i) (rd k j) W) as [O E]. split; [exact O|]. rewrite swap2_swap2, E. reflexivity.
Qed.
Lemma FL_dual k a b c d : Forall word k -> dual (cam_FL k a b c d) (cam_FL k d c b a).
Proof.
  intros K x. destruct x as [[[r0 r1] r2] r3]. intros (A & B & C & D). unfold cam_FL. cbv zeta.
  assert (KW : forall i, word (rd k i)) by (intros; apply (rd_all word k _ K word_0)).
  set (r1' := Z.lxor r1 (rotl32 (Z.land r0 (rd k a)) 1)). set (r2' := Z.lxor r2 (Z.lor r3 (rd k b))).
  assert (W1 : word r1') by (apply word_xor; [exact B|apply word_rotl; [apply word_and; exact A|lia]]).
  assert (W2 : word r2') by (apply word_xor; [exact C|apply word_or; auto]).
  set (r0' := Z.lxor r0 (Z.lor r1' (rd k c))). set (r3' := Z.lxor r3 (rotl32 (Z.land r2' (rd k d)) 1)).
  assert (W0 : word r0') by (apply word_xor; [exact A|apply word_or; auto]).
  assert (W3 : word r3') by (apply word_xor; [exact D|apply word_rotl; [apply word_and; exact W2|lia]]).
  split; [exact (conj W0 (conj W1 (conj W2 W3)))|]. unfold swap2. cbv zeta.
  replace (Z.lxor r3' (rotl32 (Z.land r2' (rd k d)) 1)) with r3 by (unfold r3'; rewrite xx; reflexivity).
  replace (Z.lxor r0' (Z.lor r1' (rd k c))) with r0 by (unfold r0'; rewrite xx; reflexivity).
  replace (Z.lxor r2' (Z.lor r3 (rd k b))) with r2 by (unfold r2'; rewrite xx; reflexivity).
  unfold r1'. rewrite xx. reflexivity.
Qed.
Lemma white_dual k a b c d : Forall word k -> dual (cam_white k a b c d) (cam_white k c d a b).
Proof.
  intros K x W. unfold cam_white.
  assert (KQ : wquad (rd k a, rd k b, rd k c, rd k d)) by (repeat split; apply (rd_all word k _ K word_0)).
  destruct (xor_q_inv x _ KQ W) as [O _]. split; [exact O|]. destruct x as [[[r0 r1] r2] r3]. unfold xor_q, swap2. rewrite !xx. reflexivity.
Qed.
Ltac duals K := repeat (apply Forall2_cons; [first [apply (F_dual _ _ _ false) | apply (F_dual _ _ _ true) | apply FL_dual; exact K | apply white_dual; exact K]|]); apply Forall2_nil.
Lemma cam128_words k x : Forall word k -> wquad x -> wquad (pipe (camellia128_encrypt_steps k) x) /\ pipe (camellia128_decrypt_steps k) (swap2 (pipe (camellia128_encrypt_steps k) x)) = swap2 x.
Proof. intros K. apply pipe_inverse_swap. cbn [rev camellia128_encrypt_steps camellia128_decrypt_steps app]. duals K. Qed.
Lemma cam256_words k x : Forall word k -> wquad x -> wquad (pipe (camellia256_encrypt_steps k) x) /\ pipe (camellia256_decrypt_steps k) (swap2 (pipe (camellia256_encrypt_steps k) x)) = swap2 x.
Proof. intros K. apply pipe_inverse_swap. cbn [rev camellia256_encrypt_steps camellia256_decrypt_steps app]. duals K. Qed.

(* ---- the key schedule makes words ---- *)
Definition kok (x : quad * list Z) : Prop := wquad (fst x) /\ Forall word (snd x).
Lemma pipe_ok {A} (ok : A -> Prop) steps : Forall (fun f => forall x, ok x -> ok (f x)) steps -> forall x, ok x -> ok (pipe steps x).
Proof. unfold pipe. induction 1 as [|f fs Hf _ IH]; intros x Hx; [exact Hx|]. cbn [fold_left]. apply IH, Hf, Hx. Qed.
Lemma upd_words k i v : Forall word k -> word v -> Forall word (upd k i v).
Proof. revert i. induction k as [|a k IH]; intros i H V; [destruct i; exact H|]. inversion H; subst. destruct i; cbn; constructor; auto. Qed.
Lemma reg_word x c : wquad x -> word (cam_reg x c).
Proof. destruct x as [[[a b] y] d]. intros (A & B & C & D). unfold cam_reg. apply (Forall_nth_d word); [repeat constructor; first [apply A|apply B|apply C|apply D]|apply word_0]. Qed.
Lemma kF_ok sw i j x : kok x -> kok (cam_kF sw i j x).
Proof. intros [A B]. split; [|exact B]. cbn [cam_kF fst]. destruct (F_dual camellia_sigma i j sw (fst x) A) as [O _]. exact O. Qed.
Lemma kxor_ok i x : kok x -> kok (cam_kxor i x).
Proof. intros [A B]. split; [|exact B]. cbn [cam_kxor fst]. apply xor_q_inv; [apply get4_words, B|exact A]. Qed.
Lemma kput_ok n i c x : kok x -> kok (cam_kput n i c x).
Proof.
  intros [A B]. split; [exact A|]. cbn [cam_kput snd]. generalize (seq 0 n). intros l. revert B. generalize (snd x). induction l as [|m l IH]; intros k B; [exact B|].
  cbn [fold_left]. apply IH, upd_words; [exact B|apply reg_word, A].
Qed.
Lemma rot1_ok x : wquad x -> wquad (rot1 x).
Proof. destruct x as [[[a b] c] d]. intros (A & B & C & D). exact (conj B (conj C (conj D A))). Qed.
Lemma unrot1_ok x : wquad x -> wquad (unrot1 x).
Proof. destruct x as [[[a b] c] d]. intros (A & B & C & D). exact (conj D (conj A (conj B C))). Qed.
Lemma iter_ok f c : (forall x, wquad x -> wquad (f x)) -> forall x, wquad x -> wquad (Nat.iter c f x).
Proof. intros H. induction c as [|c IH]; intros x W; [exact W|]. cbn. apply H, IH, W. Qed.
Lemma rotl128_ok x n : n <= 32 -> wquad x -> wquad (rotl128 x n).
Proof.
  intros Hn. destruct x as [[[a b] c] d]. intros (A & B & C & D). unfold rotl128. cbv zeta.
  split; [|split; [|split]]; apply word_or; auto using word_shl; apply word_shr; auto; lia.
Qed.
Lemma krot_ok c n x : n <= 32 -> kok x -> kok (cam_krot c n x).
Proof. intros Hn [A B]. split; [|exact B]. cbn [cam_krot fst]. apply iter_ok; [exact unrot1_ok|]. apply rotl128_ok; [exact Hn|]. apply iter_ok; [exact rot1_ok|exact A]. Qed.
Lemma kget_ok i x : kok x -> kok (cam_kget i x).
Proof. intros [A B]. split; [apply get4_words, B|exact B]. Qed.
Ltac ksteps := repeat (apply Forall_cons; [intros ? ?; first [apply kF_ok; assumption | apply kxor_ok; assumption | apply kput_ok; assumption | apply krot_ok; [lia|assumption] | apply kget_ok; assumption]|]); apply Forall_nil.
Lemma steps128_ok : Forall (fun f => forall x, kok x -> kok (f x)) camellia128_steps.
Proof. unfold camellia128_steps. ksteps. Qed.
Lemma steps256_ok : Forall (fun f => forall x, kok x -> kok (f x)) camellia256_steps.
Proof. unfold camellia256_steps. ksteps. Qed.
Lemma zeros_words n : Forall word (repeat 0 n).
Proof. apply Forall_forall. intros x Hx. apply repeat_spec in Hx. subst x. apply word_0. Qed.
Lemma init128_words key : bytes key -> Forall word (camellia128_init key).
Proof.
  intros H. unfold camellia128_init. cbv zeta. assert (W : wquad (ld4 read32be key)) by (apply (b_ok _ _ _ _ (fmt_ld4 _ _ fmt32be)), H).
  apply (pipe_ok kok _ steps128_ok). split; [exact W|]. cbn [snd]. repeat (apply upd_words; [|apply reg_word, W]). apply zeros_words.
Qed.
Lemma not_word x : word x -> word (not_w x).
Proof. intros H. unfold not_w. apply word_xor; [exact H|]. unfold word, M32. lia. Qed.
Lemma init256_words key long : bytes key -> Forall word (camellia256_init key long).
Proof.
  intros H. unfold camellia256_init. cbv zeta. assert (W : forall i, word (read32be (skipn i key))) by (intros; apply read32be_range, bytes_skipn, H).
  match goal with |- Forall word (snd (pipe _ (_, ?k))) => assert (K : Forall word k) end.
  { destruct long; [repeat (apply upd_words; [|apply W]); apply zeros_words|].
    set (k := upd (upd _ 8 _) 9 _). assert (Hk : Forall word k) by (unfold k; repeat (apply upd_words; [|apply W]); apply zeros_words).
    apply upd_words; [apply upd_words; [exact Hk|]|]; apply not_word, (rd_all word k _ Hk word_0). }
  apply (pipe_ok kok _ steps256_ok). split; [|exact K]. cbn [fst]. apply xor_q_inv; apply get4_words, K.
Qed.
Theorem camellia_roundtrip bits key c src : bytes key -> camellia_init bits key = Ok c -> bytes src -> length src = 16%nat ->
  camellia_decrypt c (camellia_encrypt c src) = src /\ camellia_encrypt c (camellia_decrypt c src) = src.
Proof.
  intros Hk E.
  assert (Q : Forall word (cam_key c)).
  { unfold camellia_init in E. destruct (bits =? 128); [apply Ok_inj in E; subst c; apply init128_words, Hk|].
    destruct (bits =? 192); [apply Ok_inj in E; subst c; apply (init256_words key false), Hk|].
    destruct (bits =? 256); [apply Ok_inj in E; subst c; apply (init256_words key true), Hk|discriminate]. }
  clear E. unfold camellia_encrypt, camellia_decrypt. destruct (cam_bits c =? 128).
  - apply (block_inverse 16 wquad (ld4 read32be) (st4 write32be) (fun x => swap2 (pipe (camellia128_encrypt_steps (cam_key c)) x)) (fun x => swap2 (pipe (camellia128_decrypt_steps (cam_key c)) x))); [apply fmt_ld4, fmt32be|].
    intros x W. destruct (cam128_words (cam_key c) x Q W) as [O I]. split; [apply swap2_ok, O|]. rewrite I. apply swap2_swap2.
  - apply (block_inverse 16 wquad (ld4 read32be) (st4 write32be) (fun x => swap2 (pipe (camellia256_encrypt_steps (cam_key c)) x)) (fun x => swap2 (pipe (camellia256_decrypt_steps (cam_key c)) x))); [apply fmt_ld4, fmt32be|].
    intros x W. destruct (cam256_words (cam_key c) x Q W) as [O I]. split; [apply swap2_ok, O|]. rewrite I. apply swap2_swap2.
Qed.
