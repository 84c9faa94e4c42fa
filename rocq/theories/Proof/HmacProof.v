(* Sizes of the digests, and HMAC *)
From Verif.Base Require Import Prelude.
From Verif.Model Require Import Bio Block Encoding Sha HashPrims Keccak Hash.
From Verif.Spec Require Import BlockSpec ShaSpec KeccakSpec HashSpec.
From Verif.Proof Require Import BioProof BlockProof ShaProof MdProof WordsOut KeccakPerm KeccakProof HashOther HashProof.
#[local] Opaque keccak_f keccak_compress blake2b_compress blake2s_compress.

Lemma md_hash_inv {St} B L enc (f : St -> list Z -> St) (P : St -> Prop) iv m : (0 < B)%nat -> P iv ->
  (forall a x, P a -> length x = B -> P (f a x)) -> P (md_hash B L enc f iv m).
Proof. intros HB Hi H. unfold md_hash. apply (fold_inv f P (fun b => length b = B)); auto. apply blocks_lengths. auto. Qed.
Lemma md_transform_length plusb rows st chunk n : length st = n -> length (md_transform plusb rows st chunk) = n.
Proof.
  intros H. unfold md_transform. rewrite map2_length. rewrite (fold_length _ n); [lia| |exact H].
  intros V [[[[F regs] i] k] s] HV. unfold md_R. rewrite !upd_length. exact HV.
Qed.
Lemma whirl_length st chunk : length st = 8%nat -> length (whirlpool_transform st chunk) = 8%nat.
Proof.
  intros H. unfold whirlpool_transform. cbv zeta.
  assert (G : forall l K s, length s = 8%nat -> length (snd (fold_left whirlpool_round l (K, s))) = 8%nat).
  { intros l. induction l as [|rc l IH]; intros K s Hs; cbn [fold_left]; [exact Hs|]. unfold whirlpool_round at 2. cbv zeta.
    apply IH. rewrite map2_length, upd_length, !map_length, seq_length. reflexivity. }
  specialize (G whirlpool_RC st (map2 Z.lxor (map (fun i => read64be (skipn (i * 8) chunk)) (seq 0 8)) st)
    ltac:(rewrite map2_length, map_length, seq_length, H; reflexivity)).
  destruct (fold_left whirlpool_round whirlpool_RC _) as [K s]. cbn [snd] in G.
  rewrite !map2_length, map_length, seq_length, G, H. reflexivity.
Qed.
(* MD2 *)
Lemma md2_K_byte i : byte (nth i md2_K 0).
Proof.
  apply Forall_nth_d; [|unfold byte; lia]. apply Forall_forall. intros x Hx.
  assert (C : forallb (fun x => (0 <=? x) && (x <? 256)) md2_K = true) by (vm_compute; reflexivity).
  rewrite forallb_forall in C. specialize (C x Hx). unfold byte. lia.
Qed.
Lemma lxor_byte a b : byte a -> byte b -> byte (Z.lxor a b).
Proof. unfold byte. change 256 with (2 ^ 8). apply lxor_range. lia. Qed.
Lemma md2_pass_ok s : forall t, bytes s -> length (fst (md2_pass s t)) = length s /\ bytes (fst (md2_pass s t)).
Proof.
  induction s as [|a s IH]; intros t H; cbn [md2_pass]; [split; [reflexivity|constructor]|]. inversion H as [|? ? Ha Hs]; subst.
  specialize (IH (Z.lxor a (nth (Z.to_nat t) md2_K 0)) Hs). cbv zeta. destruct (md2_pass s _) as [u t']. cbn [fst length] in *. destruct IH as [I1 I2].
  split; [lia|]. constructor; [apply lxor_byte; [auto|apply md2_K_byte]|auto].
Qed.
Lemma md2_rounds_ok s : bytes s -> length (md2_rounds s) = length s /\ bytes (md2_rounds s).
Proof.
  intros H. unfold md2_rounds. generalize (zseq 0 18). intros l. generalize 0. revert s H.
  induction l as [|j l IH]; intros s H z; cbn [fold_left fst snd]; [auto|]. pose proof (md2_pass_ok s z H) as [P1 P2].
  destruct (md2_pass s z) as [s' t]. cbn [fst] in P1, P2. rewrite <- P1. apply IH. auto.
Qed.
Lemma md2_sum_bytes C : forall W l, bytes C -> bytes (md2_sum C W l).
Proof.
  induction C as [|c C IH]; intros [|w W] l H; cbn [md2_sum]; try constructor; inversion H; subst.
  - apply lxor_byte; [auto|apply md2_K_byte].
  - apply IH. auto.
Qed.
#[local] Opaque md2_rounds md2_sum gost94_compress.
Lemma bytes_zeros n : bytes (repeat 0 n).
Proof. apply bytes_repeat. unfold byte. lia. Qed.
Lemma xor_bytes a : forall b, bytes a -> bytes b -> bytes (map2 Z.lxor a b).
Proof. induction a as [|x a IH]; intros [|y b] Ha Hb; cbn [map2]; try constructor; inversion Ha; inversion Hb; subst; [apply lxor_byte; auto|apply IH; auto]. Qed.
Lemma md2_value_ok m : bytes m -> length (md2_value m) = 16%nat /\ bytes (md2_value m).
Proof.
  intros Hm. unfold md2_value.
  assert (HP : bytes (md2_padded m)).
  { unfold md2_padded. cbv zeta. apply bytes_app. split; [auto|]. apply bytes_repeat. unfold byte. lia. }
  set (p := md2_padded m) in *. cbv zeta.
  assert (HC : bytes (md2_checksum p)).
  { unfold md2_checksum. apply (fold_inv (fun C blk => md2_sum C blk (nth 15 C 0)) bytes (fun _ => True));
      [intros; apply md2_sum_bytes; auto|apply bytes_zeros|apply Forall_forall; auto]. }
  set (P := fun X => length X = 48%nat /\ bytes X).
  assert (HX : P (fold_left md2_X (blocks 16 (p ++ md2_checksum p)) (repeat 0 48))).
  { apply (fold_inv md2_X P (fun b => length b = 16%nat /\ bytes b)).
    - intros X b [LX BX] [Lb Bb].
      assert (HI : bytes (firstn 16 X ++ b ++ map2 Z.lxor b (firstn 16 X))).
      { apply bytes_app. split; [apply bytes_firstn; auto|]. apply bytes_app. split; [auto|]. apply xor_bytes; [auto|apply bytes_firstn; auto]. }
      destruct (md2_rounds_ok _ HI) as [R1 R2]. split; [|exact R2]. unfold md2_X. rewrite R1.
      rewrite !app_length, map2_length, firstn_length. lia.
    - split; [reflexivity|apply bytes_zeros].
    - apply blocks_ok; [lia|]. apply bytes_app. auto. }
  change (fun X blk => md2_rounds (firstn 16 X ++ blk ++ map2 Z.lxor blk (firstn 16 X))) with md2_X.
  destruct HX as [H1 H2]. split; [rewrite firstn_length; lia|apply bytes_firstn; auto].
Qed.
(* GOST94 *)
#[local] Transparent gost94_compress.
Definition b32 (l : list Z) : Prop := length l = 32%nat /\ bytes l.
Lemma gost_x_ok a b : b32 a -> b32 b -> b32 (gost94_x a b).
Proof. intros [A1 A2] [B1 B2]. unfold gost94_x. split; [rewrite map2_length; lia|apply xor_bytes; auto]. Qed.
Lemma gost_z_ok a : b32 a -> b32 (gost94_z a).
Proof.
  intros [A1 A2]. unfold gost94_z. cbv zeta. cbn [fold_left]. split.
  - rewrite app_length, firstn_length, skipn_length. cbn [length]. lia.
  - apply bytes_app. split; [apply bytes_firstn, bytes_skipn; auto|].
    assert (N : forall i, byte (nth i a 0)) by (intros i; apply Forall_nth_d; [auto|unfold byte; lia]).
    repeat constructor; repeat apply lxor_byte; apply N.
Qed.
Lemma gost_iter_ok n a : b32 a -> b32 (Nat.iter n gost94_z a).
Proof. intros H. induction n as [|n IH]; [exact H|]. change (b32 (gost94_z (Nat.iter n gost94_z a))). apply gost_z_ok. exact IH. Qed.
Lemma gost_e_ok msg key : length (gost94_e msg key) = 8%nat /\ bytes (gost94_e msg key).
Proof.
  unfold gost94_e. cbv zeta. destruct (fold_left _ _ _) as [a b]. rewrite app_length, !write32le_spec, !le_bytes_length. split; [reflexivity|].
  apply bytes_app. split; apply le_bytes_bytes.
Qed.
Lemma gost_compress_ok s m : b32 s -> b32 m -> b32 (gost94_compress s m).
Proof.
  intros Hs Hm. unfold gost94_compress. cbv zeta. apply gost_iter_ok, gost_x_ok; [exact Hs|]. apply gost_z_ok, gost_x_ok; [|exact Hm].
  apply gost_iter_ok. split.
  - rewrite !app_length, !(fun a b => proj1 (gost_e_ok a b)). reflexivity.
  - apply bytes_app. split; [apply gost_e_ok|]. apply bytes_app. split; [apply gost_e_ok|]. apply bytes_app. split; apply gost_e_ok.
Qed.
#[local] Opaque gost94_compress.
Lemma gost_value_ok m : bytes m -> b32 (gost_value m).
Proof.
  intros Hm. unfold gost_value. cbv zeta.
  assert (HL : forall n, b32 (le_bytes 32 n)) by (intros n; split; [apply le_bytes_length|apply le_bytes_bytes]).
  apply gost_compress_ok; [apply gost_compress_ok; [|apply HL]|apply HL].
  apply (fold_inv gost94_compress b32 (fun b => length b = 32%nat /\ bytes b)).
  - intros a x Ha Hx. apply gost_compress_ok; [exact Ha|exact Hx].
  - split; [reflexivity|apply bytes_zeros].
  - apply blocks_ok; [lia|]. unfold gost_padded. apply bytes_app. split; [auto|apply bytes_zeros].
Qed.
Lemma blake2b_value_ok key m n : (n <= 64)%nat -> length (blake2b_value key m n) = n /\ bytes (blake2b_value key m n).
Proof.
  intros Hn. unfold blake2b_value, blake2_value. cbv zeta. split; [|apply bytes_firstn, words_out_le_bytes].
  rewrite firstn_length, words_out_le_length, blake2b_compress_length; [lia|].
  apply (b2_step_length 128 8 blake2b_compress); [intros; apply blake2b_compress_length; auto|]. cbn [fst]. rewrite blake2_h0_length. reflexivity.
Qed.
Lemma blake2s_value_ok key m n : (n <= 32)%nat -> length (blake2s_value key m n) = n /\ bytes (blake2s_value key m n).
Proof.
  intros Hn. unfold blake2s_value, blake2_value. cbv zeta. split; [|apply bytes_firstn, words_out_le_bytes].
  rewrite firstn_length, words_out_le_length, blake2s_compress_length; [lia|].
  apply (b2_step_length 64 4 blake2s_compress); [intros; apply blake2s_compress_length; auto|]. cbn [fst]. rewrite blake2_h0_length. reflexivity.
Qed.
(* sponge *)
Lemma squeeze_ok R n : forall A, (R <= 200)%nat -> st_ok A -> length (squeeze n R A) = (n * R)%nat /\ bytes (squeeze n R A).
Proof.
  induction n as [|n IH]; intros A HR HA; cbn [squeeze]; [split; [reflexivity|constructor]|].
  destruct (keccak_compress_spec A HA) as [_ HA']. destruct (IH (keccak_f A) HR HA') as [I1 I2]. destruct HA as [HL _].
  split.
  - rewrite app_length, firstn_length, concat_le_length, I1, HL. lia.
  - apply bytes_app. split; [apply bytes_firstn, words_out_le_bytes|exact I2].
Qed.
Lemma keccak_hash_ok R s m d : rate_ok R true -> bytes m -> Forall (below 2) s -> (length s <= 6)%nat ->
  length (keccak_hash R s m d) = d /\ bytes (keccak_hash R s m d).
Proof.
  intros HR Hm HS HL. unfold keccak_hash, sponge. rewrite padded_bytes by (auto; destruct HR; lia).
  set (P := m ++ _).
  assert (HP : bytes P) by (apply bytes_app; split; [auto|apply pad_bytes_bytes; pose proof (pad_byte_range s HS HL); lia]).
  destruct (fold_absorb R true (blocks R P) (repeat 0 25) HR st_ok_zero (blocks_ok R P ltac:(destruct HR; lia) HP)) as [_ HA].
  destruct (squeeze_ok R (d / R + 1) _ ltac:(destruct HR; lia) HA) as [Q1 Q2].
  split; [|apply bytes_firstn; exact Q2]. rewrite firstn_length, Q1.
  pose proof (Nat.div_mod d R ltac:(destruct HR; lia)). pose proof (Nat.mod_upper_bound d R ltac:(destruct HR; lia)). nia.
Qed.
Lemma md4_value_ok m : length (md4_value m) = 16%nat /\ bytes (md4_value m).
Proof.
  unfold md4_value. split; [|apply words_out_le_bytes]. rewrite words_out_le_length.
  rewrite (md_hash_inv 64 56 le_bytes md4_transform (fun s => length s = 4%nat)); [reflexivity|lia|reflexivity|].
  intros; apply md_transform_length; auto.
Qed.
Lemma md5_value_ok m : length (md5_value m) = 16%nat /\ bytes (md5_value m).
Proof.
  unfold md5_value. split; [|apply words_out_le_bytes]. rewrite words_out_le_length.
  rewrite (md_hash_inv 64 56 le_bytes md5_transform (fun s => length s = 4%nat)); [reflexivity|lia|reflexivity|].
  intros; apply md_transform_length; auto.
Qed.
Lemma rmd_value_ok m : length (rmd_value m) = 20%nat /\ bytes (rmd_value m).
Proof.
  unfold rmd_value. split; [|apply words_out_le_bytes]. rewrite words_out_le_length.
  rewrite (md_hash_inv 64 56 le_bytes ripemd160_transform (fun s => length s = 5%nat)); [reflexivity|lia|reflexivity|].
  intros; unfold ripemd160_transform; reflexivity.
Qed.
Lemma whirl_value_ok m : length (whirl_value m) = 64%nat /\ bytes (whirl_value m).
Proof.
  unfold whirl_value. split; [|apply words_out_bytes]. rewrite words_out_length.
  rewrite (md_hash_inv 64 32 be_bytes whirlpool_transform (fun s => length s = 8%nat)); [reflexivity|lia|reflexivity|].
  intros; apply whirl_length; auto.
Qed.
Lemma sha_value_ok m : bytes m -> (length (fips_sha1 m) = 20%nat /\ bytes (fips_sha1 m)) /\ (length (fips_sha256 m) = 32%nat /\ bytes (fips_sha256 m)) /\
  (length (fips_sha224 m) = 28%nat /\ bytes (fips_sha224 m)) /\ (length (fips_sha512 m) = 64%nat /\ bytes (fips_sha512 m)) /\
  (length (fips_sha384 m) = 48%nat /\ bytes (fips_sha384 m)).
Proof.
  intros H. unfold fips_sha1, fips_sha256, fips_sha224, fips_sha512, fips_sha384.
  rewrite !firstn_length, !words_out_length.
  rewrite (proj1 (proj2 (sha1_hash H1 m H (proj2 iv_sha1)))), (proj1 (proj2 (sha256_hash H256 m H (proj2 iv_sha256)))),
    (proj1 (proj2 (sha256_hash H224 m H (proj2 iv_sha224)))), (proj1 (proj2 (sha512_hash H512 m H (proj2 iv_sha512)))),
    (proj1 (proj2 (sha512_hash H384 m H (proj2 iv_sha384)))).
  split; [split; [reflexivity|apply words_out_bytes]|]. split; [split; [reflexivity|apply words_out_bytes]|].
  split; [split; [reflexivity|apply bytes_firstn, words_out_bytes]|]. split; [split; [reflexivity|apply words_out_bytes]|].
  split; [reflexivity|apply bytes_firstn, words_out_bytes].
Qed.
Theorem hash_value_ok id m len : bytes m -> length (hash_value id m len) = size_of id len /\ bytes (hash_value id m len).
Proof.
  intros Hm. destruct (sha_value_ok m Hm) as [S1 [S2 [S3 [S4 S5]]]].
  assert (K : forall R s d, (R = 72 \/ R = 104 \/ R = 136 \/ R = 144 \/ R = 168)%nat -> Forall (below 2) s -> (length s <= 6)%nat ->
    length (keccak_hash R s m d) = d /\ bytes (keccak_hash R s m d)).
  { intros R s d HR HS HL. apply keccak_hash_ok; auto. destruct HR as [->|[->|[->|[->| ->]]]]; split; cbn; lia. }
  destruct id; cbn [hash_value size_of hash_output_size rate_of];
  first [ apply blake2b_value_ok; lia | apply blake2s_value_ok; lia | exact (gost_value_ok m Hm) | apply md2_value_ok; exact Hm
        | apply md4_value_ok | apply md5_value_ok | apply rmd_value_ok | apply whirl_value_ok | assumption
        | (apply K; [lia|repeat constructor; unfold below; lia|cbn [length]; lia])
        | (apply sha_value_ok; apply S2)
        | (split; [rewrite app_length, (proj1 (md5_value_ok m)), (proj1 S1); reflexivity|apply bytes_app; split; [apply md5_value_ok|apply S1]]) ].
Qed.

(* ---- HMAC ---- *)
Lemma sizes id : (0 < hash_output_size id)%nat /\ (hash_output_size id <= hash_block_size id <= 168)%nat /\
  size_of id (hash_output_size id) = hash_output_size id /\ (hash_output_size id <= rate_of id)%nat.
Proof. destruct id; cbn; repeat split; lia. Qed.
Lemma firstn_firstn_repeat {A} (v : A) n k : firstn k (repeat v n) = repeat v (Nat.min k n).
Proof. apply firstn_repeat. Qed.
Lemma hmac_pad_spec id key v : (length key <= hash_block_size id)%nat ->
  firstn (hash_block_size id) (hmac_pad key v) = map (fun k => Z.lxor k v) (key ++ repeat 0 (hash_block_size id - length key)).
Proof.
  intros H. pose proof (sizes id) as [_ [[_ S1] _]]. unfold hmac_pad. rewrite firstn_app, map_length.
  rewrite firstn_all2 by (rewrite map_length; lia). rewrite firstn_repeat, Nat.min_l by lia. rewrite map_app. f_equal.
  generalize (hash_block_size id - length key)%nat. intros n. induction n as [|n IH]; cbn [repeat map]; [reflexivity|]. rewrite IH, Z.lxor_0_l. reflexivity.
Qed.
Definition hmac_prefix (id : hash_id) (key : list Z) (v : Z) : list Z := map (fun k => Z.lxor k v) (rfc2104_key id key).
Lemma rfc_key_ok id key : bytes key -> bytes (rfc2104_key id key) /\ length (rfc2104_key id key) = hash_block_size id.
Proof.
  intros H. pose proof (sizes id) as [_ [S1 [S2 _]]]. unfold rfc2104_key.
  pose proof (hash_value_ok id key (hash_output_size id) H) as [L B].
  destruct (Nat.ltb_spec (hash_block_size id) (length key)) as [G|G]; (split; [apply bytes_app; split; [assumption|apply bytes_zeros]|rewrite app_length, repeat_length; lia]).
Qed.
Lemma prefix_ok id key v : bytes key -> byte v -> bytes (hmac_prefix id key v) /\ length (hmac_prefix id key v) = hash_block_size id.
Proof.
  intros H Hv. destruct (rfc_key_ok id key H) as [B L]. unfold hmac_prefix. split; [|rewrite map_length; auto].
  apply Forall_map. revert B. apply Forall_impl. intros a Ha. apply lxor_byte; auto.
Qed.
Definition hmrep (id : hash_id) (key m : list Z) (h : hmac_t) : Prop :=
  hm_type h = id /\ hrep id (hmac_prefix id key 0x36 ++ m) (hm_inner h) /\ hrep id (hmac_prefix id key 0x5c) (hm_outer h).
Lemma hmac_init_spec id key : bytes key -> Z.of_nat (length key) < M64 -> exists h, hmac_init id key = Ok h /\ hmrep id key [] h.
Proof.
  intros Hk HL. pose proof (sizes id) as [S0 [[S1 S2] [S3 S4]]].
  set (k' := if (hash_block_size id <? length key)%nat then hash_value id key (hash_output_size id) else key).
  assert (EK : (if (hash_block_size id <? length key)%nat then
          bind (hash_init id) (fun c => bind (hash_update id c key) (fun c => hash_final id c (hash_output_size id)))
        else Ok key) = Ok k').
  { unfold k'. destruct (hash_block_size id <? length key)%nat; [|reflexivity].
    destruct (hrep_init id) as [c [E0 H0]]. rewrite E0. cbn [bind]. destruct (hrep_update id [] c key H0 HL) as [c' [E1 H1]]. rewrite E1. cbn [bind].
    apply hrep_final; auto. rewrite S3. auto. }
  assert (LK : (length k' <= hash_block_size id)%nat).
  { unfold k'. pose proof (hash_value_ok id key (hash_output_size id) Hk) as [L _]. destruct (Nat.ltb_spec (hash_block_size id) (length key)); lia. }
  unfold hmac_init. cbv zeta. rewrite EK. cbn [bind]. destruct (Nat.leb_spec (length k') (hash_block_size id)) as [_|]; [|lia]. cbn [negb].
  rewrite !hmac_pad_spec by auto.
  change (map (fun k => Z.lxor k 54) (k' ++ repeat 0 (hash_block_size id - length k'))) with (hmac_prefix id key 0x36).
  change (map (fun k => Z.lxor k 92) (k' ++ repeat 0 (hash_block_size id - length k'))) with (hmac_prefix id key 0x5c).
  destruct (hrep_init id) as [c [E0 H0]]. rewrite E0. cbn [bind].
  assert (LM : forall n, (n <= 168)%nat -> Z.of_nat n < M64) by (intros n Hn; change M64 with (2 ^ 64); lia).
  destruct (hrep_update id [] c (hmac_prefix id key 0x36) H0) as [ci [E1 H1]].
  { apply LM. rewrite (proj2 (prefix_ok id key 0x36 Hk ltac:(unfold byte; lia))). lia. }
  destruct (hrep_update id [] c (hmac_prefix id key 0x5c) H0) as [co [E2 H2]].
  { apply LM. rewrite (proj2 (prefix_ok id key 0x5c Hk ltac:(unfold byte; lia))). lia. }
  rewrite E1. cbn [bind]. rewrite E2. cbn [bind]. eexists. split; [reflexivity|]. split; [reflexivity|]. cbn [hm_inner hm_outer].
  rewrite app_nil_r. split; [exact H1|exact H2].
Qed.
Lemma hmac_update_spec id key m h raw : hmrep id key m h -> Z.of_nat (length raw) < M64 ->
  exists h', hmac_update h raw = Ok h' /\ hmrep id key (m ++ raw) h'.
Proof.
  intros [T [I O]] HL. unfold hmac_update. rewrite T. destruct (hrep_update id _ _ raw I HL) as [c' [E H]]. rewrite E. cbn [bind].
  eexists. split; [reflexivity|]. split; [reflexivity|]. cbn [hm_inner hm_outer]. rewrite app_assoc. split; assumption.
Qed.
Lemma hmac_final_spec id key m h : bytes key -> bytes m -> hmrep id key m h -> hmac_final h = Ok (rfc2104 id key m).
Proof.
  intros Hk Hm [T [I O]]. pose proof (sizes id) as [S0 [[S1 S2] [S3 S4]]].
  destruct (prefix_ok id key 0x36 Hk ltac:(unfold byte; lia)) as [B1 _]. destruct (prefix_ok id key 0x5c Hk ltac:(unfold byte; lia)) as [B2 _].
  assert (HB : bytes (hmac_prefix id key 0x36 ++ m)) by (apply bytes_app; auto).
  unfold hmac_final. rewrite T. cbv zeta. rewrite (hrep_final id _ _ _ HB I) by (rewrite S3; auto). cbn [bind].
  destruct (hash_value_ok id _ (hash_output_size id) HB) as [L B]. rewrite S3 in L. rewrite firstn_all2 by lia.
  destruct (hrep_update id _ _ (hash_value id (hmac_prefix id key 0x36 ++ m) (hash_output_size id)) O) as [c' [E H]].
  { rewrite L. change M64 with (2 ^ 64). lia. }
  rewrite E. cbn [bind]. rewrite (hrep_final id _ _ _ ltac:(apply bytes_app; split; [exact B2|exact B]) H) by (rewrite S3; auto). reflexivity.
Qed.
Lemma hmac_chunks id key chunks : chunks_ok chunks -> forall m h, hmrep id key m h ->
  exists h', fold_left (fun h x => bind h (fun h => hmac_update h x)) chunks (Ok h) = Ok h' /\ hmrep id key (m ++ concat chunks) h'.
Proof.
  induction 1 as [|x l [_ Hx] Hl IH]; intros m h HR; cbn [fold_left concat bind]; [rewrite app_nil_r; eauto|].
  destruct (hmac_update_spec id key m h x HR Hx) as [h' [E HR']]. rewrite E. destruct (IH _ _ HR') as [h'' [E' HR'']].
  exists h''. rewrite app_assoc. auto.
Qed.
Theorem hmac_stream_value id key chunks : bytes key -> Z.of_nat (length key) < M64 -> chunks_ok chunks ->
  hmac_stream id key chunks = Ok (rfc2104 id key (concat chunks)).
Proof.
  intros Hk HL HC. destruct (hmac_init_spec id key Hk HL) as [h [E HR]]. unfold hmac_stream. rewrite E.
  destruct (hmac_chunks id key chunks HC [] h HR) as [h' [E' HR']]. rewrite E'. cbn [bind]. apply hmac_final_spec; auto. apply chunks_bytes. auto.
Qed.
Lemma rfc2104_ok id key m : bytes key -> bytes m -> length (rfc2104 id key m) = hash_output_size id /\ bytes (rfc2104 id key m).
Proof.
  intros Hk Hm. pose proof (sizes id) as [S0 [[S1 S2] [S3 S4]]].
  destruct (prefix_ok id key 0x36 Hk ltac:(unfold byte; lia)) as [B1 _]. destruct (prefix_ok id key 0x5c Hk ltac:(unfold byte; lia)) as [B2 _].
  unfold rfc2104. fold (hmac_prefix id key 0x36) (hmac_prefix id key 0x5c).
  assert (HB : bytes (hmac_prefix id key 0x5c ++ hash_value id (hmac_prefix id key 0x36 ++ m) (hash_output_size id))).
  { apply bytes_app. split; [exact B2|]. apply hash_value_ok. apply bytes_app. auto. }
  destruct (hash_value_ok id _ (hash_output_size id) HB) as [L B]. rewrite S3 in L. auto.
Qed.
