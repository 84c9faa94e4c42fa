(* Initialisation of the ChaCha20 / Salsa20 contexts and their keystreams *)
From Verif.Base Require Import Prelude.
From Verif.Model Require Import Bio Util Stream.
From Verif.Spec Require Import StreamSpec.
From Verif.Proof Require Import BioProof UtilProof BufCrypt StreamProof.
#[local] Ltac Zify.zify_post_hook ::= idtac.

Lemma cc_init_short key nonce ctr : (length nonce < 24)%nat ->
  chacha20_init key nonce ctr =
  if negb (key_ok key) then None else
  match cc_tail nonce ctr with None => None | Some t => Some (fresh (cc_head key ++ t)) end.
Proof.
  intros L. unfold chacha20_init. destruct (negb (key_ok key)); [reflexivity|].
  destruct (Nat.leb_spec 24 (length nonce)); [lia|]. reflexivity.
Qed.
Lemma sa_init_short key nonce ctr : (length nonce < 24)%nat ->
  salsa20_init key nonce ctr =
  if negb (key_ok key) then None else
  match sa_mid nonce ctr with None => None | Some t => Some (fresh (sa_state key t)) end.
Proof.
  intros L. unfold salsa20_init. destruct (negb (key_ok key)); [reflexivity|].
  destruct (Nat.leb_spec 24 (length nonce)); [lia|]. reflexivity.
Qed.

Lemma hchacha_ok key n : bytes key -> key_ok key = true -> length n = 16%nat ->
  length (hchacha key n) = 32%nat /\ bytes (hchacha key n).
Proof.
  intros Hb Hk Hn. unfold hchacha. split; [|apply unwords_bytes].
  assert (L : length (consts key ++ key_words key ++ le_words 4 n) = 16%nat).
  { rewrite app_assoc, <- cc_head_spec by auto. rewrite app_length, le_words_length. reflexivity. }
  pose proof (cc_perm_len _ L) as LP. rewrite unwords_length, app_length, firstn_length, skipn_length, LP. reflexivity.
Qed.
Lemma hsalsa_ok key n : length (hsalsa key n) = 32%nat /\ bytes (hsalsa key n).
Proof. unfold hsalsa. split; [rewrite unwords_length; reflexivity|apply unwords_bytes]. Qed.
Lemma key_ok32 key : length key = 32%nat -> key_ok key = true.
Proof. intros H. apply key_ok_iff. auto. Qed.

(* extended nonces *)
Lemma cc_init_x key nonce ctr : bytes key -> bytes nonce -> key_ok key = true -> (24 <= length nonce <= 32)%nat ->
  chacha20_init key nonce ctr = chacha20_init (hchacha key (firstn 16 nonce)) (skipn 16 nonce) ctr.
Proof.
  intros Hk Hn Hok HL.
  destruct (hchacha_ok key (firstn 16 nonce) Hk Hok) as [L _]; [rewrite firstn_length; lia|].
  rewrite (cc_init_short _ (skipn 16 nonce)) by (rewrite skipn_length; lia).
  unfold chacha20_init. rewrite Hok, key_ok32 by auto. cbn [negb].
  destruct (Nat.leb_spec 24 (length nonce)); [|lia].
  rewrite chacha20_derive_spec by (auto; lia). reflexivity.
Qed.
Lemma sa_init_x key nonce ctr : bytes key -> bytes nonce -> key_ok key = true -> (24 <= length nonce <= 32)%nat ->
  salsa20_init key nonce ctr = salsa20_init (hsalsa key (firstn 16 nonce)) (skipn 16 nonce) ctr.
Proof.
  intros Hk Hn Hok HL.
  destruct (hsalsa_ok key (firstn 16 nonce)) as [L _].
  rewrite (sa_init_short _ (skipn 16 nonce)) by (rewrite skipn_length; lia).
  unfold salsa20_init. rewrite Hok, key_ok32 by auto. cbn [negb].
  destruct (Nat.leb_spec 24 (length nonce)); [|lia].
  rewrite salsa20_derive_spec by (auto; lia). reflexivity.
Qed.

(* every successful init gives a fresh context over a word state *)
Lemma cc_init_fresh key nonce ctr c : bytes key -> bytes nonce -> chacha20_init key nonce ctr = Some c ->
  c = fresh (s_state c) /\ wstate (s_state c).
Proof.
  intros Hk Hn E. unfold chacha20_init in E. destruct (key_ok key) eqn:Hok; cbn [negb] in E; [|discriminate].
  assert (K : forall k n, bytes k -> bytes n -> match cc_tail n ctr with None => None | Some t => Some (fresh (cc_head k ++ t)) end = Some c ->
    c = fresh (s_state c) /\ wstate (s_state c)).
  { clear E. intros k n Hk' Hn' E. destruct (cc_tail n ctr) as [t|] eqn:ET; [|discriminate]. apply some_inj in E. subst c.
    split; [reflexivity|]. apply cc_tail_ok in ET; auto. destruct (cc_head_ok k Hk') as [W L]. cbn [s_state fresh].
    split; [apply Forall_app; tauto|rewrite app_length; lia]. }
  destruct (Nat.leb_spec 24 (length nonce)) as [L|L].
  - rewrite chacha20_derive_spec in E by (auto; lia).
    destruct (hchacha_ok key (firstn 16 nonce) Hk Hok) as [_ HB]; [rewrite firstn_length; lia|].
    eapply K; [exact HB|apply (bytes_skipn 16 nonce Hn)|exact E].
  - eapply K; [exact Hk|exact Hn|exact E].
Qed.
Lemma sa_init_fresh key nonce ctr c : bytes key -> bytes nonce -> salsa20_init key nonce ctr = Some c ->
  c = fresh (s_state c) /\ wstate (s_state c).
Proof.
  intros Hk Hn E. unfold salsa20_init in E. destruct (key_ok key) eqn:Hok; cbn [negb] in E; [|discriminate].
  assert (K : forall k n, bytes k -> bytes n -> match sa_mid n ctr with None => None | Some t => Some (fresh (sa_state k t)) end = Some c ->
    c = fresh (s_state c) /\ wstate (s_state c)).
  { clear E. intros k n Hk' Hn' E. destruct (sa_mid n ctr) as [t|] eqn:ET; [|discriminate]. apply some_inj in E. subst c.
    split; [reflexivity|]. apply sa_mid_ok in ET; auto. apply sa_state_ok; tauto. }
  destruct (Nat.leb_spec 24 (length nonce)) as [L|L].
  - rewrite salsa20_derive_spec in E by (auto; lia).
    destruct (hsalsa_ok key (firstn 16 nonce)) as [_ HB].
    eapply K; [exact HB|apply (bytes_skipn 16 nonce Hn)|exact E].
  - eapply K; [exact Hk|exact Hn|exact E].
Qed.

Lemma cc_init_some key nonce ctr :
  (exists c, chacha20_init key nonce ctr = Some c) <->
  key_ok key = true /\ In (length nonce) [8; 12; 16; 24; 28; 32]%nat.
Proof.
  unfold chacha20_init. destruct (key_ok key) eqn:Hok; cbn [negb].
  2:{ split; [intros [c E]; discriminate|intros [E _]; discriminate]. }
  unfold chacha20_derive. rewrite Hok. cbn [negb].
  destruct (Nat.leb_spec 24 (length nonce)) as [L|L]; unfold cc_tail; rewrite ?skipn_length.
  - assert (forall n, (length nonce - 16 =? n)%nat = (length nonce =? n + 16)%nat) as EN.
    { intros n. apply Bool.eq_iff_eq_true. rewrite !Nat.eqb_eq. lia. }
    rewrite !EN. cbn [Nat.add].
    destruct (Nat.eqb_spec (length nonce) 24) as [->|]; [split; [intros; cbn; auto 10|intros; eexists; reflexivity]|].
    destruct (Nat.eqb_spec (length nonce) 28) as [->|]; [split; [intros; cbn; auto 10|intros; eexists; reflexivity]|].
    destruct (Nat.eqb_spec (length nonce) 32) as [->|]; [split; [intros; cbn; auto 10|intros; eexists; reflexivity]|].
    split; [intros [c E]; discriminate|]. intros [_ H]. cbn [In] in H. lia.
  - destruct (Nat.eqb_spec (length nonce) 8) as [->|]; [split; [intros; cbn; auto 10|intros; eexists; reflexivity]|].
    destruct (Nat.eqb_spec (length nonce) 12) as [->|]; [split; [intros; cbn; auto 10|intros; eexists; reflexivity]|].
    destruct (Nat.eqb_spec (length nonce) 16) as [->|]; [split; [intros; cbn; auto 10|intros; eexists; reflexivity]|].
    split; [intros [c E]; discriminate|]. intros [_ H]. cbn [In] in H. lia.
Qed.

(* outputs of a fresh context *)
Lemma cc_out st chunks : wstate st ->
  fst (calls chacha20_crypt (fresh st) chunks) =
  xorl (concat chunks) (ks_seg (fun i => cha_core (set64 st 12 13 (ctr64 st 12 13 + Z.of_nat i))) 0 (length (concat chunks))).
Proof.
  intros [Hw Hl]. unfold chacha20_crypt.
  rewrite (run_fresh chacha20_block len16 cc_blk_len cc_blk_valid) by auto.
  f_equal. apply ks_seg_ext. intros q _. apply cc_kblock. split; auto.
Qed.
Lemma sa_out st chunks : wstate st ->
  fst (calls salsa20_crypt (fresh st) chunks) =
  xorl (concat chunks) (ks_seg (fun i => sal_core (set64 st 8 9 (ctr64 st 8 9 + Z.of_nat i))) 0 (length (concat chunks))).
Proof.
  intros [Hw Hl]. unfold salsa20_crypt.
  rewrite (run_fresh salsa20_block len16 sa_blk_len sa_blk_valid) by auto.
  f_equal. apply ks_seg_ext. intros q _. apply sa_kblock. split; auto.
Qed.

Lemma w32_split c : 0 <= c < M64 -> w32 c + M32 * w32 (shr c 32) = c.
Proof.
  intros H. unfold w32, shr. rewrite shiftr_div by lia. rewrite <- M32_eq.
  pose proof (Z.div_mod c M32 ltac:(discriminate)) as D.
  rewrite (Z.mod_small (c / M32)); [lia|]. split; [apply Z.div_pos; [lia|reflexivity]|].
  apply Z.div_lt_upper_bound; [reflexivity|]. unfold M32, M64 in *. lia.
Qed.

(* list surgery on a 16-word state given as head ++ four words ++ rest *)
Lemma set64_cc h a b c d v : length h = 12%nat ->
  set64 (h ++ [a; b; c; d]) 12 13 v = h ++ split64 v ++ [c; d].
Proof.
  intros H. do 12 (destruct h as [|? h]; [discriminate H|]). destruct h; [|discriminate H]. reflexivity.
Qed.
Lemma ctr64_cc h a b c d : length h = 12%nat -> ctr64 (h ++ [a; b; c; d]) 12 13 = a + M32 * b.
Proof.
  intros H. do 12 (destruct h as [|? h]; [discriminate H|]). destruct h; [|discriminate H]. reflexivity.
Qed.
Lemma set64_sa h t a b c d v : length h = 6%nat ->
  set64 (h ++ [a; b; c; d] ++ t) 8 9 v = h ++ [a; b] ++ split64 v ++ t.
Proof.
  intros H. do 6 (destruct h as [|? h]; [discriminate H|]). destruct h; [|discriminate H]. reflexivity.
Qed.
Lemma ctr64_sa h t a b c d : length h = 6%nat -> ctr64 (h ++ [a; b; c; d] ++ t) 8 9 = c + M32 * d.
Proof.
  intros H. do 6 (destruct h as [|? h]; [discriminate H|]). destruct h; [|discriminate H]. reflexivity.
Qed.

Lemma le_words3 s : bytes s -> length s = 12%nat -> le_words 3 s = [read32le s; read32le (skipn 4 s); read32le (skipn 8 s)].
Proof. intros H L. rewrite le_words_read by (auto; lia). reflexivity. Qed.

Lemma cc_out8 key nonce ctr c chunks : bytes key -> bytes nonce -> length nonce = 8%nat -> 0 <= ctr < M64 ->
  chacha20_init key nonce ctr = Some c ->
  fst (calls chacha20_crypt c chunks) =
  xorl (concat chunks) (ks_seg (fun i => cha_block64 key nonce (ctr + Z.of_nat i)) 0 (length (concat chunks))).
Proof.
  intros Hk Hn HL Hc E. destruct (cc_init_fresh _ _ _ _ Hk Hn E) as [EF W]. rewrite EF, cc_out by auto.
  rewrite cc_init_short in E by lia. destruct (key_ok key) eqn:Hok; cbn [negb] in E; [|discriminate].
  unfold cc_tail in E. rewrite HL in E. cbn [Nat.eqb] in E. apply some_inj in E. subst c. cbn [s_state fresh].
  destruct (cc_head_ok key Hk) as [_ HHL]. f_equal. apply ks_seg_ext. intros q _.
  rewrite set64_cc, ctr64_cc by auto. rewrite w32_split by auto.
  unfold cha_block64. rewrite cc_head_spec by auto. rewrite <- app_assoc. rewrite le_words_read2 by (auto; lia). reflexivity.
Qed.

Lemma cc_out12 key nonce ctr c chunks : bytes key -> bytes nonce -> length nonce = 12%nat ->
  chacha20_init key nonce ctr = Some c ->
  Z.of_nat (length (concat chunks)) < 64 * (M32 - ctr mod M32) ->
  fst (calls chacha20_crypt c chunks) =
  xorl (concat chunks) (ks_seg (fun i => cha_block32 key nonce (ctr mod M32 + Z.of_nat i)) 0 (length (concat chunks))).
Proof.
  intros Hk Hn HL E Hlen. destruct (cc_init_fresh _ _ _ _ Hk Hn E) as [EF W]. rewrite EF, cc_out by auto.
  rewrite cc_init_short in E by lia. destruct (key_ok key) eqn:Hok; cbn [negb] in E; [|discriminate].
  unfold cc_tail in E. rewrite HL in E. cbn [Nat.eqb] in E. apply some_inj in E. subst c. cbn [s_state fresh].
  destruct (cc_head_ok key Hk) as [_ HHL]. f_equal. apply ks_seg_ext. intros q Hq.
  rewrite set64_cc, ctr64_cc by auto. unfold cha_block32. rewrite cc_head_spec, <- app_assoc by auto.
  rewrite le_words3 by auto. f_equal. f_equal. f_equal. unfold split64, w32.
  pose proof (Z.mod_pos_bound ctr M32 ltac:(reflexivity)) as B.
  assert (Hq2 : ctr mod M32 + Z.of_nat q < M32).
  { cbn [Nat.add] in Hq. assert (64 * q <= length (concat chunks))%nat.
    { pose proof (Nat.div_mod (length (concat chunks)) 64 ltac:(lia)). lia. } lia. }
  pose proof (read32le_word nonce Hn) as Wn. unfold word in Wn.
  replace (ctr mod M32 + M32 * read32le nonce + Z.of_nat q) with ((ctr mod M32 + Z.of_nat q) + read32le nonce * M32) by ring.
  set (r := ctr mod M32) in *. rewrite Z.mod_add, Z.div_add by discriminate. rewrite Z.mod_small, Z.div_small, Z.add_0_l, Z.mod_small by lia. reflexivity.
Qed.

Lemma read64_words s : bytes s -> (8 <= length s)%nat -> read32le s + M32 * read32le (skipn 4 s) = le_val (firstn 8 s).
Proof.
  intros Hb HL. rewrite !read32le_val by (try apply bytes_skipn; rewrite ?skipn_length; auto; lia).
  change 8%nat with (4 + 4)%nat. rewrite firstn_add. unfold le_val. rewrite dval_app, firstn_length, Nat.min_l by lia. reflexivity.
Qed.
Lemma cc_out16 key nonce ctr c chunks : bytes key -> bytes nonce -> length nonce = 16%nat ->
  chacha20_init key nonce ctr = Some c ->
  fst (calls chacha20_crypt c chunks) =
  xorl (concat chunks) (ks_seg (fun i => cha_block64 key (skipn 8 nonce) (le_val (firstn 8 nonce) + Z.of_nat i)) 0 (length (concat chunks))).
Proof.
  intros Hk Hn HL E. destruct (cc_init_fresh _ _ _ _ Hk Hn E) as [EF W]. rewrite EF, cc_out by auto.
  rewrite cc_init_short in E by lia. destruct (key_ok key) eqn:Hok; cbn [negb] in E; [|discriminate].
  unfold cc_tail in E. rewrite HL in E. cbn [Nat.eqb] in E. apply some_inj in E. subst c. cbn [s_state fresh].
  destruct (cc_head_ok key Hk) as [_ HHL]. f_equal. apply ks_seg_ext. intros q _.
  rewrite set64_cc, ctr64_cc by auto. rewrite read64_words by (auto; lia).
  unfold cha_block64. rewrite cc_head_spec by auto. rewrite <- app_assoc.
  rewrite le_words_read2 by (try apply bytes_skipn; rewrite ?skipn_length; auto; lia). rewrite skip44. reflexivity.
Qed.

Lemma sa_out8 key nonce ctr c chunks : bytes key -> bytes nonce -> length nonce = 8%nat -> 0 <= ctr < M64 ->
  salsa20_init key nonce ctr = Some c ->
  fst (calls salsa20_crypt c chunks) =
  xorl (concat chunks) (ks_seg (fun i => sal_block64 key nonce (ctr + Z.of_nat i)) 0 (length (concat chunks))).
Proof.
  intros Hk Hn HL Hc E. destruct (sa_init_fresh _ _ _ _ Hk Hn E) as [EF W]. rewrite EF, sa_out by auto.
  rewrite sa_init_short in E by lia. destruct (key_ok key) eqn:Hok; cbn [negb] in E; [|discriminate].
  unfold sa_mid in E. rewrite HL in E. cbn [Nat.eqb] in E. apply some_inj in E. subst c. cbn [s_state fresh].
  f_equal. apply ks_seg_ext. intros q _. unfold sal_block64. rewrite <- sa_state_spec by auto. unfold sa_state.
  rewrite set64_sa, ctr64_sa by reflexivity. rewrite w32_split by auto.
  rewrite le_words_read2 by (auto; lia). rewrite <- !app_assoc. reflexivity.
Qed.

(* states visited *)
Definition cc_next (st : list Z) := snd (chacha20_block st).
Definition sa_next (st : list Z) := snd (salsa20_block st).
Lemma cc_iter st q : wstate st -> Nat.iter q cc_next st = set64 st 12 13 (ctr64 st 12 13 + Z.of_nat q).
Proof.
  intros [Hw Hl]. assert (HB : forall s, len16 s -> snd (chacha20_block s) = bump s 12 13)
    by (intros s Hs; rewrite cc_block_spec by auto; reflexivity).
  destruct (iter_nxt chacha20_block 12 13 st q HB Hl) as [E L].
  change cc_next with (nxt chacha20_block). rewrite E. apply iter_bump; auto; rewrite Hl; lia.
Qed.
Lemma sa_iter st q : wstate st -> Nat.iter q sa_next st = set64 st 8 9 (ctr64 st 8 9 + Z.of_nat q).
Proof.
  intros [Hw Hl]. assert (HB : forall s, len16 s -> snd (salsa20_block s) = bump s 8 9)
    by (intros s Hs; rewrite sa_block_spec by auto; reflexivity).
  destruct (iter_nxt salsa20_block 8 9 st q HB Hl) as [E L].
  change sa_next with (nxt salsa20_block). rewrite E. apply iter_bump; auto; rewrite Hl; lia.
Qed.
Lemma read8_inj a b : bytes a -> bytes b -> length a = 8%nat -> length b = 8%nat ->
  read32le a = read32le b -> read32le (skipn 4 a) = read32le (skipn 4 b) -> a = b.
Proof.
  intros Ha Hb La Lb E1 E2.
  assert (E : le_val (firstn 8 a) = le_val (firstn 8 b)) by (rewrite <- !read64_words by (auto; lia); congruence).
  rewrite !firstn_all2 in E by lia. apply (dval_inj 256); auto; try lia; apply bytes_below; auto.
Qed.
Lemma split64_inj a b : split64 a = split64 b -> a mod M64 = b mod M64.
Proof.
  unfold split64. intros E. injection E as E1 E2.
  assert (K : forall v, v mod M64 = v mod M32 + M32 * (v / M32 mod M32)).
  { intros v. change M64 with (M32 * M32). apply Z.rem_mul_r; [discriminate|reflexivity]. }
  rewrite !K. congruence.
Qed.
