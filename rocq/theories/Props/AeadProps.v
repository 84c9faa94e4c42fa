(* C24-C25: ChaCha20-Poly1305 and secretbox *)
From Verif.Base Require Import Prelude.
From Verif.Model Require Import Bio Util Block Stream Mac Aead.
From Verif.Spec Require Import BlockSpec StreamSpec MacSpec AeadSpec.
From Verif.Proof Require Import BioProof UtilProof BlockProof BufCrypt StreamProof StreamInit PolyProof Poly64 Poly32 PolyBuf AeadProof.

(* encryption in any chunks gives the specified ciphertext and tag *)
Definition seals {S} (init : list Z -> list Z -> option (aead S)) aad enc fin (key iv : list Z) (K : nat -> list Z) (limit : Z) : Prop :=
  forall aads msgs, bytes (concat aads) -> bytes (concat msgs) -> Z.of_nat (length (concat msgs)) < limit ->
  exists a, init key iv = Some a /\
    let '(ct, a2) := calls enc (fold_left aad aads a) msgs in
    ct = aead_cipher K (concat msgs) /\ fin a2 = aead_tag K (concat aads) ct.
(* decryption and bare authentication in any chunks give the plaintext and the tag *)
Definition unseals {S} (init : list Z -> list Z -> option (aead S)) aad dec auth fin (key iv : list Z) (K : nat -> list Z) (limit : Z) : Prop :=
  forall aads cts, bytes (concat aads) -> bytes (concat cts) -> Z.of_nat (length (concat cts)) < limit ->
  exists a, init key iv = Some a /\
    (let '(m, a2) := calls dec (fold_left aad aads a) cts in
     m = aead_cipher K (concat cts) /\ fin a2 = aead_tag K (concat aads) (concat cts)) /\
    fin (fold_left auth cts (fold_left aad aads a)) = aead_tag K (concat aads) (concat cts).

Lemma i64 key : rep 16 (fun st b => p64_block st b false) false (p64_init key) [] (as_buf (poly64_init key)).
Proof. apply rep_init; [lia|reflexivity]. Qed.
Lemma i32 key : rep 16 (fun st b => p32_block st b false) false (p32_init key) [] (as_buf (poly32_init key)).
Proof. apply rep_init; [lia|reflexivity]. Qed.

Lemma chacha_block32_ok key nonce n : length (key_words key) = 8%nat -> bytes (cha_block32 key nonce n) /\ length (cha_block32 key nonce n) = 64%nat.
Proof.
  intros H. split; [apply unwords_bytes|]. apply cha_core_len. rewrite !app_length, H. unfold consts. destruct (length key =? 16)%nat; reflexivity.
Qed.
Lemma chacha_block64_ok key nonce n : length (key_words key) = 8%nat -> bytes (cha_block64 key nonce n) /\ length (cha_block64 key nonce n) = 64%nat.
Proof.
  intros H. split; [apply unwords_bytes|]. apply cha_core_len. rewrite !app_length, H. unfold consts. destruct (length key =? 16)%nat; reflexivity.
Qed.
Lemma key_words32 key : length key = 32%nat -> length (key_words key) = 8%nat.
Proof. intros H. unfold key_words. rewrite H. reflexivity. Qed.

(* what is needed of the keystream *)
Lemma chacha12_ks key iv : bytes key -> length key = 32%nat -> bytes iv -> length iv = 12%nat ->
  exists c0, chacha20_init key iv 0 = Some c0 /\
  (forall chunks, Z.of_nat (length (concat chunks)) < 2 ^ 38 ->
     fst (calls chacha20_crypt c0 chunks) = xorl (concat chunks) (ks_seg (rfc8439 key iv) 0 (length (concat chunks)))).
Proof.
  intros Hk Lk Hi Li. destruct (proj2 (cc_init_some key iv 0)) as [c0 E].
  { split; [apply key_ok_iff; auto|rewrite Li; cbn; auto]. }
  exists c0. split; [exact E|]. intros chunks HL. apply (cc_out12 key iv 0 c0 chunks); auto.
Qed.
Lemma chacha8_ks key iv : bytes key -> length key = 32%nat -> bytes iv -> length iv = 8%nat ->
  exists c0, chacha20_init key iv 0 = Some c0 /\
  (forall chunks, fst (calls chacha20_crypt c0 chunks) = xorl (concat chunks) (ks_seg (djb_chacha key iv) 0 (length (concat chunks)))).
Proof.
  intros Hk Lk Hi Li. destruct (proj2 (cc_init_some key iv 0)) as [c0 E].
  { split; [apply key_ok_iff; auto|rewrite Li; cbn; auto]. }
  exists c0. split; [exact E|]. intros chunks. apply (cc_out8 key iv 0 c0 chunks); auto. rewrite M64_eq. lia.
Qed.

(* ---- C24: 12-byte nonces are RFC 8439 (up to its 2^38 - 64 byte limit) ---- *)
Theorem C24_rfc8439_64 key iv : bytes key -> length key = 32%nat -> bytes iv -> length iv = 12%nat ->
  seals chachapoly64_init chachapoly64_aad chachapoly64_encrypt chachapoly64_final key iv (rfc8439 key iv) (2 ^ 38 - 64) /\
  unseals chachapoly64_init chachapoly64_aad chachapoly64_decrypt chachapoly64_auth chachapoly64_final key iv (rfc8439 key iv) (2 ^ 38 - 64).
Proof.
  intros Hk Lk Hi Li. destruct (chacha12_ks key iv Hk Lk Hi Li) as [c0 [E HK]].
  assert (HKb : forall i, bytes (rfc8439 key iv i) /\ length (rfc8439 key iv i) = 64%nat) by (intros; apply chacha_block32_ok, key_words32; auto).
  split; intros x y Hx Hy HL.
  - exact (encrypt_spec poly64_init p64_block p64_tag p64_init i64 poly64_rep_final key iv c0 (rfc8439 key iv) (2 ^ 38) ltac:(lia) E HK HKb x y Hx Hy HL).
  - exact (decrypt_spec poly64_init p64_block p64_tag p64_init i64 poly64_rep_final key iv c0 (rfc8439 key iv) (2 ^ 38) ltac:(lia) E HK HKb x y Hx Hy HL).
Qed.
Theorem C24_rfc8439_32 key iv : bytes key -> length key = 32%nat -> bytes iv -> length iv = 12%nat ->
  seals chachapoly32_init chachapoly32_aad chachapoly32_encrypt chachapoly32_final key iv (rfc8439 key iv) (2 ^ 38 - 64) /\
  unseals chachapoly32_init chachapoly32_aad chachapoly32_decrypt chachapoly32_auth chachapoly32_final key iv (rfc8439 key iv) (2 ^ 38 - 64).
Proof.
  intros Hk Lk Hi Li. destruct (chacha12_ks key iv Hk Lk Hi Li) as [c0 [E HK]].
  assert (HKb : forall i, bytes (rfc8439 key iv i) /\ length (rfc8439 key iv i) = 64%nat) by (intros; apply chacha_block32_ok, key_words32; auto).
  split; intros x y Hx Hy HL.
  - exact (encrypt_spec poly32_init p32_block p32_tag p32_init i32 poly32_rep_final key iv c0 (rfc8439 key iv) (2 ^ 38) ltac:(lia) E HK HKb x y Hx Hy HL).
  - exact (decrypt_spec poly32_init p32_block p32_tag p32_init i32 poly32_rep_final key iv c0 (rfc8439 key iv) (2 ^ 38) ltac:(lia) E HK HKb x y Hx Hy HL).
Qed.
(* 8-byte nonces use the original 64-bit counter: any length *)
Theorem C24_nonce8 key iv : bytes key -> length key = 32%nat -> bytes iv -> length iv = 8%nat ->
  seals chachapoly64_init chachapoly64_aad chachapoly64_encrypt chachapoly64_final key iv (djb_chacha key iv) (2 ^ 64) /\
  unseals chachapoly64_init chachapoly64_aad chachapoly64_decrypt chachapoly64_auth chachapoly64_final key iv (djb_chacha key iv) (2 ^ 64).
Proof.
  intros Hk Lk Hi Li. destruct (chacha8_ks key iv Hk Lk Hi Li) as [c0 [E HK]].
  assert (HKb : forall i, bytes (djb_chacha key iv i) /\ length (djb_chacha key iv i) = 64%nat) by (intros; apply chacha_block64_ok, key_words32; auto).
  split; intros x y Hx Hy HL.
  - exact (encrypt_spec poly64_init p64_block p64_tag p64_init i64 poly64_rep_final key iv c0 (djb_chacha key iv) (2 ^ 64 + 64) ltac:(lia) E (fun c _ => HK c) HKb x y Hx Hy ltac:(lia)).
  - exact (decrypt_spec poly64_init p64_block p64_tag p64_init i64 poly64_rep_final key iv c0 (djb_chacha key iv) (2 ^ 64 + 64) ltac:(lia) E (fun c _ => HK c) HKb x y Hx Hy ltac:(lia)).
Qed.
(* extended nonces reduce to the above under the HChaCha20 subkey *)
Theorem C24_extended_nonce key iv : bytes key -> length key = 32%nat -> bytes iv -> (24 <= length iv <= 32)%nat ->
  chachapoly64_init key iv = chachapoly64_init (hchacha key (firstn 16 iv)) (skipn 16 iv) /\
  chachapoly32_init key iv = chachapoly32_init (hchacha key (firstn 16 iv)) (skipn 16 iv).
Proof.
  intros Hk Lk Hi Li. unfold chachapoly64_init, chachapoly32_init, chachapoly_init.
  rewrite (cc_init_x key iv 0) by (auto; apply key_ok_iff; auto). auto.
Qed.

(* round trip under every accepted nonce and any two chunkings *)
Theorem C24_round_trip key iv aads1 aads2 msgs cts a : bytes key -> bytes iv -> bytes (concat aads1) -> bytes (concat msgs) ->
  Z.of_nat (length (concat msgs)) < 2 ^ 64 -> concat aads1 = concat aads2 ->
  chachapoly64_init key iv = Some a ->
  let '(ct, a1) := calls chachapoly64_encrypt (fold_left chachapoly64_aad aads1 a) msgs in
  concat cts = ct ->
  let '(m, a2) := calls chachapoly64_decrypt (fold_left chachapoly64_aad aads2 a) cts in
  m = concat msgs /\ chachapoly64_final a2 = chachapoly64_final a1.
Proof.
  intros Hk Hi Ha Hm HL EA Ea.
  assert (exists c0, chacha20_init key iv 0 = Some c0) as [c0 E].
  { unfold chachapoly64_init, chachapoly_init in Ea. destruct (chacha20_init key iv 0) as [c|]; [exists c; reflexivity|discriminate]. }
  destruct (cc_init_fresh _ _ _ _ Hk Hi E) as [EF W].
  set (K := fun i => cha_core (set64 (s_state c0) 12 13 (ctr64 (s_state c0) 12 13 + Z.of_nat i))).
  assert (HK : forall chunks, Z.of_nat (length (concat chunks)) < 2 ^ 64 + 64 ->
    fst (calls chacha20_crypt c0 chunks) = xorl (concat chunks) (ks_seg K 0 (length (concat chunks)))).
  { intros chunks _. rewrite EF. rewrite cc_out by auto. reflexivity. }
  assert (HKb : forall i, bytes (K i) /\ length (K i) = 64%nat).
  { intros i. split; [apply unwords_bytes|]. apply cha_core_len. unfold set64. rewrite !upd_length. apply W. }
  destruct (encrypt_spec poly64_init p64_block p64_tag p64_init i64 poly64_rep_final key iv c0 K (2 ^ 64 + 64) ltac:(lia) E HK HKb aads1 msgs Ha Hm ltac:(lia)) as [a' [E1 E2]].
  fold chachapoly64_init in E1. rewrite Ea in E1. apply some_inj in E1. subst a'. cbv zeta in E2.
  fold chachapoly64_aad chachapoly64_encrypt in E2. destruct (calls chachapoly64_encrypt _ msgs) as [ct a1]. destruct E2 as [E2 E3].
  intros EC.
  assert (LC : length ct = length (concat msgs)) by (rewrite E2; unfold aead_cipher; rewrite xorl_length, ks_seg_length; lia).
  assert (BC : bytes (concat cts)) by (rewrite EC, E2; apply xorl_bytes; [auto|apply (ks_bytes K HKb)]).
  destruct (decrypt_spec poly64_init p64_block p64_tag p64_init i64 poly64_rep_final key iv c0 K (2 ^ 64 + 64) ltac:(lia) E HK HKb aads2 cts ltac:(rewrite <- EA; auto) BC ltac:(rewrite EC, LC; lia)) as [a' [F1 [F2 _]]].
  fold chachapoly64_init in F1. rewrite Ea in F1. apply some_inj in F1. subst a'.
  fold chachapoly64_aad chachapoly64_decrypt in F2. destruct (calls chachapoly64_decrypt _ cts) as [m a2]. destruct F2 as [F2 F3].
  unfold chachapoly64_final. rewrite E3, F3, EA, EC. split; [|reflexivity].
  rewrite F2, EC, E2. unfold aead_cipher. rewrite xorl_length, ks_seg_length, Nat.min_id. apply xorl_involutive. rewrite ks_seg_length. lia.
Qed.
(* RFC 8439 2.8.2, fed in chunks *)
Definition aead_msg : list Z := map (fun i => (i * 7 + 3) mod 256) (zseq 0 100).
Example C24_ex :
  match chachapoly64_init (zseq 128 32) [7;0;0;0;0x40;0x41;0x42;0x43;0x44;0x45;0x46;0x47] with
  | Some a =>
    let a1 := fold_left chachapoly64_aad [[0x50;0x51;0x52]; []; [0x53;0xc0;0xc1;0xc2;0xc3;0xc4;0xc5;0xc6;0xc7]] a in
    let '(ct, a2) := calls chachapoly64_encrypt a1 [[]; firstn 70 aead_msg; skipn 70 aead_msg] in
    let '(m, a3) := calls chachapoly64_decrypt a1 [firstn 3 ct; skipn 3 ct] in
    m = aead_msg /\ chachapoly64_final a2 = chachapoly64_final a3 /\
    fst (calls chachapoly64_encrypt a1 [[0x4c;0x61;0x64;0x69;0x65;0x73;0x20]]) = [0xd3;0x1a;0x8d;0x34;0x64;0x8e;0x60]
  | None => False
  end.
Proof. vm_compute. auto. Qed.
(* the authenticated string determines AAD and ciphertext *)
Theorem C24_aead_data_injective a1 c1 a2 c2 : bytes a1 -> bytes c1 -> bytes a2 -> bytes c2 ->
  Z.of_nat (length a1) < 2 ^ 64 -> Z.of_nat (length c1) < 2 ^ 64 -> Z.of_nat (length a2) < 2 ^ 64 -> Z.of_nat (length c2) < 2 ^ 64 ->
  aead_data a1 c1 = aead_data a2 c2 -> a1 = a2 /\ c1 = c2.
Proof.
  intros B1 B2 B3 B4 L1 L2 L3 L4 E. unfold aead_data in E. rewrite !app_assoc in E.
  assert (T : forall (x y u v : list Z), x ++ u = y ++ v -> length u = length v -> x = y /\ u = v).
  { intros x y u v HE HL. assert (length x = length y) by (apply (f_equal (@length Z)) in HE; rewrite !app_length in HE; lia).
    split; [rewrite <- (firstn_app_exact x u (length x)), <- (firstn_app_exact y v (length x)) by auto; congruence|].
    rewrite <- (skipn_app_exact x u (length x)), <- (skipn_app_exact y v (length x)) by auto; congruence. }
  destruct (T _ _ _ _ E ltac:(rewrite !le_bytes_length; auto)) as [E1 E2].
  destruct (T _ _ _ _ E1 ltac:(rewrite !le_bytes_length; auto)) as [E3 E4].
  assert (LV : forall x y, 0 <= x < 2 ^ 64 -> 0 <= y < 2 ^ 64 -> le_bytes 8 x = le_bytes 8 y -> x = y).
  { intros x y Hx Hy HE. apply (f_equal le_val) in HE. rewrite !le_val_le_bytes in HE. change (256 ^ Z.of_nat 8) with (2 ^ 64) in HE.
    rewrite !Z.mod_small in HE by lia. auto. }
  assert (LA : length a1 = length a2) by (apply LV in E4; lia). assert (LC : length c1 = length c2) by (apply LV in E2; lia).
  rewrite <- !app_assoc in E3. assert (E5 := f_equal (firstn (length a1)) E3). rewrite firstn_app_exact in E5 by auto.
  rewrite LA, firstn_app_exact in E5 by auto. subst a2. apply app_inv_head in E3. apply app_inv_head in E3.
  assert (E6 := f_equal (firstn (length c1)) E3). rewrite firstn_app_exact in E6 by auto. rewrite LC, firstn_app_exact in E6 by auto. auto.
Qed.
Example C24_aead_data_ex : aead_data [1; 2] [] <> aead_data [] [1; 2] /\ length (aead_data [1; 2] [3]) = 48%nat.
Proof. split; [vm_compute; discriminate|reflexivity]. Qed.

(* ---- C25 ---- *)
Lemma xsalsa_ks key nonce : bytes key -> length key = 32%nat -> bytes nonce -> length nonce = 24%nat ->
  exists c0, salsa20_init key nonce 0 = Some c0 /\
  (forall chunks, fst (calls salsa20_crypt c0 chunks) = xorl (concat chunks) (ks_seg (xsalsa key nonce) 0 (length (concat chunks)))) /\
  (forall i, bytes (xsalsa key nonce i) /\ length (xsalsa key nonce i) = 64%nat).
Proof.
  intros Hk Lk Hn Ln. assert (X := sa_init_x key nonce 0 Hk Hn ltac:(apply key_ok_iff; auto) ltac:(lia)).
  destruct (hsalsa_ok key (firstn 16 nonce)) as [HL HB].
  destruct (salsa20_init key nonce 0) as [c0|] eqn:E.
  2:{ exfalso. symmetry in X. unfold salsa20_init in X. rewrite (proj2 (key_ok_iff _)) in X by auto. cbn [negb] in X.
      rewrite skipn_length, Ln in X. cbn [Nat.sub Nat.leb] in X. unfold sa_mid in X. rewrite skipn_length, Ln in X. discriminate X. }
  exists c0. split; [reflexivity|]. split.
  - intros chunks. apply (sa_out8 _ _ 0 c0 chunks HB (bytes_skipn 16 nonce Hn)); [rewrite skipn_length, Ln; reflexivity|rewrite M64_eq; lia|auto].
  - intros i. split; [apply unwords_bytes|]. apply sal_core_len. unfold sal_expand.
    assert (LW : length (key_words (hsalsa key (firstn 16 nonce))) = 8%nat) by (apply key_words32; auto).
    rewrite !app_length, firstn_length, skipn_length, LW. reflexivity.
Qed.

(* sealing is the NaCl construction; opening a box of the right shape decrypts
   it and compares the tag *)
Theorem C25_seal key nonce m : bytes key -> length key = 32%nat -> bytes nonce -> length nonce = 24%nat -> bytes m ->
  secretbox64_seal m key nonce = Some (box (xsalsa key nonce) m) /\
  secretbox32_seal m key nonce = Some (box (xsalsa key nonce) m).
Proof.
  intros Hk Lk Hn Ln Hm. destruct (xsalsa_ks key nonce Hk Lk Hn Ln) as [c0 [E [HK HKb]]].
  split; [apply (seal_spec poly64_init p64_block p64_tag p64_init i64 poly64_rep_final key nonce c0 _ E HK HKb m Hm)|
          apply (seal_spec poly32_init p32_block p32_tag p32_init i32 poly32_rep_final key nonce c0 _ E HK HKb m Hm)].
Qed.
Lemma open_iff K s (o : option (Z * list Z)) : bytes s ->
  o = Some (if (length s <? 16)%nat then (0, []) else
    (torsion_memequal (poly1305 (otk K) (skipn 16 s)) (firstn 16 s), box_cipher K (skipn 16 s))) ->
  exists r out, o = Some (r, out) /\ (r = 0 \/ r = 1) /\ forall m, (r = 1 /\ out = m <-> s = box K m).
Proof.
  intros Hs ->. destruct (Nat.ltb_spec (length s) 16) as [H|H].
  - exists 0, []. split; [reflexivity|]. split; [auto|]. intros m. split; [lia|]. intros E. exfalso. rewrite E in H. unfold box in H.
    rewrite app_length, poly1305_length in H. lia.
  - assert (L16 : length (poly1305 (otk K) (skipn 16 s)) = length (firstn 16 s)) by (rewrite poly1305_length, firstn_length; lia).
    assert (BF : bytes (firstn 16 s)) by (apply bytes_firstn; auto).
    exists (torsion_memequal (poly1305 (otk K) (skipn 16 s)) (firstn 16 s)), (box_cipher K (skipn 16 s)). split; [reflexivity|].
    pose proof (memequal_correct _ _ (poly1305_bytes (otk K) (skipn 16 s)) BF L16) as MC.
    assert (MI : torsion_memequal (poly1305 (otk K) (skipn 16 s)) (firstn 16 s) = 1 <-> poly1305 (otk K) (skipn 16 s) = firstn 16 s).
    { rewrite (memequal_iff _ _ (poly1305_bytes (otk K) (skipn 16 s)) BF L16). destruct (list_eq_dec _ _ _); split; intros; auto; try discriminate; contradiction. }
    split; [tauto|]. intros m. split.
    + intros [E1 E2]. subst m. unfold box. rewrite (box_cipher_invol K). apply MI in E1. unfold otk in E1. rewrite E1. symmetry. apply firstn_skipn.
    + intros E. assert (ET : firstn 16 s = poly1305 (firstn 32 (K 0%nat)) (box_cipher K m)) by (rewrite E; apply firstn_app_exact; apply poly1305_length).
      assert (EC : skipn 16 s = box_cipher K m) by (rewrite E; apply skipn_app_exact; apply poly1305_length).
      rewrite EC. split; [|apply (box_cipher_invol K)]. rewrite EC in MI. apply MI. auto.
Qed.
(* opens exactly what was sealed: the answer is 1 with output m iff the box is
   the sealing of m *)
Theorem C25_open_exact key nonce s : bytes key -> length key = 32%nat -> bytes nonce -> length nonce = 24%nat -> bytes s ->
  exists r out, secretbox64_open s key nonce = Some (r, out) /\ secretbox32_open s key nonce = Some (r, out) /\ (r = 0 \/ r = 1) /\
  forall m, (r = 1 /\ out = m) <-> s = box (xsalsa key nonce) m.
Proof.
  intros Hk Lk Hn Ln Hs. destruct (xsalsa_ks key nonce Hk Lk Hn Ln) as [c0 [E [HK HKb]]].
  pose proof (open_spec poly64_init p64_block p64_tag p64_init i64 poly64_rep_final key nonce c0 _ E HK HKb s Hs) as O1.
  pose proof (open_spec poly32_init p32_block p32_tag p32_init i32 poly32_rep_final key nonce c0 _ E HK HKb s Hs) as O2.
  fold secretbox64_open in O1. fold secretbox32_open in O2.
  destruct (open_iff (xsalsa key nonce) s _ Hs O1) as [r [out [E1 [E2 E3]]]].
  exists r, out. split; [exact E1|]. split; [congruence|]. auto.
Qed.
Theorem C25_round_trip key nonce m : bytes key -> length key = 32%nat -> bytes nonce -> length nonce = 24%nat -> bytes m ->
  exists s, secretbox64_seal m key nonce = Some s /\ length s = (length m + 16)%nat /\
  secretbox64_open s key nonce = Some (1, m) /\ secretbox32_open s key nonce = Some (1, m).
Proof.
  intros Hk Lk Hn Ln Hm. destruct (C25_seal key nonce m Hk Lk Hn Ln Hm) as [E _].
  destruct (xsalsa_ks key nonce Hk Lk Hn Ln) as [c0 [_ [_ HKb]]].
  assert (LB : length (box_cipher (xsalsa key nonce) m) = length m) by (unfold box_cipher; rewrite xorl_length, ks_seg_length; lia).
  assert (BB : bytes (box (xsalsa key nonce) m)).
  { unfold box. apply bytes_app. split; [apply poly1305_bytes|]. apply xorl_bytes; [auto|apply (ks_bytes _ HKb)]. }
  exists (box (xsalsa key nonce) m). split; [exact E|]. split; [unfold box; rewrite app_length, poly1305_length, LB; lia|].
  destruct (C25_open_exact key nonce (box (xsalsa key nonce) m) Hk Lk Hn Ln BB) as [r [out [E1 [E2 [_ E3]]]]].
  destruct (proj2 (E3 m) eq_refl) as [-> ->]. auto.
Qed.
Theorem C25_short key nonce s : (length s < 16)%nat ->
  secretbox64_open s key nonce = Some (0, []) /\ secretbox32_open s key nonce = Some (0, []).
Proof.
  intros H. unfold secretbox64_open, secretbox32_open, secretbox_open. destruct (Nat.ltb_spec (length s) 16); [auto|lia].
Qed.
Theorem C25_derive secret : bytes secret -> length secret = 32%nat -> secretbox_derive secret = Some (hsalsa secret (repeat 0 16)).
Proof.
  intros Hb Hl. unfold secretbox_derive. apply (salsa20_derive_spec secret (repeat 0 32)); auto; [apply key_ok_iff; auto|apply bytes_repeat; unfold byte; lia|].
  cbn. lia.
Qed.
Example C25_ex :
  match secretbox64_seal [1; 2; 3; 4; 5] (zseq 0 32) (zseq 50 24) with
  | Some s => secretbox64_open s (zseq 0 32) (zseq 50 24) = Some (1, [1; 2; 3; 4; 5]) /\
     secretbox32_open s (zseq 0 32) (zseq 50 24) = Some (1, [1; 2; 3; 4; 5]) /\
     option_map fst (secretbox64_open (firstn 20 s ++ [Z.lxor 1 (nth 20 s 0)]) (zseq 0 32) (zseq 50 24)) = Some 0
  | None => False
  end.
Proof. vm_compute. auto. Qed.

(* the axioms of every theorem above, listed at once *)
Definition AeadProps_all := (@C24_rfc8439_64, @C24_rfc8439_32, @C24_nonce8, @C24_extended_nonce, @C24_round_trip, @C24_aead_data_injective, @C25_seal,
  @C25_open_exact, @C25_round_trip, @C25_short, @C25_derive).
Print Assumptions AeadProps_all.
