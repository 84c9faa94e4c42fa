(* C27, C28, C30, C31: PKCS#7, ECB, CBC, XTS, CTR, CFB, OFB *)
From Verif.Base Require Import Prelude.
From Verif.Model Require Import Bio Util Block Encoding Modes.
From Verif.Spec Require Import BlockSpec StreamSpec ModesSpec.
From Verif.Proof Require Import UtilProof BioProof BufCrypt BlockProof Pkcs7Proof BlockModes GfShift XtsProof StreamModes CtrProof.
#[local] Ltac Zify.zify_post_hook ::= idtac.

(* a toy cipher satisfying block_cipher, for the examples *)
Definition toy (n : nat) : cipher :=
  mkCipher n (fun b => rev (map (fun x => (7 * x + 3) mod 256) b)) (fun b => map (fun x => (183 * (x + 253)) mod 256) (rev b)).
Lemma toy_ok n : n = 8%nat \/ n = 16%nat -> cipher_ok (toy n).
Proof.
  intros Hn. unfold cipher_ok. split; cbn [toy c_size c_enc c_dec]; auto.
  - intros b H. rewrite rev_length, map_length. auto.
  - intros b H. rewrite map_length, rev_length. auto.
  - intros b H Hb. apply bytes_rev. apply Forall_map. revert Hb. apply Forall_impl. intros x Hx. unfold byte in *. pose proof (Z.mod_pos_bound (7 * x + 3) 256). lia.
  - intros b H Hb. apply bytes_rev in Hb. apply Forall_map. revert Hb. apply Forall_impl. intros x Hx. unfold byte in *. pose proof (Z.mod_pos_bound (183 * (x + 253)) 256). lia.
  - intros b H Hb. rewrite rev_involutive, map_map. rewrite <- (map_id b) at 2. apply map_ext_in. intros x Hx.
    assert (byte x) as Hy by (revert x Hx; apply Forall_forall; auto). clear -Hy.
    apply Z.eqb_eq. apply (forall_byte (fun x => (183 * ((7 * x + 3) mod 256 + 253)) mod 256 =? x)); [vm_compute; reflexivity|auto].
  - intros b H Hb. rewrite map_map. rewrite map_rev, rev_involutive. rewrite <- (map_id b) at 2. apply map_ext_in. intros x Hx.
    assert (byte x) as Hy by (revert x Hx; apply Forall_forall; auto). clear -Hy.
    apply Z.eqb_eq. apply (forall_byte (fun x => (7 * ((183 * (x + 253)) mod 256) + 3) mod 256 =? x)); [vm_compute; reflexivity|auto].
Qed.

(* ---- C27 ---- *)
(* acceptance is exactly canonical padding *)
Theorem C27_unpad_accepts_iff_canonical : forall b, bytes b -> (0 < length b)%nat -> Z.of_nat (length b) + 1 < 2 ^ 31 ->
  forall res len dst, pkcs7_unpad b = (res, len, dst) ->
  (res = 1 <-> exists n, pkcs7_canonical b n) /\ (res = 1 \/ res = 0) /\ dst = b /\
  (forall n, pkcs7_canonical b n -> len = Z.of_nat (length b - n)) /\ (res = 0 -> len = 0).
Proof.
  intros b Hb H0 Hn res len dst H. rewrite (unpad_compute b Hb H0 Hn) in H. cbv zeta in H.
  assert (HU : forall n, pkcs7_canonical b n -> Z.of_nat n = rd b (length b - 1)).
  { intros n [H1 H2]. unfold rd. replace (length b - 1)%nat with (length b - n + (n - 1))%nat by lia. rewrite <- nth_skipn, H2.
    rewrite (nth_indep _ _ (Z.of_nat n)) by (rewrite repeat_length; lia). rewrite nth_repeat. reflexivity. }
  pose proof (pad_valid_iff b _ eq_refl H0) as HV. cbv beta in HV.
  destruct (pad_valid b (rd b (length b - 1))) eqn:EV; injection H as <- <- <-.
  - destruct (proj1 HV eq_refl) as (n & Hl & Hc). split; [split; [exists n; auto|auto]|]. split; [auto|]. split; [auto|]. split; [|discriminate].
    intros n' Hc'. apply HU in Hc'. pose proof (proj1 Hc). lia.
  - assert (HF : forall n, ~ pkcs7_canonical b n).
    { intros n Hc. apply Bool.diff_false_true. apply HV. exists n. split; [symmetry; apply HU|]; auto. }
    split; [split; [discriminate|intros [n Hc]; destruct (HF n Hc)]|]. split; [auto|]. split; [auto|]. split; [|auto].
    intros n Hc. destruct (HF n Hc).
Qed.
Theorem C27_pad_then_unpad : forall src size, bytes src -> (length src < size)%nat -> (size < 256)%nat ->
  exists b, pkcs7_pad src size = Some b /\ length b = size /\
    pkcs7_unpad b = (1, Z.of_nat (length src), b) /\ firstn (length src) b = src.
Proof.
  intros src size Hb H1 H2. unfold pkcs7_pad. cbv zeta.
  replace (length src <=? size)%nat with true by (symmetry; apply Nat.leb_le; lia).
  set (n := (size - length src)%nat). set (p := w8 (Z.of_nat n)).
  assert (Hp : p = Z.of_nat n) by (unfold p; apply w8_small; rewrite M8_eq; lia).
  assert (HL : length (src ++ repeat p n) = size) by (rewrite app_length, repeat_length; lia).
  eexists. split; [reflexivity|]. split; [exact HL|]. split.
  - assert (Hc : pkcs7_canonical (src ++ repeat p n) n).
    { unfold pkcs7_canonical. rewrite HL. split; [lia|]. rewrite skipn_app_exact by lia. rewrite Hp. reflexivity. }
    assert (HB : bytes (src ++ repeat p n)).
    { apply bytes_app. split; auto. apply bytes_repeat. unfold byte. lia. }
    destruct (pkcs7_unpad (src ++ repeat p n)) as [[res len] dst] eqn:EU.
    apply C27_unpad_accepts_iff_canonical in EU as (Ha & _ & Hd & Hl & _); auto; [|lia|lia].
    rewrite (proj2 Ha) by eauto. rewrite Hd. specialize (Hl n Hc). rewrite HL in Hl. do 2 f_equal. lia.
  - apply firstn_app_exact. reflexivity.
Qed.
(* a full block of input leaves no room for padding: it is returned as is, and then
   unpadding may misread it, so callers must pad short blocks only *)
Theorem C27_pad_full : forall src size, (length src <= size)%nat <-> pkcs7_pad src size <> None.
Proof.
  intros src size. unfold pkcs7_pad. cbv zeta. destruct (Nat.leb_spec (length src) size); split; intros; try discriminate; try lia; congruence.
Qed.
Example C27_ex : pkcs7_unpad [9; 9; 9; 9; 9; 3; 3; 3] = (1, 5, [9; 9; 9; 9; 9; 3; 3; 3]) /\
  fst (fst (pkcs7_unpad [9; 9; 9; 9; 9; 3; 2; 3])) = 0 /\ fst (fst (pkcs7_unpad [9; 9; 9; 9; 9; 9; 9; 9])) = 0 /\
  fst (fst (pkcs7_unpad (repeat 8 8))) = 1 /\ fst (fst (pkcs7_unpad (repeat 0 8))) = 0 /\
  pkcs7_pad [1; 2; 3] 8 = Some [1; 2; 3; 5; 5; 5; 5; 5].
Proof. vm_compute. repeat split. Qed.

(* ---- C28 ---- *)
Theorem C28_ecb_roundtrip : forall c m, cipher_ok c -> bytes m -> aligned (c_size c) (length m) = true ->
  exists ct, ecb_encrypt c m = Some ct /\ ct = concat (map (c_enc c) (blocks (c_size c) m)) /\
    length ct = length m /\ ecb_decrypt c ct = Some m.
Proof.
  intros c m Hc Hb Ha. pose proof (B_pos c Hc) as HB. pose proof (aligned_blocks c Hc m Ha) as Hm.
  pose proof (blocks_okb _ m HB Hb) as Hok. pose proof (map_ok c _ _ (E_ok c Hc) Hok) as Hok2.
  exists (concat (map (c_enc c) (blocks (c_size c) m))). split; [|split; [reflexivity|split]].
  - rewrite Hm at 1. apply ecb_encrypt_spec; auto. apply okb_len; auto.
  - rewrite Hm at 2. rewrite !(concat_length_exact (c_size c)) by (apply okb_len; auto). rewrite map_length. reflexivity.
  - rewrite (ecb_decrypt_spec c Hc) by (apply okb_len; auto). rewrite (map_DE c Hc) by auto. rewrite <- Hm. reflexivity.
Qed.
(* only block multiples are accepted *)
Theorem C28_alignment : forall c iv m, cipher_ok c ->
  (ecb_encrypt c m <> None <-> exists k, length m = (k * c_size c)%nat) /\
  (ecb_decrypt c m <> None <-> exists k, length m = (k * c_size c)%nat) /\
  (cbc_encrypt c iv m <> None <-> exists k, length m = (k * c_size c)%nat) /\
  (cbc_decrypt_inplace c iv m <> None <-> exists k, length m = (k * c_size c)%nat) /\
  (cbc_decrypt_disjoint c iv m <> None <-> exists k, length m = (k * c_size c)%nat).
Proof.
  intros c iv m Hc. assert (H : aligned (c_size c) (length m) = true <-> exists k, length m = (k * c_size c)%nat) by (apply aligned_iff; auto).
  unfold cbc_decrypt_disjoint, ecb_encrypt, ecb_decrypt, cbc_encrypt, cbc_decrypt_inplace.
  rewrite <- H. destruct (aligned (c_size c) (length m)) eqn:EA;
    (split; [|split; [|split; [|split]]]); split; intros; try discriminate; try reflexivity; try congruence.
  - destruct (0 <? length m)%nat; discriminate.
  - destruct m; [change (true = false) in EA; discriminate EA|]. cbn [length Nat.ltb Nat.leb] in H0. congruence.
Qed.
Theorem C28_cbc_roundtrip : forall c iv m, cipher_ok c -> okb (c_size c) iv -> bytes m -> aligned (c_size c) (length m) = true ->
  exists ct st, cbc_encrypt c (cbc_init c iv) m = Some (ct, st) /\ ct = concat (cbc_chain (c_enc c) iv (blocks (c_size c) m)) /\
    length ct = length m /\
    cbc_decrypt_inplace c (cbc_init c iv) ct = Some (m, st) /\ cbc_decrypt_disjoint c (cbc_init c iv) ct = Some (m, st).
Proof.
  intros c iv m Hc Hi Hb Ha. pose proof (B_pos c Hc) as HB. pose proof (aligned_blocks c Hc m Ha) as Hm.
  pose proof (blocks_okb _ m HB Hb) as Hok. pose proof (cbc_chain_ok c Hc _ _ Hi Hok) as Hok2.
  unfold cbc_init. rewrite firstn_all2 by (destruct Hi; lia).
  eexists. eexists. split; [apply cbc_encrypt_aligned; auto|]. split; [reflexivity|]. split.
  - assert (HL : forall l x, length (cbc_chain (c_enc c) x l) = length l) by (induction l; intros; cbn [cbc_chain length]; auto).
    rewrite Hm at 2. rewrite !(concat_length_exact (c_size c)) by (apply okb_len; auto). rewrite HL. reflexivity.
  - rewrite (cbc_inplace_spec c Hc), (cbc_disjoint_spec c Hc) by auto. rewrite (cbc_undo_chain c Hc) by auto. rewrite <- Hm. auto.
Qed.
(* any grouping of the blocks into calls *)
Theorem C28_grouping : forall c iv chunks, cipher_ok c -> okb (c_size c) iv ->
  Forall (fun m => bytes m /\ aligned (c_size c) (length m) = true) chunks ->
  ocalls (cbc_encrypt c) iv chunks = cbc_encrypt c iv (concat chunks) /\
  ocalls (cbc_decrypt_inplace c) iv chunks = cbc_decrypt_inplace c iv (concat chunks) /\
  ocalls (cbc_decrypt_disjoint c) iv chunks = cbc_decrypt_disjoint c iv (concat chunks) /\
  ocalls (fun _ b => option_map (fun o => (o, tt)) (ecb_encrypt c b)) tt chunks = option_map (fun o => (o, tt)) (ecb_encrypt c (concat chunks)) /\
  ocalls (fun _ b => option_map (fun o => (o, tt)) (ecb_decrypt c b)) tt chunks = option_map (fun o => (o, tt)) (ecb_decrypt c (concat chunks)).
Proof.
  intros c iv chunks Hc Hi H. pose proof (B_pos c Hc) as HB. split; [|split; [|split; [|split]]].
  - apply cbc_grouping; auto. revert H. apply Forall_impl. tauto.
  - assert (HP : forall bss iv, okb (c_size c) iv -> Forall (Forall (okb (c_size c))) bss ->
      ocalls (cbc_decrypt_inplace c) iv (map (@concat Z) bss) = Some (cbc_undo c iv (concat bss), last (concat bss) iv)).
    { induction bss as [|bs t IH]; intros p Hp Hs; [reflexivity|]. inversion Hs; subst. cbn [map ocalls concat].
      rewrite (cbc_inplace_spec c Hc), IH by (auto; apply (last_ok c); auto).
      rewrite (cbc_undo_app c Hc) by (auto; apply Forall_concat; auto). rewrite last_app_d. reflexivity. }
    assert (Hm : chunks = map (@concat Z) (map (blocks (c_size c)) chunks)).
    { rewrite map_map. rewrite <- (map_id chunks) at 1. apply map_ext_in. intros m Hx. apply aligned_blocks; auto.
      rewrite Forall_forall in H. apply H. auto. }
    assert (Hs : Forall (Forall (okb (c_size c))) (map (blocks (c_size c)) chunks)).
    { apply Forall_map. revert H. apply Forall_impl. intros m [Hb _]. apply blocks_okb; auto. }
    rewrite Hm at 1. rewrite HP by auto.
    assert (Hq : concat chunks = concat (concat (map (blocks (c_size c)) chunks))).
    { rewrite Hm at 1. clear. induction chunks as [|m t IH]; [reflexivity|]. cbn [map concat]. rewrite concat_app, IH. reflexivity. }
    rewrite Hq. rewrite (cbc_inplace_spec c Hc) by (auto; apply Forall_concat; auto). reflexivity.
  - assert (HP : forall bss iv, okb (c_size c) iv -> Forall (Forall (okb (c_size c))) bss ->
      ocalls (cbc_decrypt_disjoint c) iv (map (@concat Z) bss) = Some (cbc_undo c iv (concat bss), last (concat bss) iv)).
    { induction bss as [|bs t IH]; intros p Hp Hs; [reflexivity|]. inversion Hs; subst. cbn [map ocalls concat].
      rewrite (cbc_disjoint_spec c Hc), IH by (auto; apply (last_ok c); auto).
      rewrite (cbc_undo_app c Hc) by (auto; apply Forall_concat; auto). rewrite last_app_d. reflexivity. }
    assert (Hm : chunks = map (@concat Z) (map (blocks (c_size c)) chunks)).
    { rewrite map_map. rewrite <- (map_id chunks) at 1. apply map_ext_in. intros m Hx. apply aligned_blocks; auto.
      rewrite Forall_forall in H. apply H. auto. }
    assert (Hs : Forall (Forall (okb (c_size c))) (map (blocks (c_size c)) chunks)).
    { apply Forall_map. revert H. apply Forall_impl. intros m [Hb _]. apply blocks_okb; auto. }
    rewrite Hm at 1. rewrite HP by auto.
    assert (Hq : concat chunks = concat (concat (map (blocks (c_size c)) chunks))).
    { rewrite Hm at 1. clear. induction chunks as [|m t IH]; [reflexivity|]. cbn [map concat]. rewrite concat_app, IH. reflexivity. }
    rewrite Hq. rewrite (cbc_disjoint_spec c Hc) by (auto; apply Forall_concat; auto). reflexivity.
  - assert (HE : forall m, aligned (c_size c) (length m) = true -> ecb_encrypt c m = Some (concat (map (c_enc c) (blocks (c_size c) m)))).
    { intros m Ha. rewrite (aligned_blocks c Hc m Ha) at 1. apply ecb_encrypt_spec; auto. apply blocks_len; auto. }
    induction H as [|m t [Hb Ha] Ht IH]; [reflexivity|]. cbn [ocalls concat]. rewrite HE by auto. cbn [option_map]. rewrite IH.
    assert (HG : aligned (c_size c) (length (concat t)) = true).
    { clear -Ht Hc. induction Ht as [|m t [Hb Ha] Ht IH]; [reflexivity|]. cbn [concat]. rewrite aligned_app; auto. }
    rewrite !HE by (try rewrite aligned_app; auto). cbn [option_map].
    rewrite blocks_app_ex by (auto; apply aligned_iff; auto). rewrite map_app, concat_app. reflexivity.
  - assert (HE : forall m, aligned (c_size c) (length m) = true -> ecb_decrypt c m = Some (concat (map (c_dec c) (blocks (c_size c) m)))).
    { intros m Ha. rewrite (aligned_blocks c Hc m Ha) at 1. apply ecb_decrypt_spec; auto. apply blocks_len; auto. }
    induction H as [|m t [Hb Ha] Ht IH]; [reflexivity|]. cbn [ocalls concat]. rewrite HE by auto. cbn [option_map]. rewrite IH.
    assert (HG : aligned (c_size c) (length (concat t)) = true).
    { clear -Ht Hc. induction Ht as [|m t [Hb Ha] Ht IH]; [reflexivity|]. cbn [concat]. rewrite aligned_app; auto. }
    rewrite !HE by (try rewrite aligned_app; auto). cbn [option_map].
    rewrite blocks_app_ex by (auto; apply aligned_iff; auto). rewrite map_app, concat_app. reflexivity.
Qed.
Example C28_ex :
  let iv := [1; 2; 3; 4; 5; 6; 7; 8] in
  let m := [10; 20; 30; 40; 50; 60; 70; 80; 90; 100; 110; 120; 130; 140; 150; 160] in
  cbc_encrypt (toy 8) iv m = Some ([107; 202; 153; 132; 55; 206; 157; 80; 147; 80; 209; 246; 231; 196; 197; 90],
    [147; 80; 209; 246; 231; 196; 197; 90]) /\
  cbc_encrypt (toy 8) iv (firstn 9 m) = None.
Proof. vm_compute. split; reflexivity. Qed.

(* ---- C30 ---- *)
Theorem C30_xts_roundtrip : forall c k2 iv m, cipher_ok c -> cipher_ok k2 -> c_size k2 = c_size c ->
  okb (c_size c) iv -> bytes m -> aligned (c_size c) (length m) = true ->
  let t0 := c_enc k2 iv in
  let n := (length m / c_size c)%nat in
  exists ct p1 p2, xts_encrypt c (xts_setup k2 (xts_init c iv)) m = Some (ct, (tweak (c_size c) t0 n, p1)) /\
    (* block i is enciphered between two additions of x^i t0 *)
    (forall i, (i < n)%nat ->
       nth i (blocks (c_size c) ct) [] = xorl (c_enc c (xorl (nth i (blocks (c_size c) m) []) (tweak (c_size c) t0 i))) (tweak (c_size c) t0 i)) /\
    length ct = length m /\
    xts_decrypt c (xts_setup k2 (xts_init c iv)) ct = Some (m, (tweak (c_size c) t0 n, p2)).
Proof.
  intros c k2 iv m Hc Hk Hsz Hi Hb Ha t0 n. pose proof (B_pos c Hc) as HB. pose proof (aligned_blocks c Hc m Ha) as Hm.
  pose proof (blocks_okb _ m HB Hb) as Hok.
  assert (Ht : okb (c_size c) t0) by (unfold t0; rewrite <- Hsz; apply E_ok; auto; rewrite Hsz; auto).
  assert (Hn : length (blocks (c_size c) m) = n).
  { assert (HX : length m = (length (blocks (c_size c) m) * c_size c)%nat) by (rewrite Hm at 1; apply concat_length_exact, okb_len; auto).
    unfold n. rewrite HX, Nat.div_mul by lia. reflexivity. }
  set (bs := blocks (c_size c) m) in *.
  pose proof (xts_chain_ok c _ t0 bs (E_ok c Hc) 0%nat Hok) as Hok2.
  assert (HS : xts_setup k2 (xts_init c iv) = (tweak (c_size c) t0 0, repeat 0 (c_size c))).
  { unfold xts_setup, xts_init. cbn [fst snd]. rewrite firstn_all2 by (destruct Hi; lia). fold t0. rewrite (tweak_0 c) by auto. reflexivity. }
  rewrite HS.
  exists (concat (xts_chain (c_size c) (c_enc c) t0 0 bs)).
  eexists. eexists. split; [|split; [|split]].
  - rewrite Hm. rewrite (xts_encrypt_spec c Hc) by (auto; apply okb_len; auto). rewrite Hn. reflexivity.
  - intros i Hi'. rewrite (blocks_exact (c_size c)) by (auto; apply okb_len; auto). rewrite <- Hn in Hi'. clear -Hi'.
    assert (HG : forall bs k i, (i < length bs)%nat -> nth i (xts_chain (c_size c) (c_enc c) t0 k bs) [] =
      xorl (c_enc c (xorl (nth i bs []) (tweak (c_size c) t0 (k + i)))) (tweak (c_size c) t0 (k + i))).
    { induction bs0 as [|b t IH]; intros k j Hj; [cbn in Hj; lia|]. destruct j as [|j].
      - rewrite Nat.add_0_r. reflexivity.
      - cbn [xts_chain nth]. rewrite IH by (cbn in Hj; lia). replace (S k + j)%nat with (k + S j)%nat by lia. reflexivity. }
    apply (HG bs 0%nat i). auto.
  - rewrite Hm. rewrite !(concat_length_exact (c_size c)) by (apply okb_len; auto). rewrite xts_chain_length. reflexivity.
  - rewrite (xts_decrypt_spec c Hc) by (auto; apply okb_len; auto). rewrite (xts_chain_DE c Hc) by auto. rewrite xts_chain_length, Hn, <- Hm. reflexivity.
Qed.
(* the doubling used between blocks is multiplication by x in GF(2)[x]/(x^128 + x^7 + x^2 + x + 1) (or the 64-bit field) *)
Theorem C30_shift_is_mulx : forall t, bytes t -> (length t = 8%nat \/ length t = 16%nat) ->
  length (xts_shift t) = length t /\ le_val (xts_shift t) = mulx (length t) (le_val t) /\
  0 <= mulx (length t) (le_val t) < 2 ^ (8 * Z.of_nat (length t)).
Proof.
  intros t Hb Hl. rewrite xts_shift_spec by auto. rewrite le_bytes_length. split; [reflexivity|].
  pose proof (mulx_range (length t) (le_val t)) as HR. pose proof (le_val_range t Hb) as HV. rewrite pow256 in HV.
  specialize (HR Hl HV). rewrite le_val_le_bytes, pow256. rewrite Z.mod_small by auto. split; auto.
Qed.
Example C30_ex :
  xts_shift ([1] ++ repeat 0 14 ++ [0x80]) = [0x85] ++ repeat 0 15 /\
  option_map fst (xts_encrypt (toy 16) (xts_setup (toy 16) (xts_init (toy 16) (repeat 5 16))) (repeat 1 32)) <>
  option_map fst (xts_encrypt (toy 16) (xts_setup (toy 16) (xts_init (toy 16) (repeat 6 16))) (repeat 1 32)).
Proof. vm_compute. split; [reflexivity|discriminate]. Qed.

(* ---- C31 ---- *)
Lemma init_wf c iv : cipher_ok c -> okb (c_size c) iv ->
  wfm (c_size c) (ctr_init c iv) /\ wfm (c_size c) (cfb_init c iv) /\ wfm (c_size c) (ofb_init c iv) /\ firstn (c_size c) iv = iv.
Proof.
  intros Hc [H1 H2]. assert (HF : firstn (c_size c) iv = iv) by (apply firstn_all2; lia).
  unfold ctr_init, cfb_init, ofb_init, wfm. cbn [m_state m_iv]. rewrite HF, repeat_length. auto.
Qed.
(* outputs for any chunking: SP 800-38A *)
Theorem C31_streams_are_the_modes : forall c iv chunks, cipher_ok c -> okb (c_size c) iv ->
  fst (calls (ctr_crypt c) (ctr_init c iv) chunks) = xor_stream (ctr_block (c_size c) (c_enc c) (c_size c) iv) (concat chunks) /\
  fst (calls (ofb_crypt c) (ofb_init c iv) chunks) = xor_stream (ofb_block (c_enc c) iv) (concat chunks) /\
  fst (calls (cfb_encrypt c) (cfb_init c iv) chunks) = cfb_spec (c_size c) (c_enc c) iv (concat chunks).
Proof.
  intros c iv chunks Hc Hi. destruct (init_wf c iv Hc Hi) as (W1 & W2 & W3 & HF). pose proof (B_gt1 c Hc) as HB.
  split; [|split].
  - unfold ctr_crypt. rewrite (ctr_calls (c_size c) (ctr_stream c) HB (ctr_wf c Hc) (fun m p => eq_refl)) by (auto; cbn; lia).
    change (stream_update (c_size c) (ctr_stream c) ctr_xor) with (ctr_crypt c).
    rewrite (ctr_crypt_spec c Hc) by (auto; cbn [ctr_init m_iv]; rewrite HF; apply Hi). cbn [ctr_init m_iv]. rewrite HF. reflexivity.
  - unfold ofb_crypt. rewrite (ctr_calls (c_size c) (ofb_stream c) HB (ofb_wf c Hc) (fun m p => eq_refl)) by (auto; cbn; lia).
    change (stream_update (c_size c) (ofb_stream c) ctr_xor) with (ofb_crypt c).
    rewrite (ofb_crypt_spec c Hc) by auto. cbn [ofb_init m_state]. rewrite HF. reflexivity.
  - rewrite (cfb_enc_calls c Hc) by (auto; cbn; lia). rewrite (cfb_encrypt_spec c Hc) by auto. cbn [cfb_init m_iv]. rewrite HF. reflexivity.
Qed.
(* the state after any chunking is the same too *)
Theorem C31_chunking : forall c m chunks, cipher_ok c -> wfm (c_size c) m -> (m_pos m < c_size c)%nat ->
  calls (ctr_crypt c) m chunks = ctr_crypt c m (concat chunks) /\
  calls (ofb_crypt c) m chunks = ofb_crypt c m (concat chunks) /\
  calls (cfb_encrypt c) m chunks = cfb_encrypt c m (concat chunks) /\
  calls (cfb_decrypt c) m chunks = cfb_decrypt c m (concat chunks).
Proof.
  intros c m chunks Hc Hw Hp. pose proof (B_gt1 c Hc) as HB. split; [|split; [|split]].
  - apply (ctr_calls (c_size c) (ctr_stream c) HB (ctr_wf c Hc) (fun m p => eq_refl)); auto.
  - apply (ctr_calls (c_size c) (ofb_stream c) HB (ofb_wf c Hc) (fun m p => eq_refl)); auto.
  - apply cfb_enc_calls; auto.
  - apply cfb_dec_calls; auto.
Qed.
(* decryption, chunked differently, restores the message *)
Theorem C31_roundtrip : forall c iv ms cs, cipher_ok c -> okb (c_size c) iv ->
  (concat cs = fst (calls (ctr_crypt c) (ctr_init c iv) ms) -> fst (calls (ctr_crypt c) (ctr_init c iv) cs) = concat ms) /\
  (concat cs = fst (calls (ofb_crypt c) (ofb_init c iv) ms) -> fst (calls (ofb_crypt c) (ofb_init c iv) cs) = concat ms) /\
  (concat cs = fst (calls (cfb_encrypt c) (cfb_init c iv) ms) -> fst (calls (cfb_decrypt c) (cfb_init c iv) cs) = concat ms).
Proof.
  intros c iv ms cs Hc Hi. destruct (C31_streams_are_the_modes c iv ms Hc Hi) as (A1 & A2 & _).
  destruct (C31_streams_are_the_modes c iv cs Hc Hi) as (B1 & B2 & _).
  destruct (init_wf c iv Hc Hi) as (W1 & W2 & W3 & HF). pose proof (B_pos c Hc) as HB.
  split; [|split]; intros H.
  - rewrite B1, H, A1. apply (xor_stream_invol _ (c_size c)); auto.
    intros i. unfold ctr_block. apply (bc_elen _ _ _ Hc). apply counter_length; [lia|apply Hi].
  - rewrite B2, H, A2. apply (xor_stream_invol _ (c_size c)); auto.
    intros i. unfold ofb_block. generalize (S i). intros n. induction n as [|n IH]; [apply Hi|].
    apply (bc_elen _ _ _ Hc). exact IH.
  - rewrite (cfb_dec_calls c Hc) by (auto; cbn; lia). rewrite H. rewrite (cfb_enc_calls c Hc) by (auto; cbn; lia).
    apply cfb_roundtrip; auto.
Qed.
Example C31_ex :
  let iv := repeat 255 8 in
  fst (calls (ctr_crypt (toy 8)) (ctr_init (toy 8) iv) [[1; 2; 3]; repeat 9 10; [4]]) =
  fst (ctr_crypt (toy 8) (ctr_init (toy 8) iv) ([1; 2; 3] ++ repeat 9 10 ++ [4])) /\
  ctr_block 8 (c_enc (toy 8)) 8 iv 1 = repeat 3 8.
Proof. vm_compute. split; reflexivity. Qed.

(* the axioms of every theorem above, listed at once *)
Definition ModesProps_all := (@C27_unpad_accepts_iff_canonical, @C27_pad_then_unpad, @C27_pad_full, @C28_ecb_roundtrip, @C28_alignment, @C28_cbc_roundtrip,
  @C28_grouping, @C30_xts_roundtrip, @C30_shift_is_mulx, @C31_streams_are_the_modes, @C31_chunking, @C31_roundtrip).
Print Assumptions ModesProps_all.
