(* C32, C33, C34: GHASH, GCM, CCM, EAX *)
From Verif.Base Require Import Prelude.
From Verif.Model Require Import Bio Util Block Encoding Modes.
From Verif.Spec Require Import BlockSpec MacSpec StreamSpec ModesSpec.
From Verif.Proof Require Import UtilProof BioProof BufCrypt BlockProof BlockModes GfShift XtsProof StreamModes CtrProof GhashMul GhashProof MacModes AeadModes CcmProof.
From Verif.Props Require Import ModesProps.
#[local] Ltac Zify.zify_post_hook ::= idtac.

(* ---- C32 ---- *)
(* gval reads the two 64-bit halves as one 128-bit string, first bit = x^0 *)
Theorem C32_table_mul_is_field_mul : forall x y, gok x -> gok y ->
  gok (gfe_mul y (ghash_table x)) /\ gval (gfe_mul y (ghash_table x)) = gmul (gval y) (gval x).
Proof. intros. apply gfe_mul_val; auto. Qed.
Example C32_table_mul_ex :
  gval (gfe_mul (0x0388dace60b6a392, 0xf328c2b971b2fe78) (ghash_table (0x66e94bd4ef8a2c3b, 0x884cfa59ca342b2e))) = 0x5e2ec746917062882c85b0685353deb7.
Proof. vm_compute. reflexivity. Qed.
(* multiplication is by the reduction x^128 = 1 + x + x^2 + x^7: 1 is neutral, x * x^127 wraps *)
Example C32_gmul_ex : gmul (2 ^ 127) 0x1234 = 0x1234 /\ gmul (2 ^ 126) 1 = 0xe1 * 2 ^ 120 /\ gmul 1 (2 ^ 126) = 0xe1 * 2 ^ 120.
Proof. vm_compute. repeat split; reflexivity. Qed.
Theorem C32_ghash_any_chunking : forall key aads cts, bytes key -> length key = 16%nat -> bytes (concat aads) -> bytes (concat cts) ->
  Z.of_nat (length (concat cts)) < 2 ^ 64 ->
  ghash_final (fold_left ghash_update cts (fold_left ghash_aad aads (ghash_init key))) = gcm_ghash key (concat aads) (concat cts).
Proof. intros. apply ghash_spec_correct; auto. Qed.
Example C32_ghash_ex :
  let key := be_bytes 16 0xb83b533708bf535d0aa6e52980d53b78 in
  let aad := be_bytes 20 0xfeedfacedeadbeeffeedfacedeadbeefabaddad2 in
  let ct := be_bytes 60 0x42831ec2217774244b7221b784d0d49ce3aa212f2c02a4e035c17e2329aca12e21d514b25466931c7d8f6a5aac84aa051ba30b396a0aac973d58e091 in
  ghash_final (fold_left ghash_update [firstn 7 ct; skipn 7 ct] (fold_left ghash_aad [firstn 17 aad; skipn 17 aad] (ghash_init key)))
    = be_bytes 16 0x698e57f70e6ecc7fd9463b7260a9ae5f.
Proof. vm_compute. reflexivity. Qed.

(* ---- C33: the streamed modes compute the published ones, so decryption inverts encryption with equal tags ---- *)
Theorem C33_gcm_encrypt : forall c iv aads msgs, cipher_ok c -> c_size c = 16%nat ->
  bytes iv -> Z.of_nat (length iv) < 2 ^ 64 -> bytes (concat aads) -> bytes (concat msgs) ->
  Z.of_nat (length (concat msgs)) < 2 ^ 64 ->
  exists g, gcm_init c iv = Some g /\
    let '(ct, g2) := calls (gcm_encrypt c) (fold_left gcm_aad aads g) msgs in
    ct = gcm_cipher (c_enc c) iv (concat msgs) /\ gcm_digest g2 = gcm_tag (c_enc c) iv (concat aads) ct.
Proof. intros. apply gcm_encrypt_spec; auto. Qed.
Theorem C33_gcm_roundtrip : forall c iv aads aads' msgs cts, cipher_ok c -> c_size c = 16%nat ->
  bytes iv -> Z.of_nat (length iv) < 2 ^ 64 -> bytes (concat aads) -> bytes (concat msgs) ->
  Z.of_nat (length (concat msgs)) < 2 ^ 64 -> concat aads' = concat aads ->
  exists g, gcm_init c iv = Some g /\
    let '(ct, g2) := calls (gcm_encrypt c) (fold_left gcm_aad aads g) msgs in
    concat cts = ct ->
    let '(pt, g3) := calls (gcm_decrypt c) (fold_left gcm_aad aads' g) cts in
    pt = concat msgs /\ gcm_digest g3 = gcm_digest g2.
Proof.
  intros c iv aads aads' msgs cts Hc H16 Hi HiL HA HM HL HE.
  destruct (gcm_encrypt_spec c Hc H16 iv aads msgs Hi HiL HA HM HL) as (g & I1 & I2). exists g. split; [auto|].
  destruct (calls (gcm_encrypt c) (fold_left gcm_aad aads g) msgs) as [ct g2]. destruct I2 as [I2 I3]. intros Hct.
  assert (J : okb 16 (gcm_j0 (c_enc c) iv)) by (apply gcm_j0_ok; auto).
  assert (HB : forall i, okb 16 (ctr_block 16 (c_enc c) 4 (gcm_j0 (c_enc c) iv) (S i))).
  { intros i. unfold ctr_block. rewrite <- H16 at 1. apply E_ok; auto. rewrite H16. split; [apply counter_length; try lia; apply J|apply counter_bytes; try lia; apply J]. }
  destruct (gcm_decrypt_spec c Hc H16 iv aads' cts Hi HiL) as (g' & D1 & D2).
  - rewrite HE. auto.
  - rewrite Hct, I2. apply xor_stream_bytes; auto. intros i. apply HB.
  - rewrite Hct, I2. unfold gcm_cipher. rewrite (xor_stream_length _ 16); [auto|lia|]. intros i. apply HB.
  - rewrite D1 in I1. injection I1 as <-. destruct (calls (gcm_decrypt c) (fold_left gcm_aad aads' g') cts) as [pt g3].
    destruct D2 as [D2 D3]. split.
    + rewrite D2, Hct, I2. apply gcm_cipher_invol; auto.
    + rewrite D3, I3, HE, Hct. reflexivity.
Qed.
Example C33_gcm_ex :
  match gcm_init (toy 16) [1;2;3;4;5;6;7;8;9;10;11;12;13] with
  | Some g =>
    let msg := map Z.of_nat (seq 5 37) in
    let '(ct, g2) := calls (gcm_encrypt (toy 16)) (fold_left gcm_aad [[1;2];[3]] g) [firstn 20 msg; skipn 20 msg] in
    let '(pt, g3) := calls (gcm_decrypt (toy 16)) (fold_left gcm_aad [[1;2;3]] g) [firstn 3 ct; skipn 3 ct] in
    ct <> msg /\ pt = msg /\ gcm_digest g2 = gcm_digest g3
  | None => False
  end.
Proof. vm_compute. split; [discriminate|split; reflexivity]. Qed.

Theorem C33_eax_encrypt : forall c iv aads msgs, cipher_ok c -> iv <> [] -> bytes iv ->
  exists g, eax_init c iv = Some g /\
    let '(ct, g2) := calls (eax_encrypt c) (fold_left (eax_aad c) aads g) msgs in
    ct = eax_cipher (c_size c) (c_enc c) iv (concat msgs) /\ eax_digest c g2 = eax_tag (c_size c) (c_enc c) iv (concat aads) ct.
Proof. intros. apply eax_encrypt_spec; auto. Qed.
Theorem C33_eax_roundtrip : forall c iv aads aads' msgs cts, cipher_ok c -> iv <> [] -> bytes iv -> concat aads' = concat aads ->
  exists g, eax_init c iv = Some g /\
    let '(ct, g2) := calls (eax_encrypt c) (fold_left (eax_aad c) aads g) msgs in
    concat cts = ct ->
    let '(pt, g3) := calls (eax_decrypt c) (fold_left (eax_aad c) aads' g) cts in
    pt = concat msgs /\ eax_digest c g3 = eax_digest c g2.
Proof.
  intros c iv aads aads' msgs cts Hc Hn Hi HE.
  destruct (eax_encrypt_spec c Hc iv aads msgs Hn Hi) as (g & I1 & I2). exists g. split; [auto|].
  destruct (calls (eax_encrypt c) (fold_left (eax_aad c) aads g) msgs) as [ct g2]. destruct I2 as [I2 I3]. intros Hct.
  destruct (eax_decrypt_spec c Hc iv aads' cts Hn Hi) as (g' & D1 & D2).
  rewrite D1 in I1. apply some_eq in I1. subst g'. destruct (calls (eax_decrypt c) (fold_left (eax_aad c) aads' g) cts) as [pt g3].
  destruct D2 as [D2 D3]. split.
  - rewrite D2, Hct, I2. apply eax_cipher_invol; auto.
  - rewrite D3, I3, HE, Hct. reflexivity.
Qed.
Theorem C33_eax_empty_nonce : forall c, eax_init c [] = None.
Proof. reflexivity. Qed.
Example C33_eax_ex :
  match eax_init (toy 8) [1;2;3;4;5;6;7;8;9;10;11;12;13] with
  | Some g =>
    let msg := map Z.of_nat (seq 5 37) in
    let '(ct, g2) := calls (eax_encrypt (toy 8)) (fold_left (eax_aad (toy 8)) [[1;2];[3]] g) [firstn 20 msg; skipn 20 msg] in
    let '(pt, g3) := calls (eax_decrypt (toy 8)) (fold_left (eax_aad (toy 8)) [[1;2;3]] g) [firstn 3 ct; skipn 3 ct] in
    ct <> msg /\ pt = msg /\ eax_digest (toy 8) g2 = eax_digest (toy 8) g3
  | None => False
  end.
Proof. vm_compute. split; [discriminate|split; reflexivity]. Qed.

(* L is the smallest width >= 2 holding the message length; the nonce is cut or zero-padded to 15 - L bytes *)
Theorem C33_ccm_encrypt : forall c iv M aad msgs L, cipher_ok c -> c_size c = 16%nat -> bytes iv -> (7 <= length iv)%nat ->
  ccm_tag_len M -> Z.of_nat (length aad) < 2 ^ 64 -> ccm_width L (Z.of_nat (length (concat msgs))) ->
  exists m0 m1, ccm_init c iv = Some m0 /\ ccm_setup c m0 (Z.of_nat (length (concat msgs))) (Z.of_nat M) aad = Ok m1 /\
    let '(ct, m2) := calls (ccm_encrypt c) m1 msgs in
    ct = ccm_cipher (c_enc c) L (ccm_nonce L iv) (concat msgs) /\
    ccm_digest c m2 = ccm_tag (c_enc c) L M (ccm_nonce L iv) aad (concat msgs).
Proof. intros. apply ccm_encrypt_spec; auto. Qed.
Theorem C33_ccm_roundtrip : forall c iv M aad msgs cts, cipher_ok c -> c_size c = 16%nat -> bytes iv -> (7 <= length iv)%nat ->
  ccm_tag_len M -> Z.of_nat (length aad) < 2 ^ 64 -> Z.of_nat (length (concat msgs)) < 2 ^ 64 ->
  exists m0 m1, ccm_init c iv = Some m0 /\ ccm_setup c m0 (Z.of_nat (length (concat msgs))) (Z.of_nat M) aad = Ok m1 /\
    let '(ct, m2) := calls (ccm_encrypt c) m1 msgs in
    concat cts = ct ->
    ccm_setup c m0 (Z.of_nat (length (concat cts))) (Z.of_nat M) aad = Ok m1 /\
    let '(pt, m3) := calls (ccm_decrypt c) m1 cts in
    pt = concat msgs /\ ccm_digest c m3 = ccm_digest c m2.
Proof.
  intros c iv M aad msgs cts Hc H16 Hi H7 HM HA HL.
  destruct (log256_spec (Z.of_nat (length (concat msgs))) ltac:(lia)) as (L & _ & HW).
  destruct (ccm_encrypt_spec c Hc H16 iv M aad msgs L Hi H7 HM HA HW) as (m0 & m1 & I0 & I1 & I2). exists m0, m1. split; [auto|]. split; [auto|].
  destruct (calls (ccm_encrypt c) m1 msgs) as [ct m2]. destruct I2 as [I2 I3]. intros Hct.
  assert (LN := ccm_nonce_length L iv ltac:(destruct HW; lia)).
  assert (HLen : length (concat cts) = length (concat msgs)) by (rewrite Hct, I2; apply ccm_cipher_length; auto; destruct HW; lia).
  rewrite HLen. split; [auto|]. rewrite <- HLen in HW.
  destruct (ccm_decrypt_spec c Hc H16 iv M aad cts L Hi H7 HM HA HW) as (m0' & m1' & D0 & D1 & D2).
  rewrite I0 in D0. apply some_eq in D0. subst m0'. rewrite HLen, I1 in D1. assert (m1' = m1) by congruence. subst m1'.
  destruct (calls (ccm_decrypt c) m1 cts) as [pt m3]. destruct D2 as [D2 D3].
  assert (EP : pt = concat msgs) by (rewrite D2, Hct, I2; apply ccm_cipher_invol; auto; destruct HW; lia).
  split; [auto|]. rewrite D3, I3, EP. reflexivity.
Qed.
(* the width is determined, and what is rejected *)
Theorem C33_ccm_width_total : forall len, 0 <= len < 2 ^ 64 -> exists L, ccm_width L len /\ forall L', ccm_width L' len -> L' = L.
Proof. intros len H. destruct (log256_spec len H) as (L & _ & HW). exists L. split; [auto|]. intros L' H'. apply (ccm_width_unique _ _ len); auto. Qed.
Theorem C33_ccm_rejects : forall c iv M aad len, cipher_ok c -> c_size c = 16%nat -> bytes iv -> Z.of_nat (length aad) < 2 ^ 64 -> 0 <= len < 2 ^ 64 ->
  (ccm_init c iv = None <-> (length iv < 7)%nat) /\
  (forall m0, ccm_init c iv = Some m0 -> (exists m1, ccm_setup c m0 len (Z.of_nat M) aad = Ok m1) /\ ccm_tag_len M \/ ccm_setup c m0 len (Z.of_nat M) aad = Fail /\ ~ ccm_tag_len M).
Proof.
  intros c iv M aad len Hc H16 Hi HA Hlen. rewrite (ccm_init_spec c Hc H16). split.
  - destruct (Nat.ltb_spec (length iv) 7); split; auto; try lia; discriminate.
  - intros m0 HI. rewrite <- (ccm_init_spec c Hc H16) in HI.
    destruct (log256_spec len Hlen) as (L & EL & HW).
    assert (DM : ccm_tag_len M \/ ~ ccm_tag_len M).
    { unfold ccm_tag_len. destruct (Nat.even M); [|right; intros [_ X]; discriminate]. destruct (Nat.le_gt_cases 4 M); [|right; lia]. destruct (Nat.le_gt_cases M 16); [left; auto|right; lia]. }
    destruct DM as [DM|DM].
    + left. split; [|auto]. destruct (ccm_setup_spec c Hc H16 iv M aad len L m0 Hi HI DM HA HW) as (m1 & S & _). eauto.
    + right. split; [|auto]. unfold ccm_setup. rewrite H16. change (negb (16 =? 16)%nat) with false. cbv iota. rewrite EL.
      destruct ((m_pos (ccm_ctr m0) <? 7) || (13 <? m_pos (ccm_ctr m0)))%nat; [reflexivity|].
      destruct ((15 - Z.of_nat L <? 7) || (13 <? 15 - Z.of_nat L)); [reflexivity|].
      destruct (Z.ltb_spec (Z.of_nat M) 4) as [|H4]; [reflexivity|]. destruct (Z.ltb_spec 16 (Z.of_nat M)) as [|H5]; [reflexivity|]. cbn [orb].
      destruct (Z.eqb_spec (Z.land (Z.of_nat M) 1) 0) as [H6|]; [|reflexivity]. exfalso. apply DM. split; [lia|]. apply (even_land_conv c Hc H16). auto.
Qed.
Example C33_ccm_ex :
  let msg := map Z.of_nat (seq 5 37) in
  match ccm_init (toy 16) [1;2;3;4;5;6;7;8;9] with
  | Some m0 =>
    match ccm_setup (toy 16) m0 37 8 [9;8;7] with
    | Ok m1 =>
      let '(ct, m2) := calls (ccm_encrypt (toy 16)) m1 [firstn 20 msg; skipn 20 msg] in
      let '(pt, m3) := calls (ccm_decrypt (toy 16)) m1 [firstn 3 ct; skipn 3 ct] in
      ct <> msg /\ pt = msg /\ ccm_digest (toy 16) m2 = ccm_digest (toy 16) m3
    | _ => False
    end
  | None => False
  end.
Proof. vm_compute. split; [discriminate|split; reflexivity]. Qed.

(* ---- C34 ---- *)
Definition ccm_seal (c : cipher) (iv aad msg : list Z) : option (list Z * list Z) :=
  match ccm_init c iv with
  | Some m0 =>
    match ccm_setup c m0 (Z.of_nat (length msg)) 16 aad with
    | Ok m1 => let '(ct, m2) := ccm_encrypt c m1 msg in Some (ct, ccm_digest c m2)
    | _ => None
    end
  | None => None
  end.
(* false in general: a short nonce is zero-padded and a long one truncated, so n and n || 00
   (or two 13-byte nonces differing in the tail, for a 2^16-byte message) give the same stream and tag *)
Theorem C34_short_nonce_refuted : exists c iv1 iv2 m1 m2, cipher_ok c /\ bytes iv1 /\ bytes iv2 /\ iv1 <> iv2 /\
  ccm_init c iv1 = Some m1 /\ ccm_init c iv2 = Some m2 /\
  exists s1 s2, ccm_setup c m1 5 16 [] = Ok s1 /\ ccm_setup c m2 5 16 [] = Ok s2 /\
    m_iv (ccm_ctr s1) = m_iv (ccm_ctr s2) /\ ccm_hash s1 = ccm_hash s2 /\
    ccm_seal c iv1 [] [1;2;3;4;5] = ccm_seal c iv2 [] [1;2;3;4;5] /\ ccm_seal c iv1 [] [1;2;3;4;5] <> None.
Proof.
  exists (toy 16), [1;2;3;4;5;6;7], [1;2;3;4;5;6;7;0]. do 2 eexists. split; [apply toy_ok; auto|].
  split; [repeat constructor; unfold byte; lia|]. split; [repeat constructor; unfold byte; lia|]. split; [discriminate|].
  split; [vm_compute; reflexivity|]. split; [vm_compute; reflexivity|]. do 2 eexists.
  split; [vm_compute; reflexivity|]. split; [vm_compute; reflexivity|]. split; [vm_compute; reflexivity|]. split; [vm_compute; reflexivity|].
  split; [vm_compute; reflexivity|]. vm_compute. discriminate.
Qed.
Theorem C34_long_nonce_refuted : exists c iv1 iv2 m1 m2, cipher_ok c /\ bytes iv1 /\ bytes iv2 /\ iv1 <> iv2 /\ length iv1 = 13%nat /\ length iv2 = 13%nat /\
  ccm_init c iv1 = Some m1 /\ ccm_init c iv2 = Some m2 /\
  exists s1 s2, ccm_setup c m1 65536 16 [] = Ok s1 /\ ccm_setup c m2 65536 16 [] = Ok s2 /\
    m_iv (ccm_ctr s1) = m_iv (ccm_ctr s2) /\ ccm_hash s1 = ccm_hash s2.
Proof.
  exists (toy 16), [1;2;3;4;5;6;7;8;9;10;11;12;13], [1;2;3;4;5;6;7;8;9;10;11;12;99]. do 2 eexists. split; [apply toy_ok; auto|].
  split; [repeat constructor; unfold byte; lia|]. split; [repeat constructor; unfold byte; lia|]. split; [discriminate|]. split; [reflexivity|]. split; [reflexivity|].
  split; [vm_compute; reflexivity|]. split; [vm_compute; reflexivity|]. do 2 eexists.
  split; [vm_compute; reflexivity|]. split; [vm_compute; reflexivity|]. split; [vm_compute; reflexivity|]. vm_compute. reflexivity.
Qed.
(* what does hold: nonces of one length that fit in 15 - L bytes never share a counter block or B0 *)
Theorem C34_fixed_length_nonces : forall c iv1 iv2 M1 M2 aad1 aad2 len1 len2 L1 L2 m1 m2 s1 s2, cipher_ok c -> c_size c = 16%nat ->
  bytes iv1 -> bytes iv2 -> ccm_init c iv1 = Some m1 -> ccm_init c iv2 = Some m2 ->
  ccm_tag_len M1 -> ccm_tag_len M2 -> Z.of_nat (length aad1) < 2 ^ 64 -> Z.of_nat (length aad2) < 2 ^ 64 -> ccm_width L1 len1 -> ccm_width L2 len2 ->
  ccm_setup c m1 len1 (Z.of_nat M1) aad1 = Ok s1 -> ccm_setup c m2 len2 (Z.of_nat M2) aad2 = Ok s2 ->
  length iv1 = length iv2 -> (length iv1 <= 15 - L1)%nat -> (length iv2 <= 15 - L2)%nat -> iv1 <> iv2 ->
  (forall i j, Z.of_nat (1 + i) < 256 ^ Z.of_nat L1 -> Z.of_nat (1 + j) < 256 ^ Z.of_nat L2 ->
    counter 16 16 (m_iv (ccm_ctr s1)) i <> counter 16 16 (m_iv (ccm_ctr s2)) j) /\
  ccm_a L1 (ccm_nonce L1 iv1) 0 <> ccm_a L2 (ccm_nonce L2 iv2) 0 /\
  ccm_b0 L1 M1 (ccm_nonce L1 iv1) (negb (length aad1 =? 0)%nat) len1 <> ccm_b0 L2 M2 (ccm_nonce L2 iv2) (negb (length aad2 =? 0)%nat) len2.
Proof.
  intros c iv1 iv2 M1 M2 aad1 aad2 len1 len2 L1 L2 m1 m2 s1 s2 Hc H16 Hb1 Hb2 HI1 HI2 HM1 HM2 HA1 HA2 HW1 HW2 HS1 HS2 HL HL1 HL2 Hne.
  destruct (ccm_setup_spec c Hc H16 iv1 M1 aad1 len1 L1 m1 Hb1 HI1 HM1 HA1 HW1) as (s1' & A0 & _ & _ & A3 & _).
  destruct (ccm_setup_spec c Hc H16 iv2 M2 aad2 len2 L2 m2 Hb2 HI2 HM2 HA2 HW2) as (s2' & B0 & _ & _ & B3 & _).
  assert (s1' = s1) by congruence. assert (s2' = s2) by congruence. subst s1' s2'.
  assert (N1 : length (ccm_nonce L1 iv1) = (15 - L1)%nat) by (apply ccm_nonce_length; destruct HW1; lia).
  assert (N2 : length (ccm_nonce L2 iv2) = (15 - L2)%nat) by (apply ccm_nonce_length; destruct HW2; lia).
  assert (HA : forall f1 f2 x1 x2, [f1] ++ ccm_nonce L1 iv1 ++ x1 <> [f2] ++ ccm_nonce L2 iv2 ++ x2).
  { intros f1 f2 x1 x2 HE. cbn [app] in HE. injection HE as _ HE. unfold ccm_nonce in HE. rewrite !firstn_all2 in HE by lia. rewrite <- !app_assoc in HE.
    apply (f_equal (firstn (length iv1))) in HE. rewrite (firstn_app_exact iv1) in HE by auto. rewrite (firstn_app_exact iv2) in HE by auto. auto. }
  split; [|split].
  - intros i j Hi Hj. rewrite A3, B3. rewrite !ccm_a_counter; auto using ccm_nonce_bytes; try apply HW1; try apply HW2. apply HA.
  - apply HA.
  - apply HA.
Qed.
Example C34_ex : exists m1 m2 s1 s2, ccm_init (toy 16) [1;2;3;4;5;6;7;0] = Some m1 /\ ccm_init (toy 16) [1;2;3;4;5;6;7;1] = Some m2 /\
  ccm_setup (toy 16) m1 5 16 [] = Ok s1 /\ ccm_setup (toy 16) m2 70000 8 [3] = Ok s2 /\ m_iv (ccm_ctr s1) <> m_iv (ccm_ctr s2).
Proof. do 4 eexists. split; [vm_compute; reflexivity|]. split; [vm_compute; reflexivity|]. split; [vm_compute; reflexivity|]. split; [vm_compute; reflexivity|]. vm_compute. discriminate. Qed.

(* the axioms of every theorem above, listed at once *)
Definition AeadModesProps_all := (@C32_table_mul_is_field_mul, @C32_ghash_any_chunking, @C33_gcm_encrypt, @C33_gcm_roundtrip, @C33_eax_encrypt,
  @C33_eax_roundtrip, @C33_eax_empty_nonce, @C33_ccm_encrypt, @C33_ccm_roundtrip, @C33_ccm_width_total, @C33_ccm_rejects, @C34_short_nonce_refuted,
  @C34_long_nonce_refuted, @C34_fixed_length_nonces).
Print Assumptions AeadModesProps_all.
