(* C37: chunk-independent hashing. C38: Merkle-Damgard padding. C39: SHA-1 and SHA-2 compression.
   C40: Keccak. C41: HMAC. *)
From Verif.Base Require Import Prelude.
From Verif.Model Require Import Bio Block Encoding Sha HashPrims Keccak Hash.
From Verif.Spec Require Import BlockSpec ShaSpec KeccakSpec HashSpec.
From Verif.Proof Require Import BioProof BlockProof ShaProof MdProof MdInj WordsOut KeccakPerm KeccakProof HashOther HashProof HmacProof.
#[local] Opaque keccak_f keccak_compress blake2b_compress blake2s_compress md2_rounds md2_sum gost94_compress.

(* ---- C37 ---- *)
(* every type, every output length (SHAKE), any two ways of cutting a message into calls *)
Theorem C37_chunking id x y len :
  Forall (fun c => bytes c /\ Z.of_nat (length c) < 2 ^ 64) x -> Forall (fun c => bytes c /\ Z.of_nat (length c) < 2 ^ 64) y ->
  concat x = concat y -> hash_stream id x len = hash_stream id y len.
Proof. exact (hash_stream_det id x y len). Qed.
(* and the digest is the type's function of the concatenation *)
Theorem C37_value id chunks len : Forall (fun c => bytes c /\ Z.of_nat (length c) < 2 ^ 64) chunks ->
  (size_of id len <= rate_of id)%nat ->
  hash_stream id chunks len = Ok (hash_value id (concat chunks) len) /\ length (hash_value id (concat chunks) len) = size_of id len.
Proof.
  intros HC HL. split; [exact (hash_stream_value id chunks len HC HL)|]. apply hash_value_ok. exact (chunks_bytes chunks HC).
Qed.
(* BLAKE2 with a key *)
Theorem C37_blake2b_keyed n key c chunks : blake2b_init n key = Ok c ->
  blake2b_final (fold_left blake2b_update chunks c) = blake2b_value key (concat chunks) n.
Proof.
  intros H. destruct (b2rep_init 128 8 blake2b_compress w64 ltac:(lia) (fun x => eq_refl) ltac:(reflexivity) 64 blake2b_iv n key c
    ltac:(lia) ltac:(lia) ltac:(discriminate) H) as [HR HN].
  apply blake2b_final_spec; [lia|].
  assert (G : forall chunks d c, bbrep (blake2_h0 blake2b_iv (length key) n) d n c -> bbrep (blake2_h0 blake2b_iv (length key) n) (d ++ concat chunks) n (fold_left blake2b_update chunks c)).
  { clear. induction chunks as [|x l IH]; intros d c HR; cbn [concat fold_left]; [rewrite app_nil_r; exact HR|]. rewrite app_assoc. apply IH, bb_update, HR. }
  replace (blake2_input 128 key (concat chunks)) with (blake2_input 128 key [] ++ concat chunks); [apply G; exact HR|].
  unfold blake2_input. destruct key; [reflexivity|]. rewrite <- !app_assoc. reflexivity.
Qed.
Theorem C37_blake2s_keyed n key c chunks : blake2s_init n key = Ok c ->
  blake2s_final (fold_left blake2s_update chunks c) = blake2s_value key (concat chunks) n.
Proof.
  intros H. destruct (b2rep_init 64 4 blake2s_compress w32 ltac:(lia) (fun x => eq_refl) ltac:(reflexivity) 32 blake2s_iv n key c
    ltac:(lia) ltac:(lia) ltac:(discriminate) H) as [HR HN].
  apply blake2s_final_spec; [lia|].
  assert (G : forall chunks d c, bsrep (blake2_h0 blake2s_iv (length key) n) d n c -> bsrep (blake2_h0 blake2s_iv (length key) n) (d ++ concat chunks) n (fold_left blake2s_update chunks c)).
  { clear. induction chunks as [|x l IH]; intros d c HR; cbn [concat fold_left]; [rewrite app_nil_r; exact HR|]. rewrite app_assoc. apply IH, bs_update, HR. }
  replace (blake2_input 64 key (concat chunks)) with (blake2_input 64 key [] ++ concat chunks); [apply G; exact HR|].
  unfold blake2_input. destruct key; [reflexivity|]. rewrite <- !app_assoc. reflexivity.
Qed.
(* published digests of "abc", fed as "a", "", "bc" *)
Definition abc_digests : list (hash_id * Z) :=
  [(MD2, 0xda853b0d3f88d99b30283a69e6ded6bb);
   (MD4, 0xa448017aaf21d8525fc10ae87aa6729d);
   (MD5, 0x900150983cd24fb0d6963f7d28e17f72);
   (RIPEMD160, 0x8eb208f7e05d987a9b044a8e98c6b087f15a0bfc);
   (WHIRLPOOL, 0x4e2448a4c6f486bb16b6562c73b4020bf3043e3a731bce721ae1b303d97e6d4c7181eebdb6c57e277d0e34957114cbd6c797fc9d95d8b582d225292076d4eef5);
   (SHA1, 0xa9993e364706816aba3e25717850c26c9cd0d89d);
   (SHA384, 0xcb00753f45a35e8bb5a03d699ac65007272c32ab0eded1631a8b605a43ff5bed8086072ba1e7cc2358baeca134c825a7);
   (BLAKE2B_512, 0xba80a53f981c4d0d6a2797b69f12f6e94c212f14685ac4b74b12bb6fdbffa2d17d87c5392aab792dc252d5de4533cc9518d38aa8dbf1925ab92386edd4009923);
   (BLAKE2S_256, 0x508c5e8c327c14e2e1a72ba34eeb452f37458b209ed63a294d999b4c86675982);
   (HASH160, 0xbb1be98c142444d7a56aa3981c3942a978e4dc33);
   (GOST94, 0xb285056dbf18d7392d7677369524dd14747459ed8143997e163b2986f92fd42c)].
(* the published vectors are evaluated at every build; too slow for coqchk, which has no virtual machine *)
Succeed Definition C37_vector : forallb (fun p => match hash_stream (fst p) [[97]; []; [98; 99]] (hash_output_size (fst p)) with
    | Ok d => be_val d =? snd p | _ => false end) abc_digests = true := ltac:(vm_compute; reflexivity).
Example C37_ex : forallb (fun p => match hash_stream (fst p) [[97]; []; [98; 99]] (hash_output_size (fst p)) with
    | Ok d => be_val d =? snd p | _ => false end) (firstn 4 abc_digests) = true.
Proof. vm_compute. reflexivity. Qed.
Example C37_long_ex : hash_stream MD4 [zseq 0 63; [63]; zseq 64 10] 0 = hash_stream MD4 [zseq 0 10; zseq 10 64] 0.
Proof. vm_compute. reflexivity. Qed.

(* ---- C38 ---- *)
(* The message, 0x80, the least number of zeros, and the bit length in the last B - L bytes: whole blocks, in order *)
Theorem C38_padding chunks : let m := concat chunks in
  let zeros B L := Z.to_nat ((Z.of_nat L - Z.of_nat (length m) - 1) mod Z.of_nat B) in
  let padded B L enc := m ++ [0x80] ++ repeat 0 (zeros B L) ++ enc (B - L)%nat (8 * Z.of_nat (length m)) in
  Forall (fun c => Z.of_nat (length c) < 2 ^ 64) chunks ->
  md4_final (fold_left md4_update chunks md4_init) = out32le (fold_left md4_transform (blocks 64 (padded 64 56 le_bytes)%nat) md4_iv) /\
  md5_final (fold_left md5_update chunks md5_init) = out32le (fold_left md5_transform (blocks 64 (padded 64 56 le_bytes)%nat) md4_iv) /\
  ripemd160_final (fold_left ripemd160_update chunks ripemd160_init) =
    out32le (fold_left ripemd160_transform (blocks 64 (padded 64 56 le_bytes)%nat) ripemd160_iv) /\
  sha1_final (fold_left sha1_update chunks sha1_init) = out32be (fold_left sha1_transform (blocks 64 (padded 64 56 be_bytes)%nat) sha1_iv) /\
  sha256_final (fold_left sha256_update chunks sha256_init) = out32be (fold_left sha256_transform (blocks 64 (padded 64 56 be_bytes)%nat) sha256_iv) /\
  sha224_final (fold_left sha256_update chunks sha224_init) =
    firstn 28 (out32be (fold_left sha256_transform (blocks 64 (padded 64 56 be_bytes)%nat) sha224_iv)) /\
  sha512_final (fold_left sha512_update chunks sha512_init) = out64be (fold_left sha512_transform (blocks 128 (padded 128 112 be_bytes)%nat) sha512_iv) /\
  sha384_final (fold_left sha512_update chunks sha384_init) =
    firstn 48 (out64be (fold_left sha512_transform (blocks 128 (padded 128 112 be_bytes)%nat) sha384_iv)) /\
  whirlpool_final (fold_left whirlpool_update chunks whirlpool_init) =
    out64be (fold_left whirlpool_transform (blocks 64 (padded 64 32 be_bytes)%nat) (repeat 0 8)).
Proof.
  intros m zeros padded HC.
  assert (EZ : forall B L enc, (0 < B)%nat -> (L < B)%nat -> padded B L enc = md_pad B L enc m).
  { intros B L enc HB HL. unfold padded, md_pad, zeros. do 3 f_equal. f_equal. unfold md_zeros.
    set (n := length m). rewrite <- (Nat2Z.id ((L + B - (n + 1) mod B) mod B)). f_equal.
    rewrite Nat2Z.inj_mod. pose proof (Nat.mod_upper_bound (n + 1) B ltac:(lia)).
    rewrite Nat2Z.inj_sub, Nat2Z.inj_add, Nat2Z.inj_mod by lia.
    replace (Z.of_nat L + Z.of_nat B - Z.of_nat (n + 1) mod Z.of_nat B) with (Z.of_nat L - Z.of_nat (n + 1) mod Z.of_nat B + 1 * Z.of_nat B) by ring.
    rewrite Z.mod_add by lia. rewrite Zminus_mod_idemp_r. f_equal. lia. }
  rewrite !EZ by lia.
  assert (M6 : forall k tr (iv : list Z), (0 < k)%nat -> mdrep 6 k tr iv m (fold_left (md_update 64 tr) chunks (md_init 64 k iv))).
  { intros k tr iv Hk. apply (md_chunks 6 k tr iv ltac:(lia) Hk chunks HC []). apply md_init6. auto. }
  assert (M7 : forall k tr (iv : list Z), (0 < k)%nat -> mdrep 7 k tr iv m (fold_left (md_update 128 tr) chunks (md_init 128 k iv))).
  { intros k tr iv Hk. apply (md_chunks 7 k tr iv ltac:(lia) Hk chunks HC []). apply md_init7. auto. }
  assert (F1 : forall tr (iv : list Z), md_finish 64 56 tr len_le (fold_left (md_update 64 tr) chunks (md_init 64 1 iv)) = fold_left tr (blocks 64 (md_pad 64 56 le_bytes m)) iv).
  { intros tr iv. apply (finish_le 6 1 56 tr iv m); [lia|lia|cbn; lia|reflexivity|apply M6; lia]. }
  assert (F2 : forall tr (iv : list Z), md_finish 64 56 tr len_be (fold_left (md_update 64 tr) chunks (md_init 64 1 iv)) = fold_left tr (blocks 64 (md_pad 64 56 be_bytes m)) iv).
  { intros tr iv. apply (finish_be 6 1 56 tr iv m); [lia|lia|cbn; lia|reflexivity|apply M6; lia]. }
  assert (F3 : forall tr (iv : list Z), md_finish 128 112 tr len_be (fold_left (md_update 128 tr) chunks (md_init 128 2 iv)) = fold_left tr (blocks 128 (md_pad 128 112 be_bytes m)) iv).
  { intros tr iv. apply (finish_be 7 2 112 tr iv m); [lia|lia|cbn; lia|reflexivity|apply M7; lia]. }
  assert (F4 : forall tr (iv : list Z), md_finish 64 32 tr len_be (fold_left (md_update 64 tr) chunks (md_init 64 4 iv)) = fold_left tr (blocks 64 (md_pad 64 32 be_bytes m)) iv).
  { intros tr iv. apply (finish_be 6 4 32 tr iv m); [lia|lia|cbn; lia|reflexivity|apply M6; lia]. }
  split; [exact (f_equal out32le (F1 md4_transform md4_iv))|]. split; [exact (f_equal out32le (F1 md5_transform md4_iv))|].
  split; [exact (f_equal out32le (F1 ripemd160_transform ripemd160_iv))|]. split; [exact (f_equal out32be (F2 sha1_transform sha1_iv))|].
  split; [exact (f_equal out32be (F2 sha256_transform sha256_iv))|].
  split; [exact (f_equal (fun x => firstn 28 (out32be x)) (F2 sha256_transform sha224_iv))|].
  split; [exact (f_equal out64be (F3 sha512_transform sha512_iv))|].
  split; [exact (f_equal (fun x => firstn 48 (out64be x)) (F3 sha512_transform sha384_iv))|].
  exact (f_equal out64be (F4 whirlpool_transform (repeat 0 8))).
Qed.
(* distinct messages give distinct block sequences, within the length limit of the family *)
Theorem C38_injective B L m1 m2 : (B = 64 /\ L = 56 \/ B = 128 /\ L = 112 \/ B = 64 /\ L = 32)%nat ->
  8 * Z.of_nat (length m1) < 2 ^ (8 * Z.of_nat (B - L)) -> 8 * Z.of_nat (length m2) < 2 ^ (8 * Z.of_nat (B - L)) ->
  (blocks B (md_pad B L le_bytes m1) = blocks B (md_pad B L le_bytes m2) -> m1 = m2) /\
  (blocks B (md_pad B L be_bytes m1) = blocks B (md_pad B L be_bytes m2) -> m1 = m2).
Proof.
  intros HBL H1 H2. assert (HL : (L < B)%nat) by lia.
  rewrite Z.pow_mul_r in H1, H2 by lia. change (2 ^ 8) with 256 in H1, H2.
  split; intros E.
  - apply (md_pad_inj B L le_bytes); auto; [intros; apply le_bytes_length|].
    intros x y Hx Hy Ex. apply (f_equal le_val) in Ex. rewrite !le_val_le_bytes, !Z.mod_small in Ex by auto. exact Ex.
  - apply (md_pad_inj B L be_bytes); auto; [intros; apply be_bytes_length|].
    intros x y Hx Hy Ex. apply (f_equal be_val) in Ex. rewrite !be_val_be_bytes, !Z.mod_small in Ex by auto. exact Ex.
Qed.
(* the shortest padding, and the first length that needs a second block *)
Example C38_ex : md_pad 64 56 be_bytes [97; 98; 99] = [97; 98; 99; 0x80] ++ repeat 0 59 ++ [24] /\
  length (blocks 64 (md_pad 64 56 be_bytes (repeat 0 56))) = 2%nat /\ length (blocks 64 (md_pad 64 56 be_bytes (repeat 0 55))) = 1%nat.
Proof. vm_compute. auto. Qed.

(* ---- C39 ---- *)
Theorem C39_sha256 st M : length st = 8%nat -> Forall (fun x => 0 <= x < 2 ^ 32) st -> bytes M -> length M = 64%nat ->
  sha256_transform st M = compress2 fips256 st M.
Proof. exact (sha256_transform_spec st M). Qed.
Theorem C39_sha512 st M : length st = 8%nat -> Forall (fun x => 0 <= x < 2 ^ 64) st -> bytes M -> length M = 128%nat ->
  sha512_transform st M = compress2 fips512 st M.
Proof. exact (sha512_transform_spec st M). Qed.
Theorem C39_sha1 st M : length st = 5%nat -> Forall (fun x => 0 <= x < 2 ^ 32) st -> bytes M -> length M = 64%nat ->
  sha1_transform st M = compress1 st M.
Proof. exact (sha1_transform_spec st M). Qed.
(* whole digests, from the initial values of FIPS 180-4 *)
Theorem C39_digests chunks len : Forall (fun c => bytes c /\ Z.of_nat (length c) < 2 ^ 64) chunks ->
  hash_stream SHA1 chunks len = Ok (fips_sha1 (concat chunks)) /\ hash_stream SHA224 chunks len = Ok (fips_sha224 (concat chunks)) /\
  hash_stream SHA256 chunks len = Ok (fips_sha256 (concat chunks)) /\ hash_stream SHA384 chunks len = Ok (fips_sha384 (concat chunks)) /\
  hash_stream SHA512 chunks len = Ok (fips_sha512 (concat chunks)).
Proof.
  intros H. split; [apply (hash_stream_value SHA1 chunks len H); cbn; lia|]. split; [apply (hash_stream_value SHA224 chunks len H); cbn; lia|].
  split; [apply (hash_stream_value SHA256 chunks len H); cbn; lia|]. split; [apply (hash_stream_value SHA384 chunks len H); cbn; lia|].
  apply (hash_stream_value SHA512 chunks len H); cbn; lia.
Qed.
Example C39_ex : sha256_transform H256 (md_pad 64 56 be_bytes [97; 98; 99]) = compress2 fips256 H256 (md_pad 64 56 be_bytes [97; 98; 99]) /\
  be_val (sha256_final (sha256_update sha256_init [97; 98; 99])) = 0xba7816bf8f01cfea414140de5dae2223b00361a396177a9cb410ff61f20015ad.
Proof. vm_compute. auto. Qed.

(* ---- C40 ---- *)
Theorem C40_permutation A : length A = 25%nat -> Forall (fun v => 0 <= v < 2 ^ 64) A -> keccak_compress A = keccak_f A.
Proof. intros HL HF. exact (proj1 (keccak_compress_spec A (conj HL HF))). Qed.
(* every capacity keccak_init accepts, every domain suffix of at most six bits, every output up to the rate *)
Theorem C40_sponge_partial bits c suffix chunks len : keccak_init bits = Ok c -> Forall bytes chunks ->
  Forall (fun b => b = 0 \/ b = 1) suffix -> (length suffix <= 6)%nat -> (0 < len)%nat -> Z.of_nat len <= 200 - bits / 4 ->
  keccak_final (fold_left keccak_update chunks c) (dval 2 (suffix ++ [1])) len =
  Ok (keccak_hash (Z.to_nat (200 - bits / 4)) suffix (concat chunks) len).
Proof.
  intros HI HB HS HSL HL1 HL2. destruct (keccak_init_spec bits c HI) as [bs [std [HK [HR [HBs _]]]]].
  rewrite <- HBs, Nat2Z.id. apply (keccak_final_spec bs std); auto.
  - clear - HB. induction HB as [|x l Hx Hl IH]; cbn [concat]; [constructor|]. apply bytes_app. auto.
  - revert HS. apply Forall_impl. unfold below. lia.
  - lia.
  - apply (krep_chunks bs std) with (m := []); [destruct HR; lia|exact HK].
Qed.
(* asking for more than the rate returns capacity lanes instead of squeezing again *)
Theorem C40_sponge_refuted : exists m len out, (168 < len <= 200)%nat /\ hash_stream SHAKE128 [m] len = Ok out /\ length out = len /\
  out <> keccak_hash 168 [1; 1; 1; 1] m len.
Proof.
  exists [97; 98; 99], 200%nat, (match hash_stream SHAKE128 [[97; 98; 99]] 200 with Ok d => d | _ => [] end).
  split; [lia|]. split; [vm_compute; reflexivity|]. split; [vm_compute; reflexivity|].
  intros E. apply (f_equal (fun l => nth 168 l 0)) in E. revert E. vm_compute. discriminate.
Qed.
Theorem C40_long_output_aborts c p len : (200 < len)%nat -> keccak_final c p len = Abort.
Proof.
  intros H. unfold keccak_final. destruct (Nat.eqb_spec len 0); [lia|]. destruct (Nat.leb_spec len 200); [lia|]. reflexivity.
Qed.
Succeed Definition C40_vector : be_val (keccak_hash 136 [0; 1] [97; 98; 99] 32) = 0x3a985da74fe225b2045c172d6bd390bd855f086e3e9d525b46bfe24511431532 := ltac:(vm_compute; reflexivity).


(* ---- C41 ---- *)
Theorem C41_hmac id key chunks : bytes key -> Z.of_nat (length key) < 2 ^ 64 ->
  Forall (fun c => bytes c /\ Z.of_nat (length c) < 2 ^ 64) chunks ->
  hmac_stream id key chunks = Ok (rfc2104 id key (concat chunks)) /\ length (rfc2104 id key (concat chunks)) = hash_output_size id.
Proof.
  intros Hk HL HC. split; [exact (hmac_stream_value id key chunks Hk HL HC)|]. apply rfc2104_ok; [exact Hk|exact (chunks_bytes chunks HC)].
Qed.
(* RFC 4231 test case 2, a 100-byte key, and a key of exactly one block *)
Succeed Definition C41_vector : match hmac_stream SHA256 [74; 101; 102; 101] [[119; 104; 97; 116; 32; 100; 111; 32; 121; 97; 32; 119; 97; 110; 116; 32]; [102; 111; 114; 32; 110; 111; 116; 104; 105; 110; 103; 63]] with
    | Ok d => be_val d | _ => 0 end = 0x5bdcc146bf60754e6a042426089575c75a003f089d2739839dec58b964ec3843 /\
  match hmac_stream SHA256 (zseq 0 100) [[97]] with Ok d => be_val d | _ => 0 end = 0xd3a143104274b6be6e00887521a81cd7eb6171fddae3fd80742224e551300c11 /\
  match hmac_stream SHA256 (zseq 0 64) [[97]] with Ok d => be_val d | _ => 0 end = 0xce76fa648f0c32789ce3fe418f77b9718172e658b93bf9f84f481e0414764c8f := ltac:(vm_compute; auto).
Example C41_ex : match hmac_stream MD5 [74; 101; 102; 101] [[119; 104; 97; 116; 32; 100; 111; 32; 121; 97; 32; 119; 97; 110; 116; 32]; [102; 111; 114; 32; 110; 111; 116; 104; 105; 110; 103; 63]] with
    | Ok d => be_val d | _ => 0 end = 0x750c783e6ab0b503eaa86e310a5db738.
Proof. vm_compute. reflexivity. Qed.

(* the axioms of every theorem above, listed at once *)
Definition HashProps_all := (@C37_chunking, @C37_value, @C37_blake2b_keyed, @C37_blake2s_keyed, @C38_padding, @C38_injective, @C39_sha256, @C39_sha512,
  @C39_sha1, @C39_digests, @C40_permutation, @C40_sponge_partial, @C40_sponge_refuted, @C40_long_output_aborts, @C41_hmac).
Print Assumptions HashProps_all.
