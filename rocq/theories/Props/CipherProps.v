(* C26 for ARC2, Camellia, CAST5, DES, 3DES, IDEA, Serpent and Twofish *)
From Verif.Base Require Import Prelude.
From Verif.Model Require Import Encoding Bio Util Hash Blowfish Ciphers64 Ciphers128.
From Verif.Spec Require Import SerpentSpec.
From Verif.Proof Require Import FinInv CipherGen Cipher64 Idea Serpent Twofish Camellia.

(* the n bytes of a number, most significant first *)
Definition unhex (v : Z) (n : nat) : list Z := map (fun i => v / 2 ^ (8 * Z.of_nat (n - 1 - i)) mod 256) (seq 0 n).

(* C26, ARC2: every key of 1 to 128 bytes and every effective key length up to 1024 is accepted and nothing else;
   decryption and encryption of a block undo each other *)
Theorem C26_arc2 key ekb : bytes key -> (exists k, arc2_init key ekb = Ok k) <-> (1 <= length key <= 128)%nat /\ ekb <= 1024.
Proof.
  intros _. unfold arc2_init. cbv zeta. destruct (Nat.leb_spec 1 (length key)) as [A|A]; destruct (Nat.leb_spec (length key) 128) as [B|B]; cbn [andb negb];
    (destruct (Z.leb_spec ekb 1024) as [C|C]; cbn [negb]); split; try (intros [k E]; discriminate E); try lia; intros _; first [lia | split; [split; assumption|assumption] | eexists; reflexivity].
Qed.
Theorem C26_arc2_block key ekb k src : arc2_init key ekb = Ok k -> bytes src -> length src = 8%nat ->
  arc2_decrypt k (arc2_encrypt k src) = src /\ arc2_encrypt k (arc2_decrypt k src) = src.
Proof. intros _. apply arc2_roundtrip. Qed.
Example C26_arc2_ex : match arc2_init (repeat 0 8) 63 with Ok k => arc2_encrypt k (repeat 0 8) = [0xeb; 0xb7; 0x73; 0xf9; 0x93; 0x27; 0x8e; 0xff] /\ arc2_decrypt k [0xeb; 0xb7; 0x73; 0xf9; 0x93; 0x27; 0x8e; 0xff] = repeat 0 8 | _ => False end.
Proof. vm_compute. split; reflexivity. Qed.
Example C26_arc2_reject : arc2_init [] 64 = Abort /\ arc2_init (repeat 1 129) 64 = Abort /\ arc2_init [1] 1025 = Abort.
Proof. repeat split; reflexivity. Qed.

(* C26, Camellia *)
Theorem C26_camellia bits key src : bytes key -> bytes src -> length src = 16%nat -> bits = 128 \/ bits = 192 \/ bits = 256 ->
  exists c, camellia_init bits key = Ok c /\ camellia_decrypt c (camellia_encrypt c src) = src /\ camellia_encrypt c (camellia_decrypt c src) = src.
Proof.
  intros Hk Hs L Hb. destruct (camellia_init bits key) as [c| |] eqn:E; [exists c; split; [reflexivity|exact (camellia_roundtrip bits key c src Hk E Hs L)]|exfalso..];
    unfold camellia_init in E; destruct Hb as [Hb|[Hb|Hb]]; subst bits; discriminate E.
Qed.
Succeed Definition C26_camellia_vector : match camellia_init 128 (unhex 0x0123456789abcdeffedcba9876543210 16) with
  Ok c => camellia_encrypt c (unhex 0x0123456789abcdeffedcba9876543210 16) = unhex 0x67673138549669730857065648eabe43 16 | _ => False end := ltac:(vm_compute; reflexivity).

(* C26, CAST5 *)
Theorem C26_cast5 key src : bytes src -> length src = 8%nat ->
  let c := cast5_init key in cast5_decrypt c (cast5_encrypt c src) = src /\ cast5_encrypt c (cast5_decrypt c src) = src.
Proof. exact (cast5_roundtrip (cast5_init key) src). Qed.
Succeed Definition C26_cast5_vector : cast5_encrypt (cast5_init (unhex 0x0123456712345678234567893456789a 16)) (unhex 0x0123456789abcdef 8) = unhex 0x238b4fe5847e44b2 8 := ltac:(vm_compute; reflexivity).

(* C26, DES and both forms of triple DES *)
Theorem C26_des key src : bytes src -> length src = 8%nat ->
  let k := des_init key in des_decrypt k (des_encrypt k src) = src /\ des_encrypt k (des_decrypt k src) = src.
Proof. exact (des_roundtrip (des_init key) src). Qed.
Theorem C26_des_ede key src : bytes src -> length src = 8%nat ->
  let c := des_ede_init key in des_ede_decrypt c (des_ede_encrypt c src) = src /\ des_ede_encrypt c (des_ede_decrypt c src) = src.
Proof. exact (des_ede_roundtrip (des_ede_init key) src). Qed.
Theorem C26_des_ede3 key src : bytes src -> length src = 8%nat ->
  let c := des_ede3_init key in des_ede3_decrypt c (des_ede3_encrypt c src) = src /\ des_ede3_encrypt c (des_ede3_decrypt c src) = src.
Proof. exact (des_ede3_roundtrip (des_ede3_init key) src). Qed.
(* triple DES under a repeated key is DES *)
Theorem C26_des_ede_single key src : bytes src -> length src = 8%nat -> length key = 8%nat ->
  des_ede_encrypt (des_ede_init (key ++ key)) src = des_encrypt (des_init key) src /\
  des_ede3_encrypt (des_ede3_init (key ++ key ++ key)) src = des_encrypt (des_init key) src.
Proof.
  intros Hs L Lk.
  assert (P : forall t, des_init (key ++ t) = des_init key).
  { intros t. do 8 (destruct key as [|? key]; [discriminate Lk|]). destruct key; [reflexivity|discriminate Lk]. }
  unfold des_ede_init, des_ede3_init, des_ede_encrypt, des_ede3_encrypt. cbn [fst snd].
  replace (skipn 8 (key ++ key)) with key by (rewrite <- Lk, skipn_app, skipn_all, Nat.sub_diag; reflexivity).
  replace (skipn 8 (key ++ key ++ key)) with (key ++ key) by (rewrite <- Lk, skipn_app, skipn_all, Nat.sub_diag; reflexivity).
  replace (skipn 16 (key ++ key ++ key)) with key by (replace 16%nat with (length (key ++ key)) by (rewrite app_length, Lk; reflexivity); rewrite app_assoc, skipn_app, skipn_all, Nat.sub_diag; reflexivity).
  rewrite !P. destruct (des_roundtrip (des_init key) src Hs L) as [E _]. rewrite E. split; reflexivity.
Qed.
Example C26_des_ex : des_encrypt (des_init (unhex 0x133457799bbcdff1 8)) (unhex 0x0123456789abcdef 8) = unhex 0x85e813540f0ab405 8 /\
  des_decrypt (des_init (unhex 0x133457799bbcdff1 8)) (unhex 0x85e813540f0ab405 8) = unhex 0x0123456789abcdef 8.
Proof. vm_compute. split; reflexivity. Qed.

(* C26, IDEA *)
Theorem C26_idea key src : bytes key -> bytes src -> length src = 8%nat ->
  let c := idea_init key in idea_decrypt c (idea_encrypt c src) = src /\ idea_encrypt c (idea_decrypt c src) = src.
Proof. exact (idea_roundtrip key src). Qed.
(* IDEA's multiplication is that of the integers modulo 65537, zero standing for 65536 (Idea.res); the inverse is its inverse;
   the two versions the preprocessor chooses between agree *)
Theorem C26_idea_mul x y : 0 <= x < 65536 -> 0 <= y < 65536 ->
  0 <= idea_mul x y < 65536 /\ res (idea_mul x y) = (res x * res y) mod 65537 /\ (res (idea_inv x) * res x) mod 65537 = 1 /\
  idea_mul_32 x y = idea_mul x y /\ idea_inv_32 x = idea_inv x.
Proof.
  intros Hx Hy. exact (conj (mul_hword x y) (conj (mul_res x y Hx Hy) (conj (inv_spec x Hx) (conj (mul_variants x y Hx Hy) (inv_variants x Hx))))).
Qed.
Example C26_idea_mul_ex : idea_mul 0 0 = 1 /\ idea_mul 0 1 = 0 /\ idea_mul 65535 2 = 65533 /\ idea_mul_32 65535 65535 = 4 /\ idea_inv 2 = 32769 /\ idea_inv 0 = 0.
Proof. vm_compute. repeat split; reflexivity. Qed.
Example C26_idea_ex : let c := idea_init (unhex 0x00010002000300040005000600070008 16) in
  idea_encrypt c (unhex 0x0000000100020003 8) = unhex 0x11fbed2b01986de5 8 /\ idea_decrypt c (unhex 0x11fbed2b01986de5 8) = unhex 0x0000000100020003 8.
Proof. vm_compute. split; reflexivity. Qed.

(* C26, Serpent *)
Theorem C26_serpent bits key src : bytes key -> bytes src -> length src = 16%nat -> bits = 128 \/ bits = 192 \/ bits = 256 ->
  exists sk, serpent_init bits key = Ok sk /\ serpent_decrypt sk (serpent_encrypt sk src) = src /\ serpent_encrypt sk (serpent_decrypt sk src) = src.
Proof.
  intros Hk Hs L Hb. destruct (serpent_init bits key) as [c| |] eqn:E; [exists c; split; [reflexivity|exact (serpent_roundtrip bits key c src Hk E Hs L)]|exfalso..];
    unfold serpent_init in E; destruct Hb as [Hb|[Hb|Hb]]; subst bits; discriminate E.
Qed.
Succeed Definition C26_serpent_vector : match serpent_init 128 (0x80 :: repeat 0 15) with
  Ok sk => serpent_encrypt sk (repeat 0 16) = unhex 0x264E5481EFF42A4606ABDA06C0BFDA3D 16 | _ => False end := ltac:(vm_compute; reflexivity).
(* the straight-line logic of the boxes computes the published tables in each of the 32 columns, and that of the inverse boxes their inverses *)
Theorem C26_serpent_boxes x i : 0 <= i < 32 ->
  let box f t := nibble (f x) i = nth (Z.to_nat (nibble x i)) t 0 in
  box serpent_sb0 sbox0 /\ box serpent_sb1 sbox1 /\ box serpent_sb2 sbox2 /\ box serpent_sb3 sbox3 /\
  box serpent_sb4 sbox4 /\ box serpent_sb5 sbox5 /\ box serpent_sb6 sbox6 /\ box serpent_sb7 sbox7.
Proof.
  intros Hi. destruct x as [[[a b] c] d]. cbv zeta. repeat apply conj; [apply sb0_bits|apply sb1_bits|apply sb2_bits|apply sb3_bits|apply sb4_bits|apply sb5_bits|apply sb6_bits|apply sb7_bits]; exact Hi.
Qed.
Lemma nibble_range x i : 0 <= nibble x i < 16.
Proof. destruct x as [[[a b] c] d]. unfold nibble. destruct (Z.testbit a i), (Z.testbit b i), (Z.testbit c i), (Z.testbit d i); cbn; lia. Qed.
Lemma unbox f t : bitsliced f (invert t) -> forallb (fun n => rd t (Z.to_nat (rd (invert t) (Z.to_nat n))) =? n) (zseq 0 16) = true ->
  forall x i, 0 <= i < 32 -> nth (Z.to_nat (nibble (f x) i)) t 0 = nibble x i.
Proof.
  intros B C [[[a b] c] d] i Hi. destruct (B a b c d i) as [E _]. rewrite (E Hi). pose proof (nibble_range (a, b, c, d) i) as R.
  pose proof (forall_zseq _ 0 16 C _ R) as Q. cbv beta in Q. apply Z.eqb_eq in Q. exact Q.
Qed.
Theorem C26_serpent_unboxes x i : 0 <= i < 32 ->
  let unbox f t := nth (Z.to_nat (nibble (f x) i)) t 0 = nibble x i in
  unbox serpent_sb0inv sbox0 /\ unbox serpent_sb1inv sbox1 /\ unbox serpent_sb2inv sbox2 /\ unbox serpent_sb3inv sbox3 /\
  unbox serpent_sb4inv sbox4 /\ unbox serpent_sb5inv sbox5 /\ unbox serpent_sb6inv sbox6 /\ unbox serpent_sb7inv sbox7.
Proof.
  intros Hi. cbv zeta.
  repeat apply conj; [apply (unbox _ _ sb0inv_bits)|apply (unbox _ _ sb1inv_bits)|apply (unbox _ _ sb2inv_bits)|apply (unbox _ _ sb3inv_bits)|apply (unbox _ _ sb4inv_bits)
    |apply (unbox _ _ sb5inv_bits)|apply (unbox _ _ sb6inv_bits)|apply (unbox _ _ sb7inv_bits)]; first [exact Hi | vm_compute; reflexivity].
Qed.
Example C26_serpent_boxes_ex : serpent_sb0 (1, 0, 0, 1) = (0xffffffff, 0xfffffffe, 1, 1) /\ map (nibble (serpent_sb0 (1, 0, 0, 1))) [0; 1] = [13; 3] /\ map (nibble (1, 0, 0, 1)) [0; 1] = [9; 0].
Proof. vm_compute. repeat split; reflexivity. Qed.

(* C26, Twofish *)
Theorem C26_twofish bits key src : bytes src -> length src = 16%nat -> bits = 128 \/ bits = 192 \/ bits = 256 ->
  exists c, twofish_init bits key = Ok c /\ twofish_decrypt c (twofish_encrypt c src) = src /\ twofish_encrypt c (twofish_decrypt c src) = src.
Proof.
  intros Hs L Hb. destruct (twofish_init bits key) as [c| |] eqn:E; [exists c; split; [reflexivity|exact (twofish_roundtrip bits key c src E Hs L)]|exfalso..];
    unfold twofish_init in E; destruct Hb as [Hb|[Hb|Hb]]; subst bits; discriminate E.
Qed.
Succeed Definition C26_twofish_vector : match twofish_init 256 (unhex 0x0123456789ABCDEFFEDCBA987654321000112233445566778899AABBCCDDEEFF 32) with
  Ok c => twofish_encrypt c (repeat 0 16) = unhex 0x37527BE0052334B89F0CFCCAE87CFA20 16 | _ => False end := ltac:(vm_compute; reflexivity).
(* the three ciphers with a choice of key size abort for every other size *)
Theorem C26_sizes bits key : bits <> 128 -> bits <> 192 -> bits <> 256 -> camellia_init bits key = Abort /\ serpent_init bits key = Abort /\ twofish_init bits key = Abort.
Proof.
  intros A B C. apply Z.eqb_neq in A, B, C. unfold camellia_init, serpent_init, twofish_init. rewrite A, B, C. repeat split; reflexivity.
Qed.

(* the axioms of every theorem above, listed at once *)
Definition CipherProps_all := (@C26_arc2, @C26_arc2_block, @C26_camellia, @C26_cast5, @C26_des, @C26_des_ede, @C26_des_ede3, @C26_des_ede_single, @C26_idea,
  @C26_idea_mul, @C26_serpent, @C26_serpent_boxes, @C26_serpent_unboxes, @C26_twofish, @C26_sizes).
Print Assumptions CipherProps_all.
