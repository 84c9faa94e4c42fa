(* C42, C43, C70, C71: key derivation *)
From Verif.Base Require Import Prelude.
From Verif.Model Require Import Encoding Hash Kdf.
From Verif.Spec Require Import HashSpec KdfSpec.
From Verif.Proof Require Import KdfProof PgpProof ScryptProof.

(* ---- C42 ---- *)
Theorem C42_hkdf_extract id ikm salt : bytes ikm -> bytes salt -> Z.of_nat (length ikm) < 2 ^ 64 -> Z.of_nat (length salt) < 2 ^ 64 ->
  hkdf_extract id ikm salt = Ok (rfc2104 id salt ikm).
Proof. exact (hkdf_extract_value id ikm salt). Qed.
(* any length up to 255 blocks; failure exactly beyond *)
Theorem C42_hkdf_expand id prk info len : bytes prk -> length prk = hash_output_size id -> bytes info -> Z.of_nat (length info) < 2 ^ 64 -> Z.of_nat len < 2 ^ 64 ->
  hkdf_expand id prk info len = if (len <=? 255 * hash_output_size id)%nat then Ok (hkdf_okm id prk info len) else Fail.
Proof. exact (hkdf_expand_value id prk info len). Qed.
(* iter = 0 behaves as iter = 1 (RFC 8018 requires a positive count) *)
Theorem C42_pbkdf2 id pass salt iter len : bytes pass -> bytes salt -> Z.of_nat (length pass) < 2 ^ 64 -> Z.of_nat (length salt) < 2 ^ 64 -> Z.of_nat len < 2 ^ 64 ->
  pbkdf2_derive id pass salt iter len =
    if Z.of_nat len <=? (2 ^ 32 - 1) * Z.of_nat (hash_output_size id) then Ok (pbkdf2_dk id pass salt (Z.to_nat iter) len) else Fail.
Proof. exact (pbkdf2_value id pass salt iter len). Qed.
Theorem C42_lengths id pass salt c L : bytes pass -> bytes salt -> length (pbkdf2_dk id pass salt c L) = L.
Proof. intros Hp Hs. exact (proj1 (dk_ok id pass salt c L Hp Hs)). Qed.
(* RFC 5869 A.1 through extract and expand; two-block PBKDF2 *)
(* the published vectors are evaluated at every build; too slow for coqchk, which has no virtual machine *)
Succeed Definition C42_vector :
  match hkdf_extract SHA256 (repeat 0x0b 22) (zseq 0 13) with
  | Ok prk => be_val prk = 0x077709362c2e32df0ddc3f0dc47bba6390b6c73bb50f9c3122ec844ad7c2b3e5 /\ match hkdf_expand SHA256 prk (zseq 0xf0 10) 42 with Ok o => be_val o = 0x3cb25f25faacd57a90434f64d0362f2a2d2d0a90cf1a5a4c5db02d56ecc4c5bf34007208d5b887185865 | _ => False end
  | _ => False end /\
  match pbkdf2_derive SHA256 [112; 97; 115; 115] [115; 97; 108; 116] 3 40 with Ok o => be_val o = 0xf6894ed57d9dd8af049e92fc99c15263cc9b6e4283d0ddd4fe543fd7773e3d642a5877162acf668b | _ => False end /\
  hkdf_expand SHA256 (zseq 0 32) [] 8161 = Fail := ltac:(vm_compute; auto).
Example C42_ex :
  match hkdf_extract MD4 (repeat 0x0b 22) (zseq 0 13) with Ok prk => match hkdf_expand MD4 prk (zseq 0xf0 10) 20 with Ok o => be_val o = 1421663180975967234957062251480389193027071147682 | _ => False end | _ => False end /\
  match pbkdf2_derive MD4 [112; 97; 115; 115] [115; 97; 108; 116] 2 20 with Ok o => be_val o = 495715529434845543079558135332515005872572770330 | _ => False end /\
  hkdf_expand MD4 (zseq 0 16) [] 4081 = Fail.
Proof. vm_compute. auto. Qed.

(* ---- C43 ---- *)
(* enough fuel is always available: the loops of eb2k and of the simple and salted forms return *)
Theorem C43_terminates id pass salt kl il len : bytes pass -> bytes salt -> Z.of_nat (length pass) < 2 ^ 64 -> Z.of_nat (length salt) < 2 ^ 64 ->
  exists fuel0, forall fuel, (fuel0 <= fuel)%nat ->
  (exists r, eb2k_derive fuel id pass salt kl il = Some r) /\
  (exists o, pgpdf_derive_simple fuel id pass len = Some (Ok o)) /\ (exists o, pgpdf_derive_salted fuel id pass salt len = Some (Ok o)).
Proof.
  intros Hp Hs Lp Ls. exists (kl + il + len)%nat. intros fuel Hf. split; [|split].
  - destruct (Nat.eq_dec (length salt) 0) as [E|E]; [eexists; apply eb2k_value; auto; lia|].
    destruct (Nat.le_gt_cases 8 (length salt)) as [G|G]; [eexists; apply eb2k_value; auto; lia|].
    exists Fail. unfold eb2k_derive. destruct (Nat.ltb_spec 8 (length salt)); [lia|]. cbv zeta.
    destruct (Nat.eqb_spec (length salt) 0); [lia|]. destruct (Nat.eqb_spec (length salt) 8); [lia|]. reflexivity.
  - eexists. unfold pgpdf_derive_simple. apply pgpdf_salted_value; auto; try lia; [constructor|reflexivity].
  - eexists. apply pgpdf_salted_value; auto. lia.
Qed.
(* the iterated form returns when there is something to hash, and only then *)
Theorem C43_iterated_partial id pass salt count len : bytes pass -> bytes salt -> (0 < length salt + length pass)%nat \/ len = 0%nat ->
  Z.of_nat (length salt) + Z.of_nat (length pass) < 2 ^ 64 ->
  exists fuel0, forall fuel, (fuel0 <= fuel)%nat -> exists o, pgpdf_derive_iterated fuel id pass salt (Z.of_nat count) len = Some (Ok o).
Proof.
  intros Hp Hs H HL. exists (len + count + length salt + length pass)%nat. intros fuel Hf.
  destruct (Nat.eq_dec (length salt + length pass) 0) as [E|E].
  - destruct H as [H|H]; [lia|]. subst len. destruct salt; [|discriminate E]. destruct pass; [|discriminate E].
    exists []. unfold pgpdf_derive_iterated. cbv zeta. change (w64 (Z.of_nat (length (@nil Z)) + Z.of_nat (length (@nil Z))) <? Z.of_nat (length (@nil Z))) with false. cbv iota.
    destruct fuel; reflexivity.
  - eexists. apply pgpdf_iterated_value; auto; lia.
Qed.
Theorem C43_iterated_refuted : exists pass salt len, forall id count fuel, 0 <= count -> pgpdf_derive_iterated fuel id pass salt count len = None.
Proof. exists [], [], 1%nat. intros id count fuel H. apply pgpdf_iterated_diverges; auto. Qed.
Example C43_ex : pgpdf_derive_iterated 1000 SHA1 [] [] 65536 16 = None.
Proof. vm_compute. reflexivity. Qed.

(* ---- C70: scrypt ---- *)
Theorem C70_scrypt pass salt N r p len : bytes pass -> bytes salt -> Z.of_nat (length pass) < 2 ^ 64 -> Z.of_nat (length salt) < 2 ^ 64 ->
  (0 < r)%nat -> (0 < p)%nat -> 0 < N -> Z.land N (N - 1) = 0 -> Z.of_nat r * Z.of_nat p < 2 ^ 30 -> Z.of_nat len <= (2 ^ 32 - 1) * 32 ->
  128 * Z.of_nat r * N < 2 ^ 64 -> scrypt_derive pass salt N r p len = Ok (scrypt pass salt (Z.to_nat N) r p len).
Proof. exact (scrypt_value pass salt N r p len). Qed.
Theorem C70_rejects pass salt N r p len : 0 <= N ->
  r = 0%nat \/ p = 0%nat \/ N = 0 \/ Z.land N (N - 1) <> 0 \/ 2 ^ 30 <= Z.of_nat r * Z.of_nat p \/ (2 ^ 32 - 1) * 32 < Z.of_nat len \/ 2 ^ 64 <= 128 * Z.of_nat r * N ->
  scrypt_derive pass salt N r p len = Fail.
Proof. exact (scrypt_rejects pass salt N r p len). Qed.
(* the bit test accepts exactly the powers of two *)
Theorem C70_power_of_two N : 0 < N -> (Z.land N (N - 1) = 0 <-> exists k, 0 <= k /\ N = 2 ^ k).
Proof.
  intros HN. split.
  - intros H. exists (Z.log2 N). split; [apply Z.log2_nonneg|apply pow2_of_land; auto].
  - intros [k [Hk ->]]. replace (2 ^ k - 1) with (Z.ones k) by (rewrite Z.ones_equiv; lia). rewrite Z.land_ones by lia. apply Z.mod_same. lia.
Qed.
Succeed Definition C70_vector : match scrypt_derive [] [] 16 1 1 64 with Ok o => be_val o = 0x77d6576238657b203b19ca42c18a0497f16b4844e3074ae8dfdffa3fede21442fcd0069ded0948f8326a753a0fc81f17e8d3e0fb2e0d3628cf35e20c38d18906 | _ => False end /\
  match scrypt_derive [97; 98] [99] 4 2 2 40 with Ok o => be_val o = 0x9e1e4d8189c22cf5f41d8871c1b4ff386996e5f17405265921939357032abcde002f5d41f40feab6 | _ => False end /\ scrypt_derive [] [] 12 1 1 64 = Fail := ltac:(vm_compute; auto).
Example C70_ex : scrypt_derive [] [] 12 1 1 64 = Fail.
Proof. vm_compute. reflexivity. Qed.

(* ---- C71: EVP_BytesToKey and OpenPGP string-to-key ---- *)
Theorem C71_eb2k id pw salt kl il fuel : bytes pw -> bytes salt -> Z.of_nat (length pw) < 2 ^ 64 ->
  (kl + il <= fuel)%nat -> length salt = 0%nat \/ (8 <= length salt)%nat ->
  let T := eb2k_stream id pw (firstn 8 salt) (cover (hash_output_size id) (kl + il)) in
  eb2k_derive fuel id pw salt kl il = Some (Ok (firstn kl T, firstn il (skipn kl T))).
Proof. exact (eb2k_value id pw salt kl il fuel). Qed.
Theorem C71_salted id pass salt len fuel : bytes pass -> bytes salt -> Z.of_nat (length pass) < 2 ^ 64 -> Z.of_nat (length salt) < 2 ^ 64 -> (len <= fuel)%nat ->
  pgpdf_derive_salted fuel id pass salt len = Some (Ok (s2k id (salt ++ pass) len)).
Proof. exact (pgpdf_salted_value id pass salt len fuel). Qed.
Theorem C71_iterated id pass salt count len fuel : bytes pass -> bytes salt -> (0 < length salt + length pass)%nat ->
  Z.of_nat (length salt) + Z.of_nat (length pass) < 2 ^ 64 -> (len + count + length salt + length pass <= fuel)%nat ->
  pgpdf_derive_iterated fuel id pass salt (Z.of_nat count) len = Some (Ok (s2k_iterated id pass salt count len)).
Proof. exact (pgpdf_iterated_value id pass salt count len fuel). Qed.
Example C71_ex : match eb2k_derive 40 MD5 [112; 119] (zseq 0 8) 24 16 with Some (Ok (k, v)) => be_val k = 0xa55f79aa00e8dd0e7d3ce26ed40d7cd3a029a787189b34d3 /\ be_val v = 0x0d90860969005fcb18e261fa9442219c | _ => False end /\
  match pgpdf_derive_iterated 100 SHA1 [112; 119] [115; 97; 108; 116; 115; 97; 108; 116] 37 24 with Some (Ok o) => be_val o = 0x7eb8246b696baea8615dca558ee021814260dd6a329ed226 | _ => False end /\
  match pgpdf_derive_salted 24 SHA1 [112; 119] [115; 97; 108; 116; 115; 97; 108; 116] 24 with Some (Ok o) => be_val o = 0x68778c5d46180727d701e54bafa1597852164d86ba0a266e | _ => False end.
Proof. vm_compute. auto. Qed.

(* the axioms of every theorem above, listed at once *)
Definition KdfProps_all := (@C42_hkdf_extract, @C42_hkdf_expand, @C42_pbkdf2, @C42_lengths, @C43_terminates, @C43_iterated_partial, @C43_iterated_refuted,
  @C70_scrypt, @C70_rejects, @C70_power_of_two, @C71_eb2k, @C71_salted, @C71_iterated).
Print Assumptions KdfProps_all.
