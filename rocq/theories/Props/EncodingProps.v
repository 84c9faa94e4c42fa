(* C04-C08: base16/32/58/64 of src/encoding.c *)
From Coq Require Import String.
From Verif.Base Require Import Prelude.
From Verif.Model Require Import Encoding.
From Verif.Spec Require Import EncodingSpec.
From Verif.Proof Require Import EncodingProof Base64Proof Base32Proof Base58Proof EncSizeProof.

(* C04 *)
Theorem C04_base16_encode_is_hex : forall b, bytes b ->
  base16_encode b = rfc4648 4 alpha16 b.
Proof. exact base16_encode_rfc. Qed.

(* accepted iff the lower-cased string is the hex encoding of some bytes, which
   are then what is returned; in particular decode (encode b) = b *)
Theorem C04_base16_decode_exact : forall s b, bytes s ->
  (base16_decode s = Some b <-> bytes b /\ map lower s = rfc4648 4 alpha16 b).
Proof.
  intros s b Hs. rewrite base16_decode_iff by auto. split; intros [Hb E]; split; auto;
    rewrite ?E, ?base16_encode_rfc by auto; reflexivity.
Qed.
Example C04_base16_ex : base16_decode (str "DeadBEEF"%string) = Some [0xde; 0xad; 0xbe; 0xef]
  /\ base16_decode (str "0g"%string) = None /\ base16_decode (str "abc"%string) = None.
Proof. repeat split; vm_compute; reflexivity. Qed.

Theorem C04_base16_roundtrip : forall b, bytes b -> base16_decode (base16_encode b) = Some b.
Proof.
  intros b Hb. apply base16_decode_iff.
  - apply base16_encode_bytes; auto.
  - split; auto. apply base16_encode_lower; auto.
Qed.

Theorem C04_base16_test_exact : forall s, bytes s ->
  (base16_test s = true <-> exists b, base16_decode s = Some b).
Proof. exact base16_test_iff. Qed.

Theorem C04_base16le_decode_exact : forall s b, bytes s ->
  (base16le_decode s = Some b <-> bytes b /\ map lower s = rfc4648 4 alpha16 (rev b)).
Proof.
  intros s b Hs. rewrite base16le_decode_iff by auto. unfold base16le_encode.
  split; intros [Hb E]; split; auto; rewrite ?E, ?base16_encode_rfc by (apply bytes_rev; auto); reflexivity.
Qed.
Example C04_base16le_ex : base16le_decode (str "0a0b"%string) = Some [0x0b; 0x0a].
Proof. vm_compute; reflexivity. Qed.

Theorem C04_base16le_roundtrip : forall b, bytes b -> base16le_decode (base16le_encode b) = Some b.
Proof.
  intros b Hb. unfold base16le_encode. apply base16le_decode_iff.
  - apply base16_encode_bytes, bytes_rev; auto.
  - split; auto. apply base16_encode_lower, bytes_rev; auto.
Qed.

(* C05 *)
Definition rfc_base32 (alpha : list Z) (pad : bool) (b : list Z) : list Z :=
  if pad then pad_eq 8 (rfc4648 5 alpha b) else rfc4648 5 alpha b.

Theorem C05_base32_encode_is_rfc4648 : forall b pad, bytes b ->
  base32_encode b pad = rfc_base32 alpha32 pad b.
Proof.
  intros b pad Hb. unfold base32_encode. rewrite base32_encode_eq by auto.
  unfold rfc_base32, rfc4648. rewrite e32_rfc by auto. destruct pad; reflexivity.
Qed.
Theorem C05_base32hex_encode_is_rfc4648 : forall b pad, bytes b ->
  base32hex_encode b pad = rfc_base32 alpha32hex pad b.
Proof.
  intros b pad Hb. unfold base32hex_encode. rewrite base32_encode_eq by auto.
  unfold rfc_base32, rfc4648. rewrite e32_rfc by auto. destruct pad; reflexivity.
Qed.

Theorem C05_base32_decode_exact : forall s (pad : bool) b, bytes s -> Z.of_nat (length s) < 2 ^ 63 ->
  (base32_decode s (if pad then 1 else 0) = Some b <->
   bytes b /\ map lower s = rfc_base32 alpha32 pad b).
Proof.
  intros s pad b Hs HL. unfold base32_decode.
  rewrite (base32_dec_iff _ _ tab32_ok) by (auto; destruct pad; auto).
  unfold padded, rfc_base32, rfc4648.
  split; intros [Hb E]; split; auto; rewrite E, e32_rfc by auto; destruct pad; reflexivity.
Qed.
Theorem C05_base32hex_decode_exact : forall s (pad : bool) b, bytes s -> Z.of_nat (length s) < 2 ^ 63 ->
  (base32hex_decode s (if pad then 1 else 0) = Some b <->
   bytes b /\ map lower s = rfc_base32 alpha32hex pad b).
Proof.
  intros s pad b Hs HL. unfold base32hex_decode.
  rewrite (base32_dec_iff _ _ tab32hex_ok) by (auto; destruct pad; auto).
  unfold padded, rfc_base32, rfc4648.
  split; intros [Hb E]; split; auto; rewrite E, e32_rfc by auto; destruct pad; reflexivity.
Qed.
(* RFC 4648 section 10: "foobar" without its last two letters; stray trailing
   bits and missing padding are refused *)
Example C05_base32_ex :
  base32_encode (str "foob"%string) true = str "mzxw6yq="%string /\
  base32_decode (str "MZXW6YQ="%string) 1 = Some (str "foob"%string) /\
  base32_decode (str "mzxw6yr="%string) 1 = None /\
  base32_decode (str "mzxw6yq"%string) 1 = None /\
  base32hex_decode (str "CPNMUOG"%string) 0 = Some (str "foob"%string).
Proof. repeat split; vm_compute; reflexivity. Qed.

Theorem C05_base32_test_exact : forall s unpad, bytes s ->
  (base32_test s unpad = true <-> exists b, base32_decode s unpad = Some b) /\
  (base32hex_test s unpad = true <-> exists b, base32hex_decode s unpad = Some b).
Proof.
  intros s unpad Hs. split.
  - exact (base32_test_iff _ _ tab32_ok s unpad Hs).
  - exact (base32_test_iff _ _ tab32hex_ok s unpad Hs).
Qed.

(* C06 *)
Theorem C06_base58_encode_exact : forall b s, bytes b ->
  (base58_encode b = Ok s <-> Z.of_nat (length b) <= 0x7fffffff /\ is_base58 b s).
Proof. exact base58_encode_iff. Qed.

Theorem C06_base58_decode_exact : forall s b, bytes s ->
  (base58_decode s = Ok b <-> Z.of_nat (length s) <= 0xffffffff /\ is_base58 b s).
Proof. exact base58_decode_iff. Qed.

(* is_base58 relates each byte string to exactly one string and conversely *)
Theorem C06_base58_bijective : forall b b' s s',
  is_base58 b s -> is_base58 b' s' -> (b = b' <-> s = s').
Proof.
  intros b b' s s' H H'. split; intros <-.
  - eapply is_base58_fun; eauto.
  - eapply is_base58_inj; eauto.
Qed.

Theorem C06_base58_total : forall b, bytes b -> Z.of_nat (length b) <= 0x7fffffff ->
  exists s, base58_encode b = Ok s /\ base58_decode s = Ok b.
Proof.
  intros b Hb HL. destruct (base58_encode_ok b Hb HL) as (s & E & H). exists s. split; auto.
  apply base58_decode_iff; [apply (base58_valid_of_spec b); auto|]. split; auto.
  pose proof (proj1 (base58_len b s H)). lia.
Qed.
Example C06_base58_ex :
  base58_encode [0; 0; 40; 127; 180; 205] = Ok (str "11233QC4"%string) /\
  base58_decode (str "11233QC4"%string) = Ok [0; 0; 40; 127; 180; 205] /\
  base58_decode (str "1O"%string) = Fail.
Proof. repeat split; vm_compute; reflexivity. Qed.

Theorem C06_base58_never_aborts : forall s, bytes s ->
  base58_encode s <> Abort /\ base58_decode s <> Abort.
Proof. exact base58_never_aborts. Qed.

Theorem C06_base58_test_exact : forall s, bytes s -> Z.of_nat (length s) <= 0xffffffff ->
  (base58_test s = true <-> exists b, base58_decode s = Ok b).
Proof. exact base58_test_iff. Qed.

(* C07 *)
Theorem C07_base64_encode_is_rfc4648 : forall b, bytes b ->
  base64_encode b = pad_eq 4 (rfc4648 6 alpha64 b).
Proof.
  intros b Hb. unfold base64_encode. rewrite (b64_pad_eq _ _ tab64_ok).
  rewrite (b64_encode_rfc _ _ tab64_ok alpha64 eq_refl) by auto. reflexivity.
Qed.
Theorem C07_base64url_encode_is_rfc4648 : forall b, bytes b ->
  base64url_encode b = rfc4648 6 alpha64url b.
Proof. intros b Hb. apply (b64_encode_rfc _ _ tab64url_ok alpha64url eq_refl); auto. Qed.

Theorem C07_base64_decode_exact : forall s b, bytes s ->
  (base64_decode s = Some b <-> bytes b /\ s = pad_eq 4 (rfc4648 6 alpha64 b)).
Proof.
  intros s b Hs. unfold base64_decode. rewrite (b64_iff _ _ tab64_ok) by auto.
  split; intros [Hb ->]; split; auto.
  - rewrite (b64_pad_eq _ _ tab64_ok), (b64_encode_rfc _ _ tab64_ok alpha64 eq_refl) by auto. reflexivity.
  - rewrite (b64_pad_eq _ _ tab64_ok), (b64_encode_rfc _ _ tab64_ok alpha64 eq_refl) by auto. reflexivity.
Qed.
Theorem C07_base64url_decode_exact : forall s b, bytes s ->
  (base64url_decode s = Some b <-> bytes b /\ s = rfc4648 6 alpha64url b).
Proof.
  intros s b Hs. unfold base64url_decode. rewrite (b64url_iff _ _ tab64url_ok) by auto.
  split; intros [Hb ->]; split; auto; rewrite (b64_encode_rfc _ _ tab64url_ok alpha64url eq_refl) by auto; reflexivity.
Qed.
Example C07_base64_ex :
  base64_encode (str "foob"%string) = str "Zm9vYg=="%string /\
  base64_decode (str "Zm9vYg=="%string) = Some (str "foob"%string) /\
  base64_decode (str "Zm9vYh=="%string) = None /\
  base64_decode (str "Zm9vYg"%string) = None /\
  base64url_decode (str "_-8"%string) = Some [255; 239].
Proof. repeat split; vm_compute; reflexivity. Qed.

Theorem C07_base64_test_exact : forall s, bytes s ->
  (base64_test s = true <-> exists b, base64_decode s = Some b) /\
  (base64url_test s = true <-> exists b, base64url_decode s = Some b).
Proof.
  intros s Hs. unfold base64_test, base64_decode, base64url_test, base64url_decode. split.
  - destruct (negb _); [split; [discriminate|intros [? ?]; discriminate]|].
    exact (b64_test_dec _ _ tab64_ok s Hs).
  - destruct (negb _); [split; [discriminate|intros [? ?]; discriminate]|].
    exact (b64_test_dec _ _ tab64url_ok s Hs).
Qed.

(* C08: the functions and the *_SIZE(n) macros of include/torsion/encoding.h *)
Theorem C08_base16_sizes : forall b s, 
  Z.of_nat (length (base16_encode b)) = base16_encode_size (Z.of_nat (length b)) /\
  (base16_decode s = Some b -> bytes s -> Z.of_nat (length b) = base16_decode_size (Z.of_nat (length s))).
Proof.
  intros b s. unfold base16_encode_size, base16_decode_size. rewrite base16_encode_length. split; [lia|].
  intros E Hs. apply base16_decode_iff in E as [_ E]; auto.
  rewrite <- (map_length lower s), E, base16_encode_length. lia.
Qed.

Theorem C08_base32_encode_size : forall cs b pad, bytes b ->
  Z.of_nat (length (base32_encode0 cs b pad)) = base32_encode_size (Z.of_nat (length b)) pad /\
  base32_encode_size (Z.of_nat (length b)) pad <= Z.of_nat (length b) / 5 * 8 + 13.
Proof. intros. split; [apply base32_enc_len; auto|apply base32_enc_size_le; lia]. Qed.

Theorem C08_base32_decode_size : forall s b (pad : bool), bytes s -> Z.of_nat (length s) < 2 ^ 63 ->
  base32_decode s (if pad then 1 else 0) = Some b \/ base32hex_decode s (if pad then 1 else 0) = Some b ->
  Z.of_nat (length b) = base32_decode_size s /\
  base32_decode_size s <= Z.of_nat (length s) / 8 * 5 + 4.
Proof.
  intros s b pad Hs HL [E|E].
  - refine (base32_dec_size _ _ _ _ _ tab32_ok Hs HL _ E). destruct pad; auto.
  - refine (base32_dec_size _ _ _ _ _ tab32hex_ok Hs HL _ E). destruct pad; auto.
Qed.
Example C08_base32_ex : base32_decode_size (str "mzxw6yq="%string) = 4 /\ base32_encode_size 4 true = 8.
Proof. split; vm_compute; reflexivity. Qed.

Theorem C08_base58_sizes : forall b s, bytes b -> bytes s ->
  base58_encode b = Ok s \/ base58_decode s = Ok b ->
  Z.of_nat (length s) <= Z.of_nat (length b) * 2 /\ Z.of_nat (length b) <= Z.of_nat (length s).
Proof.
  intros b s Hb Hs [E|E].
  - apply base58_encode_iff in E as [_ E]; auto. apply base58_len in E. lia.
  - apply base58_decode_iff in E as [_ E]; auto. apply base58_len in E. lia.
Qed.

Theorem C08_base64_encode_size : forall b,
  Z.of_nat (length (base64_encode b)) = base64_encode_size (Z.of_nat (length b)) /\
  base64_encode_size (Z.of_nat (length b)) <= Z.of_nat (length b) / 3 * 4 + 4 /\
  Z.of_nat (length (base64url_encode b)) = base64url_encode_size (Z.of_nat (length b)) /\
  base64url_encode_size (Z.of_nat (length b)) <= Z.of_nat (length b) / 3 * 4 + 4.
Proof.
  intros b. split; [exact (base64_enc_len _ _ _ _ tab64_ok)|].
  split; [apply base64_enc_size_le; lia|]. split; [exact (base64_enc_len _ _ _ _ tab64url_ok)|].
  apply base64_enc_size_le; lia.
Qed.

Theorem C08_base64_decode_size : forall s b, bytes s ->
  base64_decode s = Some b \/ base64url_decode s = Some b ->
  Z.of_nat (length b) = base64_decode_size0 s /\
  base64_decode_size0 s <= Z.of_nat (length s) / 4 * 3 + 2.
Proof.
  intros s b Hs [E|E]; unfold base64_decode, base64url_decode in E; destruct (negb _); try discriminate.
  - exact (base64_dec_size _ _ _ _ tab64_ok Hs E).
  - exact (base64_dec_size _ _ _ _ tab64url_ok Hs E).
Qed.
Example C08_base64_ex : base64_decode_size0 (str "Zm9vYg=="%string) = 4 /\ base64_encode_size 4 = 8.
Proof. split; vm_compute; reflexivity. Qed.

(* the axioms of every theorem above, listed at once *)
Definition EncodingProps_all := (@C04_base16_encode_is_hex, @C04_base16_decode_exact, @C04_base16_roundtrip, @C04_base16_test_exact,
  @C04_base16le_decode_exact, @C04_base16le_roundtrip, @C05_base32_encode_is_rfc4648, @C05_base32hex_encode_is_rfc4648, @C05_base32_decode_exact,
  @C05_base32hex_decode_exact, @C05_base32_test_exact, @C06_base58_encode_exact, @C06_base58_decode_exact, @C06_base58_bijective, @C06_base58_total,
  @C06_base58_never_aborts, @C06_base58_test_exact, @C07_base64_encode_is_rfc4648, @C07_base64url_encode_is_rfc4648, @C07_base64_decode_exact,
  @C07_base64url_decode_exact, @C07_base64_test_exact, @C08_base16_sizes, @C08_base32_encode_size, @C08_base32_decode_size, @C08_base58_sizes,
  @C08_base64_encode_size, @C08_base64_decode_size).
Print Assumptions EncodingProps_all.
