(* C44, C72 and the Blowfish part of C26 *)
From Verif.Base Require Import Prelude.
From Verif.Model Require Import Encoding Bio Util Hash Blowfish.
From Verif.Proof Require Import BlowfishProof BcryptProof.

(* C26, Blowfish: for every key and salt, decryption and encryption of a block undo each other *)
Theorem C26_blowfish key salt src : bytes key -> bytes salt -> bytes src -> length src = 8%nat ->
  let c := blowfish_init key salt in
  blowfish_decrypt c (blowfish_encrypt c src) = src /\ blowfish_encrypt c (blowfish_decrypt c src) = src.
Proof. exact (bf_roundtrip key salt src). Qed.
(* the published all-zero vector, 4EF997456198DD78 *)
(* the published vectors are evaluated at every build; too slow for coqchk, which has no virtual machine *)
Succeed Definition C26_blowfish_vector : blowfish_encrypt (blowfish_init (repeat 0 8) []) (repeat 0 8) = [0x4e; 0xf9; 0x97; 0x45; 0x61; 0x98; 0xdd; 0x78] := ltac:(vm_compute; reflexivity).


(* C44: a record parses back to the fields it was made of *)
Theorem C44_decode_encode minor rounds salt hash : minor = 97 \/ minor = 98 -> 4 <= rounds <= 31 ->
  bytes salt -> length salt = 16%nat -> bytes hash -> length hash = 23%nat ->
  exists rec, bcrypt_encode minor rounds salt hash = Ok rec /\ bcrypt_decode rec = Ok (minor, rounds, salt, hash).
Proof. exact (decode_encode minor rounds salt hash). Qed.
Example C44_decode_encode_ex : bind (bcrypt_encode 97 12 (zseq 200 16) (zseq 7 23)) bcrypt_decode = Ok (97, 12, zseq 200 16, zseq 7 23).
Proof. vm_compute. reflexivity. Qed.

(* C44: generation succeeds for every password, salt and cost; a password is accepted exactly when it derives the same 23 bytes *)
Theorem C44_verify_generate p salt r m : m = 97 \/ m = 98 -> 4 <= r <= 31 -> bytes salt -> length salt = 16%nat ->
  exists rec h, bcrypt_generate p salt r m = Ok rec /\ bcrypt_derive p salt r m = Ok h /\ bcrypt_decode rec = Ok (m, r, salt, h) /\
    bcrypt_verify p rec = Ok true /\
    forall q, exists h', bcrypt_derive q salt r m = Ok h' /\ (bcrypt_verify q rec = Ok true <-> h' = h) /\ (bcrypt_verify q rec = Ok false <-> h' <> h).
Proof.
  intros Hm Hr Hs Ls. destruct (verify_generate p salt r m Hm Hr Hs Ls) as (rec & h & E1 & E2 & E3 & V). exists rec, h. repeat (split; [assumption|]). split.
  - destruct (V p) as (h' & E & ->). assert (h' = h) as -> by congruence. destruct (list_eq_dec Z.eq_dec h h); congruence.
  - intros q. destruct (V q) as (h' & E & ->). exists h'. split; [exact E|]. destruct (list_eq_dec Z.eq_dec h' h) as [->|N]; split; split; congruence.
Qed.
(* C44: parsing a NUL-terminated string never reads past the NUL *)
Theorem C44_no_overread str : bcrypt_decode (str ++ [0]) <> Abort.
Proof. apply decode_safe. apply in_app_iff. right. left. reflexivity. Qed.
(* "$2a$04$" followed by two characters: rejected at the NUL *)
Example C44_no_overread_ex : bcrypt_decode ([36; 50; 97; 36; 48; 52; 36; 65; 66] ++ [0]) = Fail /\ bcrypt_decode [36; 50; 97; 36; 48; 52; 36; 65; 66] = Abort.
Proof. split; vm_compute; reflexivity. Qed.

(* C44, finding: with minor 'a' a password of 255 bytes or more counts only through its first (length + 1) mod 256 bytes *)
Theorem C44_wraps p q salt r : let k := ((length p + 1) mod 256)%nat in
  (255 <= length p)%nat -> (255 <= length q)%nat -> (length q mod 256 = length p mod 256)%nat -> firstn k p = firstn k q ->
  bcrypt_generate p salt r 97 = bcrypt_generate q salt r 97.
Proof. exact (a_truncates p q salt r). Qed.
(* so a record made from one password accepts a different one: verification does not bind the password *)
Theorem C44_binding_refuted : exists p q, p <> q /\ length p = length q /\ forall salt r, bytes salt -> length salt = 16%nat -> 4 <= r <= 31 ->
  exists rec, bcrypt_generate p salt r 97 = Ok rec /\ bcrypt_verify q rec = Ok true.
Proof.
  exists (repeat 97 255), (repeat 98 255). split; [discriminate|]. split; [reflexivity|]. intros salt r Hs Ls Hr.
  destruct (C44_verify_generate (repeat 98 255) salt r 97 (or_introl eq_refl) Hr Hs Ls) as (rec & h & E1 & _ & _ & V & _). exists rec. split; [|exact V].
  rewrite <- E1. apply wrap_key; reflexivity.
Qed.
(* C44, finding: two different records decode to the same fields (unused low bits of the last character) *)
Theorem C44_record_unique_refuted : exists r1 r2 f, r1 <> r2 /\ bcrypt_decode r1 = Ok f /\ bcrypt_decode r2 = Ok f.
Proof.
  exists ([36; 50; 97; 36; 48; 52; 36] ++ repeat 46 53 ++ [0]), ([36; 50; 97; 36; 48; 52; 36] ++ repeat 46 52 ++ [47; 0]), (97, 4, repeat 0 16, repeat 0 23).
  split; [discriminate|]. split; vm_compute; reflexivity.
Qed.

(* C72: bcrypt_pbkdf terminates within 32 rounds and fills every byte of the key; byte d is byte d / stride of the
   block numbered d mod stride + 1, stride being the number of 32-byte blocks needed *)
Theorem C72_bcrypt_pbkdf fuel key0 pass salt rounds size : 0 < rounds -> (1 <= length pass)%nat -> (1 <= length salt)%nat -> Z.of_nat (length salt) <= 2 ^ 20 ->
  (1 <= size <= 1024)%nat -> length key0 = size -> (32 <= fuel)%nat ->
  let stride := ((size + 31) / 32)%nat in
  exists key, bcrypt_pbkdf fuel key0 pass salt rounds size = Some (Ok key) /\ length key = size /\
  forall d, (d < size)%nat -> rd key d = rd (bpb_block (sha512_of [pass]) salt rounds (S (d mod stride))) (d / stride).
Proof. exact (pbkdf_layout fuel key0 pass salt rounds size). Qed.
(* 33 bytes: two blocks, alternating *)
Example C72_ex : bpb_loop 32 (fun c => map (fun i => 100 * Z.of_nat c + i) (zseq 0 32)) 2 33 1 33 17 (repeat 0 33) =
  Some (firstn 33 (flat_map (fun i => [100 + i; 200 + i]) (zseq 0 17))).
Proof. vm_compute. reflexivity. Qed.

(* the axioms of every theorem above, listed at once *)
Definition BcryptProps_all := (@C26_blowfish, @C44_decode_encode, @C44_verify_generate, @C44_no_overread, @C44_wraps, @C44_binding_refuted,
  @C44_record_unique_refuted, @C72_bcrypt_pbkdf).
Print Assumptions BcryptProps_all.
