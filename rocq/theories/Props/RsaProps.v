(* C57 C58 C59 C60 C61 C62 C75 C76: RSA. *)
From Verif.Base Require Import Prelude.
From Coq Require Import Znumtheory.
From Verif.Model Require Import Encoding Bio Util Asn1 Hash NumTheory Rsa.
From Verif.Spec Require Import HashSpec KdfSpec RsaSpec.
From Verif.Proof Require Import RsaKey RsaCodec Cong RsaPrim RsaV15 RsaMgf RsaGen RsaScheme KdfProof.

(* a 512-bit key, public exponent 3 *)
Definition ex_n : Z := 9431555543806977536561347886269131981510568348450260706077843472255334145785100273912214904090350137008784038645690426634014660676156250211174033181807853.
Definition ex_p : Z := 104434256922541706533482429435043650891004333903264518309491885414327825178719.
Definition ex_q : Z := 90310936485164140709740681498431176461137209000506430986978725518649795124787.
Definition ex_d : Z := 1571925923967829589426891314378188663585094724741710117679640578709222357630817588119801199707184485649641760636389714181851814954476629933373509260250725.
Definition ex_key : rsa_priv := MkPriv ex_n 3 ex_d ex_p ex_q (ex_d mod (ex_p - 1)) (ex_d mod (ex_q - 1)) 68855624509230691374821677640826014798274227623490316085204629581484027797413.
(* a toy hash of two bytes *)
Definition toyH (x : list Z) : list Z := be_bytes 2 (fold_left (fun a b => (a * 257 + b + 1) mod 65536) x 0).
Lemma toyH_ok x : bytes x -> length (toyH x) = 2%nat /\ bytes (toyH x). Proof. intros _. split; [apply be_bytes_length|apply be_bytes_bytes]. Qed.
Definition ex_pub : list Z := match rsa_pub_export (MkPub ex_n 3) with Some b => b | None => [] end.

(* ---- C57 ---- *)
(* the key check accepts exactly the keys of RFC 8017 within the size limits (the primality of p and q is not checked) *)
Theorem C57_key_check n e d p q dp dq qi : rsa_priv_verify (MkPriv n e d p q dp dq qi) = true <-> valid_priv n e d p q dp dq qi.
Proof. apply (priv_verify_spec (MkPriv n e d p q dp dq qi)). Qed.
Theorem C57_pub_check n e : rsa_pub_verify (MkPub n e) = true <-> valid_pub n e.
Proof. apply pub_verify_spec. Qed.
(* whatever the key and the randomness, what is released is an e-th root of the input *)
Theorem C57_no_faulty_result k msg draws out : 1 < kn k -> 0 <= ke k -> bytes msg -> rsa_priv_decrypt k msg true draws = Ok out ->
  (be_val out ^ ke k) mod kn k = be_val msg /\ length out = klen_of (kn k) /\ bytes out /\ be_val out < kn k.
Proof. apply decrypt_fault_safe. Qed.
(* with prime factors the operation never refuses, and is exponentiation by d, with or without CRT *)
Theorem C57_private_op k msg crt draws : rsa_priv_verify k = true -> prime (kp k) -> prime (kq k) -> bytes msg -> be_val msg < kn k ->
  (exists s, In s draws /\ Z.gcd s (kn k) = 1) ->
  rsa_priv_decrypt k msg crt draws = Ok (be_bytes (klen_of (kn k)) ((be_val msg ^ kd k) mod kn k)).
Proof. intros V. apply decrypt_correct. apply priv_verify_spec. exact V. Qed.
(* and inverts the public one *)
Theorem C57_inverts_encryption k em c crt draws : rsa_priv_verify k = true -> prime (kp k) -> prime (kq k) -> (exists s, In s draws /\ Z.gcd s (kn k) = 1) ->
  bytes em -> length em = klen_of (kn k) -> rsa_pub_encrypt (MkPub (kn k) (ke k)) em = Ok c -> rsa_priv_decrypt k c crt draws = Ok em.
Proof. intros V Pp Pq D B L E. apply (decrypt_of_encrypt k em c crt draws (proj1 (priv_verify_spec k) V) Pp Pq D B L E). Qed.
Theorem C57_encrypt_of_decrypt k msg draws out : rsa_priv_verify k = true -> bytes msg -> length msg = klen_of (kn k) -> rsa_priv_decrypt k msg true draws = Ok out ->
  rsa_pub_encrypt (MkPub (kn k) (ke k)) out = Ok msg.
Proof.
  intros V B L E. destruct (decrypt_encrypt k msg draws out (proj1 (priv_verify_spec k) V) B E) as (E1 & _). rewrite E1, <- L, be_bytes_be_val by exact B. reflexivity.
Qed.
Example C57_key_check_ex : rsa_priv_verify ex_key = true /\ rsa_priv_verify (MkPriv ex_n 3 ex_d ex_p ex_q (ex_d mod (ex_p - 1)) (ex_d mod (ex_q - 1)) 12345) = false. Proof. vm_compute. split; reflexivity. Qed.
Example C57_op_ex : rsa_priv_decrypt (MkPriv 3233 17 413 61 53 53 49 38) [10; 230] true [61; 7] = Ok [0; 65] /\ rsa_priv_decrypt (MkPriv 3233 17 413 61 53 52 49 38) [10; 230] true [7] = Fail. Proof. vm_compute. split; reflexivity. Qed.

(* ---- C58 ---- *)
Theorem C58_verify_exact t msg sig key : bytes msg -> bytes sig ->
  (rsa_verify t msg sig key = true <->
   exists k, rsa_pub_import key = Some k /\ valid_pub (un k) (ue k) /\ length msg = hlen_of t msg /\ length sig = klen_of (un k) /\ be_val sig < un k /\
     emsa_v15 (klen_of (un k)) (get_digest_info t ++ msg) (be_bytes (klen_of (un k)) ((be_val sig ^ ue k) mod un k))).
Proof. apply verify_iff. Qed.
Theorem C58_encoding_unique k T em em' : emsa_v15 k T em -> emsa_v15 k T em' -> em = em'.
Proof.
  intros (PS & -> & F & _ & L) (PS' & -> & F' & _ & L'). do 2 f_equal. rewrite <- L' in L. rewrite !app_length in L. assert (LP : length PS = length PS') by lia. clear - F F' LP.
  revert PS' F' LP. induction F as [|x PS Hx F IH]; intros [|y PS'] F' LP; try discriminate; [reflexivity|]. inversion F'. subst. f_equal. apply IH; [assumption|cbn [length] in LP; lia].
Qed.
Theorem C58_sign_verify t msg key draws sig pub : bytes msg -> rsa_sign t msg key draws = Ok sig -> rsa_pubkey_create key = Ok pub -> rsa_verify t msg sig pub = true.
Proof. apply sign_verify. Qed.
Theorem C58_sign_succeeds t msg key k draws : bytes msg -> rsa_priv_import key = Some k -> rsa_priv_verify k = true -> prime (kp k) -> prime (kq k) -> (exists s, In s draws /\ Z.gcd s (kn k) = 1) ->
  length msg = hlen_of t msg -> (length (get_digest_info t) + length msg + 11 <= klen_of (kn k))%nat -> exists sig, rsa_sign t msg key draws = Ok sig.
Proof. intros B I V. apply sign_ok; [exact B|]. split; [exact I|apply priv_verify_spec; exact V]. Qed.
(* the DigestInfo prefixes: DER with the registered object identifiers; None where the table has none *)
Definition digest_oid (id : hash_id) : option (list Z) :=
  match id with
  | BLAKE2B_160 => Some [1; 3; 6; 1; 4; 1; 1722; 12; 2; 1; 5] | BLAKE2B_256 => Some [1; 3; 6; 1; 4; 1; 1722; 12; 2; 1; 8]
  | BLAKE2B_384 => Some [1; 3; 6; 1; 4; 1; 1722; 12; 2; 1; 12] | BLAKE2B_512 => Some [1; 3; 6; 1; 4; 1; 1722; 12; 2; 1; 16]
  | BLAKE2S_128 => Some [1; 3; 6; 1; 4; 1; 1722; 12; 2; 2; 4] | BLAKE2S_160 => Some [1; 3; 6; 1; 4; 1; 1722; 12; 2; 2; 5]
  | BLAKE2S_224 => Some [1; 3; 6; 1; 4; 1; 1722; 12; 2; 2; 7] | BLAKE2S_256 => Some [1; 3; 6; 1; 4; 1; 1722; 12; 2; 2; 8]
  | GOST94 => Some [1; 2; 643; 2; 2; 9] | MD2 => Some [1; 2; 840; 113549; 2; 2] | MD4 => Some [1; 2; 840; 113549; 2; 4] | MD5 => Some [1; 2; 840; 113549; 2; 5]
  | RIPEMD160 => Some [1; 3; 36; 3; 2; 1] | SHA1 => Some [1; 3; 14; 3; 2; 26]
  | SHA224 => Some [2; 16; 840; 1; 101; 3; 4; 2; 4] | SHA256 => Some [2; 16; 840; 1; 101; 3; 4; 2; 1] | SHA384 => Some [2; 16; 840; 1; 101; 3; 4; 2; 2] | SHA512 => Some [2; 16; 840; 1; 101; 3; 4; 2; 3]
  | SHA3_224 => Some [2; 16; 840; 1; 101; 3; 4; 2; 7] | SHA3_256 => Some [2; 16; 840; 1; 101; 3; 4; 2; 8] | SHA3_384 => Some [2; 16; 840; 1; 101; 3; 4; 2; 9] | SHA3_512 => Some [2; 16; 840; 1; 101; 3; 4; 2; 10]
  | SHAKE128 => Some [2; 16; 840; 1; 101; 3; 4; 2; 11] | SHAKE256 => Some [2; 16; 840; 1; 101; 3; 4; 2; 12] | WHIRLPOOL => Some [1; 0; 10118; 3; 0; 55]
  | HASH160 | HASH256 | KECCAK224 | KECCAK256 | KECCAK384 | KECCAK512 | MD5SHA1 => None
  end.
Theorem C58_digest_info id : id <> GOST94 ->
  get_digest_info (Some id) = match digest_oid id with Some arcs => digest_prefix arcs (Z.of_nat (hash_output_size id)) | None => [] end.
Proof. intros N. destruct id; try contradiction; vm_compute; reflexivity. Qed.
(* the entry for GOST94 carries 1.2.643.2.2.20 (the signature algorithm GOST R 34.10-94), not the digest's 1.2.643.2.2.9 *)
Theorem C58_gost_oid_refuted : exists id arcs, digest_oid id = Some arcs /\ get_digest_info (Some id) <> digest_prefix arcs (Z.of_nat (hash_output_size id)) /\
  get_digest_info (Some id) = digest_prefix [1; 2; 643; 2; 2; 20] (Z.of_nat (hash_output_size id)).
Proof. exists GOST94, [1; 2; 643; 2; 2; 9]. split; [reflexivity|]. split; [vm_compute; discriminate|vm_compute; reflexivity]. Qed.
(* digests without a prefix are told apart by nothing but their size: a signature made for one verifies for another of the same size *)
Theorem C58_no_domain_separation_refuted : exists t t', t <> t' /\ forall msg sig key, rsa_verify (Some t) msg sig key = rsa_verify (Some t') msg sig key.
Proof. exists HASH256, KECCAK256. split; [discriminate|]. reflexivity. Qed.
Example C58_verify_ex : rsa_verify (Some SHA1) (map Z.of_nat (seq 0 20)) (be_bytes 64 1885625305568096351310776351657588904610114622973165218904905719225147222855054603173515059880615581664386008149228977237051698242100924059590309375794520) ex_pub = true /\ rsa_verify (Some RIPEMD160) (map Z.of_nat (seq 0 20)) (be_bytes 64 1885625305568096351310776351657588904610114622973165218904905719225147222855054603173515059880615581664386008149228977237051698242100924059590309375794520) ex_pub = false.
Proof. vm_compute. split; reflexivity. Qed.

(* ---- C59 ---- *)
Theorem C59_unpad_exact em : bytes em -> (11 <= length em)%nat -> Z.of_nat (length em) < 2 ^ 30 ->
  forall m, (let '(ok, off) := pkcs1v15_unpad em in ok =? 0 = false /\ m = skipn (Z.to_nat off) em) <-> eme_v15 em m.
Proof. apply unpad_spec. Qed.
Theorem C59_decrypt_sound key k msg out draws : rsa_priv_import key = Some k -> rsa_priv_verify k = true -> bytes msg -> rsa_decrypt msg key draws = Ok out ->
  exists em, bytes em /\ length em = klen_of (kn k) /\ length msg = klen_of (kn k) /\ eme_v15 em out /\ (be_val em ^ ke k) mod kn k = be_val msg.
Proof. intros I V. apply decrypt_sound. split; [exact I|apply priv_verify_spec; exact V]. Qed.
Theorem C59_encrypt_decrypt key pub k msg ps c draws : rsa_priv_import key = Some k -> prime (kp k) -> prime (kq k) -> (exists s, In s draws /\ Z.gcd s (kn k) = 1) -> rsa_pubkey_create key = Ok pub ->
  bytes msg -> bytes ps -> Forall (fun x => x <> 0) ps -> (length ps + length msg + 3 = klen_of (kn k))%nat ->
  rsa_encrypt msg pub ps = Ok c -> rsa_decrypt c key draws = Ok msg.
Proof.
  intros I Pp Pq D P. destruct (pubkey_create_spec key pub P) as (k' & [I' V] & _). assert (k' = k) by congruence. subst k'. apply encrypt_decrypt; try assumption. split; assumption.
Qed.
(* implicit rejection: the message when the padding is right and the length as asked, else the random value *)
Theorem C59_decrypt_key key k out msg draws r : rsa_priv_import key = Some k -> rsa_priv_verify k = true -> bytes out -> bytes msg -> rsa_decrypt_key out msg key draws = Ok r ->
  exists em, rsa_priv_decrypt k msg true draws = Ok em /\ (be_val em ^ ke k) mod kn k = be_val msg /\
    (forall m, eme_v15 em m -> length m = length out -> r = m) /\ ((forall m, eme_v15 em m -> length m <> length out) -> r = out).
Proof. intros I V. apply decrypt_key_spec. split; [exact I|apply priv_verify_spec; exact V]. Qed.
Example C59_unpad_ex : pkcs1v15_unpad [0; 2; 1; 2; 3; 4; 5; 6; 7; 8; 0; 9; 9] = (1, 11) /\ pkcs1v15_unpad [0; 2; 1; 2; 3; 4; 5; 6; 7; 0; 8; 9; 9] = (0, 0). Proof. vm_compute. split; reflexivity. Qed.

(* ---- C60: for every hash function of fixed output size ---- *)
Theorem C60_mgf1 H hlen out seed : (0 < hlen)%nat -> (forall x, bytes x -> length (H x) = hlen /\ bytes (H x)) -> bytes seed ->
  mgf1xor H hlen out seed = xorl out (mgf1 H hlen seed (length out)).
Proof. intros P O. apply mgf1xor_spec; assumption. Qed.
Theorem C60_encode H hlen klen label msg seed em : (0 < hlen)%nat -> (forall x, bytes x -> length (H x) = hlen /\ bytes (H x)) ->
  (2 * hlen + 2 + length msg <= klen)%nat -> bytes label -> bytes msg -> bytes seed -> length seed = hlen ->
  (em = oaep_encode H hlen klen label msg seed <-> eme_oaep H hlen klen label msg seed em).
Proof. intros P O. apply oaep_encode_spec; assumption. Qed.
Theorem C60_decode_exact H hlen em label msg : (0 < hlen)%nat -> (forall x, bytes x -> length (H x) = hlen /\ bytes (H x)) ->
  bytes em -> bytes label -> (2 * hlen + 2 <= length em)%nat -> Z.of_nat (length em) < 2 ^ 31 ->
  (oaep_decode H hlen em label = Some msg <-> bytes msg /\ exists seed, bytes seed /\ length seed = hlen /\ (2 * hlen + 2 + length msg <= length em)%nat /\ eme_oaep H hlen (length em) label msg seed em).
Proof.
  intros P O Be Bl L LB. rewrite (oaep_decode_iff H hlen P O) by assumption. split; intros (Bm & seed & Bs & Ls & L2 & E); (split; [exact Bm|]); exists seed; repeat (split; [assumption|]); apply (oaep_encode_spec H hlen P O); assumption.
Qed.
Theorem C60_roundtrip H hlen key pub k msg label seed c draws : (0 < hlen)%nat -> (forall x, bytes x -> length (H x) = hlen /\ bytes (H x)) ->
  rsa_priv_import key = Some k -> prime (kp k) -> prime (kq k) -> (exists s, In s draws /\ Z.gcd s (kn k) = 1) -> rsa_pubkey_create key = Ok pub ->
  bytes msg -> bytes label -> bytes seed -> length seed = hlen ->
  rsa_encrypt_oaep H hlen msg pub label seed = Ok c -> rsa_decrypt_oaep H hlen c key label draws = Ok msg.
Proof.
  intros P O I Pp Pq D C. destruct (pubkey_create_spec key pub C) as (k' & [I' V] & _). assert (k' = k) by congruence. subst k'. apply (oaep_roundtrip H hlen P O key pub k); try assumption. split; assumption.
Qed.
Theorem C60_sound H hlen key k msg label out draws : (0 < hlen)%nat -> (forall x, bytes x -> length (H x) = hlen /\ bytes (H x)) ->
  rsa_priv_import key = Some k -> rsa_priv_verify k = true -> bytes msg -> bytes label -> rsa_decrypt_oaep H hlen msg key label draws = Ok out ->
  exists em seed, bytes em /\ eme_oaep H hlen (klen_of (kn k)) label out seed em /\ (be_val em ^ ke k) mod kn k = be_val msg.
Proof. intros P O I V. apply oaep_sound; try assumption. split; [exact I|apply priv_verify_spec; exact V]. Qed.
(* the library's hash functions are such functions *)
Theorem C60_hashes id : (0 < hash_output_size id)%nat /\ forall x, bytes x -> length (KdfSpec.H id x) = hash_output_size id /\ bytes (KdfSpec.H id x).
Proof. split; [apply osize|]. intros x Hx. apply H_ok. exact Hx. Qed.
Example C60_oaep_ex : let em := oaep_encode toyH 2 12 [5; 5] [1; 2; 3] [9; 8] in length em = 12%nat /\ oaep_decode toyH 2 em [5; 5] = Some [1; 2; 3] /\ oaep_decode toyH 2 em [5; 6] = None /\
  oaep_decode toyH 2 (upd em 0 1) [5; 5] = None. Proof. vm_compute. repeat split; reflexivity. Qed.

(* ---- C61 ---- *)
Theorem C61_encode H hlen msg embits salt em : (0 < hlen)%nat -> (forall x, bytes x -> length (H x) = hlen /\ bytes (H x)) -> 0 < embits -> bytes msg -> bytes salt ->
  (pss_encode H hlen msg embits salt = Some em <-> length msg = hlen /\ emsa_pss H hlen msg embits salt em).
Proof. intros P O. apply pss_encode_spec; assumption. Qed.
(* accepted: exactly the encodings with some salt (length 0 meaning any), or with a salt of the length asked for *)
Theorem C61_pss_exact H hlen msg em embits slen : (0 < hlen)%nat -> (forall x, bytes x -> length (H x) = hlen /\ bytes (H x)) ->
  0 < embits -> bytes msg -> bytes em -> length em = Z.to_nat ((embits + 7) / 8) ->
  (pss_verify H hlen msg em embits slen = true <->
   (hlen + slen + 2 <= length em)%nat /\ exists salt, bytes salt /\ (slen = 0%nat \/ length salt = slen) /\ length msg = hlen /\ emsa_pss H hlen msg embits salt em).
Proof.
  intros P O Hb Bm Be Le. rewrite (pss_verify_iff H hlen P O) by assumption. rewrite <- Le. split; intros (L & salt & Bs & SL & E); (split; [exact L|]); exists salt; repeat (split; [assumption|]); apply (pss_encode_spec H hlen P O); assumption.
Qed.
Theorem C61_verify_pss_exact H hlen msg sig key salt_len : (0 < hlen)%nat -> (forall x, bytes x -> length (H x) = hlen /\ bytes (H x)) -> 0 <= salt_len -> bytes msg -> bytes sig ->
  (rsa_verify_pss H hlen msg sig key salt_len = true <->
   exists k, rsa_pub_import key = Some k /\ valid_pub (un k) (ue k) /\ length msg = hlen /\ length sig = klen_of (un k) /\ be_val sig < un k /\
     let embits := mpz_bitlen (un k) - 1 in
     (hlen + asked hlen salt_len + 2 <= Z.to_nat ((embits + 7) / 8))%nat /\
     exists salt em, bytes salt /\ bytes em /\ (salt_len = 0 \/ length salt = asked hlen salt_len) /\ emsa_pss H hlen msg embits salt em /\ (be_val sig ^ ue k) mod un k = be_val em).
Proof. intros P O. apply verify_pss_iff; assumption. Qed.
Theorem C61_sign_verify H hlen msg key salt_len salts draws sig pub : (0 < hlen)%nat -> (forall x, bytes x -> length (H x) = hlen /\ bytes (H x)) ->
  0 <= salt_len -> bytes msg -> (forall l, length (salts l) = l /\ bytes (salts l)) ->
  rsa_sign_pss H hlen msg key salt_len salts draws = Ok sig -> rsa_pubkey_create key = Ok pub -> rsa_verify_pss H hlen msg sig pub salt_len = true.
Proof. intros P O. apply sign_pss_verify; assumption. Qed.
(* an explicit salt length of 0 cannot be asked for: it means "any" *)
Theorem C61_zero_salt_is_auto_refuted : exists em salt, salt <> [] /\ pss_encode toyH 2 [7; 9] 63 salt = Some em /\ pss_verify toyH 2 [7; 9] em 63 0 = true.
Proof.
  exists (match pss_encode toyH 2 [7; 9] 63 [1; 2; 3] with Some e => e | None => [] end), [1; 2; 3]. split; [discriminate|]. vm_compute. split; reflexivity.
Qed.
Example C61_verify_ex : map (rsa_verify_pss toyH 2 [7; 9] (be_bytes 64 5473201534321413631798530498408392891064182011648852027232439563595196009152461389829723464201708962576608383850582560643197109972633267664245098895042236) ex_pub) [0; 2] = [true; false].
Proof. vm_compute. reflexivity. Qed.

(* ---- C62 ---- *)
Theorem C62_veil_unveil msg bits key draws v : bytes msg -> Forall (fun r => 0 <= r) draws -> rsa_veil msg bits key draws = Ok v ->
  be_val v < 2 ^ bits /\ Z.of_nat (length v) = (bits + 7) / 8 /\ rsa_unveil v bits key = Ok msg /\ rsa_unveil v 0 key = Ok msg.
Proof. apply veil_unveil. Qed.
Theorem C62_veil_succeeds msg bits key k draws : bytes msg -> rsa_pub_import key = Some k -> valid_pub (un k) (ue k) -> length msg = klen_of (un k) -> be_val msg < un k -> mpz_bitlen (un k) <= bits <= 16392 ->
  Forall (fun r => 0 <= r) draws -> (exists r, In r draws /\ be_val msg + r * un k < 2 ^ bits) -> exists v, rsa_veil msg bits key draws = Ok v.
Proof. apply veil_ok. Qed.
Example C62_veil_ex : match rsa_veil (be_bytes 64 12345) 520 ex_pub [1000; 200] with Ok v => rsa_unveil v 520 ex_pub = Ok (be_bytes 64 12345) /\ be_val v = 12345 + 200 * ex_n | _ => False end.
Proof. vm_compute. split; reflexivity. Qed.

(* ---- C76 ---- *)
Theorem C76_priv_roundtrip k : rsa_priv_verify k = true -> exists bs, rsa_priv_export k = Some bs /\ bytes bs /\ rsa_priv_import bs = Some k.
Proof. intros V. apply priv_roundtrip. apply valid_big. apply priv_verify_spec. exact V. Qed.
Theorem C76_priv_canonical data k : bytes data -> rsa_priv_import data = Some k -> rsa_priv_export k = Some data.
Proof. intros B I. apply (priv_canonical data k B I). Qed.
Theorem C76_pub_roundtrip n e : valid_pub n e -> exists bs, rsa_pub_export (MkPub n e) = Some bs /\ bytes bs /\ rsa_pub_import bs = Some (MkPub n e).
Proof.
  intros (N & E & _). apply pub_roundtrip; apply big_of.
  - split; [apply Z.le_trans with (2 ^ 511); [apply Z.pow_nonneg; clear; lia|apply N]|apply N].
  - split; [clear - E; lia|apply Z.lt_trans with (2 ^ 33); [apply E|apply Z.pow_lt_mono_r; clear; lia]].
Qed.
Theorem C76_pub_canonical data k : bytes data -> rsa_pub_import data = Some k -> rsa_pub_export k = Some data.
Proof. intros B I. apply (pub_import_big data k B I). Qed.
Theorem C76_dumb_roundtrip k rest : rsa_priv_verify k = true -> exists bs, rsa_priv_export_dumb k = Some bs /\ rsa_priv_import_dumb (bs ++ rest) = Some k.
Proof. intros V. apply priv_dumb_roundtrip. apply valid_big. apply priv_verify_spec. exact V. Qed.
(* recovered keys pass the check *)
Theorem C76_from_pqe p q e k : rsa_priv_set_pqe p q e = Some k -> rsa_priv_verify k = true /\ kn k = p * q /\ ke k = e.
Proof. intros E. destruct (set_pqe_valid p q e k E) as (V & E1 & E2 & _). split; [apply priv_verify_spec; exact V|split; assumption]. Qed.
Theorem C76_from_pqe_complete p q e : p <> q -> 3 <= p -> 3 <= q -> Z.odd p = true -> Z.odd q = true -> 3 <= e < 2 ^ 33 -> Z.odd e = true ->
  2 ^ 511 <= p * q < 2 ^ 16384 -> Z.gcd e (Z.lcm (p - 1) (q - 1)) = 1 -> Z.gcd p q = 1 -> exists k, rsa_priv_set_pqe p q e = Some k.
Proof. apply set_pqe_complete. Qed.
Theorem C76_from_pqd p q d k : rsa_priv_set_pqd p q d = Some k ->
  rsa_priv_verify k = true /\ kn k = p * q /\ (Z.lcm (p - 1) (q - 1) | ke k * d - 1) /\ (Z.lcm (p - 1) (q - 1) | kd k - d).
Proof. intros E. destruct (set_pqd_valid p q d k E) as (V & E1 & E2 & E3 & _). split; [apply priv_verify_spec; exact V|repeat split; assumption]. Qed.
Theorem C76_from_ned n e d draws k : rsa_priv_set_ned n e d draws = Some k -> rsa_priv_verify k = true /\ kn k = n /\ ke k = e.
Proof. intros E. destruct (set_ned_valid n e d draws k E) as (V & E1 & E2). split; [apply priv_verify_spec; exact V|split; assumption]. Qed.
Theorem C76_import_valid key draws out : rsa_privkey_import key draws = Ok out -> exists k, rsa_priv_import out = Some k /\ rsa_priv_verify k = true.
Proof.
  unfold rsa_privkey_import. destruct (rsa_priv_import_dumb key) as [k|]; [|discriminate].
  destruct (if rsa_priv_verify k then Some k else _) as [k'|] eqn:E; [|discriminate].
  assert (V : valid k').
  { destruct (rsa_priv_verify k) eqn:V; [apply some_inj in E; subst k'; apply priv_verify_spec; exact V|]. destruct (_ && _); [destruct (0 <? ke k)|].
    - apply (set_pqe_valid _ _ _ _ E). - apply (set_pqd_valid _ _ _ _ E). - apply (set_ned_valid _ _ _ _ _ E). }
  destruct (priv_roundtrip k' (valid_big k' V)) as (bs & E1 & _ & E2). rewrite E1. intros X. apply ok_inj in X. subst out. exists k'. split; [exact E2|apply priv_verify_spec; exact V].
Qed.
(* a generated key passes the check, has exactly the bits asked for, and its factors are a drawn pair *)
Theorem C76_generate bits exp pairs k : Forall (fun pq => 3 <= fst pq /\ Z.odd (fst pq) = true /\ 3 <= snd pq /\ Z.odd (snd pq) = true) pairs ->
  rsa_priv_generate bits exp pairs = Ok k -> rsa_priv_verify k = true /\ 2 ^ (bits - 1) <= kn k < 2 ^ bits /\ ke k = exp /\ exists p q, In (p, q) pairs /\ kp k = Z.max p q /\ kq k = Z.min p q.
Proof.
  intros F E. destruct (generate_valid bits exp pairs k F E) as (V & B & X & Y). split; [apply priv_verify_spec; exact V|]. split; [|split; assumption].
  assert (Hb : 512 <= bits). { rewrite <- B. apply Z.ltb_ge. pose proof (valid_pub_of k V) as (Vn & _). rewrite bitlen_lt; [|clear; lia|]. - apply Z.ltb_ge. apply Vn. - apply Z.le_trans with (2 ^ 511); [apply Z.pow_nonneg; clear; lia|apply Vn]. }
  destruct (priv_facts k V) as (N1 & _). assert (N0 : 0 <= kn k) by (clear - N1; lia). clear - B Hb N0. split.
  - apply Z.ltb_ge. rewrite <- bitlen_lt by (clear - Hb N0; lia). apply Z.ltb_ge. rewrite B. apply Z.le_refl.
  - apply Z.ltb_lt. rewrite <- bitlen_le by (clear - Hb N0; lia). apply Z.leb_le. rewrite B. apply Z.le_refl.
Qed.
Theorem C76_generate_no_assert bits exp p q : 512 <= bits <= 16384 -> 3 <= exp < 2 ^ 33 -> Z.odd exp = true -> prime p -> prime q -> 3 <= p -> Z.odd p = true -> 3 <= q -> Z.odd q = true ->
  rsa_generate_step bits exp p q <> Some Abort.
Proof. apply generate_no_abort. Qed.
Example C76_ex : rsa_priv_set_pqe ex_q ex_p 3 = Some ex_key /\ (match rsa_priv_export ex_key with Some b => rsa_priv_import b = Some ex_key /\ (200 < length b)%nat | None => False end) /\ rsa_priv_set_pqd ex_p ex_q ex_d = Some ex_key.
Proof. vm_compute. repeat split; try reflexivity. repeat constructor. Qed.

(* ---- C75 ---- *)
(* rebuilding a key from (n, e, d): the loop stops one squaring early, so when e d = 3 (mod 4) it fails whatever is drawn *)
Theorem C75_recover_impossible n e d draws : (e * d) mod 4 = 3 -> rsa_priv_set_ned n e d draws = None.
Proof. apply set_ned_fails. Qed.
Theorem C75_recover_refuted : exists k, rsa_priv_verify k = true /\ forall draws, rsa_priv_set_ned (kn k) (ke k) (kd k) draws = None.
Proof. exists ex_key. split; [vm_compute; reflexivity|]. intros draws. apply set_ned_fails. vm_compute. reflexivity. Qed.

(* the axioms of every theorem above, listed at once *)
Definition RsaProps_all := (@C57_key_check, @C57_pub_check, @C57_no_faulty_result, @C57_private_op, @C57_inverts_encryption, @C57_encrypt_of_decrypt,
  @C58_verify_exact, @C58_encoding_unique, @C58_sign_verify, @C58_sign_succeeds, @C58_digest_info, @C58_gost_oid_refuted, @C58_no_domain_separation_refuted,
  @C59_unpad_exact, @C59_decrypt_sound, @C59_encrypt_decrypt, @C59_decrypt_key, @C60_mgf1, @C60_encode, @C60_decode_exact, @C60_roundtrip, @C60_sound,
  @C60_hashes, @C61_encode, @C61_pss_exact, @C61_verify_pss_exact, @C61_sign_verify, @C61_zero_salt_is_auto_refuted, @C62_veil_unveil, @C62_veil_succeeds,
  @C76_priv_roundtrip, @C76_priv_canonical, @C76_pub_roundtrip, @C76_pub_canonical, @C76_dumb_roundtrip, @C76_from_pqe, @C76_from_pqe_complete, @C76_from_pqd,
  @C76_from_ned, @C76_import_valid, @C76_generate, @C76_generate_no_assert, @C75_recover_impossible, @C75_recover_refuted).
Print Assumptions RsaProps_all.
