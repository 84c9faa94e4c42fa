(* C89: the cipher_t dispatch, and cipher streams over the ciphers that it gives *)
From Verif.Base Require Import Prelude.
From Verif.Model Require Import Encoding Bio Hash Blowfish Ciphers64 Ciphers128 Modes CipherStream CipherTable.
From Verif.Spec Require Import ModesSpec StreamApiSpec.
From Verif.Proof Require Import BioProof UtilProof BufCrypt BlockModes StreamApi StreamBlock StreamOpen.
From Verif.Model Require Aes.
From Verif.Spec Require AesSpec.
From Verif.Props Require AesProps BcryptProps CipherProps ModesProps.
From Verif.Props Require Import StreamApiProps.
#[local] Ltac Zify.zify_post_hook ::= idtac.

(* words written out are octets *)
Definition blk (n : nat) (f : list Z -> list Z) : Prop := forall src, length (f src) = n /\ bytes (f src).
Lemma w16le_ok x : length (write16le x) = 2%nat /\ bytes (write16le x).
Proof. split; [reflexivity|]. unfold write16le. repeat (constructor; [apply Z.mod_pos_bound; reflexivity|]). constructor. Qed.
Lemma w16be_ok x : length (write16be x) = 2%nat /\ bytes (write16be x).
Proof. split; [reflexivity|]. unfold write16be. repeat (constructor; [apply Z.mod_pos_bound; reflexivity|]). constructor. Qed.
Lemma w32be_ok x : length (write32be x) = 4%nat /\ bytes (write32be x).
Proof. split; [reflexivity|apply write32be_bytes]. Qed.
Lemma w32le_ok x : length (write32le x) = 4%nat /\ bytes (write32le x).
Proof. split; [reflexivity|apply write32le_bytes]. Qed.
Lemma app_ok a b (x y : list Z) : length x = a /\ bytes x -> length y = b /\ bytes y -> length (x ++ y) = (a + b)%nat /\ bytes (x ++ y).
Proof. intros [<- A] [<- B]. split; [apply app_length|apply Forall_app; auto]. Qed.
Lemma st4h_ok wr x : (forall v, length (wr v) = 2%nat /\ bytes (wr v)) -> length (st4h wr x) = 8%nat /\ bytes (st4h wr x).
Proof. intros H. destruct x as [[[a b] c] d]. exact (app_ok 2 6 _ _ (H a) (app_ok 2 4 _ _ (H b) (app_ok 2 2 _ _ (H c) (H d)))). Qed.
Lemma st4_ok wr x : (forall v, length (wr v) = 4%nat /\ bytes (wr v)) -> length (st4 wr x) = 16%nat /\ bytes (st4 wr x).
Proof. intros H. destruct x as [[[a b] c] d]. exact (app_ok 4 12 _ _ (H a) (app_ok 4 8 _ _ (H b) (app_ok 4 4 _ _ (H c) (H d)))). Qed.
Lemma st2_ok x : length (st2 x) = 8%nat /\ bytes (st2 x).
Proof. exact (app_ok 4 4 _ _ (w32be_ok _) (w32be_ok _)). Qed.
Lemma aes_blk c : blk 16 (Aes.aes_encrypt c) /\ blk 16 (Aes.aes_decrypt c).
Proof.
  split; intros src; [unfold Aes.aes_encrypt; destruct (Aes.enc_loop _ _ _ _) as [[[[a b] d] e] o]|unfold Aes.aes_decrypt; destruct (Aes.dec_loop _ _ _ _) as [[[[a b] d] e] o]];
    exact (app_ok 4 12 _ _ (w32be_ok _) (app_ok 4 8 _ _ (w32be_ok _) (app_ok 4 4 _ _ (w32be_ok _) (w32be_ok _)))).
Qed.
Lemma arc2_blk c : blk 8 (arc2_encrypt c) /\ blk 8 (arc2_decrypt c).
Proof. split; intros src; apply st4h_ok, w16le_ok. Qed.
Lemma bf_blk c : blk 8 (blowfish_encrypt c) /\ blk 8 (blowfish_decrypt c).
Proof. split; intros src; unfold blowfish_encrypt, blowfish_decrypt, bf_crypt; [destruct (blowfish_encipher _ _)|destruct (blowfish_decipher _ _)]; exact (app_ok 4 4 _ _ (w32be_ok _) (w32be_ok _)). Qed.
Lemma camellia_blk c : blk 16 (camellia_encrypt c) /\ blk 16 (camellia_decrypt c).
Proof. split; intros src; unfold camellia_encrypt, camellia_decrypt; destruct (_ =? _); apply st4_ok, w32be_ok. Qed.
Lemma cast5_blk c : blk 8 (cast5_encrypt c) /\ blk 8 (cast5_decrypt c).
Proof. split; intros src; unfold cast5_encrypt, cast5_decrypt; destruct (fold_left _ _ _); apply st2_ok. Qed.
Lemma des_blk c : blk 8 (des_encrypt c) /\ blk 8 (des_decrypt c).
Proof. split; intros src; apply st2_ok. Qed.
Lemma ede_blk c : blk 8 (des_ede_encrypt c) /\ blk 8 (des_ede_decrypt c).
Proof. split; intros src; apply st2_ok. Qed.
Lemma ede3_blk c : blk 8 (des_ede3_encrypt c) /\ blk 8 (des_ede3_decrypt c).
Proof. destruct c as [[x y] z]. split; intros src; apply st2_ok. Qed.
Lemma idea_blk c : blk 8 (idea_encrypt c) /\ blk 8 (idea_decrypt c).
Proof. split; intros src; apply st4h_ok, w16be_ok. Qed.
Lemma serpent_blk c : blk 16 (serpent_encrypt c) /\ blk 16 (serpent_decrypt c).
Proof. split; intros src; apply st4_ok, w32le_ok. Qed.
Lemma twofish_blk c : blk 16 (twofish_encrypt c) /\ blk 16 (twofish_decrypt c).
Proof. split; intros src; apply st4_ok, w32le_ok. Qed.
Lemma mk_bc n E D : n = 8%nat \/ n = 16%nat -> blk n E /\ blk n D -> (forall src, bytes src -> length src = n -> D (E src) = src /\ E (D src) = src) -> block_cipher n E D.
Proof. intros N [A B] R. constructor; [exact N|intros b _; apply A|intros b _; apply B|intros b _ _; apply A|intros b _ _; apply B|intros b L H; apply (R b H L)|intros b L H; apply (R b H L)]. Qed.

(* the lengths of the keys of each cipher *)
Definition key_lengths (type : cipher_id) (n : nat) : Prop :=
  match type with
  | ARC2 | ARC2_GUTMANN => (1 <= n <= 128)%nat
  | BLOWFISH => (1 <= n <= 72)%nat
  | ARC2_40 => n = 5%nat
  | ARC2_64 | DES => n = 8%nat
  | AES128 | ARC2_128 | ARC2_128_GUTMANN | CAMELLIA128 | CAST5 | DES_EDE | IDEA | SERPENT128 | TWOFISH128 => n = 16%nat
  | AES192 | CAMELLIA192 | DES_EDE3 | SERPENT192 | TWOFISH192 => n = 24%nat
  | AES256 | CAMELLIA256 | SERPENT256 | TWOFISH256 => n = 32%nat
  end.
Lemma arc2_some key ekb : (1 <= length key <= 128)%nat -> ekb <= 1024 -> exists c, arc2_init key ekb = Ok c.
Proof.
  intros L E. unfold arc2_init. destruct (Nat.leb_spec 1 (length key)); [|lia]. destruct (Nat.leb_spec (length key) 128); [|lia]. destruct (Z.leb_spec ekb 1024); [|lia]. cbn [andb negb]. eexists. reflexivity.
Qed.
Lemma camellia_some bits key : bits = 128 \/ bits = 192 \/ bits = 256 -> exists c, camellia_init bits key = Ok c.
Proof. intros [->|[->| ->]]; eexists; reflexivity. Qed.
Lemma serpent_some bits key : bits = 128 \/ bits = 192 \/ bits = 256 -> exists c, serpent_init bits key = Ok c.
Proof. intros [->|[->| ->]]; eexists; reflexivity. Qed.
Lemma twofish_some bits key : bits = 128 \/ bits = 192 \/ bits = 256 -> exists c, twofish_init bits key = Ok c.
Proof. intros [->|[->| ->]]; eexists; reflexivity. Qed.
Lemma aes_some bits key : bits = 128 \/ bits = 192 \/ bits = 256 -> exists c, Aes.aes_init bits key = Some c.
Proof. intros H. destruct (Aes.aes_init bits key) as [c|] eqn:E; [exists c; reflexivity|]. exfalso. apply (proj2 (AesProps.C26_aes_sizes bits key)); [|exact E]. destruct H as [->|[->| ->]]; [exists 4%nat|exists 6%nat|exists 8%nat]; unfold AesProps.aes_bits; auto. Qed.

(* every cipher accepts exactly the keys of its lengths, and no setup aborts *)
Theorem C89_keys : forall type key, ((exists t, cipher_init type key = Ok t) <-> key_lengths type (length key)) /\ cipher_init type key <> Abort /\
  key_lengths type (cipher_key_size type).
Proof.
  intros type key. assert (K : key_lengths type (cipher_key_size type)) by (destruct type; cbn; lia).
  enough (((exists t, cipher_init type key = Ok t) /\ key_lengths type (length key)) \/ (cipher_init type key = Fail /\ ~ key_lengths type (length key))) as [[[t E] L]|[E L]].
  { repeat split; auto; [exists t; exact E|rewrite E; discriminate]. }
  { repeat split; auto; [intros [t Q]; rewrite E in Q; discriminate|contradiction|rewrite E; discriminate]. }
  clear K. unfold cipher_init. cbv zeta. destruct type; cbn [key_lengths];
    try (match goal with |- context [negb (length key =? ?k)%nat] => destruct (Nat.eqb_spec (length key) k) as [L|L]; cbn [negb]; [|right; split; [reflexivity|exact L]] end; left; (split; [|exact L]));
    try (eexists; reflexivity);
    try (match goal with |- context [Aes.aes_init ?b _] => destruct (aes_some b key) as [c ->]; [auto|]; eexists; reflexivity end);
    try (match goal with |- context [camellia_init ?b _] => destruct (camellia_some b key) as [c ->]; [auto|]; eexists; reflexivity end);
    try (match goal with |- context [serpent_init ?b _] => destruct (serpent_some b key) as [c ->]; [auto|]; eexists; reflexivity end);
    try (match goal with |- context [twofish_init ?b _] => destruct (twofish_some b key) as [c ->]; [auto|]; eexists; reflexivity end);
    try (match goal with |- context [arc2_init _ ?e] => destruct (arc2_some key e) as [c ->]; [lia|lia|]; eexists; reflexivity end).
  all: destruct (Nat.ltb_spec (length key) 1); [right; split; [reflexivity|lia]|]; cbn [orb].
  all: match goal with |- context [(?m <? length _)%nat] => destruct (Nat.ltb_spec m (length key)) end; [right; split; [reflexivity|lia]|left; split; [|lia]].
  all: try (eexists; reflexivity).
  all: match goal with |- context [arc2_init _ ?e] => destruct (arc2_some key e) as [c ->]; [lia|lia|]; eexists; reflexivity end.
Qed.
Lemma dispatch type key t : bytes key -> cipher_init type key = Ok t -> t_size t = cipher_block_size type /\
  exists E D, (forall src, cipher_encrypt t src = Ok (E src)) /\ (forall src, cipher_decrypt t src = Ok (D src)) /\ block_cipher (cipher_block_size type) E D.
Proof.
  intros Hk H. destruct (C89_keys type key) as ([KL _] & _). specialize (KL (ex_intro _ t H)).
  assert (AE : forall bits nk c, AesProps.aes_bits bits nk -> length key = (4 * nk)%nat -> Aes.aes_init bits key = Some c -> block_cipher 16 (Aes.aes_encrypt c) (Aes.aes_decrypt c)).
  { intros bits nk c A L I. apply mk_bc; [auto|apply aes_blk|]. destruct (AesProps.C26_aes bits nk key A Hk L) as (c' & I' & R). assert (c' = c) as -> by congruence. exact R. }
  assert (AR : forall ekb c, arc2_init key ekb = Ok c -> block_cipher 8 (arc2_encrypt c) (arc2_decrypt c)).
  { intros ekb c I. apply mk_bc; [auto|apply arc2_blk|]. intros src A B. exact (CipherProps.C26_arc2_block key ekb c src I A B). }
  assert (CA : forall bits c, camellia_init bits key = Ok c -> bits = 128 \/ bits = 192 \/ bits = 256 -> block_cipher 16 (camellia_encrypt c) (camellia_decrypt c)).
  { intros bits c I Hb. apply mk_bc; [auto|apply camellia_blk|]. intros src A B. destruct (CipherProps.C26_camellia bits key src Hk A B Hb) as (c' & I' & R). assert (c' = c) as -> by congruence. exact R. }
  assert (SE : forall bits c, serpent_init bits key = Ok c -> bits = 128 \/ bits = 192 \/ bits = 256 -> block_cipher 16 (serpent_encrypt c) (serpent_decrypt c)).
  { intros bits c I Hb. apply mk_bc; [auto|apply serpent_blk|]. intros src A B. destruct (CipherProps.C26_serpent bits key src Hk A B Hb) as (c' & I' & R). assert (c' = c) as -> by congruence. exact R. }
  assert (TW : forall bits c, twofish_init bits key = Ok c -> bits = 128 \/ bits = 192 \/ bits = 256 -> block_cipher 16 (twofish_encrypt c) (twofish_decrypt c)).
  { intros bits c I Hb. apply mk_bc; [auto|apply twofish_blk|]. intros src A B. destruct (CipherProps.C26_twofish bits key src A B Hb) as (c' & I' & R). assert (c' = c) as -> by congruence. exact R. }
  assert (OI : forall x y : cipher_t, Ok x = Ok y -> x = y) by (intros x y Q; congruence).
  unfold cipher_init in H. cbv zeta in H. destruct type; cbn [key_lengths] in KL;
    try (rewrite KL in H; cbn [Nat.eqb negb] in H);
    try (destruct (_ || _) in H; [discriminate H|]);
    try (match type of H with context [Aes.aes_init ?b _] => destruct (Aes.aes_init b key) as [c|] eqn:I; [|discriminate H] end);
    try (match type of H with context [arc2_init _ ?e] => destruct (arc2_init key e) as [c| |] eqn:I; try discriminate H; cbn [bind] in H end);
    try (match type of H with context [camellia_init ?e _] => destruct (camellia_init e key) as [c| |] eqn:I; try discriminate H; cbn [bind] in H end);
    try (match type of H with context [serpent_init ?e _] => destruct (serpent_init e key) as [c| |] eqn:I; try discriminate H; cbn [bind] in H end);
    try (match type of H with context [twofish_init ?e _] => destruct (twofish_init e key) as [c| |] eqn:I; try discriminate H; cbn [bind] in H end);
    apply OI in H; subst t;
    (split; [reflexivity|]); eexists; eexists; (split; [intros src; cbn [cipher_encrypt t_type t_ctx]; reflexivity|]); (split; [intros src; cbn [cipher_decrypt t_type t_ctx]; reflexivity|]); cbn [cipher_block_size].
  all: try (match goal with |- block_cipher _ (arc2_encrypt _) _ => eapply AR; exact I | |- block_cipher _ (camellia_encrypt _) _ => eapply CA; [exact I|auto]
    | |- block_cipher _ (serpent_encrypt _) _ => eapply SE; [exact I|auto] | |- block_cipher _ (twofish_encrypt _) _ => eapply TW; [exact I|auto] end).
  1-3: eapply AE; [|rewrite KL|exact I]; [unfold AesProps.aes_bits; eauto 6|reflexivity].
  - apply mk_bc; [auto|apply bf_blk|]. intros src A B. exact (BcryptProps.C26_blowfish key [] src Hk (Forall_nil _) A B).
  - apply mk_bc; [auto|apply cast5_blk|]. intros src A B. exact (CipherProps.C26_cast5 key src A B).
  - apply mk_bc; [auto|apply des_blk|]. intros src A B. exact (CipherProps.C26_des key src A B).
  - apply mk_bc; [auto|apply ede_blk|]. intros src A B. exact (CipherProps.C26_des_ede key src A B).
  - apply mk_bc; [auto|apply ede3_blk|]. intros src A B. exact (CipherProps.C26_des_ede3 key src A B).
  - apply mk_bc; [auto|apply idea_blk|]. intros src A B. exact (CipherProps.C26_idea key src Hk A B).
Qed.
(* under every key, the dispatch never reaches an abort, a block is sent to a block, and the two directions undo each other *)
Theorem C89_blocks : forall type key t src, bytes key -> cipher_init type key = Ok t -> bytes src -> length src = cipher_block_size type ->
  exists c m, cipher_encrypt t src = Ok c /\ bytes c /\ length c = length src /\ cipher_decrypt t c = Ok src /\
    cipher_decrypt t src = Ok m /\ bytes m /\ length m = length src /\ cipher_encrypt t m = Ok src.
Proof.
  intros type key t src Hk H Hs L. destruct (dispatch type key t Hk H) as (_ & E & D & HE & HD & B). exists (E src), (D src). rewrite L.
  rewrite (HE src), (HD src), (HE (D src)), (HD (E src)), (bc_de _ _ _ B src L Hs), (bc_ed _ _ _ B src L Hs).
  repeat split; [exact (bc_ebytes _ _ _ B src L Hs)|exact (bc_elen _ _ _ B src L)|exact (bc_dbytes _ _ _ B src L Hs)|exact (bc_dlen _ _ _ B src L)].
Qed.
Lemma octets_bytes key : octets key = true <-> bytes key.
Proof.
  unfold octets, bytes. rewrite forallb_forall, Forall_forall. split; intros H x I; specialize (H x I); [apply andb_prop in H; destruct H as [A B]; apply Z.leb_le in A; apply Z.ltb_lt in B; split; assumption|].
  destruct H as [A B]. apply andb_true_intro. split; [apply Z.leb_le; exact A|apply Z.ltb_lt; exact B].
Qed.
(* the ciphers of the table satisfy what the theorems about modes and streams (C28-C36, C88) assume *)
Theorem C89_family : forall type, family (cipher_of type) (cipher_block_size type).
Proof.
  intros type k c H. unfold cipher_of in H. destruct (octets k) eqn:O; [|discriminate]. apply octets_bytes in O. cbn [negb] in H. destruct (cipher_init type k) as [t| |] eqn:I; try discriminate. injection H as <-.
  destruct (dispatch type k t O I) as (S & E & D & HE & HD & B). unfold BlockModes.cipher_ok. cbn [c_size c_enc c_dec]. rewrite S. split; [|reflexivity].
  constructor; intros; rewrite ?HE, ?HD; try apply B; try rewrite HE; try rewrite HD; try apply B; auto.
Qed.
Lemma opened_keyed ci mode enc pad key iv s : opened ci mode enc pad key iv = Some s -> exists c c2, keyed ci mode key = Some (c, c2).
Proof.
  unfold opened. destruct (cipher_stream_init ci mode enc key iv) as [s0|] eqn:I; [intros _|discriminate]. unfold cipher_stream_init in I. unfold keyed. destruct mode;
    try (destruct (ci key) as [c|]; [exists c, c; reflexivity|discriminate]).
  destruct (_ || _); [discriminate|]. destruct (negb _); [discriminate|]. destruct (ci (firstn _ _)) as [c|]; [|discriminate]. destruct (cipher_mode_init _ _ _) as [[]|]; try discriminate. destruct (ci (skipn _ _)) as [c2|]; [|discriminate]. exists c, c2. reflexivity.
Qed.
(* whatever cipher, mode and padding: what a stream encrypts, in any pieces, a stream decrypts to the message, in any pieces *)
Theorem C89_stream_roundtrip : forall type mode pad key iv se sd ms cs ct, is_aead mode = false -> bytes iv ->
  opened (cipher_of type) mode true pad key iv = Some se -> opened (cipher_of type) mode false pad key iv = Some sd ->
  Forall bytes ms -> run se ms = Ok ct -> concat cs = ct -> Forall bytes cs -> run sd cs = Ok (concat ms).
Proof.
  intros type mode pad key iv se sd ms cs ct Ha Hi He Hd Hm R C Hc. assert (Hcm : bytes (concat ms)) by (apply Forall_concat; auto). destruct (opened_keyed _ _ _ _ _ _ _ He) as (c & c2 & K).
  rewrite (C36_encrypt _ _ mode pad key iv se c c2 ms (C89_family type) Ha Hi He K Hm) in R. destruct (stream_spec _ _ _ _ _ _ _) as [x|] eqn:S; [|discriminate]. assert (x = ct) as -> by congruence.
  exact (C36_decrypt _ _ mode pad key iv sd c c2 (concat ms) ct cs (C89_family type) Ha Hi Hd K Hcm S C Hc).
Qed.
(* the AES entries are the ciphers of FIPS 197 *)
Theorem C89_aes : forall type key t src, (type = AES128 \/ type = AES192 \/ type = AES256) -> bytes key -> cipher_init type key = Ok t -> bytes src -> length src = 16%nat ->
  let nk := (length key / 4)%nat in let w := AesSpec.key_expansion nk (AesSpec.nr_of nk) key in
  cipher_encrypt t src = Ok (AesSpec.fips_cipher (AesSpec.nr_of nk) w src) /\ cipher_decrypt t src = Ok (AesSpec.fips_inv_cipher (AesSpec.nr_of nk) w src).
Proof.
  intros type key t src HT Hk H Hs L. destruct (C89_keys type key) as ([KL _] & _). specialize (KL (ex_intro _ t H)). assert (OI : forall x y : cipher_t, Ok x = Ok y -> x = y) by (intros x y Q; congruence).
  assert (G : forall bits nk, AesProps.aes_bits bits nk -> length key = (4 * nk)%nat -> exists c, Aes.aes_init bits key = Some c /\ Aes.aes_encrypt c src = AesSpec.fips_cipher (AesSpec.nr_of nk) (AesSpec.key_expansion nk (AesSpec.nr_of nk) key) src /\
    Aes.aes_decrypt c src = AesSpec.fips_inv_cipher (AesSpec.nr_of nk) (AesSpec.key_expansion nk (AesSpec.nr_of nk) key) src).
  { intros bits nk A B. destruct (AesProps.C26_aes_standard bits nk key A Hk B) as (c & I & R). exists c. split; [exact I|exact (R src Hs L)]. }
  unfold cipher_init in H. cbv zeta in H. destruct HT as [->|[->| ->]]; cbn [key_lengths] in KL; rewrite KL in *; cbn [Nat.eqb negb] in H.
  - destruct (G 128 4%nat) as (c & I & A & B); [unfold AesProps.aes_bits; auto|reflexivity|]. rewrite I in H. apply OI in H. subst t. change (16 / 4)%nat with 4%nat. cbv zeta. rewrite <- A, <- B. split; reflexivity.
  - destruct (G 192 6%nat) as (c & I & A & B); [unfold AesProps.aes_bits; auto|reflexivity|]. rewrite I in H. apply OI in H. subst t. change (24 / 4)%nat with 6%nat. cbv zeta. rewrite <- A, <- B. split; reflexivity.
  - destruct (G 256 8%nat) as (c & I & A & B); [unfold AesProps.aes_bits; auto|reflexivity|]. rewrite I in H. apply OI in H. subst t. change (32 / 4)%nat with 8%nat. cbv zeta. rewrite <- A, <- B. split; reflexivity.
Qed.
(* ARC2 limits the key to as many bits as it has, in the variants of one length as in the general one; Gutmann's variants do not limit it *)
Theorem C89_arc2_variants : forall key t,
  (forall type, In (type, length key) [(ARC2_40, 5%nat); (ARC2_64, 8%nat); (ARC2_128, 16%nat)] -> cipher_init type key = Ok t -> cipher_init ARC2 key = Ok (mkT ARC2 8 (t_ctx t))) /\
  (cipher_init ARC2_128_GUTMANN key = Ok t -> cipher_init ARC2_GUTMANN key = Ok (mkT ARC2_GUTMANN 8 (t_ctx t))).
Proof.
  intros key t. assert (OI : forall x y : cipher_t, Ok x = Ok y -> x = y) by (intros x y Q; congruence). split.
  - intros type I H. unfold cipher_init in *. cbv zeta in *. destruct I as [I|[I|[I|[]]]]; injection I as <- L; rewrite <- L in *; cbn [Nat.eqb negb Nat.ltb Nat.leb orb Z.of_nat Z.mul Pos.mul Pos.of_succ_nat Pos.succ] in *;
      (destruct (arc2_init _ _) as [c| |]; cbn [bind] in *; try discriminate H; apply OI in H; subst t; reflexivity).
  - intros H. unfold cipher_init in *. cbv zeta in *. destruct (Nat.eqb_spec (length key) 16) as [L|L]; [|discriminate H]. cbn [negb] in H. rewrite L. cbn [Nat.ltb Nat.leb orb].
    assert (E : arc2_init key 0 = arc2_init key 1024) by (unfold arc2_init; rewrite L; change ((0 <? 0) && (0 <? 1024)) with false; change ((0 <? 1024) && (1024 <? 1024)) with false; change (0 <=? 1024) with true; change (1024 <=? 1024) with true; cbv iota; reflexivity). rewrite E. destruct (arc2_init key 1024) as [c| |]; cbn [bind] in *; try discriminate H. apply OI in H. subst t. reflexivity.
Qed.
(* keys of one octet too many are refused; all 24 ciphers have a key of their stated size *)
Example C89_keys_ex : cipher_init DES (repeat 1 9) = Fail /\ cipher_init AES192 (repeat 1 16) = Fail /\ cipher_init BLOWFISH (repeat 1 73) = Fail /\ cipher_init ARC2 [] = Fail /\
  match cipher_init CAST5 (repeat 1 (cipher_key_size CAST5)) with Ok t => t_size t = 8%nat | _ => False end.
Proof. repeat split; reflexivity. Qed.
(* published blocks of Blowfish (without a salt), CAST5 (RFC 2144) and DES, through the dispatch *)
Succeed Definition C89_dispatch_vector : let run type key src := match cipher_init type key with Ok t => cipher_encrypt t src | _ => Fail end in
  (run BLOWFISH (CipherProps.unhex 0xfedcba9876543210 8) (CipherProps.unhex 0x0123456789abcdef 8), run CAST5 (CipherProps.unhex 0x0123456712345678234567893456789a 16) (CipherProps.unhex 0x0123456789abcdef 8),
   run DES (CipherProps.unhex 0x133457799bbcdff1 8) (CipherProps.unhex 0x0123456789abcdef 8)) =
  (Ok (CipherProps.unhex 0x0aceab0fc6a0a28d 8), Ok (CipherProps.unhex 0x238b4fe5847e44b2 8), Ok (CipherProps.unhex 0x85e813540f0ab405 8)) := ltac:(vm_compute; reflexivity).
(* RFC 2268: keys of 64 and 128 bits *)
Succeed Definition C89_arc2_vector : match cipher_init ARC2_64 (repeat 0xff 8), cipher_init ARC2_128 (CipherProps.unhex 0x88bca90e90875a7f0f79c384627bafb2 16) with
  | Ok a, Ok b => (cipher_encrypt a (repeat 0xff 8), cipher_encrypt b (repeat 0 8)) | _, _ => (Fail, Fail) end =
  (Ok (CipherProps.unhex 0x278b27e42e2f0d49 8), Ok (CipherProps.unhex 0x2269552ab0f85ca6 8)) := ltac:(vm_compute; reflexivity).
(* AES-128-CBC, NIST SP 800-38A F.2.1, first block, through the stream in two pieces *)
Succeed Definition C89_cbc_vector :
  match opened (cipher_of AES128) CBC true false (CipherProps.unhex 0x2b7e151628aed2a6abf7158809cf4f3c 16) (CipherProps.unhex 0x000102030405060708090a0b0c0d0e0f 16) with
  | Some s => run s [CipherProps.unhex 0x6bc1bee22e409f 7; CipherProps.unhex 0x96e93d7e117393172a 9]
  | None => Fail
  end = Ok (CipherProps.unhex 0x7649abac8119b246cee98e9b12e9197d 16) := ltac:(vm_compute; reflexivity).

(* the axioms of every theorem above, listed at once *)
Definition CipherTableProps_all := (@C89_keys, @C89_blocks, @C89_family, @C89_stream_roundtrip, @C89_aes, @C89_arc2_variants).
Print Assumptions CipherTableProps_all.
