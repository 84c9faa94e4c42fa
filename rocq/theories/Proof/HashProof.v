(* Every hash type, through init, update and final, computes its value on the concatenated chunks *)
From Verif.Base Require Import Prelude.
From Verif.Model Require Import Bio Block Encoding Sha HashPrims Keccak Hash.
From Verif.Spec Require Import BlockSpec ShaSpec KeccakSpec HashSpec.
From Verif.Proof Require Import BioProof BlockProof ShaProof MdProof WordsOut KeccakPerm KeccakProof HashOther.
#[local] Opaque keccak_f keccak_compress.

Lemma fold_inv {A C} (f : A -> C -> A) (P : A -> Prop) (Q : C -> Prop) :
  (forall a x, P a -> Q x -> P (f a x)) -> forall l a, P a -> Forall Q l -> P (fold_left f l a).
Proof. intros H l. induction l as [|x l IH]; intros a Ha HF; cbn [fold_left]; [auto|]. inversion HF; subst. apply IH; auto. Qed.

(* ---- output words ---- *)
Lemma out32le_spec st : out32le st = words_out_le 4 st.
Proof. unfold out32le, words_out_le. f_equal. apply map_ext. intros; apply write32le_spec. Qed.
Lemma out32be_spec st : out32be st = words_out 4 st.
Proof. unfold out32be, words_out. f_equal. apply map_ext. intros; apply write32be_spec. Qed.
Lemma out64be_spec st : out64be st = words_out 8 st.
Proof. unfold out64be, words_out. f_equal. apply map_ext. intros; apply write64be_spec. Qed.
Lemma words_out_length nb st : length (words_out nb st) = (nb * length st)%nat.
Proof. unfold words_out. induction st as [|a st IH]; cbn [map concat length]; [lia|]. rewrite app_length, be_bytes_length, IH. lia. Qed.
Lemma words_out_le_length nb st : length (words_out_le nb st) = (nb * length st)%nat.
Proof. apply concat_le_length. Qed.
Lemma words_out_bytes nb st : bytes (words_out nb st).
Proof. unfold words_out. induction st as [|a st IH]; cbn [map concat]; [constructor|]. apply bytes_app. split; [apply be_bytes_bytes|exact IH]. Qed.
Lemma words_out_le_bytes nb st : bytes (words_out_le nb st).
Proof. unfold words_out_le. induction st as [|a st IH]; cbn [map concat]; [constructor|]. apply bytes_app. split; [apply le_bytes_bytes|exact IH]. Qed.

(* ---- Merkle-Damgard types ---- *)
Lemma md_pad_bytes B L enc m : bytes m -> (forall k n, bytes (enc k n)) -> bytes (md_pad B L enc m).
Proof.
  intros Hm He. unfold md_pad. apply bytes_app. split; [auto|]. apply bytes_app. split; [repeat constructor; unfold byte; lia|].
  apply bytes_app. split; [apply bytes_repeat; unfold byte; lia|apply He].
Qed.
Lemma md_hash_rel {St} B L enc (f g : St -> list Z -> St) (P : St -> Prop) iv m : (0 < B)%nat -> bytes m -> (forall k n, bytes (enc k n)) -> P iv ->
  (forall a x, P a -> length x = B /\ bytes x -> f a x = g a x /\ P (g a x)) ->
  md_hash B L enc f iv m = md_hash B L enc g iv m /\ P (md_hash B L enc g iv m).
Proof.
  intros HB Hm He Hi H. unfold md_hash. apply (fold_rel f g P (fun b => length b = B /\ bytes b)); auto.
  apply blocks_ok; auto. apply md_pad_bytes; auto.
Qed.
Definition w32ok (n : nat) (st : list Z) : Prop := length st = n /\ Forall (fun x => 0 <= x < 2 ^ 32) st.
Definition w64ok (n : nat) (st : list Z) : Prop := length st = n /\ Forall (fun x => 0 <= x < 2 ^ 64) st.
Lemma sha256_hash iv m : bytes m -> w32ok 8 iv ->
  md_hash 64 56 be_bytes sha256_transform iv m = md_hash 64 56 be_bytes (compress2 fips256) iv m /\
  w32ok 8 (md_hash 64 56 be_bytes (compress2 fips256) iv m).
Proof.
  intros Hm Hi. apply (md_hash_rel 64 56 be_bytes sha256_transform (compress2 fips256) (w32ok 8)); auto; try lia; [intros; apply be_bytes_bytes|].
  intros a x [Ha1 Ha2] [Hx1 Hx2]. split; [apply sha256_transform_spec; auto|]. apply (compress2_ok fips256 a x); [change (s2_w fips256) with 32; lia|auto].
Qed.
Lemma sha512_hash iv m : bytes m -> w64ok 8 iv ->
  md_hash 128 112 be_bytes sha512_transform iv m = md_hash 128 112 be_bytes (compress2 fips512) iv m /\
  w64ok 8 (md_hash 128 112 be_bytes (compress2 fips512) iv m).
Proof.
  intros Hm Hi. apply (md_hash_rel 128 112 be_bytes sha512_transform (compress2 fips512) (w64ok 8)); auto; try lia; [intros; apply be_bytes_bytes|].
  intros a x [Ha1 Ha2] [Hx1 Hx2]. split; [apply sha512_transform_spec; auto|]. apply (compress2_ok fips512 a x); [change (s2_w fips512) with 64; lia|auto].
Qed.
Lemma sha1_hash iv m : bytes m -> w32ok 5 iv ->
  md_hash 64 56 be_bytes sha1_transform iv m = md_hash 64 56 be_bytes compress1 iv m /\
  w32ok 5 (md_hash 64 56 be_bytes compress1 iv m).
Proof.
  intros Hm Hi. apply (md_hash_rel 64 56 be_bytes sha1_transform compress1 (w32ok 5)); auto; try lia; [intros; apply be_bytes_bytes|].
  intros a x [Ha1 Ha2] [Hx1 Hx2]. split; [apply sha1_transform_spec; auto|]. apply compress1_ok. auto.
Qed.
Lemma iv_sha1 : sha1_iv = H1 /\ w32ok 5 H1.
Proof. split; [vm_compute; reflexivity|]. split; [reflexivity|]. repeat constructor; vm_compute; intuition discriminate. Qed.
Lemma iv_sha256 : sha256_iv = H256 /\ w32ok 8 H256.
Proof.
  assert (E : sha256_iv = H256) by (vm_compute; reflexivity). split; [exact E|]. rewrite <- E.
  split; [reflexivity|]. unfold sha256_iv. repeat (apply Forall_cons; [lia|]). apply Forall_nil.
Qed.
Lemma iv_sha224 : sha224_iv = H224 /\ w32ok 8 H224.
Proof.
  assert (E : sha224_iv = H224) by (vm_compute; reflexivity). split; [exact E|]. rewrite <- E.
  split; [reflexivity|]. unfold sha224_iv. repeat (apply Forall_cons; [lia|]). apply Forall_nil.
Qed.
Lemma iv_sha512 : sha512_iv = H512 /\ w64ok 8 H512.
Proof.
  assert (E : sha512_iv = H512) by (vm_compute; reflexivity). split; [exact E|]. rewrite <- E.
  split; [reflexivity|]. unfold sha512_iv. repeat (apply Forall_cons; [lia|]). apply Forall_nil.
Qed.
Lemma iv_sha384 : sha384_iv = H384 /\ w64ok 8 H384.
Proof.
  assert (E : sha384_iv = H384) by (vm_compute; reflexivity). split; [exact E|]. rewrite <- E.
  split; [reflexivity|]. unfold sha384_iv. repeat (apply Forall_cons; [lia|]). apply Forall_nil.
Qed.

Lemma finish_le b k lim tr (iv : list Z) m c : (b <= 64)%nat -> (0 < k)%nat -> (lim < 2 ^ b)%nat -> (k * 8 = 2 ^ b - lim)%nat ->
  mdrep b k tr iv m c -> md_finish (2 ^ b) lim tr len_le c = md_hash (2 ^ b) lim le_bytes tr iv m.
Proof.
  intros Hb Hk HL HE HR. apply (md_finish_spec b k tr iv Hb Hk lim le_bytes); auto; [|apply le_bytes_length].
  destruct HR as [_ HS]. rewrite HS, len_le_spec by lia. rewrite HE. reflexivity.
Qed.
Lemma finish_be b k lim tr (iv : list Z) m c : (b <= 64)%nat -> (0 < k)%nat -> (lim < 2 ^ b)%nat -> (k * 8 = 2 ^ b - lim)%nat ->
  mdrep b k tr iv m c -> md_finish (2 ^ b) lim tr len_be c = md_hash (2 ^ b) lim be_bytes tr iv m.
Proof.
  intros Hb Hk HL HE HR. apply (md_finish_spec b k tr iv Hb Hk lim be_bytes); auto; [|apply be_bytes_length].
  destruct HR as [_ HS]. rewrite HS, len_be_spec by lia. rewrite HE. reflexivity.
Qed.
Lemma md4_final_spec m c : mdrep 6 1 md4_transform md4_iv m c -> md4_final c = md4_value m.
Proof. intros H. unfold md4_final, md4_value. rewrite out32le_spec. f_equal. apply (finish_le 6 1 56); auto; cbn; lia. Qed.
Lemma md5_final_spec m c : mdrep 6 1 md5_transform md4_iv m c -> md5_final c = md5_value m.
Proof. intros H. unfold md5_final, md5_value. rewrite out32le_spec. f_equal. apply (finish_le 6 1 56); auto; cbn; lia. Qed.
Lemma rmd_final_spec m c : mdrep 6 1 ripemd160_transform ripemd160_iv m c -> ripemd160_final c = rmd_value m.
Proof. intros H. unfold ripemd160_final, rmd_value. rewrite out32le_spec. f_equal. apply (finish_le 6 1 56); auto; cbn; lia. Qed.
Lemma whirl_final_spec m c : mdrep 6 4 whirlpool_transform (repeat 0 8) m c -> whirlpool_final c = whirl_value m.
Proof. intros H. unfold whirlpool_final, whirl_value. rewrite out64be_spec. f_equal. apply (finish_be 6 4 32); auto; cbn; lia. Qed.
Lemma sha1_final_spec m c : bytes m -> mdrep 6 1 sha1_transform sha1_iv m c -> sha1_final c = fips_sha1 m.
Proof.
  intros Hm H. unfold sha1_final, fips_sha1. rewrite out32be_spec. f_equal. destruct iv_sha1 as [EI HI].
  rewrite <- (proj1 (sha1_hash H1 m Hm HI)), <- EI. apply (finish_be 6 1 56); auto; cbn; lia.
Qed.
Lemma sha256_final_spec iv m c : bytes m -> w32ok 8 iv -> mdrep 6 1 sha256_transform iv m c ->
  sha256_final c = words_out 4 (md_hash 64 56 be_bytes (compress2 fips256) iv m).
Proof.
  intros Hm HI H. unfold sha256_final. rewrite out32be_spec. f_equal.
  rewrite <- (proj1 (sha256_hash iv m Hm HI)). apply (finish_be 6 1 56); auto; cbn; lia.
Qed.
Lemma sha512_final_spec iv m c : bytes m -> w64ok 8 iv -> mdrep 7 2 sha512_transform iv m c ->
  sha512_final c = words_out 8 (md_hash 128 112 be_bytes (compress2 fips512) iv m).
Proof.
  intros Hm HI H. unfold sha512_final. rewrite out64be_spec. f_equal.
  rewrite <- (proj1 (sha512_hash iv m Hm HI)). apply (finish_be 7 2 112); auto; cbn; lia.
Qed.

(* ---- BLAKE2 ---- *)
Lemma fold_length {A} (f : list Z -> A -> list Z) n : (forall V x, length V = n -> length (f V x) = n) ->
  forall l V, length V = n -> length (fold_left f l V) = n.
Proof. intros H l. induction l as [|x l IH]; intros V HV; cbn [fold_left]; auto. Qed.
Lemma blake2_G_length add rot r1 r2 r3 r4 wa wb a b c d V : length (blake2_G add rot r1 r2 r3 r4 wa wb a b c d V) = length V.
Proof. unfold blake2_G. rewrite !upd_length. reflexivity. Qed.
Lemma blake2_round_length add rot r1 r2 r3 r4 W s V n : length V = n -> length (blake2_round add rot r1 r2 r3 r4 W s V) = n.
Proof.
  intros H. unfold blake2_round. apply fold_length; [|exact H]. intros V' [i [[[a b] c] d]] HV. rewrite blake2_G_length. exact HV.
Qed.
Lemma blake2b_compress_length h t chunk f0 : length h = 8%nat -> length (blake2b_compress h t chunk f0) = 8%nat.
Proof.
  intros H. unfold blake2b_compress. cbv zeta. set (V := fold_left _ _ _).
  assert (LV : length V = 16%nat).
  { unfold V. apply fold_length; [intros; apply blake2_round_length; auto|]. rewrite app_length. cbn [length]. lia. }
  rewrite !map2_length, firstn_length, skipn_length, LV. lia.
Qed.
Lemma blake2s_compress_length h t chunk f0 : length h = 8%nat -> length (blake2s_compress h t chunk f0) = 8%nat.
Proof.
  intros H. unfold blake2s_compress. cbv zeta. set (V := fold_left _ _ _).
  assert (LV : length V = 16%nat).
  { unfold V. apply fold_length; [intros; apply blake2_round_length; auto|]. rewrite app_length. cbn [length]. lia. }
  rewrite !map2_length, firstn_length, skipn_length, LV. lia.
Qed.
#[local] Opaque blake2b_compress blake2s_compress.
Lemma b2_step_length B wb F bl : (forall h t c f, length h = 8%nat -> length (F h t c f) = 8%nat) -> forall ht, length (fst ht) = 8%nat ->
  length (fst (fold_left (b2_step B wb F) bl ht)) = 8%nat.
Proof. intros HF. induction bl as [|b bl IH]; intros ht H; cbn [fold_left]; [auto|]. apply IH. cbn [b2_step fst]. apply HF. auto. Qed.
Lemma blake2_h0_length iv kk nn : length (blake2_h0 iv kk nn) = length iv.
Proof. destruct iv; reflexivity. Qed.

Definition bbrep := b2rep 128 blake2b_compress w64.
Definition bsrep := b2rep 64 blake2s_compress w32.
Lemma blake2b_final_spec key m n c : (n <= 64)%nat -> bbrep (blake2_h0 blake2b_iv (length key) n) (blake2_input 128 key m) n c ->
  blake2b_final c = blake2b_value key m n.
Proof.
  intros Hn HR. destruct (b2_finish 128 8 blake2b_compress w64 ltac:(lia) (fun x => eq_refl) ltac:(reflexivity) _ _ _ _ HR) as [E1 [E2 E3]].
  destruct HR as [HN _]. unfold blake2b_final. rewrite E3. destruct (b2_state c) as [h t]. cbn [fst snd] in E1, E2. cbv zeta. rewrite E1, E2, HN.
  unfold blake2b_value, blake2_value. cbv zeta. unfold blake2_out, words_out_le.
  change (256 ^ Z.of_nat 8 - 1) with (M64 - 1).
  apply (words_tail 8 write64le); [lia|intros; apply write64le_spec|].
  rewrite blake2b_compress_length; [lia|]. apply (b2_step_length 128 8 blake2b_compress); [intros; apply blake2b_compress_length; auto|].
  cbn [fst]. rewrite blake2_h0_length. reflexivity.
Qed.
Lemma blake2s_final_spec key m n c : (n <= 32)%nat -> bsrep (blake2_h0 blake2s_iv (length key) n) (blake2_input 64 key m) n c ->
  blake2s_final c = blake2s_value key m n.
Proof.
  intros Hn HR. destruct (b2_finish 64 4 blake2s_compress w32 ltac:(lia) (fun x => eq_refl) ltac:(reflexivity) _ _ _ _ HR) as [E1 [E2 E3]].
  destruct HR as [HN _]. unfold blake2s_final. rewrite E3. destruct (b2_state c) as [h t]. cbn [fst snd] in E1, E2. cbv zeta. rewrite E1, E2, HN.
  unfold blake2s_value, blake2_value. cbv zeta. unfold blake2_out, words_out_le.
  change (256 ^ Z.of_nat 4 - 1) with (M32 - 1).
  apply (words_tail 4 write32le); [lia|intros; apply write32le_spec|].
  rewrite blake2s_compress_length; [lia|]. apply (b2_step_length 64 4 blake2s_compress); [intros; apply blake2s_compress_length; auto|].
  cbn [fst]. rewrite blake2_h0_length. reflexivity.
Qed.

(* ---- all types ---- *)
Definition bbn (id : hash_id) : nat := hash_output_size id.
Definition hrep (id : hash_id) (m : list Z) (c : hash_ctx) : Prop :=
  match id, c with
  | (BLAKE2B_160 | BLAKE2B_256 | BLAKE2B_384 | BLAKE2B_512), Hblake2 c => bbrep (blake2_h0 blake2b_iv 0 (bbn id)) m (bbn id) c
  | (BLAKE2S_128 | BLAKE2S_160 | BLAKE2S_224 | BLAKE2S_256), Hblake2 c => bsrep (blake2_h0 blake2s_iv 0 (bbn id)) m (bbn id) c
  | GOST94, Hgost c => gostrep m c
  | (HASH160 | HASH256 | SHA256), Hmd c => mdrep 6 1 sha256_transform sha256_iv m c
  | SHA224, Hmd c => mdrep 6 1 sha256_transform sha224_iv m c
  | (KECCAK224 | KECCAK256 | KECCAK384 | KECCAK512 | SHA3_224 | SHA3_256 | SHA3_384 | SHA3_512 | SHAKE128 | SHAKE256), Hkeccak c =>
      krep (rate_of id) true m c
  | MD2, Hmd2 c => md2rep m c
  | MD4, Hmd c => mdrep 6 1 md4_transform md4_iv m c
  | MD5, Hmd c => mdrep 6 1 md5_transform md4_iv m c
  | MD5SHA1, Hpair c => mdrep 6 1 md5_transform md4_iv m (fst c) /\ mdrep 6 1 sha1_transform sha1_iv m (snd c)
  | RIPEMD160, Hmd c => mdrep 6 1 ripemd160_transform ripemd160_iv m c
  | SHA1, Hmd c => mdrep 6 1 sha1_transform sha1_iv m c
  | SHA384, Hmd c => mdrep 7 2 sha512_transform sha384_iv m c
  | SHA512, Hmd c => mdrep 7 2 sha512_transform sha512_iv m c
  | WHIRLPOOL, Hmd c => mdrep 6 4 whirlpool_transform (repeat 0 8) m c
  | _, _ => False
  end.

Lemma bb_init n c : blake2b_init n [] = Ok c -> bbrep (blake2_h0 blake2b_iv 0 n) [] n c.
Proof. intros H. refine (proj1 (b2rep_init 128 8 blake2b_compress w64 ltac:(lia) (fun x => eq_refl) ltac:(reflexivity) 64 blake2b_iv n [] c _ _ _ H)); [lia|lia|discriminate]. Qed.
Lemma bs_init n c : blake2s_init n [] = Ok c -> bsrep (blake2_h0 blake2s_iv 0 n) [] n c.
Proof. intros H. refine (proj1 (b2rep_init 64 4 blake2s_compress w32 ltac:(lia) (fun x => eq_refl) ltac:(reflexivity) 32 blake2s_iv n [] c _ _ _ H)); [lia|lia|discriminate]. Qed.
Lemma k_init bits R : (bits = 128 \/ bits = 224 \/ bits = 256 \/ bits = 384 \/ bits = 512) -> Z.of_nat R = 200 - bits / 4 ->
  exists c, keccak_init bits = Ok c /\ krep R true [] c.
Proof.
  intros H HR.
  assert (E : exists c, keccak_init bits = Ok c /\ k_std c = true) by (destruct H as [->|[->|[->|[->| ->]]]]; eexists; split; reflexivity).
  destruct E as [c [E ES]]. exists c. split; [exact E|]. destruct (keccak_init_spec bits c E) as [bs [std [K [_ [K2 _]]]]].
  assert (bs = R) by lia. subst bs. assert (std = true) by (destruct K as [_ [K _]]; congruence). subst std. exact K.
Qed.
Lemma md_init6 k tr (iv : list Z) : (0 < k)%nat -> mdrep 6 k tr iv [] (md_init 64 k iv).
Proof. intros H. apply (mdrep_init 6 k tr iv); lia. Qed.
Lemma md_init7 k tr (iv : list Z) : (0 < k)%nat -> mdrep 7 k tr iv [] (md_init 128 k iv).
Proof. intros H. apply (mdrep_init 7 k tr iv); lia. Qed.

Lemma hrep_init id : exists c, hash_init id = Ok c /\ hrep id [] c.
Proof.
  destruct id; cbn [hash_init];
  match goal with
  | |- context [blake2b_init ?n []] => destruct (blake2b_init n []) as [c| |] eqn:E; [|discriminate E..]; exists (Hblake2 c); split; [reflexivity|exact (bb_init n c E)]
  | |- context [blake2s_init ?n []] => destruct (blake2s_init n []) as [c| |] eqn:E; [|discriminate E..]; exists (Hblake2 c); split; [reflexivity|exact (bs_init n c E)]
  | |- context [keccak_init ?b] => 
     match goal with |- context [hrep ?id _ _] =>
       destruct (k_init b (rate_of id) ltac:(lia) ltac:(reflexivity)) as [c [E K]]; exists (Hkeccak c); rewrite E; split; [reflexivity|exact K] end
  | |- _ => eexists; split; [reflexivity|]; cbn [hrep fst snd];
     first [apply gostrep_init | apply md2rep_init | apply (md_init6 1); lia | apply (md_init7 2); lia | apply (md_init6 4); lia
           | split; apply (md_init6 1); lia]
  end.
Qed.
Lemma md_update6 k tr (iv : list Z) m c raw : (0 < k)%nat -> Z.of_nat (length raw) < M64 -> mdrep 6 k tr iv m c -> mdrep 6 k tr iv (m ++ raw) (md_update 64 tr c raw).
Proof. intros Hk HL HR. apply (mdrep_update 6 k tr iv); auto. lia. Qed.
Lemma md_update7 k tr (iv : list Z) m c raw : (0 < k)%nat -> Z.of_nat (length raw) < M64 -> mdrep 7 k tr iv m c -> mdrep 7 k tr iv (m ++ raw) (md_update 128 tr c raw).
Proof. intros Hk HL HR. apply (mdrep_update 7 k tr iv); auto. lia. Qed.
Lemma bb_update h0 d n c raw : bbrep h0 d n c -> bbrep h0 (d ++ raw) n (blake2b_update c raw).
Proof. apply (b2rep_update 128 blake2b_compress w64). lia. Qed.
Lemma bs_update h0 d n c raw : bsrep h0 d n c -> bsrep h0 (d ++ raw) n (blake2s_update c raw).
Proof. apply (b2rep_update 64 blake2s_compress w32). lia. Qed.
Lemma hrep_update id m c raw : hrep id m c -> Z.of_nat (length raw) < M64 ->
  exists c', hash_update id c raw = Ok c' /\ hrep id (m ++ raw) c'.
Proof.
  intros HR HL. destruct id; destruct c as [c|c|c|c|c|c]; try (destruct HR; fail); cbn [hrep] in HR; cbn [hash_update]; eexists; (split; [reflexivity|]); cbn [hrep];
  first [apply bb_update; exact HR | apply bs_update; exact HR | apply gostrep_update; assumption | apply md2rep_update; exact HR
        | apply (md_update6 1); [lia|exact HL|exact HR] | apply (md_update6 4); [lia|exact HL|exact HR] | apply (md_update7 2); [lia|exact HL|exact HR]
        | apply krep_update; [cbn; lia|exact HR]
        | destruct HR as [HR1 HR2]; unfold md5sha1_update; cbn [fst snd]; split; [apply (md_update6 1); [lia|exact HL|exact HR1] | apply (md_update6 1); [lia|exact HL|exact HR2]] ].
Qed.

(* ---- final ---- *)
Lemma fips_sha256_length m : bytes m -> length (fips_sha256 m) = 32%nat.
Proof. intros H. unfold fips_sha256. rewrite words_out_length. rewrite (proj1 (proj2 (sha256_hash H256 m H (proj2 iv_sha256)))). reflexivity. Qed.
Lemma hash160_spec m c : bytes m -> mdrep 6 1 sha256_transform sha256_iv m c -> hash160_final c = rmd_value (fips_sha256 m).
Proof.
  intros Hm HR. unfold hash160_final. destruct iv_sha256 as [EI HI]. rewrite EI in HR. rewrite (sha256_final_spec H256 m c Hm HI HR).
  apply rmd_final_spec. change (words_out 4 (md_hash 64 56 be_bytes (compress2 fips256) H256 m)) with (fips_sha256 m).
  apply (md_update6 1 _ _ []); [lia|rewrite fips_sha256_length by auto; reflexivity|apply md_init6; lia].
Qed.
Lemma hash256_spec m c : bytes m -> mdrep 6 1 sha256_transform sha256_iv m c -> hash256_final c = fips_sha256 (fips_sha256 m).
Proof.
  intros Hm HR. unfold hash256_final. destruct iv_sha256 as [EI HI]. rewrite EI in HR. rewrite (sha256_final_spec H256 m c Hm HI HR).
  change (words_out 4 (md_hash 64 56 be_bytes (compress2 fips256) H256 m)) with (fips_sha256 m).
  apply (sha256_final_spec H256 (fips_sha256 m)); [apply words_out_bytes|exact HI|]. unfold sha256_init. rewrite EI.
  apply (md_update6 1 _ _ []); [lia|rewrite fips_sha256_length by auto; reflexivity|apply md_init6; lia].
Qed.
Lemma keccak_id_final R s m c len : (R = 72 \/ R = 104 \/ R = 136 \/ R = 144 \/ R = 168)%nat -> bytes m -> Forall (below 2) s -> (length s <= 6)%nat ->
  krep R true m c -> ((if (len =? 0)%nat then 100 - R / 2 else len) <= R)%nat ->
  keccak_final c (pad_byte s) len = Ok (keccak_hash R s m (if (len =? 0)%nat then 100 - R / 2 else len)).
Proof.
  intros HR Hm HS HSL HK HL.
  assert (RO : rate_ok R true) by (destruct HR as [->|[->|[->|[->| ->]]]]; split; cbn; lia).
  assert (HD : (0 < 100 - R / 2)%nat) by (destruct HR as [->|[->|[->|[->| ->]]]]; cbn; lia).
  assert (EB : k_bs c = R) by apply HK.
  destruct (Nat.eqb_spec len 0) as [->|N].
  - rewrite keccak_final_default by (rewrite EB; lia). rewrite EB. apply (keccak_final_spec R true); auto.
  - apply (keccak_final_spec R true); auto. lia.
Qed.
Ltac kf s := apply (keccak_id_final _ s); [cbn [rate_of]; lia|assumption|repeat constructor; unfold below; lia|cbn [length]; lia|assumption|].
Lemma hrep_final id m c len : bytes m -> hrep id m c -> (size_of id len <= rate_of id)%nat -> hash_final id c len = Ok (hash_value id m len).
Proof.
  intros Hm HR HL. destruct id; destruct c as [c|c|c|c|c|c]; try (destruct HR; fail); cbn [hrep] in HR; cbn [hash_final hash_value];
  try (f_equal;
  first [ (refine (blake2b_final_spec [] m _ c _ HR); cbn; lia) | (refine (blake2s_final_spec [] m _ c _ HR); cbn; lia)
        | apply gost_final_spec; exact HR | apply md2_final_spec; exact HR | apply md4_final_spec; exact HR | apply md5_final_spec; exact HR
        | apply rmd_final_spec; exact HR | apply whirl_final_spec; exact HR | apply sha1_final_spec; assumption
        | apply hash160_spec; assumption | apply hash256_spec; assumption
        | (unfold md5sha1_final; f_equal; [apply md5_final_spec; apply HR|apply sha1_final_spec; [assumption|apply HR]])
        | (unfold sha224_final, fips_sha224; f_equal; apply sha256_final_spec; [exact Hm|apply iv_sha224|rewrite <- (proj1 iv_sha224); exact HR])
        | (unfold sha384_final, fips_sha384; f_equal; apply sha512_final_spec; [exact Hm|apply iv_sha384|rewrite <- (proj1 iv_sha384); exact HR])
        | (apply sha256_final_spec; [exact Hm|apply iv_sha256|rewrite <- (proj1 iv_sha256); exact HR])
        | (apply sha512_final_spec; [exact Hm|apply iv_sha512|rewrite <- (proj1 iv_sha512); exact HR]) ]; fail).
  all: cbn [size_of rate_of hash_output_size] in HL |- *.
  all: match goal with
  | |- keccak_final ?cc 1 0 = Ok (keccak_hash ?R [] _ _) => exact (keccak_id_final R [] m cc 0 ltac:(lia) Hm ltac:(constructor) ltac:(cbn; lia) HR ltac:(cbn; lia))
  | |- keccak_final ?cc 6 0 = Ok (keccak_hash ?R ?s _ _) =>
      exact (keccak_id_final R s m cc 0 ltac:(lia) Hm ltac:(repeat constructor; unfold below; lia) ltac:(cbn; lia) HR ltac:(cbn; lia))
  | |- keccak_final ?cc 31 _ = Ok (keccak_hash ?R ?s _ _) =>
      exact (keccak_id_final R s m cc len ltac:(lia) Hm ltac:(repeat constructor; unfold below; lia) ltac:(cbn; lia) HR HL)
  end.
Qed.
(* beyond the rate the output is still a function of the message *)
Lemma keccak_final_det R m c1 c2 p len : rate_ok R true -> bytes m -> 0 < p < 256 -> krep R true m c1 -> krep R true m c2 ->
  keccak_final c1 p len = keccak_final c2 p len.
Proof.
  intros HR Hm Hp H1 H2. destruct (final_state R true m p c1 HR Hm Hp H1) as [E1 _]. destruct (final_state R true m p c2 HR Hm Hp H2) as [E2 _].
  cbv zeta in E1, E2. unfold keccak_final. destruct (Z.eqb_spec p 0); [lia|].
  assert (B1 : k_bs c1 = R) by apply H1. assert (B2 : k_bs c2 = R) by apply H2.
  cbv zeta. rewrite E1, E2, B1, B2. reflexivity.
Qed.
Lemma hrep_final_det id m c1 c2 len : bytes m -> hrep id m c1 -> hrep id m c2 -> hash_final id c1 len = hash_final id c2 len.
Proof.
  intros Hm H1 H2. destruct (Nat.le_gt_cases (size_of id len) (rate_of id)) as [L|L].
  - rewrite (hrep_final id m c1 len), (hrep_final id m c2 len) by auto. reflexivity.
  - destruct id; cbn [size_of rate_of hash_output_size] in L; try lia;
    destruct c1 as [?|?|?|?|?|c1]; try (destruct H1; fail); destruct c2 as [?|?|?|?|?|c2]; try (destruct H2; fail);
    cbn [hrep] in H1, H2; cbn [hash_final];
    (eapply keccak_final_det; [|exact Hm|lia|exact H1|exact H2]); (split; cbn; lia).
Qed.

(* ---- streams ---- *)
Definition chunks_ok (chunks : list (list Z)) : Prop := Forall (fun c => bytes c /\ Z.of_nat (length c) < M64) chunks.
Lemma chunks_bytes chunks : chunks_ok chunks -> bytes (concat chunks).
Proof. induction 1 as [|x l [Hx _] Hl IH]; cbn [concat]; [constructor|]. apply bytes_app. auto. Qed.
Lemma hrep_chunks id chunks : chunks_ok chunks -> forall m c, hrep id m c ->
  exists c', fold_left (fun c x => bind c (fun c => hash_update id c x)) chunks (Ok c) = Ok c' /\ hrep id (m ++ concat chunks) c'.
Proof.
  induction 1 as [|x l [_ Hx] Hl IH]; intros m c HR; cbn [fold_left concat bind]; [rewrite app_nil_r; eauto|].
  destruct (hrep_update id m c x HR Hx) as [c' [E HR']]. rewrite E. destruct (IH _ _ HR') as [c'' [E' HR'']].
  exists c''. rewrite app_assoc. auto.
Qed.
Lemma hash_stream_ctx id chunks len : chunks_ok chunks -> exists c, hash_stream id chunks len = hash_final id c len /\ hrep id (concat chunks) c.
Proof.
  intros HC. destruct (hrep_init id) as [c0 [E0 HR0]]. unfold hash_stream. rewrite E0.
  destruct (hrep_chunks id chunks HC [] c0 HR0) as [c [E HR]]. rewrite E. exists c. split; [reflexivity|exact HR].
Qed.
Theorem hash_stream_value id chunks len : chunks_ok chunks -> (size_of id len <= rate_of id)%nat ->
  hash_stream id chunks len = Ok (hash_value id (concat chunks) len).
Proof.
  intros HC HL. destruct (hash_stream_ctx id chunks len HC) as [c [E HR]]. rewrite E. apply hrep_final; auto. apply chunks_bytes. auto.
Qed.
Theorem hash_stream_det id x y len : chunks_ok x -> chunks_ok y -> concat x = concat y -> hash_stream id x len = hash_stream id y len.
Proof.
  intros HX HY E. destruct (hash_stream_ctx id x len HX) as [c [E1 H1]]. destruct (hash_stream_ctx id y len HY) as [c' [E2 H2]].
  rewrite E1, E2. apply (hrep_final_det id (concat x)); [apply chunks_bytes; auto|auto|rewrite E; auto].
Qed.
