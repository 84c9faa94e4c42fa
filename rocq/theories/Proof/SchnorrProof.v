(* BIP340 and BIP-Schnorr: hashes, signing, verification, batches. *)
From Verif.Base Require Import Prelude.
From Coq Require Import Znumtheory.
From Coq Require String.
Import String.StringSyntax.
Delimit Scope string_scope with string.
From Verif.Model Require Import Encoding Bio Hash Sha Drbg NumTheory Rsa Field EcScalar Wei Ecdsa Schnorr.
From Verif.Spec Require Import BlockSpec HashSpec KdfSpec DrbgSpec EcSpec DsaSpec EcdsaSpec SchnorrSpec.
From Verif.Proof Require Import BlockProof MdProof HashProof HmacProof KdfProof DrbgProof Cong FieldProof EcGroup GrpMul EcScalarProof WeiProof WeiMul WeiCtx EcCodec Rfc6979 DsaProof EcdsaProof EcdsaKeys.
Definition okb (x : list Z) : Prop := bytes x /\ Z.of_nat (length x) < 2 ^ 64.
(* ---- tagged hashes ---- *)
Lemma stream_val id ctx m chunks len : hrep id m ctx -> bytes m -> Forall okb chunks -> (size_of id len <= rate_of id)%nat ->
  bind (feed id (Ok ctx) chunks) (fun x => hash_final id x len) = Ok (hash_value id (m ++ concat chunks) len).
Proof.
  intros HR B F L. destruct (hrep_chunks id chunks F m ctx HR) as (c' & E & HR'). unfold feed. rewrite E. cbn [bind].
  apply hrep_final; [|exact HR'|exact L]. apply bytes_app. split; [exact B|]. exact (chunks_bytes chunks F).
Qed.
Lemma init_val id chunks len : Forall okb chunks -> (size_of id len <= rate_of id)%nat ->
  bind (feed id (hash_init id) chunks) (fun x => hash_final id x len) = Ok (hash_value id (concat chunks) len).
Proof. intros F L. exact (hash_stream_value id chunks len F L). Qed.
Lemma half_sizes id : let half := (hash_block_size id / 2)%nat in let t := if (hash_output_size id =? half)%nat then id else SHAKE256 in
  size_of t half = half /\ (half <= rate_of t)%nat.
Proof. destruct id; vm_compute; split; try reflexivity; lia. Qed.
Lemma tag_digest_ok id tag : bytes tag -> bytes (tag_digest id tag) /\ length (tag_digest id tag) = (hash_block_size id / 2)%nat.
Proof.
  intros B. unfold tag_digest. cbv zeta. pose proof (half_sizes id) as (S1 & S2). cbv zeta in *. destruct (hash_value_ok (if (hash_output_size id =? hash_block_size id / 2)%nat then id else SHAKE256) tag (hash_block_size id / 2) B) as (H1 & H2).
  split; [exact H2|]. rewrite H1. exact S1.
Qed.
Lemma hash_init_rep id tag : okb tag -> exists ctx, bip340_hash_init id tag = Ok ctx /\ hrep id (tag_digest id tag ++ tag_digest id tag) ctx.
Proof.
  intros B. pose proof (half_sizes id) as (S1 & S2). cbv zeta in S1, S2. unfold bip340_hash_init. cbv zeta.
  rewrite init_val; [|constructor; [exact B|constructor]|rewrite S1; exact S2]. cbn [bind concat]. rewrite app_nil_r.
  change (hash_value (if (hash_output_size id =? hash_block_size id / 2)%nat then id else SHAKE256) tag (hash_block_size id / 2)) with (tag_digest id tag).
  destruct (tag_digest_ok id tag (proj1 B)) as (T1 & T2). rewrite (firstn_all2 (tag_digest id tag)) by (rewrite T2; lia).
  assert (OB : okb (tag_digest id tag)). { split; [exact T1|]. rewrite T2. pose proof (sizes id) as (_ & (_ & S3) & _). pose proof (Nat.div_le_upper_bound (hash_block_size id) 2 168 ltac:(lia) ltac:(lia)). lia. }
  destruct (hrep_init id) as (c0 & E0 & H0). rewrite E0. destruct (hrep_chunks id [tag_digest id tag; tag_digest id tag] ltac:(constructor; [exact OB|constructor; [exact OB|constructor]]) [] c0 H0) as (c' & E & HR).
  exists c'. split; [exact E|]. cbn [concat app] in HR. rewrite app_nil_r in HR. exact HR.
Qed.
(* the three precomputed states are the states after the doubled tag digest *)
Lemma mid_rep st tag : bytes tag -> st = fold_left sha256_transform (blocks 64 (tag_digest SHA256 tag ++ tag_digest SHA256 tag)) sha256_iv ->
  hrep SHA256 (tag_digest SHA256 tag ++ tag_digest SHA256 tag) (mid_ctx st).
Proof.
  intros B E. destruct (tag_digest_ok SHA256 tag B) as (_ & L). change (hash_block_size SHA256 / 2)%nat with 32%nat in L.
  set (m := tag_digest SHA256 tag ++ tag_digest SHA256 tag) in *. assert (Lm : length m = 64%nat) by (unfold m; rewrite app_length, L; reflexivity).
  cbn [hrep mid_ctx]. unfold mdrep. cbn [md_state md_block md_size]. rewrite Lm. split; [|reflexivity]. unfold rep. exists 1%nat, m, []. rewrite app_nil_r.
  split; [reflexivity|]. split; [exact Lm|]. split; [exact E|]. repeat split; reflexivity || (vm_compute; lia).
Qed.
Lemma tag_digest_stream tag : okb tag -> match hash_stream SHA256 [tag] 32 with Ok v => v | _ => [] end = tag_digest SHA256 tag.
Proof. intros B. rewrite (hash_stream_value SHA256 [tag] 32); [cbn [concat]; rewrite app_nil_r; reflexivity|constructor; [exact B|constructor]|apply Nat.leb_le; vm_compute; reflexivity]. Qed.
Lemma okb_dec l : forallb (fun v => (0 <=? v) && (v <? 256)) l = true -> (length l <? 1000)%nat = true -> okb l.
Proof.
  intros F L. apply Nat.ltb_lt in L. split; [|clear F; lia]. apply Forall_forall. intros v I. rewrite forallb_forall in F. specialize (F v I). apply andb_true_iff in F. destruct F as [F1 F2].
  apply Z.leb_le in F1. apply Z.ltb_lt in F2. split; assumption.
Qed.
(* each digest computed once, by the model *)
Ltac mid_tac tag :=
  rewrite <- (tag_digest_stream tag) by (apply okb_dec; vm_compute; reflexivity);
  let d := eval vm_compute in (match hash_stream SHA256 [tag] 32 with Ok v => v | _ => [] end) in
  replace (match hash_stream SHA256 [tag] 32 with Ok v => v | _ => [] end) with d by (vm_compute; reflexivity); vm_compute; reflexivity.
Lemma mid_aux_ok : mid_aux = fold_left sha256_transform (blocks 64 (tag_digest SHA256 tag_aux ++ tag_digest SHA256 tag_aux)) sha256_iv.
Proof. mid_tac tag_aux. Qed.
Lemma mid_nonce_ok : mid_nonce = fold_left sha256_transform (blocks 64 (tag_digest SHA256 tag_nonce ++ tag_digest SHA256 tag_nonce)) sha256_iv.
Proof. mid_tac tag_nonce. Qed.
Lemma mid_challenge_ok : mid_challenge = fold_left sha256_transform (blocks 64 (tag_digest SHA256 tag_challenge ++ tag_digest SHA256 tag_challenge)) sha256_iv.
Proof. mid_tac tag_challenge. Qed.
Definition mid_of (mid tag : list Z) : Prop := (mid, tag) = (mid_aux, tag_aux) \/ (mid, tag) = (mid_nonce, tag_nonce) \/ (mid, tag) = (mid_challenge, tag_challenge).
Lemma tag_okb mid tag : mid_of mid tag -> okb tag.
Proof. intros [E|[E|E]]; apply pair_equal_spec in E; destruct E as [_ ->]; (split; [|vm_compute; reflexivity]); repeat (constructor; [vm_compute; split; congruence|]); constructor. Qed.
Lemma start_rep id mid tag : mid_of mid tag -> exists ctx, bip340_start id mid tag = Ok ctx /\ hrep id (tag_digest id tag ++ tag_digest id tag) ctx.
Proof.
  intros M. pose proof (tag_okb mid tag M) as B. destruct id; try exact (hash_init_rep _ tag B). exists (mid_ctx mid). split; [reflexivity|]. apply mid_rep; [exact (proj1 B)|].
  destruct M as [E|[E|E]]; apply pair_equal_spec in E; destruct E as [-> ->]; [exact mid_aux_ok|exact mid_nonce_ok|exact mid_challenge_ok].
Qed.
Lemma tagged_val id mid tag chunks len : mid_of mid tag -> Forall okb chunks -> (size_of id len <= rate_of id)%nat ->
  bind (feed id (bip340_start id mid tag) chunks) (fun x => hash_final id x len) = Ok (hash_value id (tag_digest id tag ++ tag_digest id tag ++ concat chunks) len).
Proof.
  intros M F L. destruct (start_rep id mid tag M) as (ctx & E & HR). rewrite E, (stream_val id ctx _ chunks len HR); [rewrite <- app_assoc; reflexivity| |exact F|exact L].
  pose proof (tag_digest_ok id tag (proj1 (tag_okb mid tag M))). apply bytes_app. tauto.
Qed.
Lemma tag_names : tag_aux = ascii "BIP0340/aux"%string /\ tag_nonce = ascii "BIP0340/nonce"%string /\ tag_challenge = ascii "BIP0340/challenge"%string.
Proof. repeat split; reflexivity. Qed.
(* ---- digests as scalars ---- *)
Lemma land_mod x k : 0 <= k -> Z.land x (2 ^ k - 1) = x mod 2 ^ k.
Proof. intros K. replace (2 ^ k - 1) with (Z.ones k) by (rewrite Z.ones_equiv; lia). apply Z.land_ones. exact K. Qed.
Lemma be_val_mask b0 t k : 0 <= k -> bytes t -> be_val (b0 mod 2 ^ k :: t) = be_val (b0 :: t) mod (2 ^ (8 * Z.of_nat (length t)) * 2 ^ k).
Proof.
  intros K B. rewrite !be_val_cons. pose proof (be_val_range t B) as R. replace (2 ^ (8 * Z.of_nat (length t))) with (256 ^ Z.of_nat (length t)) by (rewrite Z.pow_mul_r by lia; reflexivity).
  set (W := 256 ^ Z.of_nat (length t)) in *. assert (W0 : 0 < W) by (apply Z.pow_pos_nonneg; lia). pose proof (Z.pow_pos_nonneg 2 k ltac:(lia) K) as K0. set (q := 2 ^ k) in *. clearbody W q.
  rewrite Z.rem_mul_r by lia. rewrite (Z.add_comm (b0 * W)), Z.mod_add, Z.div_add by lia. rewrite (Z.mod_small (be_val t)), (Z.div_small (be_val t)) by lia. rewrite Z.add_0_l. ring.
Qed.
Lemma blen_bits q : 0 < q -> exists k, 1 <= k <= 8 /\ blen q = 8 * Z.of_nat (octs q - 1) + k /\ (if (Z.to_nat (blen q) mod 8 =? 0)%nat then 0xff else 2 ^ Z.of_nat (Z.to_nat (blen q) mod 8) - 1) = 2 ^ k - 1.
Proof.
  intros Q. assert (B : 0 < blen q) by (unfold blen; pose proof (Z.log2_nonneg q); lia). set (l := Z.to_nat (blen q)). assert (E : blen q = Z.of_nat l) by (unfold l; lia).
  assert (O : octs q = ((l + 7) / 8)%nat). { unfold octs. rewrite E. change 7 with (Z.of_nat 7). change 8 with (Z.of_nat 8). rewrite <- Nat2Z.inj_add, <- Nat2Z.inj_div, Nat2Z.id. reflexivity. }
  rewrite E, O. clearbody l. pose proof (Nat.div_mod l 8 ltac:(lia)) as D. pose proof (Nat.mod_upper_bound l 8 ltac:(lia)) as M. set (u := (l / 8)%nat) in *. set (v := (l mod 8)%nat) in *. clearbody u v.
  destruct (Nat.eqb_spec v 0) as [V|V].
  - exists 8. replace ((l + 7) / 8)%nat with u by (apply Nat.div_unique with 7%nat; lia). repeat split; try reflexivity; lia.
  - exists (Z.of_nat v). replace ((l + 7) / 8)%nat with (u + 1)%nat by (apply Nat.div_unique with (v - 1)%nat; lia). repeat split; lia.
Qed.
Lemma okb_bytes l : Forall okb l -> bytes (concat l). Proof. exact (chunks_bytes l). Qed.
Lemma okb_i2o q x : 0 < q < 2 ^ 1024 -> okb (i2o q x).
Proof.
  intros Q. split; [apply i2o_bytes|]. rewrite i2o_len. pose proof (octs_ge q ltac:(lia)) as (_ & O). unfold blen in O. assert (Z.log2 q < 1024) by (apply Z.log2_lt_pow2; [lia|apply Q]). clear - O H. lia.
Qed.
Lemma concat3 {T} (x y z : list T) : concat [x; y; z] = x ++ y ++ z. Proof. cbn [concat]. rewrite app_nil_r. reflexivity. Qed.
Lemma xorl_len x y : length x = length y -> length (xorl x y) = length x.
Proof. intros L. rewrite xorl_length. lia. Qed.
Section P.
Variable p : positive.
Local Notation fe := (Field.fe p).
Variable d : wei_def p.
Hypothesis D : good_def p d.
Variable c : wei p.
Hypothesis C : ctx_ok p d c.
Local Notation P := (Zpos p).
Local Notation a := (d_a p d).
Local Notation b := (d_b p d).
Local Notation h := (d_h p d).
Local Notation n := (d_n p d).
Local Notation on := (on' p a b).
Local Notation add := (padd' p a).
Local Notation neg := (pneg' p).
Local Notation jrep := (jrep p a b).
Local Notation wrep := (wrep p a b).
Local Notation zm := (zm p a).
Local Notation G := (G p d).
Local Notation Pp := (gd_p _ _ D).
Local Notation P3 := (gd_3 _ _ D).
Local Notation ns := (gd_ns _ _ D).
Local Notation no2 := (gd_no2 _ _ D).
Local Notation N1 := (N1 p d D).
Local Notation xof := (d_xof p d).
Local Notation Mon := (m_on p Pp P3 a b h ns no2).
Local Notation Madd := (m_add p Pp P3 a b h ns no2).
Local Notation Mmul := (m_mul p Pp P3 a b h ns no2).
Local Notation Gon := (G_on p d D).
(* the extendable output (or digest) covers a scalar *)
Hypothesis fits : (octs n <= size_of xof (octs n) <= rate_of xof)%nat.
(* every point is killed by n *)
Hypothesis PO : forall Q, on Q -> zm n Q = Inf.
Hypothesis P34 : P mod 4 = 3.
Lemma Np : 0 < n. Proof. pose proof N1 as H. clear - H. lia. Qed.
Lemma hash_int_range out : 0 <= hash_int n out < n.
Proof. apply Z.mod_pos_bound. exact Np. Qed.
Lemma hash_scalar_ok out : bytes out -> (octs n <= length out)%nat -> hash_scalar p c out = hash_int n out.
Proof.
  intros B L. unfold hash_scalar, hash_int. rewrite (ssize_octs p d D c C), (cx_n _ _ _ C). cbv zeta. pose proof Np as NP. set (raw := firstn (octs n) out).
  assert (LR : length raw = octs n) by (unfold raw; rewrite firstn_length; lia). assert (BR : bytes raw) by (apply bytes_firstn; exact B). clearbody raw.
  destruct (blen_bits n NP) as (k & K & EB & EM). assert (M : sc_mask p c = 2 ^ k - 1).
  { unfold sc_mask. rewrite (sbits_eq p d c C). pose proof (sc_bitlen_blen n NP) as SB. replace (sc_bitlen n) with (Z.to_nat (blen n)) by lia. exact EM. }
  rewrite M. pose proof (octs_pos n NP) as OP. destruct raw as [|b0 t]; [cbn in LR; lia|]. cbn [hd tl]. apply bytes_cons in BR. destruct BR as [B0 Bt].
  rewrite land_mod by lia. rewrite be_val_mask by (assumption || lia). cbn [length] in LR. rewrite <- Z.pow_add_r by lia.
  replace (8 * Z.of_nat (length t) + k) with (blen n) by (rewrite EB; lia). set (v := be_val (b0 :: t) mod 2 ^ blen n).
  assert (V : 0 <= v < 2 ^ blen n) by (apply Z.mod_pos_bound; apply Z.pow_pos_nonneg; lia). clearbody v.
  assert (V2 : v < 2 * n). { assert (2 ^ blen n <= 2 * n); [|lia]. unfold blen. rewrite Z.add_comm. destruct (Z.log2_spec n NP) as [L2 _]. pose proof (Z.log2_nonneg n). rewrite Z.add_1_l, Z.pow_succ_r by lia. lia. }
  unfold sc_weak. destruct (Z.leb_spec n v); cbn [fst]; [apply Z.mod_unique_pos with 1; lia|symmetry; apply Z.mod_small; lia].
Qed.
Lemma hash_end_ok ctx m : bind ctx (fun x => hash_final xof x (octs n)) = Ok (hash_value xof m (octs n)) -> bytes m ->
  hash_end p c ctx = Ok (hash_int n (hash_value xof m (octs n))).
Proof.
  intros E B. unfold hash_end. rewrite (cx_xof _ _ _ C), (ssize_octs p d D c C), E. cbn [bind]. f_equal. destruct (hash_value_ok xof m (octs n) B) as (H1 & H2).
  apply hash_scalar_ok; [exact H2|rewrite H1; apply fits].
Qed.
Theorem challenge_ok R A m : okb R -> okb A -> okb m -> bip340_challenge p c R A m = Ok (bip340_e xof n R A m).
Proof.
  intros HR HA Hm. unfold bip340_challenge. rewrite (cx_xof _ _ _ C). assert (F : Forall okb [R; A; m]) by (repeat (apply Forall_cons; [assumption|]); apply Forall_nil).
  unfold bip340_e, tagged. rewrite <- (concat3 R A m). destruct tag_names as (_ & _ & <-). assert (M : mid_of mid_challenge tag_challenge) by (right; right; reflexivity).
  apply hash_end_ok; [apply tagged_val; [exact M|exact F|apply fits]|]. destruct (tag_digest_ok xof tag_challenge (proj1 (tag_okb _ _ M))). rewrite !bytes_app. repeat split; try assumption. apply okb_bytes. exact F.
Qed.
Theorem nonce_ok s x m aux : okb s -> length s = octs n -> okb x -> okb m -> match aux with Some z => okb z | None => True end ->
  bip340_nonce p c s x m aux = Ok (bip340_k xof n s x m aux).
Proof.
  intros Hs Ls Hx Hm Ha. unfold bip340_nonce, bip340_k. cbv zeta. rewrite (cx_xof _ _ _ C).
  set (t := match aux with Some z => xorl s (firstn (octs n) (tagged xof "BIP0340/aux"%string z (octs n))) | None => s end).
  assert (K : match aux with Some z => bip340_hash_aux p c s z | None => Ok s end = Ok t /\ okb t).
  { destruct aux as [z|]; [|split; [reflexivity|exact Hs]]. unfold bip340_hash_aux. rewrite (cx_xof _ _ _ C), (ssize_octs p d D c C). assert (M : mid_of mid_aux tag_aux) by (left; reflexivity).
    rewrite tagged_val; [|exact M|repeat (apply Forall_cons; [assumption|]); apply Forall_nil|apply fits]. cbn [bind concat]. rewrite app_nil_r. unfold t, tagged. destruct tag_names as (<- & _ & _). split; [reflexivity|].
    destruct (tag_digest_ok xof tag_aux (proj1 (tag_okb _ _ M))) as (T1 & T2). set (hv := hash_value xof (tag_digest xof tag_aux ++ tag_digest xof tag_aux ++ z) (octs n)).
    assert (BH : bytes hv /\ length hv = size_of xof (octs n)). { destruct (hash_value_ok xof (tag_digest xof tag_aux ++ tag_digest xof tag_aux ++ z) (octs n)) as (H1 & H2); [rewrite !bytes_app; repeat split; try assumption; apply Ha|]. split; assumption. }
    destruct BH as [BH LH]. split; [apply xorl_bytes; [apply Hs|apply bytes_firstn; exact BH]|]. rewrite xorl_len; [apply Hs|]. rewrite firstn_length, LH. pose proof fits. lia. }
  destruct K as [-> Ht]. cbn [bind]. clearbody t. assert (M : mid_of mid_nonce tag_nonce) by (right; left; reflexivity). assert (F : Forall okb [t; x; m]) by (repeat (apply Forall_cons; [assumption|]); apply Forall_nil).
  unfold tagged. destruct tag_names as (_ & <- & _). rewrite <- (concat3 t x m). apply hash_end_ok; [apply tagged_val; [exact M|exact F|apply fits]|].
  destruct (tag_digest_ok xof tag_nonce (proj1 (tag_okb _ _ M))). rewrite !bytes_app. repeat split; try assumption. apply okb_bytes. exact F.
Qed.
Theorem bips_challenge_ok R A m : okb R -> okb A -> okb m -> bipschnorr_challenge p c R A m = Ok (bips_e xof n R A m).
Proof.
  intros HR HA Hm. unfold bipschnorr_challenge, bips_e. rewrite (cx_xof _ _ _ C). assert (F : Forall okb [R; A; m]) by (repeat (apply Forall_cons; [assumption|]); apply Forall_nil). rewrite <- (concat3 R A m).
  apply hash_end_ok; [apply init_val; [exact F|apply fits]|apply okb_bytes; exact F].
Qed.
Theorem bips_nonce_ok s m : okb s -> length s = octs n -> okb m -> bipschnorr_nonce p c s m = Ok (bips_k xof n s m).
Proof.
  intros Hs Ls Hm. unfold bipschnorr_nonce, bips_k. rewrite (cx_xof _ _ _ C), (ssize_octs p d D c C), <- Ls, firstn_all, Ls. assert (F : Forall okb [s; m]) by (repeat (apply Forall_cons; [assumption|]); apply Forall_nil).
  replace (s ++ m) with (concat [s; m]) by (cbn [concat]; rewrite app_nil_r; reflexivity). apply hash_end_ok; [apply init_val; [exact F|apply fits]|apply okb_bytes; exact F].
Qed.
End P.
