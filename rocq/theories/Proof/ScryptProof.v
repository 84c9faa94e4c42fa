(* scrypt equals RFC 7914 *)
From Verif.Base Require Import Prelude.
From Verif.Model Require Import Encoding Bio Hash Stream Kdf.
From Verif.Spec Require Import BlockSpec HashSpec StreamSpec KdfSpec.
From Verif.Proof Require Import BioProof BlockProof HashOther HashProof HmacProof MdInj StreamProof KdfProof.

#[local] Opaque hash_init hash_update hash_final hmac_init hmac_update hmac_final hash_value rfc2104.

Lemma salsa8_round_spec x : length x = 16%nat -> salsa8_round x = of_rows (sal_double (to_rows x)).
Proof. intros H. list16 x H. reflexivity. Qed.
Lemma salsa20_8_spec B : bytes B -> length B = 64%nat -> salsa20_8 B = salsa20_8_core B.
Proof.
  intros HB HL. unfold salsa20_8, salsa20_8_core. cbv zeta. rewrite (le_words_read 16 B HB) by lia.
  set (x := map (fun i => read32le (skipn (4 * i) B)) (seq 0 16)).
  replace (map (fun i => read32le (skipn (i * 4) B)) (seq 0 16)) with x by (apply map_ext; intros; do 2 f_equal; lia).
  assert (Lx : length x = 16%nat) by reflexivity. rewrite times_iter.
  destruct (rounds_rows salsa8_round sal_double 4 x salsa8_round_spec sal_double_ok Lx) as [-> _].
  change (flat_map write32le) with words_bytes. apply words_bytes_unwords.
Qed.
Lemma salsa20_8_core_ok b : length (salsa20_8_core b) = 64%nat /\ bytes (salsa20_8_core b).
Proof.
  unfold salsa20_8_core. cbv zeta. split.
  - destruct (rounds_rows salsa8_round sal_double 4 (le_words 16 b) salsa8_round_spec sal_double_ok (le_words_length 16 b)) as [_ Hr].
    rewrite unwords_length. unfold vadd. rewrite map2_length, le_words_length. destruct (Nat.iter 4 sal_double (to_rows (le_words 16 b))) as [[[p q] r] s].
    destruct Hr as (Ha & Hb & Hc & Hd). cbn [of_rows]. rewrite !app_length. lia.
  - unfold unwords. generalize (vadd (le_words 16 b) (of_rows (Nat.iter 4 sal_double (to_rows (le_words 16 b))))). intros l.
    induction l as [|w l IH]; cbn [map concat]; [constructor|]. apply bytes_app. split; [apply le_bytes_bytes|exact IH].
Qed.

(* ---- the block mix ---- *)
Definition b64 (l : list Z) : Prop := length l = 64%nat /\ bytes l.
Lemma blk64_nth B i : (i < length B / 64)%nat -> blk64 B i = nth i (blocks 64 B) [].
Proof.
  intros H. unfold blocks. rewrite (nth_indep _ [] (firstn 64 (skipn (0 * 64) B))) by (rewrite map_length, seq_length; lia).
  rewrite (map_nth (fun i => firstn 64 (skipn (i * 64) B))), seq_nth by lia. reflexivity.
Qed.
Lemma mixes_ok Bs : forall X, length (mixes X Bs) = length Bs /\ Forall b64 (mixes X Bs).
Proof.
  induction Bs as [|b Bs IH]; intros X; cbn [mixes length]; [split; [reflexivity|constructor]|]. destruct (IH (salsa20_8_core (map2 Z.lxor X b))) as [I1 I2].
  split; [lia|]. constructor; [apply salsa20_8_core_ok|exact I2].
Qed.
Lemma mix_loop_spec B : bytes B -> forall n i X Y, (i + n = length B / 64)%nat -> b64 X ->
  mix_loop n i B X Y = Y ++ concat (mixes X (skipn i (blocks 64 B))).
Proof.
  intros HB. induction n as [|n IH]; intros i X Y Hn HX; cbn [mix_loop].
  - rewrite skipn_all2 by (rewrite blocks_length; lia). cbn [mixes concat]. rewrite app_nil_r. reflexivity.
  - rewrite blk64_nth by lia. set (b := nth i (blocks 64 B) []).
    assert (Hb : b64 b).
    { pose proof (blocks_ok 64 B ltac:(lia) HB) as F. rewrite Forall_forall in F. apply F. apply nth_In. rewrite blocks_length. lia. }
    assert (Hx : b64 (map2 Z.lxor X b)) by (destruct HX, Hb; split; [rewrite map2_length; lia|apply xor_bytes; auto]).
    rewrite salsa20_8_spec by apply Hx. rewrite IH by (try lia; apply salsa20_8_core_ok).
    assert (ES : skipn i (blocks 64 B) = b :: skipn (S i) (blocks 64 B)).
    { unfold b. assert (LL : (i < length (blocks 64 B))%nat) by (rewrite blocks_length; lia). revert LL. generalize (blocks 64 B). intros l. revert l.
      clear. induction i as [|i IH]; intros [|a l] H; cbn [length] in H; try lia; [reflexivity|]. cbn [skipn nth]. apply IH. lia. }
    rewrite ES. cbn [mixes concat]. rewrite app_assoc. reflexivity.
Qed.
Lemma blk64_concat Yl : Forall b64 Yl -> forall i, (i < length Yl)%nat -> blk64 (concat Yl) i = nth i Yl [].
Proof.
  induction 1 as [|y Yl [Hy _] HY IH]; intros i Hi; [cbn in Hi; lia|]. destruct i as [|i]; unfold blk64 in *; cbn [concat nth length] in *.
  - cbn [Nat.mul skipn]. rewrite <- Hy at 1. apply firstn_app_exact. reflexivity.
  - rewrite skipn_app. rewrite skipn_all2 by lia. cbn [app]. replace (S i * 64 - length y)%nat with (i * 64)%nat by lia. apply IH. lia.
Qed.
Lemma deinterleave r : forall (Yl : list (list Z)), length Yl = (2 * r)%nat ->
  flat_map (fun i => nth (i * 2) Yl []) (seq 0 r) = concat (evens Yl) /\ flat_map (fun i => nth (i * 2 + 1) Yl []) (seq 0 r) = concat (odds Yl).
Proof.
  induction r as [|r IH]; intros Yl HL; [destruct Yl; [split; reflexivity|discriminate HL]|].
  destruct Yl as [|a [|b Yl]]; cbn [length] in HL; try lia. destruct (IH Yl ltac:(lia)) as [I1 I2].
  assert (SH : forall (f : nat -> list Z) s, flat_map f (seq (S s) r) = flat_map (fun i => f (S i)) (seq s r)).
  { intros f s. rewrite <- seq_shift. rewrite !flat_map_concat_map, map_map. reflexivity. }
  cbn [seq flat_map]. rewrite !SH. split.
  - cbn [evens concat]. f_equal. exact I1.
  - unfold odds in *. cbn [tl evens concat]. destruct Yl as [|c Yl].
    + assert (r = 0%nat) by (cbn [length] in HL; lia). subst r. reflexivity.
    + change (evens (b :: c :: Yl)) with (b :: evens Yl). cbn [concat]. f_equal. etransitivity; [|exact I2].
      apply flat_map_ext. intros i. reflexivity.
Qed.
Lemma flat_map_ext_in {A} (f g : A -> list Z) l : (forall x, In x l -> f x = g x) -> flat_map f l = flat_map g l.
Proof. intros H. induction l as [|x l IH]; [reflexivity|]. cbn [flat_map]. rewrite (H x (or_introl eq_refl)), IH; [reflexivity|]. intros y Hy. apply H. right. exact Hy. Qed.
Lemma last_nth (l : list (list Z)) : l <> [] -> last l [] = nth (length l - 1) l [].
Proof.
  induction l as [|a l IH]; [congruence|]. intros _. destruct l as [|b l]; [reflexivity|]. change (last (a :: b :: l) []) with (last (b :: l) []).
  rewrite IH by discriminate. cbn [length]. replace (S (S (length l)) - 1)%nat with (S (S (length l) - 1)) by lia. reflexivity.
Qed.
Definition bB (r : nat) (B : list Z) : Prop := length B = (128 * r)%nat /\ bytes B.
Lemma div64 r (B : list Z) : length B = (128 * r)%nat -> (length B / 64 = 2 * r)%nat.
Proof. intros ->. replace (128 * r)%nat with (2 * r * 64)%nat by lia. apply Nat.div_mul. lia. Qed.
Lemma last_block r B : (0 < r)%nat -> bB r B -> blk64 B (2 * r - 1) = last (blocks 64 B) [] /\ b64 (last (blocks 64 B) []).
Proof.
  intros Hr [HL HB]. pose proof (div64 r B HL) as D. rewrite last_nth by (intros E; apply (f_equal (@length (list Z))) in E; rewrite blocks_length, D in E; cbn [length] in E; lia).
  rewrite blocks_length, D. rewrite blk64_nth by lia. split; [reflexivity|].
  pose proof (blocks_ok 64 B ltac:(lia) HB) as F. rewrite Forall_forall in F. apply F, nth_In. rewrite blocks_length. lia.
Qed.
Lemma concat_b64 l : Forall b64 l -> length (concat l) = (64 * length l)%nat /\ bytes (concat l).
Proof.
  induction 1 as [|a l [Ha Hb] HF [I1 I2]]; cbn [concat length]; [split; [reflexivity|constructor]|]. rewrite app_length. split; [lia|apply bytes_app; auto].
Qed.
Lemma evens_ok r : forall (Yl : list (list Z)), Forall b64 Yl -> length Yl = (2 * r)%nat ->
  Forall b64 (evens Yl ++ odds Yl) /\ length (evens Yl ++ odds Yl) = (2 * r)%nat.
Proof.
  induction r as [|r IH]; intros Yl HF HL; [destruct Yl; [split; [constructor|reflexivity]|discriminate HL]|].
  destruct Yl as [|a [|b Yl]]; cbn [length] in HL; try lia. inversion HF as [|? ? Ha HF1]; subst. inversion HF1 as [|? ? Hb HF2]; subst.
  destruct (IH Yl HF2 ltac:(lia)) as [I1 I2]. apply Forall_app in I1. destruct I1 as [I1 I3]. rewrite app_length in I2.
  assert (EO : odds (a :: b :: Yl) = b :: odds Yl) by (unfold odds; cbn [tl]; destruct Yl; reflexivity).
  rewrite EO. cbn [evens app length]. rewrite app_length. cbn [length]. split; [|lia]. constructor; [auto|]. apply Forall_app. split; [auto|constructor; auto].
Qed.
Lemma blockmix_spec r B : (0 < r)%nat -> bB r B -> blockmix_salsa8 B r = scryptBlockMix B /\ bB r (scryptBlockMix B).
Proof.
  intros Hr HB. pose proof HB as [HL Hb]. pose proof (div64 r B HL) as D. destruct (last_block r B Hr HB) as [E1 H1].
  unfold blockmix_salsa8, scryptBlockMix. cbv zeta. rewrite E1. rewrite mix_loop_spec by (auto; lia). cbn [skipn app].
  set (Yl := mixes (last (blocks 64 B) []) (blocks 64 B)).
  destruct (mixes_ok (blocks 64 B) (last (blocks 64 B) [])) as [L F]. fold Yl in L, F. rewrite blocks_length, D in L.
  destruct (deinterleave r Yl L) as [D1 D2]. split.
  - rewrite concat_app, <- D1, <- D2. f_equal; apply flat_map_ext_in; intros i Hi; apply in_seq in Hi; apply blk64_concat; auto; lia.
  - destruct (evens_ok r Yl F L) as [Q1 Q2]. destruct (concat_b64 _ Q1) as [W1 W2]. split; [rewrite W1, Q2; lia|exact W2].
Qed.

(* ---- integerify ---- *)
Lemma pow2_of_land N : 0 < N -> Z.land N (N - 1) = 0 -> N = 2 ^ Z.log2 N.
Proof.
  intros HN HL. pose proof (Z.log2_spec N HN) as [L1 L2]. pose proof (Z.log2_nonneg N) as L0. set (k := Z.log2 N) in *.
  destruct (Z.eq_dec N (2 ^ k)) as [E|E]; [exact E|]. exfalso.
  assert (B1 : Z.testbit N k = true) by (apply Z.bit_log2; exact HN).
  assert (EK : Z.log2 (N - 1) = k) by (apply Z.log2_unique; [exact L0|]; unfold Z.succ in *; lia).
  assert (B2 : Z.testbit (N - 1) k = true) by (rewrite <- EK; apply Z.bit_log2; lia).
  assert (C : Z.testbit (Z.land N (N - 1)) k = true) by (rewrite Z.land_spec, B1, B2; reflexivity).
  rewrite HL, Z.bits_0 in C. discriminate.
Qed.
Lemma le_val_firstn8 l : bytes l -> (8 <= length l)%nat -> read64le l = le_val l mod M64.
Proof.
  intros Hb HL. rewrite read64le_spec by auto. do 8 (destruct l as [|? l]; [cbn in HL; lia|]). unfold rd. cbn [nth].
  change (le_val (z :: z0 :: z1 :: z2 :: z3 :: z4 :: z5 :: z6 :: l)) with (dval 256 ([z; z0; z1; z2; z3; z4; z5; z6] ++ l)). unfold le_val.
  rewrite dval_app. change (256 ^ Z.of_nat (length [z; z0; z1; z2; z3; z4; z5; z6])) with M64. rewrite Z.mul_comm, Z_mod_plus_full.
  symmetry. apply Z.mod_small. change M64 with (256 ^ Z.of_nat (length [z; z0; z1; z2; z3; z4; z5; z6])). apply (le_val_range [z; z0; z1; z2; z3; z4; z5; z6]).
  exact (bytes_firstn 8 _ Hb).
Qed.
Lemma integerify_spec r X N : (0 < r)%nat -> bB r X -> 0 < N <= M64 -> Z.land N (N - 1) = 0 ->
  Z.land (integerify X r) (N - 1) = Integerify X mod N.
Proof.
  intros Hr HX HN HP. pose proof (pow2_of_land N ltac:(lia) HP) as EN. set (k := Z.log2 N) in *. pose proof (Z.log2_nonneg N) as Hk. fold k in Hk.
  assert (K64 : k <= 64). { apply Z.lt_succ_r. apply (Z.pow_lt_mono_r_iff 2); [lia|lia|]. rewrite <- EN. change (2 ^ Z.succ 64) with (2 * M64). unfold M64 in *. lia. }
  rewrite EN. replace (2 ^ k - 1) with (Z.ones k) by (rewrite Z.ones_equiv; lia). rewrite Z.land_ones by lia.
  unfold integerify, Integerify. destruct (last_block r X Hr HX) as [EB [B1 B2]]. destruct HX as [HL Hb].
  replace (skipn ((2 * r - 1) * 64) X) with (last (blocks 64 X) []).
  2: { rewrite <- EB. unfold blk64. apply firstn_all2. rewrite skipn_length. lia. }
  rewrite le_val_firstn8 by (auto; lia).
  assert (E64 : M64 = 2 ^ (64 - k) * 2 ^ k) by (rewrite <- Z.pow_add_r by lia; replace (64 - k + k) with 64 by lia; reflexivity).
  rewrite E64. rewrite Z.mul_comm. rewrite Z.rem_mul_r by (pose proof (Z.pow_pos_nonneg 2 k); pose proof (Z.pow_pos_nonneg 2 (64 - k)); lia).
  rewrite Z.mul_comm, Z_mod_plus_full. apply Z.mod_mod. pose proof (Z.pow_pos_nonneg 2 k ltac:(lia) Hk). lia.
Qed.

(* ---- ROMix ---- *)
Lemma iter_mix_ok r B n : (0 < r)%nat -> bB r B -> bB r (Nat.iter n scryptBlockMix B).
Proof. intros Hr HB. induction n as [|n IH]; [exact HB|]. change (bB r (scryptBlockMix (Nat.iter n scryptBlockMix B))). apply blockmix_spec; auto. Qed.
Lemma smix1_spec r B n : (0 < r)%nat -> bB r B -> forall i V, V = map (fun j => Nat.iter j scryptBlockMix B) (seq 0 i) ->
  smix1 n r (Nat.iter i scryptBlockMix B) V = (Nat.iter (i + n) scryptBlockMix B, map (fun j => Nat.iter j scryptBlockMix B) (seq 0 (i + n))).
Proof.
  intros Hr HB. induction n as [|n IH]; intros i V EV; cbn [smix1]; [rewrite Nat.add_0_r, EV; reflexivity|].
  destruct (blockmix_spec r (Nat.iter i scryptBlockMix B) Hr (iter_mix_ok r B i Hr HB)) as [E _]. rewrite E.
  change (scryptBlockMix (Nat.iter i scryptBlockMix B)) with (Nat.iter (S i) scryptBlockMix B).
  rewrite (IH (S i)); [replace (S i + n)%nat with (i + S n)%nat by lia; reflexivity|]. rewrite seq_S, map_app, EV. reflexivity.
Qed.
Lemma smix_spec r N B : (0 < r)%nat -> bB r B -> 0 < N <= M64 -> Z.land N (N - 1) = 0 ->
  smix B r N = scryptROMix B (Z.to_nat N) /\ bB r (scryptROMix B (Z.to_nat N)).
Proof.
  intros Hr HB HN HP. unfold smix, scryptROMix. cbv zeta.
  pose proof (smix1_spec r B (Z.to_nat N) Hr HB 0%nat [] eq_refl) as E1. change (Nat.iter 0 scryptBlockMix B) with B in E1. rewrite E1. clear E1. cbn [Nat.add].
  set (V := map (fun j => Nat.iter j scryptBlockMix B) (seq 0 (Z.to_nat N))). rewrite Z2Nat.id by lia.
  set (f := fun X => scryptBlockMix (map2 Z.lxor X (Nat.iter (Z.to_nat (Integerify X mod N)) scryptBlockMix B))).
  pose proof (iter_mix_ok r B (Z.to_nat N) Hr HB) as HX. revert HX. generalize (Nat.iter (Z.to_nat N) scryptBlockMix B). intros X HX.
  assert (ST : forall X, bB r X -> blockmix_salsa8 (map2 Z.lxor X (nth (Z.to_nat (Z.land (integerify X r) (N - 1))) V [])) r = f X /\ bB r (f X)).
  { intros Y HY. rewrite integerify_spec by auto. unfold f. pose proof (Z.mod_pos_bound (Integerify Y) N ltac:(lia)) as BD.
    set (j := Z.to_nat (Integerify Y mod N)). assert (Hj : (j < Z.to_nat N)%nat) by lia.
    assert (EV : nth j V [] = Nat.iter j scryptBlockMix B).
    { unfold V. rewrite (nth_indep _ [] (Nat.iter 0 scryptBlockMix B)) by (rewrite map_length, seq_length; lia).
      rewrite (map_nth (fun j => Nat.iter j scryptBlockMix B)), seq_nth by lia. reflexivity. }
    rewrite EV. apply blockmix_spec; auto. pose proof (iter_mix_ok r B j Hr HB) as [J1 J2]. destruct HY as [Y1 Y2].
    split; [rewrite map2_length; lia|apply xor_bytes; auto]. }
  assert (G : forall n X, bB r X -> smix2 n r N V X = Nat.iter n f X /\ bB r (Nat.iter n f X)).
  { induction n as [|n IH]; intros Y HY; cbn [smix2]; [split; [reflexivity|exact HY]|]. destruct (ST Y HY) as [E2 H2]. rewrite E2.
    destruct (IH (f Y) H2) as [I1 I2]. rewrite I1, iter_succ_r. auto. }
  apply G. exact HX.
Qed.

(* ---- the whole function ---- *)
Lemma dk_ok id P Sa c L : bytes P -> bytes Sa -> length (pbkdf2_dk id P Sa c L) = L /\ bytes (pbkdf2_dk id P Sa c L).
Proof.
  intros HP HS. unfold pbkdf2_dk. pose proof (osize id) as Ho. destruct (cover_bounds (hash_output_size id) L ltac:(lia)) as [C1 _].
  set (f := fun i => pbkdf2_F id P Sa (Z.of_nat i) (c - 1)).
  assert (G : forall n s, length (concat (map f (seq s n))) = (n * hash_output_size id)%nat /\ bytes (concat (map f (seq s n)))).
  { induction n as [|n IH]; intros s; cbn [seq map concat]; [split; [reflexivity|constructor]|]. destruct (IH (S s)) as [I1 I2].
    destruct (F_ok id P Sa (Z.of_nat s) (c - 1) HP HS) as [F1 F2]. fold (f s) in F1, F2. rewrite app_length. split; [lia|apply bytes_app; auto]. }
  destruct (G (cover (hash_output_size id) L) 1%nat) as [G1 G2]. split; [rewrite firstn_length; lia|apply bytes_firstn; auto].
Qed.
Lemma fold_romix r p N B : (0 < r)%nat -> 0 < N <= M64 -> Z.land N (N - 1) = 0 -> length B = (p * (128 * r))%nat -> bytes B ->
  flat_map (fun i => smix (firstn (128 * r) (skipn (i * 128 * r) B)) r N) (seq 0 p) = concat (map (fun b => scryptROMix b (Z.to_nat N)) (blocks (128 * r) B)) /\
  length (concat (map (fun b => scryptROMix b (Z.to_nat N)) (blocks (128 * r) B))) = (p * (128 * r))%nat /\
  bytes (concat (map (fun b => scryptROMix b (Z.to_nat N)) (blocks (128 * r) B))).
Proof.
  intros Hr HN HP HL HB. assert (D : (length B / (128 * r) = p)%nat) by (rewrite HL; apply Nat.div_mul; lia).
  pose proof (blocks_ok (128 * r) B ltac:(lia) HB) as F. split.
  - unfold blocks. rewrite D, map_map, flat_map_concat_map. f_equal. apply map_ext_in. intros i Hi. apply in_seq in Hi.
    replace (i * 128 * r)%nat with (i * (128 * r))%nat by lia. apply smix_spec; auto.
    rewrite Forall_forall in F. apply F. unfold blocks. apply in_map_iff. exists i. split; [reflexivity|]. apply in_seq. lia.
  - assert (LB : length (blocks (128 * r) B) = p) by (rewrite blocks_length; exact D). revert LB F. generalize (blocks (128 * r) B). clear - Hr HN HP.
    intros l. revert p. induction l as [|b l IH]; intros p LB F; cbn [length] in LB; subst p; cbn [map concat]; [split; [reflexivity|constructor]|].
    inversion F as [|? ? Hb Hl]; subst. destruct (IH (length l) eq_refl Hl) as [I1 I2]. destruct (smix_spec r N b Hr Hb HN HP) as [_ [S1 S2]].
    rewrite app_length, I1, S1. split; [lia|apply bytes_app; auto].
Qed.
Theorem scrypt_value pass salt N r p len : bytes pass -> bytes salt -> Z.of_nat (length pass) < M64 -> Z.of_nat (length salt) < M64 ->
  (0 < r)%nat -> (0 < p)%nat -> 0 < N -> Z.land N (N - 1) = 0 -> Z.of_nat r * Z.of_nat p < 2 ^ 30 -> Z.of_nat len <= (2 ^ 32 - 1) * 32 ->
  128 * Z.of_nat r * N < M64 -> scrypt_derive pass salt N r p len = Ok (scrypt pass salt (Z.to_nat N) r p len).
Proof.
  intros Hp Hs Lp Ls Hr Hpp HN HP HRP HLen HNR. change (2 ^ 30) with 1073741824 in HRP. change ((2 ^ 32 - 1) * 32) with 137438953440 in HLen.
  assert (EM : M64 = 18446744073709551616) by reflexivity.
  unfold scrypt_derive. cbv zeta. change (2 ^ 30) with 1073741824. change ((2 ^ 32 - 1) * 32) with 137438953440.
  destruct (Z.eqb_spec N 0); [lia|]. destruct (Z.eqb_spec (Z.of_nat r) 0); [lia|]. destruct (Z.eqb_spec (Z.of_nat p) 0); [lia|]. cbn [orb].
  destruct (Z.ltb_spec 137438953440 (Z.of_nat len)); [lia|]. destruct (Z.leb_spec 1073741824 (Z.of_nat r * Z.of_nat p)); [lia|].
  assert (A1 : Z.of_nat r <= (M64 - 1) / 128 / Z.of_nat p) by (apply Z.div_le_lower_bound; [lia|]; rewrite EM; change ((18446744073709551616 - 1) / 128) with 144115188075855871; nia).
  destruct (Z.ltb_spec ((M64 - 1) / 128 / Z.of_nat p) (Z.of_nat r)); [lia|].
  assert (A2 : Z.of_nat r <= (M64 - 1) / 256) by (rewrite EM; change ((18446744073709551616 - 1) / 256) with 72057594037927935; nia).
  destruct (Z.ltb_spec ((M64 - 1) / 256) (Z.of_nat r)); [lia|].
  assert (A3 : N <= (M64 - 1) / 128 / Z.of_nat r) by (rewrite Z.div_div by lia; apply Z.div_le_lower_bound; lia).
  destruct (Z.ltb_spec ((M64 - 1) / 128 / Z.of_nat r) N); [lia|]. rewrite HP. cbn [Z.eqb negb].
  assert (EZ : length (pbkdf2_dk SHA256 pass salt 1 (p * 128 * r)) = (p * (128 * r))%nat) by (rewrite (proj1 (dk_ok SHA256 pass salt 1 _ Hp Hs)); lia).
  destruct (Nat.eqb_spec len 0) as [->|NL].
  { reflexivity. }
  assert (LR : Z.of_nat (p * 128 * r) <= 137438953472) by nia.
  rewrite pbkdf2_value; auto; [|lia]. cbn [hash_output_size]. change ((2 ^ 32 - 1) * Z.of_nat 32) with 137438953440.
  destruct (Z.leb_spec (Z.of_nat (p * 128 * r)) 137438953440) as [G|G]; [|exfalso; nia].
  cbn [bind]. change (Z.to_nat 1) with 1%nat. unfold scrypt. cbv zeta.
  destruct (dk_ok SHA256 pass salt 1 (p * 128 * r) Hp Hs) as [K1 K2].
  destruct (fold_romix r p N (pbkdf2_dk SHA256 pass salt 1 (p * 128 * r)) Hr ltac:(nia) HP EZ K2) as [F1 [F2 F3]]. rewrite F1.
  rewrite pbkdf2_value; auto; [|rewrite F2; lia|lia]. cbn [hash_output_size]. change ((2 ^ 32 - 1) * Z.of_nat 32) with 137438953440.
  destruct (Z.leb_spec (Z.of_nat len) 137438953440) as [G2|G2]; [reflexivity|lia].
Qed.
Theorem scrypt_rejects pass salt N r p len : 0 <= N ->
  r = 0%nat \/ p = 0%nat \/ N = 0 \/ Z.land N (N - 1) <> 0 \/ 2 ^ 30 <= Z.of_nat r * Z.of_nat p \/ (2 ^ 32 - 1) * 32 < Z.of_nat len \/ M64 <= 128 * Z.of_nat r * N ->
  scrypt_derive pass salt N r p len = Fail.
Proof.
  intros HN H. unfold scrypt_derive. cbv zeta.
  destruct (Z.eqb_spec N 0); [reflexivity|]. destruct (Z.eqb_spec (Z.of_nat r) 0); [reflexivity|]. destruct (Z.eqb_spec (Z.of_nat p) 0); [reflexivity|]. cbn [orb].
  destruct (Z.ltb_spec ((2 ^ 32 - 1) * 32) (Z.of_nat len)); [reflexivity|]. destruct (Z.leb_spec (2 ^ 30) (Z.of_nat r * Z.of_nat p)); [reflexivity|].
  destruct (_ <? Z.of_nat r); [reflexivity|]. destruct (_ <? Z.of_nat r); [reflexivity|].
  destruct (Z.ltb_spec ((M64 - 1) / 128 / Z.of_nat r) N) as [G|G]; [reflexivity|]. destruct (Z.eqb_spec (Z.land N (N - 1)) 0) as [E|E]; [|reflexivity].
  exfalso. destruct H as [H|[H|[H|[H|[H|[H|H]]]]]]; try lia. rewrite Z.div_div in G by lia.
  assert (N * (128 * Z.of_nat r) <= M64 - 1) by (pose proof (Z.mul_div_le (M64 - 1) (128 * Z.of_nat r) ltac:(lia)); nia). lia.
Qed.
