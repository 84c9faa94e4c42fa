(* SipHash *)
From Verif.Base Require Import Prelude.
From Verif.Model Require Import Bio Block Mac.
From Verif.Spec Require Import BlockSpec MacSpec.
From Verif.Proof Require Import BioProof BlockProof BufCrypt PolyProof Poly64.
#[local] Ltac Zify.zify_post_hook ::= idtac.

Definition word (x : Z) : Prop := 0 <= x < 2 ^ 64.
Definition words4 (v : sip) : Prop := let '(a, b, c, d) := v in word a /\ word b /\ word c /\ word d.

Lemma rotl64_rol x n : word x -> 0 <= n <= 64 -> rotl64 x n = rol x n.
Proof.
  intros Hx Hn. unfold rotl64, rol, w64. rewrite M64_eq. rewrite Z.shiftl_mul_pow2, Z.shiftr_div_pow2 by lia.
  replace (x * 2 ^ n mod 2 ^ 64) with (Z.shiftl (x mod 2 ^ (64 - n)) n).
  2:{ rewrite Z.shiftl_mul_pow2 by lia. replace (2 ^ 64) with (2 ^ (64 - n) * 2 ^ n) by (rewrite <- Z.pow_add_r by lia; f_equal; lia).
      rewrite Z.mul_mod_distr_r by (apply Z.pow_nonzero; lia). reflexivity. }
  rewrite lor_shiftl_add; [rewrite Z.shiftl_mul_pow2 by lia; reflexivity|lia|].
  split; [apply Z.div_pos; [apply Hx|apply Z.pow_pos_nonneg; lia]|].
  apply Z.div_lt_upper_bound; [apply Z.pow_pos_nonneg; lia|]. rewrite <- Z.pow_add_r by lia.
  replace (64 - n + n) with 64 by lia. apply Hx.
Qed.
Lemma rotl64_word x n : word x -> 0 <= n <= 64 -> word (rotl64 x n).
Proof.
  intros Hx Hn. unfold rotl64. apply lor_range; [lia|rewrite <- M64_eq; apply w64_range|].
  rewrite Z.shiftr_div_pow2 by lia. split; [apply Z.div_pos; [apply Hx|apply Z.pow_pos_nonneg; lia]|].
  apply Z.le_lt_trans with x; [|apply Hx]. apply Z.div_le_upper_bound; [apply Z.pow_pos_nonneg; lia|].
  pose proof (Z.pow_pos_nonneg 2 (64 - n) ltac:(lia) ltac:(lia)). destruct Hx. nia.
Qed.
Lemma add64_word x y : word (add64 x y).
Proof. unfold word. rewrite <- M64_eq. apply w64_range. Qed.
Lemma lxor_word x y : word x -> word y -> word (Z.lxor x y).
Proof. apply lxor_range. lia. Qed.

#[local] Hint Resolve rotl64_word add64_word lxor_word : sip.

Lemma sipround_words v : words4 v -> words4 (sipround v).
Proof.
  destruct v as [[[a b] c] d]. intros [Ha [Hb [Hc Hd]]]. cbv delta [sipround]. cbv beta iota.
  lt v0 E0. lt v1 E1. lt v1' E1'. lt v0' E0'. lt v2 E2. lt v3 E3. lt v3' E3'. lt v0'' E0''. lt v3'' E3''. lt v3a E3a. lt v2a E2a. lt v1a E1a. lt v1b E1b. lt v2b E2b.
  assert (word v0) by (subst v0; auto with sip). assert (word v1) by (subst v1; apply rotl64_word; auto; lia).
  assert (word v1') by (subst v1'; auto with sip). assert (word v0') by (subst v0'; apply rotl64_word; auto; lia).
  assert (word v2) by (subst v2; auto with sip). assert (word v3) by (subst v3; apply rotl64_word; auto; lia).
  assert (word v3') by (subst v3'; auto with sip). assert (word v0'') by (subst v0''; auto with sip).
  assert (word v3'') by (subst v3''; apply rotl64_word; auto; lia). assert (word v3a) by (subst v3a; auto with sip).
  assert (word v2a) by (subst v2a; auto with sip). assert (word v1a) by (subst v1a; apply rotl64_word; auto; lia).
  assert (word v1b) by (subst v1b; auto with sip). assert (word v2b) by (subst v2b; apply rotl64_word; auto; lia).
  unfold words4. auto.
Qed.

Lemma sipround_spec v : words4 v -> sipround v = sip_rnd v.
Proof.
  destruct v as [[[a b] c] d]. intros [Ha [Hb [Hc Hd]]]. unfold sip_rnd, sip_half. cbv delta [sipround]. cbv beta iota zeta.
  unfold add64, w64. rewrite M64_eq.
  assert (A : forall x, word (x mod 2 ^ 64)) by (intros; apply Z.mod_pos_bound; lia).
  rewrite (rotl64_rol b 13), (rotl64_rol d 16) by (auto; lia). rewrite (rotl64_rol (_ mod _) 32) by (auto; lia).
  assert (RB : word (rol b 13)) by (rewrite <- rotl64_rol by (auto; lia); apply rotl64_word; auto; lia).
  assert (RD : word (rol d 16)) by (rewrite <- rotl64_rol by (auto; lia); apply rotl64_word; auto; lia).
  set (x := Z.lxor (rol b 13) ((a + b) mod 2 ^ 64)). set (y := Z.lxor (rol d 16) ((c + d) mod 2 ^ 64)).
  assert (HX : word x) by (unfold x; auto with sip). assert (HY : word y) by (unfold y; auto with sip).
  rewrite (rotl64_rol x 17), (rotl64_rol y 21) by (auto; lia). rewrite (rotl64_rol (_ mod _) 32) by (auto; lia). reflexivity.
Qed.

Lemma sip_word_spec v w : words4 v -> word w -> sip_word v w = sip_compress v w /\ words4 (sip_word v w).
Proof.
  destruct v as [[[a b] c] d]. intros [Ha [Hb [Hc Hd]]] Hw. unfold sip_word, sip_compress.
  assert (H0 : words4 (a, b, c, Z.lxor d w)) by (unfold words4; auto with sip).
  change (Nat.iter 2 sip_rnd (a, b, c, Z.lxor d w)) with (sip_rnd (sip_rnd (a, b, c, Z.lxor d w))).
  assert (H1 := sipround_words _ H0). assert (H2 := sipround_words _ H1).
  rewrite (sipround_spec _ H1) in *. rewrite (sipround_spec _ H0) in *.
  destruct (sip_rnd (sip_rnd _)) as [[[a' b'] c'] d']. split; [reflexivity|].
  destruct H2 as [? [? [? ?]]]. unfold words4. auto with sip.
Qed.
Lemma lxor_assoc4 a b c d : Z.lxor (Z.lxor (Z.lxor a b) c) d = Z.lxor (Z.lxor a b) (Z.lxor c d).
Proof. rewrite !Z.lxor_assoc. reflexivity. Qed.
Lemma sip_end_spec v : words4 v -> sip_end v = sip_finish v /\ word (sip_end v).
Proof.
  destruct v as [[[a b] c] d]. intros [Ha [Hb [Hc Hd]]]. unfold sip_end, sip_finish.
  assert (H0 : words4 (a, b, Z.lxor c 255, d)).
  { unfold words4. assert (word 255) by (unfold word; lia). auto with sip. }
  change (Nat.iter 4 sip_rnd ?x) with (sip_rnd (sip_rnd (sip_rnd (sip_rnd x)))).
  assert (H1 := sipround_words _ H0). assert (H2 := sipround_words _ H1). assert (H3 := sipround_words _ H2). assert (H4 := sipround_words _ H3).
  rewrite (sipround_spec _ H3) in *. rewrite (sipround_spec _ H2) in *. rewrite (sipround_spec _ H1) in *. rewrite (sipround_spec _ H0) in *.
  change (Z.lxor c 0xff) with (Z.lxor c 255).
  destruct (sip_rnd (sip_rnd (sip_rnd (sip_rnd _)))) as [[[a' b'] c'] d']. destruct H4 as [? [? [? ?]]].
  split; [apply lxor_assoc4|]. auto with sip.
Qed.

Lemma le_val_word b : bytes b -> (length b <= 8)%nat -> word (le_val b).
Proof.
  intros Hb Hl. pose proof (le_val_range b Hb) as [H1 H2]. split; [auto|].
  apply Z.lt_le_trans with (256 ^ Z.of_nat (length b)); [auto|]. change (2 ^ 64) with (256 ^ 8). apply Z.pow_le_mono_r; lia.
Qed.

Definition step8 (v : sip) (b : list Z) : sip := sip_compress v (le_val b).
Lemma sip_loop_spec f : forall v data, bytes data -> words4 v -> (length data <= f)%nat ->
  sip_loop f v data = (fold_left step8 (blocks 8 data) v, leftover 8 data) /\ words4 (fold_left step8 (blocks 8 data) v).
Proof.
  induction f as [|f IH]; intros v data Hb Hv L.
  { destruct data; [|cbn in L; lia]. rewrite blocks_nil, leftover_small by (cbn; lia). auto. }
  cbn [sip_loop]. destruct (Nat.leb_spec 8 (length data)) as [H|H].
  - rewrite read64le_firstn by auto.
    assert (HW : word (le_val (firstn 8 data))) by (apply le_val_word; [apply bytes_firstn; auto|rewrite firstn_length; lia]).
    destruct (sip_word_spec v _ Hv HW) as [E W].
    destruct (IH (sip_word v (le_val (firstn 8 data))) (skipn 8 data)) as [I1 I2]; [apply bytes_skipn; auto|auto|rewrite skipn_length; lia|].
    rewrite I1. rewrite (blocks_cons 8 data) by lia. cbn [fold_left]. change (step8 v (firstn 8 data)) with (sip_compress v (le_val (firstn 8 data))). rewrite <- E. split; [|auto]. f_equal.
    rewrite <- (firstn_skipn 8 data) at 2. symmetry. apply (leftover_app 8 1); [lia|]. rewrite firstn_length. lia.
  - rewrite blocks_nil, leftover_small by lia. auto.
Qed.

Lemma rd_nth l i : rd l i = nth i l 0.
Proof. reflexivity. Qed.
Lemma sip_tail_spec n : forall f0 data, bytes data -> length data = n -> (n <= 7)%nat -> 
  f0 mod 2 ^ (8 * Z.of_nat n) = 0 -> 0 <= f0 ->
  forall k, (k <= n)%nat -> sip_tail k (f0 + (le_val data - le_val (firstn k data))) data = f0 + le_val data.
Proof.
  intros f0 data Hb Hl Hn Hf Hp. induction k as [|k IH]; intros Hk.
  - cbn [sip_tail firstn]. unfold le_val at 2. cbn [dval]. lia.
  - cbn [sip_tail].
    assert (E : firstn (S k) data = firstn k data ++ [nth k data 0]).
    { rewrite <- (firstn_skipn k data) at 1. rewrite firstn_app. rewrite firstn_length. rewrite firstn_firstn.
      replace (Nat.min (S k) k) with k by lia. replace (S k - Nat.min k (length data))%nat with 1%nat by lia. f_equal.
      destruct (skipn k data) as [|x t] eqn:EE; [apply (f_equal (@length Z)) in EE; rewrite skipn_length in EE; cbn in EE; lia|].
      cbn [firstn]. f_equal. pose proof (nth_skipn k 0 data 0) as X. rewrite EE in X. cbn [nth] in X. rewrite Nat.add_0_r in X. auto. }
    assert (LK : length (firstn k data) = k) by (rewrite firstn_length; lia).
    set (a := nth k data 0). assert (Ba : 0 <= a < 256) by (refine (proj1 (Forall_forall _ _) Hb _ _); apply nth_In; lia).
    assert (EV : le_val (firstn (S k) data) = le_val (firstn k data) + 2 ^ (8 * Z.of_nat k) * a).
    { rewrite E. unfold le_val. rewrite dval_app, LK. cbn [dval]. fold a. rewrite Z.pow_mul_r by lia. change (2 ^ 8) with 256. lia. }
    assert (ED : exists q, f0 + (le_val data - le_val (firstn (S k) data)) = 2 ^ (8 * Z.of_nat (S k)) * q).
    { apply Z.mod_divide in Hf; [|apply Z.pow_nonzero; lia]. destruct Hf as [q Hf].
      assert (X : le_val data = le_val (firstn (S k) data) + 2 ^ (8 * Z.of_nat (S k)) * le_val (skipn (S k) data)).
      { rewrite <- (firstn_skipn (S k) data) at 1. unfold le_val. rewrite dval_app. rewrite firstn_length.
        replace (Nat.min (S k) (length data)) with (S k) by lia. rewrite (Z.pow_mul_r 2) by lia. reflexivity. }
      exists (q * 2 ^ (8 * Z.of_nat (n - S k)) + le_val (skipn (S k) data)).
      rewrite Hf, X. replace (8 * Z.of_nat n) with (8 * Z.of_nat (n - S k) + 8 * Z.of_nat (S k)) by lia. rewrite Z.pow_add_r by lia. ring. }
    destruct ED as [q ED].
    assert (SH : shl64 (rd data k) (8 * Z.of_nat k) = 2 ^ (8 * Z.of_nat k) * a).
    { unfold shl64. rewrite rd_nth. fold a. rewrite Z.shiftl_mul_pow2 by lia. rewrite Z.mul_comm. apply w64_id.
      split; [apply Z.mul_nonneg_nonneg; [apply Z.pow_nonneg; lia|lia]|].
      apply Z.lt_le_trans with (2 ^ (8 * Z.of_nat k) * 2 ^ 8); [apply Z.mul_lt_mono_pos_l; [apply Z.pow_pos_nonneg; lia|lia]|].
      rewrite <- Z.pow_add_r by lia. apply Z.pow_le_mono_r; lia. }
    rewrite SH, ED. replace (2 ^ (8 * Z.of_nat (S k)) * q) with (Z.shiftl q (8 * Z.of_nat (S k))) by (rewrite Z.shiftl_mul_pow2 by lia; lia).
    rewrite lor_shiftl_add.
    + rewrite <- IH by lia. f_equal. rewrite EV in ED. replace (q * 2 ^ (8 * Z.of_nat (S k))) with (2 ^ (8 * Z.of_nat (S k)) * q) by lia.
      rewrite <- ED. lia.
    + lia.
    + split; [apply Z.mul_nonneg_nonneg; [apply Z.pow_nonneg; lia|lia]|].
      replace (8 * Z.of_nat (S k)) with (8 * Z.of_nat k + 8) by lia. rewrite Z.pow_add_r by lia. 
      apply Z.mul_lt_mono_pos_l; [apply Z.pow_pos_nonneg; lia|lia].
Qed.

Lemma sip_f0 n : shl64 (w64 (Z.of_nat n)) 56 = (Z.of_nat n mod 256) * 2 ^ 56.
Proof.
  unfold shl64, w64. rewrite M64_eq, Z.shiftl_mul_pow2 by lia. change (2 ^ 64) with (2 ^ 8 * 2 ^ 56).
  rewrite Z.mul_mod_distr_r by lia. f_equal. change 256 with (2 ^ 8).
  rewrite Z.rem_mul_r by lia. rewrite (Z.mul_comm (2 ^ 8) (_ mod _)), Z.mod_add, Z.mod_mod by lia. reflexivity.
Qed.

Lemma sip_init_words key : bytes key -> length key = 16%nat ->
  sip_init key = sip_start (le_val (firstn 8 key)) (le_val (firstn 8 (skipn 8 key))) /\ words4 (sip_init key).
Proof.
  intros Hb Hl. unfold sip_init, sip_start.
  rewrite (read64le_firstn key) by (auto; lia). rewrite (read64le_firstn (skipn 8 key)) by (try apply bytes_skipn; auto; rewrite skipn_length; lia).
  split; [reflexivity|].
  assert (W1 : word (le_val (firstn 8 key))) by (apply le_val_word; [apply bytes_firstn; auto|rewrite firstn_length; lia]).
  assert (W2 : word (le_val (firstn 8 (skipn 8 key)))) by (apply le_val_word; [apply bytes_firstn, bytes_skipn; auto|rewrite firstn_length; lia]).
  unfold words4. repeat split; apply lxor_word; auto; unfold word; lia.
Qed.

Theorem siphash_sum_spec data key : bytes data -> bytes key -> length key = 16%nat ->
  siphash_sum data key = siphash24 key data /\ word (siphash_sum data key).
Proof.
  intros Hd Hk Hl. unfold siphash_sum, siphash24. cbv zeta.
  destruct (sip_init_words key Hk Hl) as [EI WI].
  destruct (sip_loop_spec (length data) (sip_init key) data Hd WI ltac:(lia)) as [L1 L2]. rewrite L1.
  set (t := leftover 8 data). assert (Bt : bytes t) by (apply leftover_bytes; auto).
  assert (Lt : length t = (length data mod 8)%nat) by (apply leftover_length; lia).
  pose proof (Nat.mod_upper_bound (length data) 8 ltac:(lia)) as HU.
  rewrite sip_f0. set (lb := Z.of_nat (length data) mod 256). assert (Blb : 0 <= lb < 256) by (apply Z.mod_pos_bound; lia).
  assert (ET : sip_tail (length t) (lb * 2 ^ 56) t = lb * 2 ^ 56 + le_val t).
  { pose proof (sip_tail_spec (length t) (lb * 2 ^ 56) t Bt eq_refl ltac:(lia)) as X.
    assert (M : (lb * 2 ^ 56) mod 2 ^ (8 * Z.of_nat (length t)) = 0).
    { apply Z.mod_divide; [apply Z.pow_nonzero; lia|]. exists (lb * 2 ^ (56 - 8 * Z.of_nat (length t))).
      rewrite <- Z.mul_assoc, <- Z.pow_add_r by lia. do 2 f_equal. lia. }
    specialize (X M ltac:(lia) (length t) ltac:(lia)). rewrite firstn_all in X. rewrite Z.sub_diag, Z.add_0_r in X. exact X. }
  rewrite ET.
  assert (EP : blocks 8 (sip_padded data) = blocks 8 data ++ [t ++ repeat 0 (7 - length t) ++ [lb]]).
  { destruct (blocks_leftover 8 data ltac:(lia)) as [x [X1 [X2 X3]]]. fold t in X1.
    unfold sip_padded. rewrite <- Lt. fold lb. rewrite <- X3. set (p := repeat 0 (7 - length t) ++ [lb]).
    pose proof (f_equal (fun z => z ++ p) X1) as X4. cbv beta in X4. rewrite X4, <- app_assoc.
    rewrite (blocks_app 8 (length data / 8)) by (auto; lia). f_equal.
    assert (LP : length (t ++ p) = 8%nat) by (unfold p; rewrite !app_length, repeat_length; cbn [length]; lia).
    rewrite blocks_cons by lia. rewrite firstn_all2 by lia. rewrite blocks_nil by (rewrite skipn_length; lia). reflexivity. }
  assert (EB : le_val (t ++ repeat 0 (7 - length t) ++ [lb]) = lb * 2 ^ 56 + le_val t).
  { unfold le_val. rewrite !dval_app, dval_repeat0, repeat_length. cbn [dval].
    replace (256 ^ Z.of_nat (length t) * (0 + 256 ^ Z.of_nat (7 - length t) * (lb + 256 * 0))) with
      (256 ^ Z.of_nat (length t) * 256 ^ Z.of_nat (7 - length t) * lb) by ring.
    rewrite <- Z.pow_add_r by lia. replace (Z.of_nat (length t) + Z.of_nat (7 - length t)) with 7 by lia. change (256 ^ 7) with (2 ^ 56). lia. }
  assert (WB : word (lb * 2 ^ 56 + le_val t)).
  { rewrite <- EB. apply le_val_word.
    - rewrite !bytes_app. split; [auto|]. split; [apply bytes_repeat; unfold byte; lia|constructor; [exact Blb|constructor]].
    - rewrite !app_length, repeat_length. cbn [length]. lia. }
  rewrite EP, fold_left_app. cbn [fold_left]. rewrite EB. rewrite <- EI. fold step8.
  destruct (sip_word_spec _ _ L2 WB) as [E1 W1]. rewrite E1 in *. apply sip_end_spec. exact W1.
Qed.

(* the two multiply-shift reductions *)
Lemma mulhi a m : word a -> word m -> w64 (shr (w128 (a * m)) 64) = a * m / 2 ^ 64.
Proof.
  intros Ha Hm. unfold word in *. pose proof (mulb a m (2 ^ 64 - 1) (2 ^ 64 - 1) ltac:(lia) ltac:(lia)) as Q.
  rewrite w128_id by lia. rewrite shr_div by lia. apply w64_id.
  split; [apply Z.div_pos; lia|]. apply Z.div_lt_upper_bound; lia.
Qed.
Lemma mulhi_fallback a m : word a -> word m ->
  (let ahi := shr a 32 in
  let alo := Z.land a 0xffffffff in
  let bhi := shr m 32 in
  let blo := Z.land m 0xffffffff in
  let axbhi := mul64 ahi bhi in
  let axbmid := mul64 ahi blo in
  let bxamid := mul64 bhi alo in
  let axblo := mul64 alo blo in
  let c := add64 (add64 (Z.land axbmid 0xffffffff) (Z.land bxamid 0xffffffff)) (shr axblo 32) in
  add64 (add64 (add64 axbhi (shr axbmid 32)) (shr bxamid 32)) (shr c 32)) = a * m / 2 ^ 64.
Proof.
  intros Ha Hm. unfold word in Ha, Hm. match goal with |- ?l = ?r => change (is r l) end.
  lt ahi E1; rewrite shr_div in E1 by lia. lt alo E2; rewrite land_ff32 in E2. lt bhi E3; rewrite shr_div in E3 by lia. lt blo E4; rewrite land_ff32 in E4.
  dm a (2 ^ 32). dm m (2 ^ 32). 
  assert (B1 : 0 <= ahi <= 2 ^ 32 - 1) by lia. assert (B2 : 0 <= alo <= 2 ^ 32 - 1) by lia.
  assert (B3 : 0 <= bhi <= 2 ^ 32 - 1) by lia. assert (B4 : 0 <= blo <= 2 ^ 32 - 1) by lia.
  assert (EA : a = 2 ^ 32 * ahi + alo) by lia. assert (EM : m = 2 ^ 32 * bhi + blo) by lia. clear - EA EM B1 B2 B3 B4.
  pose proof (mulb _ _ _ _ B1 B3) as Q1. pose proof (mulb _ _ _ _ B1 B4) as Q2. pose proof (mulb _ _ _ _ B3 B2) as Q3. pose proof (mulb _ _ _ _ B2 B4) as Q4.
  lt h F1; unfold mul64 in F1; rewrite w64_id in F1 by lia. lt x F2; unfold mul64 in F2; rewrite w64_id in F2 by lia.
  lt y F3; unfold mul64 in F3; rewrite w64_id in F3 by lia. lt l F4; unfold mul64 in F4; rewrite w64_id in F4 by lia.
  assert (EP : a * m = 2 ^ 64 * h + 2 ^ 32 * x + 2 ^ 32 * y + l) by (rewrite EA, EM, F1, F2, F3, F4; ring).
  rewrite EP. rewrite <- F1 in Q1. rewrite <- F2 in Q2. rewrite <- F3 in Q3. rewrite <- F4 in Q4. clear - Q1 Q2 Q3 Q4.
  rewrite !land_ff32, !shr_div by lia. dm x (2 ^ 32). dm y (2 ^ 32). dm l (2 ^ 32).
  unfold add64. set (c := x mod 2 ^ 32 + y mod 2 ^ 32 + l / 2 ^ 32).
  assert (L32 : l / 2 ^ 32 < 2 ^ 32) by lia.
  rewrite (w64_id (x mod 2 ^ 32 + y mod 2 ^ 32)) by lia. fold c. assert (C : 0 <= c < 3 * 2 ^ 32) by (unfold c; lia).
  rewrite (w64_id c) by lia. rewrite shr_div by lia. dm c (2 ^ 32).
  assert (X32 : x / 2 ^ 32 < 2 ^ 32) by lia. assert (Y32 : y / 2 ^ 32 < 2 ^ 32) by lia.
  rewrite (w64_id (h + x / 2 ^ 32)) by lia. rewrite (w64_id (h + x / 2 ^ 32 + y / 2 ^ 32)) by lia. rewrite w64_id by lia.
  unfold is. apply (Z.div_unique_pos _ _ _ (2 ^ 32 * (c mod 2 ^ 32) + l mod 2 ^ 32)); [lia|]. unfold c in *. lia.
Qed.
