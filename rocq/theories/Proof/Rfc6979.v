(* bits2int and the RFC 6979 candidates as HMAC-DRBG outputs. *)
From Verif.Base Require Import Prelude.
From Verif.Model Require Import Encoding Bio Asn1 Hash Drbg NumTheory Rsa Dsa.
From Verif.Spec Require Import HashSpec KdfSpec DrbgSpec DsaSpec.
From Verif.Proof Require Import RsaKey HmacProof KdfProof DrbgProof.

Lemma bitlen_blen q : 0 < q -> mpz_bitlen q = blen q.
Proof. intros H. unfold mpz_bitlen, blen. destruct (Z.eqb_spec q 0); [lia|]. rewrite Z.abs_eq by lia. reflexivity. Qed.
Lemma blen_pos q : 0 < q -> 1 <= blen q. Proof. intros. unfold blen. pose proof (Z.log2_nonneg q). lia. Qed.
Lemma blen_range q : 0 < q -> 2 ^ (blen q - 1) <= q < 2 ^ blen q.
Proof. intros H. unfold blen. replace (Z.log2 q + 1 - 1) with (Z.log2 q) by lia. apply Z.log2_spec. exact H. Qed.
Lemma octs_ge q : 0 < q -> Z.of_nat (octs q) = (blen q + 7) / 8 /\ blen q <= 8 * Z.of_nat (octs q) <= blen q + 7.
Proof.
  intros H. pose proof (blen_pos q H). unfold octs. rewrite Z2Nat.id by (apply Z.div_pos; lia). split; [reflexivity|].
  pose proof (Z.div_mod (blen q + 7) 8 ltac:(lia)). pose proof (Z.mod_pos_bound (blen q + 7) 8 ltac:(lia)). lia.
Qed.
Lemma q_octs q : 0 < q -> q < 256 ^ Z.of_nat (octs q).
Proof.
  intros H. destruct (octs_ge q H) as (_ & O). pose proof (blen_pos q H). change 256 with (2 ^ 8). rewrite <- Z.pow_mul_r by lia. pose proof (blen_range q H) as R.
  eapply Z.lt_le_trans; [apply R|]. apply Z.pow_le_mono_r; lia.
Qed.

Lemma be_val_firstn n b : bytes b -> (n <= length b)%nat -> be_val (firstn n b) = be_val b / 2 ^ (8 * Z.of_nat (length b - n)).
Proof.
  intros B L. rewrite <- (firstn_skipn n b) at 2. rewrite be_val_app, skipn_length.
  replace (256 ^ Z.of_nat (length b - n)) with (2 ^ (8 * Z.of_nat (length b - n))) by (change 256 with (2 ^ 8); rewrite <- Z.pow_mul_r by lia; reflexivity).
  assert (Bs : bytes (skipn n b)) by (apply bytes_skipn; exact B). pose proof (be_val_range _ Bs) as R. rewrite skipn_length in R.
  replace (256 ^ Z.of_nat (length b - n)) with (2 ^ (8 * Z.of_nat (length b - n))) in R by (change 256 with (2 ^ 8); rewrite <- Z.pow_mul_r by lia; reflexivity).
  rewrite Z.div_add_l by lia. rewrite Z.div_small by exact R. lia.
Qed.
Lemma bits2int_firstn q b : 0 < q -> bytes b -> (octs q <= length b)%nat -> bits2int q (firstn (octs q) b) = bits2int q b.
Proof.
  intros H B L. destruct (octs_ge q H) as (_ & O). unfold bits2int. rewrite firstn_length_le by exact L. rewrite be_val_firstn by assumption.
  set (n := octs q) in *. set (l := blen q) in *. clearbody n l.
  destruct (Z.ltb_spec l (8 * Z.of_nat n)), (Z.ltb_spec l (8 * Z.of_nat (length b))); try lia.
  - rewrite Z.div_div by (try apply Z.pow_nonzero; try apply Z.pow_pos_nonneg; lia). rewrite <- Z.pow_add_r by lia. do 2 f_equal. lia.
  - do 2 f_equal. lia.
  - assert (length b = n) by lia. subst n. rewrite Nat.sub_diag, Z.mul_0_r, Z.pow_0_r, Z.div_1_r. reflexivity.
Qed.
Lemma bits2int_range q b : 0 < q -> bytes b -> 0 <= bits2int q b < 2 ^ blen q.
Proof.
  intros H B. unfold bits2int. cbv zeta. pose proof (be_val_range b B) as R. pose proof (blen_pos q H) as P.
  replace (256 ^ Z.of_nat (length b)) with (2 ^ (8 * Z.of_nat (length b))) in R by (change 256 with (2 ^ 8); rewrite <- Z.pow_mul_r by lia; reflexivity).
  destruct (Z.ltb_spec (blen q) (8 * Z.of_nat (length b))) as [L|L].
  - split; [apply Z.div_pos; [apply R|apply Z.pow_pos_nonneg; lia]|]. apply Z.div_lt_upper_bound; [apply Z.pow_pos_nonneg; lia|].
    rewrite <- Z.pow_add_r by lia. replace (8 * Z.of_nat (length b) - blen q + blen q) with (8 * Z.of_nat (length b)) by lia. apply R.
  - split; [apply R|]. eapply Z.lt_le_trans; [apply R|]. apply Z.pow_le_mono_r; lia.
Qed.
Lemma bits2int_lt2 q b : 0 < q -> bytes b -> 0 <= bits2int q b < 2 * q.
Proof.
  intros H B. pose proof (bits2int_range q b H B) as R. pose proof (blen_range q H) as S1. pose proof (blen_pos q H).
  replace (2 ^ blen q) with (2 * 2 ^ (blen q - 1)) in R by (rewrite <- Z.pow_succ_r by lia; f_equal; lia). lia.
Qed.
Lemma sub_mod q v : 0 < q -> 0 <= v < 2 * q -> (if q <=? v then (v - q, false) else (v, true)) = (v mod q, v <? q).
Proof.
  intros H R. destruct (Z.leb_spec q v).
  - rewrite (proj2 (Z.ltb_ge v q)) by lia. f_equal. apply (Z.mod_unique v q 1); lia.
  - rewrite (proj2 (Z.ltb_lt v q)) by lia. rewrite Z.mod_small by lia. reflexivity.
Qed.

Theorem dsa_reduce_spec msg q : 0 < q -> bytes msg -> dsa_reduce msg q = Ok (bits2int q msg mod q, bits2int q msg <? q).
Proof.
  intros H B. destruct (octs_ge q H) as (O1 & O2). unfold dsa_reduce. cbv zeta. rewrite bitlen_blen by exact H. rewrite <- O1, Nat2Z.id.
  set (msg' := if Z.of_nat (octs q) <? Z.of_nat (length msg) then firstn (octs q) msg else msg).
  assert (E : bits2int q msg' = bits2int q msg).
  { unfold msg'. destruct (Z.ltb_spec (Z.of_nat (octs q)) (Z.of_nat (length msg))); [|reflexivity]. apply bits2int_firstn; [exact H|exact B|lia]. }
  assert (B' : bytes msg') by (unfold msg'; destruct (_ <? _); [apply bytes_firstn|]; exact B).
  assert (V : (if blen q <? Z.of_nat (length msg') * 8 then Z.shiftr (be_val msg') (Z.of_nat (length msg') * 8 - blen q) else be_val msg') = bits2int q msg').
  { unfold bits2int. cbv zeta. rewrite (Z.mul_comm 8). destruct (Z.ltb_spec (blen q) (Z.of_nat (length msg') * 8)); [|reflexivity]. rewrite Z.shiftr_div_pow2 by lia. reflexivity. }
  rewrite V, E. clear V E B' msg'. rewrite sub_mod by (try assumption; apply bits2int_lt2; assumption).
  pose proof (Z.mod_pos_bound (bits2int q msg) q H). rewrite (proj2 (Z.leb_gt q _)) by lia. reflexivity.
Qed.

Lemma rfc_T_eq id q K : 0 < q -> bytes K -> forall j fuel V T, bytes V -> bytes T -> (j <= fuel)%nat ->
  (forall i, (i < j)%nat -> 8 * (Z.of_nat (length T) + Z.of_nat i * Z.of_nat (hash_output_size id)) < blen q) ->
  blen q <= 8 * (Z.of_nat (length T) + Z.of_nat j * Z.of_nat (hash_output_size id)) ->
  rfc_T id fuel q K V T = (T ++ concat (map (fun i => Nat.iter i (rfc2104 id K) V) (seq 1 j)), Nat.iter j (rfc2104 id K) V).
Proof.
  intros Hq BK. induction j as [|j IH]; intros fuel V T BV BT Hf Hlt Hge.
  - cbn [seq map concat Nat.iter]. rewrite app_nil_r. destruct fuel; cbn [rfc_T]; destruct (Z.ltb_spec (8 * Z.of_nat (length T)) (blen q)); try reflexivity; lia.
  - destruct fuel as [|fuel]; [lia|]. cbn [rfc_T]. pose proof (Hlt 0%nat ltac:(lia)) as H0. rewrite (proj2 (Z.ltb_lt _ _)) by lia.
    destruct (rfc2104_ok id K V BK BV) as [L1 B1]. cbv zeta. rewrite IH.
    + rewrite <- iter_r. f_equal. rewrite <- app_assoc. f_equal. cbn [seq map concat]. f_equal. rewrite <- (seq_shift j 1), map_map. f_equal. apply map_ext. intros i. rewrite iter_r. reflexivity.
    + exact B1.
    + apply bytes_app. split; assumption.
    + lia.
    + intros i Hi. rewrite app_length, L1. specialize (Hlt (S i) ltac:(lia)). lia.
    + rewrite app_length, L1. lia.
Qed.

Lemma rfc_round_eq id q st : 0 < q -> kv_ok id st ->
  rfc_round id q st = (bits2int q (fst (HMAC_Generate id st (octs q) [])), snd (HMAC_Generate id st (octs q) [])).
Proof.
  intros Hq (BK & LK & BV & LV). destruct st as [K V]. cbn [fst snd] in *. unfold rfc_round, HMAC_Generate. cbv zeta.
  destruct (octs_ge q Hq) as (O1 & O2). pose proof (blen_pos q Hq) as P. pose proof (osize id) as Hs.
  destruct (cover_bounds (hash_output_size id) (octs q) ltac:(lia)) as (C1 & C2 & _). specialize (C2 ltac:(lia)).
  set (n := cover (hash_output_size id) (octs q)) in *. set (hs := hash_output_size id) in *.
  assert (Hn : (n <= octs q)%nat).
  { destruct n as [|n]; [lia|]. assert ((S n - 1) * 1 <= (S n - 1) * hs)%nat by (apply Nat.mul_le_mono_l; lia). lia. }
  rewrite (rfc_T_eq id q K Hq BK n (octs q) V []); try assumption; try constructor.
  - rewrite app_nil_l. cbn [fst snd]. set (T := concat _).
    assert (BT : bytes T /\ length T = (n * hs)%nat).
    { unfold T, hs. clear - BK BV. assert (X : forall i, length (Nat.iter (S i) (rfc2104 id K) V) = hash_output_size id /\ bytes (Nat.iter (S i) (rfc2104 id K) V)).
      { intros i. cbn [Nat.iter]. apply rfc2104_ok; [exact BK|]. induction i as [|i IH]; [exact BV|]. cbn [Nat.iter]. apply rfc2104_ok; [exact BK|exact IH]. }
      rewrite <- seq_shift, map_map. generalize 0%nat. induction n as [|n IH]; intros s; [split; [constructor|reflexivity]|].
      cbn [seq map concat]. destruct (X s) as [X1 X2]. destruct (IH (S s)) as [I1 I2]. split; [apply bytes_app; split; assumption|]. rewrite app_length, X1, I2. lia. }
    destruct BT as [BT LT]. rewrite bits2int_firstn by (try assumption; rewrite LT; exact C1). f_equal.
  - intros i Hi. cbn [length]. assert (i * hs <= (n - 1) * hs)%nat by (apply Nat.mul_le_mono_r; lia). fold hs. lia.
  - cbn [length]. fold hs. lia.
Qed.

Lemma HMAC_Generate_ok id st len : kv_ok id st -> let '(o, st') := HMAC_Generate id st len [] in length o = len /\ bytes o /\ kv_ok id st'.
Proof.
  intros HI. pose proof HI as (BK & LK & BV & LV). destruct st as [K V]. cbn [fst snd] in *. unfold HMAC_Generate. cbv zeta.
  pose proof (osize id) as Hs. destruct (cover_bounds (hash_output_size id) len ltac:(lia)) as (C1 & _).
  set (n := cover _ _) in *.
  assert (X : forall i, bytes (Nat.iter i (rfc2104 id K) V)). { induction i as [|i IH]; [exact BV|]. cbn [Nat.iter]. apply rfc2104_ok; [exact BK|exact IH]. }
  assert (XL : forall i, length (Nat.iter i (rfc2104 id K) V) = hash_output_size id). { destruct i as [|i]; [exact LV|]. cbn [Nat.iter]. apply rfc2104_ok; [exact BK|apply X]. }
  assert (BT : forall s, bytes (concat (map (fun i => Nat.iter i (rfc2104 id K) V) (seq s n))) /\ length (concat (map (fun i => Nat.iter i (rfc2104 id K) V) (seq s n))) = (n * hash_output_size id)%nat).
  { clear C1. induction n as [|n IH]; intros s; [split; [constructor|reflexivity]|]. cbn [seq map concat]. destruct (IH (S s)) as [I1 I2]. split; [apply bytes_app; split; [apply X|exact I1]|]. rewrite app_length, XL, I2. lia. }
  destruct (BT 1%nat) as [B1 L1]. split; [apply firstn_length_le; rewrite L1; exact C1|]. split; [apply bytes_firstn; exact B1|].
  unfold HMAC_Update. assert (BV' : bytes (Nat.iter n (rfc2104 id K) V)) by apply X.
  destruct (rfc2104_ok id K (Nat.iter n (rfc2104 id K) V ++ [0] ++ []) BK ltac:(apply bytes_app; split; [exact BV'|repeat constructor; unfold byte; lia])) as [L2 B2].
  destruct (rfc2104_ok id _ (Nat.iter n (rfc2104 id K) V) B2 BV') as [L3 B3]. unfold kv_ok. cbn [fst snd]. auto.
Qed.

Lemma rfc_init_eq id x h : x ++ h <> [] -> HMAC_Instantiate id (x ++ h) = rfc_init id x h.
Proof. intros N. unfold HMAC_Instantiate, HMAC_Update, rfc_init. cbv zeta. destruct (x ++ h) as [|a t]; [contradiction|]. reflexivity. Qed.
