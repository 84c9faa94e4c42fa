(* HMAC-DRBG and Hash-DRBG follow the state machines of SP 800-90A *)
From Verif.Base Require Import Prelude.
From Verif.Model Require Import Encoding Bio Hash Drbg.
From Verif.Spec Require Import BlockSpec HashSpec KdfSpec DrbgSpec.
From Verif.Proof Require Import BioProof BlockProof HashProof HmacProof KdfProof.

#[local] Opaque hash_init hash_update hash_final hmac_init hmac_update hmac_final hash_value rfc2104.

Definition small (m : list Z) : Prop := bytes m /\ Z.of_nat (length m) < M64.
Lemma small_n (m : list Z) n : bytes m -> (length m <= n)%nat -> Z.of_nat n < M64 -> small m.
Proof. intros. split; [auto|lia]. Qed.
Lemma small_out id m : bytes m -> length m = hash_output_size id -> small m.
Proof. intros H E. apply (small_n m 64); [exact H|pose proof (osize id); lia|reflexivity]. Qed.
Lemma small1 x : byte x -> small [x].
Proof. intros H. split; [constructor; [exact H|constructor]|reflexivity]. Qed.
Lemma hmac_of_value id key parts : bytes key -> Z.of_nat (length key) < M64 -> Forall small parts -> hmac_of id key parts = Ok (rfc2104 id key (concat parts)).
Proof. intros. apply (hmac_stream_value id key parts); auto. Qed.
Lemma hash_of_value id parts : Forall small parts -> hash_of id parts (hash_output_size id) = Ok (H id (concat parts)).
Proof.
  intros HP. pose proof (sizes id) as [_ [_ [S3 S4]]]. refine (hash_stream_value id parts (hash_output_size id) _ _); [exact HP|]. rewrite S3. exact S4.
Qed.

Lemma iter_r {A} (f : A -> A) i x : Nat.iter (S i) f x = Nat.iter i f (f x).
Proof. induction i as [|i IH]; [reflexivity|]. change (Nat.iter (S (S i)) f x) with (f (Nat.iter (S i) f x)). rewrite IH. reflexivity. Qed.

(* ---- HMAC-DRBG ---- *)
Definition kv_ok (id : hash_id) (st : list Z * list Z) : Prop :=
  bytes (fst st) /\ length (fst st) = hash_output_size id /\ bytes (snd st) /\ length (snd st) = hash_output_size id.
Definition hd_inv (id : hash_id) (st : list Z * list Z) (d : hmac_drbg_t) : Prop :=
  kv_ok id st /\ hd_type d = id /\ hd_K d = fst st /\ hd_V d = snd st /\ hmrep id (fst st) [] (hd_kmac d).
Lemma hd_update id K V seed : kv_ok id (K, V) -> small seed ->
  exists d, hmac_drbg_update id K V seed = Ok d /\ hd_inv id (HMAC_Update id (K, V) seed) d.
Proof.
  intros (BK & LK & BV & LV) Hs. cbn [fst snd] in *. unfold hmac_drbg_update, HMAC_Update.
  assert (SO : forall m, bytes m -> length m = hash_output_size id -> small m) by (intros; apply (small_out id); auto).
  assert (S0 : small [0]) by (apply small1; unfold byte; lia). assert (S1 : small [1]) by (apply small1; unfold byte; lia).
  assert (HX : forall k m, bytes k -> length k = hash_output_size id -> bytes m -> length (rfc2104 id k m) = hash_output_size id /\ bytes (rfc2104 id k m)) by (intros; apply rfc2104_ok; auto).
  rewrite hmac_of_value by (auto; try apply SO; auto). cbn [concat bind]. rewrite app_nil_r.
  assert (B0 : bytes (V ++ [0] ++ seed)) by (repeat (apply bytes_app; split); auto; [apply S0|apply Hs]).
  destruct (HX K _ BK LK B0) as [LK1 BK1]. set (K1 := rfc2104 id K (V ++ [0] ++ seed)) in *.
  rewrite hmac_of_value by (auto; try apply SO; auto). cbn [concat bind]. rewrite app_nil_r.
  destruct (HX K1 V BK1 LK1 BV) as [LV1 BV1]. set (V1 := rfc2104 id K1 V) in *.
  destruct seed as [|s seed].
  - cbn [length Nat.ltb Nat.leb bind]. destruct (hmac_init_spec id K1 BK1 ltac:(apply SO; auto)) as (h & E & HR). rewrite E. cbn [bind]. eexists. split; [reflexivity|].
    repeat split; cbn [fst snd]; auto; apply HR.
  - replace (0 <? length (s :: seed))%nat with true by reflexivity. set (sd := s :: seed) in *.
    rewrite hmac_of_value by (auto; try apply SO; auto). cbn [concat bind]. rewrite app_nil_r.
    assert (B1 : bytes (V1 ++ [1] ++ sd)) by (repeat (apply bytes_app; split); auto; [apply S1|apply Hs]).
    destruct (HX K1 _ BK1 LK1 B1) as [LK2 BK2]. set (K2 := rfc2104 id K1 (V1 ++ [1] ++ sd)) in *.
    rewrite hmac_of_value by (auto; try apply SO; auto). cbn [concat bind]. rewrite app_nil_r.
    destruct (HX K2 V1 BK2 LK2 BV1) as [LV2 BV2]. destruct (hmac_init_spec id K2 BK2 ltac:(apply SO; auto)) as (h & E & HR). rewrite E. cbn [bind]. eexists. split; [reflexivity|].
    repeat split; cbn [fst snd]; auto; apply HR.
Qed.
Lemma hd_init id seed : small seed -> exists d, hmac_drbg_init id seed = Ok d /\ hd_inv id (HMAC_Instantiate id seed) d.
Proof.
  intros Hs. apply hd_update; [|exact Hs]. repeat split; cbn [fst snd]; try apply repeat_length; apply bytes_repeat; unfold byte; lia.
Qed.
Lemma hd_reseed id st d seed : hd_inv id st d -> small seed -> exists d', hmac_drbg_reseed d seed = Ok d' /\ hd_inv id (HMAC_Update id st seed) d'.
Proof. intros (K1 & K2 & K3 & K4 & _) Hs. unfold hmac_drbg_reseed. rewrite K2, K3, K4. destruct st. apply hd_update; auto. Qed.
Lemma hd_loop id K kmac hs : hs = hash_output_size id -> bytes K -> length K = hs -> hmrep id K [] kmac -> forall n fuel V len out, bytes V -> length V = hs ->
  (n <= fuel)%nat -> (len <= n * hs)%nat -> ((n - 1) * hs < len)%nat \/ n = 0%nat ->
  let V' := Nat.iter n (rfc2104 id K) V in
  hmac_drbg_loop fuel kmac V hs len out = Some (Ok (V', out ++ firstn len (concat (map (fun i => Nat.iter i (rfc2104 id K) V) (seq 1 n))))) /\ bytes V' /\ length V' = hs.
Proof.
  intros Ehs BK LK HR. induction n as [|n IH]; intros fuel V len out BV LV Hf H1 H2 V'.
  - destruct len; [|lia]. subst V'. destruct fuel; cbn [hmac_drbg_loop Nat.ltb Nat.leb firstn seq map concat]; rewrite app_nil_r; auto.
  - destruct H2 as [H2|H2]; [|discriminate]. destruct fuel as [|fuel]; [lia|]. cbn [hmac_drbg_loop]. pose proof (osize id) as OS.
    destruct (Nat.ltb_spec 0 len); [|lia]. rewrite firstn_all2 by lia.
    destruct (hmac_update_spec id K [] kmac V HR) as (h & E & HR2); [apply (small_out id); congruence|]. rewrite E. cbn [bind].
    rewrite (hmac_final_spec id K V h BK BV HR2). destruct (rfc2104_ok id K V BK BV) as [LF BF]. rewrite <- Ehs in LF. cbv zeta.
    assert (EM : map (fun i => Nat.iter i (rfc2104 id K) V) (seq 1 (S n)) = rfc2104 id K V :: map (fun i => Nat.iter i (rfc2104 id K) (rfc2104 id K V)) (seq 1 n)).
    { cbn [seq map]. f_equal. rewrite <- seq_shift, map_map. apply map_ext. intros i. apply iter_r. }
    rewrite EM. cbn [concat]. rewrite firstn_app, LF.
    assert (EV : V' = Nat.iter n (rfc2104 id K) (rfc2104 id K V)) by (unfold V'; apply iter_r). rewrite EV.
    destruct n as [|n].
    + assert (ES : (if (len <? hs)%nat then len else hs) = len) by (destruct (Nat.ltb_spec len hs); lia). rewrite ES, Nat.sub_diag.
      cbn [seq map concat]. rewrite firstn_nil, app_nil_r. destruct fuel; cbn [hmac_drbg_loop Nat.ltb Nat.leb]; auto.
    + destruct (Nat.ltb_spec len hs) as [G|G]; [exfalso; nia|].
      destruct (IH fuel (rfc2104 id K V) (len - hs)%nat (out ++ firstn hs (rfc2104 id K V)) BF LF ltac:(lia) ltac:(nia) ltac:(left; nia)) as (I1 & I2 & I3).
      rewrite I1. split; [|auto]. rewrite <- app_assoc. rewrite (firstn_all2 (n := hs) (rfc2104 id K V)) by lia. rewrite (firstn_all2 (n := len) (rfc2104 id K V)) by lia. reflexivity.
Qed.
Lemma hd_generate id st d len add fuel : hd_inv id st d -> small add -> (len <= fuel)%nat ->
  let '(o, st') := HMAC_Generate id st len add in exists d', hmac_drbg_generate fuel d len add = Some (Ok (o, d')) /\ hd_inv id st' d'.
Proof.
  intros HI Ha Hf. unfold HMAC_Generate, hmac_drbg_generate.
  assert (G : exists d1, (if (0 <? length add)%nat then hmac_drbg_update (hd_type d) (hd_K d) (hd_V d) add else Ok d) = Ok d1 /\
              hd_inv id (match add with [] => st | _ => HMAC_Update id st add end) d1).
  { destruct add as [|a add]; [exists d; auto|]. replace (0 <? length (a :: add))%nat with true by reflexivity.
    destruct (hd_reseed id st d (a :: add) HI Ha) as (d1 & E1 & I1). exists d1. split; [exact E1|exact I1]. }
  destruct G as (d1 & E1 & (KV & K2 & K3 & K4 & K5)). rewrite E1. destruct (match add with [] => st | _ => HMAC_Update id st add end) as [K V]. cbn [fst snd] in *.
  destruct KV as (BK & LK & BV & LV). cbn [fst snd] in *. rewrite K2, K3, K4. pose proof (osize id) as OS.
  destruct (cover_bounds (hash_output_size id) len ltac:(lia)) as (C1 & C2 & C3).
  destruct (hd_loop id K (hd_kmac d1) (hash_output_size id) eq_refl BK LK K5 (cover (hash_output_size id) len) fuel V len [] BV LV) as (I1 & I2 & I3).
  { destruct len; [rewrite C3; lia|]. specialize (C2 ltac:(lia)). nia. }
  { exact C1. }
  { destruct len; [right; apply C3; reflexivity|]. left. apply C2. lia. }
  rewrite I1. cbn [app]. destruct (hd_update id K (Nat.iter (cover (hash_output_size id) len) (rfc2104 id K) V) add) as (d2 & E2 & HI2); [repeat split; auto|exact Ha|].
  rewrite E2. cbn [bind]. exists d2. auto.
Qed.

(* ---- Hash-DRBG ---- *)
Lemma le_bytes_S n x : le_bytes (S n) x = x mod 256 :: le_bytes n (x / 256).
Proof. reflexivity. Qed.
Lemma le_val_cons d l : le_val (d :: l) = d + 256 * le_val l.
Proof. reflexivity. Qed.
Lemma acc_loop_spec dst : forall c src, bytes dst -> bytes src -> (length src <= length dst)%nat -> 0 <= c <= 65536 ->
  acc_loop c dst src = le_bytes (length dst) (c + le_val dst + le_val src).
Proof.
  induction dst as [|d dst IH]; intros c src Hd Hs HL Hc; [reflexivity|]. inversion Hd as [|? ? Bd Hd']; subst. unfold byte in Bd. cbn [length]. rewrite le_bytes_S, le_val_cons. cbn [acc_loop].
  assert (EM : M32 = 4294967296) by reflexivity.
  destruct src as [|s src].
  - unfold w32. rewrite (Z.mod_small (c + d) M32) by lia. change 255 with (Z.ones 8). rewrite Z.land_ones, Z.shiftr_div_pow2 by lia. change (2 ^ 8) with 256. change (le_val []) with 0.
    assert (0 <= (c + d) / 256 <= 65536) by (split; [apply Z.div_pos; lia|apply Z.div_le_upper_bound; lia]).
    rewrite IH by (auto; try constructor; cbn [length]; lia). change (le_val []) with 0. f_equal.
    + replace (c + (d + 256 * le_val dst) + 0) with (c + d + le_val dst * 256) by ring. rewrite Z_mod_plus_full. reflexivity.
    + f_equal. replace (c + (d + 256 * le_val dst) + 0) with (c + d + le_val dst * 256) by ring. rewrite Z.div_add by lia. ring.
  - inversion Hs as [|? ? Bs Hs']; subst. unfold byte in Bs. cbv zeta. unfold w32. rewrite (Z.mod_small (s + d) M32) by lia. rewrite (Z.mod_small (c + (s + d)) M32) by lia.
    change 255 with (Z.ones 8). rewrite Z.land_ones, Z.shiftr_div_pow2 by lia. change (2 ^ 8) with 256. rewrite le_val_cons.
    assert (0 <= (c + (s + d)) / 256 <= 65536) by (split; [apply Z.div_pos; lia|apply Z.div_le_upper_bound; lia]).
    cbn [length] in HL. rewrite IH by (auto; lia).
    replace (c + (d + 256 * le_val dst) + (s + 256 * le_val src)) with (c + (s + d) + (le_val dst + le_val src) * 256) by ring. f_equal.
    + rewrite Z_mod_plus_full. reflexivity.
    + f_equal. rewrite Z.div_add by lia. ring.
Qed.
Lemma accumulate_spec dst src : bytes dst -> bytes src -> (length src <= length dst)%nat ->
  accumulate dst src = Ok (be_bytes (length dst) (be_val dst + be_val src)).
Proof.
  intros Hd Hs HL. unfold accumulate. destruct (Nat.ltb_spec (length dst) (length src)); [lia|].
  rewrite acc_loop_spec by (try apply bytes_rev; auto; rewrite ?rev_length; lia). rewrite rev_length. reflexivity.
Qed.
Lemma be_bytes_eqm n x y : x mod 256 ^ Z.of_nat n = y mod 256 ^ Z.of_nat n -> be_bytes n x = be_bytes n y.
Proof.
  intros E. rewrite <- (be_bytes_be_val (be_bytes n x)), <- (be_bytes_be_val (be_bytes n y)) by apply be_bytes_bytes.
  rewrite !be_bytes_length, !be_val_be_bytes, E. reflexivity.
Qed.
Lemma acc_be n x src : bytes src -> (length src <= n)%nat -> accumulate (be_bytes n x) src = Ok (be_bytes n (x + be_val src)).
Proof.
  intros Hs HL. rewrite accumulate_spec by (auto using be_bytes_bytes; rewrite be_bytes_length; lia). rewrite be_bytes_length, be_val_be_bytes. f_equal.
  apply be_bytes_eqm. rewrite Zplus_mod_idemp_l. reflexivity.
Qed.
Definition vl (id : hash_id) : nat := (seedlen id / 8)%nat.
Lemma vl_eq id : vl id = hs_length id /\ (vl id = 55 \/ vl id = 111)%nat /\ seedlen id = (8 * vl id)%nat.
Proof. unfold vl, seedlen, hs_length. destruct (_ <=? _)%nat; auto. Qed.
Lemma modseed_eq id x : modseed id x = x mod 256 ^ Z.of_nat (vl id).
Proof.
  unfold modseed. destruct (vl_eq id) as (_ & _ & ->). change 256 with (2 ^ 8). rewrite <- Z.pow_mul_r by lia. do 2 f_equal. lia.
Qed.
Lemma Vb_mod id x : Vbytes id (modseed id x) = Vbytes id x.
Proof. unfold Vbytes. fold (vl id). apply be_bytes_eqm. rewrite modseed_eq. apply Z.mod_mod. apply Z.pow_nonzero; lia. Qed.
Lemma Vb_small id x : small (Vbytes id x).
Proof. apply (small_n _ 111); [apply be_bytes_bytes|unfold Vbytes; rewrite be_bytes_length; fold (vl id); destruct (vl_eq id) as (_ & [E|E] & _); lia|reflexivity]. Qed.
Lemma state_eq id i : hs_state (Z.of_nat i) (hs_length id) = [Z.of_nat i] ++ be_bytes 4 (Z.of_nat (seedlen id)).
Proof. destruct (vl_eq id) as (<- & [E|E] & ->); rewrite E; reflexivity. Qed.
Lemma state_small id i : (i < 256)%nat -> small (hs_state (Z.of_nat i) (hs_length id)).
Proof. intros Hi. rewrite state_eq. split; [apply bytes_app; split; [constructor; [unfold byte; lia|constructor]|apply be_bytes_bytes]|rewrite app_length, be_bytes_length; reflexivity]. Qed.
Lemma hs_blocks_spec id tl : Forall small tl -> forall n i, (i + n <= 256)%nat ->
  hs_blocks n id (Z.of_nat i) (hs_length id) tl = Ok (concat (map (fun i => H id ([Z.of_nat i] ++ be_bytes 4 (Z.of_nat (seedlen id)) ++ concat tl)) (seq i n))).
Proof.
  intros Ht. induction n as [|n IH]; intros i Hi; cbn [hs_blocks seq map concat]; [reflexivity|].
  rewrite hash_of_value by (constructor; [apply state_small; lia|exact Ht]). cbn [bind].
  replace (hs_blocks n id (w8 (Z.of_nat i + 1)) (hs_length id) tl) with (hs_blocks n id (Z.of_nat (S i)) (hs_length id) tl).
  2:{ destruct n; [reflexivity|]. f_equal. unfold w8. rewrite Z.mod_small; [lia|]. unfold M8. lia. }
  rewrite IH by lia. cbn [bind concat]. rewrite state_eq, <- app_assoc. reflexivity.
Qed.
Lemma hs_df_spec id tl : Forall small tl -> hs_df id tl = Ok (Hash_df id (concat tl) (seedlen id)).
Proof.
  intros Ht. unfold hs_df, Hash_df. cbv zeta. fold (vl id). destruct (vl_eq id) as (EV & _ & _). unfold cover. rewrite <- EV.
  replace (165 <? _)%nat with false by (destruct id; reflexivity).
  change 1 with (Z.of_nat 1). pose proof (hs_blocks_spec id tl Ht ((vl id + hash_output_size id - 1) / hash_output_size id) 1) as HB. rewrite <- EV in HB.
  rewrite HB by (destruct id; apply Nat.leb_le; reflexivity). reflexivity.
Qed.
Lemma concat_small tl : Forall small tl -> bytes (concat tl).
Proof. induction 1 as [|x l [Hx _] Hl IH]; cbn [concat]; [constructor|]. apply bytes_app. auto. Qed.
Lemma Hash_df_ok id input : bytes input -> bytes (Hash_df id input (seedlen id)) /\ length (Hash_df id input (seedlen id)) = vl id.
Proof.
  intros Hi. unfold Hash_df. fold (vl id).
  assert (G : forall n i, (i + n <= 256)%nat -> let c := concat (map (fun i => H id ([Z.of_nat i] ++ be_bytes 4 (Z.of_nat (seedlen id)) ++ input)) (seq i n)) in bytes c /\ length c = (n * hash_output_size id)%nat).
  { induction n as [|n IH]; intros i Hn; cbn [seq map concat]; cbv zeta; [split; [constructor|reflexivity]|].
    destruct (IH (S i) ltac:(lia)) as [I1 I2]. assert (B : bytes ([Z.of_nat i] ++ be_bytes 4 (Z.of_nat (seedlen id)) ++ input)).
    { apply bytes_app; split; [constructor; [unfold byte; lia|constructor]|]. apply bytes_app. split; [apply be_bytes_bytes|auto]. }
    destruct (H_ok id _ B) as [L1 B1]. split; [apply bytes_app; auto|]. rewrite app_length, L1, I2. lia. }
  destruct (cover_bounds (hash_output_size id) (vl id) ltac:(pose proof (osize id); lia)) as (C1 & _ & _).
  destruct (G (cover (hash_output_size id) (vl id)) 1%nat) as [G1 G2]; [destruct id; apply Nat.leb_le; reflexivity|].
  split; [apply bytes_firstn; exact G1|]. rewrite firstn_length, G2. lia.
Qed.
Definition hs_inv (id : hash_id) (st : Z * Z * Z) (d : hash_drbg_t) : Prop :=
  hs_type d = id /\ hs_V d = Vbytes id (fst (fst st)) /\ hs_C d = Vbytes id (snd (fst st)) /\ hs_rounds d = snd st.
Lemma df_V id input : bytes input -> Hash_df id input (seedlen id) = Vbytes id (be_val (Hash_df id input (seedlen id))).
Proof. intros Hi. destruct (Hash_df_ok id input Hi) as [B L]. unfold Vbytes. fold (vl id). rewrite <- L. symmetry. apply be_bytes_be_val. exact B. Qed.
Lemma hs_seed id tl : Forall small tl ->
  exists d, bind (hs_df id tl) (fun V => bind (hs_df id [[0x00]; V]) (fun C => Ok (MkHs id V C 1))) = Ok d /\ hs_inv id (hash_seed id (concat tl)) d.
Proof.
  intros Ht. rewrite hs_df_spec by exact Ht. cbn [bind]. pose proof (concat_small tl Ht) as B.
  assert (EV := df_V id (concat tl) B). rewrite hs_df_spec. 2:{ constructor; [apply small1; unfold byte; lia|]. constructor; [rewrite EV; apply Vb_small|constructor]. }
  cbn [bind]. eexists. split; [reflexivity|]. unfold hs_inv, hash_seed. cbn [hs_type hs_V hs_C hs_rounds fst snd concat]. rewrite app_nil_r.
  rewrite <- EV. repeat split. apply df_V. apply bytes_app. split; [apply small1; unfold byte; lia|rewrite EV; apply Vb_small].
Qed.
Lemma hs_init id seed : small seed -> exists d, hash_drbg_init id seed = Ok d /\ hs_inv id (Hash_Instantiate id seed) d.
Proof. intros Hs. destruct (hs_seed id [seed] ltac:(constructor; auto)) as (d & E & I). cbn [concat] in I. rewrite app_nil_r in I. exists d. split; [exact E|exact I]. Qed.
Lemma hs_reseed id st d seed : hs_inv id st d -> small seed -> exists d', hash_drbg_reseed d seed = Ok d' /\ hs_inv id (Hash_Reseed id st seed) d'.
Proof.
  intros (K1 & K2 & K3 & K4) Hs. destruct st as [[V C] rc]. cbn [fst snd] in *. unfold hash_drbg_reseed. rewrite K1, K2. cbv zeta.
  destruct (hs_seed id [[1]; Vbytes id V; seed]) as (d' & E & I). { constructor; [apply small1; unfold byte; lia|]. constructor; [apply Vb_small|]. constructor; auto. }
  exists d'. split; [exact E|]. cbn [concat] in I. rewrite app_nil_r in I. exact I.
Qed.
Lemma out_vl id : (hash_output_size id <= vl id)%nat /\ (8 <= vl id)%nat.
Proof. split; destruct id; apply Nat.leb_le; reflexivity. Qed.
Lemma hs_loop id : forall n fuel x len out, (n <= fuel)%nat -> (len <= n * hash_output_size id)%nat -> ((n - 1) * hash_output_size id < len)%nat \/ n = 0%nat ->
  hash_drbg_loop fuel id (Vbytes id x) len out =
  Some (Ok (out ++ firstn len (concat (map (fun i => H id (Vbytes id (modseed id (x + Z.of_nat i)))) (seq 0 n))))).
Proof.
  pose proof (osize id) as OS. induction n as [|n IH]; intros fuel x len out Hf H1 H2.
  - destruct len; [|lia]. destruct fuel; cbn [hash_drbg_loop Nat.ltb Nat.leb firstn seq map concat]; rewrite app_nil_r; reflexivity.
  - destruct H2 as [H2|H2]; [|discriminate]. destruct fuel as [|fuel]; [lia|]. cbn [hash_drbg_loop]. destruct (Nat.ltb_spec 0 len); [|lia].
    rewrite hash_of_value by (constructor; [apply Vb_small|constructor]). cbn [concat]. rewrite app_nil_r.
    destruct (H_ok id (Vbytes id x) (proj1 (Vb_small id x))) as [LH _]. cbn [seq map concat]. rewrite Vb_mod. replace (x + Z.of_nat 0) with x by lia. rewrite firstn_app, LH.
    destruct (Nat.ltb_spec len (hash_output_size id)) as [G|G].
    + replace (len - hash_output_size id)%nat with 0%nat by lia. cbn [firstn]. rewrite app_nil_r. reflexivity.
    + assert (EA : accumulate (Vbytes id x) [1] = Ok (Vbytes id (x + 1))). { unfold Vbytes. apply acc_be; [apply small1; unfold byte; lia|]. fold (vl id). pose proof (out_vl id). cbn [length]. lia. }
      rewrite EA. rewrite IH; [|lia|nia|destruct n; [right; reflexivity|left; nia]]. rewrite <- app_assoc. do 4 f_equal; [rewrite firstn_all2 by lia; reflexivity|]. f_equal. f_equal.
      rewrite <- seq_shift, map_map. apply map_ext. intros i. do 3 f_equal. lia.
Qed.
Lemma hs_generate id st d len add fuel : hs_inv id st d -> small add -> (len <= fuel)%nat -> 0 <= snd st < M64 - 1 ->
  let '(o, st') := Hash_Generate id st len add in exists d', hash_drbg_generate fuel d len add = Some (Ok (o, d')) /\ hs_inv id st' d' /\ snd st' = snd st + 1.
Proof.
  intros (K1 & K2 & K3 & K4) Ha Hf Hrc. destruct st as [[V C] rc]. cbn [fst snd] in *. unfold Hash_Generate, hash_drbg_generate. cbv zeta. rewrite K1, K2, K3, K4.
  pose proof (osize id) as OS. pose proof (out_vl id) as [OV1 OV2].
  set (V1 := match add with [] => V | _ => modseed id (V + be_val (H id ([2] ++ Vbytes id V ++ add))) end).
  assert (G : (if (0 <? length add)%nat then bind (hash_of id [[2]; Vbytes id V; add] (hash_output_size id)) (fun H => accumulate (Vbytes id V) H) else Ok (Vbytes id V)) = Ok (Vbytes id V1)).
  { unfold V1. destruct add as [|a add]; [reflexivity|]. replace (0 <? length (a :: add))%nat with true by reflexivity. set (ad := a :: add) in *.
    assert (FS : Forall small [[2]; Vbytes id V; ad]) by (constructor; [apply small1; unfold byte; lia|]; constructor; [apply Vb_small|]; constructor; auto).
    rewrite hash_of_value by exact FS. cbn [bind concat]. rewrite app_nil_r. rewrite Vb_mod. unfold Vbytes at 1. fold (vl id).
    pose proof (concat_small _ FS) as CB. cbn [concat] in CB. rewrite app_nil_r in CB. destruct (H_ok id _ CB) as [LH BH].
    rewrite acc_be by (try exact BH; rewrite LH; exact OV1). reflexivity. }
  rewrite G. clear G. clearbody V1.
  destruct (cover_bounds (hash_output_size id) len ltac:(lia)) as (C1 & C2 & C3).
  rewrite (hs_loop id (cover (hash_output_size id) len)); [|destruct len; [rewrite C3; lia|]; specialize (C2 ltac:(lia)); nia|exact C1|destruct len; [right; apply C3; reflexivity|left; apply C2; lia]].
  unfold hash_drbg_update. cbn [hs_type hs_V hs_C hs_rounds].
  assert (FS : Forall small [[3]; Vbytes id V1]) by (constructor; [apply small1; unfold byte; lia|]; constructor; [apply Vb_small|constructor]).
  rewrite hash_of_value by exact FS. cbn [bind concat]. rewrite app_nil_r. pose proof (concat_small _ FS) as CB. cbn [concat] in CB. rewrite app_nil_r in CB. destruct (H_ok id _ CB) as [LH BH].
  set (Hv := H id ([3] ++ Vbytes id V1)) in *. unfold Vbytes at 1. fold (vl id). rewrite acc_be by (try exact BH; rewrite LH; exact OV1). cbn [bind].
  rewrite acc_be by (try apply be_bytes_bytes; unfold Vbytes; rewrite be_bytes_length; apply le_n). cbn [bind].
  rewrite write64be_spec, acc_be by (try apply be_bytes_bytes; rewrite be_bytes_length; exact OV2). cbn [bind app].
  eexists. split; [reflexivity|]. split; [|reflexivity]. unfold hs_inv. cbn [hs_type hs_V hs_C hs_rounds fst snd]. split; [reflexivity|]. split.
  - rewrite Vb_mod. unfold Vbytes. fold (vl id). apply be_bytes_eqm. rewrite !be_val_be_bytes. rewrite (Z.mod_small rc) by (change (256 ^ Z.of_nat 8) with M64; lia).
    replace (V1 + be_val Hv + C mod 256 ^ Z.of_nat (vl id) + rc) with (V1 + be_val Hv + rc + C mod 256 ^ Z.of_nat (vl id)) by ring. rewrite Zplus_mod_idemp_r. f_equal. ring.
  - split; [reflexivity|]. unfold w64. rewrite Z.mod_small by lia. reflexivity.
Qed.
