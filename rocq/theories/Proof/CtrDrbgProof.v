(* CTR-DRBG follows the state machine of SP 800-90A, over any 16-byte block cipher *)
From Verif.Base Require Import Prelude.
From Verif.Model Require Import Encoding Bio Hash Drbg.
From Verif.Spec Require Import BlockSpec HashSpec KdfSpec DrbgSpec.
From Verif.Proof Require Import BioProof BlockProof HmacProof KdfProof DrbgProof.

Lemma concat_len {A} (f : nat -> list A) m : (forall i, length (f i) = m) -> forall n i, length (concat (map f (seq i n))) = (n * m)%nat.
Proof. intros Hf. induction n as [|n IH]; intros i; cbn [seq map concat]; [reflexivity|]. rewrite app_length, Hf, IH. lia. Qed.
Lemma concat_bytes (f : nat -> list Z) : (forall i, bytes (f i)) -> forall n i, bytes (concat (map f (seq i n))).
Proof. intros Hf. induction n as [|n IH]; intros i; cbn [seq map concat]; [constructor|]. apply bytes_app. auto. Qed.
Lemma firstn_map2 {A B C} (f : A -> B -> C) n : forall x y, firstn n (map2 f x y) = map2 f (firstn n x) (firstn n y).
Proof. induction n as [|n IH]; intros [|a x] [|b y]; cbn [firstn map2]; try reflexivity. rewrite IH. reflexivity. Qed.
Lemma xor_nil_r l : map2 Z.lxor l (repeat 0 (length l)) = l.
Proof. induction l as [|a l IH]; cbn [length repeat map2]; [reflexivity|]. rewrite Z.lxor_0_r, IH. reflexivity. Qed.
Lemma xor_into_spec l : forall s, (length s <= length l)%nat -> xor_into l s = map2 Z.lxor l (zpad s (length l)).
Proof.
  induction l as [|a l IH]; intros [|b s] HL; cbn [xor_into length] in *; try lia; try reflexivity.
  - unfold zpad. cbn [length app]. rewrite Nat.sub_0_r. symmetry. apply (xor_nil_r (a :: l)).
  - rewrite IH by lia. reflexivity.
Qed.
Lemma zpad_len l n : (length l <= n)%nat -> length (zpad l n) = n.
Proof. intros Hl. unfold zpad. rewrite app_length, repeat_length. lia. Qed.
Lemma firstn_zpad s n m : (length s <= n)%nat -> (n <= m)%nat -> firstn n (zpad s m) = zpad s n.
Proof.
  intros H1 H2. unfold zpad. rewrite firstn_app, firstn_all2 by lia. f_equal. rewrite firstn_firstn_repeat. f_equal. lia.
Qed.
Lemma zpad_bytes l n : bytes l -> bytes (zpad l n).
Proof. intros Hl. apply bytes_app. split; [exact Hl|apply bytes_zeros]. Qed.
Lemma map2_trunc (s : list Z) n (l : list Z) : length l = n -> map2 Z.lxor l (zpad (firstn n s) n) = map2 Z.lxor l (zpad s n).
Proof.
  intros HL. destruct (Nat.le_gt_cases (length s) n) as [C|C]; [rewrite firstn_all2 by lia; reflexivity|].
  assert (E : firstn n (map2 Z.lxor l (zpad (firstn n s) n)) = firstn n (map2 Z.lxor l (zpad s n))).
  { rewrite !firstn_map2. f_equal. unfold zpad. replace (n - length s)%nat with 0%nat by lia. replace (n - length (firstn n s))%nat with 0%nat by (rewrite firstn_length; lia).
    cbn [repeat]. rewrite !app_nil_r. rewrite firstn_firstn. f_equal. lia. }
  rewrite (firstn_all2 (n := n) (map2 Z.lxor l (zpad (firstn n s) n))) in E by (rewrite map2_length; lia). rewrite (firstn_all2 (n := n) (map2 Z.lxor l (zpad s n))) in E by (rewrite map2_length; lia). exact E.
Qed.

  Lemma serialize_spec ks nonce pers : (length nonce <= 512)%nat -> (length pers <= 512)%nat -> (ks <= 32)%nat ->
    ctr_drbg_serialize ks nonce pers = Ok (repeat 0 16 ++ df_S (nonce ++ pers) (slen ks)) /\ (16 | Z.of_nat (length (df_S (nonce ++ pers) (slen ks)))).
  Proof.
    intros H1 H2 Hk. unfold ctr_drbg_serialize. rewrite (firstn_all2 nonce), (firstn_all2 pers) by lia. cbv zeta.
    unfold df_S. cbv zeta. rewrite !write32be_spec. set (L := (length nonce + length pers)%nat).
    assert (EL : length (nonce ++ pers) = L) by apply app_length. rewrite EL.
    set (S0 := be_bytes 4 (Z.of_nat L) ++ be_bytes 4 (Z.of_nat (slen ks)) ++ (nonce ++ pers) ++ [128]).
    assert (LS : length S0 = (9 + L)%nat). { unfold S0. rewrite !app_length, !be_bytes_length. cbn [length]. lia. }
    assert (ES : be_bytes 4 (Z.of_nat L) ++ be_bytes 4 (Z.of_nat (cd_ent ks)) ++ nonce ++ pers ++ [128] = S0) by (unfold S0; rewrite <- (app_assoc nonce pers); reflexivity).
    rewrite ES. rewrite LS. replace (16 + 4 + 4 + L + 1)%nat with (25 + L)%nat by lia.
    set (size := if ((25 + L) mod 16 =? 0)%nat then (25 + L)%nat else (25 + L + (16 - (25 + L) mod 16))%nat).
    assert (Esz : size = (16 * (1 + cover 16 (9 + L)))%nat).
    { unfold size, cover. replace (9 + L + 16 - 1)%nat with (24 + L)%nat by lia. pose proof (Nat.div_mod (25 + L) 16 ltac:(lia)) as D1. pose proof (Nat.mod_upper_bound (25 + L) 16 ltac:(lia)) as U1.
      pose proof (Nat.div_mod (24 + L) 16 ltac:(lia)) as D2. pose proof (Nat.mod_upper_bound (24 + L) 16 ltac:(lia)) as U2.
      set (q1 := ((25 + L) / 16)%nat) in *. set (q2 := ((24 + L) / 16)%nat) in *. set (r1 := ((25 + L) mod 16)%nat) in *. set (r2 := ((24 + L) mod 16)%nat) in *. destruct (Nat.eqb_spec r1 0); lia. }
    assert (CU : (9 + L <= 16 * cover 16 (9 + L) < 9 + L + 16)%nat).
    { destruct (cover_bounds 16 (9 + L) ltac:(lia)) as (C1 & C2 & _). specialize (C2 ltac:(lia)). lia. }
    assert (LL : (L <= 1024)%nat) by (unfold L; lia). clearbody size. subst size.
    replace (1056 <? 16 * (1 + cover 16 (9 + L)))%nat with false by (symmetry; apply Nat.ltb_ge; lia).
    replace ((16 * (1 + cover 16 (9 + L))) mod 16 =? 0)%nat with true by (symmetry; apply Nat.eqb_eq; rewrite Nat.mul_comm; apply Nat.mod_mul; lia). cbn [orb negb].
    split.
    - f_equal. rewrite <- app_assoc. f_equal. unfold zpad. f_equal. f_equal. rewrite app_length, repeat_length, LS. lia.
    - rewrite zpad_len by lia. exists (Z.of_nat (cover 16 (9 + L))). lia.
  Qed.

Section Ctr.
  Variable E : list Z -> list Z -> list Z.
  Hypothesis HE : forall K b, length (E K b) = 16%nat /\ bytes (E K b).
  Lemma nextV_ok V i : length (nextV V i) = 16%nat /\ bytes (nextV V i).
  Proof. unfold nextV. rewrite be_bytes_length. split; [reflexivity|apply be_bytes_bytes]. Qed.
  Lemma nextV_0 V : bytes V -> length V = 16%nat -> nextV V 0 = V.
  Proof. intros B L. unfold nextV. rewrite Z.add_0_r, <- L. apply be_bytes_be_val. exact B. Qed.
  Lemma nextV_add V i j : nextV (nextV V i) j = nextV V (i + j).
  Proof.
    unfold nextV. apply be_bytes_eqm. rewrite be_val_be_bytes, Zplus_mod_idemp_l. f_equal. lia.
  Qed.
  Lemma inc_nextV V : bytes V -> length V = 16%nat -> increment_be V = nextV V 1.
  Proof. intros B L. rewrite increment_be_spec by exact B. rewrite L. reflexivity. Qed.
  Lemma map_nextV K V n : map (fun i => E K (nextV V i)) (seq 1 (S n)) = E K (nextV V 1) :: map (fun i => E K (nextV (nextV V 1) i)) (seq 1 n).
  Proof. cbn [seq map]. f_equal. rewrite <- seq_shift, map_map. apply map_ext. intros i. rewrite nextV_add. reflexivity. Qed.
  Lemma encrypts_spec K n : forall V, bytes V -> length V = 16%nat ->
    ctr_drbg_encrypts E n K V = (concat (map (fun i => E K (nextV V i)) (seq 1 n)), nextV V n).
  Proof.
    induction n as [|n IH]; intros V B L; [cbn [ctr_drbg_encrypts seq map concat]; rewrite nextV_0; auto|]. rewrite map_nextV. cbn [ctr_drbg_encrypts concat]. rewrite inc_nextV by auto.
    destruct (nextV_ok V 1) as [L1 B1]. rewrite IH by auto. rewrite nextV_add. reflexivity.
  Qed.
  Definition cd_inv (ks : nat) (df : bool) (st : list Z * list Z) (d : ctr_drbg_t) : Prop :=
    cd_ks d = ks /\ cd_derivation d = df /\ cd_K d = fst st /\ cd_state d = snd st /\ bytes (snd st) /\ length (snd st) = 16%nat.
  Lemma cover16 n : ((n + 15) / 16)%nat = cover 16 n.
  Proof. unfold cover. f_equal. lia. Qed.
  Lemma cd_update ks df st d data : cd_inv ks df st d -> bytes data -> cd_inv ks df (CTR_Update E ks st data) (ctr_drbg_update E d data).
  Proof.
    intros (K1 & K2 & K3 & K4 & BV & LV) Hd. destruct st as [K V]. cbn [fst snd] in *. unfold ctr_drbg_update, CTR_Update. cbv zeta. rewrite K1, K2, K3, K4. cbn [fst snd].
    rewrite cover16, encrypts_spec by auto. cbn [fst]. fold (slen ks). change (cd_ent ks) with (slen ks).
    set (KV := concat (map (fun i => E K (nextV V i)) (seq 1 (cover 16 (slen ks))))).
    destruct (cover_bounds 16 (slen ks) ltac:(lia)) as (C1 & _ & _).
    assert (LKV : (slen ks <= length KV)%nat) by (unfold KV; rewrite (concat_len _ 16) by (intros; apply HE); exact C1).
    assert (LF : (length (firstn (slen ks) data) <= slen ks)%nat) by (rewrite firstn_length; lia).
    assert (EX : firstn (slen ks) (xor_into KV (firstn (slen ks) data)) = map2 Z.lxor (firstn (slen ks) KV) (zpad data (slen ks))).
    { rewrite xor_into_spec by lia. rewrite firstn_map2, firstn_zpad by lia. apply map2_trunc. rewrite firstn_length. lia. }
    unfold ctr_out. fold KV. rewrite <- EX. set (X := xor_into KV (firstn (slen ks) data)).
    assert (E1 : firstn ks (firstn (slen ks) X) = firstn ks X) by (rewrite firstn_firstn; f_equal; unfold slen; lia).
    assert (E2 : skipn ks (firstn (slen ks) X) = firstn 16 (skipn ks X)) by (rewrite skipn_firstn_comm; f_equal; unfold slen; lia).
    rewrite E1, E2. unfold cd_inv. cbn [cd_ks cd_derivation cd_K cd_state fst snd].
    assert (BX : bytes X). { unfold X. rewrite xor_into_spec by lia. apply xor_bytes; [apply concat_bytes; intros; apply HE|apply zpad_bytes, bytes_firstn; exact Hd]. }
    assert (LX : (slen ks <= length X)%nat). { unfold X. rewrite xor_into_spec by lia. rewrite map2_length, zpad_len by lia. lia. }
    repeat split; auto; [apply bytes_firstn, bytes_skipn; exact BX|]. rewrite firstn_length, skipn_length. unfold slen in LX. lia.
  Qed.
  Lemma bcc_spec K : forall n chain S, length S = (n * 16)%nat -> bcc_loop E n K chain S = fold_left (fun ch b => E K (map2 Z.lxor ch b)) (blocks 16 S) chain.
  Proof.
    induction n as [|n IH]; intros chain S HL; cbn [bcc_loop]; [rewrite blocks_nil by lia; reflexivity|].
    rewrite (blocks_cons 16 S) by lia. cbn [fold_left]. apply IH. rewrite skipn_length. lia.
  Qed.
  Lemma chain_spec K N (rest : list Z) : (4 + length rest = N * 16)%nat -> forall n i (S4 : list Z), length S4 = 4%nat -> (i + n <= 1000)%nat ->
    derive_chain E n (Z.of_nat i) N K (S4 ++ rest) = concat (map (fun i => BCC E K (be_bytes 4 (Z.of_nat i) ++ rest)) (seq i n)).
  Proof.
    intros HL. induction n as [|n IH]; intros i S4' L4 Hi; cbn [derive_chain seq map concat]; [reflexivity|]. cbv zeta.
    assert (ES : skipn 4 (S4' ++ rest) = rest) by (apply skipn_app_exact; exact L4). rewrite ES, write32be_spec. f_equal.
    - unfold BCC. apply bcc_spec. rewrite app_length, be_bytes_length. exact HL.
    - replace (Z.of_nat i + 1) with (Z.of_nat (S i)) by lia. apply IH; [apply be_bytes_length|lia].
  Qed.
  Lemma out_spec K n : forall x, derive_out E n K x = concat (map (fun i => Nat.iter i (E K) x) (seq 1 n)).
  Proof.
    induction n as [|n IH]; intros x; cbn [derive_out seq map concat]; [reflexivity|]. cbv zeta. rewrite IH. f_equal. f_equal.
    rewrite <- (seq_shift n 1), map_map. apply map_ext. intros i. symmetry. apply iter_r.
  Qed.
  Lemma derive_spec ks nonce pers : (length nonce <= 512)%nat -> (length pers <= 512)%nat -> (ks <= 32)%nat ->
    ctr_drbg_derive E ks nonce pers = Ok (Block_Cipher_df E ks (nonce ++ pers) (slen ks)).
  Proof.
    intros H1 H2 Hk. unfold ctr_drbg_derive. destruct (serialize_spec ks nonce pers H1 H2 Hk) as [-> [q Hq]]. cbn [bind]. cbv zeta. f_equal. unfold Block_Cipher_df. cbv zeta.
    rewrite cover16. change (cd_ent ks) with (slen ks). set (D := df_S (nonce ++ pers) (slen ks)) in *.
    assert (ED : derive_chain E (cover 16 (slen ks)) 0 (length (repeat 0 16 ++ D) / 16) (zseq 0 ks) (repeat 0 16 ++ D) =
                 concat (map (fun i => BCC E (zseq 0 ks) (be_bytes 4 (Z.of_nat i) ++ repeat 0 12 ++ D)) (seq 0 (cover 16 (slen ks))))).
    { assert (LD : length (repeat 0 16 ++ D) = ((1 + Z.to_nat q) * 16)%nat) by (rewrite app_length, repeat_length; lia).
      rewrite LD, Nat.div_mul by lia. change (repeat 0 16 ++ D) with (repeat 0 4 ++ (repeat 0 12 ++ D)). change 0 with (Z.of_nat 0) at 1.
      apply chain_spec; [rewrite app_length, repeat_length in *; lia|reflexivity|].
      assert (cover 16 (slen ks) <= 3)%nat; [|lia]. unfold cover, slen. apply Nat.lt_succ_r, Nat.div_lt_upper_bound; lia. }
    rewrite ED. rewrite out_spec. reflexivity.
  Qed.
  Lemma df_bytes ks x n : bytes (Block_Cipher_df E ks x n).
  Proof.
    unfold Block_Cipher_df. cbv zeta. apply bytes_firstn. set (K := firstn _ _). set (X := firstn _ _). generalize (cover 16 n). intros m.
    assert (G : forall m i, (1 <= i)%nat -> bytes (concat (map (fun i => Nat.iter i (E K) X) (seq i m)))).
    { induction m0 as [|m0 IH]; intros i Hi; cbn [seq map concat]; [constructor|]. apply bytes_app. split; [|apply IH; lia].
      destruct i as [|i]; [lia|]. change (Nat.iter (S i) (E K) X) with (E K (Nat.iter i (E K) X)). apply HE. }
    apply G. lia.
  Qed.
  (* what the standard permits: 512 bytes each with the derivation function, seedlen each without *)
  Definition seed_ok (ks : nat) (df : bool) (x y : list Z) : Prop :=
    bytes x /\ bytes y /\ (length x <= if df then 512 else slen ks)%nat /\ (length y <= if df then 512 else slen ks)%nat.
  Lemma entropy_spec ks df x y : (ks <= 32)%nat -> seed_ok ks df x y ->
    ctr_drbg_entropy E ks df x y = Ok (seed_material E ks df x y) /\ bytes (seed_material E ks df x y).
  Proof.
    intros Hk (Bx & By & Lx & Ly). unfold ctr_drbg_entropy, seed_material. destruct df; [split; [apply derive_spec; auto|apply df_bytes]|]. cbv zeta. change (cd_ent ks) with (slen ks). split.
    - f_equal. rewrite (firstn_all2 x), (firstn_all2 y) by lia. fold (zpad x (slen ks)). assert (LZ : length (zpad x (slen ks)) = slen ks) by (apply zpad_len; lia).
      rewrite xor_into_spec by lia. rewrite LZ. reflexivity.
    - apply xor_bytes; apply zpad_bytes; auto.
  Qed.
  Lemma cd_init bits df x y : bits = 128 \/ bits = 192 \/ bits = 256 -> let ks := Z.to_nat (bits / 8) in seed_ok ks df x y ->
    exists d, ctr_drbg_init E bits df x y = Ok d /\ cd_inv ks df (CTR_Instantiate E ks df x y) d.
  Proof.
    intros Hb ks Hs. assert (Hk : (ks <= 32)%nat) by (unfold ks; destruct Hb as [->|[->| ->]]; cbn; lia).
    unfold ctr_drbg_init. replace (negb _) with false by lia. cbv zeta. fold ks. destruct (entropy_spec ks df x y Hk Hs) as [-> B]. cbn [bind]. eexists. split; [reflexivity|].
    apply cd_update; [|exact B]. unfold cd_inv. cbn [cd_ks cd_derivation cd_K cd_state fst snd]. repeat split. apply bytes_zeros.
  Qed.
  Lemma cd_reseed ks df st d x y : (ks <= 32)%nat -> cd_inv ks df st d -> seed_ok ks df x y ->
    exists d', ctr_drbg_reseed E d x y = Ok d' /\ cd_inv ks df (CTR_Reseed E ks df st x y) d'.
  Proof.
    intros Hk HI Hs. pose proof HI as (K1 & K2 & _). unfold ctr_drbg_reseed. rewrite K1, K2. destruct (entropy_spec ks df x y Hk Hs) as [-> B]. cbn [bind]. eexists. split; [reflexivity|].
    apply cd_update; auto.
  Qed.
  Lemma loop_spec K : forall n fuel V len out, bytes V -> length V = 16%nat -> (n <= fuel)%nat -> (len <= n * 16)%nat -> ((n - 1) * 16 < len)%nat \/ n = 0%nat ->
    ctr_drbg_loop E fuel K V len out = Some (out ++ firstn len (concat (map (fun i => E K (nextV V i)) (seq 1 n))), nextV V n).
  Proof.
    induction n as [|n IH]; intros fuel V len out BV LV Hf H1 H2.
    - destruct len; [|lia]. rewrite nextV_0 by auto. destruct fuel; cbn [ctr_drbg_loop Nat.ltb Nat.leb firstn seq map concat]; rewrite app_nil_r; reflexivity.
    - destruct H2 as [H2|H2]; [|discriminate]. destruct fuel as [|fuel]; [lia|]. cbn [ctr_drbg_loop]. destruct (Nat.ltb_spec 0 len); [|lia].
      rewrite inc_nextV by auto. destruct (nextV_ok V 1) as [L1 B1]. rewrite map_nextV. cbn [concat]. rewrite firstn_app, (proj1 (HE K (nextV V 1))).
      destruct (Nat.ltb_spec len 16) as [G|G].
      + assert (n = 0%nat) as -> by lia. replace (len - 16)%nat with 0%nat by lia. cbn [firstn]. rewrite app_nil_r. reflexivity.
      + rewrite IH; [|auto|auto|lia|lia|destruct n; [right; reflexivity|left; lia]]. rewrite nextV_add, <- app_assoc. rewrite (firstn_all2 (n := len)) by (rewrite (proj1 (HE K (nextV V 1))); lia). reflexivity.
  Qed.
  Lemma cd_generate ks df st d len add fuel : (ks <= 32)%nat -> cd_inv ks df st d -> bytes add -> (df = true -> length add <= 512)%nat -> (len <= fuel)%nat ->
    let '(o, st') := CTR_Generate E ks df st len add in exists d', ctr_drbg_generate E fuel d len add = Some (Ok (o, d')) /\ cd_inv ks df st' d'.
  Proof.
    intros Hk HI Ha HL Hf. unfold CTR_Generate, ctr_drbg_generate.
    set (data := match add with [] => ([] : list Z) | _ => if df then Block_Cipher_df E ks add (slen ks) else add end).
    assert (Bd : bytes data) by (unfold data; destruct add; [constructor|destruct df; [apply df_bytes|exact Ha]]).
    assert (G : exists d1, (if (0 <? length add)%nat then if cd_derivation d then bind (ctr_drbg_derive E (cd_ks d) add []) (fun tmp => Ok (ctr_drbg_update E d tmp, tmp)) else Ok (ctr_drbg_update E d add, add) else Ok (d, add)) = Ok (d1, data)
            /\ cd_inv ks df (match add with [] => st | _ => CTR_Update E ks st data end) d1).
    { pose proof HI as (K1 & K2 & _). rewrite K1, K2. unfold data in *. clear data. destruct add as [|a add]; [exists d; split; [reflexivity|exact HI]|]. replace (0 <? length (a :: add))%nat with true by reflexivity. set (ad := a :: add) in *.
      destruct df.
      - rewrite derive_spec by (auto; cbn; lia). rewrite app_nil_r. cbn [bind]. eexists. split; [reflexivity|]. apply cd_update; auto.
      - eexists. split; [reflexivity|]. apply cd_update; auto. }
    destruct G as (d1 & -> & HI1). clearbody data. destruct (match add with [] => st | _ => CTR_Update E ks st data end) as [K V]. pose proof HI1 as (K1 & K2 & K3 & K4 & BV & LV). cbn [fst snd] in *.
    destruct (cover_bounds 16 len ltac:(lia)) as (C1 & C2 & C3). rewrite K1, K2, K3, K4.
    rewrite (loop_spec K (cover 16 len)); [|auto|auto| |exact C1|]. 2:{ destruct len; [rewrite C3; lia|]. specialize (C2 ltac:(lia)). lia. }
    2:{ destruct len; [right; apply C3; reflexivity|]. left. apply C2. lia. }
    cbn [app]. eexists. split; [reflexivity|]. apply cd_update; [|exact Bd]. destruct (nextV_ok V (cover 16 len)) as [L1 B1].
    unfold cd_inv. cbn [cd_ks cd_derivation cd_K cd_state fst snd]. repeat split; auto.
  Qed.
  (* bytes past 512 (with the derivation function) or past seedlen (without) never reach the state *)
  Lemma entropy_trunc ks (df : bool) x y : let n := if df then 512%nat else slen ks in
    ctr_drbg_entropy E ks df x y = ctr_drbg_entropy E ks df (firstn n x) (firstn n y).
  Proof.
    intros n. unfold ctr_drbg_entropy, ctr_drbg_derive, ctr_drbg_serialize. subst n. destruct df; cbv zeta; rewrite !firstn_firstn, Nat.min_id; reflexivity.
  Qed.
End Ctr.
(* with at most 512 bytes each, the serialisation is injective in nonce || pers *)
Lemma df_S_inj (x y : list Z) n : bytes x -> bytes y -> Z.of_nat (length x) < 2 ^ 32 -> Z.of_nat (length y) < 2 ^ 32 -> df_S x n = df_S y n -> x = y.
Proof.
  intros Bx By Lx Ly E. unfold df_S, zpad in E. cbv zeta in E.
  assert (E4 : firstn 4 (be_bytes 4 (Z.of_nat (length x))) = firstn 4 (be_bytes 4 (Z.of_nat (length y)))).
  { pose proof (f_equal (firstn 4) E) as F. rewrite <- !app_assoc in F. rewrite !firstn_app, !be_bytes_length in F. cbn [Nat.sub firstn] in F. rewrite !app_nil_r in F. exact F. }
  rewrite !firstn_all2 in E4 by (rewrite be_bytes_length; lia).
  assert (EL : length x = length y).
  { apply (f_equal be_val) in E4. rewrite !be_val_be_bytes in E4. change (256 ^ Z.of_nat 4) with (2 ^ 32) in E4. rewrite !Z.mod_small in E4 by lia. lia. }
  rewrite <- !app_assoc in E. rewrite EL in E. apply app_inv_head in E. apply app_inv_head in E. 
  apply (f_equal (firstn (length x))) in E. rewrite !firstn_app in E. rewrite EL in E at 2. rewrite <- EL, Nat.sub_diag in E. cbn [firstn] in E.
  rewrite !app_nil_r in E. rewrite firstn_all in E. rewrite EL, firstn_all in E. exact E.
Qed.
