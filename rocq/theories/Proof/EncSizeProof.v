(* lengths of encodings and decodings *)
From Verif.Base Require Import Prelude.
From Verif.Model Require Import Encoding.
From Verif.Spec Require Import EncodingSpec.
From Verif.Proof Require Import EncodingProof Base64Proof Base32Proof Base58Proof.

Ltac evc :=
  repeat match goal with |- context [tab ?l ?i] => let v := eval vm_compute in (tab l i) in change (tab l i) with v end;
  repeat match goal with |- context [?a =? ?b] => let v := eval vm_compute in (a =? b) in change (a =? b) with v end;
  repeat match goal with |- context [?a <=? ?b] => let v := eval vm_compute in (a <=? b) in change (a <=? b) with v end;
  repeat match goal with |- context [0 <? ?b] => let v := eval vm_compute in (0 <? b) in change (0 <? b) with v end;
  cbn [andb]; cbv iota.

Lemma base32_enc_len cs b pad : bytes b ->
  Z.of_nat (length (base32_encode0 cs b pad)) = base32_encode_size (Z.of_nat (length b)) pad.
Proof.
  intros Hb. rewrite base32_encode_eq by auto. unfold base32_encode_size.
  pose proof (e32_len b) as EL. set (n := Z.of_nat (length b)) in *. assert (Hn : 0 <= n) by lia.
  assert (G : Z.of_nat (length (e32 b) mod 8) = Z.of_nat (length (e32 b)) mod 8) by (rewrite Nat2Z.inj_mod; reflexivity).
  destruct pad; [unfold pad_eq; rewrite app_length, repeat_length, !map_length, Nat2Z.inj_add|rewrite map_length];
    (destruct (mod5_cases n Hn) as [A|[A|[A|[A|A]]]]; rewrite A in *;
      match type of EL with context [tab ?l ?i] => let v := eval vm_compute in (tab l i) in change (tab l i) with v in EL end;
      rewrite EL in *; unfold base32_padding;
      repeat match goal with |- context [tab ?l ?i] => let v := eval vm_compute in (tab l i) in change (tab l i) with v end;
      repeat match goal with |- context [?a =? ?b] => let v := eval vm_compute in (a =? b) in change (a =? b) with v end;
      repeat match goal with |- context [?a <=? ?b] => let v := eval vm_compute in (a <=? b) in change (a <=? b) with v end;
      repeat match goal with |- context [0 <? ?b] => let v := eval vm_compute in (0 <? b) in change (0 <? b) with v end;
      cbn [andb]; cbv iota).
  all: try lia.
Qed.

Lemma base32_enc_size_le n pad : 0 <= n -> base32_encode_size n pad <= n / 5 * 8 + 13.
Proof.
  intros Hn. unfold base32_encode_size, base32_padding.
  destruct (mod5_cases n Hn) as [A|[A|[A|[A|A]]]]; rewrite A; destruct pad; cbv zeta; evc; lia.
Qed.

Lemma strip_eq_clean n s k : (k <= n)%nat -> (match s with [] => True | c :: _ => c <> 61 end) ->
  strip_eq n (repeat 61 k ++ s) = s.
Proof.
  revert k. induction n as [|n IH]; intros k Hk Hs.
  - destruct k; [reflexivity|lia].
  - destruct k as [|k].
    + cbn [repeat app strip_eq]. destruct s as [|c s]; auto. apply Z.eqb_neq in Hs as Hs'. rewrite Hs'.
      apply (IH O); auto. lia.
    + cbn [repeat app strip_eq]. change (61 =? 61) with true. cbv iota. apply IH; auto. lia.
Qed.

Lemma base32_dec_size cs tb s b unpad : tab_ok tb cs lower 32 = true -> bytes s -> Z.of_nat (length s) < 2 ^ 63 ->
  unpad = 0 \/ unpad = 1 -> base32_decode0 tb s unpad = Some b ->
  Z.of_nat (length b) = base32_decode_size s /\ base32_decode_size s <= Z.of_nat (length s) / 8 * 5 + 4.
Proof.
  intros OK Hs HL Hu HD. apply (base32_dec_iff tb cs OK) in HD; auto. destruct HD as [Hb E].
  assert (HK : exists k, padded unpad (map (tab cs) (e32 b)) = map (tab cs) (e32 b) ++ repeat 61 k /\
     (k <= 6)%nat).
  { unfold padded. destruct (unpad =? 0); [exists O; cbn; rewrite app_nil_r; split; [auto|lia]|].
    unfold pad_eq. eexists. split; [reflexivity|]. rewrite map_length.
    assert (G : Z.of_nat (length (e32 b) mod 8) = Z.of_nat (length (e32 b)) mod 8) by (rewrite Nat2Z.inj_mod; reflexivity).
    rewrite e32_len in G.
    destruct (mod5_cases (Z.of_nat (length b)) ltac:(lia)) as [A|[A|[A|[A|A]]]]; rewrite A in G;
      match type of G with context [tab ?l ?i] => let v := eval vm_compute in (tab l i) in change (tab l i) with v in G end;
      rewrite Z.add_comm, Z.mod_add in G by lia;
      match type of G with _ = ?a mod 8 => let v := eval vm_compute in (a mod 8) in change (a mod 8) with v in G end.
    - replace (length (e32 b) mod 8)%nat with 0%nat by lia. cbn. lia.
    - replace (length (e32 b) mod 8)%nat with 2%nat by lia. cbn. lia.
    - replace (length (e32 b) mod 8)%nat with 4%nat by lia. cbn. lia.
    - replace (length (e32 b) mod 8)%nat with 5%nat by lia. cbn. lia.
    - replace (length (e32 b) mod 8)%nat with 7%nat by lia. cbn. lia. }
  destruct HK as (k & EK & Hk). rewrite EK in E.
  assert (LEN : length (strip_eq 6 (rev s)) = length (e32 b)).
  { set (q := e32 b) in *.
    assert (Hq : Forall (below 32) q) by (apply e32_below; auto).
    assert (Es : s = firstn (length q) s ++ skipn (length q) s) by (rewrite firstn_skipn; auto).
    set (p := firstn (length q) s) in *. set (r := skipn (length q) s) in *.
    assert (EP : map lower p = map (tab cs) q).
    { unfold p. rewrite <- firstn_map, E. rewrite firstn_app_exact; auto. rewrite map_length; auto. }
    assert (ER : map lower r = repeat 61 k).
    { unfold r. rewrite <- skipn_map, E. rewrite skipn_app_exact; auto. rewrite map_length; auto. }
    clearbody p r. assert (Hpr : bytes p /\ bytes r) by (rewrite Es in Hs; apply bytes_app in Hs; tauto).
    destruct Hpr as [Hp Hr].
    assert (R : r = repeat 61 k).
    { clear -ER Hr OK. revert r ER Hr. induction k as [|k IH]; intros [|c r] ER Hr; try discriminate; auto.
      cbn [map repeat] in *. injection ER as E1 E2. invbytes.
      apply (proj1 (tok_fold61 _ _ _ _ OK c ltac:(assumption))) in E1. f_equal; auto. }
    rewrite Es, R, rev_app_distr.
    assert (RR : rev (repeat 61 k) = repeat 61 k).
    { clear. induction k as [|k IH]; [reflexivity|]. cbn [repeat rev]. rewrite IH.
      clear. induction k as [|k IH]; [reflexivity|]. cbn [repeat app]. rewrite IH. reflexivity. }
    rewrite RR, strip_eq_clean; auto.
    - rewrite rev_length. rewrite <- (map_length lower), EP, map_length. reflexivity.
    - destruct (rev p) as [|c t] eqn:ERP; auto. intros ->.
      assert (In 61 p) by (apply in_rev; rewrite ERP; left; auto).
      assert (In 61 (map (tab cs) q)) by (rewrite <- EP; apply in_map_iff; exists 61; auto).
      apply in_map_iff in H0 as (v & Ev & Hv). rewrite Forall_forall in Hq. apply Hq in Hv.
      destruct (tok_sym _ _ _ _ OK v Hv) as (_ & N & _). congruence. }
  unfold base32_decode_size. rewrite LEN, e32_len.
  assert (LS : Z.of_nat (length (e32 b)) <= Z.of_nat (length s)).
  { rewrite <- (map_length lower s), E, app_length, map_length. lia. }
  rewrite e32_len in LS.
  set (n := Z.of_nat (length b)) in *. assert (0 <= n) by lia.
  destruct (mod5_cases n ltac:(lia)) as [A|[A|[A|[A|A]]]]; rewrite A in *;
      repeat match goal with |- context [tab ?l ?i] => let v := eval vm_compute in (tab l i) in change (tab l i) with v end;
      match type of LS with context [tab ?l ?i] => let v := eval vm_compute in (tab l i) in change (tab l i) with v in LS end;
      match goal with |- context [(n / 5 * 8 + ?c) mod 8] =>
        replace ((n / 5 * 8 + c) mod 8) with c by lia; replace ((n / 5 * 8 + c) / 8) with (n / 5) by lia end;
      cbv zeta; evc; lia.
Qed.

Lemma base64_enc_len tb cs b pad : tab_ok tb cs (fun c => c) 64 = true ->
  Z.of_nat (length (base64_encode0 cs pad b)) = base64_encode_size0 (Z.of_nat (length b)) pad.
Proof.
  intros OK. destruct pad; [|apply (b64_enc_len tb cs OK)].
  rewrite (b64_enc_pad tb cs OK), app_length, repeat_length, Nat2Z.inj_add, (b64_enc_len tb cs OK).
  unfold base64_encode_size0. destruct (_ =? 1); [lia|]. destruct (_ =? 2); lia.
Qed.

Lemma base64_enc_size_le n pad : 0 <= n -> base64_encode_size0 n pad <= n / 3 * 4 + 4.
Proof. intros Hn. unfold base64_encode_size0. destruct pad, (Z.eqb_spec (n mod 3) 1), (Z.eqb_spec (n mod 3) 2); lia. Qed.

Lemma base64_dec_size tb cs s b : tab_ok tb cs (fun c => c) 64 = true -> bytes s ->
  base64_decode0 tb s = Some b ->
  Z.of_nat (length b) = base64_decode_size0 s /\ base64_decode_size0 s <= Z.of_nat (length s) / 4 * 3 + 2.
Proof.
  intros OK Hs E. unfold base64_decode0, base64_decode_size0 in *. rewrite <- (rev_length (strip1 _)).
  destruct (strip_cases tb cs OK s) as (p & Ep & _).
  set (t := rev (strip1 (strip1 (rev s)))) in *.
  apply (dec0_iff_stripped tb cs OK) in E; [|eapply bytes_strip; eauto]. destruct E as [Hb E].
  destruct (b64_enc_len3 tb cs OK b) as (A & B & C & D). rewrite <- E in *.
  assert (length t <= length s)%nat by (rewrite Ep, app_length; lia).
  cbv zeta. rewrite land_3. revert D. cbv zeta.
  destruct (Z.eqb_spec (Z.of_nat (length t) mod 4) 0); intros D; split; lia.
Qed.

Lemma topnz_len B p n : 1 < B -> Forall (below B) p -> topnz p -> dval B p < B ^ Z.of_nat n -> (length p <= n)%nat.
Proof.
  intros HB Hp Ht HV. destruct p as [|x p] using rev_ind; [cbn; lia|].
  destruct Ht as [Ht|Ht]; [destruct p; discriminate|]. rewrite last_last in Ht.
  apply Forall_app in Hp as [Hp Hx]. apply Forall_cons_iff in Hx as [Hx _]. unfold below in Hx.
  rewrite dval_app in HV. cbn [dval] in HV. pose proof (dval_range B p ltac:(lia) Hp).
  rewrite app_length. cbn [length].
  destruct (Nat.le_gt_cases (length p + 1) n); auto. exfalso.
  assert (B ^ Z.of_nat n <= B ^ Z.of_nat (length p)) by (apply Z.pow_le_mono_r; lia).
  assert (0 < B ^ Z.of_nat (length p)) by (apply Z.pow_pos_nonneg; lia). nia.
Qed.

Lemma base58_len b s : is_base58 b s ->
  (length s <= 2 * length b)%nat /\ (length b <= length s)%nat.
Proof.
  intros (z & r & ds & -> & -> & Hr & Nr & Hd & Nd & V).
  rewrite !app_length, !repeat_length, map_length.
  assert (R1 : Forall (below 256) (rev r)) by (apply Forall_rev; exact Hr).
  assert (R2 : Forall (below 58) (rev ds)) by (apply Forall_rev; exact Hd).
  pose proof (dval_range 256 (rev r) ltac:(lia) R1) as V1. rewrite rev_length in V1.
  pose proof (dval_range 58 (rev ds) ltac:(lia) R2) as V2. rewrite rev_length in V2.
  split.
  - enough (length (rev ds) <= 2 * length r)%nat by (rewrite rev_length in *; lia).
    apply (topnz_len 58); auto; try lia; [apply no_lead0_topnz; auto|].
    rewrite <- V. apply Z.lt_le_trans with (256 ^ Z.of_nat (length r)); [lia|].
    rewrite Nat2Z.inj_mul, Z.pow_mul_r by lia. apply Z.pow_le_mono_l. change (58 ^ Z.of_nat 2) with 3364. lia.
  - enough (length (rev r) <= length ds)%nat by (rewrite rev_length in *; lia).
    apply (topnz_len 256); auto; try lia; [apply no_lead0_topnz; auto|].
    rewrite V. apply Z.lt_le_trans with (58 ^ Z.of_nat (length ds)); [lia|].
    apply Z.pow_le_mono_l. lia.
Qed.
