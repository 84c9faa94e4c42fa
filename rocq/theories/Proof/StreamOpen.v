(* cipher_stream_t: opening a stream, stream modes, authenticated modes *)
From Verif.Base Require Import Prelude.
From Verif.Model Require Import Bio Util Block Encoding Modes CipherStream.
From Verif.Spec Require Import BlockSpec StreamSpec ModesSpec StreamApiSpec.
From Verif.Proof Require Import UtilProof BioProof BufCrypt BlockProof Pkcs7Proof BlockModes GfShift XtsProof StreamModes CtrProof GhashProof MacModes AeadModes CcmProof StreamApi StreamBlock.
#[local] Ltac Zify.zify_post_hook ::= idtac.

(* cipher_init for one cipher_id_t: every key it accepts gives a permutation of B-byte blocks *)
Definition family (ci : list Z -> option cipher) (B : nat) : Prop := forall k c, ci k = Some c -> cipher_ok c /\ c_size c = B.
(* the ciphers a stream uses; XTS cuts its key in two *)
Definition keyed (ci : list Z -> option cipher) (mode : mode_id) (key : list Z) : option (cipher * cipher) :=
  match mode with
  | XTS =>
    match ci (firstn (length key / 2) key), ci (skipn (length key / 2) key) with
    | Some a, Some b => Some (a, b)
    | _, _ => None
    end
  | _ => match ci key with Some c => Some (c, c) | None => None end
  end.
(* cipher_stream_init, then cipher_stream_set_padding(0) when pad = false *)
Definition opened (ci : list Z -> option cipher) (mode : mode_id) (encrypt pad : bool) (key iv : list Z) : option cstream :=
  match cipher_stream_init ci mode encrypt key iv with
  | Some s => if pad then Some s else cipher_stream_set_padding s false
  | None => None
  end.

(* lengths of stream outputs *)
Lemma bwise_len size strm perm (wf : smode -> Prop) :
  (forall m x, wf m /\ (m_pos m < size)%nat -> (wf (snd (bstep size strm perm m x)) /\ (m_pos (snd (bstep size strm perm m x)) < size)%nat) /\ length (fst (bstep size strm perm m x)) = 1%nat) ->
  forall src m, wf m /\ (m_pos m < size)%nat -> length (fst (bwise size strm perm m src)) = length src.
Proof.
  intros Hs. induction src as [|x t IH]; intros m Hm; cbn [bwise]; [reflexivity|].
  destruct (Hs m x Hm) as [H1 H2]. destruct (bstep size strm perm m x) as [d m1]. cbn [fst snd] in *.
  specialize (IH m1 H1). destruct (bwise size strm perm m1 t). cbn [fst length] in *. rewrite app_length. lia.
Qed.

Section C.
  Variable c : cipher.
  Hypothesis Hc : cipher_ok c.
  Notation B := (c_size c).
  Let H1 : (1 < B)%nat := B_gt1 c Hc.
  Definition live (m : smode) : Prop := wfm B m /\ (m_pos m < B)%nat.

  Lemma len_ok strm perm : (forall m, wfm B m -> wfm B (strm m)) ->
    (forall m p, strm (setpos m p) = setpos (strm m) p) ->
    (forall m p q s, perm (setpos m p) q s = (fst (perm m q s), setpos (snd (perm m q s)) p)) ->
    (forall m q s, wfm B m -> (q + length s <= B)%nat -> wfm B (snd (perm m q s))) ->
    (forall m q, wfm B m -> (q <= B)%nat -> perm m q [] = ([], m)) ->
    (forall m q x s, wfm B m -> (q + S (length s) <= B)%nat ->
      perm m q (x :: s) = let '(d, m) := perm m q [x] in let '(d', m) := perm m (S q) s in (d ++ d', m)) ->
    (forall m q x, wfm B m -> (q < B)%nat -> length (fst (perm m q [x])) = 1%nat) ->
    forall m src, live m -> length (fst (stream_update B strm perm m src)) = length src /\ live (snd (stream_update B strm perm m src)).
  Proof.
    intros W P PP PW PN PC PL m src [Hw Hp].
    assert (PS := stream_update_bwise B strm perm (wfm B) H1 (wfm_pos B) W P PP PW PN PC m src Hw Hp). rewrite PS. split.
    - apply (bwise_len B strm perm (wfm B)); [|auto]. intros m' x [W' P']. split.
      + apply (bstep_wf B strm perm (wfm B) H1 (wfm_pos B) W P PP PW PN PC); auto.
      + unfold bstep. specialize (PL (if (m_pos m' =? 0)%nat then strm m' else m') (m_pos m') x).
        destruct (perm (if (m_pos m' =? 0)%nat then strm m' else m') (m_pos m') [x]) as [d m2]. cbn [fst] in *.
        apply PL; auto. destruct (m_pos m' =? 0)%nat; auto.
    - apply (bwise_wf B strm perm (wfm B) H1 (wfm_pos B) W P PP PW PN PC); auto.
  Qed.
  Lemma ctr_like strm : (forall m, wfm B m -> wfm B (strm m)) -> (forall m p, strm (setpos m p) = setpos (strm m) p) ->
    forall m src, live m -> length (fst (stream_update B strm ctr_xor m src)) = length src /\ live (snd (stream_update B strm ctr_xor m src)).
  Proof.
    intros W P. apply len_ok; auto.
    - exact (ctr_perm_cons B H1).
    - intros m q x [A1 A2] Hq. unfold ctr_xor. cbn [fst]. rewrite xor3_len; [reflexivity|]. rewrite skipn_length. cbn [length]. lia.
  Qed.
  Lemma ctr_len m src : live m -> length (fst (ctr_crypt c m src)) = length src /\ live (snd (ctr_crypt c m src)).
  Proof. apply ctr_like; [apply ctr_wf; auto|reflexivity]. Qed.
  Lemma ofb_len m src : live m -> length (fst (ofb_crypt c m src)) = length src /\ live (snd (ofb_crypt c m src)).
  Proof. apply ctr_like; [apply ofb_wf; auto|reflexivity]. Qed.
  Lemma eaxc_len m src : live m -> length (fst (eax_crypt c m src)) = length src /\ live (snd (eax_crypt c m src)).
  Proof. apply ctr_like; [apply eax_wf; auto|reflexivity]. Qed.
  Lemma gcmc_len m src : B = 16%nat -> live m -> length (fst (gcm_crypt c m src)) = length src /\ live (snd (gcm_crypt c m src)).
  Proof. intros HB. apply ctr_like; [intros; apply gcm_wf; auto; lia|reflexivity]. Qed.
  Lemma cfbe_len m src : live m -> length (fst (cfb_encrypt c m src)) = length src /\ live (snd (cfb_encrypt c m src)).
  Proof.
    apply len_ok.
    - apply cfb_wf; auto.
    - reflexivity.
    - apply cfb_enc_pos.
    - apply (cfb_enc_wf B H1).
    - intros m0 q _ _. apply cfb_enc_nil.
    - apply (cfb_enc_cons B H1).
    - intros m0 q x [A1 A2] Hq. unfold cfb_xor_enc. cbn [fst]. rewrite xor3_len; [reflexivity|]. rewrite skipn_length. cbn [length]. lia.
  Qed.
  Lemma cfbd_len m src : live m -> length (fst (cfb_decrypt c m src)) = length src /\ live (snd (cfb_decrypt c m src)).
  Proof.
    apply len_ok.
    - apply cfb_wf; auto.
    - reflexivity.
    - apply cfb_dec_pos.
    - apply (cfb_dec_wf B H1).
    - intros m0 q _ _. apply cfb_dec_nil.
    - apply (cfb_dec_cons B H1).
    - intros m0 q x [A1 A2] Hq. unfold cfb_xor_dec. cbn [fst m_state m_iv]. rewrite xor3_len; [reflexivity|]. rewrite skipn_length. cbn [length]. lia.
  Qed.
  Lemma live_iv st iv : length st = B -> length iv = B -> live (mkM st iv 0).
  Proof. intros A1 A2. split; [split; auto|]. cbn [m_pos]. lia. Qed.
End C.

Lemma updates_stream {S} (K : S -> mstate) (f : S -> list Z -> list Z * S) (W : S -> Prop) s :
  is_stream (s_type s) = true ->
  (forall m x, W m -> length (fst (f m x)) = length x /\ W (snd (f m x))) ->
  (forall m x, encipher s (K m) x = tot_out K (f m x)) ->
  forall chunks m s', s' = with_mode s (K m) -> W m ->
  updates s' chunks = Ok (fst (calls f m chunks), with_mode s (K (snd (calls f m chunks)))).
Proof.
  intros Hs HW HE. induction chunks as [|x t IH]; intros m s' -> Hm; cbn [updates calls]; [reflexivity|].
  unfold cipher_stream_update. change (s_type (with_mode s (K m))) with (s_type s). rewrite Hs.
  change (s_mode (with_mode s (K m))) with (K m). change (encipher (with_mode s (K m)) (K m) x) with (encipher s (K m) x).
  rewrite HE. destruct (HW m x Hm) as [W1 W2]. destruct (f m x) as [o m1]. cbn [tot_out fst snd] in *.
  change (with_mode (with_mode s (K m)) (K m1)) with (with_mode s (K m1)). rewrite (IH m1 _ eq_refl W2).
  destruct (calls f m1 t). cbn [fst snd]. rewrite firstn_all2 by lia. reflexivity.
Qed.
Lemma with_mode_same s : with_mode s (s_mode s) = s. Proof. destruct s; reflexivity. Qed.

(* ---- a freshly opened block stream ---- *)
Definition mode0 (mode : mode_id) (B : nat) (E2 : list Z -> list Z) (iv : list Z) : mstate :=
  match mode with CBC | CTS => MCbc iv | XTS => MXts (E2 iv, repeat 0 B) | _ => MNone end.
Lemma opened_block ci B mode enc pad key iv s c c2 : family ci B -> is_stream mode = false -> bytes iv ->
  opened ci mode enc pad key iv = Some s -> keyed ci mode key = Some (c, c2) ->
  cipher_ok c /\ c_size c = B /\ (mode = RAW \/ mode = ECB \/ okb B iv) /\ Inv c mode (mode0 mode B (c_enc c2) iv) /\
  srep c mode enc (gstep c mode enc) (mode0 mode B (c_enc c2) iv) pad (pad && ((is_pad mode && negb enc) || is_cts mode)) [] [] s /\
  (pad = true \/ mode <> RAW).
Proof.
  intros HF Hs Hi HO HK. unfold opened in HO.
  destruct (cipher_stream_init ci mode enc key iv) as [s0|] eqn:EI; [|discriminate].
  assert (HC : cipher_ok c /\ c_size c = B /\ (mode = RAW \/ mode = ECB \/ okb B iv) /\ Inv c mode (mode0 mode B (c_enc c2) iv) /\
     s0 = mkS enc true ((is_pad mode && negb enc) || is_cts mode) (repeat 0 B) 0 (repeat 0 B) 0 [] 0 c mode (mode0 mode B (c_enc c2) iv)).
  { clear HO. unfold cipher_stream_init in EI. destruct mode; try discriminate; unfold keyed in HK.
    - destruct (ci key) as [c'|] eqn:EC; [|discriminate]. apply some_eq in HK. assert (c' = c) by congruence. subst c'.
      destruct (HF _ _ EC) as [F1 F2]. cbn [cipher_mode_init] in EI. destruct (length iv =? 0)%nat; [|discriminate].
      apply some_eq in EI. rewrite F2 in EI. split; [auto|]. split; [auto|]. split; [auto|]. split; [exact I|auto].
    - destruct (ci key) as [c'|] eqn:EC; [|discriminate]. apply some_eq in HK. assert (c' = c) by congruence. subst c'.
      destruct (HF _ _ EC) as [F1 F2]. cbn [cipher_mode_init] in EI. destruct (length iv =? 0)%nat; [|discriminate].
      apply some_eq in EI. rewrite F2 in EI. split; [auto|]. split; [auto|]. split; [auto|]. split; [exact I|auto].
    - destruct (ci key) as [c'|] eqn:EC; [|discriminate]. apply some_eq in HK. assert (c' = c) by congruence. subst c'.
      destruct (HF _ _ EC) as [F1 F2]. cbn [cipher_mode_init] in EI. rewrite F2 in EI. destruct (Nat.eqb_spec (length iv) B) as [HL|]; [|discriminate].
      apply some_eq in EI. unfold cbc_init in EI. rewrite firstn_all2 in EI by lia. split; [auto|]. split; [auto|]. split; [right; right; split; auto|]. split; [cbn [Inv mode0]; rewrite F2; split; auto|auto].
    - destruct (ci key) as [c'|] eqn:EC; [|discriminate]. apply some_eq in HK. assert (c' = c) by congruence. subst c'.
      destruct (HF _ _ EC) as [F1 F2]. cbn [cipher_mode_init] in EI. rewrite F2 in EI. destruct (Nat.eqb_spec (length iv) B) as [HL|]; [|discriminate].
      apply some_eq in EI. unfold cbc_init in EI. rewrite firstn_all2 in EI by lia. split; [auto|]. split; [auto|]. split; [right; right; split; auto|]. split; [cbn [Inv mode0]; rewrite F2; split; auto|auto].
    - destruct ((length key =? 0)%nat || negb (Z.land (Z.of_nat (length key)) 1 =? 0)); [discriminate|].
      destruct (negb (torsion_memequal (firstn (length key / 2) key) (skipn (length key / 2) key) =? 0)); [discriminate|].
      destruct (ci (firstn (length key / 2) key)) as [c'|] eqn:EC; [|discriminate].
      destruct (ci (skipn (length key / 2) key)) as [c2'|] eqn:EC2; [|discriminate]. apply some_eq in HK.
      assert (c' = c) by congruence. assert (c2' = c2) by congruence. subst c' c2'.
      destruct (HF _ _ EC) as [F1 F2]. destruct (HF _ _ EC2) as [G1 G2]. cbn [cipher_mode_init] in EI. rewrite F2 in EI.
      destruct (Nat.eqb_spec (length iv) B) as [HL|]; [|discriminate].
      apply some_eq in EI. unfold xts_init, xts_setup in EI. cbn [fst snd] in EI. rewrite F2, firstn_all2 in EI by lia.
      assert (OI : okb B iv) by (split; auto). assert (OE : okb B (c_enc c2 iv)) by (rewrite <- G2; apply E_ok; auto; rewrite G2; auto).
      split; [auto|]. split; [auto|]. split; [auto|]. split; [cbn [Inv mode0]; rewrite F2; auto|auto]. }
  destruct HC as (HC & HB & HV & HI & ES). pose proof (B_pos c Hc) as HP || pose proof (B_pos c HC) as HP.
  split; [auto|]. split; [auto|]. split; [auto|]. split; [auto|].
  assert (HL0 : leftover B [] = []) by (apply leftover_small; cbn; lia).
  assert (HB0 : blocks B [] = []) by (apply blocks_nil; cbn; lia).
  assert (HR : forall up s1, s_encrypt s1 = enc -> s_cipher s1 = c -> s_type s1 = mode -> s_padding s1 = pad -> s_unpad s1 = up -> s_mode s1 = mode0 mode B (c_enc c2) iv ->
    s_block s1 = repeat 0 B -> s_pos s1 = 0%nat -> s_lsize s1 = 0%nat ->
    srep c mode enc (gstep c mode enc) (mode0 mode B (c_enc c2) iv) pad up [] [] s1).
  { intros up s1 A1 A2 A3 A4 A5 A6 A7 A8 A9. split; auto; rewrite ?HB, ?HL0, ?HB0; auto.
    - rewrite A7. apply repeat_length.
    - rewrite A8. reflexivity.
    - unfold outs. rewrite HB, HB0. cbn [seqm fst removelast concat]. destruct up; [|reflexivity]. split; [reflexivity|].
      cbn [length]. destruct (Nat.ltb_spec 0 B); [|lia]. split; [auto|]. lia. }
  destruct pad.
  - apply some_eq in HO. subst s. split; [apply HR; rewrite ES; reflexivity|auto].
  - rewrite ES in HO. unfold cipher_stream_set_padding in HO. cbn [s_type s_encrypt s_lsize s_pos] in HO.
    change ((negb (0 =? 0)%nat || negb (0 =? 0)%nat)) with false in HO. rewrite andb_false_r in HO.
    destruct (negb (is_pad mode) && negb (is_cts mode)) eqn:EM; [discriminate|]. apply some_eq in HO. subst s.
    split; [apply HR; reflexivity|]. right. intros ->. discriminate.
Qed.

Lemma run_fin s chunks o s' : updates s chunks = Ok (o, s') -> run s chunks = fin_out o (cipher_stream_final s').
Proof. intros H. unfold run. rewrite H. reflexivity. Qed.

(* ---- a freshly opened CTR/CFB/OFB stream ---- *)
Definition sstep (mode : mode_id) (enc : bool) (c : cipher) : smode -> list Z -> list Z * smode :=
  match mode with
  | CTR => ctr_crypt c
  | OFB => ofb_crypt c
  | _ => if enc then cfb_encrypt c else cfb_decrypt c
  end.
Definition sinit (mode : mode_id) (c : cipher) (iv : list Z) : smode :=
  match mode with CTR => ctr_init c iv | OFB => ofb_init c iv | _ => cfb_init c iv end.
Lemma opened_stream ci B mode enc pad key iv s c c2 : family ci B -> is_stream mode = true -> is_aead mode = false -> bytes iv ->
  opened ci mode enc pad key iv = Some s -> keyed ci mode key = Some (c, c2) ->
  cipher_ok c /\ c_size c = B /\ okb B iv /\ pad = true /\ s_type s = mode /\
  forall chunks, updates s chunks = Ok (fst (calls (sstep mode enc c) (sinit mode c iv) chunks), with_mode s (MStream (snd (calls (sstep mode enc c) (sinit mode c iv) chunks)))).
Proof.
  intros HF Hs Ha Hi HO HK. unfold opened in HO.
  destruct (cipher_stream_init ci mode enc key iv) as [s0|] eqn:EI; [|discriminate].
  assert (HC : cipher_ok c /\ c_size c = B /\ okb B iv /\
     s0 = mkS enc true ((is_pad mode && negb enc) || is_cts mode) (repeat 0 B) 0 (repeat 0 B) 0 [] 0 c mode (MStream (sinit mode c iv))).
  { clear HO. unfold cipher_stream_init in EI. destruct mode; try discriminate; unfold keyed in HK;
      (destruct (ci key) as [c'|] eqn:EC; [|discriminate]; apply some_eq in HK; assert (c' = c) by congruence; subst c';
       destruct (HF _ _ EC) as [F1 F2]; cbn [cipher_mode_init] in EI; rewrite F2 in EI; destruct (Nat.eqb_spec (length iv) B) as [HL|]; [|discriminate];
       apply some_eq in EI; split; [exact F1|]; split; [exact F2|]; split; [split; assumption|]; symmetry; exact EI). }
  destruct HC as (HC & HB & HV & ES). pose proof (B_pos c HC) as HP.
  assert (HPd : pad = true).
  { destruct pad; [reflexivity|]. rewrite ES in HO. unfold cipher_stream_set_padding in HO. cbn [s_type] in HO. destruct mode; discriminate. }
  subst pad. apply some_eq in HO. subst s0. repeat (split; [first [assumption | apply HV | reflexivity | rewrite HO; reflexivity | subst s; reflexivity]|]).
  assert (LV : live c (sinit mode c iv)).
  { assert (H : length (repeat 0 (c_size c)) = c_size c) by apply repeat_length.
    assert (H2 : length (firstn (c_size c) iv) = c_size c) by (rewrite firstn_length; destruct HV; lia).
    unfold sinit, ctr_init, ofb_init, cfb_init. destruct mode; apply live_iv; auto. }
  intros chunks. apply (updates_stream MStream (sstep mode enc c) (live c)); auto.
  - subst s. exact Hs.
  - intros m x Hm. unfold sstep. destruct mode; try discriminate; [apply ctr_len; auto|destruct enc; [apply cfbe_len|apply cfbd_len]; auto|apply ofb_len; auto].
  - intros m x. subst s. unfold encipher. cbn [s_encrypt s_cipher s_type]. destruct mode; try discriminate; destruct enc; reflexivity.
  - subst s. reflexivity.
Qed.
