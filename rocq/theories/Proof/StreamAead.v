(* cipher_stream_t: the authenticated modes *)
From Verif.Base Require Import Prelude.
From Verif.Model Require Import Bio Util Block Encoding Modes CipherStream.
From Verif.Spec Require Import BlockSpec StreamSpec ModesSpec StreamApiSpec.
From Verif.Proof Require Import UtilProof BioProof BufCrypt BlockProof Pkcs7Proof BlockModes GfShift XtsProof StreamModes CtrProof GhashProof MacModes AeadModes CcmProof StreamApi StreamBlock StreamOpen.
#[local] Ltac Zify.zify_post_hook ::= idtac.

Fixpoint set_aads (s : cstream) (aads : list (list Z)) : outcome cstream :=
  match aads with
  | [] => Ok s
  | a :: t => match cipher_stream_set_aad s a with Ok s' => set_aads s' t | Fail => Fail | Abort => Abort end
  end.

Definition mk0 (mode : mode_id) (enc : bool) (c : cipher) (m : mstate) : cstream :=
  mkS enc true false (repeat 0 (c_size c)) 0 (repeat 0 (c_size c)) 0 [] 0 c mode m.

Lemma aead_init ci B mode enc key iv s : family ci B -> is_aead mode = true -> cipher_stream_init ci mode enc key iv = Some s ->
  exists c m, ci key = Some c /\ cipher_ok c /\ c_size c = B /\ cipher_mode_init c mode iv = Some m /\ s = mk0 mode enc c m.
Proof.
  intros HF Ha EI. unfold cipher_stream_init in EI.
  destruct mode; try discriminate; (destruct (ci key) as [c|] eqn:EC; [|discriminate]; destruct (HF _ _ EC) as [F1 F2];
    destruct (cipher_mode_init c _ iv) as [m|] eqn:EM; [|discriminate]; apply some_eq in EI; exists c, m; rewrite <- EI;
    repeat (split; [first [exact F1 | exact F2 | reflexivity | exact EM]|]); reflexivity).
Qed.

Section A.
  Variable c : cipher.
  Hypothesis Hc : cipher_ok c.
  Notation B := (c_size c).

  Lemma set_aads_gcm aads : forall s g, s_type s = GCM -> s_mode s = MGcm g -> set_aads s aads = Ok (with_mode s (MGcm (fold_left gcm_aad aads g))).
  Proof.
    induction aads as [|a t IH]; intros s g HT HM; cbn [set_aads fold_left]; [rewrite <- HM, with_mode_same; reflexivity|].
    unfold cipher_stream_set_aad. rewrite HT, HM. rewrite (IH (with_mode s (MGcm (gcm_aad g a))) (gcm_aad g a) HT eq_refl). reflexivity.
  Qed.
  Lemma set_aads_eax aads : forall s g, s_type s = EAX -> s_cipher s = c -> s_mode s = MEax g -> set_aads s aads = Ok (with_mode s (MEax (fold_left (eax_aad c) aads g))).
  Proof.
    induction aads as [|a t IH]; intros s g HT HC HM; cbn [set_aads fold_left]; [rewrite <- HM, with_mode_same; reflexivity|].
    unfold cipher_stream_set_aad. rewrite HT, HM, HC. rewrite (IH (with_mode s (MEax (eax_aad c g a))) (eax_aad c g a) HT HC eq_refl). reflexivity.
  Qed.

  Lemma upd_gcm (enc : bool) s g chunks : B = 16%nat -> s_encrypt s = enc -> s_type s = GCM -> s_cipher s = c -> s_mode s = MGcm g -> live c (gcm_ctr g) ->
    let f := if enc then gcm_encrypt c else gcm_decrypt c in
    updates s chunks = Ok (fst (calls f g chunks), with_mode s (MGcm (snd (calls f g chunks)))).
  Proof.
    intros H16 HE HT HC HM HL f. apply (updates_stream MGcm f (fun g => live c (gcm_ctr g)) s); auto.
    - rewrite HT. reflexivity.
    - intros m x Hm. destruct (gcmc_len c Hc (gcm_ctr m) x H16 Hm) as [A1 A2]. unfold f, gcm_encrypt, gcm_decrypt.
      destruct enc; destruct (gcm_crypt c (gcm_ctr m) x) as [d ctr]; cbn [fst snd gcm_ctr] in *; auto.
    - intros m x. unfold encipher, f. rewrite HE, HT, HC. destruct enc; reflexivity.
    - rewrite <- HM, with_mode_same. reflexivity.
  Qed.
  Lemma upd_eax (enc : bool) s g chunks : s_encrypt s = enc -> s_type s = EAX -> s_cipher s = c -> s_mode s = MEax g -> live c (eax_ctr g) ->
    let f := if enc then eax_encrypt c else eax_decrypt c in
    updates s chunks = Ok (fst (calls f g chunks), with_mode s (MEax (snd (calls f g chunks)))).
  Proof.
    intros HE HT HC HM HL f. apply (updates_stream MEax f (fun g => live c (eax_ctr g)) s); auto.
    - rewrite HT. reflexivity.
    - intros m x Hm. destruct (eaxc_len c Hc (eax_ctr m) x Hm) as [A1 A2]. unfold f, eax_encrypt, eax_decrypt.
      destruct enc; destruct (eax_crypt c (eax_ctr m) x) as [d ctr]; cbn [fst snd eax_ctr] in *; auto.
    - intros m x. unfold encipher, f. rewrite HE, HT, HC. destruct enc; reflexivity.
    - rewrite <- HM, with_mode_same. reflexivity.
  Qed.
  Lemma upd_ccm (enc : bool) s g chunks : s_encrypt s = enc -> s_type s = CCM -> s_cipher s = c -> s_mode s = MCcm g -> live c (ccm_ctr g) ->
    let f := if enc then ccm_encrypt c else ccm_decrypt c in
    updates s chunks = Ok (fst (calls f g chunks), with_mode s (MCcm (snd (calls f g chunks)))).
  Proof.
    intros HE HT HC HM HL f. apply (updates_stream MCcm f (fun g => live c (ccm_ctr g)) s); auto.
    - rewrite HT. reflexivity.
    - intros m x Hm. destruct (ctr_len c Hc (ccm_ctr m) x Hm) as [A1 A2]. unfold f, ccm_encrypt, ccm_decrypt, ccm_crypt.
      destruct enc; destruct (ctr_crypt c (ccm_ctr m) x) as [d ctr]; cbn [fst snd ccm_ctr] in *; auto.
    - intros m x. unfold encipher, f. rewrite HE, HT, HC. destruct enc; reflexivity.
    - rewrite <- HM, with_mode_same. reflexivity.
  Qed.

  (* verification compares the leading bytes of the tag *)
  Lemma verify_spec mode m d tag : cipher_mode_digest c mode m = Ok d -> bytes d -> (length d <= 16)%nat -> bytes tag -> (0 < length tag <= length d)%nat ->
    cipher_mode_verify c mode m tag = Ok (if list_eq_dec Z.eq_dec tag (firstn (length tag) d) then 1 else 0).
  Proof.
    intros HD Hb HL Ht HLt. unfold cipher_mode_verify. rewrite HD.
    destruct (Nat.eqb_spec (length tag) 0) as [?|_]; [lia|]. destruct (Nat.ltb_spec 16 (length tag)) as [?|_]; [lia|]. cbn [orb].
    assert (EB : firstn (length tag) (blit (repeat 0 16) 0 d) = firstn (length tag) d).
    { unfold blit. cbn [firstn app Nat.add]. rewrite firstn_app. replace (length tag - length d)%nat with 0%nat by lia. cbn [firstn]. apply app_nil_r. }
    rewrite EB. f_equal. rewrite memequal_iff; [|apply bytes_firstn; auto|auto|rewrite firstn_length; lia].
    destruct (list_eq_dec Z.eq_dec (firstn (length tag) d) tag) as [E1|E1], (list_eq_dec Z.eq_dec tag (firstn (length tag) d)) as [E2|E2]; congruence.
  Qed.
End A.
