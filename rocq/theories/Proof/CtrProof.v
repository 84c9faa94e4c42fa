(* CTR, OFB, CFB and the counter modes inside GCM, CCM and EAX *)
From Verif.Base Require Import Prelude.
From Verif.Model Require Import Bio Util Block Encoding Modes.
From Verif.Spec Require Import BlockSpec StreamSpec ModesSpec.
From Verif.Proof Require Import UtilProof BioProof BufCrypt BlockProof BlockModes StreamModes.
#[local] Ltac Zify.zify_post_hook ::= idtac.

Lemma keystream_S blk n : keystream blk (S n) = blk 0%nat ++ keystream (fun i => blk (S i)) n.
Proof. unfold keystream. cbn [seq map concat]. rewrite <- seq_shift, map_map. reflexivity. Qed.
Lemma xorl_more (x k k' : list Z) : (length x <= length k)%nat -> xorl x (k ++ k') = xorl x k.
Proof.
  revert k. induction x as [|a x IH]; intros [|b k] H; try reflexivity; [destruct k'; cbn in H; lia|].
  cbn [app]. unfold xorl in *. cbn [map2]. rewrite IH; [reflexivity|]. cbn in H. lia.
Qed.
Lemma keystream_app blk n k : keystream blk (n + k) = keystream blk n ++ keystream (fun i => blk (n + i)%nat) k.
Proof.
  unfold keystream. rewrite seq_app, map_app, concat_app. f_equal. f_equal.
  rewrite <- (map_map (fun i => n + i)%nat blk). f_equal. cbn [Nat.add].
  replace (seq n k) with (map (fun i => n + i)%nat (seq 0 k)); [reflexivity|].
  apply (list_eq_nth 0%nat); [rewrite map_length, !seq_length; reflexivity|].
  intros i Hi. rewrite map_length, seq_length in Hi.
  rewrite (nth_indep _ _ ((fun i => n + i)%nat 0%nat)) by (rewrite map_length, seq_length; auto).
  rewrite (map_nth (fun i => n + i)%nat). rewrite !seq_nth by auto. reflexivity.
Qed.
Lemma keystream_length blk n size : (forall i, length (blk i) = size) -> length (keystream blk n) = (n * size)%nat.
Proof.
  intros H. unfold keystream. generalize 0%nat. induction n as [|n IH]; intros k; [reflexivity|].
  cbn [seq map concat]. rewrite app_length, H, IH. lia.
Qed.
Lemma ks_enough blk size n x : (0 < size)%nat -> (forall i, length (blk i) = size) -> (length x <= n)%nat ->
  xorl x (keystream blk n) = xor_stream blk x.
Proof.
  intros Hs Hb Hn. unfold xor_stream. replace n with (length x + (n - length x))%nat by lia.
  rewrite keystream_app. apply xorl_more. rewrite (keystream_length _ _ size) by auto. nia.
Qed.
Lemma keystream_ext b1 b2 n : (forall i, (i < n)%nat -> b1 i = b2 i) -> keystream b1 n = keystream b2 n.
Proof. intros H. unfold keystream. f_equal. apply map_ext_in. intros i Hi. apply in_seq in Hi. apply H. lia. Qed.
Lemma xor_stream_ext b1 b2 m : (forall i, b1 i = b2 i) -> xor_stream b1 m = xor_stream b2 m.
Proof. intros H. unfold xor_stream. f_equal. apply keystream_ext. auto. Qed.
Lemma xor_stream_length blk size m : (0 < size)%nat -> (forall i, length (blk i) = size) -> length (xor_stream blk m) = length m.
Proof. intros Hs Hb. unfold xor_stream. rewrite xorl_length, (keystream_length _ _ size) by auto. nia. Qed.
Lemma xor_stream_invol blk size m : (0 < size)%nat -> (forall i, length (blk i) = size) -> xor_stream blk (xor_stream blk m) = m.
Proof.
  intros Hs Hb. unfold xor_stream at 1. rewrite (xor_stream_length blk size) by auto. unfold xor_stream.
  apply xorl_involutive. rewrite (keystream_length _ _ size) by auto. nia.
Qed.

Lemma iter_shift {A} (f : A -> A) n x : Nat.iter n f (f x) = Nat.iter (S n) f x.
Proof. induction n as [|n IH]; [reflexivity|]. change (Nat.iter (S n) f (f x)) with (f (Nat.iter n f (f x))). rewrite IH. reflexivity. Qed.

Section Ctr.
  Variable size : nat.
  Variable strm : smode -> smode.
  Hypothesis Hsize : (1 < size)%nat.
  Hypothesis wf_strm : forall m, wfm size m -> wfm size (strm m).
  Hypothesis strm_pos : forall m p, strm (setpos m p) = setpos (strm m) p.
  Let upd := stream_update size strm ctr_xor.

  Lemma ctr_perm_pos m p q s : ctr_xor (setpos m p) q s = (fst (ctr_xor m q s), setpos (snd (ctr_xor m q s)) p).
  Proof. reflexivity. Qed.
  Lemma ctr_p_wf m q (s : list Z) : wfm size m -> (q + length s <= size)%nat -> wfm size (snd (ctr_xor m q s)).
  Proof. intros H _. exact H. Qed.
  Lemma ctr_p_nil m q : wfm size m -> (q <= size)%nat -> ctr_xor m q [] = ([], m).
  Proof. intros _ _. reflexivity. Qed.
  Lemma ctr_calls chunks m : wfm size m -> (m_pos m < size)%nat -> calls upd m chunks = upd m (concat chunks).
  Proof.
    apply (stream_calls size strm ctr_xor (wfm size) Hsize (wfm_pos size) wf_strm strm_pos ctr_perm_pos ctr_p_wf ctr_p_nil (ctr_perm_cons size Hsize)).
  Qed.
  Lemma ctr_upd_wf m src : wfm size m -> (m_pos m < size)%nat -> wfm size (snd (upd m src)) /\ (m_pos (snd (upd m src)) < size)%nat.
  Proof.
    intros Hw Hp. unfold upd.
    rewrite (stream_update_bwise size strm ctr_xor (wfm size) Hsize (wfm_pos size) wf_strm strm_pos ctr_perm_pos ctr_p_wf ctr_p_nil (ctr_perm_cons size Hsize)) by (auto; cbn [length] in *; lia).
    apply (bwise_wf size strm ctr_xor (wfm size) Hsize (wfm_pos size) wf_strm strm_pos ctr_perm_pos ctr_p_wf ctr_p_nil (ctr_perm_cons size Hsize)); auto.
  Qed.
  Lemma ctr_upd_block m b rest : wfm size m -> m_pos m = 0%nat -> length b = size ->
    upd m (b ++ rest) = (xorl b (m_state (strm m)) ++ fst (upd (setpos (strm m) 0) rest), snd (upd (setpos (strm m) 0) rest)).
  Proof.
    intros Hw Hp Hb. unfold upd.
    rewrite (update_block size strm ctr_xor (wfm size) Hsize (wfm_pos size) wf_strm strm_pos ctr_perm_pos ctr_p_wf ctr_p_nil (ctr_perm_cons size Hsize)) by (auto; cbn [length] in *; lia).
    unfold ctr_xor at 1. cbn [skipn]. rewrite memxor3_xorl.
    destruct (stream_update size strm ctr_xor (setpos (strm m) 0) rest) as [o m2]. reflexivity.
  Qed.
  Lemma setpos0 m : m_pos m = 0%nat -> setpos m 0 = m. Proof. intros H. rewrite <- H. apply setpos_same. Qed.
  Lemma iter_pos n m p : setpos (Nat.iter n strm m) p = Nat.iter n strm (setpos m p).
  Proof. induction n as [|n IH]; [reflexivity|]. change (Nat.iter (S n) strm m) with (strm (Nat.iter n strm m)). rewrite <- strm_pos, IH. reflexivity. Qed.
  Lemma iter_wf n m : wfm size m -> wfm size (Nat.iter n strm m).
  Proof. intros H. induction n as [|n IH]; [auto|]. apply wf_strm. auto. Qed.
  Lemma ctr_upd_spec m src : wfm size m -> m_pos m = 0%nat ->
    fst (upd m src) = xor_stream (fun i => m_state (Nat.iter (S i) strm m)) src.
  Proof.
    remember (length src) as n eqn:Hn. revert m src Hn.
    induction n as [n IH] using lt_wf_ind. intros m src Hn Hw Hp.
    assert (HL : forall i, length (m_state (Nat.iter (S i) strm m)) = size) by (intros i; apply (iter_wf (S i) m Hw)).
    destruct (Nat.leb_spec size (length src)) as [Hle|Hlt].
    - rewrite <- (firstn_skipn size src) at 1. rewrite ctr_upd_block by (auto; rewrite firstn_length; lia). cbn [fst].
      rewrite (IH (length (skipn size src))); auto; [|rewrite skipn_length; lia|apply wf_strm; auto].
      unfold xor_stream at 2. destruct (length src) as [|k] eqn:Ek; [lia|]. rewrite keystream_S.
      rewrite <- (firstn_skipn size src) at 3.
      rewrite xorl_app by (rewrite HL, firstn_length; lia). f_equal.
      rewrite (ks_enough _ size) by (auto; try lia; rewrite skipn_length; lia).
      apply xor_stream_ext. intros i. rewrite <- iter_pos. cbn [setpos m_state]. rewrite iter_shift. reflexivity.
    - destruct src as [|x s].
      + unfold upd. rewrite (update_nil size strm ctr_xor (wfm size) Hsize (wfm_pos size) wf_strm strm_pos ctr_perm_pos ctr_p_wf ctr_p_nil (ctr_perm_cons size Hsize)) by (auto; cbn [length] in *; lia). reflexivity.
      + unfold upd. rewrite (update_short size strm ctr_xor (wfm size) Hsize (wfm_pos size) wf_strm strm_pos ctr_perm_pos ctr_p_wf ctr_p_nil (ctr_perm_cons size Hsize)) by (auto; cbn [length] in *; lia).
        cbn [fst ctr_xor skipn]. rewrite memxor3_xorl. unfold xor_stream.
        change (length (x :: s)) with (S (length s)). rewrite keystream_S. symmetry. apply xorl_more. change (length (x :: s) <= length (m_state (Nat.iter 1 strm m)))%nat. rewrite HL. cbn [length] in *. lia.
  Qed.
End Ctr.

Lemma be_bytes_mod w x y : x mod 256 ^ Z.of_nat w = y mod 256 ^ Z.of_nat w -> be_bytes w x = be_bytes w y.
Proof.
  intros H. unfold be_bytes. f_equal.
  apply (dval_inj 256); try apply digits_below; try lia.
  - rewrite !digits_length. reflexivity.
  - rewrite !dval_digits by lia. exact H.
Qed.
Lemma be_bytes_inc w x : be_bytes w (be_val (be_bytes w x) + 1) = be_bytes w (x + 1).
Proof. apply be_bytes_mod. rewrite be_val_be_bytes, Zplus_mod_idemp_l. reflexivity. Qed.

Section Counter.
  Variables (B w : nat) (iv : list Z).
  Hypothesis Hw : (w <= B)%nat.
  Hypothesis Hl : length iv = B.
  Hypothesis Hb : bytes iv.
  Lemma counter_length i : length (counter B w iv i) = B.
  Proof. unfold counter. rewrite app_length, firstn_length, be_bytes_length. lia. Qed.
  Lemma counter_bytes i : bytes (counter B w iv i).
  Proof. unfold counter. apply bytes_app. split; [apply bytes_firstn; auto|apply be_bytes_bytes]. Qed.
  Lemma counter_0 : counter B w iv 0 = iv.
  Proof.
    unfold counter. rewrite Z.add_0_r. rewrite <- (firstn_skipn (B - w) iv) at 3. f_equal.
    replace w with (length (skipn (B - w) iv)) at 1 by (rewrite skipn_length; lia). apply be_bytes_be_val. apply bytes_skipn. auto.
  Qed.
  Lemma counter_S i : firstn (B - w) (counter B w iv i) ++ be_bytes w (be_val (skipn (B - w) (counter B w iv i)) + 1) = counter B w iv (S i).
  Proof.
    unfold counter. rewrite firstn_app_exact, skipn_app_exact by (rewrite firstn_length; lia). f_equal.
    rewrite be_bytes_inc. f_equal. lia.
  Qed.
End Counter.

Section Cipher.
  Variable c : cipher.
  Hypothesis Hc : cipher_ok c.
  Notation B := (c_size c).
  Notation E := (c_enc c).
  Lemma B_gt1 : (1 < B)%nat. Proof. pose proof (size_pos c Hc). lia. Qed.

  Lemma ctr_wf m : wfm B m -> wfm B (ctr_stream c m).
  Proof.
    intros [H1 H2]. split; cbn [ctr_stream m_state m_iv]; [apply (bc_elen _ _ _ Hc); auto|].
    unfold increment_be_var. rewrite rev_length.
    assert (HL : forall l k, length (inc_le_var_loop k l) = length l).
    { induction l as [|a l IH]; intros k; cbn [inc_le_var_loop]; [reflexivity|]. destruct (k =? 0); cbn [length]; auto. }
    rewrite HL, rev_length. auto.
  Qed.
  Lemma inc_be_length l : length (increment_be l) = length l.
  Proof.
    unfold increment_be. rewrite rev_length.
    assert (HL : forall l k, length (inc_le_loop k l) = length l).
    { clear. induction l as [|a l IH]; intros k; cbn [inc_le_loop length]; auto. }
    rewrite HL, rev_length. reflexivity.
  Qed.
  Lemma gcm_wf m : (12 <= B)%nat -> wfm B m -> wfm B (gcm_stream c m).
  Proof.
    intros HB [H1 H2]. split; cbn [gcm_stream m_state m_iv]; [apply (bc_elen _ _ _ Hc); auto|].
    rewrite app_length, firstn_length, inc_be_length, skipn_length. lia.
  Qed.
  Lemma eax_wf m : wfm B m -> wfm B (eax_stream c m).
  Proof.
    intros [H1 H2]. split; cbn [eax_stream m_state m_iv]; [apply (bc_elen _ _ _ Hc); auto|].
    rewrite inc_be_length. auto.
  Qed.
  Lemma ofb_wf m : wfm B m -> wfm B (ofb_stream c m).
  Proof. intros [H1 H2]. split; cbn [ofb_stream m_state m_iv]; [apply (bc_elen _ _ _ Hc); auto|auto]. Qed.
  Lemma cfb_wf m : wfm B m -> wfm B (cfb_stream c m).
  Proof. intros [H1 H2]. split; cbn [cfb_stream m_state m_iv]; [apply (bc_elen _ _ _ Hc); auto|auto]. Qed.

  (* the counter after i blocks *)
  Lemma iter_counter (strm : smode -> smode) w iv m : (w <= B)%nat -> length iv = B -> bytes iv ->
    (forall m, strm m = mkM (E (m_iv m)) (m_iv (strm m)) (m_pos m)) ->
    (forall m, length (m_iv m) = B -> bytes (m_iv m) ->
       m_iv (strm m) = firstn (B - w) (m_iv m) ++ be_bytes w (be_val (skipn (B - w) (m_iv m)) + 1)) ->
    m_iv m = iv -> forall i, m_iv (Nat.iter i strm m) = counter B w iv i.
  Proof.
    intros Hw Hl Hb Hs Hi Hm i. induction i as [|i IH].
    - cbn. rewrite Hm. symmetry. apply counter_0; auto.
    - change (Nat.iter (S i) strm m) with (strm (Nat.iter i strm m)).
      rewrite Hi; rewrite IH; [|apply counter_length; auto|apply counter_bytes; auto]. apply counter_S; auto.
  Qed.
  Lemma ctr_iter m iv i : length iv = B -> bytes iv -> m_iv m = iv ->
    m_state (Nat.iter (S i) (ctr_stream c) m) = ctr_block B E B iv i.
  Proof.
    intros Hl Hb Hm. change (Nat.iter (S i) (ctr_stream c) m) with (ctr_stream c (Nat.iter i (ctr_stream c) m)).
    cbn [ctr_stream m_state]. unfold ctr_block. f_equal. apply iter_counter; auto.
    intros m' H1 H2. cbn [ctr_stream m_iv]. rewrite increment_be_var_spec by auto. rewrite Nat.sub_diag. cbn [firstn skipn app].
    rewrite H1. reflexivity.
  Qed.
  Lemma eax_iter m iv i : length iv = B -> bytes iv -> m_iv m = iv ->
    m_state (Nat.iter (S i) (eax_stream c) m) = ctr_block B E B iv i.
  Proof.
    intros Hl Hb Hm. change (Nat.iter (S i) (eax_stream c) m) with (eax_stream c (Nat.iter i (eax_stream c) m)).
    cbn [eax_stream m_state]. unfold ctr_block. f_equal. apply iter_counter; auto.
    intros m' H1 H2. cbn [eax_stream m_iv]. rewrite increment_be_spec by auto. rewrite Nat.sub_diag. cbn [firstn skipn app].
    rewrite H1. reflexivity.
  Qed.
  Lemma gcm_iter m iv i : B = 16%nat -> length iv = B -> bytes iv -> m_iv m = iv ->
    m_state (Nat.iter (S i) (gcm_stream c) m) = ctr_block B E 4 iv i.
  Proof.
    intros HB Hl Hb Hm. change (Nat.iter (S i) (gcm_stream c) m) with (gcm_stream c (Nat.iter i (gcm_stream c) m)).
    cbn [gcm_stream m_state]. unfold ctr_block. f_equal. apply iter_counter; auto; [lia|].
    intros m' H1 H2. cbn [gcm_stream m_iv]. rewrite increment_be_spec by (apply bytes_skipn; auto).
    rewrite skipn_length, H1, HB. reflexivity.
  Qed.
  Lemma ofb_iter m i : m_state (Nat.iter (S i) (ofb_stream c) m) = ofb_block E (m_state m) i.
  Proof.
    unfold ofb_block. generalize (S i). intros n. induction n as [|n IH]; [reflexivity|].
    change (Nat.iter (S n) (ofb_stream c) m) with (ofb_stream c (Nat.iter n (ofb_stream c) m)). cbn [ofb_stream m_state].
    rewrite IH. reflexivity.
  Qed.

  Lemma ctr_crypt_spec m src : wfm B m -> bytes (m_iv m) -> m_pos m = 0%nat ->
    fst (ctr_crypt c m src) = xor_stream (ctr_block B E B (m_iv m)) src.
  Proof.
    intros Hw Hb Hp. unfold ctr_crypt. rewrite ctr_upd_spec; auto using B_gt1, ctr_wf.
    apply xor_stream_ext. intros i. apply ctr_iter; auto. apply Hw.
  Qed.
  Lemma eax_crypt_spec m src : wfm B m -> bytes (m_iv m) -> m_pos m = 0%nat ->
    fst (eax_crypt c m src) = xor_stream (ctr_block B E B (m_iv m)) src.
  Proof.
    intros Hw Hb Hp. unfold eax_crypt. rewrite ctr_upd_spec; auto using B_gt1, eax_wf.
    apply xor_stream_ext. intros i. apply eax_iter; auto. apply Hw.
  Qed.
  Lemma gcm_crypt_spec m src : B = 16%nat -> wfm B m -> bytes (m_iv m) -> m_pos m = 0%nat ->
    fst (gcm_crypt c m src) = xor_stream (ctr_block B E 4 (m_iv m)) src.
  Proof.
    intros HB Hw Hb Hp. unfold gcm_crypt.
    assert (HW : forall m, wfm B m -> wfm B (gcm_stream c m)) by (intros; apply gcm_wf; auto; lia).
    rewrite ctr_upd_spec; auto using B_gt1.
    apply xor_stream_ext. intros i. apply gcm_iter; auto. apply Hw.
  Qed.
  Lemma ofb_crypt_spec m src : wfm B m -> m_pos m = 0%nat ->
    fst (ofb_crypt c m src) = xor_stream (ofb_block E (m_state m)) src.
  Proof.
    intros Hw Hp. unfold ofb_crypt. rewrite ctr_upd_spec; auto using B_gt1, ofb_wf.
    apply xor_stream_ext. intros i. apply ofb_iter.
  Qed.

  (* ---- CFB ---- *)
  Lemma cfb_enc_pos m p q s : cfb_xor_enc (setpos m p) q s = (fst (cfb_xor_enc m q s), setpos (snd (cfb_xor_enc m q s)) p).
  Proof. reflexivity. Qed.
  Lemma cfb_dec_pos m p q s : cfb_xor_dec (setpos m p) q s = (fst (cfb_xor_dec m q s), setpos (snd (cfb_xor_dec m q s)) p).
  Proof. reflexivity. Qed.
  Lemma cfb_enc_calls chunks m : wfm B m -> (m_pos m < B)%nat -> calls (cfb_encrypt c) m chunks = cfb_encrypt c m (concat chunks).
  Proof.
    apply (stream_calls B (cfb_stream c) cfb_xor_enc (wfm B) B_gt1 (wfm_pos B) cfb_wf (fun m p => eq_refl) cfb_enc_pos (cfb_enc_wf B B_gt1) (fun m q _ _ => cfb_enc_nil m q) (cfb_enc_cons B B_gt1)).
  Qed.
  Lemma cfb_dec_calls chunks m : wfm B m -> (m_pos m < B)%nat -> calls (cfb_decrypt c) m chunks = cfb_decrypt c m (concat chunks).
  Proof.
    apply (stream_calls B (cfb_stream c) cfb_xor_dec (wfm B) B_gt1 (wfm_pos B) cfb_wf (fun m p => eq_refl) cfb_dec_pos (cfb_dec_wf B B_gt1) (fun m q _ _ => cfb_dec_nil m q) (cfb_dec_cons B B_gt1)).
  Qed.
  Lemma blit_all (l s : list Z) : length s = length l -> blit l 0 s = s.
  Proof. intros H. unfold blit. cbn [firstn app Nat.add]. rewrite H, skipn_all, app_nil_r. reflexivity. Qed.
  Lemma cfb_enc_block m b rest : wfm B m -> m_pos m = 0%nat -> length b = B ->
    let x := xorl b (E (m_iv m)) in
    let m' := mkM (E (m_iv m)) x 0 in
    cfb_encrypt c m (b ++ rest) = (x ++ fst (cfb_encrypt c m' rest), snd (cfb_encrypt c m' rest)).
  Proof.
    intros Hw Hp Hb x m'. unfold cfb_encrypt.
    rewrite (update_block B (cfb_stream c) cfb_xor_enc (wfm B) B_gt1 (wfm_pos B) cfb_wf (fun m p => eq_refl) cfb_enc_pos (cfb_enc_wf B B_gt1) (fun m q _ _ => cfb_enc_nil m q) (cfb_enc_cons B B_gt1)) by auto.
    unfold cfb_xor_enc at 1. cbn [cfb_stream m_state m_iv skipn]. rewrite memxor3_xorl. fold x.
    destruct Hw as [W1 W2].
    assert (Hx : length x = B) by (unfold x; rewrite xorl_length, (bc_elen _ _ _ Hc) by auto; lia).
    rewrite blit_all by lia. unfold setpos. cbn [m_state m_iv]. fold m'.
    destruct (stream_update B (cfb_stream c) cfb_xor_enc m' rest). reflexivity.
  Qed.
  Lemma cfb_dec_block m b rest : wfm B m -> m_pos m = 0%nat -> length b = B ->
    let m' := mkM (E (m_iv m)) b 0 in
    cfb_decrypt c m (b ++ rest) = (xorl b (E (m_iv m)) ++ fst (cfb_decrypt c m' rest), snd (cfb_decrypt c m' rest)).
  Proof.
    intros Hw Hp Hb m'. unfold cfb_decrypt.
    rewrite (update_block B (cfb_stream c) cfb_xor_dec (wfm B) B_gt1 (wfm_pos B) cfb_wf (fun m p => eq_refl) cfb_dec_pos (cfb_dec_wf B B_gt1) (fun m q _ _ => cfb_dec_nil m q) (cfb_dec_cons B B_gt1)) by auto.
    unfold cfb_xor_dec at 1. cbn [cfb_stream m_state m_iv skipn]. rewrite memxor3_xorl.
    destruct Hw as [W1 W2]. rewrite blit_all by lia. unfold setpos. cbn [m_state m_iv]. fold m'.
    destruct (stream_update B (cfb_stream c) cfb_xor_dec m' rest). reflexivity.
  Qed.
  Lemma cfb_enc_short m b : wfm B m -> m_pos m = 0%nat -> (length b < B)%nat ->
    fst (cfb_encrypt c m b) = xorl b (E (m_iv m)).
  Proof.
    intros Hw Hp Hb. unfold cfb_encrypt. destruct b as [|x s].
    - rewrite (update_nil B (cfb_stream c) cfb_xor_enc (wfm B) B_gt1 (wfm_pos B) cfb_wf (fun m p => eq_refl) cfb_enc_pos (cfb_enc_wf B B_gt1) (fun m q _ _ => cfb_enc_nil m q) (cfb_enc_cons B B_gt1)) by (auto; pose proof B_gt1; lia). reflexivity.
    - rewrite (update_short B (cfb_stream c) cfb_xor_enc (wfm B) B_gt1 (wfm_pos B) cfb_wf (fun m p => eq_refl) cfb_enc_pos (cfb_enc_wf B B_gt1) (fun m q _ _ => cfb_enc_nil m q) (cfb_enc_cons B B_gt1)) by (auto; cbn [length] in *; lia).
      cbn [fst cfb_xor_enc cfb_stream m_state skipn]. apply memxor3_xorl.
  Qed.
  Lemma cfb_dec_short m b : wfm B m -> m_pos m = 0%nat -> (length b < B)%nat ->
    fst (cfb_decrypt c m b) = xorl b (E (m_iv m)).
  Proof.
    intros Hw Hp Hb. unfold cfb_decrypt. destruct b as [|x s].
    - rewrite (update_nil B (cfb_stream c) cfb_xor_dec (wfm B) B_gt1 (wfm_pos B) cfb_wf (fun m p => eq_refl) cfb_dec_pos (cfb_dec_wf B B_gt1) (fun m q _ _ => cfb_dec_nil m q) (cfb_dec_cons B B_gt1)) by (auto; pose proof B_gt1; lia). reflexivity.
    - rewrite (update_short B (cfb_stream c) cfb_xor_dec (wfm B) B_gt1 (wfm_pos B) cfb_wf (fun m p => eq_refl) cfb_dec_pos (cfb_dec_wf B B_gt1) (fun m q _ _ => cfb_dec_nil m q) (cfb_dec_cons B B_gt1)) by (auto; cbn [length] in *; lia).
      cbn [fst cfb_xor_dec cfb_stream m_state skipn]. apply memxor3_xorl.
  Qed.
  Lemma pieces_block b rest : length b = B -> pieces B (b ++ rest) = b :: pieces B rest.
  Proof.
    intros Hb. pose proof B_gt1. unfold pieces.
    rewrite blocks_cons by (try rewrite app_length; lia). rewrite firstn_app_exact, skipn_app_exact by auto.
    rewrite (leftover_app B 1) by lia. reflexivity.
  Qed.
  Lemma pieces_short b : (length b < B)%nat -> pieces B b = match b with [] => [] | _ => [b] end.
  Proof. intros Hb. unfold pieces. rewrite blocks_nil, leftover_small by auto. destruct b; reflexivity. Qed.
  Lemma cfb_encrypt_spec m src : wfm B m -> m_pos m = 0%nat -> fst (cfb_encrypt c m src) = cfb_spec B E (m_iv m) src.
  Proof.
    remember (length src) as n eqn:Hn. revert m src Hn.
    induction n as [n IH] using lt_wf_ind. intros m src Hn Hw Hp. pose proof B_gt1.
    destruct (Nat.leb_spec B (length src)) as [Hle|Hlt].
    - rewrite <- (firstn_skipn B src). unfold cfb_spec. rewrite pieces_block by (rewrite firstn_length; lia).
      rewrite cfb_enc_block by (auto; rewrite firstn_length; lia). cbn [fst cfb_chain concat]. f_equal.
      destruct Hw as [W1 W2].
      rewrite (IH (length (skipn B src))); auto.
      + rewrite skipn_length; lia.
      + split; cbn [m_state m_iv]; [apply (bc_elen _ _ _ Hc); auto|].
        rewrite xorl_length, firstn_length, (bc_elen _ _ _ Hc) by auto. lia.
    - rewrite cfb_enc_short by auto. unfold cfb_spec. rewrite pieces_short by auto.
      destruct src; [reflexivity|]. cbn [cfb_chain concat]. rewrite app_nil_r. reflexivity.
  Qed.
  Lemma cfb_roundtrip src : forall m m', wfm B m -> wfm B m' -> m_pos m = 0%nat -> m_pos m' = 0%nat -> m_iv m = m_iv m' ->
    fst (cfb_decrypt c m' (fst (cfb_encrypt c m src))) = src.
  Proof.
    remember (length src) as n eqn:Hn. revert src Hn.
    induction n as [n IH] using lt_wf_ind. intros src Hn m m' Hw Hw' Hp Hp' Hiv. pose proof B_gt1.
    assert (HE : length (E (m_iv m)) = B) by (apply (bc_elen _ _ _ Hc); apply Hw).
    destruct (Nat.leb_spec B (length src)) as [Hle|Hlt].
    - rewrite <- (firstn_skipn B src) at 1. rewrite cfb_enc_block by (auto; rewrite firstn_length; lia). cbn [fst].
      assert (Hx : length (xorl (firstn B src) (E (m_iv m))) = B) by (rewrite xorl_length, firstn_length; lia).
      rewrite cfb_dec_block by auto. cbn [fst]. rewrite <- Hiv.
      rewrite xorl_involutive by (rewrite firstn_length; lia).
      transitivity (firstn B src ++ skipn B src); [f_equal|apply firstn_skipn].
      apply (IH (length (skipn B src))); auto; try (split; cbn [m_state m_iv]; auto; fail).
      rewrite skipn_length; lia.
    - rewrite cfb_enc_short by auto. rewrite cfb_dec_short by (auto; rewrite xorl_length; lia). rewrite <- Hiv.
      apply xorl_involutive. lia.
  Qed.
End Cipher.
