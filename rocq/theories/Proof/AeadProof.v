(* ChaCha20-Poly1305 and secretbox *)
From Verif.Base Require Import Prelude.
From Verif.Model Require Import Bio Util Block Stream Mac Aead.
From Verif.Spec Require Import BlockSpec StreamSpec MacSpec AeadSpec.
From Verif.Proof Require Import BioProof UtilProof BlockProof BufCrypt StreamProof StreamInit PolyProof Poly64 Poly32 PolyBuf.

Lemma calls_app {C} (f : C -> list Z -> list Z * C) x : forall c y,
  calls f c (x ++ y) = (let '(o1, c1) := calls f c x in let '(o2, c2) := calls f c1 y in (o1 ++ o2, c2)).
Proof.
  induction x as [|m t IH]; intros c y; cbn [calls app]; [destruct (calls f c y); reflexivity|].
  destruct (f c m) as [o c1]. rewrite IH. destruct (calls f c1 t) as [o1 c2]. destruct (calls f c2 y) as [o2 c3].
  rewrite app_assoc. reflexivity.
Qed.
Lemma calls_one {C} (f : C -> list Z -> list Z * C) c x : calls f c [x] = f c x.
Proof. cbn [calls]. destruct (f c x). rewrite app_nil_r. reflexivity. Qed.

(* ---- a stream cipher whose output is the xor with a keystream ---- *)
Section Keystream.
  Context {C : Type}.
  Variable crypt : C -> list Z -> list Z * C.
  Variable c0 : C.
  Variable K : nat -> list Z.
  Variable N : Z.     (* keystream bytes available *)
  Hypothesis HK : forall chunks, Z.of_nat (length (concat chunks)) < N ->
    fst (calls crypt c0 chunks) = xorl (concat chunks) (ks_seg K 0 (length (concat chunks))).

  (* c is reached from c0 after n bytes *)
  Definition reached (n : nat) (c : C) : Prop := exists pre, length (concat pre) = n /\ snd (calls crypt c0 pre) = c.
  Lemma reached_init : reached 0 c0.
  Proof. exists []. auto. Qed.
  Lemma reached_step n c x : reached n c -> Z.of_nat (n + length x) < N ->
    fst (crypt c x) = xorl x (ks_seg K n (length x)) /\ reached (n + length x) (snd (crypt c x)).
  Proof.
    intros [pre [Hl Hc]] HN.
    assert (E1 : calls crypt c0 (pre ++ [x]) = (fst (calls crypt c0 pre) ++ fst (crypt c x), snd (crypt c x))).
    { rewrite calls_app. destruct (calls crypt c0 pre) as [o c1] eqn:E. cbn [snd] in Hc. subst c1. rewrite calls_one. destruct (crypt c x). reflexivity. }
    assert (LC : length (concat (pre ++ [x])) = (n + length x)%nat) by (rewrite concat_app, app_length; cbn [concat]; rewrite app_nil_r, Hl; auto).
    pose proof (HK (pre ++ [x])) as H1. rewrite LC in H1. specialize (H1 HN). rewrite E1 in H1. cbn [fst] in H1.
    pose proof (HK pre) as H2. rewrite Hl in H2. specialize (H2 ltac:(lia)).
    rewrite concat_app in H1. cbn [concat] in H1. rewrite app_nil_r, ks_seg_app in H1.
    rewrite xorl_app in H1 by (rewrite ks_seg_length; auto). rewrite <- H2 in H1. cbn [Nat.add] in H1.
    apply app_inv_head in H1. split; [auto|]. exists (pre ++ [x]). split; [auto|]. rewrite E1. reflexivity.
  Qed.
  Lemma reached_calls chunks : forall n c, reached n c -> Z.of_nat (n + length (concat chunks)) < N ->
    fst (calls crypt c chunks) = xorl (concat chunks) (ks_seg K n (length (concat chunks))).
  Proof.
    induction chunks as [|x t IH]; intros n c HR HN; cbn [calls concat]; [reflexivity|].
    cbn [concat] in HN. rewrite app_length in HN. destruct (reached_step n c x HR ltac:(lia)) as [E1 E2].
    destruct (crypt c x) as [o c1]. cbn [fst snd] in E1, E2. specialize (IH _ _ E2 ltac:(lia)).
    destruct (calls crypt c1 t) as [o' c2]. cbn [fst] in *. rewrite app_length, ks_seg_app, xorl_app by (rewrite ks_seg_length; auto).
    rewrite E1, IH. reflexivity.
  Qed.
End Keystream.

Lemma pad16_aligned x y : (length x mod 16 = 0)%nat -> pad16 (x ++ y) = pad16 y.
Proof.
  intros H. unfold pad16. rewrite app_length. rewrite Nat.add_mod, H by lia. cbn [Nat.add]. rewrite Nat.mod_mod by lia. reflexivity.
Qed.
Lemma pad16_mod x : (length (x ++ pad16 x) mod 16 = 0)%nat.
Proof.
  unfold pad16. rewrite app_length, repeat_length. pose proof (Nat.mod_upper_bound (length x) 16 ltac:(lia)) as H.
  pose proof (Nat.div_mod (length x) 16 ltac:(lia)) as D. set (q := (length x / 16)%nat) in *. set (r := (length x mod 16)%nat) in *.
  destruct (Nat.eq_dec r 0) as [E|E].
  - rewrite E. change ((16 - 0) mod 16)%nat with 0%nat. replace (length x + 0)%nat with (q * 16)%nat by lia. apply Nat.mod_mul. lia.
  - rewrite (Nat.mod_small (16 - r)) by lia. replace (length x + (16 - r))%nat with ((q + 1) * 16)%nat by lia. apply Nat.mod_mul. lia.
Qed.
Lemma pad16_nil x : (length x mod 16 = 0)%nat -> pad16 x = [].
Proof. intros H. unfold pad16. rewrite H. reflexivity. Qed.

Section Ks.
    Variable K : nat -> list Z.
    Hypothesis HKb : forall i, bytes (K i) /\ length (K i) = 64%nat.
    Lemma ks_bytes t n : bytes (ks_seg K t n).
    Proof.
      unfold ks_seg, bytes. apply Forall_forall. intros x Hx. apply in_map_iff in Hx. destruct Hx as [i [<- _]].
      unfold ks_byte. apply Forall_nth_d; [apply HKb|unfold byte; lia].
    Qed.
    Lemma ks_zero n : xorl (repeat 0 n) (ks_seg K 0 n) = ks_seg K 0 n.
    Proof.
      generalize (ks_seg K 0 n) (ks_seg_length K 0 n). induction n as [|n IH]; intros l L; destruct l; try discriminate L; [reflexivity|].
      cbn [repeat]. unfold xorl. cbn [map2]. rewrite Z.lxor_0_l. f_equal. apply IH. cbn in L. lia.
    Qed.
    Lemma ks_first : ks_seg K 0 64 = K 0%nat.
    Proof.
      pose proof (ks_seg_in_block K 0 0 64 ltac:(lia) (proj2 (HKb 0%nat))) as E. cbn [Nat.mul Nat.add skipn] in E. rewrite E.
      apply firstn_all2. rewrite (proj2 (HKb 0%nat)). lia.
    Qed.
    Definition otk : list Z := firstn 32 (K 0%nat).
    Lemma otk_ok : bytes otk /\ length otk = 32%nat.
    Proof. split; [apply bytes_firstn, HKb|unfold otk; rewrite firstn_length, (proj2 (HKb 0%nat)); reflexivity]. Qed.

End Ks.
Lemma box_cipher_invol (K : nat -> list Z) m : box_cipher K (box_cipher K m) = m.
Proof.
  unfold box_cipher. rewrite xorl_length, ks_seg_length, Nat.min_id. apply xorl_involutive. rewrite ks_seg_length. lia.
Qed.


Section Aead.
  Context {S : Type}.
  Variable pinit : list Z -> poly S.
  Variable blk : S -> list Z -> bool -> S.
  Variable tag : S -> list Z.
  Variable sinit : list Z -> S.
  Let R (key : list Z) := rep 16 (fun st b => blk st b false) false (sinit key).
  Hypothesis Hinit : forall key, R key [] (as_buf (pinit key)).
  Hypothesis Hfin : forall key m c, bytes key -> length key = 32%nat -> bytes m -> R key m (as_buf c) ->
    poly_final blk tag c = poly1305 key m.

  (* AAD A and ciphertext C absorbed so far; the padding between them happens at
     the first ciphertext call *)
  Definition inv (key A C : list Z) (a : aead S) : Prop :=
    ae_adlen a = Z.of_nat (length A) mod M64 /\ ae_ctlen a = Z.of_nat (length C) /\
    (R key (A ++ pad16 A ++ C) (as_buf (ae_poly a)) \/ (C = [] /\ R key A (as_buf (ae_poly a)))).

  Lemma inv_aad key A a x : inv key A [] a -> R key A (as_buf (ae_poly a)) -> 
    let a' := chachapoly_aad blk a x in inv key (A ++ x) [] a' /\ R key (A ++ x) (as_buf (ae_poly a')) /\ ae_chacha a' = ae_chacha a.
  Proof.
    intros [I1 [I2 _]] HR a'. assert (HR' : R key (A ++ x) (as_buf (ae_poly a'))) by (apply (poly_rep blk tag); exact HR).
    split; [|split; [exact HR'|reflexivity]]. split; [|split; [exact I2|right; auto]].
    cbn [ae_adlen a' chachapoly_aad]. rewrite I1. unfold add64, w64. rewrite app_length, Nat2Z.inj_add. rewrite Z.add_mod_idemp_l by (rewrite M64_eq; lia). reflexivity.
  Qed.
  Lemma inv_aads key chunks : forall A a, inv key A [] a -> R key A (as_buf (ae_poly a)) ->
    let a' := fold_left (chachapoly_aad blk) chunks a in
    inv key (A ++ concat chunks) [] a' /\ ae_chacha a' = ae_chacha a.
  Proof.
    induction chunks as [|x t IH]; intros A a I HR; cbn [fold_left concat]; [rewrite app_nil_r; auto|].
    destruct (inv_aad key A a x I HR) as [I' [HR' E]]. rewrite app_assoc, <- E. apply IH; auto.
  Qed.

  (* the part common to encrypt, decrypt and auth *)
  Lemma inv_ct key A C a x c' : inv key A C a -> Z.of_nat (length (C ++ x)) < 2 ^ 64 ->
    inv key A (C ++ x) (mkAead c' (poly_update blk (pad_first blk a) x) (ae_adlen a) (add64 (ae_ctlen a) (Z.of_nat (length x)))).
  Proof.
    intros [I1 [I2 I3]] HL. split; [exact I1|]. split.
    { cbn [ae_ctlen]. rewrite I2. unfold add64. rewrite app_length, Nat2Z.inj_add in *. apply w64_small. rewrite M64_eq. lia. }
    left. cbn [ae_poly]. rewrite !app_assoc. apply (poly_rep blk tag). unfold pad_first. rewrite I2.
    destruct (Z.eqb_spec (Z.of_nat (length C)) 0) as [E|E].
    - destruct C; [|cbn in E; lia]. rewrite app_nil_r in *. destruct I3 as [I3|[_ I3]].
      + pose proof (poly_pad_rep blk tag _ _ _ I3) as P. rewrite (pad16_nil (A ++ pad16 A)), app_nil_r in P by apply pad16_mod. exact P.
      + apply (poly_pad_rep blk tag). exact I3.
    - destruct I3 as [I3|[EC _]]; [rewrite <- app_assoc; exact I3|]. subst C. cbn in E. lia.
  Qed.

  Lemma final_spec key A C a : bytes key -> length key = 32%nat -> bytes A -> bytes C -> Z.of_nat (length C) < 2 ^ 64 ->
    inv key A C a -> chachapoly_final blk tag a = poly1305 key (aead_data A C).
  Proof.
    intros Hk Hl HA HC HL [I1 [I2 I3]]. unfold chachapoly_final. cbv zeta.
    assert (B16 : forall z, bytes (pad16 z)) by (intros; apply bytes_repeat; unfold byte; lia).
    apply Hfin; auto. { unfold aead_data. rewrite !bytes_app. repeat split; auto; apply le_bytes_bytes. }
    assert (P : R key (A ++ pad16 A ++ C ++ pad16 C) (as_buf (poly_pad blk (ae_poly a)))).
    { destruct I3 as [I3|[EC I3]].
      - pose proof (poly_pad_rep blk tag _ _ _ I3) as P. rewrite app_assoc in P. rewrite (pad16_aligned (A ++ pad16 A) C) in P by (auto using pad16_mod).
        rewrite <- !app_assoc in P. exact P.
      - subst C. change (pad16 []) with (@nil Z). rewrite !app_nil_r. apply (poly_pad_rep blk tag). exact I3. }
    pose proof (poly_rep blk tag _ _ _ (write64le (ae_adlen a) ++ write64le (ae_ctlen a)) P) as P2.
    rewrite <- !app_assoc in P2. unfold aead_data. rewrite !write64le_spec, I1, I2 in *.
    replace (le_bytes 8 (Z.of_nat (length A))) with (le_bytes 8 (Z.of_nat (length A) mod M64)); [exact P2|].
    apply (dval_inj 256); [lia|apply bytes_below, le_bytes_bytes|apply bytes_below, le_bytes_bytes|rewrite !le_bytes_length; auto|].
    change (dval 256) with le_val. rewrite !le_val_le_bytes. change (256 ^ Z.of_nat 8) with M64. apply Z.mod_mod. rewrite M64_eq. lia.
  Qed.

  Lemma auth_calls key A chunks : forall C a, inv key A C a -> Z.of_nat (length (C ++ concat chunks)) < 2 ^ 64 ->
    inv key A (C ++ concat chunks) (fold_left (chachapoly_auth blk) chunks a).
  Proof.
    induction chunks as [|x t IH]; intros C a I HL; cbn [fold_left concat] in *; [rewrite app_nil_r in *; auto|].
    rewrite app_assoc in *. apply IH; auto. apply inv_ct; auto. rewrite app_length in HL. lia.
  Qed.

  (* decryption absorbs its input *)
  Lemma dec_calls key A chunks : forall C a, inv key A C a -> Z.of_nat (length (C ++ concat chunks)) < 2 ^ 64 ->
    fst (calls (chachapoly_decrypt blk) a chunks) = fst (calls chacha20_crypt (ae_chacha a) chunks) /\
    inv key A (C ++ concat chunks) (snd (calls (chachapoly_decrypt blk) a chunks)).
  Proof.
    induction chunks as [|x t IH]; intros C a I HL; cbn [calls concat] in *; [rewrite app_nil_r in *; auto|].
    rewrite app_assoc in *. unfold chachapoly_decrypt at 1 3. cbv zeta. destruct (chacha20_crypt (ae_chacha a) x) as [o c1] eqn:E.
    set (a1 := mkAead c1 _ _ _). assert (I' : inv key A (C ++ x) a1) by (apply inv_ct; auto; rewrite app_length in HL; lia).
    destruct (IH (C ++ x) a1 I' HL) as [J1 J2]. cbn [ae_chacha a1] in J1.
    destruct (calls (chachapoly_decrypt blk) a1 t) as [o' a2]. destruct (calls chacha20_crypt c1 t) as [o'' c2].
    cbn [fst snd] in *. subst o''. auto.
  Qed.

  (* encryption absorbs its output *)
  Lemma enc_calls key A c0 K N (HK : forall chunks, Z.of_nat (length (concat chunks)) < N ->
      fst (calls chacha20_crypt c0 chunks) = xorl (concat chunks) (ks_seg K 0 (length (concat chunks)))) chunks :
    forall C a n, inv key A C a -> reached chacha20_crypt c0 n (ae_chacha a) ->
    Z.of_nat (n + length (concat chunks)) < N -> Z.of_nat (length C + length (concat chunks)) < 2 ^ 64 ->
    fst (calls (chachapoly_encrypt blk) a chunks) = fst (calls chacha20_crypt (ae_chacha a) chunks) /\
    inv key A (C ++ fst (calls (chachapoly_encrypt blk) a chunks)) (snd (calls (chachapoly_encrypt blk) a chunks)).
  Proof.
    induction chunks as [|x t IH]; intros C a n I HR HN HL; cbn [calls concat] in *; [cbn [fst snd]; rewrite app_nil_r; auto|].
    rewrite app_length in *. destruct (reached_step chacha20_crypt c0 K N HK n (ae_chacha a) x HR ltac:(lia)) as [E1 E2].
    unfold chachapoly_encrypt at 1 3 5. cbv zeta. destruct (chacha20_crypt (ae_chacha a) x) as [o c1] eqn:E. cbn [fst snd] in E1, E2.
    assert (LO : length o = length x) by (rewrite E1, xorl_length, ks_seg_length; lia).
    set (a1 := mkAead c1 _ _ _).
    assert (I' : inv key A (C ++ o) a1) by (unfold a1; rewrite <- LO; apply inv_ct; auto; rewrite app_length; lia).
    destruct (IH (C ++ o) a1 (n + length x)%nat I' E2 ltac:(lia) ltac:(rewrite app_length; lia)) as [J1 J2]. cbn [ae_chacha a1] in J1.
    destruct (calls (chachapoly_encrypt blk) a1 t) as [o' a2]. destruct (calls chacha20_crypt c1 t) as [o'' c2].
    cbn [fst snd] in *. subst o''. rewrite app_assoc. auto.
  Qed.

  (* ---- the whole AEAD, over any nonce whose keystream is K ---- *)
  Section Whole.
    Variable key iv : list Z.
    Variable c0 : sctx.
    Variable K : nat -> list Z.
    Variable N : Z.
    Hypothesis HN : 64 < N <= 2 ^ 64 + 64.
    Hypothesis Hc : chacha20_init key iv 0 = Some c0.
    Hypothesis HK : forall chunks, Z.of_nat (length (concat chunks)) < N ->
      fst (calls chacha20_crypt c0 chunks) = xorl (concat chunks) (ks_seg K 0 (length (concat chunks))).
    Hypothesis HKb : forall i, bytes (K i) /\ length (K i) = 64%nat.

    Lemma init_spec : exists a, chachapoly_init pinit key iv = Some a /\ inv (otk K) [] [] a /\ R (otk K) [] (as_buf (ae_poly a)) /\
      reached chacha20_crypt c0 64 (ae_chacha a).
    Proof.
      unfold chachapoly_init. rewrite Hc.
      destruct (reached_step chacha20_crypt c0 K N HK 0 c0 (repeat 0 64) (reached_init _ _) ltac:(rewrite repeat_length; lia)) as [E1 E2].
      rewrite repeat_length in E1, E2. rewrite (ks_zero K HKb), (ks_first K HKb) in E1.
      destruct (chacha20_crypt c0 (repeat 0 64)) as [pk c1]. cbn [fst snd] in *. subst pk. fold (otk K).
      exists (mkAead c1 (pinit (otk K)) 0 0). split; [reflexivity|]. assert (R (otk K) [] (as_buf (pinit (otk K)))) by apply Hinit.
      split; [|auto]. split; [reflexivity|]. split; [reflexivity|]. right. auto.
    Qed.

    Theorem encrypt_spec aads msgs : bytes (concat aads) -> bytes (concat msgs) -> Z.of_nat (length (concat msgs)) < N - 64 ->
      exists a, chachapoly_init pinit key iv = Some a /\
        let a1 := fold_left (chachapoly_aad blk) aads a in
        let '(ct, a2) := calls (chachapoly_encrypt blk) a1 msgs in
        ct = aead_cipher K (concat msgs) /\ chachapoly_final blk tag a2 = aead_tag K (concat aads) ct.
    Proof.
      intros HA HM HL. destruct init_spec as [a [Ea [I0 [R0 RC]]]]. exists a. split; [exact Ea|]. cbv zeta.
      destruct (inv_aads (otk K) aads [] a I0 R0) as [I1 E1]. cbn [app] in I1. rewrite <- E1 in RC.
      set (a1 := fold_left _ aads a) in *.
      destruct (enc_calls (otk K) (concat aads) c0 K N HK msgs [] a1 64 I1 RC ltac:(lia) ltac:(cbn [length]; lia)) as [J1 J2].
      rewrite (reached_calls chacha20_crypt c0 K N HK msgs 64 (ae_chacha a1) RC) in J1 by lia. fold (aead_cipher K (concat msgs)) in J1.
      destruct (calls (chachapoly_encrypt blk) a1 msgs) as [ct a2]. cbn [fst snd app] in *. split; [exact J1|].
      destruct (otk_ok K HKb) as [O1 O2].
      assert (LC : length ct = length (concat msgs)) by (rewrite J1; unfold aead_cipher; rewrite xorl_length, ks_seg_length; lia).
      apply final_spec; auto; [|lia]. rewrite J1. apply xorl_bytes; [auto|apply (ks_bytes K HKb)].
    Qed.
    Theorem decrypt_spec aads cts : bytes (concat aads) -> bytes (concat cts) -> Z.of_nat (length (concat cts)) < N - 64 ->
      exists a, chachapoly_init pinit key iv = Some a /\
        let a1 := fold_left (chachapoly_aad blk) aads a in
        (let '(m, a2) := calls (chachapoly_decrypt blk) a1 cts in
        m = aead_cipher K (concat cts) /\ chachapoly_final blk tag a2 = aead_tag K (concat aads) (concat cts)) /\
        chachapoly_final blk tag (fold_left (chachapoly_auth blk) cts a1) = aead_tag K (concat aads) (concat cts).
    Proof.
      intros HA HM HL. destruct init_spec as [a [Ea [I0 [R0 RC]]]]. exists a. split; [exact Ea|]. cbv zeta.
      destruct (inv_aads (otk K) aads [] a I0 R0) as [I1 E1]. cbn [app] in I1. rewrite <- E1 in RC.
      set (a1 := fold_left _ aads a) in *. destruct (otk_ok K HKb) as [O1 O2].
      split.
      - destruct (dec_calls (otk K) (concat aads) cts [] a1 I1 ltac:(cbn [app]; lia)) as [J1 J2].
        rewrite (reached_calls chacha20_crypt c0 K N HK cts 64 (ae_chacha a1) RC) in J1 by lia. fold (aead_cipher K (concat cts)) in J1.
        destruct (calls (chachapoly_decrypt blk) a1 cts) as [m a2]. cbn [fst snd app] in *. split; [exact J1|].
        apply final_spec; auto. lia.
      - apply final_spec; auto; [lia|]. apply (auth_calls (otk K) (concat aads) cts [] a1 I1). cbn [app]. lia.
    Qed.
  End Whole.

  (* ---- secretbox ---- *)
  Section Box.
    Variable key nonce : list Z.
    Variable c0 : sctx.
    Variable K : nat -> list Z.
    Hypothesis Hc : salsa20_init key nonce 0 = Some c0.
    Hypothesis HK : forall chunks, fst (calls salsa20_crypt c0 chunks) = xorl (concat chunks) (ks_seg K 0 (length (concat chunks))).
    Hypothesis HKb : forall i, bytes (K i) /\ length (K i) = 64%nat.

    Lemma box_start : exists c1, salsa20_crypt c0 (repeat 0 32) = (otk K, c1) /\
      forall m, exists c2, salsa20_crypt c1 m = (box_cipher K m, c2).
    Proof.
      set (N := fun n : nat => Z.of_nat n + 1).
      assert (HK' : forall n chunks, Z.of_nat (length (concat chunks)) < N n ->
        fst (calls salsa20_crypt c0 chunks) = xorl (concat chunks) (ks_seg K 0 (length (concat chunks)))) by auto.
      destruct (reached_step salsa20_crypt c0 K (N 32%nat) (HK' _) 0 c0 (repeat 0 32) (reached_init _ _)) as [E1 E2].
      { rewrite repeat_length. unfold N. lia. }
      rewrite repeat_length in E1, E2. rewrite (ks_zero K HKb) in E1.
      destruct (salsa20_crypt c0 (repeat 0 32)) as [pk c1]. cbn [fst snd] in *. exists c1. split.
      { f_equal. rewrite E1. pose proof (ks_seg_in_block K 0 0 32 ltac:(lia) (proj2 (HKb 0%nat))) as E. cbn [Nat.mul Nat.add skipn] in E. exact E. }
      intros m. destruct (reached_step salsa20_crypt c0 K (N (32 + length m)%nat) (HK' _) 32 c1 m E2) as [E3 _]; [unfold N; lia|].
      destruct (salsa20_crypt c1 m) as [o c2]. cbn [fst] in E3. subst o. exists c2. reflexivity.
    Qed.
    Lemma box_mac ct : bytes ct -> poly_final blk tag (poly_update blk (pinit (otk K)) ct) = poly1305 (otk K) ct.
    Proof.
      intros H. destruct (otk_ok K HKb) as [O1 O2]. apply Hfin; auto. change ct with ([] ++ ct) at 1. apply (poly_rep blk tag). apply Hinit.
    Qed.
    Lemma box_cipher_bytes m : bytes m -> bytes (box_cipher K m).
    Proof. intros H. apply xorl_bytes; [auto|apply (ks_bytes K HKb)]. Qed.
    Lemma seal_spec m : bytes m -> secretbox_seal pinit blk tag m key nonce = Some (box K m).
    Proof.
      intros H. unfold secretbox_seal. rewrite Hc. destruct box_start as [c1 [E1 E2]]. rewrite E1. destruct (E2 m) as [c2 E3]. rewrite E3. cbv zeta.
      rewrite box_mac by (apply box_cipher_bytes; auto). reflexivity.
    Qed.
    Lemma open_spec s : bytes s -> secretbox_open pinit blk tag s key nonce =
      Some (if (length s <? 16)%nat then (0, []) else
        (torsion_memequal (poly1305 (otk K) (skipn 16 s)) (firstn 16 s), box_cipher K (skipn 16 s))).
    Proof.
      intros H. unfold secretbox_open. destruct (length s <? 16)%nat; [reflexivity|]. cbv zeta. rewrite Hc.
      destruct box_start as [c1 [E1 E2]]. rewrite E1. rewrite box_mac by (apply bytes_skipn; auto).
      destruct (E2 (skipn 16 s)) as [c2 E3]. rewrite E3. reflexivity.
    Qed.
  End Box.
End Aead.
Lemma poly1305_length key m : length (poly1305 key m) = 16%nat.
Proof. apply le_bytes_length. Qed.
Lemma poly1305_bytes key m : bytes (poly1305 key m).
Proof. apply le_bytes_bytes. Qed.
