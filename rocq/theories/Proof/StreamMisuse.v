(* Calls in the wrong order or direction on a cipher stream. *)
From Verif.Base Require Import Prelude.
From Verif.Model Require Import Bio Util Block Encoding Modes CipherStream.
From Verif.Proof Require Import UtilProof.
(* one successful call; a refused call leaves the context as it was *)
Inductive call := Update (input : list Z) | Crypt (src : list Z) | Final | Padding (b : bool) | Aad (aad : list Z) | Ccm (msg_len tag_len : Z) (aad : list Z) | Tag (tag : list Z).
Inductive step (s : cstream) : call -> cstream -> Prop :=
| st_update i o n s' : cipher_stream_update s i = Ok (o, n, s') -> step s (Update i) s'
| st_crypt i o s' : cipher_stream_crypt s i = Ok (o, s') -> step s (Crypt i) s'
| st_final r o n s' : cipher_stream_final s = Ok (r, o, n, s') -> step s Final s'
| st_padding b s' : cipher_stream_set_padding s b = Some s' -> step s (Padding b) s'
| st_aad a s' : cipher_stream_set_aad s a = Ok s' -> step s (Aad a) s'
| st_ccm m t a s' : cipher_stream_set_ccm s m t a = Ok s' -> step s (Ccm m t a) s'
| st_tag t s' : cipher_stream_set_tag s t = Ok s' -> step s (Tag t) s'.
Inductive steps (s : cstream) : list call -> cstream -> Prop :=
| ss_nil : steps s [] s
| ss_snoc l s1 cl s2 : steps s l s1 -> step s1 cl s2 -> steps s (l ++ [cl]) s2.
Definition keeps (s s' : cstream) : Prop := s_encrypt s' = s_encrypt s /\ s_type s' = s_type s /\ s_cipher s' = s_cipher s.
Ltac inv H := injection H as <-; cbn [s_encrypt s_type s_cipher s_tag s_unpad s_pos s_lsize with_mode with_tag].
Lemma update_keeps s i o n s' : cipher_stream_update s i = Ok (o, n, s') -> keeps s s' /\ s_tag s' = s_tag s /\ s_unpad s' = s_unpad s /\
  (is_stream (s_type s) = false -> s_unpad s = true -> (0 < s_bsize s)%nat -> i <> [] \/ s_lsize s <> 0%nat \/ s_pos s <> 0%nat -> s_lsize s' <> 0%nat \/ s_pos s' <> 0%nat).
Proof.
  unfold cipher_stream_update, keeps. destruct (is_stream (s_type s)) eqn:ST.
  - destruct (encipher _ _ _) as [[x m]| |]; try discriminate. intros H. injection H as <- <- <-. cbn [s_encrypt s_type s_cipher s_tag s_unpad with_mode]. repeat split; discriminate.
  - destruct (s_pos s + length i <? s_bsize s)%nat eqn:SH.
    + intros H. injection H as <- <- <-. cbn [s_encrypt s_type s_cipher s_tag s_unpad s_lsize s_pos]. repeat split. intros _ _ _ [N|[N|N]]; [right; destruct i; [contradiction|cbn [length]; lia]|left; exact N|right; lia].
    + destruct (if (0 <? s_pos s)%nat then _ else _) as [[[[[out block] pos] m] input]| |]; try discriminate. destruct (if (s_bsize s <=? length input)%nat then _ else _) as [[[out2 m2] input2]| |]; try discriminate. destruct (if (0 <? length input2)%nat then _ else _) as [block2 pos2].
      destruct (length out2 <? s_bsize s)%nat; [discriminate|]. destruct (s_unpad s) eqn:U; intros H; injection H as <- <- <-; cbn [s_encrypt s_type s_cipher s_tag s_unpad s_lsize s_pos]; repeat split; try discriminate. intros _ _ B _. left. lia.
Qed.
Lemma crypt_keeps s i o s' : cipher_stream_crypt s i = Ok (o, s') -> keeps s s' /\ s_tag s' = s_tag s /\ s_unpad s' = s_unpad s /\ s_pos s' = s_pos s /\ s_lsize s' = s_lsize s.
Proof.
  unfold cipher_stream_crypt, keeps. destruct (encipher _ _ _) as [[x m]| |]; destruct (is_stream _); try discriminate; try destruct (_ || _); try discriminate; try destruct (negb _); try discriminate; intros H; injection H as <- <-; repeat split.
Qed.
Lemma final_keeps s r o n s' : cipher_stream_final s = Ok (r, o, n, s') -> keeps s s' /\ (s_encrypt s = false -> s_tag s' = s_tag s) /\ s_unpad s' = s_unpad s /\ s_pos s' = s_pos s /\ s_lsize s' = s_lsize s.
Proof.
  assert (AE : forall k, aead_final s k = Ok (r, o, n, s') -> keeps s s' /\ (s_encrypt s = false -> s_tag s' = s_tag s) /\ s_unpad s' = s_unpad s /\ s_pos s' = s_pos s /\ s_lsize s' = s_lsize s).
  { intros k. unfold aead_final. destruct (s_encrypt s) eqn:E; [destruct (cipher_mode_digest _ _ _)|destruct (cipher_mode_verify _ _ _ _)]; try discriminate; intros H; injection H as <- <- <- <-; unfold keeps; cbn [s_encrypt s_type s_cipher s_tag s_unpad s_pos s_lsize with_tag]; repeat split; try (symmetry; exact E); try exact E; discriminate. }
  assert (KS : forall m, keeps s (with_mode s m)) by (intros m; repeat split). assert (K0 : keeps s s) by (repeat split).
  assert (RT : forall v, Ok (v, [], 0%nat, s) = Ok (r, o, n, s') -> keeps s s' /\ (s_encrypt s = false -> s_tag s' = s_tag s) /\ s_unpad s' = s_unpad s /\ s_pos s' = s_pos s /\ s_lsize s' = s_lsize s).
  { intros v H. assert (s' = s) as -> by congruence. auto. }
  assert (PAD : match pkcs7_pad (firstn (s_pos s) (s_block s)) (s_bsize s) with None => Abort | Some b => match encipher s (s_mode s) b with Ok (o, m) => Ok (1, o, s_bsize s, with_mode s m) | Fail => Fail | Abort => Abort end end = Ok (r, o, n, s') ->
    keeps s s' /\ (s_encrypt s = false -> s_tag s' = s_tag s) /\ s_unpad s' = s_unpad s /\ s_pos s' = s_pos s /\ s_lsize s' = s_lsize s).
  { destruct (pkcs7_pad _ _) as [b|]; [|discriminate]. destruct (encipher _ _ _) as [[x m]| |]; try discriminate. intros H. assert (s' = with_mode s m) as -> by congruence. split; [apply KS|]. auto. }
  assert (UNP : (let '(r0, len, dst) := pkcs7_unpad (s_last s) in Ok (r0, dst, Z.to_nat len, s)) = Ok (r, o, n, s') ->
    keeps s s' /\ (s_encrypt s = false -> s_tag s' = s_tag s) /\ s_unpad s' = s_unpad s /\ s_pos s' = s_pos s /\ s_lsize s' = s_lsize s).
  { destruct (pkcs7_unpad _) as [[x y] z]. intros H. assert (s' = s) as -> by congruence. auto. }
  assert (CT : forall t f, match f with Ok (m, last, block) => Ok (1, last ++ firstn (s_pos s) block, (s_bsize s + s_pos s)%nat,
      mkS (s_encrypt s) (s_padding s) (s_unpad s) block (s_pos s) last (s_lsize s) (s_tag s) (s_ccm_len s) (s_cipher s) t m) | Fail => Fail | Abort => Abort end = Ok (r, o, n, s') -> t = s_type s ->
    keeps s s' /\ (s_encrypt s = false -> s_tag s' = s_tag s) /\ s_unpad s' = s_unpad s /\ s_pos s' = s_pos s /\ s_lsize s' = s_lsize s).
  { intros t [[[m last] block]| |] H T; try discriminate. injection H as <- <- <- <-. unfold keeps. cbn [s_encrypt s_type s_cipher s_tag s_unpad s_pos s_lsize]. auto. }
  unfold cipher_stream_final. destruct (s_type s) eqn:T; try exact (RT _); try exact (AE _).
  - destruct (negb (s_pos s =? 0)%nat); exact (RT _).
  - destruct (negb (s_padding s)); [destruct (negb (s_pos s =? 0)%nat); exact (RT _)|]. destruct (negb (s_encrypt s)); [|exact PAD]. destruct (negb (s_pos s =? 0)%nat); [exact (RT _)|]. destruct (s_lsize s =? 0)%nat; [exact (RT _)|exact UNP].
  - destruct (negb (s_padding s)); [destruct (negb (s_pos s =? 0)%nat); exact (RT _)|]. destruct (negb (s_encrypt s)); [|exact PAD]. destruct (negb (s_pos s =? 0)%nat); [exact (RT _)|]. destruct (s_lsize s =? 0)%nat; [exact (RT _)|exact UNP].
  - destruct (negb (s_padding s)); [destruct (negb (s_pos s =? 0)%nat); exact (RT _)|]. destruct (s_lsize s =? 0)%nat; [exact (RT _)|]. intros H. exact (CT _ _ H eq_refl).
  - destruct (negb (s_padding s)); [destruct (negb (s_pos s =? 0)%nat); exact (RT _)|]. destruct (s_lsize s =? 0)%nat; [exact (RT _)|]. intros H. exact (CT _ _ H eq_refl).
  - destruct (s_ccm_len s =? 0); [exact (RT _)|exact (AE _)].
Qed.
Lemma ccm_keeps s m t a s' : cipher_stream_set_ccm s m t a = Ok s' -> keeps s s' /\ s_tag s' = s_tag s /\ s_unpad s' = s_unpad s /\ s_pos s' = s_pos s /\ s_lsize s' = s_lsize s.
Proof.
  unfold cipher_stream_set_ccm. destruct (s_type s) eqn:T; try discriminate. destruct (s_mode s); try discriminate. destruct (ccm_setup _ _ _ _ _); try discriminate. intros H. injection H as <-. unfold keeps. cbn [s_encrypt s_type s_cipher s_tag s_unpad s_pos s_lsize]. repeat split. congruence.
Qed.
Lemma aad_keeps s a s' : cipher_stream_set_aad s a = Ok s' -> keeps s s' /\ s_tag s' = s_tag s /\ s_unpad s' = s_unpad s /\ s_pos s' = s_pos s /\ s_lsize s' = s_lsize s.
Proof. unfold cipher_stream_set_aad. destruct (s_type s) eqn:T; try discriminate; destruct (s_mode s); try discriminate; intros H; injection H as <-; unfold keeps; repeat split. Qed.
Lemma tag_keeps s t s' : cipher_stream_set_tag s t = Ok s' -> keeps s s' /\ s_tag s' = t /\ s_encrypt s = false /\ is_aead (s_type s) = true /\ t <> [] /\ s_unpad s' = s_unpad s /\ s_pos s' = s_pos s /\ s_lsize s' = s_lsize s.
Proof.
  unfold cipher_stream_set_tag. destruct (s_encrypt s) eqn:E; [discriminate|]. destruct (s_type s) eqn:T; try discriminate; match goal with |- context [if ?x then _ else Fail] => destruct x eqn:K; [|discriminate] end; (destruct (length t <=? s_bsize s)%nat; [|discriminate]); intros H; injection H as <-; unfold keeps; cbn [s_encrypt s_type s_cipher s_tag s_unpad s_pos s_lsize]; repeat split; try congruence;
    intros ->; cbn [length] in K; try discriminate K; apply andb_prop in K; destruct K as [K1 K2]; apply Z.eqb_eq in K2; rewrite <- K2 in K1; discriminate K1.
Qed.
Lemma padding_keeps s b s' : cipher_stream_set_padding s b = Some s' -> keeps s s' /\ s_tag s' = s_tag s /\ (s_unpad s' = true -> negb (s_encrypt s) || is_cts (s_type s) = true) /\ s_pos s' = s_pos s /\ s_lsize s' = s_lsize s.
Proof.
  unfold cipher_stream_set_padding. destruct (negb _ && negb _); [discriminate|]. destruct (_ && _); [discriminate|]. intros H. injection H as <-. unfold keeps. cbn [s_encrypt s_type s_cipher s_tag s_unpad s_pos s_lsize]. repeat split. intros H. apply andb_prop in H. apply H.
Qed.
Lemma step_keeps s cl s' : step s cl s' -> keeps s s'.
Proof. intros []; [eapply update_keeps|eapply crypt_keeps|eapply final_keeps|eapply padding_keeps|eapply aad_keeps|eapply ccm_keeps|eapply tag_keeps]; eassumption. Qed.
Lemma steps_keep s l s' : steps s l s' -> keeps s s'.
Proof. induction 1 as [|l s1 cl s2 _ (A & B & E) H]; [repeat split|]. apply step_keeps in H. destruct H as (A' & B' & E'). repeat split; congruence. Qed.
(* the tag a decrypting stream holds: the last one set *)
Fixpoint last_tag (l : list call) (t : list Z) : list Z := match l with [] => t | Tag t' :: l => last_tag l t' | _ :: l => last_tag l t end.
Lemma last_tag_snoc l cl t : last_tag (l ++ [cl]) t = match cl with Tag t' => t' | _ => last_tag l t end.
Proof. revert t. induction l as [|x l IH]; intros t; [destruct cl; reflexivity|]. destruct x; cbn [app last_tag]; apply IH. Qed.
Lemma dec_tag s l s' : steps s l s' -> s_encrypt s = false -> s_tag s' = last_tag l (s_tag s).
Proof.
  induction 1 as [|l s1 cl s2 R IH H]; intros E; [reflexivity|]. specialize (IH E). destruct (steps_keep _ _ _ R) as (E1 & _). rewrite E in E1. rewrite last_tag_snoc, <- IH. destruct H as [i o n s2 H|i o s2 H|r o n s2 H|b s2 H|a s2 H|m t a s2 H|t s2 H].
  - apply (update_keeps _ _ _ _ _ H). - apply (crypt_keeps _ _ _ _ H). - apply (final_keeps _ _ _ _ _ H). exact E1. - apply (padding_keeps _ _ _ H). - apply (aad_keeps _ _ _ H). - apply (ccm_keeps _ _ _ _ _ H). - apply (tag_keeps _ _ _ H).
Qed.
Lemma tag_valid s l s' t : steps s l s' -> In (Tag t) l -> t <> [] /\ s_encrypt s = false /\ is_aead (s_type s) = true.
Proof.
  induction 1 as [|l s1 cl s2 R IH H]; [intros []|]. intros I. apply in_app_or in I. destruct I as [I|[I|[]]]; [exact (IH I)|]. subst cl. inversion H as [| | | | | |t' s3 H' Q1 Q2]; subst. destruct (steps_keep _ _ _ R) as (E1 & T1 & _). destruct (tag_keeps _ _ _ H') as (_ & _ & E & A & N & _). rewrite <- E1, <- T1. auto.
Qed.
Lemma init_shape ci mode enc key iv s : cipher_stream_init ci mode enc key iv = Some s -> s_encrypt s = enc /\ s_type s = mode /\ s_tag s = [] /\ s_pos s = 0%nat /\ s_lsize s = 0%nat /\ s_unpad s = (is_pad mode && negb enc) || is_cts mode /\ exists k, ci k = Some (s_cipher s).
Proof.
  unfold cipher_stream_init. destruct mode.
  all: try (destruct (ci key) as [c|] eqn:E; [|discriminate]; destruct (cipher_mode_init _ _ _); [|discriminate]; intros H; injection H as <-; repeat split; exists key; exact E).
  destruct (_ || _); [discriminate|]. destruct (negb _); [discriminate|]. destruct (ci (firstn _ _)) as [c|] eqn:E; [|discriminate]. destruct (cipher_mode_init _ _ _) as [[]|]; try discriminate. destruct (ci (skipn _ _)); [|discriminate]. intros H. injection H as <-. repeat split. eexists. exact E.
Qed.
(* padding is decided before the data *)
Definition locked (s : cstream) : Prop := s_unpad s = true /\ (s_lsize s <> 0%nat \/ s_pos s <> 0%nat).
Definition sound (s : cstream) : Prop := s_unpad s = true -> negb (s_encrypt s) || is_cts (s_type s) = true.
Lemma locked_pad s b : sound s -> locked s -> cipher_stream_set_padding s b = None.
Proof.
  intros S (U & L). specialize (S U). unfold cipher_stream_set_padding. destruct (negb _ && negb _); [reflexivity|]. rewrite S. cbn [andb]. destruct L as [L|L]; apply Nat.eqb_neq in L; rewrite L; cbn [negb orb]; rewrite ?orb_true_r; reflexivity.
Qed.
Lemma sound_step s cl s' : sound s -> step s cl s' -> sound s'.
Proof.
  intros S H. destruct (step_keeps _ _ _ H) as (E & T & _). unfold sound in *. rewrite E, T. destruct H as [i o n s2 H|i o s2 H|r o n s2 H|b s2 H|a s2 H|m t a s2 H|t s2 H].
  - destruct (update_keeps _ _ _ _ _ H) as (_ & _ & -> & _). exact S.
  - destruct (crypt_keeps _ _ _ _ H) as (_ & _ & -> & _). exact S.
  - destruct (final_keeps _ _ _ _ _ H) as (_ & _ & -> & _). exact S.
  - exact (proj1 (proj2 (proj2 (padding_keeps _ _ _ H)))).
  - destruct (aad_keeps _ _ _ H) as (_ & _ & -> & _). exact S.
  - destruct (ccm_keeps _ _ _ _ _ H) as (_ & _ & -> & _). exact S.
  - destruct (tag_keeps _ _ _ H) as (_ & _ & _ & _ & _ & -> & _). exact S.
Qed.
Lemma locked_step s cl s' : sound s -> is_stream (s_type s) = false -> (0 < s_bsize s)%nat -> locked s -> step s cl s' -> locked s'.
Proof.
  intros S T B L H. pose proof L as (U & LP). unfold locked. destruct H as [i o n s2 H|i o s2 H|r o n s2 H|b s2 H|a s2 H|m t a s2 H|t s2 H].
  - destruct (update_keeps _ _ _ _ _ H) as (_ & _ & -> & K). split; [exact U|]. exact (K T U B (or_intror LP)).
  - destruct (crypt_keeps _ _ _ _ H) as (_ & _ & -> & -> & ->). exact L.
  - destruct (final_keeps _ _ _ _ _ H) as (_ & _ & -> & -> & ->). exact L.
  - rewrite (locked_pad s b S L) in H. discriminate.
  - destruct (aad_keeps _ _ _ H) as (_ & _ & -> & -> & ->). exact L.
  - destruct (ccm_keeps _ _ _ _ _ H) as (_ & _ & -> & -> & ->). exact L.
  - destruct (tag_keeps _ _ _ H) as (_ & _ & _ & _ & _ & -> & -> & ->). exact L.
Qed.
Lemma steps_app s l1 l2 s' : steps s (l1 ++ l2) s' -> exists s1, steps s l1 s1 /\ steps s1 l2 s'.
Proof.
  revert s'. induction l2 as [|cl l2 IH] using rev_ind; intros s' H; [rewrite app_nil_r in H; exists s'; split; [exact H|constructor]|].
  rewrite app_assoc in H. inversion H as [Q|l3 s1 cl' s2 A B Q]; [destruct (l1 ++ l2); discriminate|]. apply app_inj_tail in Q. destruct Q as [-> ->]. subst s2.
  destruct (IH _ A) as (s3 & C & D). exists s3. split; [exact C|]. econstructor; eassumption.
Qed.
(* whether padding is on: the last setting *)
Fixpoint last_pad (l : list call) (b : bool) : bool := match l with [] => b | Padding b' :: l => last_pad l b' | _ :: l => last_pad l b end.
Lemma last_pad_snoc l cl b : last_pad (l ++ [cl]) b = match cl with Padding b' => b' | _ => last_pad l b end.
Proof. revert b. induction l as [|x l IH]; intros b; [destruct cl; reflexivity|]. destruct x; cbn [app last_pad]; apply IH. Qed.
Lemma unpad_run s l s' : steps s l s' -> negb (s_encrypt s) || is_cts (s_type s) = true -> s_unpad s' = last_pad l (s_unpad s).
Proof.
  induction 1 as [|l s1 cl s2 R IH H]; intros E; [reflexivity|]. specialize (IH E). destruct (steps_keep _ _ _ R) as (E1 & T1 & _). rewrite last_pad_snoc, <- IH. destruct H as [i o n s2 H|i o s2 H|r o n s2 H|b s2 H|a s2 H|m t a s2 H|t s2 H].
  - apply (update_keeps _ _ _ _ _ H). - apply (crypt_keeps _ _ _ _ H). - apply (final_keeps _ _ _ _ _ H).
  - unfold cipher_stream_set_padding in H. rewrite E1, T1, E in H. destruct (negb _ && negb _); [discriminate|]. destruct (_ && _); [discriminate|]. injection H as <-. cbn [s_unpad]. apply andb_true_r.
  - apply (aad_keeps _ _ _ H). - apply (ccm_keeps _ _ _ _ _ H). - apply (tag_keeps _ _ _ H).
Qed.
Lemma locked_run s l s' : steps s l s' -> sound s -> is_stream (s_type s) = false -> (0 < s_bsize s)%nat -> locked s -> sound s' /\ locked s'.
Proof.
  induction 1 as [|l s1 cl s2 R IH H]; intros S T B L; [auto|]. destruct (IH S T B L) as (S1 & L1). destruct (steps_keep _ _ _ R) as (_ & T1 & C1).
  split; [exact (sound_step _ _ _ S1 H)|]. refine (locked_step _ _ _ S1 _ _ L1 H); unfold s_bsize in *; congruence.
Qed.
(* an encrypting stream has a tag only once it was finished *)
Lemma enc_tag s l s' : steps s l s' -> s_encrypt s = true -> s_tag s = [] -> ~ In Final l -> s_tag s' = [].
Proof.
  induction 1 as [|l s1 cl s2 R IH H]; intros E T N; [exact T|]. specialize (IH E T (fun I => N (in_or_app _ _ _ (or_introl I)))). destruct (steps_keep _ _ _ R) as (E1 & _). rewrite <- IH. destruct H as [i o n s2 H|i o s2 H|r o n s2 H|b s2 H|a s2 H|m t a s2 H|t s2 H].
  - apply (update_keeps _ _ _ _ _ H). - apply (crypt_keeps _ _ _ _ H). - exfalso. apply N. apply in_or_app. right. left. reflexivity. - apply (padding_keeps _ _ _ H). - apply (aad_keeps _ _ _ H). - apply (ccm_keeps _ _ _ _ _ H).
  - destruct (tag_keeps _ _ _ H) as (_ & _ & E2 & _). congruence.
Qed.
Lemma last_tag_in l t : last_tag l t = t \/ In (Tag (last_tag l t)) l.
Proof.
  revert t. induction l as [|x l IH]; intros t; [left; reflexivity|]. destruct x; cbn [last_tag]; try (destruct (IH t) as [A|A]; [left; exact A|right; right; exact A]).
  destruct (IH tag) as [A|A]; [right; left; congruence|right; right; exact A].
Qed.
Lemma final_verify s r o n s' : s_encrypt s = false -> is_aead (s_type s) = true -> cipher_stream_final s = Ok (r, o, n, s') -> r = 0 \/ cipher_mode_verify (s_cipher s) (s_type s) (s_mode s) (s_tag s) = Ok r.
Proof.
  intros E A. assert (AE : forall k, aead_final s k = Ok (r, o, n, s') -> cipher_mode_verify (s_cipher s) (s_type s) (s_mode s) (s_tag s) = Ok r).
  { intros k. unfold aead_final. rewrite E. destruct (cipher_mode_verify _ _ _ _); try discriminate. intros H. injection H as <- _ _ _. reflexivity. }
  unfold cipher_stream_final. destruct (s_type s) eqn:T; try discriminate A; try (intros H; right; exact (AE _ H)).
  destruct (s_ccm_len s =? 0); [intros H; left; congruence|intros H; right; exact (AE _ H)].
Qed.
