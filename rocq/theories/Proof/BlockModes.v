(* ECB, CBC and XTS: the block loops, round trips and ciphertext stealing *)
From Verif.Base Require Import Prelude.
From Verif.Model Require Import Bio Util Block Encoding Modes.
From Verif.Spec Require Import BlockSpec StreamSpec ModesSpec.
From Verif.Proof Require Import UtilProof BioProof BufCrypt BlockProof.

Definition cipher_ok (c : cipher) : Prop := block_cipher (c_size c) (c_enc c) (c_dec c).

Lemma size_pos c : cipher_ok c -> (8 <= c_size c)%nat.
Proof. intros H. destruct (bc_size _ _ _ H); lia. Qed.

Lemma aligned_iff c n : cipher_ok c -> aligned (c_size c) n = true <-> exists k, n = (k * c_size c)%nat.
Proof.
  intros H. unfold aligned. rewrite Z.eqb_eq.
  destruct (bc_size _ _ _ H) as [E|E]; rewrite E.
  - change (Z.of_nat 8 - 1) with (2 ^ 3 - 1). rewrite land_mask by lia. split; [intros Hm|intros [k ->]].
    + exists (n / 8)%nat. lia.
    + lia.
  - change (Z.of_nat 16 - 1) with (2 ^ 4 - 1). rewrite land_mask by lia. split; [intros Hm|intros [k ->]].
    + exists (n / 16)%nat. lia.
    + lia.
Qed.

#[local] Ltac Zify.zify_post_hook ::= idtac.

Lemma blocks_exact B (l : list (list Z)) : (0 < B)%nat -> Forall (fun b : list Z => length b = B) l -> blocks B (concat l) = l.
Proof.
  intros HB H. induction H as [|b t Hb Ht IH]; cbn [concat].
  - apply blocks_nil. cbn. lia.
  - rewrite blocks_cons by (try rewrite app_length; lia).
    rewrite firstn_app_exact, skipn_app_exact by auto. rewrite IH. reflexivity.
Qed.
Lemma concat_length_exact B (l : list (list Z)) : Forall (fun b : list Z => length b = B) l -> length (concat l) = (length l * B)%nat.
Proof. induction 1 as [|b t Hb Ht IH]; cbn [concat length]; [reflexivity|]. rewrite app_length, IH. lia. Qed.
Lemma concat_blocks B k : (0 < B)%nat -> forall m, length m = (k * B)%nat -> concat (blocks B m) = m.
Proof.
  intros HB. induction k as [|k IH]; intros m Hm.
  - destruct m; [|cbn in Hm; lia]. rewrite blocks_nil by (cbn; lia). reflexivity.
  - rewrite blocks_cons by lia. cbn [concat]. rewrite IH by (rewrite skipn_length; lia). apply firstn_skipn.
Qed.
Lemma Forall_imp {A} (P Q : A -> Prop) l : (forall x, P x -> Q x) -> Forall P l -> Forall Q l.
Proof. intros H. apply Forall_impl. exact H. Qed.
Lemma blocks_len B m : (0 < B)%nat -> Forall (fun b : list Z => length b = B) (blocks B m).
Proof.
  intros HB. unfold blocks. apply Forall_forall. intros b Hb. apply in_map_iff in Hb as (i & <- & Hi).
  apply in_seq in Hi. rewrite firstn_length, skipn_length.
  pose proof (Nat.div_mod (length m) B ltac:(lia)).
  assert ((i + 1) * B <= length m / B * B)%nat by (apply Nat.mul_le_mono_r; lia). nia.
Qed.
Lemma blocks_app_ex B x y : (0 < B)%nat -> (exists k, length x = (k * B)%nat) -> blocks B (x ++ y) = blocks B x ++ blocks B y.
Proof. intros HB [k H]. apply (blocks_app B k); auto. Qed.

(* the while (len > 0) loop *)
Section Loop.
  Context {St : Type}.
  Variable size : nat.
  Variable step : nat -> St -> list Z -> list Z * St.
  Hypothesis Hs : (0 < size)%nat.
  Lemma block_loop_fuel f : forall st src, (length src <= f)%nat ->
    block_loop size step f st src = block_loop size step (length src) st src.
  Proof.
    induction f as [f IH] using lt_wf_ind; intros st src Hf.
    destruct f as [|f].
    - replace (length src) with 0%nat by lia. reflexivity.
    - destruct src as [|a src]; [cbn; reflexivity|].
      cbn [length block_loop]. change (0 <? S (length src))%nat with true. cbv iota.
      destruct (step _ _ _) as [d st'].
      rewrite (IH f), (IH (length src)); try reflexivity; try lia.
      + cbn [length] in Hf. lia.
      + rewrite skipn_length. cbn [length]. lia.
      + rewrite skipn_length. cbn [length] in *. lia.
  Qed.
  Lemma block_loop_nil f st : block_loop size step f st [] = ([], st).
  Proof. destruct f; reflexivity. Qed.
  Lemma block_loop_cons st b rest : length b = size ->
    block_loop size step (length (b ++ rest)) st (b ++ rest) =
    let '(d, st) := step (length (b ++ rest)) st b in
    let '(o, st) := block_loop size step (length rest) st rest in (d ++ o, st).
  Proof.
    intros Hb. rewrite app_length. destruct (length b + length rest)%nat as [|n] eqn:En; [lia|].
    cbn [block_loop]. rewrite app_length, En. change (0 <? S n)%nat with true. cbv iota.
    rewrite firstn_app_exact, skipn_app_exact by auto. destruct (step _ _ _) as [d st'].
    rewrite block_loop_fuel by lia. reflexivity.
  Qed.
End Loop.

(* when the step ignores the remaining length, the loop is a fold over the blocks *)
Lemma block_loop_calls {St} size (step : St -> list Z -> list Z * St) : (0 < size)%nat -> forall bs st,
  Forall (fun b => length b = size) bs ->
  block_loop size (fun _ => step) (length (concat bs)) st (concat bs) = calls step st bs.
Proof.
  intros Hs bs. induction bs as [|b t IH]; intros st HF; [reflexivity|].
  inversion HF as [|? ? Hb Ht]; subst. cbn [concat calls].
  rewrite block_loop_cons by auto. destruct (step st b) as [d st']. rewrite IH by auto. reflexivity.
Qed.

Lemma calls_map (f : list Z -> list Z) bs : calls (fun (_ : unit) b => (f b, tt)) tt bs = (concat (map f bs), tt).
Proof. induction bs as [|b t IH]; cbn [calls map concat]; [reflexivity|]. rewrite IH. reflexivity. Qed.

Definition okb (B : nat) (b : list Z) : Prop := length b = B /\ bytes b.
Lemma okb_len B bs : Forall (okb B) bs -> Forall (fun b : list Z => length b = B) bs.
Proof. apply Forall_impl. intros b [H _]. exact H. Qed.
Lemma blocks_okb B m : (0 < B)%nat -> bytes m -> Forall (okb B) (blocks B m).
Proof. apply blocks_ok. Qed.
Lemma okb_bytes B bs : Forall (okb B) bs -> bytes (concat bs).
Proof. induction 1 as [|b t [H1 H2] Ht IH]; cbn [concat]; [constructor|]. apply bytes_app. split; auto. Qed.
Lemma xor_cancel_r a b : length a = length b -> xorl (xorl a b) b = a.
Proof. intros H. apply xorl_involutive. lia. Qed.
Lemma xor_cancel_l a b : length a = length b -> xorl a (xorl a b) = b.
Proof. intros H. rewrite (xorl_comm a b), xorl_comm. apply xor_cancel_r. auto. Qed.

Section Cipher.
  Variable c : cipher.
  Hypothesis Hc : cipher_ok c.
  Notation B := (c_size c).
  Notation E := (c_enc c).
  Notation D := (c_dec c).

  Lemma B_pos : (0 < B)%nat. Proof. pose proof (size_pos c Hc). lia. Qed.
  Lemma E_ok b : okb B b -> okb B (E b).
  Proof. intros [H1 H2]. split; [apply (bc_elen _ _ _ Hc)|apply (bc_ebytes _ _ _ Hc)]; auto. Qed.
  Lemma D_ok b : okb B b -> okb B (D b).
  Proof. intros [H1 H2]. split; [apply (bc_dlen _ _ _ Hc)|apply (bc_dbytes _ _ _ Hc)]; auto. Qed.
  Lemma DE b : okb B b -> D (E b) = b.
  Proof. intros [H1 H2]. apply (bc_de _ _ _ Hc); auto. Qed.
  Lemma ED b : okb B b -> E (D b) = b.
  Proof. intros [H1 H2]. apply (bc_ed _ _ _ Hc); auto. Qed.
  Lemma X_ok a b : okb B a -> okb B b -> okb B (xorl a b).
  Proof. intros [A1 A2] [B1 B2]. split; [rewrite xorl_length; lia|apply xorl_bytes; auto]. Qed.
  Lemma aligned_concat bs : Forall (fun b : list Z => length b = B) bs -> aligned B (length (concat bs)) = true.
  Proof. intros H. apply aligned_iff; auto. exists (length bs). apply concat_length_exact. auto. Qed.
  Lemma aligned_blocks m : aligned B (length m) = true -> m = concat (blocks B m).
  Proof. intros H. apply aligned_iff in H as [k H]; auto. symmetry. apply (concat_blocks B k); auto. apply B_pos. Qed.

  (* ---- ECB ---- *)
  Lemma ecb_encrypt_spec bs : Forall (fun b : list Z => length b = B) bs -> ecb_encrypt c (concat bs) = Some (concat (map E bs)).
  Proof.
    intros H. unfold ecb_encrypt. rewrite aligned_concat by auto.
    rewrite (block_loop_calls B (fun (_ : unit) b => (E b, tt)) B_pos) by auto. rewrite calls_map. reflexivity.
  Qed.
  Lemma ecb_decrypt_spec bs : Forall (fun b : list Z => length b = B) bs -> ecb_decrypt c (concat bs) = Some (concat (map D bs)).
  Proof.
    intros H. unfold ecb_decrypt. rewrite aligned_concat by auto.
    rewrite (block_loop_calls B (fun (_ : unit) b => (D b, tt)) B_pos) by auto. rewrite calls_map. reflexivity.
  Qed.
  Lemma map_ok (f : list Z -> list Z) bs : (forall b, okb B b -> okb B (f b)) -> Forall (okb B) bs -> Forall (okb B) (map f bs).
  Proof. intros Hf H. apply Forall_map. revert H. apply Forall_impl. exact Hf. Qed.
  Lemma map_DE bs : Forall (okb B) bs -> map D (map E bs) = bs.
  Proof. induction 1 as [|b t Hb Ht IH]; cbn [map]; [reflexivity|]. rewrite IH, DE by auto. reflexivity. Qed.

  (* ---- CBC ---- *)
  Lemma cbc_chain_ok bs : forall iv, okb B iv -> Forall (okb B) bs -> Forall (okb B) (cbc_chain E iv bs).
  Proof.
    induction bs as [|b t IH]; intros iv Hi H; cbn [cbc_chain]; [constructor|].
    inversion H; subst. assert (okb B (E (xorl iv b))) by (apply E_ok, X_ok; auto). constructor; auto.
  Qed.
  Lemma cbc_encrypt_spec bs iv : Forall (fun b : list Z => length b = B) bs ->
    cbc_encrypt c iv (concat bs) = Some (concat (cbc_chain E iv bs), last (cbc_chain E iv bs) iv).
  Proof.
    intros H. unfold cbc_encrypt. rewrite aligned_concat by auto. f_equal.
    rewrite (block_loop_calls B (fun prev b => (E (torsion_memxor prev b), E (torsion_memxor prev b))) B_pos) by auto.
    clear H. revert iv. induction bs as [|b t IH]; intros iv; [reflexivity|].
    cbn [calls cbc_chain]. rewrite IH. rewrite memxor_xorl. cbn [concat]. f_equal.
    destruct (cbc_chain E (E (xorl iv b)) t) eqn:Et; [reflexivity|].
    clear. revert l. induction l0 as [|y l0 IH]; intros; [reflexivity|]. cbn [last] in *. apply IH.
  Qed.
  Definition cbc_undo (prev : list Z) (bs : list (list Z)) : list Z :=
    xorl (concat (map D bs)) (prev ++ concat bs).
  Lemma last_cons {A} (x d : A) l : last (x :: l) d = last l x.
  Proof. revert x. induction l as [|y l IH]; intros x; [reflexivity|]. cbn [last] in *. destruct l; [reflexivity|]. apply IH. Qed.
  Lemma cbc_inplace_spec bs : forall prev, okb B prev -> Forall (okb B) bs ->
    cbc_decrypt_inplace c prev (concat bs) = Some (cbc_undo prev bs, last bs prev).
  Proof.
    intros prev Hp H. unfold cbc_decrypt_inplace. rewrite aligned_concat by (apply okb_len; auto). f_equal.
    rewrite (block_loop_calls B (fun prev b => (torsion_memxor (D b) prev, b)) B_pos) by (apply okb_len; auto).
    revert prev Hp. induction H as [|b t Hb Ht IH]; intros prev Hp.
    - cbn. reflexivity.
    - cbn [calls]. rewrite IH by auto. unfold cbc_undo. cbn [map concat]. rewrite memxor_xorl.
      rewrite xorl_app by (destruct (D_ok b Hb), Hp; lia). rewrite last_cons. reflexivity.
  Qed.
  Lemma cbc_disjoint_spec bs : forall prev, okb B prev -> Forall (okb B) bs ->
    cbc_decrypt_disjoint c prev (concat bs) = Some (cbc_undo prev bs, last bs prev).
  Proof.
    intros prev Hp H. unfold cbc_decrypt_disjoint.
    destruct bs as [|b t]; [reflexivity|].
    inversion H as [|? ? Hb Ht]; subst. assert (Hl := concat_length_exact B (b :: t) (okb_len _ _ H)).
    cbn [length] in Hl. destruct (Nat.ltb_spec 0 (length (concat (b :: t)))) as [_|Hx]; [|pose proof B_pos; nia].
    rewrite ecb_decrypt_spec by (apply okb_len; auto). cbn [map concat]. rewrite !memxor_xorl.
    assert (HDb : length (D b) = B) by (apply D_ok; auto).
    rewrite firstn_app_exact, skipn_app_exact by auto.
    assert (Hlen : (length (b ++ concat t) - B = length t * B)%nat).
    { cbn [concat] in Hl. rewrite Hl. cbn. lia. }
    rewrite Hlen. f_equal. f_equal.
    - unfold cbc_undo. cbn [map concat]. rewrite xorl_app by (destruct Hp; lia). f_equal.
      (* the two sources agree on the first (length t * B) bytes *)
      assert (HD : length (concat (map D t)) = (length t * B)%nat).
      { rewrite <- (map_length D t). apply concat_length_exact, okb_len, map_ok; auto. apply D_ok. }
      rewrite <- (firstn_all (concat (map D t))) at 1. rewrite HD.
      rewrite xorl_firstn. rewrite <- HD. apply firstn_all2. rewrite xorl_length. lia.
    - clear Hl HDb Hp. assert (Hg : forall (l : list (list Z)) x, okb B x -> Forall (okb B) l ->
        firstn B (skipn (length l * B) (x ++ concat l)) = last l x).
      { induction l as [|y l IHl]; intros x Hx HF.
        - cbn [length concat last]. rewrite app_nil_r. cbn [Nat.mul skipn]. destruct Hx as [Hx _]. rewrite <- Hx. apply firstn_all.
        - inversion HF; subst. cbn [length concat]. rewrite last_cons.
          replace (S (length l) * B)%nat with (length x + length l * B)%nat by (destruct Hx; lia).
          rewrite skipn_add, skipn_app_exact by reflexivity. apply IHl; auto. }
      rewrite Hg by auto. rewrite last_cons. reflexivity.
  Qed.
  Lemma cbc_undo_chain bs : forall iv, okb B iv -> Forall (okb B) bs ->
    cbc_undo iv (cbc_chain E iv bs) = concat bs.
  Proof.
    induction bs as [|b t IH]; intros iv Hi H; [reflexivity|].
    inversion H as [|? ? Hb Ht]; subst. unfold cbc_undo in *. cbn [cbc_chain map concat].
    assert (Hx : okb B (E (xorl iv b))) by (apply E_ok, X_ok; auto).
    rewrite DE by (apply X_ok; auto).
    rewrite xorl_app by (destruct (X_ok _ _ Hi Hb), Hi; lia). rewrite IH by auto. f_equal.
    rewrite (xorl_comm iv b). apply xor_cancel_r. destruct Hb, Hi; lia.
  Qed.
  Lemma cbc_chain_app l1 l2 iv : cbc_chain E iv (l1 ++ l2) = cbc_chain E iv l1 ++ cbc_chain E (last (cbc_chain E iv l1) iv) l2.
  Proof. revert iv. induction l1 as [|b t IH]; intros iv; [reflexivity|]. cbn [app cbc_chain]. rewrite IH, last_cons. reflexivity. Qed.
  Lemma last_app_d {A} (l1 l2 : list A) d : last (l1 ++ l2) d = last l2 (last l1 d).
  Proof. revert d. induction l1 as [|x t IH]; intros d; [reflexivity|]. cbn [app]. rewrite !last_cons. apply IH. Qed.

  (* calls on aligned pieces compose *)
  Lemma cbc_encrypt_aligned iv m : aligned B (length m) = true ->
    cbc_encrypt c iv m = Some (concat (cbc_chain E iv (blocks B m)), last (cbc_chain E iv (blocks B m)) iv).
  Proof.
    intros H. rewrite (aligned_blocks m H) at 1. apply cbc_encrypt_spec. apply blocks_len, B_pos.
  Qed.
  Lemma aligned_app (x y : list Z) : aligned B (length x) = true -> aligned B (length (x ++ y)) = aligned B (length y).
  Proof.
    intros Hx. apply aligned_iff in Hx as [k Hk]; auto. apply Bool.eq_iff_eq_true. rewrite !aligned_iff by auto.
    rewrite app_length, Hk. split; intros [j Hj]; [exists (j - k)%nat|exists (k + j)%nat]; nia.
  Qed.
  Lemma cbc_grouping chunks : Forall (fun m : list Z => aligned B (length m) = true) chunks -> forall iv,
    ocalls (cbc_encrypt c) iv chunks = cbc_encrypt c iv (concat chunks).
  Proof.
    induction 1 as [|m t Hm Ht IH]; intros iv.
    - cbn [ocalls concat]. change (@nil Z) with (concat (@nil (list Z))). rewrite cbc_encrypt_spec by constructor. reflexivity.
    - assert (Ha : aligned B (length (concat t)) = true).
      { clear -Ht Hc. induction Ht as [|m t Hm Ht IH]; cbn [concat]; [apply aligned_iff; auto; exists 0%nat; reflexivity|].
        rewrite aligned_app; auto. }
      cbn [ocalls concat]. rewrite cbc_encrypt_aligned by auto. rewrite IH, cbc_encrypt_aligned by auto.
      rewrite cbc_encrypt_aligned by (rewrite aligned_app; auto).
      rewrite blocks_app_ex; [|apply B_pos|apply aligned_iff; auto].
      rewrite cbc_chain_app, concat_app, last_app_d. reflexivity.
  Qed.
  Lemma cbc_undo_app l1 l2 prev : okb B prev -> Forall (okb B) l1 -> Forall (okb B) l2 ->
    cbc_undo prev (l1 ++ l2) = cbc_undo prev l1 ++ cbc_undo (last l1 prev) l2.
  Proof.
    intros Hp H. revert prev Hp. induction H as [|b t Hb Ht IH]; intros prev Hp H2; [reflexivity|].
    unfold cbc_undo in *. cbn [app map concat]. rewrite !xorl_app by (destruct (D_ok b Hb), Hp; lia).
    rewrite IH by auto. rewrite last_cons, app_assoc. reflexivity.
  Qed.
  Lemma last_ok l : forall d, okb B d -> Forall (okb B) l -> okb B (last l d).
  Proof. induction l as [|x t IH]; intros d Hd H; [auto|]. rewrite last_cons. inversion H; subst. apply IH; auto. Qed.
End Cipher.
