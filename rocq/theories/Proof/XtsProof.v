(* XTS and ciphertext stealing *)
From Verif.Base Require Import Prelude.
From Verif.Model Require Import Bio Util Block Encoding Modes.
From Verif.Spec Require Import BlockSpec StreamSpec ModesSpec.
From Verif.Proof Require Import UtilProof BioProof BufCrypt BlockProof BlockModes GfShift.
#[local] Ltac Zify.zify_post_hook ::= idtac.

Lemma pow256 B : 256 ^ Z.of_nat B = 2 ^ (8 * Z.of_nat B).
Proof. change 256 with (2 ^ 8). rewrite <- Z.pow_mul_r by lia. reflexivity. Qed.

Lemma xorl_pad (a r : list Z) n : (length r <= length a)%nat ->
  (length a = length r + n)%nat -> xorl a (r ++ repeat 0 n) = xorl (firstn (length r) a) r ++ skipn (length r) a.
Proof.
  intros H Hn. rewrite <- (firstn_skipn (length r) a) at 1.
  rewrite xorl_app by (rewrite firstn_length; lia). f_equal.
  assert (Hz : forall l : list Z, length l = n -> xorl l (repeat 0 n) = l).
  { clear. induction n as [|n IH]; intros [|x l] Hl; try discriminate; [reflexivity|].
    cbn [repeat]. unfold xorl in *. cbn [map2]. rewrite Z.lxor_0_r, IH; [reflexivity|]. cbn in Hl. lia. }
  apply Hz. rewrite skipn_length. lia.
Qed.
Lemma firstn_xorl_l n a b : (n <= length a)%nat -> (n <= length b)%nat -> firstn n (xorl a b) = xorl (firstn n a) (firstn n b).
Proof. intros. symmetry. apply xorl_firstn. Qed.
Lemma skipn_xorl n : forall a b, skipn n (xorl a b) = xorl (skipn n a) (skipn n b).
Proof.
  induction n as [|n IH]; intros a b; [reflexivity|]. destruct a as [|x a], b as [|y b]; try reflexivity.
  - cbn [skipn]. unfold xorl. cbn [map2]. destruct (skipn n a); reflexivity.
  - unfold xorl in *. cbn [map2 skipn]. apply IH.
Qed.

Section Cipher.
  Variable c : cipher.
  Hypothesis Hc : cipher_ok c.
  Notation B := (c_size c).
  Notation E := (c_enc c).
  Notation D := (c_dec c).

  Lemma tweak_ok t0 i : okb B (tweak B t0 i).
  Proof. split; [apply le_bytes_length|apply le_bytes_bytes]. Qed.
  Lemma tweak_0 t0 : okb B t0 -> tweak B t0 0 = t0.
  Proof. intros [H1 H2]. unfold tweak. cbn [Nat.iter nat_rect]. rewrite <- H1. apply le_bytes_le_val. auto. Qed.
  Lemma iter_range t0 i : okb B t0 -> 0 <= Nat.iter i (mulx B) (le_val t0) < 2 ^ (8 * Z.of_nat B).
  Proof.
    intros [H1 H2]. induction i as [|i IH]; cbn [Nat.iter nat_rect].
    - rewrite <- pow256, <- H1. apply le_val_range. auto.
    - apply mulx_range; [apply (bc_size _ _ _ Hc)|exact IH].
  Qed.
  Lemma tweak_S t0 i : okb B t0 -> xts_shift (tweak B t0 i) = tweak B t0 (S i).
  Proof.
    intros H. destruct (tweak_ok t0 i) as [T1 T2].
    rewrite xts_shift_spec; [|auto|rewrite T1; apply (bc_size _ _ _ Hc)]. rewrite T1. unfold tweak. f_equal.
    rewrite le_val_le_bytes, pow256, Z.mod_small by (apply iter_range; auto). reflexivity.
  Qed.

  Lemma xex_ok f t p : (forall b, okb B b -> okb B (f b)) -> okb B t -> okb B p -> okb B (xex f t p).
  Proof. intros Hf Ht Hp. unfold xex. apply X_ok; auto. apply Hf, X_ok; auto. Qed.
  Lemma xex_DE t p : okb B t -> okb B p -> xex D t (xex E t p) = p.
  Proof.
    intros Ht Hp. unfold xex. rewrite xor_cancel_r.
    2:{ destruct (E_ok c Hc _ (X_ok c _ _ Hp Ht)), Ht; lia. }
    rewrite DE by (auto; apply X_ok; auto). apply xor_cancel_r. destruct Hp, Ht; lia.
  Qed.
  Lemma xex_ED t p : okb B t -> okb B p -> xex E t (xex D t p) = p.
  Proof.
    intros Ht Hp. unfold xex. rewrite xor_cancel_r.
    2:{ destruct (D_ok c Hc _ (X_ok c _ _ Hp Ht)), Ht; lia. }
    rewrite ED by (auto; apply X_ok; auto). apply xor_cancel_r. destruct Hp, Ht; lia.
  Qed.
  Lemma xts_chain_ok f t0 bs : (forall b, okb B b -> okb B (f b)) -> forall i, Forall (okb B) bs -> Forall (okb B) (xts_chain B f t0 i bs).
  Proof.
    intros Hf. induction bs as [|b t IH]; intros i H; cbn [xts_chain]; [constructor|]. inversion H; subst.
    constructor; auto. apply xex_ok; auto. apply tweak_ok.
  Qed.
  Lemma xts_chain_DE t0 bs : forall i, Forall (okb B) bs -> xts_chain B D t0 i (xts_chain B E t0 i bs) = bs.
  Proof.
    induction bs as [|b t IH]; intros i H; [reflexivity|]. inversion H; subst. cbn [xts_chain].
    rewrite xex_DE by (auto; apply tweak_ok). rewrite IH by auto. reflexivity.
  Qed.
  Lemma xts_chain_app f t0 l1 : forall i l2, xts_chain B f t0 i (l1 ++ l2) = xts_chain B f t0 i l1 ++ xts_chain B f t0 (i + length l1) l2.
  Proof.
    induction l1 as [|b t IH]; intros i l2; cbn [app xts_chain length]; [rewrite Nat.add_0_r; reflexivity|].
    rewrite IH. do 2 f_equal. f_equal. lia.
  Qed.
  Lemma xts_chain_length f t0 l : forall i, length (xts_chain B f t0 i l) = length l.
  Proof. induction l; intros i; cbn; auto. Qed.

  Lemma xts_encrypt_spec t0 prev bs i : okb B t0 -> Forall (fun b : list Z => length b = B) bs ->
    xts_encrypt c (tweak B t0 i, prev) (concat bs) = Some (concat (xts_chain B E t0 i bs), (tweak B t0 (i + length bs), prev)).
  Proof.
    intros H0 H. unfold xts_encrypt. rewrite aligned_concat by auto. f_equal.
    rewrite (block_loop_calls B (fun m b => let '(tweak, prev) := m in
      (torsion_memxor (E (torsion_memxor3 b tweak)) tweak, (xts_shift tweak, prev))) (B_pos c Hc)) by auto.
    clear H. revert i. induction bs as [|b t IH]; intros i; cbn [calls xts_chain length concat]; [rewrite Nat.add_0_r; reflexivity|].
    rewrite tweak_S by auto. rewrite IH. rewrite memxor_xorl, memxor3_xorl. unfold xex.
    do 2 f_equal. f_equal. lia.
  Qed.
  Lemma xts_decrypt_spec t0 bs : forall prev i, okb B t0 -> Forall (fun b : list Z => length b = B) bs ->
    xts_decrypt c (tweak B t0 i, prev) (concat bs) =
    Some (concat (xts_chain B D t0 i bs),
          (tweak B t0 (i + length bs), match bs with [] => prev | _ => tweak B t0 (i + length bs - 1) end)).
  Proof.
    intros prev i H0 H. unfold xts_decrypt. rewrite aligned_concat by auto. f_equal.
    set (step := fun _ _ _ => _). revert prev i. induction H as [|b t Hb Ht IH]; intros prev i.
    - cbn [concat xts_chain length]. rewrite block_loop_nil, Nat.add_0_r. reflexivity.
    - cbn [concat xts_chain]. rewrite block_loop_cons by (auto; apply (B_pos c Hc)).
      unfold step at 1. rewrite tweak_S by auto. rewrite memxor_xorl, memxor3_xorl.
      rewrite IH. unfold xex. f_equal. cbn [length].
      replace (i + S (length t))%nat with (S i + length t)%nat by lia. f_equal.
      destruct t as [|b' t'].
      + cbn [concat length]. rewrite app_nil_r, Hb, Nat.eqb_refl. f_equal. lia.
      + reflexivity.
  Qed.

  (* ---- stealing ---- *)
  Lemma firstn_skipn_swap (r ck block : list Z) : (length r <= B)%nat -> length ck = B ->
    firstn (length r) block = r -> swap_prefix (length r) ck block = (r ++ skipn (length r) ck, firstn (length r) ck ++ skipn (length r) block).
  Proof. intros H1 H2 H3. unfold swap_prefix. rewrite H3. reflexivity. Qed.

  Lemma cbc_steal_spec ck r block : okb B ck -> (length r < B)%nat -> firstn (length r) block = r ->
    let x := E (xorl ck (r ++ repeat 0 (B - length r))) in
    cbc_steal c ck ck block (length r) = Some (x, x, firstn (length r) ck ++ skipn (length r) block).
  Proof.
    intros [K1 K2] Hr Hb. unfold cbc_steal. destruct (Nat.ltb_spec (length r) B); [|lia].
    rewrite memxor_xorl, Hb. rewrite xorl_pad by lia. reflexivity.
  Qed.
  Lemma pad_ok r : bytes r -> (length r < B)%nat -> okb B (r ++ repeat 0 (B - length r)).
  Proof.
    intros Hb Hr. split; [rewrite app_length, repeat_length; lia|]. apply bytes_app. split; auto.
    apply bytes_repeat. unfold byte. lia.
  Qed.
  Lemma cbc_unsteal_spec cp ck r block : okb B cp -> okb B ck -> bytes r -> (length r < B)%nat ->
    firstn (length r) block = firstn (length r) ck ->
    let x := E (xorl ck (r ++ repeat 0 (B - length r))) in
    exists prev, cbc_unsteal c x (xorl (D x) cp) block (length r) =
      Some (prev, xorl (D ck) cp, r ++ skipn (length r) block).
  Proof.
    intros Hp Hk Hb Hr HB x. unfold cbc_unsteal. destruct (Nat.ltb_spec (length r) B); [|lia].
    pose proof (pad_ok r Hb Hr) as Hpad.
    assert (Hx : D x = xorl ck (r ++ repeat 0 (B - length r))) by (apply DE; auto; apply X_ok; auto).
    rewrite Hx. set (y := xorl ck (r ++ repeat 0 (B - length r))) in *.
    assert (Hy : okb B y) by (apply X_ok; auto).
    rewrite memxor3_xorl, !memxor_xorl. destruct Hp as [P1 P2], Hk as [K1 K2], Hy as [Y1 Y2].
    assert (T : xorl (xorl y cp) y = cp).
    { rewrite xorl_comm. apply xor_cancel_l. lia. }
    rewrite T. rewrite HB.
    assert (Hsk : skipn (length r) y = skipn (length r) ck).
    { unfold y. rewrite xorl_pad by lia. rewrite skipn_app_exact; [reflexivity|]. rewrite xorl_length, firstn_length. lia. }
    assert (Hfs : firstn (length r) y = xorl (firstn (length r) ck) r).
    { unfold y. rewrite xorl_pad by lia. apply firstn_app_exact. rewrite xorl_length, firstn_length. lia. }
    rewrite Hsk, firstn_skipn. exists y. rewrite Hfs.
    rewrite xor_cancel_l by (rewrite firstn_length; lia). reflexivity.
  Qed.

  Lemma xts_steal_spec t prev ck r block : (length r < B)%nat -> length ck = B -> firstn (length r) block = r ->
    xts_steal c (t, prev) ck block (length r) =
    Some (match r with [] => ck | _ => xex E t (r ++ skipn (length r) ck) end,
          match r with [] => block | _ => firstn (length r) ck ++ skipn (length r) block end).
  Proof.
    intros Hr Hk Hb. unfold xts_steal. destruct r as [|x r]; [reflexivity|].
    change (length (x :: r) =? 0)%nat with false. cbv iota. destruct (Nat.ltb_spec (length (x :: r)) B); [|lia].
    rewrite firstn_skipn_swap by (auto; lia). cbn [fst]. rewrite !memxor_xorl. reflexivity.
  Qed.
  Lemma xts_unsteal_spec t prev ck r block : okb B t -> okb B prev -> okb B ck -> bytes r -> r <> [] -> (length r < B)%nat ->
    firstn (length r) block = firstn (length r) ck ->
    xts_unsteal c (t, prev) (xex D prev (xex E t (r ++ skipn (length r) ck))) block (length r) =
    Some (xex D prev ck, r ++ skipn (length r) block).
  Proof.
    intros Ht Hp Hk Hb Hne Hr HB. unfold xts_unsteal. destruct (Nat.eqb_spec (length r) 0) as [E0|_]; [destruct r; [congruence|discriminate]|].
    destruct (Nat.ltb_spec (length r) B); [|lia]. rewrite !memxor_xorl.
    set (PP := r ++ skipn (length r) ck).
    assert (HPP : okb B PP).
    { destruct Hk as [K1 K2]. split; [unfold PP; rewrite app_length, skipn_length; lia|]. apply bytes_app. split; auto. apply bytes_skipn; auto. }
    assert (Hy : okb B (xex E t PP)) by (apply xex_ok; auto; apply E_ok; auto).
    change (xorl (E (xorl (xex D prev (xex E t PP)) prev)) prev) with (xex E prev (xex D prev (xex E t PP))).
    rewrite xex_ED by auto.
    change (xorl (D (xorl (xex E t PP) t)) t) with (xex D t (xex E t PP)). rewrite xex_DE by auto.
    unfold swap_prefix. rewrite HB.
    replace (skipn (length r) PP) with (skipn (length r) ck) by (unfold PP; rewrite skipn_app_exact; reflexivity).
    replace (firstn (length r) PP) with r by (unfold PP; rewrite firstn_app_exact; reflexivity).
    rewrite firstn_skipn, !memxor_xorl. reflexivity.
  Qed.
End Cipher.
