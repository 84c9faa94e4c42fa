(* Writing words little-endian, and the byte-wise tail loop of keccak_final and blake2*_final *)
From Verif.Base Require Import Prelude.
From Verif.Model Require Import Bio.

Lemma nth_le_bytes k : forall n j, (j < k)%nat -> nth j (le_bytes k n) 0 = (n / 256 ^ Z.of_nat j) mod 256.
Proof.
  induction k as [|k IH]; intros n j H; [lia|]. unfold le_bytes in *. cbn [digits]. destruct j as [|j].
  - cbn [nth]. change (Z.of_nat 0) with 0. rewrite Z.pow_0_r, Z.div_1_r. reflexivity.
  - cbn [nth]. rewrite IH by lia. rewrite Z.div_div by lia. do 2 f_equal.
    rewrite Nat2Z.inj_succ, Z.pow_succ_r by lia. reflexivity.
Qed.
Lemma concat_le_length wb h : length (concat (map (le_bytes wb) h)) = (wb * length h)%nat.
Proof. induction h as [|a h IH]; cbn [map concat length]; [lia|]. rewrite app_length, le_bytes_length, IH. lia. Qed.
Lemma nth_concat_le wb : (0 < wb)%nat -> forall h j, (j < wb * length h)%nat ->
  nth j (concat (map (le_bytes wb) h)) 0 = (nth (j / wb) h 0 / 256 ^ Z.of_nat (j mod wb)) mod 256.
Proof.
  intros HW. induction h as [|a h IH]; intros j H; cbn [length] in H; [lia|]. cbn [map concat].
  destruct (Nat.lt_ge_cases j wb) as [L|L].
  - rewrite app_nth1 by (rewrite le_bytes_length; auto). rewrite Nat.div_small, Nat.mod_small by auto. cbn [nth]. apply nth_le_bytes. auto.
  - rewrite app_nth2 by (rewrite le_bytes_length; auto). rewrite le_bytes_length. rewrite IH by lia.
    replace (j / wb)%nat with (S ((j - wb) / wb)).
    2:{ replace j with (j - wb + 1 * wb)%nat at 2 by lia. rewrite Nat.div_add by lia. lia. }
    replace (j mod wb)%nat with ((j - wb) mod wb)%nat.
    2:{ replace j with (j - wb + 1 * wb)%nat at 2 by lia. rewrite Nat.mod_add by lia. auto. }
    reflexivity.
Qed.
Lemma map_nth_seq (h : list Z) : forall n, (n <= length h)%nat -> map (fun i => nth i h 0) (seq 0 n) = firstn n h.
Proof.
  intros n H. apply (list_eq_nth 0).
  - rewrite map_length, seq_length, firstn_length. lia.
  - intros i Hi. rewrite map_length, seq_length in Hi.
    rewrite (nth_indep _ 0 (nth 0 h 0)) by (rewrite map_length, seq_length; auto).
    rewrite (map_nth (fun i => nth i h 0)), seq_nth by auto. cbn [Nat.add].
    rewrite <- (firstn_skipn n h) at 1. rewrite app_nth1 by (rewrite firstn_length; lia). reflexivity.
Qed.
Lemma concat_firstn wb h n : (n <= length h)%nat -> concat (map (le_bytes wb) (firstn n h)) = firstn (wb * n) (concat (map (le_bytes wb) h)).
Proof.
  intros H. rewrite <- (firstn_skipn n h) at 2. rewrite map_app, concat_app.
  symmetry. apply firstn_app_exact. rewrite concat_le_length, firstn_length. rewrite Nat.min_l by auto. reflexivity.
Qed.
Lemma words_tail wb write h len : (0 < wb)%nat -> (forall v, write v = le_bytes wb v) -> (len <= wb * length h)%nat ->
  let count := (len / wb)%nat in
  concat (map (fun i => write (nth i h 0)) (seq 0 count)) ++
  map (fun i => Z.land (shr (nth (i / wb) h 0) (8 * Z.of_nat (i mod wb))) 0xff) (seq (count * wb) (len - count * wb)) =
  firstn len (concat (map (le_bytes wb) h)).
Proof.
  intros HW HE HL count.
  pose proof (Nat.mul_div_le len wb ltac:(lia)) as HD. fold count in HD.
  assert (HC : (count <= length h)%nat) by nia.
  rewrite (map_ext _ (fun i => le_bytes wb (nth i h 0))) by (intros; apply HE).
  rewrite <- (map_map (fun i => nth i h 0) (le_bytes wb)), map_nth_seq by auto. rewrite concat_firstn by auto.
  replace (firstn len (concat (map (le_bytes wb) h))) with
    (firstn (wb * count) (concat (map (le_bytes wb) h)) ++ firstn (len - count * wb) (skipn (wb * count) (concat (map (le_bytes wb) h)))).
  2:{ rewrite <- (firstn_skipn (wb * count) (concat (map (le_bytes wb) h))) at 3. rewrite firstn_app.
      rewrite firstn_firstn, firstn_length, concat_le_length. f_equal; [f_equal; lia|]. f_equal. nia. }
  f_equal. apply (list_eq_nth 0).
  - rewrite map_length, seq_length, firstn_length, skipn_length, concat_le_length. nia.
  - intros i Hi. rewrite map_length, seq_length in Hi.
    set (f := fun i => Z.land (shr (nth (i / wb) h 0) (8 * Z.of_nat (i mod wb))) 0xff).
    rewrite (nth_indep _ 0 (f 0%nat)) by (rewrite map_length, seq_length; auto).
    rewrite map_nth, seq_nth by auto.
    assert (E : nth i (firstn (len - count * wb) (skipn (wb * count) (concat (map (le_bytes wb) h)))) 0 = nth (count * wb + i) (concat (map (le_bytes wb) h)) 0).
    { set (L := concat (map (le_bytes wb) h)). rewrite <- (firstn_skipn (wb * count) L) at 2.
      rewrite app_nth2 by (unfold L; rewrite firstn_length, concat_le_length; nia).
      replace (count * wb + i - length (firstn (wb * count) L))%nat with i by (unfold L; rewrite firstn_length, concat_le_length; nia).
      rewrite <- (firstn_skipn (len - count * wb) (skipn (wb * count) L)) at 2.
      rewrite app_nth1; [reflexivity|]. unfold L. rewrite firstn_length, skipn_length, concat_le_length. nia. }
    rewrite E, nth_concat_le by nia. unfold f, shr.
    rewrite Z.shiftr_div_pow2 by lia. change 255 with (2 ^ 8 - 1). rewrite land_mask by lia. change (2 ^ 8) with 256.
    do 2 f_equal. rewrite Z.pow_mul_r by lia. reflexivity.
Qed.
