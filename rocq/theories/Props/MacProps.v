(* C21-C23: Poly1305 and SipHash *)
From Verif.Base Require Import Prelude.
From Verif.Model Require Import Bio Block Mac.
From Verif.Spec Require Import BlockSpec MacSpec.
From Verif.Proof Require Import BioProof BlockProof BufCrypt PolyProof Poly64 Poly32 PolyBuf SipProof.

(* ---- C21: the tag, for every key, message and chunking ---- *)
Theorem C21_poly1305_64 key chunks : bytes key -> length key = 32%nat -> bytes (concat chunks) ->
  poly64_final (fold_left poly64_update chunks (poly64_init key)) = poly1305 key (concat chunks).
Proof.
  intros Hk Hl Hc. apply poly64_rep_final; auto.
  apply (poly_rep_calls p64_block p64_tag (p64_init key) chunks [] (poly64_init key)).
  unfold as_buf, poly64_init. cbn [p_st p_block p_pos]. apply rep_init; [lia|reflexivity].
Qed.
Theorem C21_poly1305_32 key chunks : bytes key -> length key = 32%nat -> bytes (concat chunks) ->
  poly32_final (fold_left poly32_update chunks (poly32_init key)) = poly1305 key (concat chunks).
Proof.
  intros Hk Hl Hc. apply poly32_rep_final; auto.
  apply (poly_rep_calls p32_block p32_tag (p32_init key) chunks [] (poly32_init key)).
  unfold as_buf, poly32_init. cbn [p_st p_block p_pos]. apply rep_init; [lia|reflexivity].
Qed.
Example C21_ex :
  poly64_final (fold_left poly64_update [firstn 5 rfc_msg; []; firstn 20 (skipn 5 rfc_msg); skipn 25 rfc_msg] (poly64_init rfc_key))
    = poly1305 rfc_key rfc_msg /\
  poly1305 rfc_key rfc_msg = [0xa8;0x06;0x1d;0xc1;0x30;0x51;0x36;0xc6;0xc2;0x2b;0x8b;0xaf;0x0c;0x01;0x27;0xa9] /\
  poly32_final (fold_left poly32_update [rfc_msg] (poly32_init rfc_key)) = poly1305 rfc_key rfc_msg.
Proof. vm_compute. auto. Qed.

(* ---- C22: poly1305_pad, and the message encoding ---- *)
(* padding in the middle of a message is feeding zeros up to a multiple of 16 *)
Theorem C22_poly1305_pad_64 key x y : bytes key -> length key = 32%nat -> bytes (concat x) -> bytes (concat y) ->
  poly64_final (fold_left poly64_update y (poly64_pad (fold_left poly64_update x (poly64_init key)))) =
  poly1305 key (concat x ++ repeat 0 ((16 - length (concat x) mod 16) mod 16) ++ concat y).
Proof.
  intros Hk Hl Hx Hy. apply poly64_rep_final; auto.
  { rewrite !bytes_app. repeat split; auto. apply bytes_repeat. unfold byte; lia. }
  rewrite app_assoc. apply (poly_rep_calls p64_block p64_tag). apply (poly_pad_rep p64_block p64_tag (p64_init key) (concat x)).
  apply (poly_rep_calls p64_block p64_tag (p64_init key) x [] (poly64_init key)).
  unfold as_buf, poly64_init. cbn [p_st p_block p_pos]. apply rep_init; [lia|reflexivity].
Qed.
Theorem C22_poly1305_pad_32 key x y : bytes key -> length key = 32%nat -> bytes (concat x) -> bytes (concat y) ->
  poly32_final (fold_left poly32_update y (poly32_pad (fold_left poly32_update x (poly32_init key)))) =
  poly1305 key (concat x ++ repeat 0 ((16 - length (concat x) mod 16) mod 16) ++ concat y).
Proof.
  intros Hk Hl Hx Hy. apply poly32_rep_final; auto.
  { rewrite !bytes_app. repeat split; auto. apply bytes_repeat. unfold byte; lia. }
  rewrite app_assoc. apply (poly_rep_calls p32_block p32_tag). apply (poly_pad_rep p32_block p32_tag (p32_init key) (concat x)).
  apply (poly_rep_calls p32_block p32_tag (p32_init key) x [] (poly32_init key)).
  unfold as_buf, poly32_init. cbn [p_st p_block p_pos]. apply rep_init; [lia|reflexivity].
Qed.
Example C22_pad_ex :
  poly64_final (fold_left poly64_update [[9; 9]] (poly64_pad (fold_left poly64_update [[1]; [2; 3]] (poly64_init rfc_key)))) =
  poly1305 rfc_key ([1; 2; 3] ++ repeat 0 13 ++ [9; 9]).
Proof. vm_compute. reflexivity. Qed.

(* distinct messages are distinct polynomials: no two messages share their
   coefficients, whatever their lengths *)
Definition coefficients (m : list Z) : list Z := map (fun b => le_val (b ++ [1])) (poly_pieces m).
Lemma piece_inj a b : bytes a -> bytes b -> le_val (a ++ [1]) = le_val (b ++ [1]) -> a = b.
Proof.
  intros Ha Hb. revert b Hb. induction Ha as [|x a Hx Ha IH]; intros b Hb E.
  - destruct b as [|y b]; [reflexivity|]. exfalso. inversion Hb; subst. unfold le_val in E. cbn [app dval] in E.
    assert (P : 0 < dval 256 (b ++ [1])).
    { rewrite dval_app. cbn [dval]. pose proof (le_val_range b H2). pose proof (Z.pow_pos_nonneg 256 (Z.of_nat (length b))). unfold le_val in *. lia. }
    unfold byte in *. lia.
  - destruct b as [|y b].
    + exfalso. unfold le_val in E. cbn [app dval] in E.
      assert (P : 0 < dval 256 (a ++ [1])).
      { rewrite dval_app. cbn [dval]. pose proof (le_val_range a Ha). pose proof (Z.pow_pos_nonneg 256 (Z.of_nat (length a))). unfold le_val in *. lia. }
      unfold byte in *. lia.
    + inversion Hb; subst. unfold le_val in E. cbn [app dval] in E. unfold byte in *.
      assert (x = y /\ dval 256 (a ++ [1]) = dval 256 (b ++ [1])) as [-> E2] by lia. f_equal. apply IH; auto.
Qed.
Lemma pieces_concat m : concat (poly_pieces m) = m.
Proof.
  unfold poly_pieces. rewrite concat_app. replace (concat (match leftover 16 m with [] => [] | z :: l => [z :: l] end)) with (leftover 16 m).
  2:{ destruct (leftover 16 m); cbn [concat]; [reflexivity|rewrite app_nil_r; reflexivity]. }
  destruct (blocks_leftover 16 m ltac:(lia)) as [x [X1 [X2 X3]]]. rewrite <- X3.
  replace (concat (blocks 16 x)) with x; [auto|]. clear X1 X3. revert x X2. generalize (length m / 16)%nat. intros k.
  induction k as [|k IH]; intros x X.
  - destruct x; [reflexivity|discriminate X].
  - rewrite blocks_cons by lia. cbn [concat]. rewrite <- IH by (rewrite skipn_length; lia). symmetry. apply firstn_skipn.
Qed.
Theorem C22_coefficients_injective m n : bytes m -> bytes n -> coefficients m = coefficients n -> m = n.
Proof.
  intros Hm Hn E. rewrite <- (pieces_concat m), <- (pieces_concat n). f_equal.
  assert (B : forall z, bytes z -> Forall bytes (poly_pieces z)).
  { intros z Hz. unfold poly_pieces. apply Forall_app. split.
    - eapply Forall_impl; [|apply (blocks_ok 16 z ltac:(lia) Hz)]. intros a [_ Ha]. exact Ha.
    - pose proof (leftover_bytes 16 z Hz). destruct (leftover 16 z); [constructor|constructor; [auto|constructor]]. }
  unfold coefficients in E. pose proof (B m Hm) as BM. pose proof (B n Hn) as BN. revert E BN. generalize (poly_pieces n).
  induction BM as [|a t Ha Ht IH]; intros l E BN; destruct l as [|b l]; try discriminate E; [reflexivity|].
  cbn [map] in E. inversion BN; subst. assert (E1 := f_equal (hd 0) E). assert (E2 := f_equal (@tl Z) E). cbn [hd tl] in E1, E2.
  f_equal; [apply piece_inj; auto|apply IH; auto].
Qed.
(* a trailing zero byte is visible *)
Example C22_coefficients_ex : coefficients [1; 2; 3] <> coefficients [1; 2; 3; 0] /\ length (coefficients (repeat 7 33)) = 3%nat.
Proof. split; [vm_compute; discriminate|reflexivity]. Qed.

(* ---- C23: SipHash ---- *)
Theorem C23_siphash_2_4 data key : bytes data -> bytes key -> length key = 16%nat ->
  siphash_sum data key = siphash24 key data /\ 0 <= siphash_sum data key < 2 ^ 64.
Proof. apply siphash_sum_spec. Qed.
Example C23_siphash_ex : siphash_sum (zseq 0 15) (zseq 0 16) = 0xa129ca6149be45e5 /\
  siphash24 (zseq 0 16) (zseq 0 15) = 0xa129ca6149be45e5 /\
  siphash_sum [] (zseq 0 16) = siphash24 (zseq 0 16) [].
Proof. vm_compute. auto. Qed.

(* both multiplication branches compute floor(hash * m / 2^64) *)
Theorem C23_siphash_mod data key m : bytes data -> bytes key -> length key = 16%nat -> 0 <= m < 2 ^ 64 ->
  siphash_mod data key m = siphash24 key data * m / 2 ^ 64 /\
  siphash_mod_fallback data key m = siphash24 key data * m / 2 ^ 64 /\
  (0 < m -> 0 <= siphash_mod data key m < m).
Proof.
  intros Hd Hk Hl Hm. destruct (siphash_sum_spec data key Hd Hk Hl) as [E W]. rewrite <- E.
  assert (E1 : siphash_mod data key m = siphash_sum data key * m / 2 ^ 64) by (apply mulhi; auto).
  split; [exact E1|]. split; [apply mulhi_fallback; auto|]. intros P. rewrite E1. destruct W as [W1 W2].
  split; [apply Z.div_pos; nia|]. apply Z.div_lt_upper_bound; [lia|]. nia.
Qed.
Example C23_mod_ex : siphash_mod (zseq 0 15) (zseq 0 16) 1000 = 629 /\ siphash_mod_fallback (zseq 0 15) (zseq 0 16) 1000 = 629 /\
  siphash_mod_fallback (zseq 0 15) (zseq 0 16) 0xffffffffffffffff = siphash_mod (zseq 0 15) (zseq 0 16) 0xffffffffffffffff.
Proof. vm_compute. auto. Qed.

(* the one-word variants: the compression and finalisation of one 64-bit word *)
Theorem C23_siphash128 num key : 0 <= num < 2 ^ 64 -> bytes key -> length key = 16%nat ->
  siphash128_sum num key =
  sip_finish (sip_compress (sip_start (le_val (firstn 8 key)) (le_val (firstn 8 (skipn 8 key)))) num) /\
  0 <= siphash128_sum num key < 2 ^ 64.
Proof.
  intros Hn Hk Hl. unfold siphash128_sum. destruct (sip_init_words key Hk Hl) as [E W]. rewrite <- E.
  destruct (sip_word_spec _ num W Hn) as [E1 W1]. rewrite <- E1. apply sip_end_spec. exact W1.
Qed.

Theorem C23_siphash256 num key : 0 <= num < 2 ^ 64 -> bytes key -> length key = 32%nat ->
  let k i := le_val (firstn 8 (skipn (8 * i) key)) in
  siphash256_sum num key = sip_finish (sip_compress (k 0%nat, k 1%nat, k 2%nat, k 3%nat) num) /\
  0 <= siphash256_sum num key < 2 ^ 64.
Proof.
  intros Hn Hk Hl k. unfold siphash256_sum.
  assert (R : forall i, (i < 4)%nat -> read64le (skipn (8 * i) key) = k i /\ word (k i)).
  { intros i Hi. unfold k. rewrite read64le_firstn by (try apply bytes_skipn; auto; rewrite skipn_length; lia). split; [reflexivity|].
    apply le_val_word; [apply bytes_firstn, bytes_skipn; auto|rewrite firstn_length; lia]. }
  destruct (R 0%nat ltac:(lia)) as [R0 W0]. destruct (R 1%nat ltac:(lia)) as [R1 W1].
  destruct (R 2%nat ltac:(lia)) as [R2 W2]. destruct (R 3%nat ltac:(lia)) as [R3 W3].
  change (skipn (8 * 0) key) with key in R0. change (8 * 1)%nat with 8%nat in R1. change (8 * 2)%nat with 16%nat in R2. change (8 * 3)%nat with 24%nat in R3.
  rewrite R0, R1, R2, R3.
  assert (W : words4 (k 0%nat, k 1%nat, k 2%nat, k 3%nat)) by (unfold words4; auto).
  destruct (sip_word_spec _ num W Hn) as [E1 X1]. rewrite <- E1. apply sip_end_spec. exact X1.
Qed.
Example C23_256_ex : siphash256_sum 5 (zseq 0 32) =
  sip_finish (sip_compress (0x0706050403020100, 0x0f0e0d0c0b0a0908, 0x1716151413121110, 0x1f1e1d1c1b1a1918) 5) /\
  siphash128_sum 5 (zseq 0 16) <> siphash128_sum 6 (zseq 0 16).
Proof. split; vm_compute; [reflexivity|discriminate]. Qed.

(* the axioms of every theorem above, listed at once *)
Definition MacProps_all := (@C21_poly1305_64, @C21_poly1305_32, @C22_poly1305_pad_64, @C22_poly1305_pad_32, @C22_coefficients_injective, @C23_siphash_2_4,
  @C23_siphash_mod, @C23_siphash128, @C23_siphash256).
Print Assumptions MacProps_all.
