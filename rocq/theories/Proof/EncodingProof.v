(* base16, base32, base64 *)
From Verif.Base Require Import Prelude.
From Verif.Model Require Import Encoding.
From Verif.Spec Require Import EncodingSpec.

(* ---- arithmetic forms of the bit operations ---- *)
Lemma land_1 x : Z.land x 1 = x mod 2. Proof. apply (land_mask x 1). lia. Qed.
Lemma land_3 x : Z.land x 3 = x mod 4. Proof. apply (land_mask x 2). lia. Qed.
Lemma land_7 x : Z.land x 7 = x mod 8. Proof. apply (land_mask x 3). lia. Qed.
Lemma land_15 x : Z.land x 15 = x mod 16. Proof. apply (land_mask x 4). lia. Qed.
Lemma land_31 x : Z.land x 31 = x mod 32. Proof. apply (land_mask x 5). lia. Qed.
Lemma land_63 x : Z.land x 63 = x mod 64. Proof. apply (land_mask x 6). lia. Qed.

Ltac pow2lit :=
  repeat match goal with
  | |- context [2 ^ ?n] =>
      match n with
      | Zpos _ => let v := eval vm_compute in (2 ^ n) in change (2 ^ n) with v
      | Z0 => change (2 ^ 0) with 1
      end
  end.

Ltac bits2arith :=
  unfold shr, w8, M8, torsion_ascii in *;
  repeat rewrite ?land_1, ?land_3, ?land_7, ?land_15, ?land_31, ?land_63, ?land_255;
  repeat (rewrite shiftr_div by lia); repeat (rewrite shiftl_mul by lia); pow2lit.

Lemma lor_k a b n K : 2 ^ n = K -> 0 <= n -> 0 <= b < K -> Z.lor (a * K) b = a * K + b.
Proof. intros <- Hn Hb. apply lor_add_low; auto. Qed.

Ltac lor2add :=
  repeat match goal with
  | |- context [Z.lor (?a * ?K) ?b] =>
      let n := eval vm_compute in (Z.log2 K) in
      rewrite (lor_k a b n K) by (first [reflexivity | lia])
  end.

Lemma high_bit_testbit x : high_bit x = Z.testbit x 7.
Proof.
  unfold high_bit. change 0x80 with (2 ^ 7).
  destruct (Z.testbit x 7) eqn:E.
  - assert (Z.testbit (Z.land x (2 ^ 7)) 7 = true).
    { rewrite Z.land_spec, E, Z.pow2_bits_true by lia. reflexivity. }
    destruct (Z.eqb_spec (Z.land x (2 ^ 7)) 0) as [E0|]; auto.
    rewrite E0, Z.bits_0 in H. discriminate.
  - replace (Z.land x (2 ^ 7)) with 0; auto.
    symmetry. apply Z.bits_inj'. intros m Hm. rewrite Z.bits_0, Z.land_spec.
    rewrite Z.pow2_bits_eqb by lia. destruct (Z.eqb_spec 7 m) as [<-|]; [rewrite E|rewrite andb_false_r]; auto.
Qed.

Lemma high_bit_lor x y : high_bit (Z.lor x y) = high_bit x || high_bit y.
Proof. rewrite !high_bit_testbit. apply Z.lor_spec. Qed.

Lemma high_bit_small x : 0 <= x < 128 -> high_bit x = false.
Proof. intros. rewrite high_bit_testbit. apply (testbit_high x 7 7); lia. Qed.

(* ---- digit lists ---- *)
Lemma digits_app B n m x : 0 < B ->
  digits B (n + m) x = digits B n x ++ digits B m (x / B ^ Z.of_nat n).
Proof.
  intros HB. revert x. induction n as [|n IH]; intros x.
  - cbn [Nat.add digits app]. rewrite Z.pow_0_r, Z.div_1_r. reflexivity.
  - cbn [Nat.add digits app]. f_equal. rewrite IH. f_equal. f_equal.
    replace (Z.of_nat (S n)) with (1 + Z.of_nat n) by lia.
    rewrite Z.pow_add_r, Z.pow_1_r by lia.
    rewrite Z.div_div; auto; [lia|]. apply Z.pow_pos_nonneg; lia.
Qed.

Lemma digits_mod B n x : 0 < B -> digits B n (x mod B ^ Z.of_nat n) = digits B n x.
Proof.
  intros HB. apply (dval_inj B); auto using digits_below.
  - rewrite !digits_length. reflexivity.
  - rewrite !dval_digits by auto. apply Z.mod_mod. apply Z.pow_nonzero; lia.
Qed.

Lemma bedig_app B n m hi lo : 0 < B -> 0 <= lo < B ^ Z.of_nat m ->
  bedig B (n + m) (hi * B ^ Z.of_nat m + lo) = bedig B n hi ++ bedig B m lo.
Proof.
  intros HB Hlo. unfold bedig. rewrite Nat.add_comm, digits_app, rev_app_distr by auto.
  f_equal; f_equal.
  - f_equal. rewrite Z.div_add_l by (apply Z.pow_nonzero; lia). rewrite Z.div_small by lia. lia.
  - rewrite <- digits_mod by auto. rewrite Z.add_comm, Z.mod_add by (apply Z.pow_nonzero; lia).
    rewrite Z.mod_small by lia. reflexivity.
Qed.

Lemma bedig_unique B l x : 0 < B -> Forall (below B) l -> dval B (rev l) = x ->
  bedig B (length l) x = l.
Proof.
  intros HB Hl <-. unfold bedig. rewrite <- (rev_length l) at 1.
  rewrite digits_dval; auto using Forall_rev. apply rev_involutive.
Qed.

(* groups of whole digits split off *)
Lemma rfc_digits_group k g m rest : 0 < k -> bytes rest ->
  8 * Z.of_nat (length g) = k * Z.of_nat m ->
  rfc4648_digits k (g ++ rest) = bedig (2 ^ k) m (be_val g) ++ rfc4648_digits k rest.
Proof.
  intros Hk Hr Hg. unfold rfc4648_digits. rewrite app_length, Nat2Z.inj_add.
  set (R := 8 * Z.of_nat (length rest)).
  replace (8 * (Z.of_nat (length g) + Z.of_nat (length rest))) with (k * Z.of_nat m + R) by lia.
  assert (HR : 0 <= R) by lia.
  replace ((k * Z.of_nat m + R + k - 1) / k) with (Z.of_nat m + (R + k - 1) / k).
  2:{ replace (k * Z.of_nat m + R + k - 1) with (R + k - 1 + Z.of_nat m * k) by lia.
      rewrite Z.div_add by lia. lia. }
  set (n := (R + k - 1) / k).
  assert (Hn : R <= k * n /\ 0 <= n).
  { subst n. assert (0 <= (R + k - 1) / k) by (apply Z.div_pos; lia).
    pose proof (Z.div_mod (R + k - 1) k). pose proof (Z.mod_pos_bound (R + k - 1) k). lia. }
  rewrite Z2Nat.inj_add, Nat2Z.id by lia.
  replace (k * (Z.of_nat m + n) - (k * Z.of_nat m + R)) with (k * n - R) by lia.
  rewrite be_val_app, Z.mul_add_distr_r.
  pose proof (be_val_range rest Hr) as Hb.
  assert (E : 256 ^ Z.of_nat (length rest) = 2 ^ R).
  { change 256 with (2 ^ 8). rewrite <- Z.pow_mul_r by lia. reflexivity. }
  rewrite E in *.
  replace (be_val g * 2 ^ R * 2 ^ (k * n - R)) with (be_val g * (2 ^ k) ^ Z.of_nat (Z.to_nat n)).
  - apply bedig_app; [apply Z.pow_pos_nonneg; lia|].
    rewrite Z2Nat.id by lia. rewrite <- Z.pow_mul_r by lia.
    assert (EN : 2 ^ (k * n) = 2 ^ R * 2 ^ (k * n - R)) by (rewrite <- Z.pow_add_r by lia; f_equal; lia).
    rewrite EN. assert (0 < 2 ^ (k * n - R)) by (apply Z.pow_pos_nonneg; lia). nia.
  - rewrite Z2Nat.id by lia. rewrite <- Z.pow_mul_r by lia.
    assert (EN : 2 ^ (k * n) = 2 ^ R * 2 ^ (k * n - R)) by (rewrite <- Z.pow_add_r by lia; f_equal; lia).
    rewrite EN. ring.
Qed.

Lemma rfc_digits_nil k : 0 < k -> rfc4648_digits k [] = [].
Proof.
  intros. unfold rfc4648_digits. cbn [length]. change (8 * Z.of_nat 0) with 0.
  replace ((0 + k - 1) / k) with 0 by (symmetry; apply Z.div_small; lia). reflexivity.
Qed.

Lemma list_ind_step {A} (k : nat) (P : list A -> Prop) : (0 < k)%nat ->
  (forall l, (length l < k)%nat -> P l) ->
  (forall g l, length g = k -> P l -> P (g ++ l)) ->
  forall l, P l.
Proof.
  intros Hk H0 HS l. remember (length l) as n eqn:E. revert l E.
  induction n as [n IH] using lt_wf_ind; intros l E.
  destruct (Nat.ltb_spec (length l) k); [auto|].
  rewrite <- (firstn_skipn k l). apply HS.
  - rewrite firstn_length. lia.
  - apply (IH (length (skipn k l))); auto. rewrite skipn_length. lia.
Qed.

Ltac dlist l H := (* destruct list l with known length *)
  repeat match type of H with
  | length _ = S _ => destruct l as [|? l]; [discriminate H|]; cbn [length] in H; injection H as H
  end.

Ltac invbytes :=
  repeat match goal with
  | H : bytes (_ :: _) |- _ => apply bytes_cons in H; destruct H
  | H : bytes (_ ++ _) |- _ => apply bytes_app in H; destruct H
  end.

(* ------------------------------------------------------------------ *)
(* base16                                                              *)
(* ------------------------------------------------------------------ *)

Definition tab_ok (tb cs : list Z) (fold : Z -> Z) (K : Z) : bool :=
  forallb (fun c =>
    let v := tabval tb c in
    high_bit v || ((0 <=? v) && (v <? K) && (tab cs v =? fold c))) (zseq 0 256)
  && forallb (fun v => byteb (tab cs v) && negb (tab cs v =? 61) && (fold (tab cs v) =? tab cs v) &&
       forallb (fun c => implb (fold c =? tab cs v) (tabval tb c =? v)) (zseq 0 256))
     (zseq 0 (Z.to_nat K))
  && high_bit (tabval tb 61)
  && forallb (fun c => Bool.eqb (tab tb (torsion_ascii c) =? -1) (high_bit (tabval tb c))) (zseq 0 256)
  && forallb (fun c => Bool.eqb (fold c =? 61) (c =? 61)) (zseq 0 256)
  && forallb (fun c => high_bit (tabval tb c) || (tab tb (torsion_ascii c) =? tabval tb c)) (zseq 0 256).

Section TabOk.
  Variables (tb cs : list Z) (fold : Z -> Z) (K : Z).
  Hypothesis OK : tab_ok tb cs fold K = true.
  Hypothesis K128 : 0 <= K <= 128.

  Lemma tok_dec c : byte c -> high_bit (tabval tb c) = false ->
    0 <= tabval tb c < K /\ tab cs (tabval tb c) = fold c.
  Proof.
    intros Hc Hb. pose proof OK as O; unfold tab_ok in O; rewrite !andb_true_iff in O.
    destruct O as [[[[[H _] _] _] _] _]. pose proof (forall_byte _ H c Hc) as E. cbn beta zeta in E.
    rewrite Hb in E. cbn [orb] in E. lia.
  Qed.

  Lemma tok_enc c v : byte c -> 0 <= v < K -> fold c = tab cs v -> tabval tb c = v.
  Proof.
    intros Hc Hv E. pose proof OK as O; unfold tab_ok in O; rewrite !andb_true_iff in O.
    destruct O as [[[[[_ H] _] _] _] _].
    pose proof (forall_zseq _ _ _ H v ltac:(lia)) as G. cbn beta in G. rewrite !andb_true_iff in G.
    destruct G as [_ G]. pose proof (forall_byte _ G c Hc) as G2. cbn beta in G2.
    rewrite E, Z.eqb_refl in G2. cbn [implb] in G2. lia.
  Qed.

  Lemma tok_sym v : 0 <= v < K -> byte (tab cs v) /\ tab cs v <> 61 /\ fold (tab cs v) = tab cs v
     /\ tabval tb (tab cs v) = v.
  Proof.
    intros Hv. pose proof OK as O; unfold tab_ok in O; rewrite !andb_true_iff in O.
    destruct O as [[[[[_ H] _] _] _] _].
    pose proof (forall_zseq _ _ _ H v ltac:(lia)) as G. cbn beta in G. rewrite !andb_true_iff in G.
    destruct G as [[[G1 G2] G3] G]. rewrite byteb_spec in G1. repeat split; try lia; auto.
    - apply G1.
    - apply G1.
    - apply tok_enc; auto; lia.
  Qed.

  Lemma tok_eq : high_bit (tabval tb 61) = true.
  Proof. pose proof OK as O; unfold tab_ok in O; rewrite !andb_true_iff in O. tauto. Qed.

  Lemma tok_neg1 c : byte c -> (tab tb (torsion_ascii c) =? -1) = high_bit (tabval tb c).
  Proof.
    intros Hc. pose proof OK as O; unfold tab_ok in O; rewrite !andb_true_iff in O.
    destruct O as [[[_ H] _] _]. pose proof (forall_byte _ H c Hc) as E. cbn beta in E.
    apply eqb_prop in E. exact E.
  Qed.

  Lemma tok_fold61 c : byte c -> fold c = 61 <-> c = 61.
  Proof.
    intros Hc. pose proof OK as O; unfold tab_ok in O; rewrite !andb_true_iff in O.
    destruct O as [[_ H] _]. pose proof (forall_byte _ H c Hc) as E. cbn beta in E.
    apply eqb_prop in E. lia.
  Qed.

  Lemma tok_tab c : byte c -> high_bit (tabval tb c) = false -> tab tb (torsion_ascii c) = tabval tb c.
  Proof.
    intros Hc Hb. pose proof OK as O; unfold tab_ok in O; rewrite !andb_true_iff in O.
    destruct O as [_ H]. pose proof (forall_byte _ H c Hc) as E. cbn beta in E.
    rewrite Hb in E. cbn [orb] in E. lia.
  Qed.

  Lemma tok_hb v : 0 <= v < K -> high_bit v = false.
  Proof. intros. apply high_bit_small. lia. Qed.
End TabOk.

Lemma tab16_ok : tab_ok base16_table base16_charset lower 16 = true.
Proof. vm_compute. reflexivity. Qed.
Lemma tab32_ok : tab_ok base32_table base32_charset lower 32 = true.
Proof. vm_compute. reflexivity. Qed.
Lemma tab32hex_ok : tab_ok base32hex_table base32hex_charset lower 32 = true.
Proof. vm_compute. reflexivity. Qed.
Lemma tab64_ok : tab_ok base64_table base64_charset (fun c => c) 64 = true.
Proof. vm_compute. reflexivity. Qed.
Lemma tab64url_ok : tab_ok base64url_table base64url_charset (fun c => c) 64 = true.
Proof. vm_compute. reflexivity. Qed.
Lemma tab58_ok : tab_ok base58_table base58_charset (fun c => c) 58 = true.
Proof. vm_compute. reflexivity. Qed.

Lemma odd_even_list (s : list Z) : Nat.odd (length s) = false ->
  s = [] \/ exists a b t, s = a :: b :: t /\ Nat.odd (length t) = false.
Proof.
  destruct s as [|a [|b t]]; auto.
  - discriminate.
  - intros H. right. exists a, b, t. auto.
Qed.

Lemma nibble_join hi lo : 0 <= hi < 16 -> 0 <= lo < 16 ->
  w8 (Z.lor (Z.shiftl hi 4) lo) = hi * 16 + lo.
Proof. intros. bits2arith. lor2add. lia. Qed.

Lemma base16_loop_dec n s : length s = n -> bytes s -> Nat.odd (length s) = false ->
  forall z, let '(zf, out) := base16_decode_loop z s in
  high_bit zf = false -> high_bit z = false /\ bytes out /\ base16_encode out = map lower s.
Proof.
  revert s. induction n as [n IH] using lt_wf_ind; intros s HL Hs Ho z.
  destruct (odd_even_list s Ho) as [->|(a & b & t & -> & Ht)].
  - cbn. auto using bytes_nil.
  - invbytes. cbn [base16_decode_loop].
    specialize (IH (length t) ltac:(cbn [length] in HL; lia) t eq_refl ltac:(assumption) Ht
      (Z.lor z (Z.lor (tabval base16_table a) (tabval base16_table b)))).
    destruct (base16_decode_loop _ t) as [zf out]. intros Hf. destruct (IH Hf) as (Q1 & Q2 & Q3).
    rewrite !high_bit_lor in Q1. apply orb_false_iff in Q1 as [Hz Q1].
    apply orb_false_iff in Q1 as [Ha Hb].
    destruct (tok_dec _ _ _ _ tab16_ok a ltac:(assumption) Ha) as [Ra Ea].
    destruct (tok_dec _ _ _ _ tab16_ok b ltac:(assumption) Hb) as [Rb Eb].
    rewrite nibble_join by assumption. split; [assumption|]. split.
    + apply bytes_cons; split; auto. unfold byte. lia.
    + cbn [base16_encode map]. rewrite Q3. bits2arith.
      replace ((tabval base16_table a * 16 + tabval base16_table b) / 16) with (tabval base16_table a) by lia.
      replace ((tabval base16_table a * 16 + tabval base16_table b) mod 16) with (tabval base16_table b) by lia.
      rewrite Ea, Eb. reflexivity.
Qed.

Lemma base16_loop_enc out : bytes out -> forall s z, bytes s -> map lower s = base16_encode out ->
  high_bit z = false ->
  exists zf, base16_decode_loop z s = (zf, out) /\ high_bit zf = false.
Proof.
  induction 1 as [|o out Ho Hout IH]; intros s z Hs E Hz.
  - destruct s; [|discriminate]. exists z. auto.
  - cbn [base16_encode] in E. destruct s as [|a [|b t]]; try discriminate.
    cbn [map] in E. injection E as Ea Eb Et. invbytes. unfold byte in Ho.
    assert (Ra : tabval base16_table a = o / 16).
    { apply (tok_enc _ _ _ _ tab16_ok); auto; [lia|]. rewrite Ea. bits2arith. reflexivity. }
    assert (Rb : tabval base16_table b = o mod 16).
    { apply (tok_enc _ _ _ _ tab16_ok); auto; [lia|]. rewrite Eb. bits2arith. reflexivity. }
    cbn [base16_decode_loop]. rewrite Ra, Rb.
    destruct (IH t (Z.lor z (Z.lor (o / 16) (o mod 16)))) as (zf & E2 & Hf); auto.
    { rewrite !high_bit_lor, Hz, !high_bit_small by lia. reflexivity. }
    rewrite E2. exists zf. split; auto. rewrite nibble_join by lia. f_equal. f_equal. lia.
Qed.

Lemma base16_encode_length l : length (base16_encode l) = (2 * length l)%nat.
Proof. induction l; cbn [base16_encode length]; lia. Qed.

Lemma odd_double n : Nat.odd (2 * n) = false.
Proof. rewrite Nat.odd_mul. reflexivity. Qed.

Lemma base16_decode_iff s b : bytes s ->
  (base16_decode s = Some b <-> bytes b /\ map lower s = base16_encode b).
Proof.
  intros Hs. unfold base16_decode. split.
  - destruct (Nat.odd (length s)) eqn:Ho; [discriminate|].
    pose proof (base16_loop_dec _ s eq_refl Hs Ho 0) as H.
    destruct (base16_decode_loop 0 s) as [zf out].
    destruct (high_bit zf) eqn:Hf; [discriminate|]. intros E; injection E as <-.
    destruct (H eq_refl) as (_ & H1 & H2). auto.
  - intros [Hb E].
    assert (HL : length s = (2 * length b)%nat)
      by (rewrite <- base16_encode_length, <- E, map_length; reflexivity).
    rewrite HL, odd_double.
    destruct (base16_loop_enc b Hb s 0 Hs E eq_refl) as (zf & -> & ->). reflexivity.
Qed.

Lemma tab_sym cs alpha v : cs = alpha -> tab cs v = sym alpha v.
Proof. intros ->. reflexivity. Qed.

Lemma base16_encode_rfc b : bytes b -> base16_encode b = rfc4648 4 alpha16 b.
Proof.
  unfold rfc4648. induction 1 as [|x t Hx Ht IH].
  - rewrite rfc_digits_nil by lia. reflexivity.
  - change (x :: t) with ([x] ++ t). rewrite (rfc_digits_group 4 [x] 2 t) by (auto; cbn [length]; lia).
    rewrite map_app, <- IH. cbn [base16_encode app].
    unfold byte in Hx.
    replace (bedig (2 ^ 4) 2 (be_val [x])) with [x / 16; x mod 16].
    + cbn [map app]. bits2arith. reflexivity.
    + symmetry. apply (bedig_unique 16 [x / 16; x mod 16]); [lia| |].
      * repeat constructor; unfold below; lia.
      * unfold be_val. cbn [rev app dval]. lia.
Qed.

Lemma base16_test_loop_eq s : bytes s -> base16_test_loop s = forallb (fun c => negb (high_bit (tabval base16_table c))) s.
Proof.
  induction 1 as [|c t Hc Ht IH]; [reflexivity|]. cbn [base16_test_loop forallb].
  rewrite (tok_neg1 _ _ _ _ tab16_ok) by auto. destruct (high_bit _); cbn [negb andb]; auto.
Qed.

Lemma forallb_rev {A} (f : A -> bool) l : forallb f (rev l) = forallb f l.
Proof.
  induction l as [|x l IH]; [reflexivity|]. cbn [rev]. rewrite forallb_app, IH. cbn [forallb].
  rewrite andb_true_r. apply andb_comm.
Qed.

Lemma base16_dec_loop_hb n s : length s = n -> Nat.odd (length s) = false -> forall z,
  high_bit (fst (base16_decode_loop z s)) = 
  high_bit z || negb (forallb (fun c => negb (high_bit (tabval base16_table c))) s).
Proof.
  revert s. induction n as [n IH] using lt_wf_ind; intros s HL Ho z.
  destruct (odd_even_list s Ho) as [->|(a & b & t & -> & Ht)].
  - cbn. rewrite orb_false_r. reflexivity.
  - cbn [base16_decode_loop].
    specialize (IH (length t) ltac:(cbn [length] in HL; lia) t eq_refl Ht
      (Z.lor z (Z.lor (tabval base16_table a) (tabval base16_table b)))).
    destruct (base16_decode_loop _ t) as [zf out]. cbn [fst] in *. rewrite IH, !high_bit_lor.
    cbn [forallb]. destruct (high_bit z), (high_bit (tabval base16_table a)), (high_bit (tabval base16_table b)); reflexivity.
Qed.

Lemma base16_test_iff s : bytes s ->
  (base16_test s = true <-> exists b, base16_decode s = Some b).
Proof.
  intros Hs. unfold base16_test, base16_decode. destruct (Nat.odd (length s)) eqn:Ho.
  - split; [discriminate|]. intros [b H]; discriminate.
  - pose proof (base16_dec_loop_hb _ s eq_refl Ho 0) as H.
    rewrite base16_test_loop_eq, forallb_rev by (apply bytes_rev; auto).
    destruct (base16_decode_loop 0 s) as [zf out]. cbn [fst] in H. rewrite H.
    change (high_bit 0) with false. cbn [orb].
    destruct (forallb _ s); cbn [negb]; split; intros H1; try discriminate; eauto. destruct H1; discriminate.
Qed.

(* little-endian variant *)
Lemma base16le_loop_dec n s : length s = n -> bytes s -> Nat.odd (length s) = false ->
  forall z, let '(zf, out) := base16le_decode_loop z s in
  high_bit zf = false -> high_bit z = false /\ bytes out /\ rev (base16_encode (rev out)) = map lower s.
Proof.
  revert s. induction n as [n IH] using lt_wf_ind; intros s HL Hs Ho z.
  destruct (odd_even_list s Ho) as [->|(b & a & t & -> & Ht)].
  - cbn. auto using bytes_nil.
  - invbytes. cbn [base16le_decode_loop].
    specialize (IH (length t) ltac:(cbn [length] in HL; lia) t eq_refl ltac:(assumption) Ht
      (Z.lor z (Z.lor (tabval base16_table a) (tabval base16_table b)))).
    destruct (base16le_decode_loop _ t) as [zf out]. intros Hf. destruct (IH Hf) as (Q3 & Q4 & Q5).
    rewrite !high_bit_lor in Q3. apply orb_false_iff in Q3 as [Hz Q3].
    apply orb_false_iff in Q3 as [Ha Hb].
    destruct (tok_dec _ _ _ _ tab16_ok a ltac:(assumption) Ha) as [Ra Ea].
    destruct (tok_dec _ _ _ _ tab16_ok b ltac:(assumption) Hb) as [Rb Eb].
    rewrite nibble_join by assumption. split; [assumption|]. split.
    + apply bytes_cons; split; auto. unfold byte. lia.
    + cbn [map rev]. 
      assert (EA : forall x y, base16_encode (x ++ y) = base16_encode x ++ base16_encode y).
      { induction x as [|u x IHx]; intros y; [reflexivity|]. cbn [app base16_encode]. rewrite IHx. reflexivity. }
      rewrite EA, rev_app_distr, Q5. cbn [base16_encode rev app]. bits2arith.
      replace ((tabval base16_table a * 16 + tabval base16_table b) / 16) with (tabval base16_table a) by lia.
      replace ((tabval base16_table a * 16 + tabval base16_table b) mod 16) with (tabval base16_table b) by lia.
      rewrite Ea, Eb. reflexivity.
Qed.

Lemma base16_encode_app x y : base16_encode (x ++ y) = base16_encode x ++ base16_encode y.
Proof. induction x as [|u x IHx]; [reflexivity|]. cbn [app base16_encode]. rewrite IHx. reflexivity. Qed.

Lemma base16le_loop_enc out : bytes out -> forall s z, bytes s ->
  map lower s = rev (base16_encode (rev out)) -> high_bit z = false ->
  exists zf, base16le_decode_loop z s = (zf, out) /\ high_bit zf = false.
Proof.
  induction 1 as [|o out Ho Hout IH]; intros s z Hs E Hz.
  - destruct s; [|discriminate]. exists z. auto.
  - cbn [rev] in E. rewrite base16_encode_app, rev_app_distr in E. cbn [base16_encode rev app] in E.
    destruct s as [|b [|a t]]; try discriminate.
    cbn [map] in E. injection E as Eb Ea Et. invbytes. unfold byte in Ho.
    assert (Ra : tabval base16_table a = o / 16).
    { apply (tok_enc _ _ _ _ tab16_ok); auto; [lia|]. rewrite Ea. bits2arith. reflexivity. }
    assert (Rb : tabval base16_table b = o mod 16).
    { apply (tok_enc _ _ _ _ tab16_ok); auto; [lia|]. rewrite Eb. bits2arith. reflexivity. }
    cbn [base16le_decode_loop]. rewrite Ra, Rb.
    destruct (IH t (Z.lor z (Z.lor (o / 16) (o mod 16)))) as (zf & E2 & Hf); auto.
    { rewrite !high_bit_lor, Hz, !high_bit_small by lia. reflexivity. }
    rewrite E2. exists zf. split; auto. rewrite nibble_join by lia. f_equal. f_equal. lia.
Qed.

Lemma base16le_decode_iff s b : bytes s ->
  (base16le_decode s = Some b <-> bytes b /\ map lower s = base16le_encode b).
Proof.
  intros Hs. unfold base16le_decode, base16le_encode. split.
  - destruct (Nat.odd (length s)) eqn:Ho; [discriminate|].
    rewrite <- rev_length in Ho.
    pose proof (base16le_loop_dec _ (rev s) eq_refl (bytes_rev _ Hs) Ho 0) as H.
    destruct (base16le_decode_loop 0 (rev s)) as [zf out].
    destruct (high_bit zf) eqn:Hf; [discriminate|]. intros E; injection E as <-.
    destruct (H eq_refl) as (_ & H1 & H2). split; auto.
    rewrite map_rev in H2. apply (f_equal (@rev Z)) in H2. rewrite !rev_involutive in H2. auto.
  - intros [Hb E].
    assert (HL : length s = (2 * length b)%nat)
      by (rewrite <- (rev_length b), <- base16_encode_length, <- E, map_length; reflexivity).
    rewrite HL, odd_double.
    destruct (base16le_loop_enc b Hb (rev s) 0 (bytes_rev _ Hs)) as (zf & -> & ->); auto.
    rewrite map_rev, E. reflexivity.
Qed.

Lemma base16_encode_bytes b : bytes b -> bytes (base16_encode b).
Proof.
  induction 1 as [|x t Hx Ht IH]; [constructor|]. cbn [base16_encode]. unfold byte in Hx. bits2arith.
  constructor; [apply (tok_sym _ _ _ _ tab16_ok); lia|].
  constructor; [apply (tok_sym _ _ _ _ tab16_ok); lia|]. exact IH.
Qed.

Lemma base16_encode_lower b : bytes b -> map lower (base16_encode b) = base16_encode b.
Proof.
  induction 1 as [|x t Hx Ht IH]; [reflexivity|]. cbn [base16_encode map]. unfold byte in Hx. bits2arith.
  rewrite IH. f_equal; [apply (tok_sym _ _ _ _ tab16_ok); lia|].
  f_equal. apply (tok_sym _ _ _ _ tab16_ok); lia.
Qed.
