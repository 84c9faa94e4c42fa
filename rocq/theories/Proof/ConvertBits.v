(* Regrouping of bits (convert_bits) as arithmetic *)
From Verif.Base Require Import Prelude.
From Verif.Model Require Import Encoding Bech32.
From Verif.Spec Require Import EncodingSpec.
From Verif.Proof Require Import EncodingProof.

(* plain lia here: the products are nonlinear *)
#[local] Ltac Zify.zify_post_hook ::= idtac.

Lemma bedig_length B n x : length (bedig B n x) = n.
Proof. unfold bedig. rewrite rev_length. apply digits_length. Qed.
Lemma bedig_below B n x : 0 < B -> Forall (below B) (bedig B n x).
Proof. intros. apply Forall_rev, digits_below. auto. Qed.
Lemma bedig_mod B n x y : 0 < B -> x mod B ^ Z.of_nat n = y mod B ^ Z.of_nat n -> bedig B n x = bedig B n y.
Proof. intros HB E. unfold bedig. rewrite <- (digits_mod B n x), <- (digits_mod B n y), E by auto. reflexivity. Qed.
Lemma bedig_S B n x : bedig B (S n) x = bedig B n (x / B) ++ [x mod B].
Proof. reflexivity. Qed.
Lemma bedig_cons B n x : 0 < B -> bedig B (S n) x = (x / B ^ Z.of_nat n) mod B :: bedig B n x.
Proof.
  intros HB. unfold bedig. replace (S n) with (n + 1)%nat by lia. rewrite digits_app, rev_app_distr by auto.
  reflexivity.
Qed.

Lemma while_ok d acc fuel : 0 < d <= 8 -> forall bits, 0 <= bits <= Z.of_nat fuel -> 0 <= acc ->
  cb_while fuel d (Z.shiftl 1 d - 1) acc bits =
  (bedig (2 ^ d) (Z.to_nat (bits / d)) (acc / 2 ^ (bits mod d)), bits mod d).
Proof.
  intros Hd. induction fuel as [|fuel IH]; intros bits Hb Ha; cbn [cb_while].
  - replace bits with 0 by lia. rewrite Z.div_0_l, Z.mod_0_l by lia. reflexivity.
  - destruct (Z.leb_spec d bits).
    + rewrite IH by lia.
      replace (bits mod d) with ((bits - d) mod d).
      2:{ replace bits with (bits - d + 1 * d) at 2 by lia. rewrite Z.mod_add by lia. reflexivity. }
      f_equal.
      assert (E : bits / d = (bits - d) / d + 1).
      { replace bits with (bits - d + 1 * d) at 1 by lia. apply Z.div_add. lia. }
      rewrite E. set (q := (bits - d) / d). assert (0 <= q) by (apply Z.div_pos; lia).
      rewrite Z2Nat.inj_add by lia. replace (Z.to_nat q + Z.to_nat 1)%nat with (S (Z.to_nat q)) by lia.
      assert (P2 : 0 < 2 ^ d) by (apply Z.pow_pos_nonneg; lia).
      rewrite bedig_cons by lia. f_equal.
      rewrite shiftl_mul, Z.mul_1_l, land_mask by lia. unfold shr. rewrite shiftr_div by lia.
      rewrite Z2Nat.id by lia. rewrite <- Z.pow_mul_r by lia.
      pose proof (Z.mod_pos_bound (bits - d) d ltac:(lia)).
      assert (E2 : bits - d = (bits - d) mod d + d * q).
      { unfold q. pose proof (Z.div_mod (bits - d) d). lia. }
      assert (0 <= d * q) by (apply Z.mul_nonneg_nonneg; lia).
      rewrite Z.div_div; [|apply Z.pow_nonzero; lia|apply Z.pow_pos_nonneg; lia].
      rewrite <- Z.pow_add_r by lia. rewrite <- E2.
      unfold w8. apply Z.mod_small.
      pose proof (Z.mod_pos_bound (acc / 2 ^ (bits - d)) (2 ^ d) P2).
      assert (2 ^ d <= 2 ^ 8) by (apply Z.pow_le_mono_r; lia). unfold M8. lia.
    + rewrite Z.div_small, Z.mod_small by lia. reflexivity.
Qed.

Lemma regroup_step d q q2 r t Ln A acc1 D V z :
  0 < d -> 0 <= q -> 0 <= q2 -> 0 <= r -> 0 <= t -> 0 <= Ln ->
  0 <= d * q -> 0 <= d * q2 -> r + Ln = d * q2 + t -> d * q + r <= A -> 0 <= D < 2 ^ Ln ->
  V = acc1 * 2 ^ Ln + D + z * 2 ^ (A + Ln) ->
  bedig (2 ^ d) (Z.to_nat q) (acc1 / 2 ^ r) ++ bedig (2 ^ d) (Z.to_nat q2) ((acc1 * 2 ^ Ln + D) / 2 ^ t) =
  bedig (2 ^ d) (Z.to_nat (q + q2)) (V / 2 ^ t) /\
  (acc1 * 2 ^ Ln + D) mod 2 ^ t = V mod 2 ^ t.
Proof.
  intros Hd Hq Hq2 Hr Ht HLn Hdq Hdq2 E1 HA HD EV.
  assert (P2d : 0 < 2 ^ d) by (apply Z.pow_pos_nonneg; lia).
  assert (PT : 0 < 2 ^ t) by (apply Z.pow_pos_nonneg; lia).
  assert (PL : 0 < 2 ^ Ln) by (apply Z.pow_pos_nonneg; lia).
  assert (PR : 0 < 2 ^ r) by (apply Z.pow_pos_nonneg; lia).
  assert (PQ : 0 < 2 ^ (d * q2)) by (apply Z.pow_pos_nonneg; lia).
  assert (PQ1 : 0 < 2 ^ (d * q)) by (apply Z.pow_pos_nonneg; lia).
  set (V1 := acc1 * 2 ^ Ln + D) in *.
  assert (PB : forall k, 0 <= k -> (2 ^ d) ^ Z.of_nat (Z.to_nat k) = 2 ^ (d * k)).
  { intros k Hk. rewrite Z2Nat.id by lia. rewrite <- Z.pow_mul_r by lia. reflexivity. }
  assert (ES : V1 / 2 ^ t = acc1 / 2 ^ r * 2 ^ (d * q2) + (V1 / 2 ^ t) mod 2 ^ (d * q2)).
  { replace (acc1 / 2 ^ r) with (V1 / 2 ^ t / 2 ^ (d * q2)).
    - rewrite Z.mul_comm. apply Z.div_mod. lia.
    - rewrite Z.div_div by lia. rewrite <- Z.pow_add_r by lia.
      replace (t + d * q2) with (Ln + r) by lia. rewrite Z.pow_add_r by lia.
      rewrite <- Z.div_div by lia. unfold V1. rewrite Z.div_add_l by lia.
      rewrite (Z.div_small D) by lia. rewrite Z.add_0_r. reflexivity. }
  split.
  - rewrite (bedig_mod (2 ^ d) (Z.to_nat q2) (V1 / 2 ^ t) ((V1 / 2 ^ t) mod 2 ^ (d * q2)));
      [|exact P2d|rewrite PB by exact Hq2; symmetry; apply Z.mod_mod; clear - PQ; lia].
    rewrite Z2Nat.inj_add by lia.
    rewrite <- bedig_app; [|lia|rewrite PB by lia; apply Z.mod_pos_bound; lia].
    rewrite PB by lia. rewrite <- ES.
    apply bedig_mod; [lia|]. rewrite Nat2Z.inj_add, Z.pow_add_r, !PB by lia.
    rewrite EV.
    assert (E3 : 2 ^ (A + Ln) = 2 ^ (A - d * q - r) * (2 ^ (d * q) * 2 ^ (d * q2)) * 2 ^ t).
    { rewrite <- !Z.pow_add_r by lia. f_equal. lia. }
    rewrite E3. rewrite !Z.mul_assoc, Z.div_add by lia.
    rewrite <- (Z.mul_assoc _ (2 ^ (d * q)) (2 ^ (d * q2))). rewrite Z.mod_add; [reflexivity|]. lia.
  - rewrite EV.
    assert (E3 : 2 ^ (A + Ln) = 2 ^ (A - d * q - r + d * q + d * q2) * 2 ^ t).
    { rewrite <- !Z.pow_add_r by lia. f_equal. lia. }
    rewrite E3, Z.mul_assoc, Z.mod_add; [reflexivity|]. lia.
Qed.

(* all of the input consumed: T bits in total *)
Lemma loop_ok d s A src : 0 < d <= 8 -> 0 < s <= 8 -> s + d - 1 <= A ->
  Forall (below (2 ^ s)) src -> forall acc bits, 0 <= bits < d -> 0 <= acc ->
  let T := bits + s * Z.of_nat (length src) in
  let V := acc * 2 ^ (s * Z.of_nat (length src)) + dval (2 ^ s) (rev src) in
  exists acc', cb_loop d s (Z.shiftl 1 d - 1) (2 ^ A - 1) acc bits src =
    (bedig (2 ^ d) (Z.to_nat (T / d)) (V / 2 ^ (T mod d)), acc', T mod d) /\
    0 <= acc' /\ acc' mod 2 ^ (T mod d) = V mod 2 ^ (T mod d).
Proof.
  intros Hd Hs HA. induction 1 as [|x src Hx Hsrc IH]; intros acc bits Hb Ha T V.
  - exists acc. subst T V. cbn [length cb_loop rev dval]. rewrite Z.mul_0_r, Z.pow_0_r, Z.add_0_r, Z.mul_1_r, Z.add_0_r.
    rewrite Z.div_small, Z.mod_small by lia. auto.
  - cbn [cb_loop]. rewrite land_mask by lia. rewrite lor_shiftl_add by (try lia; exact Hx).
    set (acc1 := (acc * 2 ^ s + x) mod 2 ^ A).
    assert (PA : 0 < 2 ^ A) by (apply Z.pow_pos_nonneg; lia).
    assert (Ha1 : 0 <= acc1) by (apply Z.mod_pos_bound; lia).
    rewrite while_ok by lia. cbn zeta.
    pose proof (Z.mod_pos_bound (bits + s) d ltac:(lia)) as Hm.
    destruct (IH acc1 ((bits + s) mod d) Hm Ha1) as (acc' & E & Ha' & Em).
    set (n := length src) in *. set (Ln := s * Z.of_nat n) in *.
    assert (HLn : 0 <= Ln) by (subst Ln; clear - Hs; apply Z.mul_nonneg_nonneg; lia).
    (* T = (bits+s) + Ln *)
    assert (ET : T = bits + s + Ln) by (subst T Ln; cbn [length]; fold n; lia).
    assert (Eq : bits + s = d * ((bits + s) / d) + (bits + s) mod d) by (apply Z.div_mod; lia).
    set (q := (bits + s) / d) in *. set (r := (bits + s) mod d) in *.
    assert (Hq : 0 <= q) by (clear - Hb Hs Hd; apply Z.div_pos; lia).
    assert (ETm : T mod d = (r + Ln) mod d).
    { rewrite ET, Eq. replace (d * q + r + Ln) with (r + Ln + q * d) by lia. apply Z.mod_add. lia. }
    assert (ETd : T / d = q + (r + Ln) / d).
    { rewrite ET, Eq. replace (d * q + r + Ln) with (r + Ln + q * d) by lia. rewrite Z.div_add by lia. lia. }
    rewrite E, <- ETm. rewrite <- ETm in Em. exists acc'.
    set (t := T mod d) in *. assert (Ht : 0 <= t < d) by (apply Z.mod_pos_bound; lia).
    set (q2 := (r + Ln) / d) in *. assert (Hq2 : 0 <= q2) by (clear - Hm HLn Hd; apply Z.div_pos; lia).
    assert (Eq2 : r + Ln = d * q2 + t) by (unfold q2; rewrite ETm; apply Z.div_mod; lia).
    set (D := dval (2 ^ s) (rev src)) in *.
    assert (HD : 0 <= D < 2 ^ Ln).
    { subst D Ln. rewrite Z.pow_mul_r by lia. unfold n. rewrite <- rev_length. apply dval_range.
      - apply Z.pow_pos_nonneg; lia.
      - apply Forall_rev. exact Hsrc. }
    assert (EV : V = (acc * 2 ^ s + x) * 2 ^ Ln + D).
    { subst V. cbn [length rev]. fold n. rewrite dval_app. cbn [dval]. rewrite rev_length. fold n D.
      replace (s * Z.of_nat (S n)) with (s + Ln) by (subst Ln; lia).
      rewrite Z.pow_add_r by lia. subst Ln. rewrite Z.pow_mul_r by lia. ring. }
    assert (Hdq : 0 <= d * q) by (apply Z.mul_nonneg_nonneg; lia).
    assert (Hdq2 : 0 <= d * q2) by (apply Z.mul_nonneg_nonneg; lia).
    destruct (regroup_step d q q2 r t Ln A acc1 D V ((acc * 2 ^ s + x) / 2 ^ A)) as (R1 & R2);
      [clear - Hd; lia|exact Hq|exact Hq2|clear - Hm; lia|clear - Ht; lia|exact HLn|exact Hdq|exact Hdq2|exact Eq2| |exact HD| |].
    + clear - Eq Hb Hs HA. lia.
    + rewrite EV. unfold acc1. rewrite Z.pow_add_r by (clear - HA Hs Hd HLn; lia).
      rewrite (Z.div_mod (acc * 2 ^ s + x) (2 ^ A)) at 1 by (clear - PA; lia). ring.
    + split; [|split; [exact Ha'|rewrite Em; exact R2]]. rewrite ETd. f_equal. f_equal. exact R1.
Qed.

Lemma last_bits d acc bits : 0 < d <= 8 -> 0 <= bits < d -> 0 <= acc ->
  Z.land (Z.shiftl acc (d - bits)) (Z.shiftl 1 d - 1) = acc mod 2 ^ bits * 2 ^ (d - bits).
Proof.
  intros Hd Hb Ha. rewrite !shiftl_mul, Z.mul_1_l, land_mask by lia.
  replace (2 ^ d) with (2 ^ bits * 2 ^ (d - bits)) by (rewrite <- Z.pow_add_r by lia; f_equal; lia).
  rewrite Z.mul_mod_distr_r; [reflexivity| |]; apply Z.pow_nonzero; lia.
Qed.

(* 8 bits to 5, padded: RFC 4648 digits *)
Lemma convert_pad_ok A h : 12 <= A -> bytes h ->
  convert_bits (2 ^ A - 1) 5 h 8 true = Some (rfc4648_digits 5 h).
Proof.
  intros HA Hh. unfold convert_bits.
  destruct (loop_ok 5 8 A h ltac:(lia) ltac:(lia) ltac:(lia) Hh 0 0 ltac:(lia) ltac:(lia)) as (acc & E & Ha & Em).
  rewrite E. rewrite Z.mul_0_l, Z.add_0_l, Z.add_0_l in *. clear E. unfold rfc4648_digits, be_val.
  set (T := 8 * Z.of_nat (length h)) in *. assert (HT : 0 <= T) by lia.
  change (2 ^ 8) with 256 in *. set (V := dval 256 (rev h)) in *.
  pose proof (Z.mod_pos_bound T 5 ltac:(lia)) as Hm.
  pose proof (Z.div_mod T 5 ltac:(lia)) as DM.
  rewrite last_bits by lia. rewrite Em.
  set (q := T / 5) in *. set (t := T mod 5) in *. assert (Hq : 0 <= q) by lia.
  destruct (Z.eqb_spec t 0) as [E0|E0].
  - f_equal. replace ((T + 5 - 1) / 5) with q.
    + rewrite E0, Z.pow_0_r, Z.div_1_r. replace (5 * q - T) with 0 by lia. rewrite Z.pow_0_r, Z.mul_1_r. reflexivity.
    + apply Z.div_unique with (r := 4); lia.
  - f_equal. replace ((T + 5 - 1) / 5) with (q + 1).
    2:{ apply Z.div_unique with (r := t - 1); lia. }
    rewrite Z2Nat.inj_add by lia. replace (Z.to_nat q + Z.to_nat 1)%nat with (S (Z.to_nat q)) by lia.
    rewrite bedig_S. replace (5 * (q + 1) - T) with (5 - t) by lia.
    assert (P5 : 2 ^ 5 = 2 ^ t * 2 ^ (5 - t)) by (rewrite <- Z.pow_add_r by lia; f_equal; lia).
    assert (0 < 2 ^ t) by (apply Z.pow_pos_nonneg; lia).
    assert (0 < 2 ^ (5 - t)) by (apply Z.pow_pos_nonneg; lia).
    f_equal.
    + f_equal. rewrite P5. rewrite Z.div_mul_cancel_r by lia. reflexivity.
    + f_equal. rewrite P5, Z.mul_mod_distr_r by lia. unfold w8. apply Z.mod_small.
      pose proof (Z.mod_pos_bound V (2 ^ t) ltac:(lia)).
      assert (V mod 2 ^ t * 2 ^ (5 - t) < 2 ^ t * 2 ^ (5 - t)) by (apply Z.mul_lt_mono_pos_r; lia).
      split; [apply Z.mul_nonneg_nonneg; lia|]. rewrite <- P5 in *. unfold M8. lia.
Qed.

(* 5 bits to 8, unpadded: exactly the inverse relation *)
Lemma convert_nopad_ok A ds h : 12 <= A -> Forall (below 32) ds ->
  convert_bits (2 ^ A - 1) 8 ds 5 false = Some h <-> bytes h /\ ds = rfc4648_digits 5 h.
Proof.
  intros HA Hds. unfold convert_bits.
  destruct (loop_ok 8 5 A ds ltac:(lia) ltac:(lia) ltac:(lia) Hds 0 0 ltac:(lia) ltac:(lia)) as (acc & E & Ha & Em).
  rewrite E. rewrite Z.mul_0_l, Z.add_0_l, Z.add_0_l in *. clear E. change (2 ^ 5) with 32 in *. change (2 ^ 8) with 256 in *.
  pose proof (dval_range 32 (rev ds) ltac:(lia) (Forall_rev Hds)) as HV. rewrite rev_length in HV.
  set (T := 5 * Z.of_nat (length ds)) in *. assert (HT : 0 <= T) by lia.
  replace (32 ^ Z.of_nat (length ds)) with (2 ^ T) in HV by (subst T; rewrite Z.pow_mul_r by lia; reflexivity).
  set (V := dval 32 (rev ds)) in *.
  pose proof (Z.mod_pos_bound T 8 ltac:(lia)) as Hm.
  pose proof (Z.div_mod T 8 ltac:(lia)) as DM.
  rewrite last_bits by lia. rewrite Em.
  set (q := T / 8) in *. set (t := T mod 8) in *. assert (Hq : 0 <= q) by lia.
  assert (P8 : 0 < 2 ^ (8 - t)) by (apply Z.pow_pos_nonneg; lia).
  assert (Pt : 0 < 2 ^ t) by (apply Z.pow_pos_nonneg; lia).
  assert (PQ : 256 ^ Z.of_nat (Z.to_nat q) = 2 ^ (8 * q)).
  { rewrite Z2Nat.id by lia. change 256 with (2 ^ 8). rewrite <- Z.pow_mul_r by lia. reflexivity. }
  assert (HVq : 0 <= V / 2 ^ t < 2 ^ (8 * q)).
  { split; [apply Z.div_pos; lia|]. apply Z.div_lt_upper_bound; [lia|]. rewrite <- Z.pow_add_r by lia.
    replace (t + 8 * q) with T by lia. lia. }
  assert (Hcond : negb (V mod 2 ^ t * 2 ^ (8 - t) =? 0) || (5 <=? t) = false <-> V mod 2 ^ t = 0 /\ t < 5).
  { pose proof (Z.mod_pos_bound V (2 ^ t) ltac:(lia)).
    destruct (Z.eqb_spec (V mod 2 ^ t * 2 ^ (8 - t)) 0) as [Q|Q]; cbn [negb orb].
    - assert (V mod 2 ^ t = 0). { apply Z.mul_eq_0 in Q. destruct Q; lia. } lia.
    - split; [discriminate|]. intros (Q' & _). rewrite Q' in Q. lia. }
  (* the digits relation for a list h *)
  assert (HD : forall h', bytes h' -> (ds = rfc4648_digits 5 h' <->
     (Z.of_nat (length ds) = (8 * Z.of_nat (length h') + 4) / 5 /\ V = be_val h' * 2 ^ (T - 8 * Z.of_nat (length h'))))).
  { intros h' Hh'. unfold rfc4648_digits. change (2 ^ 5) with 32.
    replace (8 * Z.of_nat (length h') + 5 - 1) with (8 * Z.of_nat (length h') + 4) by lia.
    set (n := (8 * Z.of_nat (length h') + 4) / 5).
    assert (Hn : 0 <= n) by (apply Z.div_pos; lia).
    pose proof (Z.div_mod (8 * Z.of_nat (length h') + 4) 5 ltac:(lia)) as DM5. fold n in DM5.
    pose proof (Z.mod_pos_bound (8 * Z.of_nat (length h') + 4) 5 ltac:(lia)) as B5.
    pose proof (be_val_range h' Hh') as BV.
    replace (256 ^ Z.of_nat (length h')) with (2 ^ (8 * Z.of_nat (length h'))) in BV by (rewrite Z.pow_mul_r by lia; reflexivity).
    split.
    - intros Eds. assert (EL : Z.of_nat (length ds) = n). { rewrite Eds, bedig_length. lia. }
      split; [exact EL|]. subst V. rewrite Eds at 1. unfold bedig. rewrite rev_involutive, dval_digits by lia.
      replace (5 * n - 8 * Z.of_nat (length h')) with (T - 8 * Z.of_nat (length h')) by (unfold T; lia).
      apply Z.mod_small. rewrite Z2Nat.id by lia. change 32 with (2 ^ 5). rewrite <- Z.pow_mul_r by lia.
      replace (5 * n) with (8 * Z.of_nat (length h') + (T - 8 * Z.of_nat (length h'))) by (unfold T; lia).
      rewrite Z.pow_add_r by (unfold T; lia).
      assert (0 < 2 ^ (T - 8 * Z.of_nat (length h'))) by (apply Z.pow_pos_nonneg; unfold T; lia).
      split; [apply Z.mul_nonneg_nonneg; lia|]. apply Z.mul_lt_mono_pos_r; lia.
    - intros (EL & EV). symmetry. rewrite <- EL, Nat2Z.id. apply bedig_unique; [lia|exact Hds|].
      fold V. rewrite EV. unfold T. reflexivity. }
  split.
  - destruct (negb _ || _) eqn:EC; [discriminate|]. destruct (proj1 Hcond eq_refl) as (EV & Et).
    intros Eh. injection Eh as <-.
    assert (Bh : bytes (bedig 256 (Z.to_nat q) (V / 2 ^ t))) by (apply bytes_below, bedig_below; lia).
    split; [exact Bh|]. apply HD; [exact Bh|]. rewrite bedig_length. rewrite Z2Nat.id by lia.
    split; [apply Z.div_unique with (r := 4 - t); lia|].
    unfold be_val, bedig. rewrite rev_involutive, dval_digits, PQ by lia. rewrite Z.mod_small by lia.
    replace (T - 8 * q) with t by lia. rewrite (Z.div_mod V (2 ^ t)) at 1 by lia. rewrite EV. ring.
  - intros (Hh & Eds). apply HD in Eds; [|exact Hh]. destruct Eds as (EL & EV).
    pose proof (Z.div_mod (8 * Z.of_nat (length h) + 4) 5 ltac:(lia)) as DM5.
    pose proof (Z.mod_pos_bound (8 * Z.of_nat (length h) + 4) 5 ltac:(lia)) as B5.
    rewrite <- EL in DM5.
    set (L := Z.of_nat (length h)) in *.
    assert (Eq : q = L) by lia.
    assert (Ett : t = T - 8 * L) by lia.
    rewrite <- Ett in EV.
    assert (EC : negb (V mod 2 ^ t * 2 ^ (8 - t) =? 0) || (5 <=? t) = false).
    { apply Hcond. split; [|lia]. rewrite EV. apply Z.mod_mul. lia. }
    rewrite EC. f_equal. rewrite EV. rewrite Z.div_mul by lia.
    rewrite Eq. unfold L. rewrite Nat2Z.id. apply bedig_unique; [lia|apply bytes_below; exact Hh|reflexivity].
Qed.

Lemma rfc_digits_length h : Z.of_nat (length (rfc4648_digits 5 h)) = (8 * Z.of_nat (length h) + 4) / 5.
Proof.
  unfold rfc4648_digits. rewrite bedig_length, Z2Nat.id; [f_equal; lia|]. apply Z.div_pos; lia.
Qed.
Lemma rfc_digits_below h : Forall (below 32) (rfc4648_digits 5 h).
Proof. apply bedig_below. lia. Qed.
