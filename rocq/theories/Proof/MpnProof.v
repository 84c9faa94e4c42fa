(* The limb arithmetic of mpi.c computes with the numbers the limb arrays stand for. *)
From Verif.Base Require Import Prelude.
From Verif.Model Require Import Encoding Mpn.

Lemma Forall_firstn : forall (A : Type) (P : A -> Prop) n (l : list A), Forall P l -> Forall P (firstn n l).
Proof. intros A P n l H. rewrite <- (firstn_skipn n l) in H. apply Forall_app in H. apply H. Qed.
Lemma Forall_skipn : forall (A : Type) (P : A -> Prop) n (l : list A), Forall P l -> Forall P (skipn n l).
Proof. intros A P n l H. rewrite <- (firstn_skipn n l) in H. apply Forall_app in H. apply H. Qed.

Section MpnProof.
Variable w : Z.
Hypothesis Hw : 0 < w.
Notation B := (LB w).
Notation tr := (tr w).
Notation limb := (below B).
Notation limbs := (Forall (below B)).
Notation val := (dval B).

Lemma LB_ge2 : 2 <= B.
Proof.
  unfold LB. change 2 with (2 ^ 1) at 1. apply Z.pow_le_mono_r; lia.
Qed.
Lemma tr_range : forall a, limb (tr a).
Proof. intros a. pose proof LB_ge2. unfold below, Mpn.tr. apply Z.mod_pos_bound. lia. Qed.
Lemma tr_small : forall a, limb a -> tr a = a.
Proof. intros a H. unfold Mpn.tr. apply Z.mod_small. exact H. Qed.
Lemma tr_eq : forall a k, limb (a + k * B) -> tr a = a + k * B.
Proof.
  intros a k H. pose proof LB_ge2. unfold Mpn.tr. rewrite <- (Z.mod_add a k) by lia. apply Z.mod_small. exact H.
Qed.
Lemma tr_cases : forall a, - B <= a < 2 * B ->
  (tr a = a /\ 0 <= a < B) \/ (tr a = a - B /\ B <= a) \/ (tr a = a + B /\ a < 0).
Proof.
  intros a H. destruct (Z_lt_dec a 0).
  - right. right. split; [|lia]. rewrite (tr_eq a 1); unfold below; lia.
  - destruct (Z_lt_dec a B).
    + left. split; [|lia]. apply tr_small. unfold below. lia.
    + right. left. split; [|lia]. rewrite (tr_eq a (-1)); unfold below; lia.
Qed.
Lemma tr_mod : forall a, exists k, tr a = a + k * B.
Proof.
  intros a. exists (- (a / B)). unfold Mpn.tr. pose proof (Z.div_mod a B). pose proof LB_ge2. lia.
Qed.

Ltac trc a := let H := fresh "Ht" in destruct (tr_cases a) as [[H ?]|[[H ?]|[H ?]]]; [lia| | |]; rewrite ?H.

Definition carry (c : Z) := 0 <= c <= 1.

Lemma b2z_ltb : forall a b, Z.b2z (a <? b) = if Z_lt_dec a b then 1 else 0.
Proof. intros a b. destruct (Z_lt_dec a b); destruct (Z.ltb_spec a b); simpl; lia. Qed.
Lemma b2z_gtb : forall a b, Z.b2z (a >? b) = if Z_lt_dec b a then 1 else 0.
Proof. intros a b. rewrite Z.gtb_ltb. apply b2z_ltb. Qed.

Ltac bz := rewrite ?b2z_ltb, ?b2z_gtb; repeat match goal with |- context [Z_lt_dec ?a ?b] => destruct (Z_lt_dec a b) end.

Lemma mp_add_spec : forall x y, limb x -> limb y ->
  let '(z, c) := mp_add w x y in limb z /\ carry c /\ z + B * c = x + y.
Proof.
  intros x y Hx Hy. pose proof LB_ge2. unfold below in *. unfold mp_add, carry.
  trc (x + y); bz; lia.
Qed.
Lemma mp_sub_spec : forall x y, limb x -> limb y ->
  let '(z, c) := mp_sub w x y in limb z /\ carry c /\ z - B * c = x - y.
Proof.
  intros x y Hx Hy. pose proof LB_ge2. unfold below in *. unfold mp_sub, carry.
  trc (x - y); bz; lia.
Qed.
Lemma mp_add_1_spec : forall c x y, carry c -> limb x -> limb y ->
  let '(z, c') := mp_add_1 w c x y in limb z /\ carry c' /\ z + B * c' = x + y + c.
Proof.
  intros c x y Hc Hx Hy. pose proof LB_ge2. unfold below, carry in *. unfold mp_add_1.
  trc (y + c); [trc (y + c + x)|trc (y + c - B + x)|]; bz; lia.
Qed.
Lemma mp_sub_1_spec : forall c x y, carry c -> limb x -> limb y ->
  let '(z, c') := mp_sub_1 w c x y in limb z /\ carry c' /\ z - B * c' = x - y - c.
Proof.
  intros c x y Hc Hx Hy. pose proof LB_ge2. unfold below, carry in *. unfold mp_sub_1.
  trc (y + c); [trc (x - (y + c))|trc (x - (y + c - B))|]; bz; lia.
Qed.
Lemma mp_mul_spec : forall x y, limb x -> limb y ->
  let '(hi, lo) := mp_mul w x y in limb hi /\ limb lo /\ hi * B + lo = x * y /\ hi <= B - 2 /\ (hi = B - 2 -> lo <= 1).
Proof.
  intros x y Hx Hy. pose proof LB_ge2. unfold mp_mul, Mpn.tr. unfold below in *.
  pose proof (Z.div_mod (x * y) B). pose proof (Z.mod_pos_bound (x * y) B).
  assert (x * y <= (B - 1) * (B - 1)) by nia.
  assert (0 <= x * y) by nia.
  assert (0 <= x * y / B) by (apply Z.div_pos; lia).
  assert (x * y / B <= B - 2) by nia. repeat split; try lia; nia.
Qed.
Lemma mp_mul_1_spec : forall c x y, limb c -> limb x -> limb y ->
  let '(z, c') := mp_mul_1 w c x y in limb z /\ limb c' /\ z + B * c' = x * y + c.
Proof.
  intros c x y Hc Hx Hy. pose proof (mp_mul_spec x y Hx Hy) as M. pose proof LB_ge2. unfold mp_mul_1.
  destruct (mp_mul w x y) as [hi lo]. destruct M as (M1 & M2 & M3 & M4 & M5). unfold below in *.
  trc (lo + c); bz; try lia;
   match goal with |- context [Mpn.tr w (hi + ?k)] => trc (hi + k) end; lia.
Qed.
Lemma mp_addmul_1_spec : forall c z x y, limb c -> limb z -> limb x -> limb y ->
  let '(z', c') := mp_addmul_1 w c z x y in limb z' /\ limb c' /\ z' + B * c' = z + x * y + c.
Proof.
  intros c z x y Hc Hz Hx Hy. pose proof (mp_mul_spec x y Hx Hy) as M. pose proof LB_ge2. unfold mp_addmul_1.
  destruct (mp_mul w x y) as [hi lo]. destruct M as (M1 & M2 & M3 & M4 & M5). unfold below in *.
  assert (M6 : hi = B - 2 -> lo <= 1) by exact M5. clear M5. rewrite <- M3. clear M3.
  trc (lo + c); bz; try lia;
   match goal with |- context [Mpn.tr w (hi + ?k)] => trc (hi + k) end; try lia;
   match goal with |- context [Mpn.tr w (?l + z)] => trc (l + z) end; bz; try lia;
   match goal with |- context [Mpn.tr w (?h + ?k)] => trc (h + k) end; lia.
Qed.
Lemma mp_submul_1_spec : forall c z x y, limb c -> limb z -> limb x -> limb y ->
  let '(z', c') := mp_submul_1 w c z x y in limb z' /\ limb c' /\ z' - B * c' = z - x * y - c.
Proof.
  intros c z x y Hc Hz Hx Hy. pose proof (mp_mul_spec x y Hx Hy) as M. pose proof LB_ge2. unfold mp_submul_1.
  destruct (mp_mul w x y) as [hi lo]. destruct M as (M1 & M2 & M3 & M4 & M5). unfold below in *.
  assert (M6 : hi = B - 2 -> lo <= 1) by exact M5. clear M5. rewrite <- M3. clear M3.
  trc (lo + c); bz; try lia;
   match goal with |- context [Mpn.tr w (hi + ?k)] => trc (hi + k) end; try lia;
   match goal with |- context [Mpn.tr w (z - ?l)] => trc (z - l) end; bz; try lia;
   match goal with |- context [Mpn.tr w (?h + ?k)] => trc (h + k) end; lia.
Qed.
Lemma mp_neg_1_spec : forall c x, carry c -> limb x ->
  let '(z, c') := mp_neg_1 w c x in limb z /\ carry c' /\ z + B * c' = B - 1 - x + c.
Proof.
  intros c x Hc Hx. pose proof LB_ge2. unfold below, carry in *. unfold mp_neg_1.
  trc (B - 1 - x + c); bz; lia.
Qed.

Lemma val_cons : forall x l, val (x :: l) = x + B * val l.
Proof. reflexivity. Qed.
Lemma Bpow_S : forall n, B ^ Z.of_nat (S n) = B * B ^ Z.of_nat n.
Proof. intros n. rewrite Nat2Z.inj_succ, Z.pow_succ_r; lia. Qed.
Lemma Bpow_pos : forall n, 0 < B ^ Z.of_nat n.
Proof. intros n. pose proof LB_ge2. apply Z.pow_pos_nonneg; lia. Qed.
Lemma val_range : forall l, limbs l -> 0 <= val l < B ^ Z.of_nat (length l).
Proof. intros l H. pose proof LB_ge2. apply dval_range; [lia|exact H]. Qed.

Lemma add_1_spec : forall xs c, limbs xs -> limb c -> (xs = [] -> carry c) ->
  let '(zs, c') := mpn_add_1 w xs c in
  length zs = length xs /\ limbs zs /\ carry c' /\ val zs + B ^ Z.of_nat (length xs) * c' = val xs + c.
Proof.
  induction xs as [|x xs IH]; intros c Hx Hc Hn.
  - cbn [mpn_add_1 length dval]. change (B ^ Z.of_nat 0) with 1. repeat split; try constructor; try (apply Hn; reflexivity). lia.
  - cbn [mpn_add_1]. pose proof (Forall_inv Hx) as H1. pose proof (Forall_inv_tail Hx) as H2.
    destruct (Z.eqb_spec c 0) as [E|E]; cbn [negb].
    + subst c. repeat split; try assumption; try (unfold carry; lia).
    + pose proof (mp_add_spec x c H1 Hc) as M. unfold mp_add in M. cbv zeta. destruct M as (M1 & M2 & M3).
      remember (Mpn.tr w (x + c)) as z eqn:Ez. clear Ez. remember (Z.b2z (z <? c)) as c1 eqn:E1. clear E1.
      pose proof LB_ge2.
      specialize (IH c1 H2). destruct (mpn_add_1 w xs c1) as [zs c'].
      destruct IH as (I1 & I2 & I3 & I4); [unfold carry, below in *; lia|intros _; exact M2|].
      cbn [length]. rewrite Bpow_S, !val_cons. repeat split; try (constructor; assumption); try lia; try apply I3.
Qed.
Lemma sub_1_spec : forall xs c, limbs xs -> limb c -> (xs = [] -> carry c) ->
  let '(zs, c') := mpn_sub_1 w xs c in
  length zs = length xs /\ limbs zs /\ carry c' /\ val zs - B ^ Z.of_nat (length xs) * c' = val xs - c.
Proof.
  induction xs as [|x xs IH]; intros c Hx Hc Hn.
  - cbn [mpn_sub_1 length dval]. change (B ^ Z.of_nat 0) with 1. repeat split; try constructor; try (apply Hn; reflexivity). lia.
  - cbn [mpn_sub_1]. pose proof (Forall_inv Hx) as H1. pose proof (Forall_inv_tail Hx) as H2.
    destruct (Z.eqb_spec c 0) as [E|E]; cbn [negb].
    + subst c. repeat split; try assumption; try (unfold carry; lia).
    + pose proof (mp_sub_spec x c H1 Hc) as M. unfold mp_sub in M. cbv zeta. destruct M as (M1 & M2 & M3).
      remember (Mpn.tr w (x - c)) as z eqn:Ez. clear Ez. remember (Z.b2z (z >? x)) as c1 eqn:E1. clear E1.
      pose proof LB_ge2.
      specialize (IH c1 H2). destruct (mpn_sub_1 w xs c1) as [zs c'].
      destruct IH as (I1 & I2 & I3 & I4); [unfold carry, below in *; lia|intros _; exact M2|].
      cbn [length]. rewrite Bpow_S, !val_cons. repeat split; try (constructor; assumption); try lia; try apply I3.
Qed.

Lemma add_n_loop_spec : forall xs ys c, limbs xs -> limbs ys -> length xs = length ys -> carry c ->
  let '(zs, c') := add_n_loop w c xs ys in
  length zs = length xs /\ limbs zs /\ carry c' /\ val zs + B ^ Z.of_nat (length xs) * c' = val xs + val ys + c.
Proof.
  induction xs as [|x xs IH]; intros [|y ys] c Hx Hy Hl Hc; try discriminate Hl.
  - cbn [add_n_loop length dval]. change (B ^ Z.of_nat 0) with 1. repeat split; try constructor; try apply Hc. lia.
  - cbn [add_n_loop]. pose proof (mp_add_1_spec c x y Hc (Forall_inv Hx) (Forall_inv Hy)) as M.
    destruct (mp_add_1 w c x y) as [z c1]. destruct M as (M1 & M2 & M3).
    specialize (IH ys c1 (Forall_inv_tail Hx) (Forall_inv_tail Hy) ltac:(now injection Hl) M2).
    destruct (add_n_loop w c1 xs ys) as [zs c']. destruct IH as (I1 & I2 & I3 & I4).
    cbn [length]. rewrite Bpow_S, !val_cons. repeat split; try (constructor; assumption); try lia; try apply I3.
Qed.
Lemma sub_n_loop_spec : forall xs ys c, limbs xs -> limbs ys -> length xs = length ys -> carry c ->
  let '(zs, c') := sub_n_loop w c xs ys in
  length zs = length xs /\ limbs zs /\ carry c' /\ val zs - B ^ Z.of_nat (length xs) * c' = val xs - val ys - c.
Proof.
  induction xs as [|x xs IH]; intros [|y ys] c Hx Hy Hl Hc; try discriminate Hl.
  - cbn [sub_n_loop length dval]. change (B ^ Z.of_nat 0) with 1. repeat split; try constructor; try apply Hc. lia.
  - cbn [sub_n_loop]. pose proof (mp_sub_1_spec c x y Hc (Forall_inv Hx) (Forall_inv Hy)) as M.
    destruct (mp_sub_1 w c x y) as [z c1]. destruct M as (M1 & M2 & M3).
    specialize (IH ys c1 (Forall_inv_tail Hx) (Forall_inv_tail Hy) ltac:(now injection Hl) M2).
    destruct (sub_n_loop w c1 xs ys) as [zs c']. destruct IH as (I1 & I2 & I3 & I4).
    cbn [length]. rewrite Bpow_S, !val_cons. repeat split; try (constructor; assumption); try lia; try apply I3.
Qed.
Lemma carry0 : carry 0.
Proof. unfold carry. lia. Qed.
Lemma limb0 : limb 0.
Proof. pose proof LB_ge2. unfold below. lia. Qed.
Lemma carry_limb : forall c, carry c -> limb c.
Proof. intros c H. pose proof LB_ge2. unfold below, carry in *. lia. Qed.

Lemma mpn_add_spec : forall xs ys, limbs xs -> limbs ys ->
  match mpn_add w xs ys with
  | Ok (zs, c) => (length ys <= length xs)%nat /\ length zs = length xs /\ limbs zs /\ carry c /\
                  val zs + B ^ Z.of_nat (length xs) * c = val xs + val ys
  | Fail => False
  | Abort => (length xs < length ys)%nat
  end.
Proof.
  intros xs ys Hx Hy. unfold mpn_add, mpn_add_n. destruct (Nat.leb_spec (length ys) (length xs)) as [Hl|Hl]; [|exact Hl].
  pose proof (add_n_loop_spec (firstn (length ys) xs) ys 0) as M.
  rewrite firstn_length_le in M by exact Hl.
  specialize (M ltac:(apply Forall_firstn; exact Hx) Hy eq_refl carry0).
  destruct (add_n_loop w 0 (firstn (length ys) xs) ys) as [lo c]. destruct M as (M1 & M2 & M3 & M4).
  assert (Hv : val xs = val (firstn (length ys) xs) + B ^ Z.of_nat (length ys) * val (skipn (length ys) xs)).
  { rewrite <- (firstn_skipn (length ys) xs) at 1. rewrite dval_app, firstn_length_le by exact Hl. lia. }
  destruct (Nat.ltb_spec (length ys) (length xs)) as [Hlt|Hlt].
  - pose proof (add_1_spec (skipn (length ys) xs) c ltac:(apply Forall_skipn; exact Hx) (carry_limb c M3)) as N.
    destruct (mpn_add_1 w (skipn (length ys) xs) c) as [hi c'].
    destruct N as (N1 & N2 & N3 & N4); [intros _; exact M3|].
    rewrite skipn_length in N1, N4.
    split; [exact Hl|]. split; [rewrite app_length; lia|]. split; [apply Forall_app; split; assumption|]. split; [exact N3|].
    rewrite dval_app, M1.
    assert (Hp : B ^ Z.of_nat (length xs) = B ^ Z.of_nat (length ys) * B ^ Z.of_nat (length xs - length ys)).
    { rewrite <- Z.pow_add_r by lia. f_equal. lia. }
    rewrite Hp, Hv. nia.
  - assert (length xs = length ys) by lia. rewrite Hv, skipn_all2 by lia. cbn [dval].
    split; [exact Hl|]. split; [lia|]. split; [exact M2|]. split; [exact M3|]. replace (length xs) with (length ys) by lia. lia.
Qed.
Lemma mpn_sub_spec : forall xs ys, limbs xs -> limbs ys ->
  match mpn_sub w xs ys with
  | Ok (zs, c) => (length ys <= length xs)%nat /\ length zs = length xs /\ limbs zs /\ carry c /\
                  val zs - B ^ Z.of_nat (length xs) * c = val xs - val ys
  | Fail => False
  | Abort => (length xs < length ys)%nat
  end.
Proof.
  intros xs ys Hx Hy. unfold mpn_sub, mpn_sub_n. destruct (Nat.leb_spec (length ys) (length xs)) as [Hl|Hl]; [|exact Hl].
  pose proof (sub_n_loop_spec (firstn (length ys) xs) ys 0) as M.
  rewrite firstn_length_le in M by exact Hl.
  specialize (M ltac:(apply Forall_firstn; exact Hx) Hy eq_refl carry0).
  destruct (sub_n_loop w 0 (firstn (length ys) xs) ys) as [lo c]. destruct M as (M1 & M2 & M3 & M4).
  assert (Hv : val xs = val (firstn (length ys) xs) + B ^ Z.of_nat (length ys) * val (skipn (length ys) xs)).
  { rewrite <- (firstn_skipn (length ys) xs) at 1. rewrite dval_app, firstn_length_le by exact Hl. lia. }
  destruct (Nat.ltb_spec (length ys) (length xs)) as [Hlt|Hlt].
  - pose proof (sub_1_spec (skipn (length ys) xs) c ltac:(apply Forall_skipn; exact Hx) (carry_limb c M3)) as N.
    destruct (mpn_sub_1 w (skipn (length ys) xs) c) as [hi c'].
    destruct N as (N1 & N2 & N3 & N4); [intros _; exact M3|].
    rewrite skipn_length in N1, N4.
    split; [exact Hl|]. split; [rewrite app_length; lia|]. split; [apply Forall_app; split; assumption|]. split; [exact N3|].
    rewrite dval_app, M1.
    assert (Hp : B ^ Z.of_nat (length xs) = B ^ Z.of_nat (length ys) * B ^ Z.of_nat (length xs - length ys)).
    { rewrite <- Z.pow_add_r by lia. f_equal. lia. }
    rewrite Hp, Hv. nia.
  - assert (length xs = length ys) by lia. rewrite Hv, skipn_all2 by lia. cbn [dval].
    split; [exact Hl|]. split; [lia|]. split; [exact M2|]. split; [exact M3|]. replace (length xs) with (length ys) by lia. lia.
Qed.

Lemma sec_add_spec : forall xs c, limbs xs -> limb c ->
  let '(zs, c') := sec_add_loop w c xs in
  length zs = length xs /\ limbs zs /\ limb c' /\ val zs + B ^ Z.of_nat (length xs) * c' = val xs + c.
Proof.
  induction xs as [|x xs IH]; intros c Hx Hc.
  - cbn [sec_add_loop length dval]. change (B ^ Z.of_nat 0) with 1. repeat split; try constructor; try apply Hc. lia.
  - cbn [sec_add_loop]. pose proof (mp_add_spec x c (Forall_inv Hx) Hc) as M.
    destruct (mp_add w x c) as [z c1]. destruct M as (M1 & M2 & M3).
    specialize (IH c1 (Forall_inv_tail Hx) (carry_limb c1 M2)).
    destruct (sec_add_loop w c1 xs) as [zs c']. destruct IH as (I1 & I2 & I3 & I4).
    cbn [length]. rewrite Bpow_S, !val_cons. repeat split; try (constructor; assumption); try lia; try apply I3.
Qed.
Lemma sec_sub_spec : forall xs c, limbs xs -> limb c ->
  let '(zs, c') := sec_sub_loop w c xs in
  length zs = length xs /\ limbs zs /\ limb c' /\ val zs - B ^ Z.of_nat (length xs) * c' = val xs - c.
Proof.
  induction xs as [|x xs IH]; intros c Hx Hc.
  - cbn [sec_sub_loop length dval]. change (B ^ Z.of_nat 0) with 1. repeat split; try constructor; try apply Hc. lia.
  - cbn [sec_sub_loop]. pose proof (mp_sub_spec x c (Forall_inv Hx) Hc) as M.
    destruct (mp_sub w x c) as [z c1]. destruct M as (M1 & M2 & M3).
    specialize (IH c1 (Forall_inv_tail Hx) (carry_limb c1 M2)).
    destruct (sec_sub_loop w c1 xs) as [zs c']. destruct IH as (I1 & I2 & I3 & I4).
    cbn [length]. rewrite Bpow_S, !val_cons. repeat split; try (constructor; assumption); try lia; try apply I3.
Qed.
Lemma neg_loop_spec : forall xs c, limbs xs -> carry c ->
  let '(zs, c') := neg_loop w c xs in
  length zs = length xs /\ limbs zs /\ carry c' /\
  val zs + B ^ Z.of_nat (length xs) * c' = B ^ Z.of_nat (length xs) - 1 - val xs + c.
Proof.
  induction xs as [|x xs IH]; intros c Hx Hc.
  - cbn [neg_loop length dval]. change (B ^ Z.of_nat 0) with 1. repeat split; try constructor; try apply Hc. lia.
  - cbn [neg_loop]. pose proof (mp_neg_1_spec c x Hc (Forall_inv Hx)) as M.
    destruct (mp_neg_1 w c x) as [z c1]. destruct M as (M1 & M2 & M3).
    specialize (IH c1 (Forall_inv_tail Hx) M2).
    destruct (neg_loop w c1 xs) as [zs c']. destruct IH as (I1 & I2 & I3 & I4).
    cbn [length]. rewrite Bpow_S, !val_cons. repeat split; try (constructor; assumption); try lia; try apply I3.
Qed.
Lemma mpn_neg_spec : forall xs, limbs xs ->
  let '(zs, c) := mpn_neg w xs in
  length zs = length xs /\ limbs zs /\ val zs = (- val xs) mod B ^ Z.of_nat (length xs) /\ c = (if val xs =? 0 then 0 else 1).
Proof.
  intros xs Hx. unfold mpn_neg. pose proof (neg_loop_spec xs 1 Hx ltac:(unfold carry; lia)) as M.
  destruct (neg_loop w 1 xs) as [zs c]. destruct M as (M1 & M2 & M3 & M4).
  pose proof (val_range xs Hx) as R. pose proof (val_range zs M2) as Rz. rewrite M1 in Rz.
  assert (Hc : c = 0 \/ c = 1) by (unfold carry in M3; lia).
  split; [exact M1|]. split; [exact M2|].
  destruct (Z.eqb_spec (val xs) 0) as [E|E].
  - assert (c = 1) by (destruct Hc; subst c; lia). subst c. split; [|reflexivity].
    rewrite E. rewrite Z.mod_0_l by lia. lia.
  - assert (c = 0) by (destruct Hc; subst c; lia). subst c. split; [|reflexivity].
    apply Z.mod_unique with (q := -1); lia.
Qed.

Lemma mul_1_loop_spec : forall xs c y, limbs xs -> limb c -> limb y ->
  let '(zs, c') := mul_1_loop w c xs y in
  length zs = length xs /\ limbs zs /\ limb c' /\ val zs + B ^ Z.of_nat (length xs) * c' = val xs * y + c.
Proof.
  induction xs as [|x xs IH]; intros c y Hx Hc Hy.
  - cbn [mul_1_loop length dval]. change (B ^ Z.of_nat 0) with 1. repeat split; try constructor; try apply Hc. lia.
  - cbn [mul_1_loop]. pose proof (mp_mul_1_spec c x y Hc (Forall_inv Hx) Hy) as M.
    destruct (mp_mul_1 w c x y) as [z c1]. destruct M as (M1 & M2 & M3).
    specialize (IH c1 y (Forall_inv_tail Hx) M2 Hy).
    destruct (mul_1_loop w c1 xs y) as [zs c']. destruct IH as (I1 & I2 & I3 & I4).
    cbn [length]. rewrite Bpow_S, !val_cons. repeat split; try (constructor; assumption); try lia; try apply I3.
Qed.
Lemma addmul_1_loop_spec : forall xs zs c y, limbs zs -> limbs xs -> length zs = length xs -> limb c -> limb y ->
  let '(r, c') := addmul_1_loop w c zs xs y in
  length r = length xs /\ limbs r /\ limb c' /\ val r + B ^ Z.of_nat (length xs) * c' = val zs + val xs * y + c.
Proof.
  induction xs as [|x xs IH]; intros [|z zs] c y Hz Hx Hl Hc Hy; try discriminate Hl.
  - cbn [addmul_1_loop length dval]. change (B ^ Z.of_nat 0) with 1. repeat split; try constructor; try apply Hc. lia.
  - cbn [addmul_1_loop]. pose proof (mp_addmul_1_spec c z x y Hc (Forall_inv Hz) (Forall_inv Hx) Hy) as M.
    destruct (mp_addmul_1 w c z x y) as [z1 c1]. destruct M as (M1 & M2 & M3).
    specialize (IH zs c1 y (Forall_inv_tail Hz) (Forall_inv_tail Hx) ltac:(now injection Hl) M2 Hy).
    destruct (addmul_1_loop w c1 zs xs y) as [r c']. destruct IH as (I1 & I2 & I3 & I4).
    cbn [length]. rewrite Bpow_S, !val_cons. repeat split; try (constructor; assumption); try lia; try apply I3.
Qed.
Lemma submul_1_loop_spec : forall xs zs c y, limbs zs -> limbs xs -> length zs = length xs -> limb c -> limb y ->
  let '(r, c') := submul_1_loop w c zs xs y in
  length r = length xs /\ limbs r /\ limb c' /\ val r - B ^ Z.of_nat (length xs) * c' = val zs - val xs * y - c.
Proof.
  induction xs as [|x xs IH]; intros [|z zs] c y Hz Hx Hl Hc Hy; try discriminate Hl.
  - cbn [submul_1_loop length dval]. change (B ^ Z.of_nat 0) with 1. repeat split; try constructor; try apply Hc. lia.
  - cbn [submul_1_loop]. pose proof (mp_submul_1_spec c z x y Hc (Forall_inv Hz) (Forall_inv Hx) Hy) as M.
    destruct (mp_submul_1 w c z x y) as [z1 c1]. destruct M as (M1 & M2 & M3).
    specialize (IH zs c1 y (Forall_inv_tail Hz) (Forall_inv_tail Hx) ltac:(now injection Hl) M2 Hy).
    destruct (submul_1_loop w c1 zs xs y) as [r c']. destruct IH as (I1 & I2 & I3 & I4).
    cbn [length]. rewrite Bpow_S, !val_cons. repeat split; try (constructor; assumption); try lia; try apply I3.
Qed.

Lemma hd_tl_val : forall z : list Z, (length z > 0)%nat -> val z = hd 0 z + B * val (tl z).
Proof. intros [|a z] H; [cbn in H; lia|reflexivity]. Qed.
Lemma hd_tl_limbs : forall z : list Z, (length z > 0)%nat -> limbs z -> limb (hd 0 z) /\ limbs (tl z).
Proof. intros [|a z] H Hz; [cbn in H; lia|]. split; [exact (Forall_inv Hz)|exact (Forall_inv_tail Hz)]. Qed.
Lemma tl_length : forall z : list Z, length (tl z) = (length z - 1)%nat.
Proof. intros [|a z]; cbn [tl length]; lia. Qed.
Lemma val_snoc : forall (r : list Z) c, val (r ++ [c]) = val r + B ^ Z.of_nat (length r) * c.
Proof. intros r c. rewrite dval_app. cbn [dval]. lia. Qed.

Lemma mul_loop_spec : forall ys acc xs, limbs acc -> limbs xs -> limbs ys -> length acc = length xs ->
  length (mul_loop w acc xs ys) = (length xs + length ys)%nat /\ limbs (mul_loop w acc xs ys) /\
  val (mul_loop w acc xs ys) = val acc + val xs * val ys.
Proof.
  induction ys as [|y ys IH]; intros acc xs Ha Hx Hy Hl.
  - cbn [mul_loop length dval]. split; [lia|]. split; [exact Ha|lia].
  - cbn [mul_loop]. unfold mpn_addmul_1.
    pose proof (addmul_1_loop_spec xs acc 0 y Ha Hx Hl limb0 (Forall_inv Hy)) as M.
    destruct (addmul_1_loop w 0 acc xs y) as [r c]. destruct M as (M1 & M2 & M3 & M4). cbv zeta.
    assert (Hz : limbs (r ++ [c])) by (apply Forall_app; split; [exact M2|repeat constructor; apply M3]).
    assert (Hn : (length (r ++ [c]) > 0)%nat) by (rewrite app_length; cbn [length]; lia).
    destruct (hd_tl_limbs _ Hn Hz) as [Hh Ht]. pose proof (hd_tl_val _ Hn) as Hv. rewrite val_snoc in Hv.
    destruct (IH (tl (r ++ [c])) xs Ht Hx (Forall_inv_tail Hy)) as (I1 & I2 & I3).
    { rewrite tl_length, app_length. cbn [length]. lia. }
    cbn [length]. split; [rewrite I1; lia|]. split; [constructor; assumption|].
    rewrite !val_cons, I3. rewrite M1 in Hv. lia.
Qed.
Theorem mpn_mul_spec : forall xs ys, limbs xs -> limbs ys ->
  length (mpn_mul w xs ys) = (length xs + length ys)%nat /\ limbs (mpn_mul w xs ys) /\
  val (mpn_mul w xs ys) = val xs * val ys.
Proof.
  intros xs [|y ys] Hx Hy.
  - cbn [mpn_mul length dval]. rewrite repeat_length, dval_repeat0. split; [lia|]. split; [|lia].
    apply Forall_forall. intros a Hin. apply repeat_spec in Hin. subst a. exact limb0.
  - cbn [mpn_mul]. unfold mpn_mul_1.
    pose proof (mul_1_loop_spec xs 0 y Hx limb0 (Forall_inv Hy)) as M.
    destruct (mul_1_loop w 0 xs y) as [r c]. destruct M as (M1 & M2 & M3 & M4). cbv zeta.
    assert (Hz : limbs (r ++ [c])) by (apply Forall_app; split; [exact M2|repeat constructor; apply M3]).
    assert (Hn : (length (r ++ [c]) > 0)%nat) by (rewrite app_length; cbn [length]; lia).
    destruct (hd_tl_limbs _ Hn Hz) as [Hh Ht]. pose proof (hd_tl_val _ Hn) as Hv. rewrite val_snoc in Hv.
    destruct (mul_loop_spec ys (tl (r ++ [c])) xs Ht Hx (Forall_inv_tail Hy)) as (I1 & I2 & I3).
    { rewrite tl_length, app_length. cbn [length]. lia. }
    cbn [length]. split; [rewrite I1; lia|]. split; [constructor; assumption|].
    rewrite !val_cons, I3. rewrite M1 in Hv. lia.
Qed.
End MpnProof.
