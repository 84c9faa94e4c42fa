(* Shifts, squaring, comparison and the half-limb product of mpi.c. *)
From Verif.Base Require Import Prelude.
From Verif.Model Require Import Encoding Mpn.
From Verif.Proof Require Import MpnProof.

Lemma combine_range : forall C D a b, 0 <= a < D -> 0 <= b < C -> 0 <= a * C + b < C * D.
Proof. intros. nia. Qed.

Lemma half_prod : forall b u v k, 0 <= u < b -> 0 <= v < b -> 0 <= k < b -> 0 <= u * v + k < b * b.
Proof. intros. nia. Qed.
Lemma sq_lt : forall a b, 0 <= a < b -> a * a < b * b.
Proof. intros. nia. Qed.
Lemma pr_lt : forall a c b, 0 <= a < b -> 0 <= c < b -> 0 <= a * c < b * b.
Proof. intros. nia. Qed.

Section MpnShift.
Variable w : Z.
Hypothesis Hw : 0 < w.
Notation B := (LB w).
Notation limb := (below B).
Notation limbs := (Forall (below B)).
Notation val := (dval B).

Section Bits.
Variable bits : Z.
Hypothesis Hb : 0 < bits < w.
Notation C := (2 ^ bits).
Notation D := (2 ^ (w - bits)).
Lemma CD : C * D = B.
Proof. unfold LB. rewrite <- Z.pow_add_r by lia. f_equal. lia. Qed.
Lemma C_pos : 0 < C /\ 0 < D.
Proof. split; apply Z.pow_pos_nonneg; lia. Qed.
Lemma shl_split : forall x, tr w (Z.shiftl x bits) = (x mod D) * C.
Proof.
  intros x. unfold tr. rewrite Z.shiftl_mul_pow2 by lia. rewrite <- CD, (Z.mul_comm C D).
  pose proof C_pos. apply Z.mul_mod_distr_r; lia.
Qed.
Lemma shl_split' : forall x, tr w (Z.shiftl x (w - bits)) = (x mod C) * D.
Proof.
  intros x. unfold tr. rewrite Z.shiftl_mul_pow2 by lia. rewrite <- CD.
  pose proof C_pos. apply Z.mul_mod_distr_r; lia.
Qed.
Lemma lim_div : forall x, limb x -> 0 <= x / D < C.
Proof.
  intros x Hx. pose proof C_pos. pose proof CD. unfold below in Hx. split; [apply Z.div_pos; lia|].
  apply Z.div_lt_upper_bound; nia.
Qed.
Lemma lim_div' : forall x, limb x -> 0 <= x / C < D.
Proof.
  intros x Hx. pose proof C_pos. pose proof CD. unfold below in Hx. split; [apply Z.div_pos; lia|].
  apply Z.div_lt_upper_bound; nia.
Qed.
Lemma lsh_limb : forall x p, limb p -> Z.lor (tr w (Z.shiftl x bits)) (Z.shiftr p (w - bits)) = (x mod D) * C + p / D.
Proof.
  intros x p Hp. rewrite shl_split, Z.shiftr_div_pow2 by lia. apply lor_add_low; [lia|]. apply lim_div. exact Hp.
Qed.
Lemma rsh_limb : forall x p, limb p -> Z.lor (tr w (Z.shiftl x (w - bits))) (Z.shiftr p bits) = (x mod C) * D + p / C.
Proof.
  intros x p Hp. rewrite shl_split', Z.shiftr_div_pow2 by lia. apply lor_add_low; [lia|]. apply lim_div'. exact Hp.
Qed.
Lemma lshift_loop_spec : forall xs prev, limbs xs -> limb prev ->
  length (lshift_loop w prev xs bits) = length xs /\ limbs (lshift_loop w prev xs bits) /\
  val (lshift_loop w prev xs bits) + B ^ Z.of_nat (length xs) * (last (prev :: xs) 0 / D) = val xs * C + prev / D.
Proof.
  induction xs as [|x xs IH]; intros prev Hx Hp.
  - cbn [lshift_loop length dval last]. change (B ^ Z.of_nat 0) with 1. split; [reflexivity|]. split; [constructor|lia].
  - cbn [lshift_loop]. destruct (IH x (Forall_inv_tail Hx) (Forall_inv Hx)) as (I1 & I2 & I3).
    rewrite lsh_limb by exact Hp. pose proof (lim_div prev Hp). pose proof C_pos. pose proof CD.
    pose proof (Z.mod_pos_bound x D ltac:(lia)). pose proof (Z.div_mod x D ltac:(lia)) as Hdm.
    split; [cbn [length]; lia|].
    split; [constructor; [unfold below; rewrite <- CD; apply combine_range; assumption|exact I2]|].
    cbn [length]. rewrite (Bpow_S w), !val_cons.
    change (last (prev :: x :: xs) 0) with (last (x :: xs) 0).
    assert (E : x * C = B * (x / D) + (x mod D) * C) by (rewrite Hdm at 1; rewrite <- CD; ring).
    remember (last (x :: xs) 0 / D) as lt eqn:El. clear El.
    assert (E2 : B * (val (lshift_loop w x xs bits) + B ^ Z.of_nat (length xs) * lt) = B * (val xs * C + x / D)) by (rewrite I3; reflexivity).
    clear - E E2. lia.
Qed.
Lemma mpn_lshift_spec : forall xs, limbs xs ->
  let '(zs, c) := mpn_lshift w xs bits in
  length zs = length xs /\ limbs zs /\ 0 <= c < C /\ val zs + B ^ Z.of_nat (length xs) * c = val xs * C.
Proof.
  intros xs Hx. unfold mpn_lshift. destruct (lshift_loop_spec xs 0 Hx (limb0 w Hw)) as (I1 & I2 & I3).
  rewrite Z.shiftr_div_pow2 by lia. rewrite Z.div_0_l in I3 by (pose proof C_pos; lia).
  assert (El : last (0 :: xs) 0 = last xs 0) by (destruct xs; reflexivity).
  rewrite El in I3. split; [exact I1|]. split; [exact I2|]. split; [|lia].
  apply lim_div. destruct xs as [|x xs]; [exact (limb0 w Hw)|].
  rewrite Forall_forall in Hx. apply Hx.
  destruct (exists_last (l := x :: xs) ltac:(discriminate)) as (l' & a & E). rewrite E, last_last. apply in_or_app. right. left. reflexivity.
Qed.
Lemma rshift_z_spec : forall xs, limbs xs ->
  length (mpn_rshift_z w xs bits) = length xs /\ limbs (mpn_rshift_z w xs bits) /\
  val (mpn_rshift_z w xs bits) * C + hd 0 xs mod C = val xs.
Proof.
  induction xs as [|x xs IH]; intros Hx.
  - cbn [mpn_rshift_z length dval hd]. pose proof C_pos. rewrite Z.mod_0_l by lia. split; [reflexivity|]. split; [constructor|lia].
  - cbn [mpn_rshift_z]. destruct (IH (Forall_inv_tail Hx)) as (I1 & I2 & I3).
    pose proof (Forall_inv Hx) as Hx0. rewrite rsh_limb by exact Hx0. pose proof (lim_div' x Hx0). pose proof C_pos. pose proof CD.
    pose proof (Z.mod_pos_bound (hd 0 xs) C ltac:(lia)). pose proof (Z.div_mod x C ltac:(lia)) as Hdm.
    split; [cbn [length]; lia|].
    split; [constructor; [unfold below; rewrite <- CD, (Z.mul_comm C D); apply combine_range; assumption|exact I2]|].
    rewrite !val_cons. cbn [hd].
    assert (E1 : (hd 0 xs mod C * D + x / C + B * val (mpn_rshift_z w xs bits)) * C =
      B * (hd 0 xs mod C) + C * (x / C) + B * (val (mpn_rshift_z w xs bits) * C)) by (rewrite <- CD; ring).
    rewrite E1. replace (val (mpn_rshift_z w xs bits) * C) with (val xs - hd 0 xs mod C) by lia. lia.
Qed.
Lemma mpn_rshift_spec : forall xs, limbs xs ->
  let '(zs, c) := mpn_rshift w xs bits in
  length zs = length xs /\ limbs zs /\ val zs = val xs / C /\ c = val xs mod C.
Proof.
  intros xs Hx. unfold mpn_rshift. destruct (rshift_z_spec xs Hx) as (I1 & I2 & I3).
  pose proof C_pos. pose proof (Z.mod_pos_bound (hd 0 xs) C ltac:(lia)).
  split; [exact I1|]. split; [exact I2|].
  split.
  - apply Z.div_unique with (r := hd 0 xs mod C); lia.
  - rewrite shl_split', Z.shiftr_div_pow2, Z.div_mul by lia. apply Z.mod_unique with (q := val (mpn_rshift_z w xs bits)); lia.
Qed.
End Bits.

Lemma firstn_S_nth : forall (xs : list Z) m, (m < length xs)%nat -> firstn (S m) xs = firstn m xs ++ [nth m xs 0].
Proof.
  induction xs as [|x xs IH]; intros [|m] H; cbn [length] in H; try lia; [reflexivity|].
  cbn [firstn nth app]. f_equal. apply IH. lia.
Qed.
Lemma val_firstn_S : forall (xs : list Z) m, (m < length xs)%nat ->
  val (firstn (S m) xs) = val (firstn m xs) + B ^ Z.of_nat m * nth m xs 0.
Proof.
  intros xs m H. rewrite firstn_S_nth, val_snoc, firstn_length_le by (exact Hw || lia). reflexivity.
Qed.
Lemma firstn_val_range : forall (xs : list Z) m, limbs xs -> (m <= length xs)%nat -> 0 <= val (firstn m xs) < B ^ Z.of_nat m.
Proof.
  intros xs m Hx Hm. pose proof (val_range w Hw (firstn m xs) (Forall_firstn _ _ m xs Hx)) as R.
  rewrite firstn_length_le in R by exact Hm. exact R.
Qed.

Lemma mpn_cmp_spec : forall n xs ys, limbs xs -> limbs ys -> (n <= length xs)%nat -> (n <= length ys)%nat ->
  mpn_cmp xs ys n = Z.sgn (val (firstn n xs) - val (firstn n ys)).
Proof.
  induction n as [|m IH]; intros xs ys Hx Hy H1 H2; [reflexivity|].
  cbn [mpn_cmp]. rewrite !val_firstn_S by lia.
  pose proof (firstn_val_range xs m Hx ltac:(lia)). pose proof (firstn_val_range ys m Hy ltac:(lia)).
  destruct (Z.eqb_spec (nth m xs 0) (nth m ys 0)) as [E|E]; cbn [negb].
  - rewrite IH by (assumption || lia). rewrite E. f_equal. lia.
  - pose proof (Bpow_pos w Hw m). destruct (Z.ltb_spec (nth m xs 0) (nth m ys 0)) as [L|L].
    + symmetry. apply Z.sgn_neg. nia.
    + symmetry. apply Z.sgn_pos. nia.
Qed.
Lemma mpn_cmp_full : forall xs ys, limbs xs -> limbs ys -> length xs = length ys ->
  mpn_cmp xs ys (length xs) = Z.sgn (val xs - val ys).
Proof.
  intros xs ys Hx Hy Hl. rewrite mpn_cmp_spec by (assumption || lia).
  rewrite firstn_all, Hl, firstn_all. reflexivity.
Qed.
Lemma mpn_zero_p_spec : forall xs, limbs xs -> mpn_zero_p xs = (val xs =? 0).
Proof.
  induction xs as [|x xs IH]; intros Hx; [reflexivity|].
  cbn [mpn_zero_p]. rewrite val_cons by exact Hw. pose proof (Forall_inv Hx) as H1. unfold below in H1.
  pose proof (val_range w Hw xs (Forall_inv_tail Hx)). pose proof (LB_ge2 w Hw).
  destruct (Z.eqb_spec x 0) as [E|E]; cbn [negb].
  - subst x. rewrite IH by exact (Forall_inv_tail Hx). destruct (Z.eqb_spec (val xs) 0); destruct (Z.eqb_spec (0 + B * val xs) 0); try reflexivity; nia.
  - symmetry. apply Z.eqb_neq. nia.
Qed.
Lemma mpn_strip_spec : forall n xs, (n <= length xs)%nat ->
  (mpn_strip xs n <= n)%nat /\ val (firstn (mpn_strip xs n) xs) = val (firstn n xs) /\
  (mpn_strip xs n = O \/ nth (mpn_strip xs n - 1) xs 0 <> 0).
Proof.
  induction n as [|m IH]; intros xs H.
  - cbn [mpn_strip]. split; [lia|]. split; [reflexivity|left; reflexivity].
  - cbn [mpn_strip]. destruct (Z.eqb_spec (nth m xs 0) 0) as [E|E].
    + destruct (IH xs ltac:(lia)) as (I1 & I2 & I3). split; [lia|]. split; [|exact I3].
      rewrite I2, val_firstn_S, E by lia. lia.
    + split; [lia|]. split; [reflexivity|]. right. replace (S m - 1)%nat with m by lia. exact E.
Qed.

Lemma mpn_sub_n_spec : forall xs ys, limbs xs -> limbs ys -> length xs = length ys ->
  let '(zs, c) := mpn_sub_n w xs ys in
  length zs = length xs /\ limbs zs /\ val zs = (val xs - val ys) mod B ^ Z.of_nat (length xs) /\ c = (if val xs <? val ys then 1 else 0).
Proof.
  intros xs ys Hx Hy Hl. unfold mpn_sub_n. pose proof (sub_n_loop_spec w Hw xs ys 0 Hx Hy Hl carry0) as M.
  destruct (sub_n_loop w 0 xs ys) as [zs c]. destruct M as (M1 & M2 & M3 & M4).
  pose proof (val_range w Hw zs M2) as Rz. rewrite M1 in Rz. pose proof (val_range w Hw xs Hx). pose proof (val_range w Hw ys Hy) as Ry.
  rewrite <- Hl in Ry. unfold carry in M3.
  split; [exact M1|]. split; [exact M2|]. split.
  - apply Z.mod_unique with (q := - c); lia.
  - destruct (Z.ltb_spec (val xs) (val ys)); assert (c = 0 \/ c = 1) as [|] by lia; subst c; lia.
Qed.
Lemma mpn_add_n_spec : forall xs ys, limbs xs -> limbs ys -> length xs = length ys ->
  let '(zs, c) := mpn_add_n w xs ys in
  length zs = length xs /\ limbs zs /\ carry c /\ val zs + B ^ Z.of_nat (length xs) * c = val xs + val ys.
Proof.
  intros xs ys Hx Hy Hl. unfold mpn_add_n. pose proof (add_n_loop_spec w Hw xs ys 0 Hx Hy Hl carry0) as M.
  destruct (add_n_loop w 0 xs ys) as [zs c]. destruct M as (M1 & M2 & M3 & M4). split; [exact M1|]. split; [exact M2|]. split; [exact M3|lia].
Qed.
Lemma mpn_sub_mod_spec : forall xs ys ms, limbs xs -> limbs ys -> limbs ms ->
  length xs = length ms -> length ys = length ms -> val xs < val ms -> val ys < val ms ->
  limbs (mpn_sub_mod w xs ys ms) /\ length (mpn_sub_mod w xs ys ms) = length ms /\
  val (mpn_sub_mod w xs ys ms) = (val xs - val ys) mod val ms.
Proof.
  intros xs ys ms Hx Hy Hm L1 L2 X1 Y1. unfold mpn_sub_mod. rewrite mpn_cmp_spec by (assumption || lia).
  rewrite (firstn_all2 xs) by lia. rewrite (firstn_all2 ys) by lia.
  pose proof (val_range w Hw xs Hx). pose proof (val_range w Hw ys Hy). pose proof (val_range w Hw ms Hm) as Rm.
  destruct (Z.leb_spec 0 (Z.sgn (val xs - val ys))) as [S1|S1].
  - pose proof (mpn_sub_n_spec xs ys Hx Hy ltac:(lia)) as M. destruct (mpn_sub_n w xs ys) as [zs c]. cbn [fst].
    destruct M as (M1 & M2 & M3 & M4). split; [exact M2|]. split; [lia|]. rewrite M3. apply Z.sgn_nonneg in S1.
    rewrite L1. rewrite !Z.mod_small by lia. reflexivity.
  - assert (val xs - val ys < 0) by (apply Z.sgn_neg_iff; lia).
    pose proof (mpn_sub_n_spec ys xs Hy Hx ltac:(lia)) as M. destruct (mpn_sub_n w ys xs) as [zs c]. cbn [fst].
    destruct M as (M1 & M2 & M3 & M4). rewrite L2, Z.mod_small in M3 by lia.
    pose proof (mpn_sub_n_spec ms zs Hm M2 ltac:(lia)) as N. destruct (mpn_sub_n w ms zs) as [rs d]. cbn [fst].
    destruct N as (N1 & N2 & N3 & N4). split; [exact N2|]. split; [exact N1|]. rewrite N3.
    rewrite Z.mod_small by lia. apply Z.mod_unique with (q := -1); lia.
Qed.

Lemma diag_snoc : forall xs x, sqr_diag w (xs ++ [x]) = sqr_diag w xs ++ [tr w (x * x); x * x / B].
Proof. intros xs x. unfold sqr_diag. rewrite flat_map_app. reflexivity. Qed.
Lemma diag_length : forall xs, length (sqr_diag w xs) = (2 * length xs)%nat.
Proof.
  induction xs as [|x xs IH]; [reflexivity|].
  change (sqr_diag w (x :: xs)) with ([tr w (x * x); x * x / B] ++ sqr_diag w xs). rewrite app_length, IH. cbn [length]. lia.
Qed.
Lemma diag_limbs : forall xs, limbs xs -> limbs (sqr_diag w xs).
Proof.
  induction xs as [|x xs IH]; intros Hx; [constructor|].
  change (sqr_diag w (x :: xs)) with (tr w (x * x) :: x * x / B :: sqr_diag w xs).
  pose proof (mp_mul_spec w Hw x x (Forall_inv Hx) (Forall_inv Hx)) as M. unfold mp_mul in M. destruct M as (M1 & M2 & _).
  constructor; [exact M2|]. constructor; [exact M1|]. apply IH. exact (Forall_inv_tail Hx).
Qed.
Lemma Bpow_2n : forall n, B ^ Z.of_nat (2 * n) = B ^ Z.of_nat n * B ^ Z.of_nat n.
Proof. intros n. rewrite <- Z.pow_add_r by lia. f_equal. lia. Qed.
Lemma diag_val_snoc : forall xs x, val (sqr_diag w (xs ++ [x])) = val (sqr_diag w xs) + B ^ Z.of_nat (2 * length xs) * (x * x).
Proof.
  intros xs x. rewrite diag_snoc, dval_app, diag_length. cbn [dval]. unfold tr.
  pose proof (LB_ge2 w Hw). pose proof (Z.div_mod (x * x) B ltac:(lia)) as E. remember (x * x) as q eqn:Eq. clear Eq.
  replace (q mod B + B * (q / B + B * 0)) with q by lia. reflexivity.
Qed.

Definition sqr_inv (xs T : list Z) (i : nat) : Prop :=
  length T = (2 * i - 1)%nat /\ limbs T /\ hd 0 T = 0 /\
  2 * val T + val (sqr_diag w (firstn i xs)) = val (firstn i xs) * val (firstn i xs).

Lemma sqr_pass_inv : forall xs T i, limbs xs -> (2 <= i < length xs)%nat -> sqr_inv xs T i -> sqr_inv xs (sqr_pass w xs T i) (S i).
Proof.
  intros xs T i Hx Hi (H1 & H2 & H3 & H4). unfold sqr_pass. cbv zeta. set (T' := T ++ [0]).
  assert (Hl : length T' = (2 * i)%nat) by (unfold T'; rewrite app_length; cbn [length]; lia).
  assert (HT : limbs T') by (unfold T'; apply Forall_app; split; [exact H2|repeat constructor; apply (limb0 w Hw)]).
  assert (HvT : val T' = val T) by (unfold T'; rewrite val_snoc by exact Hw; lia).
  assert (Hh : hd 0 T' = 0) by (unfold T'; destruct T; [reflexivity|exact H3]).
  clearbody T'.
  assert (Hn : limb (nth i xs 0)) by (apply Forall_nth; [exact Hx|lia]).
  unfold mpn_addmul_1.
  pose proof (addmul_1_loop_spec w Hw (firstn i xs) (skipn i T') 0 (nth i xs 0)
    (Forall_skipn _ _ i T' HT) (Forall_firstn _ _ i xs Hx)) as M.
  rewrite skipn_length, firstn_length_le in M by lia. specialize (M ltac:(lia) (limb0 w Hw) Hn).
  destruct (addmul_1_loop w 0 (skipn i T') (firstn i xs) (nth i xs 0)) as [r c]. destruct M as (M1 & M2 & M3 & M4).
  assert (Hv' : val T' = val (firstn i T') + B ^ Z.of_nat i * val (skipn i T')).
  { rewrite <- (firstn_skipn i T') at 1. rewrite dval_app, firstn_length_le by lia. reflexivity. }
  unfold sqr_inv. split; [rewrite !app_length, firstn_length_le by lia; cbn [length]; lia|].
  split; [apply Forall_app; split; [apply Forall_firstn; exact HT|apply Forall_app; split; [exact M2|repeat constructor; apply M3]]|].
  split; [destruct i as [|i']; [lia|]; destruct T' as [|t T']; [cbn [length] in Hl; lia|exact Hh]|].
  rewrite (firstn_S_nth xs i) by lia. rewrite diag_val_snoc, val_snoc by exact Hw. rewrite firstn_length_le by lia.
  rewrite dval_app, val_snoc, firstn_length_le, M1, Bpow_2n by (exact Hw || lia).
  nia.
Qed.
Lemma sqr_fold_inv : forall xs k i T, limbs xs -> (2 <= i)%nat -> (i + k <= length xs)%nat -> sqr_inv xs T i ->
  sqr_inv xs (fold_left (sqr_pass w xs) (seq i k) T) (i + k).
Proof.
  intros xs. induction k as [|k IH]; intros i T Hx Hi Hk HT.
  - cbn [seq fold_left]. rewrite Nat.add_0_r. exact HT.
  - cbn [seq fold_left]. replace (i + S k)%nat with (S i + k)%nat by lia. apply IH; try assumption; try lia.
    apply sqr_pass_inv; try assumption; lia.
Qed.
Theorem mpn_sqr_spec : forall xs, limbs xs -> (w > 1) ->
  match mpn_sqr w xs with
  | Ok zs => length zs = (2 * length xs)%nat /\ limbs zs /\ val zs = val xs * val xs
  | _ => False
  end.
Proof.
  intros xs Hx Hw1. destruct xs as [|x0 [|x1 xs]].
  - cbn. split; [reflexivity|]. split; [constructor|reflexivity].
  - unfold mpn_sqr. rewrite diag_length. split; [reflexivity|]. split; [apply diag_limbs; exact Hx|].
    change [x0] with ([] ++ [x0]). rewrite diag_val_snoc. cbn [length dval app sqr_diag flat_map]. change (B ^ Z.of_nat (2 * 0)) with 1. lia.
  - unfold mpn_sqr. remember (x0 :: x1 :: xs) as X eqn:EX.
    pose proof (mp_mul_spec w Hw x0 x1) as P. destruct (mp_mul w x0 x1) as [hi lo].
    assert (HX0 : limb x0) by (subst X; exact (Forall_inv Hx)).
    assert (HX1 : limb x1) by (subst X; exact (Forall_inv (Forall_inv_tail Hx))).
    destruct (P HX0 HX1) as (P1 & P2 & P3 & _). clear P.
    assert (I0 : sqr_inv X [0; lo; hi] 2).
    { unfold sqr_inv. split; [reflexivity|]. split; [constructor; [apply (limb0 w Hw)|constructor; [exact P2|constructor; [exact P1|constructor]]]|]. split; [reflexivity|].
      rewrite EX. cbn [firstn]. change [x0; x1] with (([] ++ [x0]) ++ [x1]). rewrite !diag_val_snoc. cbn [app length sqr_diag flat_map dval].
      change (B ^ Z.of_nat (2 * 0)) with 1. change (B ^ Z.of_nat (2 * 1)) with (B ^ 2). rewrite Z.pow_2_r. nia. }
    assert (HlX : (2 <= length X)%nat) by (subst X; cbn [length]; lia).
    pose proof (sqr_fold_inv X (length X - 2) 2 [0; lo; hi] Hx ltac:(lia) ltac:(lia) I0) as I1.
    replace (2 + (length X - 2))%nat with (length X) in I1 by lia.
    remember (fold_left (sqr_pass w X) (seq 2 (length X - 2)) [0; lo; hi]) as T eqn:ET. clear ET I0.
    destruct I1 as (T1 & T2 & T3 & T4). rewrite firstn_all in T4.
    destruct T as [|t T]; [cbn [length] in T1; lia|]. cbn [hd] in T3. subst t. cbn [skipn firstn]. cbn [length] in T1.
    pose proof (mpn_lshift_spec 1 ltac:(lia) T (Forall_inv_tail T2)) as L. destruct (mpn_lshift w T 1) as [r c].
    destruct L as (L1 & L2 & L3 & L4).
    pose proof (mpn_add_n_spec (sqr_diag w X) ([0] ++ r ++ [c])) as A.
    destruct (mpn_add_n w (sqr_diag w X) ([0] ++ r ++ [c])) as [z c2].
    assert (Hlt : length (sqr_diag w X) = length ([0] ++ r ++ [c])).
    { rewrite diag_length, !app_length. cbn [length]. lia. }
    assert (Hcl : limb c) by (pose proof (LB_ge2 w Hw); unfold below; change (2 ^ 1) with 2 in L3; lia).
    destruct A as (A1 & A2 & A3 & A4); [apply diag_limbs; exact Hx| |exact Hlt|].
    { cbn [app]. constructor; [apply (limb0 w Hw)|]. apply Forall_app. split; [exact L2|constructor; [exact Hcl|constructor]]. }
    assert (E2 : val ([0] ++ r ++ [c]) = 2 * val (0 :: T)).
    { cbn [app]. rewrite !val_cons, val_snoc, L1 by exact Hw. change (2 ^ 1) with 2 in L4. nia. }
    rewrite E2 in A4. assert (E3 : val z + B ^ Z.of_nat (length (sqr_diag w X)) * c2 = val X * val X) by lia.
    rewrite diag_length, Bpow_2n in E3.
    pose proof (val_range w Hw X Hx) as RX. pose proof (val_range w Hw z A2) as Rz.
    assert (c2 = 0). { unfold carry in A3. assert (c2 = 0 \/ c2 = 1) as [|] by lia; [assumption|]. subst c2. pose proof (sq_lt _ _ RX). lia. }
    subst c2. cbn [Z.eqb]. rewrite diag_length in A1. split; [exact A1|]. split; [exact A2|]. lia.
Qed.

Lemma mp_mul_hd_spec : forall h x y, w = 2 * h -> limb x -> limb y -> mp_mul_hd w x y = mp_mul w x y.
Proof.
  intros h x y Eh Hx Hy. unfold mp_mul_hd. assert (Ew : w / 2 = h) by (rewrite Eh, Z.mul_comm; apply Z.div_mul; lia).
  rewrite Ew. cbv zeta. set (b := 2 ^ h). assert (Hh : 0 < h) by lia.
  assert (Eb : B = b * b) by (unfold LB, b; rewrite <- Z.pow_add_r by lia; f_equal; lia).
  assert (Hb : 2 <= b) by (unfold b; change 2 with (2 ^ 1) at 1; apply Z.pow_le_mono_r; lia).
  assert (Em : forall a, Z.land a (b - 1) = a mod b).
  { intros a. unfold b. rewrite <- Z.land_ones by lia. f_equal. rewrite Z.ones_equiv. lia. }
  rewrite !Em. rewrite !Z.shiftr_div_pow2, !Z.shiftl_mul_pow2 by lia. fold b. clearbody b. clear Em.
  unfold below in Hx, Hy.
  assert (S : forall a, 0 <= a < B -> 0 <= a / b < b /\ 0 <= a mod b < b /\ a = b * (a / b) + a mod b).
  { intros a Ha. split; [|split; [apply Z.mod_pos_bound; lia|apply Z.div_mod; lia]].
    split; [apply Z.div_pos; lia|apply Z.div_lt_upper_bound; lia]. }
  destruct (S x Hx) as (X1 & X2 & X3). destruct (S y Hy) as (Y1 & Y2 & Y3).
  remember (x / b) as u0 eqn:E0. clear E0. remember (x mod b) as u1 eqn:E0. clear E0.
  remember (y / b) as v0 eqn:E0. clear E0. remember (y mod b) as v1 eqn:E0. clear E0.
  assert (T1 : 0 <= u1 * v1 < B) by (rewrite Eb; apply pr_lt; assumption). rewrite (tr_small w (u1 * v1)) by exact T1. destruct (S _ T1) as (K1 & K2 & K3).
  remember (u1 * v1 / b) as k eqn:E0. clear E0. remember (u1 * v1 mod b) as w3 eqn:E0. clear E0.
  assert (T2 : 0 <= u0 * v1 + k < B) by (rewrite Eb; apply half_prod; assumption). rewrite (tr_small w (u0 * v1 + k)) by exact T2. destruct (S _ T2) as (W1 & W2 & W3).
  remember ((u0 * v1 + k) / b) as w1 eqn:E0. clear E0. remember ((u0 * v1 + k) mod b) as w2 eqn:E0. clear E0.
  assert (T3 : 0 <= u1 * v0 + w2 < B) by (rewrite Eb; apply half_prod; assumption). rewrite (tr_small w (u1 * v0 + w2)) by exact T3. destruct (S _ T3) as (Q1 & Q2 & Q3).
  assert (El : tr w ((u1 * v0 + w2) * b) = ((u1 * v0 + w2) mod b) * b).
  { unfold tr. rewrite Eb. apply Z.mul_mod_distr_r; lia. }
  rewrite El. clear El. remember ((u1 * v0 + w2) / b) as k2 eqn:E0. clear E0. remember ((u1 * v0 + w2) mod b) as w4 eqn:E0. clear E0.
  assert (Hlo : 0 <= w4 * b + w3 < B) by (rewrite Eb; apply combine_range; assumption). rewrite (tr_small w (w4 * b + w3)) by exact Hlo.
  assert (Exy : x * y = B * (u0 * v0 + w1 + k2) + (w4 * b + w3)).
  { rewrite X3, Y3, Eb. transitivity (b * b * (u0 * v0) + b * (u0 * v1) + b * (u1 * v0) + u1 * v1); [ring|].
    rewrite K3. replace (u0 * v1) with (b * w1 + w2 - k) by lia. replace (u1 * v0) with (b * k2 + w4 - w2) by lia. ring. }
  assert (Hhi : 0 <= u0 * v0 + w1 + k2 < B).
  { assert (0 <= u0 * v0) by (apply Z.mul_nonneg_nonneg; lia). split; [lia|]. pose proof (pr_lt x y B Hx Hy). apply (Z.mul_lt_mono_pos_l B); lia. }
  rewrite (tr_small w (u0 * v0 + w1 + k2)) by exact Hhi.
  unfold mp_mul, tr. f_equal.
  - apply Z.div_unique with (r := w4 * b + w3); [left; exact Hlo|exact Exy].
  - apply Z.mod_unique with (q := u0 * v0 + w1 + k2); [left; exact Hlo|exact Exy].
Qed.
Lemma mp_sqr_hd_spec : forall h x, w = 2 * h -> limb x -> mp_sqr_hd w x = mp_mul w x x.
Proof.
  intros h x Eh Hx. rewrite <- (mp_mul_hd_spec h x x Eh Hx Hx). unfold mp_sqr_hd, mp_mul_hd. cbv zeta.
  rewrite (Z.mul_comm (Z.land x (2 ^ (w / 2) - 1)) (Z.shiftr x (w / 2))).
  set (u := Z.shiftr x (w / 2) * Z.land x (2 ^ (w / 2) - 1)). 
  assert (Ew : w / 2 = h) by (rewrite Eh, Z.mul_comm; apply Z.div_mul; lia).
  assert (Eu : tr w u = u).
  { apply tr_small. unfold u. rewrite Ew. assert (Hh : 0 < h) by lia.
    replace (2 ^ h - 1) with (Z.ones h) by (rewrite Z.ones_equiv; lia). rewrite Z.land_ones, Z.shiftr_div_pow2 by lia.
    unfold below in *. set (b := 2 ^ h) in *. assert (Hb : 0 < b) by (unfold b; apply Z.pow_pos_nonneg; lia).
    assert (Eb : B = b * b) by (unfold LB, b; rewrite <- Z.pow_add_r by lia; f_equal; lia).
    pose proof (Z.mod_pos_bound x b Hb). assert (0 <= x / b < b) by (split; [apply Z.div_pos; lia|apply Z.div_lt_upper_bound; lia]). nia. }
  rewrite Eu. reflexivity.
Qed.
End MpnShift.
