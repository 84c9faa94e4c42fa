(* Signed products, quotients and shifts. *)
From Verif.Base Require Import Prelude.
From Verif.Model Require Import Encoding Hash Mpn Mpz.
From Verif.Proof Require Import MpnProof MpnShift MpnDiv MpzProof.

Ltac open_z H nx lx Nx Zx := destruct H as [(nx & lx & -> & Nx & Zx) <-]; rewrite (mkz_zval _ nx lx Zx).

Lemma quot_sg : forall a b x y, 0 <= x -> 0 < y -> Z.quot (sg a x) (sg b y) = sg (xorb a b) (x / y).
Proof.
  intros a b x y Hx Hy. assert (E : Z.quot x y = x / y) by (apply Z.quot_div_nonneg; lia).
  destruct a, b; unfold sg; cbn [xorb]; rewrite ?Z.quot_opp_l, ?Z.quot_opp_r, ?E by lia; lia.
Qed.
Lemma rem_sg : forall a b x y, 0 <= x -> 0 < y -> Z.rem (sg a x) (sg b y) = sg a (x mod y).
Proof.
  intros a b x y Hx Hy. assert (E : Z.rem x y = x mod y) by (apply Z.rem_mod_nonneg; lia).
  destruct a, b; unfold sg; rewrite ?Z.rem_opp_l, ?Z.rem_opp_r, ?E by lia; lia.
Qed.

Lemma sg_abs : forall u, sg (u <? 0) (Z.abs u) = u.
Proof. intros u. unfold sg. destruct (Z.ltb_spec u 0); lia. Qed.

Section MpzOps.
Variable w : Z.
Hypothesis Hw : 0 < w.
Notation B := (LB w).
Notation limb := (below (LB w)).
Notation limbs := (Forall (below (LB w))).
Notation val := (dval (LB w)).
Notation normal := (normal w).
Notation isz := (isz w).
Notation okz := (okz w).
Notation long := (long w).

Lemma Bpow_add : forall a b, B ^ Z.of_nat (a + b) = B ^ Z.of_nat a * B ^ Z.of_nat b.
Proof. intros a b. rewrite Nat2Z.inj_add, Z.pow_add_r by lia. reflexivity. Qed.
Lemma prod_low : forall x y, normal x -> normal y -> x <> [] -> y <> [] -> B ^ Z.of_nat (length x + length y - 2) <= val x * val y.
Proof.
  intros x y Nx Ny Hx Hy. pose proof (normal_pos w Hw x Nx Hx) as Px. pose proof (normal_pos w Hw y Ny Hy) as Py.
  replace (length x + length y - 2)%nat with ((length x - 1) + (length y - 1))%nat by (destruct x, y; try contradiction; cbn [length]; lia).
  rewrite Bpow_add. apply Z.mul_le_mono_nonneg; lia.
Qed.
Lemma nonempty_len : forall (l : list Z), (length l =? 0)%nat = false -> l <> [].
Proof. intros l H E. subst l. discriminate. Qed.

Lemma mul_lists : forall xl yl, normal xl -> normal yl -> xl <> [] -> yl <> [] ->
  let z := if (length yl =? 1)%nat then (let '(r, c) := mpn_mul_1 w xl (nth 0 yl 0) in r ++ [c]) else mpn_mul w xl yl in
  normal (drop_top z) /\ val (drop_top z) = val xl * val yl.
Proof.
  intros xl yl Nx Ny Hx Hy z.
  assert (G : length z = (length xl + length yl)%nat /\ limbs z /\ val z = val xl * val yl).
  { unfold z. destruct (Nat.eqb_spec (length yl) 1) as [E|E]; [|apply mpn_mul_spec; [exact Hw|exact (proj1 Nx)|exact (proj1 Ny)]].
    destruct yl as [|y [|]]; cbn [length] in E; try lia. cbn [nth]. unfold mpn_mul_1.
    pose proof (mul_1_loop_spec w Hw xl 0 y (proj1 Nx) (limb0 w Hw) (Forall_inv (proj1 Ny))) as M. destruct (mul_1_loop w 0 xl y) as [r c].
    destruct M as (M1 & M2 & M3 & M4). rewrite app_length, val_snoc, M1 by exact Hw. cbn [length]. split; [reflexivity|].
    split; [apply Forall_app; split; [exact M2|constructor; [exact M3|constructor]]|]. rewrite val_cons by exact Hw. cbn [dval]. lia. }
  clearbody z. destruct G as (G1 & G2 & G3). destruct (drop_top_spec w Hw z G2) as (D1 & D2); [|split; [exact D1|lia]].
  intros _. rewrite G1, G3. apply prod_low; assumption.
Qed.
Lemma mul_spec : forall x y u v, isz x u -> isz y v -> okz (mpz_mul w x y) (u * v).
Proof.
  intros x y u v Hx Hy. open_z Hx nx lx Nx Zx. open_z Hy ny ly Ny Zy. unfold mpz_mul. rewrite !mkz_size_0.
  destruct (length lx =? 0)%nat eqn:Ex; cbn [orb].
  { apply Nat.eqb_eq, length_zero_iff_nil in Ex. subst lx. rewrite (Zx eq_refl). apply okz_z, isz_0; try exact Hw. }
  destruct (length ly =? 0)%nat eqn:Ey.
  { apply Nat.eqb_eq, length_zero_iff_nil in Ey. subst ly. rewrite (Zy eq_refl). unfold sg at 2. cbn [dval]. rewrite Z.mul_0_r. apply okz_z, isz_0; try exact Hw. }
  apply nonempty_len in Ex, Ey. rewrite !lm_mkz, neg_ltb, !mkz_size_neg by assumption.
  assert (S : forall a b, sg (xorb nx ny) (a * b) = sg nx a * sg ny b) by (intros a b; destruct nx, ny; unfold sg; cbn [xorb]; lia).
  destruct (Nat.ltb_spec (length lx) (length ly)) as [L|L].
  - destruct (mul_lists ly lx Ny Nx Ey Ex) as (D1 & D2). apply okz_mkz; [exact D1|]. rewrite D2, Z.mul_comm. apply S.
  - destruct (mul_lists lx ly Nx Ny Ex Ey) as (D1 & D2). apply okz_mkz; [exact D1|]. rewrite D2. apply S.
Qed.
Lemma mul_ui_spec : forall x y u, isz x u -> limb y -> isz (mpz_mul_ui w x y) (u * y).
Proof.
  intros x y u Hx Hy. open_z Hx nx lx Nx Zx. unfold mpz_mul_ui. rewrite mkz_size_0.
  destruct (length lx =? 0)%nat eqn:Ex; cbn [orb].
  { apply Nat.eqb_eq, length_zero_iff_nil in Ex. subst lx. rewrite (Zx eq_refl). apply isz_0; try exact Hw. }
  destruct (Z.eqb_spec y 0) as [Ey|Ey]; [subst y; rewrite Z.mul_0_r; apply isz_0; try exact Hw|].
  apply nonempty_len in Ex. rewrite neg_p_mkz, lm_mkz by exact Zx. pose proof Hy as Hy'. unfold below in Hy'.
  assert (Ny : normal [y]) by (apply normal_last; [exact Hw|constructor; [exact Hy|constructor]|right; exact Ey]).
  destruct (mul_lists lx [y] Nx Ny Ex ltac:(discriminate)) as (D1 & D2). cbn [length Nat.eqb nth] in D1, D2.
  rewrite val_cons in D2 by exact Hw. cbn [dval] in D2. destruct (mpn_mul_1 w lx y) as [r c]. apply isz_mkz; [exact D1|]. rewrite D2. destruct nx; unfold sg; lia.
Qed.
Lemma mul_si_spec : forall x y u, isz x u -> long y -> isz (mpz_mul_si w x y) (u * y).
Proof.
  intros x y u Hx Hy. unfold mpz_mul_si. destruct (limb_cast_spec w Hw y Hy) as (E & L). pose proof (mul_ui_spec x _ u Hx L) as M.
  cbv zeta. destruct (Z.ltb_spec y 0).
  - replace (u * y) with (- (u * mp_limb_cast w y)) by (rewrite E, Z.abs_neq by lia; lia). apply neg_spec; [exact M].
  - replace (u * y) with (u * mp_limb_cast w y) by (rewrite E, Z.abs_eq by lia; lia). exact M.
Qed.
Lemma sqr_spec : forall scratch x u, 1 < w -> isz x u -> okz (mpz_sqr w scratch x) (u * u).
Proof.
  intros scratch x u Hw1 Hx. open_z Hx nx lx Nx Zx. unfold mpz_sqr. rewrite mkz_size_0, lm_mkz.
  destruct (length lx =? 0)%nat eqn:Ex.
  { apply Nat.eqb_eq, length_zero_iff_nil in Ex. subst lx. rewrite (Zx eq_refl). apply okz_z, isz_0; try exact Hw. }
  apply nonempty_len in Ex. replace (sg nx (val lx) * sg nx (val lx)) with (val lx * val lx) by (destruct nx; unfold sg; lia).
  pose proof (prod_low lx lx Nx Nx Ex Ex) as PL.
  assert (G : exists z, (if (length lx =? 1)%nat then let '(hi, lo) := mp_mul w (nth 0 lx 0) (nth 0 lx 0) in Ok [lo; hi]
          else if scratch then mpn_sqr w lx else Ok (mpn_mul w lx lx)) = Ok z /\ length z = (length lx + length lx)%nat /\ limbs z /\ val z = val lx * val lx).
  { destruct (Nat.eqb_spec (length lx) 1) as [E|E].
    - destruct lx as [|a [|]]; cbn [length] in E; try lia. cbn [nth]. pose proof (mp_mul_spec w Hw a a (Forall_inv (proj1 Nx)) (Forall_inv (proj1 Nx))) as M.
      destruct (mp_mul w a a) as [hi lo]. destruct M as (M1 & M2 & M3 & _). exists [lo; hi]. split; [reflexivity|]. split; [reflexivity|].
      split; [constructor; [exact M2|constructor; [exact M1|constructor]]|]. rewrite !val_cons by exact Hw. cbn [dval]. rewrite Z.mul_0_r, !Z.add_0_r. lia.
    - destruct scratch.
      + pose proof (mpn_sqr_spec w Hw lx (proj1 Nx) ltac:(lia)) as M. destruct (mpn_sqr w lx) as [z| |]; [|contradiction|contradiction].
        destruct M as (M1 & M2 & M3). exists z. split; [reflexivity|]. split; [lia|]. split; assumption.
      + exists (mpn_mul w lx lx). split; [reflexivity|]. apply mpn_mul_spec; [exact Hw|exact (proj1 Nx)|exact (proj1 Nx)]. }
  destruct G as (z & Ez & G1 & G2 & G3). rewrite Ez. cbn [bind]. destruct (drop_top_spec w Hw z G2) as (D1 & D2).
  { intros _. rewrite G1, G3. exact PL. }
  apply okz_mkz; [exact D1|]. rewrite D2, G3. reflexivity.
Qed.
Lemma isz_size0 : forall x u, isz x u -> (size x =? 0) = true -> u = 0.
Proof.
  intros x u Hx. open_z Hx nx lx Nx Zx. rewrite mkz_size_0. intros E. apply Nat.eqb_eq, length_zero_iff_nil in E. subst lx. destruct nx; reflexivity.
Qed.
Lemma isz_neg : forall x u, isz x u -> (size x <? 0) = (u <? 0).
Proof.
  intros x u Hx. pose proof (sgn_spec w Hw x u Hx) as G. unfold mpz_sgn in G. destruct (Z.eqb_spec (size x) 0) as [E|E].
  - symmetry in G. apply (proj1 (Z.sgn_null_iff _)) in G. subst u. rewrite E. reflexivity.
  - destruct (Z.ltb_spec (size x) 0) as [H|H]; symmetry in G; [apply (proj1 (Z.sgn_neg_iff _)) in G|apply (proj1 (Z.sgn_pos_iff _)) in G]; symmetry; [apply Z.ltb_lt|apply Z.ltb_ge]; lia.
Qed.
Lemma addmul_spec : forall z x y t u v, isz z t -> isz x u -> isz y v -> okz (mpz_addmul w z x y) (t + u * v).
Proof.
  intros z x y t u v Hz Hx Hy. unfold mpz_addmul. destruct (size x =? 0) eqn:Ex; cbn [orb].
  { rewrite (isz_size0 x u Hx Ex). replace (t + 0 * v) with t by lia. apply okz_z. exact Hz. }
  destruct (size y =? 0) eqn:Ey.
  { rewrite (isz_size0 y v Hy Ey). replace (t + u * 0) with t by lia. apply okz_z. exact Hz. }
  destruct (mul_spec x y u v Hx Hy) as (p & Ep & Hp). rewrite Ep. cbn [bind]. apply add_spec; assumption.
Qed.
Lemma submul_spec : forall z x y t u v, isz z t -> isz x u -> isz y v -> okz (mpz_submul w z x y) (t - u * v).
Proof.
  intros z x y t u v Hz Hx Hy. unfold mpz_submul. destruct (size x =? 0) eqn:Ex; cbn [orb].
  { rewrite (isz_size0 x u Hx Ex). replace (t - 0 * v) with t by lia. apply okz_z. exact Hz. }
  destruct (size y =? 0) eqn:Ey.
  { rewrite (isz_size0 y v Hy Ey). replace (t - u * 0) with t by lia. apply okz_z. exact Hz. }
  destruct (mul_spec x y u v Hx Hy) as (p & Ep & Hp). rewrite Ep. cbn [bind]. apply sub_spec; assumption.
Qed.
Lemma addmul_ui_spec : forall z x y t u, isz z t -> isz x u -> limb y -> okz (mpz_addmul_ui w z x y) (t + u * y).
Proof.
  intros z x y t u Hz Hx Hy. unfold mpz_addmul_ui. destruct (size x =? 0) eqn:Ex; cbn [orb].
  { rewrite (isz_size0 x u Hx Ex). replace (t + 0 * y) with t by lia. apply okz_z. exact Hz. }
  destruct (Z.eqb_spec y 0) as [E|E]; [subst y; replace (t + u * 0) with t by lia; apply okz_z; exact Hz|].
  apply add_spec; [exact Hw|exact Hz|apply mul_ui_spec; assumption].
Qed.
Lemma submul_ui_spec : forall z x y t u, isz z t -> isz x u -> limb y -> okz (mpz_submul_ui w z x y) (t - u * y).
Proof.
  intros z x y t u Hz Hx Hy. unfold mpz_submul_ui. destruct (size x =? 0) eqn:Ex; cbn [orb].
  { rewrite (isz_size0 x u Hx Ex). replace (t - 0 * y) with t by lia. apply okz_z. exact Hz. }
  destruct (Z.eqb_spec y 0) as [E|E]; [subst y; replace (t - u * 0) with t by lia; apply okz_z; exact Hz|].
  apply sub_spec; [exact Hw|exact Hz|apply mul_ui_spec; assumption].
Qed.
Lemma addmul_si_spec : forall z x y t u, isz z t -> isz x u -> long y -> okz (mpz_addmul_si w z x y) (t + u * y).
Proof.
  intros z x y t u Hz Hx Hy. unfold mpz_addmul_si. destruct (limb_cast_spec w Hw y Hy) as (E & L). destruct (Z.ltb_spec y 0).
  - replace (t + u * y) with (t - u * mp_limb_cast w y) by (rewrite E, Z.abs_neq by lia; lia). apply submul_ui_spec; assumption.
  - apply addmul_ui_spec; [exact Hz|exact Hx|apply long_limb; assumption].
Qed.
Lemma submul_si_spec : forall z x y t u, isz z t -> isz x u -> long y -> okz (mpz_submul_si w z x y) (t - u * y).
Proof.
  intros z x y t u Hz Hx Hy. unfold mpz_submul_si. destruct (limb_cast_spec w Hw y Hy) as (E & L). destruct (Z.ltb_spec y 0).
  - replace (t - u * y) with (t + u * mp_limb_cast w y) by (rewrite E, Z.abs_neq by lia; lia). apply addmul_ui_spec; assumption.
  - apply submul_ui_spec; [exact Hz|exact Hx|apply long_limb; assumption].
Qed.

(* division *)
Lemma quot_low : forall n d, normal n -> limbs d -> 0 < val d -> (length d < length n)%nat -> B ^ Z.of_nat (length n - length d - 1) <= val n / val d.
Proof.
  intros n d Nn Hd Pd L. apply Z.div_le_lower_bound; [lia|]. pose proof (normal_pos w Hw n Nn ltac:(intros E; subst n; cbn [length] in L; lia)) as P.
  pose proof (val_range w Hw d Hd) as R. replace (length n - 1)%nat with (length d + (length n - length d - 1))%nat in P by lia. rewrite Bpow_add in P.
  pose proof (Bpow_pos w Hw (length n - length d - 1)) as Q.
  assert (val d * B ^ Z.of_nat (length n - length d - 1) <= B ^ Z.of_nat (length d) * B ^ Z.of_nat (length n - length d - 1)) by (apply Z.mul_le_mono_nonneg_r; lia). lia.
Qed.
Lemma quorem_spec : forall n d u v, isz n u -> isz d v -> v <> 0 ->
  exists q r, mpz_quorem w n d = Ok (q, r) /\ isz q (Z.quot u v) /\ isz r (Z.rem u v).
Proof.
  intros n d u v Hn Hd. open_z Hn nx lx Nx Zx. open_z Hd ny ly Ny Zy. intros Hv. unfold mpz_quorem. rewrite !lm_mkz.
  pose proof (val_range w Hw lx (proj1 Nx)) as Rx. pose proof (val_range w Hw ly (proj1 Ny)) as Ry.
  assert (Pv : 0 < val ly) by (destruct ny; unfold sg in Hv; lia).
  destruct (Nat.eqb_spec (length ly) 0) as [E|E]; [apply length_zero_iff_nil in E; subst ly; cbn [dval] in Pv; lia|].
  rewrite quot_sg, rem_sg by lia. rewrite (cmp2_spec w Hw) by assumption. destruct (Z.ltb_spec (Z.sgn (val lx - val ly)) 0) as [L|L].
  - apply sgn_lt0 in L. exists (mkz false []), (mkz nx lx). split; [reflexivity|]. rewrite Z.div_small, Z.mod_small by lia. split.
    + replace (sg (xorb nx ny) 0) with 0 by (destruct (xorb nx ny); reflexivity). apply isz_0; try exact Hw.
    + apply isz_mkz; [exact Nx|reflexivity].
  - assert (Ge : val ly <= val lx) by (destruct (Z.sgn_spec (val lx - val ly)) as [[H _]|[[H _]|[_ H]]]; lia).
    pose proof (mpn_divmod_spec w Hw lx ly (proj1 Nx) (proj1 Ny)) as M. destruct (mpn_divmod w lx ly) as [[q r]| |]; [|contradiction|].
    + destruct M as (_ & M1 & _ & M2 & M3 & M4 & M5 & M6 & M7). cbn [bind]. rewrite neg_ltb, !mkz_size_neg, neg_p_mkz by assumption.
      eexists _, _. split; [reflexivity|]. split.
      * destruct (drop_top_spec w Hw q M3) as (D1 & D2); [|apply isz_mkz; [exact D1|rewrite D2, M6; reflexivity]].
        intros L2. rewrite M2, M6 in *. replace (length lx - length ly + 1 - 2)%nat with (length lx - length ly - 1)%nat by lia.
        apply quot_low; [exact Nx|exact (proj1 Ny)|exact Pv|lia].
      * destruct (stripped_spec w Hw r M5) as (D1 & D2). apply isz_mkz; [exact D1|]. rewrite D2, M7. reflexivity.
    + exfalso. destruct M as [M|[M|M]].
      * subst ly. cbn [length] in E. lia.
      * pose proof (normal_len w Hw _ _ Nx Ny M). lia.
      * destruct (proj1 (normal_last w Hw ly (proj1 Ny)) Ny) as [E1|E1]; [subst ly; cbn [length] in E; lia|contradiction].
Qed.
Lemma quorem_0 : forall n, mpz_quorem w n (mkz false []) = Abort.
Proof. reflexivity. Qed.
Lemma quo_ui_spec : forall n d u, isz n u -> limb d -> d <> 0 ->
  exists q, mpz_quo_ui w n d = Ok (q, Z.abs u mod d) /\ isz q (Z.quot u d).
Proof.
  intros n d u Hn Hd Hd0. open_z Hn nx lx Nx Zx. unfold mpz_quo_ui. rewrite lm_mkz. pose proof Hd as Hd'. unfold below in Hd'.
  pose proof (val_range w Hw lx (proj1 Nx)) as Rx. replace (Z.abs (sg nx (val lx))) with (val lx) by (destruct nx; unfold sg; lia).
  destruct (Z.eqb_spec d 0) as [E|_]; [contradiction|]. pose proof (quot_sg nx false (val lx) d ltac:(lia) ltac:(lia)) as Q. unfold sg at 2 in Q. rewrite Q, xorb_false_r.
  destruct (Nat.eqb_spec (length lx) 0) as [E|E].
  { apply length_zero_iff_nil in E. subst lx. exists (mkz false []). cbn [dval]. rewrite Z.mod_0_l, Z.div_0_l by lia. split; [reflexivity|].
    replace (sg nx 0) with 0 by (destruct nx; reflexivity). apply isz_0; try exact Hw. }
  assert (Hne : lx <> []) by (intros E0; subst lx; cbn [length] in E; lia).
  destruct (Nat.eqb_spec (length lx) 1) as [E1|E1].
  - destruct lx as [|a [|]]; cbn [length] in E1; try lia. cbn [nth andb]. assert (Va : val [a] = a) by (rewrite val_cons by exact Hw; cbn [dval]; lia).
    destruct (Z.ltb_spec a d) as [L|L].
    { exists (mkz false []). rewrite Va in *. rewrite Z.mod_small, Z.div_small by lia. split; [reflexivity|]. replace (sg nx 0) with 0 by (destruct nx; reflexivity). apply isz_0; try exact Hw. }
    pose proof (mpn_divmod_1_spec w Hw [a] d (proj1 Nx) Hd) as M. destruct (mpn_divmod_1 w [a] d) as [[q r]| |]; [|contradiction|contradiction].
    destruct M as (_ & M1 & M2 & M3 & M4). cbn [bind]. rewrite neg_p_mkz by exact Zx. eexists. split; [rewrite M4; reflexivity|].
    destruct (drop_top_spec w Hw q M2) as (D1 & D2); [rewrite M1; cbn [length]; lia|]. apply isz_mkz; [exact D1|]. rewrite D2, M3. reflexivity.
  - cbn [andb]. pose proof (mpn_divmod_1_spec w Hw lx d (proj1 Nx) Hd) as M. destruct (mpn_divmod_1 w lx d) as [[q r]| |]; [|contradiction|contradiction].
    destruct M as (_ & M1 & M2 & M3 & M4). cbn [bind]. rewrite neg_p_mkz by exact Zx. eexists. split; [rewrite M4; reflexivity|].
    destruct (drop_top_spec w Hw q M2) as (D1 & D2); [|apply isz_mkz; [exact D1|rewrite D2, M3; reflexivity]].
    intros L2. rewrite M1, M3. assert (Vd : val [d] = d) by (rewrite val_cons by exact Hw; cbn [dval]; lia).
    pose proof (quot_low lx [d] Nx ltac:(constructor; [exact Hd|constructor]) ltac:(lia)) as QL. rewrite Vd in QL. cbn [length] in QL. replace (length lx - 2)%nat with (length lx - 1 - 1)%nat by lia. apply QL. lia.
Qed.
Lemma quo_si_spec : forall n d u, isz n u -> long d -> d <> 0 ->
  exists q, mpz_quo_si w n d = Ok (q, Z.rem u d) /\ isz q (Z.quot u d).
Proof.
  intros n d u Hn Hd Hd0. unfold mpz_quo_si. destruct (limb_cast_spec w Hw d Hd) as (E & L).
  destruct (quo_ui_spec n _ u Hn L ltac:(lia)) as (q & Eq & Hq). rewrite Eq. cbn [bind]. rewrite (isz_neg n u Hn). rewrite E in *.
  assert (R : (if u <? 0 then - (Z.abs u mod Z.abs d) else Z.abs u mod Z.abs d) = Z.rem u d).
  { pose proof (rem_sg (u <? 0) (d <? 0) (Z.abs u) (Z.abs d) (Z.abs_nonneg u) (proj2 (Z.abs_pos d) Hd0)) as R. rewrite !sg_abs in R. symmetry. exact R. }
  rewrite R. eexists. split; [reflexivity|]. destruct (Z.ltb_spec d 0) as [N|N].
  - replace (Z.quot u d) with (- Z.quot u (Z.abs d)) by (rewrite Z.abs_neq, Z.quot_opp_r by lia; lia). apply neg_spec; [exact Hq].
  - rewrite Z.abs_eq in Hq by lia. exact Hq.
Qed.
Lemma limb1 : limb 1.
Proof. pose proof (LB_ge2 w Hw). unfold below. lia. Qed.
Lemma divmod_spec : forall n d u v, isz n u -> isz d v -> v <> 0 ->
  exists q r qv rv, mpz_divmod w n d = Ok (q, r) /\ isz q qv /\ isz r rv /\ u = qv * v + rv /\ 0 <= rv < Z.abs v.
Proof.
  intros n d u v Hn Hd Hv. unfold mpz_divmod. rewrite (isz_neg n u Hn). destruct (quorem_spec n d u v Hn Hd Hv) as (q & r & E & Hq & Hr).
  pose proof (Z.quot_rem' u v) as QR. destruct (Z.ltb_spec u 0) as [L|L].
  - rewrite E. cbn [bind]. rewrite (isz_neg r _ Hr), (isz_neg d v Hd). pose proof (Z.rem_nonpos u v Hv ltac:(lia)) as Rn. pose proof (Z.rem_bound_abs u v Hv) as Rb.
    destruct (Z.ltb_spec (Z.rem u v) 0) as [N|N].
    + destruct (Z.ltb_spec v 0) as [Nv|Nv].
      * destruct (add_ui_spec w Hw q 1 _ Hq limb1) as (q' & Eq & Hq'). rewrite Eq. cbn [bind].
        destruct (sub_spec w Hw r d _ _ Hr Hd) as (r' & Er & Hr'). rewrite Er. cbn [bind]. eexists _, _, _, _. split; [reflexivity|]. split; [exact Hq'|]. split; [exact Hr'|]. lia.
      * destruct (sub_ui_spec w Hw q 1 _ Hq limb1) as (q' & Eq & Hq'). rewrite Eq. cbn [bind].
        destruct (add_spec w Hw r d _ _ Hr Hd) as (r' & Er & Hr'). rewrite Er. cbn [bind]. eexists _, _, _, _. split; [reflexivity|]. split; [exact Hq'|]. split; [exact Hr'|]. lia.
    + eexists _, _, _, _. split; [reflexivity|]. split; [exact Hq|]. split; [exact Hr|]. lia.
  - pose proof (Z.rem_nonneg u v Hv ltac:(lia)) as Rn. pose proof (Z.rem_bound_abs u v Hv) as Rb.
    eexists _, _, _, _. split; [exact E|]. split; [exact Hq|]. split; [exact Hr|]. lia.
Qed.
Lemma div_ui_spec : forall n d u, isz n u -> limb d -> d <> 0 ->
  exists q, mpz_div_ui w n d = Ok (q, u mod d) /\ isz q (u / d).
Proof.
  intros n d u Hn Hd Hd0. unfold mpz_div_ui. destruct (quo_ui_spec n d u Hn Hd Hd0) as (q & E & Hq). rewrite E. cbn [bind]. rewrite (isz_neg n u Hn). unfold below in Hd.
  pose proof (Z.mod_pos_bound (Z.abs u) d ltac:(lia)) as Rb. pose proof (Z.div_mod (Z.abs u) d Hd0) as DM.
  pose proof (quot_sg (u <? 0) false (Z.abs u) d ltac:(lia) ltac:(lia)) as Q. unfold sg in Q. rewrite xorb_false_r in Q.
  destruct (Z.ltb_spec u 0) as [L|L].
  - replace (- Z.abs u) with u in Q by lia. cbn [andb]. destruct (Z.eqb_spec (Z.abs u mod d) 0) as [E0|E0]; cbn [negb].
    + assert (U : u / d = Z.quot u d /\ u mod d = 0) by (destruct (div_eq_bounds u d (Z.quot u d)); lia). destruct U as (U1 & U2). rewrite U1, U2, E0. eexists. split; [reflexivity|exact Hq].
    + destruct (sub_ui_spec w Hw q 1 _ Hq limb1) as (q' & Eq & Hq'). rewrite Eq. cbn [bind]. rewrite tr_small by (unfold below; lia).
      assert (U : u / d = Z.quot u d - 1 /\ u mod d = d - Z.abs u mod d) by (destruct (div_eq_bounds u d (Z.quot u d - 1)); lia). destruct U as (U1 & U2). rewrite U1, U2. eexists. split; [reflexivity|exact Hq'].
  - cbn [andb]. rewrite Z.abs_eq in * by lia. rewrite Q in Hq. eexists. split; [reflexivity|exact Hq].
Qed.
Lemma div_si_spec : forall n d u, isz n u -> long d -> d <> 0 ->
  exists q r qv, mpz_div_si w n d = Ok (q, r) /\ isz q qv /\ u = qv * d + r /\ 0 <= r < Z.abs d.
Proof.
  intros n d u Hn Hd Hd0. unfold mpz_div_si. destruct (quo_si_spec n d u Hn Hd Hd0) as (q & E & Hq). rewrite E. cbn [bind].
  pose proof (Z.quot_rem' u d) as QR. pose proof (Z.rem_bound_abs u d Hd0) as Rb. destruct (Z.ltb_spec (Z.rem u d) 0) as [L|L].
  - destruct (Z.ltb_spec d 0) as [N|N].
    + destruct (add_ui_spec w Hw q 1 _ Hq limb1) as (q' & Eq & Hq'). rewrite Eq. cbn [bind]. eexists _, _, _. split; [reflexivity|]. split; [exact Hq'|]. lia.
    + destruct (sub_ui_spec w Hw q 1 _ Hq limb1) as (q' & Eq & Hq'). rewrite Eq. cbn [bind]. eexists _, _, _. split; [reflexivity|]. split; [exact Hq'|]. lia.
  - eexists _, _, _. split; [reflexivity|]. split; [exact Hq|]. lia.
Qed.
End MpzOps.
