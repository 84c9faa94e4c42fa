(* Signed integers: every operation is exact and leaves a canonical record. *)
From Verif.Base Require Import Prelude.
From Verif.Model Require Import Encoding Hash Mpn Mpz.
From Verif.Proof Require Import MpnProof MpnShift MpnDiv.

Definition sg (neg : bool) (v : Z) : Z := if neg then - v else v.

Lemma sgn_lt0 : forall a, Z.sgn a < 0 -> a < 0.
Proof. intros a H. destruct a; cbn in H; lia. Qed.

Section MpzProof.
Variable w : Z.
Hypothesis Hw : 0 < w.
Notation B := (LB w).
Notation limb := (below (LB w)).
Notation limbs := (Forall (below (LB w))).
Notation val := (dval (LB w)).

Definition normal (l : list Z) : Prop := limbs l /\ (l = [] \/ B ^ Z.of_nat (length l - 1) <= val l).
Definition canon (x : mpz) : Prop := exists neg l, x = mkz neg l /\ normal l /\ (l = [] -> neg = false).
Definition zval (x : mpz) : Z := sg (size x <? 0) (val (lm x)).
Definition isz (x : mpz) (v : Z) : Prop := canon x /\ zval x = v.

Lemma normal_nil : normal [].
Proof. split; [constructor|left; reflexivity]. Qed.
Lemma normal_pos : forall l, normal l -> l <> [] -> 1 <= B ^ Z.of_nat (length l - 1) <= val l.
Proof.
  intros l [H1 [H2|H2]] Hn; [contradiction|]. pose proof (Bpow_pos w Hw (length l - 1)). lia.
Qed.
Lemma normal_0 : forall l, normal l -> val l = 0 -> l = [].
Proof. intros l H E. destruct l as [|a l]; [reflexivity|]. pose proof (normal_pos _ H ltac:(discriminate)). lia. Qed.
Lemma normal_last : forall l, limbs l -> (normal l <-> l = [] \/ last l 0 <> 0).
Proof.
  intros l Hl. split.
  - intros [_ [E|E]]; [left; exact E|]. destruct l as [|a l]; [left; reflexivity|]. right. intros E0.
    assert (Hn : a :: l <> []) by discriminate. pose proof (val_last w Hw _ Hn Hl) as R. rewrite E0 in R. lia.
  - intros [E|E]; [subst l; apply normal_nil|]. split; [exact Hl|]. destruct l as [|a l]; [left; reflexivity|]. right.
    assert (Hn : a :: l <> []) by discriminate. pose proof (val_last w Hw _ Hn Hl) as R.
    pose proof (last_limb w _ Hl Hn) as L. unfold below in L. pose proof (Bpow_pos w Hw (length (a :: l) - 1)) as P.
    set (T := last (a :: l) 0) in *. clearbody T. assert (1 <= T) by lia.
    pose proof (Z.mul_le_mono_nonneg_r 1 T (B ^ Z.of_nat (length (a :: l) - 1)) ltac:(lia) ltac:(lia)). lia.
Qed.
Lemma Bpow_le : forall a b, (a <= b)%nat -> B ^ Z.of_nat a <= B ^ Z.of_nat b.
Proof. intros a b H. pose proof (LB_ge2 w Hw). apply Z.pow_le_mono_r; lia. Qed.
Lemma normal_len : forall x y, normal x -> normal y -> (length x < length y)%nat -> val x < val y.
Proof.
  intros x y Hx Hy H. assert (Hn : y <> []) by (intros E; subst y; cbn [length] in H; lia).
  pose proof (normal_pos _ Hy Hn). pose proof (val_range w Hw x (proj1 Hx)). pose proof (Bpow_le (length x) (length y - 1) ltac:(lia)). lia.
Qed.
Lemma normal_inj : forall x y, normal x -> normal y -> val x = val y -> x = y.
Proof.
  intros x y Hx Hy E. assert (El : length x = length y).
  { destruct (Nat.lt_total (length x) (length y)) as [L|[L|L]]; [pose proof (normal_len x y Hx Hy L); lia|exact L|pose proof (normal_len y x Hy Hx L); lia]. }
  pose proof (LB_ge2 w Hw). apply (dval_inj B); [lia|exact (proj1 Hx)|exact (proj1 Hy)|exact El|exact E].
Qed.

Lemma mkz_size_neg : forall neg l, (l = [] -> neg = false) -> (size (mkz neg l) <? 0) = neg.
Proof.
  intros neg l H. unfold mkz. cbn [size]. destruct neg; [|apply Z.ltb_ge; lia].
  destruct l as [|a l]; [discriminate (H eq_refl)|]. apply Z.ltb_lt. cbn [length]. lia.
Qed.
Lemma mkz_size_0 : forall neg l, (size (mkz neg l) =? 0) = (length l =? 0)%nat.
Proof. intros neg l. unfold mkz. cbn [size]. destruct neg; destruct l; cbn [length]; [reflexivity| |reflexivity|]; apply Z.eqb_neq; lia. Qed.
Lemma mkz_nil : forall neg, mkz neg [] = mkz false [].
Proof. intros []; reflexivity. Qed.
Lemma mkz_zval : forall neg l, (l = [] -> neg = false) -> zval (mkz neg l) = sg neg (val l).
Proof. intros neg l H. unfold zval. rewrite mkz_size_neg by exact H. reflexivity. Qed.
Lemma isz_mkz : forall neg l v, normal l -> sg neg (val l) = v -> isz (mkz neg l) v.
Proof.
  intros neg l v Hl Hv. destruct l as [|a l].
  - rewrite mkz_nil. split; [exists false, []; split; [reflexivity|split; [exact Hl|reflexivity]]|].
    rewrite mkz_zval by reflexivity. destruct neg; unfold sg in *; cbn [dval] in *; lia.
  - split; [exists neg, (a :: l); split; [reflexivity|split; [exact Hl|discriminate]]|]. rewrite mkz_zval by discriminate. exact Hv.
Qed.
Lemma isz_0 : isz (mkz false []) 0.
Proof. apply isz_mkz; [apply normal_nil|reflexivity]. Qed.

Lemma isz_inj : forall x y v, isz x v -> isz y v -> x = y.
Proof.
  intros x y v [(nx & lx & Ex & Nx & Zx) Vx] [(ny & ly & Ey & Ny & Zy) Vy]. subst x y.
  rewrite mkz_zval in Vx, Vy by assumption. pose proof (val_range w Hw lx (proj1 Nx)) as Rx. pose proof (val_range w Hw ly (proj1 Ny)) as Ry.
  assert (E : val lx = val ly) by (destruct nx, ny; unfold sg in *; lia).
  pose proof (normal_inj lx ly Nx Ny E) as El. subst ly.
  destruct (Z.eq_dec (val lx) 0) as [E0|E0]; [apply normal_0 in E0; [|exact Nx]; subst lx; rewrite (Zx eq_refl), (Zy eq_refl); reflexivity|].
  destruct nx, ny; unfold sg in *; try reflexivity; lia.
Qed.

(* sign tests on the size fields *)
Lemma neg_ltb : forall a b, (Z.lxor a b <? 0) = xorb (a <? 0) (b <? 0).
Proof.
  intros a b. pose proof (Z.lxor_nonneg a b) as N. destruct (Z.ltb_spec (Z.lxor a b) 0) as [H|H], (Z.ltb_spec a 0) as [H1|H1], (Z.ltb_spec b 0) as [H2|H2]; cbn [xorb]; try reflexivity; exfalso.
  - assert (0 <= Z.lxor a b) by (apply N; lia). lia.
  - assert (0 <= Z.lxor a b) by (apply N; lia). lia.
  - apply N in H. lia.
  - apply N in H. lia.
Qed.
Lemma land_ltb : forall a b, (Z.land a b <? 0) = (a <? 0) && (b <? 0).
Proof.
  intros a b. pose proof (Z.land_neg a b) as N. destruct (Z.ltb_spec (Z.land a b) 0) as [H|H], (Z.ltb_spec a 0) as [H1|H1], (Z.ltb_spec b 0) as [H2|H2]; cbn [andb]; try reflexivity; exfalso; try (apply N in H; lia).
  assert (Z.land a b < 0) by (apply N; lia). lia.
Qed.
Lemma lor_ltb : forall a b, (Z.lor a b <? 0) = (a <? 0) || (b <? 0).
Proof.
  intros a b. pose proof (Z.lor_neg a b) as N. destruct (Z.ltb_spec (Z.lor a b) 0) as [H|H], (Z.ltb_spec a 0) as [H1|H1], (Z.ltb_spec b 0) as [H2|H2]; cbn [orb]; try reflexivity; exfalso; try (apply N in H; lia).
  all: assert (Z.lor a b < 0) by (apply N; lia); lia.
Qed.

(* trimming *)
Lemma stripped_spec : forall z, limbs z -> normal (stripped z) /\ val (stripped z) = val z.
Proof.
  intros z Hz. unfold stripped. destruct (mpn_strip_spec w (length z) z ltac:(lia)) as (S1 & S2 & S3). rewrite firstn_all in S2.
  split; [|exact S2]. apply normal_last; [apply Forall_firstn; exact Hz|].
  destruct S3 as [E|E]; [left; rewrite E; reflexivity|].
  destruct (mpn_strip z (length z)) as [|m] eqn:Em; [left; reflexivity|right].
  rewrite firstn_S_nth by lia. rewrite last_last. replace (S m - 1)%nat with m in E by lia. exact E.
Qed.
Lemma drop_top_spec : forall z, limbs z -> ((2 <= length z)%nat -> B ^ Z.of_nat (length z - 2) <= val z) ->
  normal (drop_top z) /\ val (drop_top z) = val z.
Proof.
  intros z Hz H2. unfold drop_top. destruct (length z) as [|n] eqn:El.
  { apply length_zero_iff_nil in El. subst z. split; [apply normal_nil|reflexivity]. }
  replace (S n - 1)%nat with n by lia.
  pose proof (val_firstn_S w z n ltac:(lia)) as V. rewrite firstn_all2 in V by lia.
  destruct (Z.eqb_spec (nth n z 0) 0) as [E|E]; cbn [Nat.b2n].
  - replace (S n - 1)%nat with n by lia. rewrite E, Z.mul_0_r, Z.add_0_r in V. split; [|symmetry; exact V].
    split; [apply Forall_firstn; exact Hz|]. destruct n as [|m]; [left; reflexivity|right].
    rewrite firstn_length_le by lia. replace (S m - 1)%nat with m by lia. rewrite <- V.
    replace (S (S m) - 2)%nat with m in H2 by lia. apply H2. lia.
  - rewrite Nat.sub_0_r, firstn_all2 by lia. split; [|reflexivity]. apply normal_last; [exact Hz|right].
    rewrite <- (firstn_skipn n z). assert (Es : skipn n z = [nth n z 0]).
    { clear - El. revert n El. induction z as [|a z IH]; intros n El; [discriminate|]. cbn [length] in El. destruct n as [|n].
      - assert (length z = 0)%nat by lia. apply length_zero_iff_nil in H. subst z. reflexivity.
      - cbn [skipn nth]. apply IH. lia. }
    rewrite Es, last_last. exact E.
Qed.

(* comparison *)
Lemma cmp2_spec : forall x y, normal x -> normal y -> mpn_cmp2 x y = Z.sgn (val x - val y).
Proof.
  intros x y Hx Hy. unfold mpn_cmp2. destruct (Nat.eqb_spec (length x) (length y)) as [E|E]; cbn [negb].
  - apply mpn_cmp_full; [exact Hw|exact (proj1 Hx)|exact (proj1 Hy)|exact E].
  - destruct (Nat.ltb_spec (length x) (length y)) as [L|L].
    + pose proof (normal_len x y Hx Hy L). symmetry. apply Z.sgn_neg. lia.
    + pose proof (normal_len y x Hy Hx ltac:(lia)). symmetry. apply Z.sgn_pos. lia.
Qed.
Lemma cmp_1_spec : forall x y, normal x -> limb y -> mpn_cmp_1 x y = Z.sgn (val x - y).
Proof.
  intros x y Hx Hy. unfold mpn_cmp_1, below in *. destruct (Nat.ltb_spec 1 (length x)) as [L|L].
  - symmetry. apply Z.sgn_pos. assert (Hn : x <> []) by (intros E; subst x; cbn [length] in L; lia).
    pose proof (normal_pos x Hx Hn). pose proof (Bpow_le 1 (length x - 1) ltac:(lia)) as P. change (Z.of_nat 1) with 1 in P. rewrite Z.pow_1_r in P. lia.
  - assert (E : val x = nth 0 x 0).
    { destruct x as [|a [|b x]]; cbn [length] in L; [reflexivity| |lia]. rewrite val_cons by exact Hw. cbn [dval nth]. lia. }
    rewrite E. set (a := nth 0 x 0). destruct (Z.eqb_spec a y) as [Ea|Ea]; cbn [negb]; [rewrite Ea, Z.sub_diag; reflexivity|].
    destruct (Z.ltb_spec a y); symmetry; [apply Z.sgn_neg|apply Z.sgn_pos]; lia.
Qed.

(* absolute sums and differences *)
Lemma carry_top : forall (z : list Z) c n, length z = n -> limbs z -> carry c -> (1 <= n)%nat -> B ^ Z.of_nat (n - 1) <= val z + B ^ Z.of_nat n * c ->
  normal (firstn (n + Nat.b2n (negb (c =? 0))) (z ++ [c])) /\ val (firstn (n + Nat.b2n (negb (c =? 0))) (z ++ [c])) = val z + B ^ Z.of_nat n * c.
Proof.
  intros z c n El Hz Hc Hn HV. unfold carry in Hc. pose proof (LB_ge2 w Hw). destruct (Z.eqb_spec c 0) as [E|E]; cbn [negb Nat.b2n].
  - subst c. rewrite Nat.add_0_r, firstn_app_exact by exact El. rewrite Z.mul_0_r, Z.add_0_r in *. split; [|reflexivity].
    split; [exact Hz|right]. rewrite El. exact HV.
  - assert (c = 1) by lia. subst c. rewrite firstn_all2 by (rewrite app_length; cbn [length]; lia). rewrite val_snoc, El by exact Hw.
    split; [|reflexivity]. split; [apply Forall_app; split; [exact Hz|constructor; [unfold below; lia|constructor]]|right].
    rewrite app_length, val_snoc, El by exact Hw. cbn [length]. replace (n + 1 - 1)%nat with n by lia. pose proof (val_range w Hw z Hz). lia.
Qed.
Lemma addabs_lists : forall xl yl, normal xl -> normal yl -> (length yl <= length xl)%nat ->
  exists l, bind (mpn_add w xl yl) (fun '(z, c) => Ok (firstn (length xl + Nat.b2n (negb (c =? 0))) (z ++ [c]))) = Ok l /\ normal l /\ val l = val xl + val yl.
Proof.
  intros xl yl Hx Hy Hl. pose proof (mpn_add_spec w Hw xl yl (proj1 Hx) (proj1 Hy)) as S. destruct (mpn_add w xl yl) as [[z c]| |]; [|contradiction|lia].
  destruct S as (_ & S1 & S2 & S3 & S4). cbn [bind]. eexists. split; [reflexivity|].
  destruct xl as [|a xl].
  - destruct yl; [|cbn [length] in Hl; lia]. cbn [length] in S1. apply length_zero_iff_nil in S1. subst z. cbn [dval length] in *. change (B ^ Z.of_nat 0) with 1 in S4.
    assert (c = 0) by lia. subst c. cbn. split; [apply normal_nil|reflexivity].
  - pose proof (normal_pos (a :: xl) Hx ltac:(discriminate)) as P. pose proof (val_range w Hw yl (proj1 Hy)) as Ry.
    destruct (carry_top z c (length (a :: xl)) S1 S2 S3 ltac:(cbn [length]; lia)) as (C1 & C2); [lia|]. split; [exact C1|lia].
Qed.
Lemma addabs_spec : forall x y, normal (lm x) -> normal (lm y) ->
  exists l, mpz_addabs w x y = Ok l /\ normal l /\ val l = val (lm x) + val (lm y).
Proof.
  intros x y Hx Hy. unfold mpz_addabs. destruct (Nat.ltb_spec (length (lm x)) (length (lm y))) as [L|L].
  - destruct (addabs_lists (lm y) (lm x) Hy Hx ltac:(lia)) as (l & E & N & V). exists l. split; [exact E|split; [exact N|lia]].
  - destruct (addabs_lists (lm x) (lm y) Hx Hy ltac:(lia)) as (l & E & N & V). exists l. split; [exact E|split; [exact N|lia]].
Qed.
Lemma addabs_ui_spec : forall x y, normal (lm x) -> limb y ->
  normal (mpz_addabs_ui w x y) /\ val (mpz_addabs_ui w x y) = val (lm x) + y.
Proof.
  intros x y Hx Hy. unfold mpz_addabs_ui. destruct (lm x) as [|a l] eqn:El.
  - cbn [mpn_add_1 length]. unfold below in Hy. destruct (Z.eqb_spec y 0) as [E|E]; cbn [negb Nat.b2n Nat.add app firstn].
    + subst y. split; [apply normal_nil|reflexivity].
    + rewrite val_cons by exact Hw. cbn [dval]. split; [|lia]. apply normal_last; [constructor; [exact Hy|constructor]|right; exact E].
  - pose proof (add_1_spec w Hw (a :: l) y (proj1 Hx) Hy ltac:(discriminate)) as S. destruct (mpn_add_1 w (a :: l) y) as [z c].
    destruct S as (S1 & S2 & S3 & S4). pose proof (normal_pos (a :: l) Hx ltac:(discriminate)) as P. unfold below in Hy.
    destruct (carry_top z c (length (a :: l)) S1 S2 S3 ltac:(cbn [length]; lia)) as (C1 & C2); [lia|]. split; [exact C1|lia].
Qed.
Lemma subabs_spec : forall x y, normal (lm x) -> normal (lm y) -> val (lm y) <= val (lm x) ->
  exists l, mpz_subabs w x y = Ok l /\ normal l /\ val l = val (lm x) - val (lm y).
Proof.
  intros x y Hx Hy Hle. unfold mpz_subabs. pose proof (mpn_sub_spec w Hw (lm x) (lm y) (proj1 Hx) (proj1 Hy)) as S.
  destruct (mpn_sub w (lm x) (lm y)) as [[z c]| |]; [|contradiction|pose proof (normal_len _ _ Hx Hy S); lia].
  destruct S as (_ & S1 & S2 & S3 & S4). pose proof (val_range w Hw z S2) as Rz. rewrite S1 in Rz. unfold carry in S3. cbn [bind].
  assert (c = 0). { destruct (Z.eq_dec c 0) as [E|E]; [exact E|]. assert (c = 1) by lia. subst c. lia. } subst c. cbn [Z.eqb].
  destruct (stripped_spec z S2) as (T1 & T2). exists (stripped z). split; [reflexivity|split; [exact T1|lia]].
Qed.
Lemma subabs_ui_spec : forall x y, normal (lm x) -> limb y -> y <= val (lm x) ->
  exists l, mpz_subabs_ui w x y = Ok l /\ normal l /\ val l = val (lm x) - y.
Proof.
  intros x y Hx Hy Hle. unfold mpz_subabs_ui. destruct (lm x) as [|a l] eqn:El.
  - cbn [dval] in Hle. unfold below in Hy. assert (y = 0) by lia. subst y. cbn. exists []. split; [reflexivity|split; [apply normal_nil|reflexivity]].
  - pose proof (sub_1_spec w Hw (a :: l) y (proj1 Hx) Hy ltac:(discriminate)) as S. destruct (mpn_sub_1 w (a :: l) y) as [z c].
    destruct S as (S1 & S2 & S3 & S4). pose proof (val_range w Hw z S2) as Rz. rewrite S1 in Rz. unfold carry in S3.
    assert (c = 0). { destruct (Z.eq_dec c 0) as [E|E]; [exact E|]. assert (c = 1) by lia. subst c. lia. } subst c. cbn [Z.eqb negb].
    replace (length (a :: l) =? 0)%nat with false by reflexivity. exists (drop_top z). split; [reflexivity|].
    destruct (drop_top_spec z S2) as (T1 & T2); [|split; [exact T1|lia]]. intros L2. rewrite S1 in *.
    pose proof (normal_pos (a :: l) Hx ltac:(discriminate)) as P. unfold below in Hy.
    set (m := (length (a :: l) - 2)%nat) in *. replace (length (a :: l) - 1)%nat with (S m) in P by lia. rewrite Bpow_S in P.
    pose proof (Bpow_pos w Hw m) as Pm. pose proof (LB_ge2 w Hw) as B2.
    assert (B * B ^ Z.of_nat m - B + 1 <= val z) by lia.
    assert (B - 1 <= (B - 1) * B ^ Z.of_nat m) by (pose proof (Z.mul_le_mono_nonneg_l 1 (B ^ Z.of_nat m) (B - 1) ltac:(lia) ltac:(lia)); lia). lia.
Qed.

(* addition and subtraction *)
Lemma neg_p_mkz : forall neg l, (l = [] -> neg = false) -> neg_p (mkz neg l) = neg.
Proof. exact mkz_size_neg. Qed.
Lemma add_sub_core : forall nx lx y, normal lx -> (lx = [] -> nx = false) -> normal (lm y) ->
  let x := mkz nx lx in
  exists l neg, (let cmp := mpz_cmpabs x y in
    if cmp =? 0 then Ok (mkz (neg_p x) [])
    else if cmp <? 0 then bind (mpz_subabs w y x) (fun z => Ok (mkz (negb (neg_p x)) z))
    else bind (mpz_subabs w x y) (fun z => Ok (mkz (neg_p x) z))) = Ok (mkz neg l) /\ normal l /\ sg neg (val l) = sg nx (val lx - val (lm y)).
Proof.
  intros nx lx y Nx Zx Ny x. unfold x at 2 4 6. rewrite neg_p_mkz by exact Zx. unfold mpz_cmpabs. replace (lm x) with lx by reflexivity.
  cbv zeta. rewrite cmp2_spec by assumption.
  destruct (Z.eqb_spec (Z.sgn (val lx - val (lm y))) 0) as [E|E].
  - exists [], nx. split; [reflexivity|split; [apply normal_nil|]]. apply (proj1 (Z.sgn_null_iff _)) in E. rewrite E. reflexivity.
  - destruct (Z.ltb_spec (Z.sgn (val lx - val (lm y))) 0) as [L|L].
    + apply sgn_lt0 in L. destruct (subabs_spec y x Ny Nx) as (l & E1 & E2 & E3); [replace (lm x) with lx by reflexivity; lia|].
      replace (lm x) with lx in E3 by reflexivity. rewrite E1. cbn [bind]. exists l, (negb nx). split; [reflexivity|split; [exact E2|]]. rewrite E3. destruct nx; unfold sg; cbn [negb]; lia.
    + assert (0 < val lx - val (lm y)) by (destruct (Z.sgn_spec (val lx - val (lm y))) as [[H _]|[[_ H]|[_ H]]]; lia).
      destruct (subabs_spec x y Nx Ny) as (l & E1 & E2 & E3); [replace (lm x) with lx by reflexivity; lia|].
      replace (lm x) with lx in E3 by reflexivity. rewrite E1. cbn [bind]. exists l, nx. split; [reflexivity|split; [exact E2|]]. rewrite E3. reflexivity.
Qed.
Definition okz (r : outcome mpz) (v : Z) : Prop := exists z, r = Ok z /\ isz z v.
Lemma okz_mkz : forall neg l v, normal l -> sg neg (val l) = v -> okz (Ok (mkz neg l)) v.
Proof. intros. eexists. split; [reflexivity|apply isz_mkz; assumption]. Qed.
Lemma okz_z : forall z v, isz z v -> okz (Ok z) v.
Proof. intros z v H. exists z. split; [reflexivity|exact H]. Qed.
Lemma lm_mkz : forall neg l, lm (mkz neg l) = l.
Proof. reflexivity. Qed.
Ltac open_z H nx lx Nx Zx := destruct H as [(nx & lx & -> & Nx & Zx) <-]; rewrite (mkz_zval nx lx Zx).

Lemma add_spec : forall x y u v, isz x u -> isz y v -> okz (mpz_add w x y) (u + v).
Proof.
  intros x y u v Hx Hy. open_z Hx nx lx Nx Zx. open_z Hy ny ly Ny Zy. unfold mpz_add.
  replace (0 <=? Z.lxor (size (mkz nx lx)) (size (mkz ny ly))) with (negb (xorb nx ny)).
  2:{ rewrite <- (mkz_size_neg nx lx Zx) at 1. rewrite <- (mkz_size_neg ny ly Zy) at 1. rewrite <- neg_ltb, Z.leb_antisym. reflexivity. }
  destruct (xorb nx ny) eqn:X; cbn [negb].
  - destruct (add_sub_core nx lx (mkz ny ly) Nx Zx Ny) as (l & neg & E & N & V). cbv zeta in E |- *. rewrite E. apply okz_mkz; [exact N|]. rewrite V, lm_mkz.
    destruct nx, ny; try discriminate; unfold sg; lia.
  - destruct (addabs_spec (mkz nx lx) (mkz ny ly) Nx Ny) as (l & E & N & V). rewrite E. cbn [bind]. rewrite neg_p_mkz by exact Zx.
    apply okz_mkz; [exact N|]. rewrite V, !lm_mkz. destruct nx, ny; try discriminate; unfold sg; lia.
Qed.
Lemma sub_spec : forall x y u v, isz x u -> isz y v -> okz (mpz_sub w x y) (u - v).
Proof.
  intros x y u v Hx Hy. open_z Hx nx lx Nx Zx. open_z Hy ny ly Ny Zy. unfold mpz_sub.
  rewrite neg_ltb, !mkz_size_neg by assumption.
  destruct (xorb nx ny) eqn:X.
  - destruct (addabs_spec (mkz nx lx) (mkz ny ly) Nx Ny) as (l & E & N & V). rewrite E. cbn [bind]. rewrite neg_p_mkz by exact Zx.
    apply okz_mkz; [exact N|]. rewrite V, !lm_mkz. destruct nx, ny; try discriminate; unfold sg; lia.
  - destruct (add_sub_core nx lx (mkz ny ly) Nx Zx Ny) as (l & neg & E & N & V). cbv zeta in E |- *. rewrite E. apply okz_mkz; [exact N|]. rewrite V, lm_mkz.
    destruct nx, ny; try discriminate; unfold sg; lia.
Qed.
Lemma single_diff : forall l y, normal l -> limb y -> val l < y -> normal [tr w (y - nth 0 l 0)] /\ val [tr w (y - nth 0 l 0)] = y - val l.
Proof.
  intros l y Nl Hy H. unfold below in Hy. assert (E : val l = nth 0 l 0 /\ 0 <= nth 0 l 0).
  { pose proof (cmp_1_spec l y Nl Hy) as C. rewrite (Z.sgn_neg (val l - y)) in C by lia. unfold mpn_cmp_1 in C. destruct (Nat.ltb_spec 1 (length l)) as [L|L]; [discriminate|].
    pose proof (val_range w Hw l (proj1 Nl)). destruct l as [|a [|b l]]; cbn [length] in L; [split; [reflexivity|cbn; lia]| |lia]. rewrite val_cons in * by exact Hw. cbn [dval nth] in *. lia. }
  destruct E as (E & E0). rewrite <- E. rewrite tr_small by (unfold below; lia). rewrite val_cons by exact Hw. cbn [dval]. split; [|lia].
  apply normal_last; [constructor; [unfold below; lia|constructor]|]. right. cbn [last]. lia.
Qed.
Lemma add_ui_spec : forall x y u, isz x u -> limb y -> okz (mpz_add_ui w x y) (u + y).
Proof.
  intros x y u Hx Hy. open_z Hx nx lx Nx Zx. unfold mpz_add_ui. rewrite Z.leb_antisym, mkz_size_neg by exact Zx. destruct nx; cbn [negb].
  - unfold mpz_cmpabs_ui. rewrite lm_mkz, cmp_1_spec by assumption. destruct (Z.ltb_spec (Z.sgn (val lx - y)) 0) as [L|L].
    + apply sgn_lt0 in L. destruct (single_diff lx y Nx Hy) as (N & V); [lia|]. apply okz_mkz; [exact N|]. rewrite V. unfold sg. lia.
    + destruct (subabs_ui_spec (mkz true lx) y Nx Hy) as (l & E & N & V).
      { rewrite lm_mkz. destruct (Z.sgn_spec (val lx - y)) as [[H _]|[[H _]|[_ H]]]; lia. }
      rewrite lm_mkz in V. rewrite E. cbn [bind]. apply okz_mkz; [exact N|]. rewrite V. unfold sg. lia.
  - destruct (addabs_ui_spec (mkz false lx) y Nx Hy) as (N & V). apply okz_mkz; [exact N|]. rewrite V, lm_mkz. reflexivity.
Qed.
Lemma sub_ui_spec : forall x y u, isz x u -> limb y -> okz (mpz_sub_ui w x y) (u - y).
Proof.
  intros x y u Hx Hy. open_z Hx nx lx Nx Zx. unfold mpz_sub_ui. rewrite mkz_size_neg by exact Zx. destruct nx.
  - destruct (addabs_ui_spec (mkz true lx) y Nx Hy) as (N & V). apply okz_mkz; [exact N|]. rewrite V, lm_mkz. unfold sg. lia.
  - rewrite mkz_size_0. destruct (Nat.eqb_spec (length lx) 0) as [E0|E0].
    + apply length_zero_iff_nil in E0. subst lx. unfold below in Hy. destruct (Z.eqb_spec y 0) as [Ey|Ey].
      * subst y. apply okz_mkz; [apply normal_nil|reflexivity].
      * apply okz_mkz; [apply normal_last; [constructor; [exact Hy|constructor]|right; exact Ey]|]. unfold sg. rewrite val_cons by exact Hw. cbn [dval]. lia.
    + unfold mpz_cmpabs_ui. rewrite lm_mkz, cmp_1_spec by assumption. destruct (Z.ltb_spec (Z.sgn (val lx - y)) 0) as [L|L].
      * apply sgn_lt0 in L. destruct (single_diff lx y Nx Hy) as (N & V); [lia|]. apply okz_mkz; [exact N|]. rewrite V. unfold sg. lia.
      * destruct (subabs_ui_spec (mkz false lx) y Nx Hy) as (l & E & N & V).
        { rewrite lm_mkz. destruct (Z.sgn_spec (val lx - y)) as [[H _]|[[H _]|[_ H]]]; lia. }
        rewrite lm_mkz in V. rewrite E. cbn [bind]. apply okz_mkz; [exact N|]. rewrite V. unfold sg. lia.
Qed.
Definition long (y : Z) : Prop := - 2 ^ (w - 1) <= y < 2 ^ (w - 1).
Lemma half2 : B = 2 * 2 ^ (w - 1).
Proof. unfold LB. rewrite <- Z.pow_succ_r by lia. f_equal. lia. Qed.
Lemma half_pos : 0 < 2 ^ (w - 1).
Proof. apply Z.pow_pos_nonneg; lia. Qed.
Lemma limb_cast_spec : forall y, long y -> mp_limb_cast w y = Z.abs y /\ limb (mp_limb_cast w y).
Proof.
  intros y Hy. unfold mp_limb_cast, long, below in *. pose proof half2. pose proof half_pos. destruct (Z.eqb_spec y (- 2 ^ (w - 1))); split; lia.
Qed.
Lemma long_limb : forall y, long y -> 0 <= y -> limb y.
Proof. intros y Hy H. unfold long, below in *. pose proof half2. pose proof half_pos. lia. Qed.
Lemma add_si_spec : forall x y u, isz x u -> long y -> okz (mpz_add_si w x y) (u + y).
Proof.
  intros x y u Hx Hy. unfold mpz_add_si. destruct (limb_cast_spec y Hy) as (E & L). destruct (Z.ltb_spec y 0).
  - replace (u + y) with (u - mp_limb_cast w y) by lia. apply sub_ui_spec; assumption.
  - apply add_ui_spec; [exact Hx|apply long_limb; assumption].
Qed.
Lemma sub_si_spec : forall x y u, isz x u -> long y -> okz (mpz_sub_si w x y) (u - y).
Proof.
  intros x y u Hx Hy. unfold mpz_sub_si. destruct (limb_cast_spec y Hy) as (E & L). destruct (Z.ltb_spec y 0).
  - replace (u - y) with (u + mp_limb_cast w y) by lia. apply add_ui_spec; assumption.
  - apply sub_ui_spec; [exact Hx|apply long_limb; assumption].
Qed.
Lemma neg_mkz : forall neg l, (l = [] -> neg = false) -> mpz_neg (mkz neg l) = mkz (negb neg) l.
Proof. intros neg l H. unfold mpz_neg, mkz. cbn [size lm]. f_equal. destruct neg; cbn [negb]; lia. Qed.
Lemma neg_spec : forall x u, isz x u -> isz (mpz_neg x) (- u).
Proof.
  intros x u Hx. open_z Hx nx lx Nx Zx. rewrite neg_mkz by exact Zx. apply isz_mkz; [exact Nx|]. destruct nx; unfold sg; cbn [negb]; lia.
Qed.
Lemma abs_spec : forall x u, isz x u -> isz (mpz_abs x) (Z.abs u).
Proof.
  intros x u Hx. open_z Hx nx lx Nx Zx. replace (mpz_abs (mkz nx lx)) with (mkz false lx).
  - apply isz_mkz; [exact Nx|]. pose proof (val_range w Hw lx (proj1 Nx)). destruct nx; unfold sg; lia.
  - unfold mpz_abs, mkz. cbn [size lm]. f_equal. destruct nx; lia.
Qed.
Lemma ui_sub_spec : forall x y v, isz y v -> limb x -> okz (mpz_ui_sub w x y) (x - v).
Proof.
  intros x y v Hy Hx. unfold mpz_ui_sub. destruct (sub_ui_spec y x v Hy Hx) as (z & E & Z1). rewrite E. cbn [bind]. apply okz_z.
  replace (x - v) with (- (v - x)) by lia. apply neg_spec. exact Z1.
Qed.
Lemma si_sub_spec : forall x y v, isz y v -> long x -> okz (mpz_si_sub w x y) (x - v).
Proof.
  intros x y v Hy Hx. unfold mpz_si_sub. destruct (sub_si_spec y x v Hy Hx) as (z & E & Z1). rewrite E. cbn [bind]. apply okz_z.
  replace (x - v) with (- (v - x)) by lia. apply neg_spec. exact Z1.
Qed.
Lemma set_ui_spec : forall x, limb x -> isz (mpz_set_ui x) x.
Proof.
  intros x Hx. unfold mpz_set_ui. unfold below in Hx. destruct (Z.eqb_spec x 0) as [E|E]; [subst x; apply isz_0|].
  apply isz_mkz; [apply normal_last; [constructor; [exact Hx|constructor]|right; exact E]|]. unfold sg. rewrite val_cons by exact Hw. cbn [dval]. lia.
Qed.
Lemma set_si_spec : forall x, long x -> isz (mpz_set_si w x) x.
Proof.
  intros x Hx. unfold mpz_set_si. destruct (limb_cast_spec x Hx) as (E1 & L). destruct (Z.eqb_spec x 0) as [E|E]; [subst x; apply isz_0|].
  apply isz_mkz; [apply normal_last; [constructor; [exact L|constructor]|right; cbn [last]; lia]|]. rewrite val_cons by exact Hw. cbn [dval]. unfold sg. destruct (Z.ltb_spec x 0); lia.
Qed.

(* comparison of signed values *)
Lemma sgn_spec : forall x u, isz x u -> mpz_sgn x = Z.sgn u.
Proof.
  intros x u Hx. open_z Hx nx lx Nx Zx. unfold mpz_sgn. rewrite mkz_size_0, mkz_size_neg by exact Zx.
  destruct (Nat.eqb_spec (length lx) 0) as [E|E].
  - apply length_zero_iff_nil in E. subst lx. rewrite (Zx eq_refl). reflexivity.
  - assert (Hn : lx <> []) by (intros E0; subst lx; cbn in E; lia). pose proof (normal_pos lx Nx Hn). destruct nx; unfold sg; symmetry; [apply Z.sgn_neg|apply Z.sgn_pos]; lia.
Qed.
Lemma cmp_spec : forall x y u v, isz x u -> isz y v -> mpz_cmp x y = Z.sgn (u - v).
Proof.
  intros x y u v Hx Hy. open_z Hx nx lx Nx Zx. open_z Hy ny ly Ny Zy. unfold mpz_cmp. rewrite mkz_size_neg, !lm_mkz by exact Zx.
  assert (Px : lx = [] \/ 0 < val lx) by (destruct lx; [left; reflexivity|right; pose proof (normal_pos _ Nx ltac:(discriminate)); lia]).
  assert (Py : ly = [] \/ 0 < val ly) by (destruct ly; [left; reflexivity|right; pose proof (normal_pos _ Ny ltac:(discriminate)); lia]).
  pose proof (val_range w Hw lx (proj1 Nx)) as Rx. pose proof (val_range w Hw ly (proj1 Ny)) as Ry.
  pose proof (normal_len lx ly Nx Ny) as Lxy. pose proof (normal_len ly lx Ny Nx) as Lyx.
  destruct (Z.eqb_spec (size (mkz nx lx)) (size (mkz ny ly))) as [E|E]; cbn [negb]; unfold mkz in E; cbn [size] in E.
  - assert (El : length lx = length ly) by (destruct nx, ny; lia). rewrite (mpn_cmp_full w) by (exact Hw || exact (proj1 Nx) || exact (proj1 Ny) || exact El).
    assert (En : nx = ny).
    { destruct nx, ny; try reflexivity; exfalso; destruct lx, ly; cbn [length] in E, El; try lia; try discriminate (Zx eq_refl); discriminate (Zy eq_refl). }
    subst ny. destruct nx; unfold sg; [|reflexivity]. rewrite <- Z.sgn_opp. f_equal. lia.
  - unfold mkz. cbn [size]. assert (Ls : sg nx (Z.of_nat (length lx)) <> sg ny (Z.of_nat (length ly))) by exact E.
    fold (sg nx (Z.of_nat (length lx))). fold (sg ny (Z.of_nat (length ly))).
    destruct (Z.ltb_spec (sg nx (Z.of_nat (length lx))) (sg ny (Z.of_nat (length ly)))) as [L|L]; symmetry; [apply Z.sgn_neg|apply Z.sgn_pos].
    + destruct nx, ny; unfold sg in *.
      * specialize (Lyx ltac:(lia)). lia.
      * destruct Px as [Px|Px]; [discriminate (Zx Px)|]. lia.
      * lia.
      * specialize (Lxy ltac:(lia)). lia.
    + destruct nx, ny; unfold sg in *.
      * specialize (Lxy ltac:(lia)). lia.
      * lia.
      * destruct Py as [Py|Py]; [discriminate (Zy Py)|]. lia.
      * specialize (Lyx ltac:(lia)). lia.
Qed.
Lemma cmpabs_spec : forall x y u v, isz x u -> isz y v -> mpz_cmpabs x y = Z.sgn (Z.abs u - Z.abs v).
Proof.
  intros x y u v Hx Hy. open_z Hx nx lx Nx Zx. open_z Hy ny ly Ny Zy. unfold mpz_cmpabs. rewrite !lm_mkz, cmp2_spec by assumption.
  pose proof (val_range w Hw lx (proj1 Nx)). pose proof (val_range w Hw ly (proj1 Ny)). f_equal. destruct nx, ny; unfold sg; lia.
Qed.
Lemma cmpabs_ui_spec : forall x y u, isz x u -> limb y -> mpz_cmpabs_ui x y = Z.sgn (Z.abs u - y).
Proof.
  intros x y u Hx Hy. open_z Hx nx lx Nx Zx. unfold mpz_cmpabs_ui. rewrite lm_mkz, cmp_1_spec by assumption.
  pose proof (val_range w Hw lx (proj1 Nx)). f_equal. destruct nx; unfold sg; lia.
Qed.
Lemma cmp_ui_spec : forall x y u, isz x u -> limb y -> mpz_cmp_ui x y = Z.sgn (u - y).
Proof.
  intros x y u Hx Hy. open_z Hx nx lx Nx Zx. unfold mpz_cmp_ui. rewrite mkz_size_neg, lm_mkz by exact Zx. destruct nx.
  - unfold below in Hy. symmetry. apply Z.sgn_neg. assert (Hn : lx <> []) by (intros E; discriminate (Zx E)). pose proof (normal_pos lx Nx Hn). unfold sg. lia.
  - apply cmp_1_spec; assumption.
Qed.
Lemma cmp_si_spec : forall x y u, isz x u -> long y -> mpz_cmp_si w x y = Z.sgn (u - y).
Proof.
  intros x y u Hx Hy. unfold mpz_cmp_si. destruct (limb_cast_spec y Hy) as (E & L). destruct (Z.ltb_spec y 0) as [H|H].
  - pose proof (sgn_spec x u Hx) as G. unfold mpz_sgn in G. destruct (Z.ltb_spec (size x) 0) as [N|N].
    + destruct (Z.eqb_spec (size x) 0) as [E0|E0]; [lia|]. symmetry in G. apply (proj1 (Z.sgn_neg_iff _)) in G.
      unfold mpz_cmpabs_si. rewrite (cmpabs_ui_spec x (mp_limb_cast w y) u Hx L), E. rewrite <- Z.sgn_opp. f_equal. lia.
    + symmetry. apply Z.sgn_pos. destruct (Z.eqb_spec (size x) 0) as [E0|E0]; symmetry in G; [apply (proj1 (Z.sgn_null_iff _)) in G|apply (proj1 (Z.sgn_pos_iff _)) in G]; lia.
  - apply cmp_ui_spec; [exact Hx|apply long_limb; assumption].
Qed.
End MpzProof.
