(* base58 *)
From Verif.Base Require Import Prelude.
From Verif.Model Require Import Encoding.
From Verif.Spec Require Import EncodingSpec.
From Verif.Proof Require Import EncodingProof.

(* both inner loops, as multiplication of a base-B number by M plus a carry *)
Fixpoint ginner (B M : Z) (L j : nat) (carry : Z) (b : list Z) : list Z * Z * nat :=
  match b with
  | [] => ([], carry, j)
  | d :: t =>
    if (carry =? 0) && (L <=? j)%nat then (b, carry, j) else
    let carry := carry + d * M in
    let '(t', c', j') := ginner B M L (S j) (carry / B) t in
    (carry mod B :: t', c', j')
  end.

Lemma enc_inner_g L : forall b j c, Forall (below 58) b -> 0 <= c < 256 ->
  base58_enc_inner L j c b = ginner 58 256 L j c b.
Proof.
  induction b as [|d b IH]; intros j c Hb Hc; [reflexivity|].
  apply Forall_cons_iff in Hb as [Hd Hb]. unfold below in Hd.
  cbn [base58_enc_inner ginner]. unfold shl32, w32, w8, M8, M32.
  rewrite shiftl_mul by lia. change (2 ^ 8) with 256.
  rewrite (Z.mod_small (d * 256)) by lia. rewrite (Z.mod_small (c + d * 256)) by lia.
  rewrite IH by (auto; lia). destruct (_ && _); auto.
  destruct (ginner 58 256 L (S j) ((c + d * 256) / 58) b) as [[t' c'] j'].
  rewrite (Z.mod_small (_ mod 58)) by lia. reflexivity.
Qed.

Lemma dec_inner_g L : forall b j c, Forall (below 256) b -> 0 <= c < 58 ->
  base58_dec_inner L j c b = ginner 256 58 L j c b.
Proof.
  induction b as [|d b IH]; intros j c Hb Hc; [reflexivity|].
  apply Forall_cons_iff in Hb as [Hd Hb]. unfold below in Hd.
  cbn [base58_dec_inner ginner]. unfold mul32, w32, w8, M8, M32, shr.
  rewrite shiftr_div by lia. change (2 ^ 8) with 256.
  rewrite (Z.mod_small (d * 58)) by lia. rewrite (Z.mod_small (c + d * 58)) by lia.
  rewrite IH by (auto; lia). destruct (_ && _); auto.
Qed.

Definition topnz (p : list Z) : Prop := p = [] \/ last p 0 <> 0.

Lemma topnz_pos B p : 0 < B -> Forall (below B) p -> p <> [] -> last p 0 <> 0 -> 0 < dval B p.
Proof.
  intros HB Hp Hn Hl. destruct (exists_last Hn) as (q & x & ->).
  rewrite last_last in Hl. apply Forall_app in Hp as [Hq Hx].
  apply Forall_cons_iff in Hx as [Hx _]. unfold below in Hx.
  rewrite dval_app. cbn [dval]. pose proof (dval_range B q HB Hq).
  assert (0 < B ^ Z.of_nat (length q)) by (apply Z.pow_pos_nonneg; lia). nia.
Qed.

Section G.
  Variables B M : Z.
  Hypothesis HB : 1 < B.
  Hypothesis HM : 1 < M.

  Lemma ginner_spec L : forall p k j c, Forall (below B) p -> (length p = L - j)%nat -> 0 <= c < M -> topnz p ->
    exists p' k' c', ginner B M L j c (p ++ repeat 0 k) = (p' ++ repeat 0 k', c', (j + length p')%nat) /\
      (length p' + k' = length p + k)%nat /\ Forall (below B) p' /\ 0 <= c' < M /\
      dval B p' + c' * B ^ Z.of_nat (length p + k) = M * dval B p + c /\
      (c' = 0 -> topnz p').
  Proof.
    intros p k. remember (length p + k)%nat as n eqn:En. revert p k En.
    induction n as [|n IH]; intros p k En j c Hp HL Hc Ht.
    - destruct p; [|cbn in En; lia]. destruct k; [|cbn in En; lia]. cbn [app repeat ginner].
      exists [], O, c. rewrite Nat.add_0_r. split; [reflexivity|]. split; [reflexivity|]. split; [constructor|].
      split; [lia|]. split; [|left; auto]. cbn [dval]. rewrite Z.pow_0_r. lia.
    - destruct p as [|d p1].
      + destruct k as [|k]; [cbn in En; lia|]. cbn [app repeat ginner].
        cbn [length] in HL. replace (L <=? j)%nat with true by (symmetry; apply Nat.leb_le; lia).
        destruct (Z.eqb_spec c 0) as [->|Hc0]; cbn [andb].
        * exists [], (S k), 0. cbn [app length repeat dval]. rewrite Nat.add_0_r. cbn [length] in En. split; [reflexivity|]. split; [lia|]. split; [constructor|]. split; [lia|]. split; [lia|]. left; auto.
        * destruct (IH [] k ltac:(cbn in *; lia) (S j) ((c + 0 * M) / B) ltac:(constructor) ltac:(cbn [length]; lia))
            as (p' & k' & c' & E & E1 & E2 & E3 & E4 & E5).
          { rewrite Z.mul_0_l, Z.add_0_r. split; [apply Z.div_pos; lia|]. apply Z.div_lt_upper_bound; nia. }
          { left; auto. }
          cbn [app] in E. rewrite E. rewrite Z.mul_0_l, Z.add_0_r in *.
          exists (c mod B :: p'), k', c'. cbn [app length dval] in *.
          pose proof (Z.mod_pos_bound c B ltac:(lia)). pose proof (Z.div_mod c B ltac:(lia)) as DM.
          rewrite Nat2Z.inj_succ, Z.pow_succ_r by lia.
          split; [f_equal; lia|]. split; [lia|]. split; [constructor; auto|]. split; [lia|].
          split; [transitivity (c mod B + B * (dval B p' + c' * B ^ Z.of_nat n)); [ring|rewrite E4; lia]|].
          -- intros Hc'. specialize (E5 Hc'). right. destruct p' as [|x p'].
             ++ cbn [last]. cbn [dval] in E4. subst c'. lia.
             ++ destruct E5 as [E5|E5]; [discriminate|exact E5].
      + apply Forall_cons_iff in Hp as [Hd Hp]. unfold below in Hd. cbn [app ginner].
        cbn [length] in HL. 
        replace (L <=? j)%nat with false by (symmetry; apply Nat.leb_gt; lia). rewrite andb_false_r.
        cbn [length] in En.
        assert (Ht1 : topnz p1).
        { destruct p1; [left; auto|]. destruct Ht as [Ht|Ht]; [discriminate|]. right. exact Ht. }
        destruct (IH p1 k ltac:(lia) (S j) ((c + d * M) / B) Hp ltac:(lia))
            as (p' & k' & c' & E & E1 & E2 & E3 & E4 & E5); auto.
        { split; [apply Z.div_pos; nia|]. apply Z.div_lt_upper_bound; nia. }
        rewrite E. exists ((c + d * M) mod B :: p'), k', c'. cbn [app length dval].
        pose proof (Z.mod_pos_bound (c + d * M) B ltac:(lia)) as MB.
        pose proof (Z.div_mod (c + d * M) B ltac:(lia)) as DM.
        rewrite Nat2Z.inj_succ, Z.pow_succ_r by lia.
        assert (VAL : (c + d * M) mod B + B * dval B p' + c' * (B * B ^ Z.of_nat n) = M * (d + B * dval B p1) + c) by nia.
        split; [f_equal; lia|]. split; [lia|]. split; [constructor; auto|]. split; [lia|].
        split; [exact VAL|].
        * intros Hc'. specialize (E5 Hc'). right. destruct p' as [|x p'].
          -- cbn [last]. intros Z0. subst c'. rewrite Z0 in VAL. cbn [dval] in VAL.
             assert (0 < dval B (d :: p1)).
             { destruct Ht as [Ht|Ht]; [discriminate|]. apply topnz_pos; auto; try lia; try discriminate. }
             cbn [dval] in H. nia.
          -- destruct E5 as [E5|E5]; [discriminate|exact E5].
  Qed.
End G.

Lemma pow_mono_root a b n : 0 <= a -> 0 <= b -> 0 < n -> a ^ n <= b ^ n -> a <= b.
Proof.
  intros Ha Hb Hn H. destruct (Z.le_gt_cases a b) as [|G]; auto.
  assert (b ^ n < a ^ n) by (apply Z.pow_lt_mono_l; lia). lia.
Qed.

Lemma enc_size n : 0 <= n -> 256 ^ n <= 58 ^ (n * 138 / 100 + 1).
Proof.
  intros Hn. apply (pow_mono_root _ _ 100); try (apply Z.pow_nonneg; lia); try lia.
  rewrite <- !Z.pow_mul_r by lia.
  transitivity (58 ^ (138 * n)).
  - rewrite (Z.mul_comm n), !Z.pow_mul_r by lia. apply Z.pow_le_mono_l. split; [apply Z.pow_nonneg; lia|].
    vm_compute. discriminate.
  - apply Z.pow_le_mono_r; lia.
Qed.

Lemma pow58 : 58 ^ 1000 <= 256 ^ 733.
Proof.
  change 1000 with (22 * 45 + 10). replace (256 ^ 733) with (2 ^ (129 * 45 + 59)) by (change 256 with (2 ^ 8); rewrite <- Z.pow_mul_r by (clear; lia); reflexivity).
  rewrite !Z.pow_add_r, !Z.pow_mul_r by (clear; lia). apply Z.mul_le_mono_nonneg.
  - apply Z.pow_nonneg. apply Z.pow_nonneg. discriminate.
  - apply Z.pow_le_mono_l. split; [apply Z.pow_nonneg; discriminate|]. vm_compute. discriminate.
  - apply Z.pow_nonneg. discriminate.
  - vm_compute. discriminate.
Qed.
Lemma dec_size n m : 0 <= m <= n -> 58 ^ m <= 256 ^ (n * 733 / 1000 + 1).
Proof.
  intros Hn. apply (pow_mono_root _ _ 1000); try (apply Z.pow_nonneg; lia); try lia.
  rewrite <- !Z.pow_mul_r by lia.
  transitivity (256 ^ (733 * n)).
  - transitivity (58 ^ (1000 * n)); [apply Z.pow_le_mono_r; lia|].
    rewrite !Z.pow_mul_r by lia. apply Z.pow_le_mono_l. split; [apply Z.pow_nonneg; lia|].
    exact pow58.
  - apply Z.pow_le_mono_r; lia.
Qed.

(* value of a big-endian digit string after more digits *)
Fixpoint hval (B v : Z) (l : list Z) : Z := match l with [] => v | x :: t => hval B (v * B + x) t end.
Lemma hval_dval B l : forall v, hval B v l = v * B ^ Z.of_nat (length l) + dval B (rev l).
Proof.
  induction l as [|x l IH]; intros v; cbn [hval rev length].
  - cbn [dval]. rewrite Z.pow_0_r. lia.
  - rewrite IH, dval_app, rev_length. cbn [dval]. rewrite Nat2Z.inj_succ, Z.pow_succ_r by lia. ring.
Qed.

Lemma hval_mono B l : 0 < B -> Forall (below B) l -> forall v, 0 <= v -> v <= hval B v l.
Proof.
  intros HB. induction 1 as [|x l Hx Hl IH]; intros v Hv; cbn [hval]; [lia|].
  unfold below in Hx. transitivity (v * B + x); [nia|]. apply IH. nia.
Qed.

Lemma enc_loop_spec : forall src p k, bytes src -> Forall (below 58) p -> topnz p ->
  hval 256 (dval 58 p) src < 58 ^ Z.of_nat (length p + k) ->
  exists p' k', base58_enc_loop (length p) (p ++ repeat 0 k) src = Some (p' ++ repeat 0 k', length p') /\
    Forall (below 58) p' /\ topnz p' /\ dval 58 p' = hval 256 (dval 58 p) src.
Proof.
  induction src as [|s src IH]; intros p k Hs Hp Ht HV; cbn [base58_enc_loop hval] in *.
  - exists p, k. auto.
  - invbytes. unfold byte in *. rewrite enc_inner_g by (auto; apply Forall_app; split; auto;
      apply Forall_forall; intros x Hx; apply repeat_spec in Hx; subst; unfold below; lia).
    destruct (ginner_spec 58 256 ltac:(lia) ltac:(lia) (length p) p k 0 s) as (p' & k' & c' & E & E1 & E2 & E3 & E4 & E5); auto; try lia.
    rewrite E. pose proof (dval_range 58 p ltac:(lia) Hp) as R. pose proof (dval_range 58 p' ltac:(lia) E2) as R'.
    assert (hval 256 (dval 58 p * 256 + s) src >= dval 58 p * 256 + s).
    { apply Z.le_ge. apply hval_mono; auto; lia. }
    assert (0 < 58 ^ Z.of_nat (length p + k)) by (apply Z.pow_pos_nonneg; lia).
    assert (c' = 0) by nia. subst c'. cbn [Z.eqb]. cbn [Nat.add].
    replace (dval 58 p * 256 + s) with (dval 58 p') in * by lia.
    apply (IH p' k'); auto. rewrite E1. auto.
Qed.

Lemma dec_loop_spec : forall src vs p k, Forall2 (fun c v => tabval base58_table c = v /\ 0 <= v < 58) src vs ->
  Forall (below 256) p -> topnz p ->
  hval 58 (dval 256 p) vs < 256 ^ Z.of_nat (length p + k) ->
  exists p' k', base58_dec_loop (length p) (p ++ repeat 0 k) src = Ok (p' ++ repeat 0 k', length p') /\
    Forall (below 256) p' /\ topnz p' /\ dval 256 p' = hval 58 (dval 256 p) vs.
Proof.
  intros src vs p k HF. revert p k. induction HF as [|s v src vs [Ev Hv] HF IH]; intros p k Hp Ht HV;
    cbn [base58_dec_loop hval] in *.
  - exists p, k. auto.
  - rewrite Ev. rewrite high_bit_small by lia.
    rewrite dec_inner_g by (auto; apply Forall_app; split; auto;
      apply Forall_forall; intros x Hx; apply repeat_spec in Hx; subst; unfold below; lia).
    destruct (ginner_spec 256 58 ltac:(lia) ltac:(lia) (length p) p k 0 v) as (p' & k' & c' & E & E1 & E2 & E3 & E4 & E5); auto; try lia.
    rewrite E. pose proof (dval_range 256 p ltac:(lia) Hp) as R. pose proof (dval_range 256 p' ltac:(lia) E2) as R'.
    assert (hval 58 (dval 256 p * 58 + v) vs >= dval 256 p * 58 + v).
    { apply Z.le_ge. apply hval_mono; try lia. clear -HF. induction HF; constructor; auto. unfold below; lia. }
    assert (0 < 256 ^ Z.of_nat (length p + k)) by (apply Z.pow_pos_nonneg; lia).
    assert (c' = 0) by nia. subst c'. cbn [Z.eqb]. cbn [Nat.add].
    replace (dval 256 p * 58 + v) with (dval 256 p') in * by lia.
    apply (IH p' k'); auto. rewrite E1. auto.
Qed.

Lemma span_eq_spec z s : exists r, span_eq z s = (fst (span_eq z s), r) /\
  s = repeat z (fst (span_eq z s)) ++ r /\ (match r with [] => True | x :: _ => x <> z end).
Proof.
  induction s as [|c s IH]; cbn [span_eq].
  - exists []. cbn. auto.
  - destruct (Z.eqb_spec c z) as [->|Hc].
    + destruct (span_eq z s) as [n r]. cbn [fst] in IH. destruct IH as (r' & E & E1 & E2).
      injection E as ->. exists r'. cbn [fst repeat app]. split; auto. split; auto. congruence.
    + exists (c :: s). cbn. auto.
Qed.

Lemma topnz_rev p : topnz p -> no_lead0 (rev p).
Proof.
  intros [->|H]; [exact I|]. destruct p as [|x p] using rev_ind; [exact I|].
  rewrite last_last in H. rewrite rev_app_distr. exact H.
Qed.

Lemma no_lead0_topnz l : no_lead0 l -> topnz (rev l).
Proof. destruct l as [|x l]; [left; auto|]. intros H. right. cbn [rev]. rewrite last_last. exact H. Qed.

Lemma drop_zero_id l : no_lead0 l -> drop_zero l = l.
Proof. destruct l as [|x l]; auto. cbn. intros H. apply Z.eqb_neq in H. rewrite H. reflexivity. Qed.

Lemma base58_encode_ok b : bytes b -> Z.of_nat (length b) <= 0x7fffffff ->
  exists s, base58_encode b = Ok s /\ is_base58 b s.
Proof.
  intros Hb HL. unfold base58_encode.
  destruct (Z.ltb_spec 0x7fffffff (Z.of_nat (length b))); [lia|].
  destruct (span_eq_spec 0 b) as (r & E & E1 & E2). rewrite E. set (z := fst (span_eq 0 b)) in *. clearbody z.
  assert (Hr : bytes r) by (rewrite E1 in Hb; apply bytes_app in Hb; tauto).
  replace (length b - z)%nat with (length r) by (rewrite E1, app_length, repeat_length; lia).
  set (size := Z.of_nat (length r) * 138 / 100 + 1).
  destruct (enc_loop_spec r [] (Z.to_nat size) Hr ltac:(constructor) (or_introl eq_refl)) as (p & k & EL & Hp & Ht & V).
  { cbn [length dval Nat.add]. rewrite hval_dval, Z.mul_0_l, Z.add_0_l.
    pose proof (dval_range 256 (rev r) ltac:(lia) ltac:(apply Forall_rev; exact Hr)) as R.
    rewrite rev_length in R. rewrite Z2Nat.id by (subst size; lia).
    pose proof (enc_size (Z.of_nat (length r)) ltac:(lia)). fold size in H0. lia. }
  cbn [length app] in EL. rewrite EL. rewrite firstn_app_exact by auto.
  rewrite drop_zero_id by (apply topnz_rev; auto).
  eexists. split; [reflexivity|]. exists z, r, (rev p). split; [exact E1|]. split; [reflexivity|].
  split; [exact Hr|]. split; [destruct r; [exact I|exact E2]|]. split; [apply Forall_rev; auto|]. split.
  - apply topnz_rev; auto.
  - rewrite rev_involutive, V, hval_dval. cbn [dval]. lia.
Qed.

Lemma topnz_inj B p q : 1 < B -> Forall (below B) p -> Forall (below B) q -> topnz p -> topnz q ->
  dval B p = dval B q -> p = q.
Proof.
  intros HB. revert q. induction p as [|x p IH]; intros q Hp Hq Tp Tq E.
  - destruct q as [|y q]; auto. destruct Tq as [|Tq]; [discriminate|].
    pose proof (topnz_pos B (y :: q) ltac:(lia) Hq ltac:(discriminate) Tq). cbn [dval] in E, H. lia.
  - destruct q as [|y q].
    + destruct Tp as [|Tp]; [discriminate|].
      pose proof (topnz_pos B (x :: p) ltac:(lia) Hp ltac:(discriminate) Tp). cbn [dval] in E, H. lia.
    + cbn [dval] in E. apply Forall_cons_iff in Hp as [Hx Hp]. apply Forall_cons_iff in Hq as [Hy Hq].
      unfold below in *. assert (x = y /\ dval B p = dval B q) as [-> E2].
      { pose proof (Z.mod_add x (dval B p) B ltac:(lia)) as A. pose proof (Z.mod_add y (dval B q) B ltac:(lia)) as C.
        rewrite (Z.mod_small x) in A by lia. rewrite (Z.mod_small y) in C by lia.
        replace (x + dval B p * B) with (y + dval B q * B) in A by lia. split; [lia|nia]. }
      f_equal. apply IH; auto.
      * destruct p; [left; auto|]. destruct Tp as [|Tp]; [discriminate|right; exact Tp].
      * destruct q; [left; auto|]. destruct Tq as [|Tq]; [discriminate|right; exact Tq].
Qed.

Lemma repeat_split {A} (z : A) n m r r' :
  (match r with [] => True | x :: _ => x <> z end) -> (match r' with [] => True | x :: _ => x <> z end) ->
  repeat z n ++ r = repeat z m ++ r' -> n = m /\ r = r'.
Proof.
  intros Hr Hr'. revert m. induction n as [|n IH]; intros [|m]; cbn [repeat app]; intros E.
  - auto.
  - subst r. contradiction.
  - subst r'. contradiction.
  - injection E as E. apply IH in E as [-> ->]. auto.
Qed.

Lemma sym58_inj ds ds' : Forall (below 58) ds -> Forall (below 58) ds' ->
  map (sym alpha58) ds = map (sym alpha58) ds' -> ds = ds'.
Proof.
  intros H. revert ds'. induction H as [|d ds Hd H IH]; intros [|d' ds'] H' E; try discriminate; auto.
  cbn [map] in E. injection E as E1 E2. apply Forall_cons_iff in H' as [Hd' H'].
  f_equal; auto.
  destruct (tok_sym _ _ _ _ tab58_ok d Hd) as (_ & _ & _ & A).
  destruct (tok_sym _ _ _ _ tab58_ok d' Hd') as (_ & _ & _ & A').
  change (tab base58_charset d = tab base58_charset d') in E1. congruence.
Qed.

Lemma sym58_head ds : Forall (below 58) ds -> no_lead0 ds ->
  match map (sym alpha58) ds with [] => True | x :: _ => x <> 49 end.
Proof.
  destruct ds as [|d ds]; cbn [map no_lead0]; auto. intros H Hn E. apply Forall_cons_iff in H as [Hd _].
  destruct (tok_sym _ _ _ _ tab58_ok d Hd) as (_ & _ & _ & A).
  change (tab base58_charset d = 49) in E. rewrite E in A. cbv in A. auto.
Qed.

Lemma is_base58_inj b b' s : is_base58 b s -> is_base58 b' s -> b = b'.
Proof.
  intros (z & r & ds & -> & -> & Hr & Nr & Hd & Nd & V) (z' & r' & ds' & -> & E & Hr' & Nr' & Hd' & Nd' & V').
  apply repeat_split in E as [-> E]; try (apply sym58_head; auto).
  apply sym58_inj in E; auto. subst ds'. f_equal.
  rewrite <- (rev_involutive r), <- (rev_involutive r'). f_equal.
  apply (topnz_inj 256); try lia; try (apply Forall_rev; assumption); try (apply no_lead0_topnz; assumption).
Qed.

Lemma is_base58_fun b s s' : is_base58 b s -> is_base58 b s' -> s = s'.
Proof.
  intros (z & r & ds & -> & -> & Hr & Nr & Hd & Nd & V) (z' & r' & ds' & E & -> & Hr' & Nr' & Hd' & Nd' & V').
  apply repeat_split in E as [-> E]; try (destruct r; assumption); try (destruct r'; assumption).
  subst r'. f_equal. f_equal.
  rewrite <- (rev_involutive ds), <- (rev_involutive ds'). f_equal.
  apply (topnz_inj 58); try lia; try (apply Forall_rev; assumption); try (apply no_lead0_topnz; assumption).
Qed.

Lemma base58_encode_iff b s : bytes b ->
  (base58_encode b = Ok s <-> Z.of_nat (length b) <= 0x7fffffff /\ is_base58 b s).
Proof.
  intros Hb. split.
  - intros E. assert (HL : Z.of_nat (length b) <= 0x7fffffff).
    { unfold base58_encode in E. destruct (Z.ltb_spec 0x7fffffff (Z.of_nat (length b))); [discriminate|lia]. }
    split; auto. destruct (base58_encode_ok b Hb HL) as (s' & E' & H). congruence.
  - intros [HL H]. destruct (base58_encode_ok b Hb HL) as (s' & E' & H').
    rewrite E'. f_equal. eapply is_base58_fun; eauto.
Qed.

Lemma base58_vals src : bytes src -> 
  forallb (fun c => negb (high_bit (tabval base58_table c))) src = true ->
  Forall2 (fun c v => tabval base58_table c = v /\ 0 <= v < 58) src (map (tabval base58_table) src) /\
  src = map (sym alpha58) (map (tabval base58_table) src).
Proof.
  induction 1 as [|c src Hc Hs IH]; cbn [forallb map]; intros E.
  - split; [constructor|reflexivity].
  - apply andb_prop in E as [E1 E2]. apply negb_true_iff in E1. destruct (IH E2) as [I1 I2].
    destruct (tok_dec _ _ _ _ tab58_ok c Hc E1) as [R E3]. split.
    + constructor; auto.
    + rewrite <- I2. f_equal. symmetry. exact E3.
Qed.

Lemma base58_decode_valid s : bytes s -> Z.of_nat (length s) <= 0xffffffff ->
  forallb (fun c => negb (high_bit (tabval base58_table c))) s = true ->
  exists b, base58_decode s = Ok b /\ is_base58 b s.
Proof.
  intros Hs HL HV. unfold base58_decode.
  destruct (Z.ltb_spec 0xffffffff (Z.of_nat (length s))); [lia|].
  destruct (span_eq_spec 49 s) as (r & E & E1 & E2). rewrite E. set (z := fst (span_eq 49 s)) in *. clearbody z.
  assert (Hr : bytes r) by (rewrite E1 in Hs; apply bytes_app in Hs; tauto).
  assert (HVr : forallb (fun c => negb (high_bit (tabval base58_table c))) r = true).
  { rewrite E1, forallb_app in HV. apply andb_prop in HV. tauto. }
  destruct (base58_vals r Hr HVr) as [F ER]. set (vs := map (tabval base58_table) r) in *.
  assert (Hvs : Forall (below 58) vs).
  { clear -F. induction F; constructor; auto. unfold below; lia. }
  assert (LV : length vs = length r) by (unfold vs; apply map_length).
  assert (LS : length s = (z + length r)%nat) by (rewrite E1, app_length, repeat_length; lia).
  set (size := Z.of_nat (length s) * 733 / 1000 + 1).
  destruct (dec_loop_spec r vs [] (Z.to_nat size) F ltac:(constructor) (or_introl eq_refl)) as (p & k & EL & Hp & Ht & V).
  { cbn [length dval Nat.add]. rewrite hval_dval, Z.mul_0_l, Z.add_0_l.
    pose proof (dval_range 58 (rev vs) ltac:(lia) ltac:(apply Forall_rev; exact Hvs)) as R.
    rewrite rev_length, LV in R. rewrite Z2Nat.id by (subst size; lia).
    pose proof (dec_size (Z.of_nat (length s)) (Z.of_nat (length r)) ltac:(lia)). fold size in H0. lia. }
  cbn [length app] in EL. rewrite EL. rewrite firstn_app_exact by auto.
  eexists. split; [reflexivity|]. exists z, (rev p), vs. split; [reflexivity|].
  split; [rewrite <- ER; exact E1|]. split; [apply Forall_rev; exact Hp|]. split; [apply topnz_rev; auto|].
  split; [exact Hvs|]. split.
  - destruct r as [|c r']; [exact I|]. cbn [vs map no_lead0]. intros Z0. cbn [map] in ER. injection ER as EC _.
    fold vs in EC. rewrite Z0 in EC. apply E2. rewrite EC. reflexivity.
  - rewrite rev_involutive, V, hval_dval. cbn [dval]. lia.
Qed.

Lemma base58_decode_invalid s : bytes s ->
  forallb (fun c => negb (high_bit (tabval base58_table c))) s = false ->
  base58_decode s = Fail.
Proof.
  intros Hs HV. unfold base58_decode.
  destruct (Z.ltb_spec 0xffffffff (Z.of_nat (length s))); [auto|].
  destruct (span_eq_spec 49 s) as (r & E & E1 & E2). rewrite E. set (z := fst (span_eq 49 s)) in *. clearbody z.
  assert (Hr : bytes r) by (rewrite E1 in Hs; apply bytes_app in Hs; tauto).
  assert (HVr : exists g c t, r = g ++ c :: t /\ forallb (fun c => negb (high_bit (tabval base58_table c))) g = true
      /\ high_bit (tabval base58_table c) = true).
  { rewrite E1, forallb_app in HV.
    replace (forallb (fun c => negb (high_bit (tabval base58_table c))) (repeat 49 z)) with true in HV.
    2:{ symmetry. apply forallb_forall. intros x Hx. apply repeat_spec in Hx. subst x. reflexivity. }
    cbn [andb] in HV. clear -HV. induction r as [|c r IH]; [discriminate|]. cbn [forallb] in HV.
    destruct (high_bit (tabval base58_table c)) eqn:Hc.
    - exists [], c, r. auto.
    - cbn [negb andb] in HV. destruct (IH HV) as (g & c' & t & -> & G & C). exists (c :: g), c', t.
      repeat split; auto. cbn [forallb]. rewrite Hc, G. reflexivity. }
  destruct HVr as (g & c & t & Er & Hg & Hc).
  assert (Hgb : bytes g) by (rewrite Er in Hr; apply bytes_app in Hr; tauto).
  destruct (base58_vals g Hgb Hg) as [F ER]. set (vs := map (tabval base58_table) g) in *.
  assert (Hvs : Forall (below 58) vs).
  { clear -F. induction F; constructor; auto. unfold below; lia. }
  assert (LV : length vs = length g) by (unfold vs; apply map_length).
  set (size := Z.of_nat (length s) * 733 / 1000 + 1).
  destruct (dec_loop_spec g vs [] (Z.to_nat size) F ltac:(constructor) (or_introl eq_refl)) as (p & k & EL & Hp & Ht & V).
  { cbn [length dval Nat.add]. rewrite hval_dval, Z.mul_0_l, Z.add_0_l.
    pose proof (dval_range 58 (rev vs) ltac:(lia) ltac:(apply Forall_rev; exact Hvs)) as R.
    rewrite rev_length, LV in R. rewrite Z2Nat.id by (subst size; lia).
    assert (length g <= length s)%nat by (rewrite E1, Er, !app_length; lia).
    pose proof (dec_size (Z.of_nat (length s)) (Z.of_nat (length g)) ltac:(lia)). fold size in H1. lia. }
  assert (APP : forall g L b, base58_dec_loop L b (g ++ c :: t) = 
     match base58_dec_loop L b g with Ok (b', L') => base58_dec_loop L' b' (c :: t) | Fail => Fail | Abort => Abort end).
  { clear. induction g as [|x g IH]; intros L b; [reflexivity|]. cbn [app base58_dec_loop].
    destruct (high_bit (tabval base58_table x)); auto.
    destruct (base58_dec_inner L 0 (tabval base58_table x) b) as [[b' c'] j]. destruct (c' =? 0); auto. }
  rewrite Er, APP. cbn [length app] in EL. rewrite EL. cbn [base58_dec_loop]. rewrite Hc. reflexivity.
Qed.

Lemma base58_valid_of_spec b s : is_base58 b s -> forallb (fun c => negb (high_bit (tabval base58_table c))) s = true /\ bytes s.
Proof.
  intros (z & r & ds & _ & -> & _ & _ & Hd & _ & _). split.
  - rewrite forallb_app. apply andb_true_intro. split.
    + apply forallb_forall. intros x Hx. apply repeat_spec in Hx. subst x. reflexivity.
    + apply forallb_forall. intros x Hx. apply in_map_iff in Hx as (d & <- & Hx).
      pose proof (proj1 (Forall_forall _ _) Hd d Hx) as Hb.
      destruct (tok_sym _ _ _ _ tab58_ok d Hb) as (_ & _ & _ & A).
      change (sym alpha58 d) with (tab base58_charset d). rewrite A. unfold below in Hb.
      rewrite high_bit_small by lia. reflexivity.
  - apply bytes_app. split.
    + apply Forall_forall. intros x Hx. apply repeat_spec in Hx. subst x. unfold byte; lia.
    + apply Forall_forall. intros x Hx. apply in_map_iff in Hx as (d & <- & Hx).
      pose proof (proj1 (Forall_forall _ _) Hd d Hx) as Hb.
      destruct (tok_sym _ _ _ _ tab58_ok d Hb) as (A & _). exact A.
Qed.

Lemma base58_decode_iff s b : bytes s ->
  (base58_decode s = Ok b <-> Z.of_nat (length s) <= 0xffffffff /\ is_base58 b s).
Proof.
  intros Hs. destruct (forallb (fun c => negb (high_bit (tabval base58_table c))) s) eqn:V.
  - split.
    + intros E. assert (HL : Z.of_nat (length s) <= 0xffffffff).
      { unfold base58_decode in E. destruct (Z.ltb_spec 0xffffffff (Z.of_nat (length s))); [discriminate|lia]. }
      split; auto. destruct (base58_decode_valid s Hs HL V) as (b' & E' & H). congruence.
    + intros [HL H]. destruct (base58_decode_valid s Hs HL V) as (b' & E' & H').
      rewrite E'. f_equal. eapply is_base58_inj; eauto.
  - split.
    + rewrite base58_decode_invalid by auto. discriminate.
    + intros [_ H]. apply base58_valid_of_spec in H as [H _]. congruence.
Qed.

Lemma base58_never_aborts s : bytes s -> base58_encode s <> Abort /\ base58_decode s <> Abort.
Proof.
  intros Hs. split.
  - destruct (Z.le_gt_cases (Z.of_nat (length s)) 0x7fffffff).
    + destruct (base58_encode_ok s Hs H) as (? & -> & _). discriminate.
    + unfold base58_encode. destruct (Z.ltb_spec 0x7fffffff (Z.of_nat (length s))); [discriminate|lia].
  - destruct (forallb (fun c => negb (high_bit (tabval base58_table c))) s) eqn:V.
    + destruct (Z.le_gt_cases (Z.of_nat (length s)) 0xffffffff).
      * destruct (base58_decode_valid s Hs H V) as (? & -> & _). discriminate.
      * unfold base58_decode. destruct (Z.ltb_spec 0xffffffff (Z.of_nat (length s))); [discriminate|lia].
    + rewrite base58_decode_invalid by auto. discriminate.
Qed.

Lemma base58_test_iff s : bytes s -> Z.of_nat (length s) <= 0xffffffff ->
  (base58_test s = true <-> exists b, base58_decode s = Ok b).
Proof.
  intros Hs HL. unfold base58_test. rewrite forallb_rev.
  assert (E : forallb (fun c => negb (tab base58_table (torsion_ascii c) =? -1)) s =
    forallb (fun c => negb (high_bit (tabval base58_table c))) s).
  { clear HL. induction Hs as [|c s Hc Hs IH]; [reflexivity|]. cbn [forallb]. rewrite IH.
    rewrite (tok_neg1 _ _ _ _ tab58_ok) by auto. reflexivity. }
  rewrite E. destruct (forallb (fun c => negb (high_bit (tabval base58_table c))) s) eqn:V.
  - split; auto. intros _. destruct (base58_decode_valid s Hs HL V) as (b & E' & _). eauto.
  - rewrite base58_decode_invalid by auto. split; [discriminate|]. intros [? ?]; discriminate.
Qed.
