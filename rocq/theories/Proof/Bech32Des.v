(* bech32_deserialize *)
From Coq Require Import String.
From Verif.Base Require Import Prelude.
From Verif.Model Require Import Encoding Bech32.
From Verif.Spec Require Import EncodingSpec Bech32Spec.
From Verif.Proof Require Import EncodingProof PolymodProof Bech32Proof.

Definition printb (c : Z) : bool := (33 <=? c) && (c <=? 126).
Definition lowb (c : Z) : bool := (97 <=? c) && (c <=? 122).
Definition uppb (c : Z) : bool := (65 <=? c) && (c <=? 90).
Fixpoint lastone (s : list Z) (pos h : nat) : nat :=
  match s with
  | [] => h
  | c :: t => lastone t (S pos) (if c =? 49 then pos else h)
  end.

Lemma scan_ok n : forall s slen hlen lo up, Forall cchar s ->
  bech32_scan n s slen hlen lo up =
  if forallb printb (firstn n s)
  then Some ((slen + Nat.min n (length s))%nat, lastone (firstn n s) slen hlen,
             lo || existsb lowb (firstn n s), up || existsb uppb (firstn n s))
  else None.
Proof.
  induction n as [|n IH]; intros s slen hlen lo up Hs; cbn [bech32_scan firstn forallb].
  - cbn [Nat.min lastone existsb]. rewrite Nat.add_0_r, !orb_false_r. reflexivity.
  - destruct s as [|c s]; cbn [forallb existsb lastone length Nat.min].
    + rewrite Nat.add_0_r, !orb_false_r. reflexivity.
    + inversion Hs; subst. unfold cchar in *. rewrite ascii_id by lia. cbn zeta.
      destruct (Z.eqb_spec c 0); [lia|].
      assert (EP : printb c = negb ((c <? 33) || (126 <? c))) by (unfold printb; lia). rewrite EP.
      destruct ((c <? 33) || (126 <? c)) eqn:E1; [reflexivity|]. cbn [negb andb].
      replace (slen + S (Nat.min n (length s)))%nat with (S slen + Nat.min n (length s))%nat by lia.
      fold (lowb c). fold (uppb c).
      destruct (lowb c) eqn:EL; [|destruct (uppb c) eqn:EU; [|destruct (Z.eqb_spec c 49) as [EC|EC]]];
        rewrite IH by auto.
      * assert (uppb c = false) as -> by (unfold lowb, uppb in *; lia).
        destruct (Z.eqb_spec c 49); [unfold lowb in EL; lia|].
        rewrite !orb_true_r. reflexivity.
      * destruct (Z.eqb_spec c 49); [unfold uppb in EU; lia|].
        rewrite !orb_true_r. reflexivity.
      * cbn [orb]. reflexivity.
      * cbn [orb]. reflexivity.
Qed.

Lemma lastone_no s : forall pos h, ~ In 49 s -> lastone s pos h = h.
Proof.
  induction s as [|c s IH]; intros pos h H; cbn [lastone]; [reflexivity|].
  destruct (Z.eqb_spec c 49) as [->|]; [exfalso; apply H; left; reflexivity|].
  apply IH. intros Q. apply H. right. exact Q.
Qed.
Lemma lastone_split a b : forall pos h, ~ In 49 b -> lastone (a ++ 49 :: b) pos h = (pos + length a)%nat.
Proof.
  induction a as [|c a IH]; intros pos h H; cbn [app lastone length].
  - rewrite Z.eqb_refl, lastone_no by auto. lia.
  - rewrite IH by auto. lia.
Qed.
Lemma in49_split s : In 49 s -> exists a b, s = a ++ 49 :: b /\ ~ In 49 b.
Proof.
  induction s as [|c s IH]; intros H; [destruct H|].
  destruct (in_dec Z.eq_dec 49 s) as [Hi|Hi].
  - destruct (IH Hi) as (a & b & -> & Hb). exists (c :: a), b. auto.
  - destruct H as [->|H]; [|contradiction]. exists [], s. auto.
Qed.
Lemma lastone_inv s : (0 < lastone s 0 0)%nat ->
  exists a b, s = a ++ 49 :: b /\ ~ In 49 b /\ lastone s 0 0 = length a.
Proof.
  intros H. destruct (in_dec Z.eq_dec 49 s) as [Hi|Hi].
  - destruct (in49_split s Hi) as (a & b & -> & Hb). exists a, b. rewrite lastone_split by auto. auto.
  - rewrite lastone_no in H by auto. lia.
Qed.

Lemma case_ok s : existsb lowb s && existsb uppb s = false <-> single_case s.
Proof.
  unfold single_case. rewrite !Exists_exists.
  split.
  - intros E ((u & Hu & Qu) & (l & Hl & Ql)).
    assert (existsb lowb s = true). { apply existsb_exists. exists l. unfold lowb, is_lower in *. split; [auto|lia]. }
    assert (existsb uppb s = true). { apply existsb_exists. exists u. unfold uppb, is_upper in *. split; [auto|lia]. }
    rewrite H, H0 in E. discriminate.
  - intros H. destruct (existsb lowb s) eqn:E1; [|reflexivity]. destruct (existsb uppb s) eqn:E2; [|reflexivity].
    exfalso. apply H. apply existsb_exists in E1. apply existsb_exists in E2.
    destruct E1 as (l & Hl & Ql), E2 as (u & Hu & Qu). unfold lowb, uppb, is_lower, is_upper in *.
    split; [exists u|exists l]; split; auto; lia.
Qed.

Lemma lower_low5 c : 0 <= c < 256 -> lower c mod 32 = c mod 32.
Proof.
  intros. unfold lower. destruct ((65 <=? c) && (c <=? 90)); [|reflexivity].
  replace (c + 32) with (c + 1 * 32) by lia. apply Z.mod_add. lia.
Qed.
Lemma lower_print c : printb c = true -> hrp_char (lower c).
Proof. unfold printb, hrp_char, is_upper, lower. destruct ((65 <=? c) && (c <=? 90)) eqn:E; lia. Qed.
Lemma hrp_lower_print c : 0 <= c < 256 -> 33 <= lower c <= 126 -> printb c = true.
Proof. unfold printb, lower. destruct ((65 <=? c) && (c <=? 90)) eqn:E; lia. Qed.
Lemma lower_49 c : lower c = 49 <-> c = 49.
Proof. unfold lower. destruct ((65 <=? c) && (c <=? 90)) eqn:E; lia. Qed.
Lemma lower_idem c : lower (lower c) = lower c.
Proof.
  unfold lower. destruct ((65 <=? c) && (c <=? 90)) eqn:E.
  - replace ((65 <=? c + 32) && (c + 32 <=? 90)) with false by lia. reflexivity.
  - rewrite E. reflexivity.
Qed.

Lemma poly_pre a : Forall (fun c => printb c = true) a ->
  fold_left (fun chk c => Z.lxor (bech32_polymod chk) (Z.land (torsion_ascii c) 31)) a
    (bech32_polymod (fold_left (fun chk c => Z.lxor (bech32_polymod chk) (shr (to_lower (torsion_ascii c)) 5)) a 1)) =
  bip173_polymod (hrp_expand (map lower a)).
Proof.
  intros H.
  assert (Hl : Forall hrp_char (map lower a)).
  { rewrite Forall_map. eapply Forall_impl; [|exact H]. intros c. apply lower_print. }
  rewrite <- poly_expand by auto.
  assert (R : forall c, In c a -> 33 <= c <= 126).
  { intros c Hc. rewrite Forall_forall in H. apply H in Hc. unfold printb in Hc. lia. }
  assert (E1 : fold_left (fun chk c => Z.lxor (bech32_polymod chk) (shr (to_lower (torsion_ascii c)) 5)) a 1 =
          fold_left (pm_step 25 bip173_gen) (map (fun c => c / 32) (map lower a)) 1).
  { rewrite (fold_left_ext_in _ (fun chk c => Z.lxor (bech32_polymod chk) ((lower c / 32) mod 32))).
    - rewrite (fold_step_map (fun c => (lower c / 32) mod 32)) by (intros; lia).
      rewrite map_map. f_equal. apply map_ext_in. intros c Hc. apply R in Hc.
      unfold lower. destruct ((65 <=? c) && (c <=? 90)) eqn:E; lia.
    - intros x c Hc. apply R in Hc. rewrite ascii_id by lia. unfold shr. rewrite shiftr_div by lia.
      change (2 ^ 5) with 32. f_equal. unfold to_lower, lower. destruct ((65 <=? c) && (c <=? 90)) eqn:E; lia. }
  rewrite E1. generalize (bech32_polymod (fold_left (pm_step 25 bip173_gen) (map (fun c => c / 32) (map lower a)) 1)).
  clear - R. intros z. revert z. induction a as [|c a IH]; intros z; cbn [map fold_left]; [reflexivity|].
  rewrite IH by (intros; apply R; right; auto). f_equal. f_equal.
  pose proof (R c (or_introl eq_refl)).
  rewrite !ascii_id, !land_31, lower_low5; try lia.
  unfold lower. destruct ((65 <=? c) && (c <=? 90)) eqn:E; lia.
Qed.

Lemma map_lower_split s hrp t : map lower s = hrp ++ 49 :: t ->
  exists a b, s = a ++ 49 :: b /\ map lower a = hrp /\ map lower b = t.
Proof.
  intros E. apply map_eq_app in E. destruct E as (a & b & -> & Ea & Eb).
  apply map_eq_cons in Eb. destruct Eb as (c & b' & -> & Ec & Eb).
  apply (proj1 (lower_49 c)) in Ec. subst c. exists a, b'. auto.
Qed.

Lemma sym_not49 ds : Forall (below 32) ds -> ~ In 49 (map (sym alphabech) ds).
Proof.
  intros H Hi. apply in_map_iff in Hi. destruct Hi as (v & E & Hv). rewrite Forall_forall in H.
  apply H in Hv. destruct (bsym v Hv) as (_ & _ & _ & _ & Q & _). congruence.
Qed.

Lemma bech32_deserialize_iff s k hrp d : Forall cchar s -> 0 <= k ->
  bech32_deserialize s k = Some (hrp, d) <-> single_case s /\ is_bech32 k hrp d (map lower s).
Proof.
  intros Hs Hk. unfold bech32_deserialize. rewrite scan_ok by auto. cbn [Nat.add orb].
  destruct (forallb printb (firstn 90 s)) eqn:EF.
  2:{ split; [discriminate|]. intros (_ & _ & Fh & Fd & c & Lc & Fc & _ & E & L). exfalso.
      assert (forallb printb (firstn 90 s) = true); [|congruence].
      rewrite map_length in L. rewrite firstn_all2 by lia.
      apply forallb_forall. intros x Hx. rewrite Forall_forall in Hs. pose proof (Hs x Hx) as Qx. unfold cchar in Qx.
      apply hrp_lower_print; [lia|].
      assert (Hin : In (lower x) (map lower s)) by (apply in_map; auto).
      rewrite E in Hin. apply in_app_or in Hin. destruct Hin as [Hin|Hin].
      - rewrite Forall_forall in Fh. apply Fh in Hin. apply Hin.
      - destruct Hin as [Hin|Hin]; [lia|]. apply in_map_iff in Hin. destruct Hin as (v & Ev & Hv). 
        rewrite <- Ev. apply bsym. apply in_app_or in Hv.
        rewrite Forall_forall in Fd, Fc.
        destruct Hv; auto. }
  rewrite rdz_full by auto.
  destruct (Nat.leb_spec (length s) (Nat.min 90 (length s))) as [EL|EL]; cbn [negb orb].
  2:{ rewrite orb_true_r. split; [discriminate|]. intros (_ & _ & _ & _ & c & _ & _ & _ & _ & L).
      rewrite map_length in L. lia. }
  rewrite orb_false_r. replace (Nat.min 90 (length s)) with (length s) by lia.
  rewrite (firstn_all2 (n := 90)) in * by lia. rewrite (firstn_all s).
  assert (Fp : Forall (fun c => printb c = true) s) by (apply Forall_forall; rewrite forallb_forall in EF; auto).
  destruct (Nat.ltb_spec (length s) 8) as [E8|E8].
  { split; [discriminate|]. intros (_ & N & _ & _ & c & Lc & _ & _ & E & _).
    apply (f_equal (@length Z)) in E. rewrite map_length, !app_length, map_length, app_length, Lc in E.
    destruct hrp; [congruence|]. cbn [length] in E. lia. }
  destruct (Nat.eqb_spec (lastone s 0 0) 0) as [E0|E0].
  { split; [discriminate|]. intros (_ & N & _ & Fd & c & Lc & Fc & _ & E & _). cbn [app] in E.
    apply map_lower_split in E. destruct E as (a & b & -> & Ea & Eb).
    rewrite lastone_split in E0.
    - destruct a; [cbn in Ea; congruence|]. cbn [length] in E0. lia.
    - intros Hi. apply (in_map lower) in Hi. change (lower 49) with 49 in Hi. rewrite Eb in Hi.
      revert Hi. apply sym_not49. apply Forall_app; auto. }
  destruct (lastone_inv s) as (a & b & Es & Hb & EL1); [lia|]. rewrite EL1 in *.
  assert (Lab : length s = (length a + 1 + length b)%nat) by (rewrite Es, app_length; cbn [length]; lia).
  rewrite Es. rewrite firstn_app_exact by auto.
  replace (skipn (length a + 1) (a ++ 49 :: b)) with b.
  2:{ replace (a ++ 49 :: b) with ((a ++ [49]) ++ b) by (rewrite <- app_assoc; reflexivity).
      rewrite skipn_app_exact; [reflexivity|]. rewrite app_length. reflexivity. }
  rewrite <- Es.
  (* uniqueness of the split *)
  assert (US : forall hrp' d' c', Forall (below 32) (d' ++ c') -> map lower s = hrp' ++ [49] ++ map (sym alphabech) (d' ++ c') ->
     map lower a = hrp' /\ map lower b = map (sym alphabech) (d' ++ c')).
  { intros hrp' d' c' F E. cbn [app] in E. apply map_lower_split in E. destruct E as (a' & b' & E' & Ea & Eb).
    assert (Hb' : ~ In 49 b').
    { intros Hi. apply (in_map lower) in Hi. change (lower 49) with 49 in Hi. rewrite Eb in Hi.
      revert Hi. apply sym_not49. auto. }
    assert (length a' = length a).
    { rewrite <- EL1, E'. rewrite lastone_split by auto. reflexivity. }
    rewrite E' in Es. assert (a' = a /\ b' = b) as (-> & ->); [|auto].
    clear - Es H. revert a H Es. induction a' as [|x a' IH]; intros [|y a] H Es; cbn [length] in H; try discriminate.
    - injection Es as Es. auto.
    - cbn [app] in Es. injection Es as -> Es. destruct (IH a) as (-> & ->); auto. }
  rewrite Lab at 1. replace (length a + 1 + length b - (length a + 1))%nat with (length b) by lia.
  destruct (Nat.ltb_spec (length b) 6) as [E6|E6].
  { split; [discriminate|]. intros (_ & _ & _ & Fd & c & Lc & Fc & _ & E & _).
    apply US in E; [|apply Forall_app; auto]. destruct E as (_ & Eb). apply (f_equal (@length Z)) in Eb.
    rewrite !map_length, app_length in Eb. lia. }
  destruct (existsb lowb s && existsb uppb s) eqn:EC.
  { split; [discriminate|]. intros (SC & _). apply case_ok in SC. congruence. }
  apply case_ok in EC.
  rewrite Es in Fp. apply Forall_app in Fp. destruct Fp as (Fa & Fb). inversion Fb as [|? ? _ Fb']; subst.
  change 0x1f with 31. rewrite poly_pre by auto.
  set (st := bip173_polymod (hrp_expand (map lower a))).
  assert (Hla : Forall hrp_char (map lower a)).
  { rewrite Forall_map. eapply Forall_impl; [|exact Fa]. intros c. apply lower_print. }
  assert (Hst : 0 <= st < 2 ^ (25 + 5)).
  { apply (pm_fold_range 25 bip173_gen ltac:(lia) bip173_gen_ok); [|lia]. apply hrp_expand_32; auto. }
  assert (HR : forall vs c, bip173_polymod (hrp_expand (map lower a) ++ vs ++ c) = fold_left (pm_step 25 bip173_gen) (vs ++ c) st).
  { intros. unfold bip173_polymod. rewrite fold_left_app. reflexivity. }
  assert (F128 : Forall (below 128) b).
  { eapply Forall_impl; [|exact Fb']. intros c. unfold printb, below. lia. }
  assert (EHrp : map (fun c => to_lower (torsion_ascii c)) a = map lower a).
  { apply map_ext_in. intros c Hc. rewrite Forall_forall in Fa. apply Fa in Hc. unfold printb in Hc.
    rewrite ascii_id by lia. reflexivity. }
  rewrite EHrp.
  pose proof (vals_ok bech32_polymod 25 bip173_gen ltac:(lia) bip173_gen_ok bech32_step b F128 st Hst) as HV.
  destruct (bech32_vals bech32_polymod st b) as [[chk vs]|] eqn:EV.
  - pose proof (proj1 (HV chk vs) eq_refl) as (Fv & Mv & Kv).
    assert (Lv : length vs = length b). { apply (f_equal (@length Z)) in Mv. rewrite !map_length in Mv. auto. }
    destruct (Z.eqb_spec chk k) as [EK|EK]; cbn [negb].
    + split.
      * intros E. injection E as <- <-. split; [auto|]. split; [destruct a; cbn in *; congruence|]. split; [auto|].
        split; [rewrite <- (firstn_skipn (length vs - 6) vs) in Fv; apply Forall_app in Fv; apply Fv|].
        exists (skipn (length vs - 6) vs). rewrite HR, firstn_skipn.
        split; [rewrite skipn_length; lia|].
        split; [rewrite <- (firstn_skipn (length vs - 6) vs) in Fv; apply Forall_app in Fv; apply Fv|].
        split; [congruence|]. split; [|rewrite map_length; lia].
        rewrite map_app. cbn [map app]. change (lower 49) with 49. rewrite Mv. reflexivity.
      * intros (_ & _ & _ & Fd & c & Lc & Fc & Pc & E & _).
        apply US in E; [|apply Forall_app; auto]. destruct E as (<- & Eb).
        assert (Q : Some (chk, vs) = Some (fold_left (pm_step 25 bip173_gen) (d ++ c) st, d ++ c)).
        { apply HV. split; [apply Forall_app; auto|auto]. }
        injection Q as _ Qv. rewrite Qv, app_length, Lc. replace (length d + 6 - 6)%nat with (length d) by lia.
        rewrite firstn_app_exact by auto. reflexivity.
    + split; [discriminate|]. intros (_ & _ & _ & Fd & c & Lc & Fc & Pc & E & _). exfalso.
      apply US in E; [|apply Forall_app; auto]. destruct E as (<- & Eb).
      assert (Q : Some (chk, vs) = Some (fold_left (pm_step 25 bip173_gen) (d ++ c) st, d ++ c)).
      { apply HV. split; [apply Forall_app; auto|auto]. }
      injection Q as Qk _. rewrite HR in Pc. congruence.
  - split; [discriminate|]. intros (_ & _ & _ & Fd & c & Lc & Fc & Pc & E & _). exfalso.
    apply US in E; [|apply Forall_app; auto]. destruct E as (<- & Eb).
    assert (Q : None = Some (fold_left (pm_step 25 bip173_gen) (d ++ c) st, d ++ c)).
    { apply HV. split; [apply Forall_app; auto|auto]. }
    discriminate Q.
Qed.
