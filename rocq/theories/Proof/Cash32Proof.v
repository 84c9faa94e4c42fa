(* cash32 *)
From Coq Require Import String.
From Verif.Base Require Import Prelude.
From Verif.Model Require Import Encoding Bech32.
From Verif.Spec Require Import EncodingSpec Bech32Spec.
From Verif.Proof Require Import EncodingProof PolymodProof Bech32Proof Bech32Des ConvertBits SegwitProof.

Lemma prefix_loop_ok n : forall s plen, Forall cchar s ->
  cash32_prefix_loop n s plen =
  if forallb lowb (firstn n s) then Some (plen + Nat.min n (length s))%nat else None.
Proof.
  induction n as [|n IH]; intros s plen Hs; cbn [cash32_prefix_loop firstn forallb].
  - cbn [Nat.min]. f_equal. lia.
  - destruct s as [|c s]; cbn [forallb length Nat.min]; [f_equal; lia|].
    inversion Hs; subst. unfold cchar in *. rewrite ascii_id by lia. cbn zeta.
    destruct (Z.eqb_spec c 0); [lia|].
    assert (EH : lowb c = negb ((c <? 97) || (122 <? c))) by (unfold lowb; lia). rewrite EH.
    destruct ((c <? 97) || (122 <? c)); [reflexivity|]. cbn [negb andb]. rewrite IH by auto.
    replace (S plen + Nat.min n (length s))%nat with (plen + S (Nat.min n (length s)))%nat by lia. reflexivity.
Qed.

Lemma cash_fold_map (f : Z -> Z) (l : list Z) : (forall c, 0 <= f c < 32) -> forall a, 0 <= a < 2 ^ 40 ->
  fold_left (fun chk c => Z.lxor (cash32_polymod chk) (f c)) l a =
  fold_left (pm_step 35 cash_gen) (map f l) a.
Proof.
  intros Hf. induction l as [|c l IH]; intros a Ha; cbn [fold_left map]; [reflexivity|].
  rewrite cash32_step by lia. apply IH. apply (pm_step_range 35 cash_gen ltac:(lia) cash_gen_ok).
  specialize (Hf c). lia.
Qed.
Lemma iter_cash32 k : forall a, 0 <= a < 2 ^ 40 ->
  iter_polymod cash32_polymod k a = iter_polymod (pmz 35 cash_gen) k a.
Proof.
  induction k as [|k IH]; intros a Ha; cbn [iter_polymod]; [reflexivity|].
  rewrite <- (Z.lxor_0_r (cash32_polymod a)), cash32_step by lia. apply IH.
  apply (pmz_range 35 cash_gen ltac:(lia) cash_gen_ok).
Qed.

(* state after the prefix and separator *)
Definition cash_st (prefix : list Z) : Z := cash_polymod (map (fun c => c mod 32) prefix ++ [0]).
Lemma cash_st_range p : 0 <= cash_st p < 2 ^ (35 + 5).
Proof.
  apply (pm_fold_range 35 cash_gen ltac:(lia) cash_gen_ok); [|lia]. apply Forall_app. split.
  - rewrite Forall_map. apply Forall_forall. intros c _. unfold below. apply Z.mod_pos_bound. lia.
  - constructor; [unfold below; lia|constructor].
Qed.
Lemma cash_pre p : Forall (fun c => 0 <= c < 256) p ->
  cash32_polymod (fold_left (fun chk c => Z.lxor (cash32_polymod chk) (Z.land (torsion_ascii c) 31)) p 1) = cash_st p.
Proof.
  intros H. rewrite (cash_fold_map (fun c => Z.land (torsion_ascii c) 31)) by
    (try lia; intros; rewrite land_31; apply Z.mod_pos_bound; lia).
  unfold cash_st, cash_polymod. rewrite fold_left_app. cbn [fold_left].
  rewrite <- (Z.lxor_0_r (cash32_polymod _)), cash32_step.
  - f_equal. f_equal. apply map_ext_in. intros c Hc. rewrite Forall_forall in H. apply H in Hc.
    rewrite ascii_id by lia. apply land_31.
  - apply (pm_fold_range 35 cash_gen ltac:(lia) cash_gen_ok); [|lia].
    rewrite Forall_map. apply Forall_forall. intros c _. rewrite land_31. unfold below. apply Z.mod_pos_bound. lia.
Qed.
Lemma cash_pre_lor p : Forall (fun c => 0 <= c < 256) p ->
  cash32_polymod (fold_left (fun chk c => Z.lxor (cash32_polymod chk) (Z.land c 31)) p 1) = cash_st p.
Proof.
  intros H. rewrite <- cash_pre by auto. f_equal. apply fold_left_ext_in. intros a c Hc.
  rewrite Forall_forall in H. apply H in Hc. rewrite ascii_id by lia. reflexivity.
Qed.
Lemma cash_poly_split p d c : cash_polymod (map (fun c => c mod 32) p ++ [0] ++ d ++ c) = fold_left (pm_step 35 cash_gen) (d ++ c) (cash_st p).
Proof. unfold cash_st, cash_polymod. rewrite !fold_left_app. reflexivity. Qed.

Lemma is_lower_lowb p : Forall is_lower p <-> forallb lowb p = true.
Proof.
  rewrite forallb_forall, Forall_forall. unfold is_lower, lowb. split; intros H x Hx; specialize (H x Hx); lia.
Qed.
Lemma lower_chars p : Forall is_lower p -> Forall (fun c => 0 <= c < 256) p.
Proof. intros H. eapply Forall_impl; [|exact H]. unfold is_lower. intros; lia. Qed.

(* the prefix test of the serializer and of the fallback *)
Lemma prefix_test prefix : Forall cchar prefix ->
  match cash32_prefix_loop 83 prefix 0 with
  | None => None
  | Some i => if (i =? 0)%nat || negb (rdz prefix i =? 0) then None else Some i
  end = (if forallb lowb prefix && negb (length prefix =? 0)%nat && (length prefix <=? 83)%nat then Some (length prefix) else None).
Proof.
  intros Hp. rewrite prefix_loop_ok by auto. cbn [Nat.add].
  destruct (Nat.leb_spec (length prefix) 83).
  - rewrite firstn_all2 by lia. destruct (forallb lowb prefix); [|reflexivity]. cbn [andb].
    replace (Nat.min 83 (length prefix)) with (length prefix) by lia. rewrite rdz_full by auto.
    rewrite Nat.leb_refl. cbn [negb]. rewrite orb_false_r. rewrite andb_true_r.
    destruct (length prefix =? 0)%nat; reflexivity.
  - rewrite andb_false_r. destruct (forallb lowb (firstn 83 prefix)); [|reflexivity].
    replace (Nat.min 83 (length prefix)) with 83%nat by lia. rewrite rdz_full by auto.
    replace (length prefix <=? 83)%nat with false by (symmetry; apply Nat.leb_gt; lia). reflexivity.
Qed.

Lemma cash32_serialize_iff prefix d s : Forall cchar prefix -> bytes d ->
  cash32_serialize prefix d = Some s <-> is_cash32 prefix d s.
Proof.
  intros Hp Hd. unfold cash32_serialize.
  destruct (Nat.ltb_spec 104 (length d)) as [E104|E104].
  { split; [discriminate|]. intros (pl & (_ & _ & _ & _ & L & _) & _). lia. }
  pose proof (prefix_test prefix Hp) as PT.
  destruct (cash32_prefix_loop 83 prefix 0) as [plen|].
  2:{ split; [discriminate|]. intros (pl & (N & F & L & _) & _).
      apply is_lower_lowb in F. rewrite F in PT.
      replace (length prefix <=? 83)%nat with true in PT by (symmetry; apply Nat.leb_le; lia).
      destruct prefix; [congruence|]. discriminate PT. }
  destruct ((plen =? 0)%nat || negb (rdz prefix plen =? 0)).
  { split; [discriminate|]. intros (pl & (N & F & L & _) & _).
      apply is_lower_lowb in F. rewrite F in PT.
      replace (length prefix <=? 83)%nat with true in PT by (symmetry; apply Nat.leb_le; lia).
      destruct prefix; [congruence|]. discriminate PT. }
  destruct (forallb lowb prefix && negb (length prefix =? 0)%nat && (length prefix <=? 83)%nat) eqn:EP; [|discriminate].
  injection PT as ->. rewrite firstn_all.
  apply andb_true_iff in EP. destruct EP as (EP & L83). apply andb_true_iff in EP. destruct EP as (FL & NZ).
  apply is_lower_lowb in FL. apply Nat.leb_le in L83.
  rewrite cash_pre by (apply lower_chars; auto).
  pose proof (cash_st_range prefix) as Ha. set (a := cash_st prefix) in *.
  pose proof (data_loop_ok cash32_polymod 35 cash_gen ltac:(lia) cash_gen_ok cash32_step d Hd a Ha) as HD.
  destruct (bech32_data_loop cash32_polymod a d) as [[chk o]|] eqn:EL2.
  2:{ split; [discriminate|]. intros (pl & (_ & _ & _ & F & _) & _). exfalso.
      assert (Q : None = Some (fold_left (pm_step 35 cash_gen) d a, map (sym alphabech) d)) by (apply HD; auto).
      discriminate Q. }
  pose proof (proj1 (HD _) eq_refl) as (Fd & [= Echk Eo]).
  assert (Hchk : 0 <= chk < 2 ^ (35 + 5)).
  { rewrite Echk. apply (pm_fold_range 35 cash_gen ltac:(lia) cash_gen_ok); auto. }
  rewrite iter_cash32 by lia.
  set (x := Z.lxor _ 1).
  assert (Hx : 0 <= x < 2 ^ (35 + 5)).
  { subst x. apply lxor_range; [lia| |lia]. cbn [iter_polymod]. apply (pmz_range 35 cash_gen ltac:(lia) cash_gen_ok). }
  pose proof (checksum_syms 8 x ltac:(lia)) as ES. cbn [zseq Z.add] in ES.
  change (Z.of_nat 8 - 1) with 7 in ES.
  replace (map (fun i => tab bech32_charset (Z.land (shr x ((7 - i) * 5)) 31)) [0; 1; 2; 3; 4; 5; 6; 7])
    with (map (sym alphabech) (bedig 32 8 x)) by (rewrite <- ES; reflexivity).
  assert (B32 : Forall (below 32) (bedig 32 8 x)) by (apply Forall_rev, digits_below; lia).
  assert (BL : length (bedig 32 8 x) = 8%nat) by apply bedig_length.
  assert (PS : forall c, cash_polymod (map (fun c => c mod 32) prefix ++ [0] ++ d ++ c) = fold_left (pm_step 35 cash_gen) c chk).
  { intros c. rewrite cash_poly_split, fold_left_app, Echk. reflexivity. }
  remember (bedig 32 8 x) as cs eqn:Ecs.
  split.
  - intros E. injection E as E. subst s. exists (map (sym alphabech) (d ++ cs)). split.
    + split; [intros ->; discriminate NZ|]. split; [auto|]. split; [auto|]. split; [auto|]. split; [auto|].
      exists cs. split; [auto|]. split; [auto|]. split; [|reflexivity].
      rewrite PS. rewrite Ecs in *. apply (pm_checksum 35 cash_gen ltac:(lia) cash_gen_ok 8 chk 1); auto; lia.
    + cbn [app]. rewrite map_app, Eo. reflexivity.
  - intros (pl & (_ & _ & _ & _ & _ & c & Lc & Fc & Pc & ->) & ->). rewrite PS in Pc.
    apply (pm_checksum 35 cash_gen ltac:(lia) cash_gen_ok 8 chk 1) in Pc; auto; try lia.
    fold x in Pc. subst c. rewrite map_app, Eo, Ecs. reflexivity.
Qed.

(* ---- deserialize ---- *)
Definition numb (c : Z) : bool := (48 <=? c) && (c <=? 57).
Definition alphab (c : Z) : bool := lowb c || uppb c.
Definition alnumb (c : Z) : bool := alphab c || numb c.

(* what the scan accepts *)
Inductive cshape : list Z -> nat -> Prop :=
| cs_none s : forallb alnumb s = true -> cshape s 0
| cs_colon a b : a <> [] -> forallb alphab a = true -> forallb alnumb b = true -> cshape (a ++ 58 :: b) (length a).

Lemma cscan_tail n : forall s slen plen num lo up, Forall cchar s -> (0 < slen)%nat -> (0 < plen)%nat ->
  cash32_scan n s slen plen num lo up =
  if forallb alnumb (firstn n s)
  then Some ((slen + Nat.min n (length s))%nat, plen, lo || existsb lowb (firstn n s), up || existsb uppb (firstn n s))
  else None.
Proof.
  induction n as [|n IH]; intros s slen plen num lo up Hs H1 H2; cbn [cash32_scan firstn forallb].
  - cbn [Nat.min existsb]. rewrite Nat.add_0_r, !orb_false_r. reflexivity.
  - destruct s as [|c s]; cbn [forallb existsb length Nat.min].
    + rewrite Nat.add_0_r, !orb_false_r. reflexivity.
    + inversion Hs; subst. unfold cchar in *. rewrite ascii_id by lia. cbn zeta.
      destruct (Z.eqb_spec c 0); [lia|].
      replace (slen + S (Nat.min n (length s)))%nat with (S slen + Nat.min n (length s))%nat by lia.
      unfold alnumb at 1, alphab at 1. fold (lowb c). fold (uppb c). fold (numb c).
      destruct (lowb c) eqn:EL; [|destruct (uppb c) eqn:EU; [|destruct (numb c) eqn:EN]]; cbn [orb andb].
      * rewrite IH by (auto; lia). assert (uppb c = false) as -> by (unfold lowb, uppb in *; lia). rewrite !orb_true_r. reflexivity.
      * rewrite IH by (auto; lia). rewrite !orb_true_r. reflexivity.
      * rewrite IH by (auto; lia). reflexivity.
      * destruct (c =? 58); [|reflexivity].
        replace (slen =? 0)%nat with false by lia. replace (plen =? 0)%nat with false by lia. cbn [negb]. rewrite orb_true_r. reflexivity.
Qed.

(* before a colon *)
Fixpoint cscan_spec (s : list Z) (pos : nat) (num : bool) : option nat :=
  match s with
  | [] => Some 0%nat
  | c :: t =>
    if alphab c then cscan_spec t (S pos) num
    else if numb c then cscan_spec t (S pos) true
    else if c =? 58 then (if num || (pos =? 0)%nat then None else if forallb alnumb t then Some pos else None)
    else None
  end.

Lemma cscan_ok n : forall s slen num lo up, Forall cchar s ->
  cash32_scan n s slen 0 num lo up =
  match cscan_spec (firstn n s) slen num with
  | None => None
  | Some plen => Some ((slen + Nat.min n (length s))%nat, plen, lo || existsb lowb (firstn n s), up || existsb uppb (firstn n s))
  end.
Proof.
  induction n as [|n IH]; intros s slen num lo up Hs; cbn [cash32_scan firstn cscan_spec].
  - cbn [Nat.min existsb]. rewrite Nat.add_0_r, !orb_false_r. reflexivity.
  - destruct s as [|c s]; cbn [existsb length Nat.min cscan_spec].
    + rewrite Nat.add_0_r, !orb_false_r. reflexivity.
    + inversion Hs; subst. unfold cchar in *. rewrite ascii_id by lia. cbn zeta.
      destruct (Z.eqb_spec c 0); [lia|].
      replace (slen + S (Nat.min n (length s)))%nat with (S slen + Nat.min n (length s))%nat by lia.
      unfold alphab at 1. fold (lowb c). fold (uppb c). fold (numb c).
      destruct (lowb c) eqn:EL; [|destruct (uppb c) eqn:EU; [|destruct (numb c) eqn:EN]]; cbn [orb andb].
      * rewrite IH by (auto; lia). assert (uppb c = false) as -> by (unfold lowb, uppb in *; lia). rewrite !orb_true_r. reflexivity.
      * rewrite IH by (auto; lia). rewrite !orb_true_r. reflexivity.
      * rewrite IH by (auto; lia). reflexivity.
      * destruct (c =? 58) eqn:E58; [|reflexivity].
        rewrite Nat.eqb_refl. cbn [negb]. rewrite orb_false_r.
        destruct num; cbn [orb]; [reflexivity|].
        destruct (Nat.eqb_spec slen 0); [reflexivity|].
        rewrite cscan_tail by (auto; lia). destruct (forallb alnumb (firstn n s)); reflexivity.
Qed.

Lemma cscan_spec_none s pos num : forallb alnumb s = true -> cscan_spec s pos num = Some 0%nat.
Proof.
  revert pos num. induction s as [|c s IH]; intros pos num H; cbn [cscan_spec forallb] in *; [reflexivity|].
  apply andb_true_iff in H. destruct H as (Hc & Hs). unfold alnumb in Hc.
  destruct (alphab c); [auto|]. cbn [orb] in Hc. rewrite Hc. auto.
Qed.
Lemma cscan_spec_colon a b : forallb alphab a = true -> forallb alnumb b = true -> forall pos, (a <> [] \/ (0 < pos)%nat) ->
  cscan_spec (a ++ 58 :: b) pos false = Some (pos + length a)%nat.
Proof.
  intros Ha Hb. induction a as [|c a IH]; intros pos Hp; cbn [app cscan_spec length forallb] in *.
  - destruct Hp as [Hp|Hp]; [congruence|]. replace (alphab 58) with false by reflexivity.
    replace (numb 58) with false by reflexivity. rewrite Z.eqb_refl. cbn [orb].
    replace (pos =? 0)%nat with false by lia. rewrite Hb, Nat.add_0_r. reflexivity.
  - apply andb_true_iff in Ha. destruct Ha as (Hc & Ha). rewrite Hc. rewrite IH by (auto; lia). f_equal. lia.
Qed.
Lemma cscan_spec_inv s : forall pos num p, cscan_spec s pos num = Some p ->
  (p = 0%nat /\ forallb alnumb s = true) \/
  (num = false /\ exists a b, s = a ++ 58 :: b /\ forallb alphab a = true /\ forallb alnumb b = true /\
     p = (pos + length a)%nat /\ (0 < pos + length a)%nat).
Proof.
  induction s as [|c s IH]; intros pos num p; cbn [cscan_spec forallb].
  - intros [= <-]. left. auto.
  - destruct (alphab c) eqn:EA.
    + intros H. apply IH in H. destruct H as [(-> & H)|(-> & a & b & -> & Ha & Hb & -> & Hp)].
      * left. unfold alnumb at 1. rewrite EA, H. auto.
      * right. split; [auto|]. exists (c :: a), b. cbn [app forallb length]. rewrite EA, Ha. repeat split; auto; lia.
    + destruct (numb c) eqn:EN.
      * intros H. apply IH in H. destruct H as [(-> & H)|(? & _)]; [|discriminate].
        left. unfold alnumb at 1. rewrite EA, EN, H. auto.
      * destruct (Z.eqb_spec c 58) as [->|]; [|discriminate].
        destruct num; cbn [orb]; [discriminate|]. destruct (Nat.eqb_spec pos 0); [discriminate|].
        destruct (forallb alnumb s) eqn:EB; [|discriminate]. intros [= <-]. right. split; [auto|].
        exists [], s. cbn [app length forallb]. repeat split; auto; lia.
Qed.

Lemma alnum_lower_sym ds b : Forall (below 32) ds -> Forall cchar b -> map lower b = map (sym alphabech) ds -> forallb alnumb b = true.
Proof.
  intros Hd Hb E. apply forallb_forall. intros x Hx. rewrite Forall_forall in Hb. specialize (Hb x Hx). unfold cchar in Hb.
  assert (Hin : In (lower x) (map lower b)) by (apply in_map; auto). rewrite E in Hin.
  apply in_map_iff in Hin. destruct Hin as (v & Ev & Hv). rewrite Forall_forall in Hd. specialize (Hd v Hv).
  assert (A : forallb (fun v => alnumb (sym alphabech v)) (zseq 0 32) = true) by (vm_compute; reflexivity).
  pose proof (forall_zseq _ _ _ A v Hd) as Q. cbn beta in Q. rewrite Ev in Q.
  revert Q. unfold alnumb, alphab, lowb, uppb, numb, lower. destruct ((65 <=? x) && (x <=? 90)) eqn:EU; lia.
Qed.

Lemma lower_58 c : lower c = 58 <-> c = 58.
Proof. unfold lower. destruct ((65 <=? c) && (c <=? 90)) eqn:E; lia. Qed.

Lemma no58_sym ds : Forall (below 32) ds -> ~ In 58 (map (sym alphabech) ds).
Proof.
  intros H Hi. apply in_map_iff in Hi. destruct Hi as (v & E & Hv). rewrite Forall_forall in H.
  apply H in Hv. destruct (bsym v Hv) as (_ & _ & _ & _ & _ & Q). congruence.
Qed.
Lemma lower_prefix_alpha a prefix : Forall cchar a -> Forall is_lower prefix -> map lower a = prefix -> forallb alphab a = true.
Proof.
  intros Ha Hp E. apply forallb_forall. intros x Hx.
  assert (Hin : In (lower x) (map lower a)) by (apply in_map; auto). rewrite E in Hin.
  rewrite Forall_forall in Hp. apply Hp in Hin. unfold is_lower in Hin. rewrite Forall_forall in Ha. specialize (Ha x Hx). unfold cchar in Ha.
  unfold alphab, lowb, uppb. revert Hin. unfold lower. destruct ((65 <=? x) && (x <=? 90)) eqn:EU; lia.
Qed.
Lemma map_lower_split58 s p t : map lower s = p ++ 58 :: t ->
  exists a b, s = a ++ 58 :: b /\ map lower a = p /\ map lower b = t.
Proof.
  intros E. apply map_eq_app in E. destruct E as (a & b & -> & Ea & Eb).
  apply map_eq_cons in Eb. destruct Eb as (c & b' & -> & Ec & Eb).
  apply (proj1 (lower_58 c)) in Ec. subst c. exists a, b'. auto.
Qed.

(* accepted strings as the scan sees them *)
Lemma accept_shape s fb prefix d : Forall cchar s -> cash_accept s fb prefix d ->
  (exists a b c, s = a ++ 58 :: b /\ map lower a = prefix /\ a <> [] /\ (length a <= 83)%nat /\ forallb alphab a = true /\ forallb alnumb b = true /\
     map lower b = map (sym alphabech) (d ++ c) /\ Forall (below 32) d /\ Forall (below 32) c /\ length c = 8%nat /\ (length d <= 104)%nat /\
     fold_left (pm_step 35 cash_gen) (d ++ c) (cash_st prefix) = 1) \/
  (exists c, prefix = fb /\ forallb alnumb s = true /\ fb <> [] /\ Forall is_lower fb /\ (length fb <= 83)%nat /\
     map lower s = map (sym alphabech) (d ++ c) /\ Forall (below 32) d /\ Forall (below 32) c /\ length c = 8%nat /\ (length d <= 104)%nat /\
     fold_left (pm_step 35 cash_gen) (d ++ c) (cash_st prefix) = 1).
Proof.
  intros Hs (pl & (N & FL & L83 & Fd & L104 & c & Lc & Fc & Pc & ->) & [E|(-> & E)]); rewrite cash_poly_split in Pc.
  - left. cbn [app] in E. apply map_lower_split58 in E. destruct E as (a & b & -> & Ea & Eb).
    apply Forall_app in Hs. destruct Hs as (Hsa & Hsb). inversion Hsb; subst.
    exists a, b, c. split; [auto|]. split; [auto|]. split; [destruct a; cbn in N; congruence|].
    split; [rewrite map_length in L83; auto|].
    split; [eapply lower_prefix_alpha; eauto|].
    split; [eapply alnum_lower_sym; [|eauto|eauto]; apply Forall_app; auto|]. auto 10.
  - right. exists c. split; [auto|]. split; [eapply alnum_lower_sym; [|eauto|eauto]; apply Forall_app; auto|]. auto 12.
Qed.

Lemma alnum_128 b : Forall cchar b -> forallb alnumb b = true -> Forall (below 128) b.
Proof.
  intros Hb H. rewrite Forall_forall in *. rewrite forallb_forall in H. intros x Hx. specialize (Hb x Hx). specialize (H x Hx).
  revert H. unfold alnumb, alphab, lowb, uppb, numb, below, cchar in *. lia.
Qed.

(* the common tail of the deserializer *)
Definition des_tail (prefix : list Z) (st : Z) (b : list Z) : option (list Z * list Z) :=
  match bech32_vals cash32_polymod st b with
  | None => None
  | Some (chk, vs) => if negb (chk =? 1) then None else Some (prefix, firstn (length vs - 8) vs)
  end.
Lemma des_tail_iff prefix b prefix' d : Forall (below 128) b -> (8 <= length b)%nat ->
  des_tail prefix (cash_st prefix) b = Some (prefix', d) <->
  prefix' = prefix /\ exists c, length c = 8%nat /\ Forall (below 32) d /\ Forall (below 32) c /\
    map lower b = map (sym alphabech) (d ++ c) /\ fold_left (pm_step 35 cash_gen) (d ++ c) (cash_st prefix) = 1.
Proof.
  intros Fb Lb. unfold des_tail.
  pose proof (vals_ok cash32_polymod 35 cash_gen ltac:(lia) cash_gen_ok cash32_step b Fb _ (cash_st_range prefix)) as HV.
  set (st := cash_st prefix) in *.
  destruct (bech32_vals cash32_polymod st b) as [[chk vs]|] eqn:EV.
  - pose proof (proj1 (HV chk vs) eq_refl) as (Fv & Mv & Kv).
    assert (Lv : length vs = length b). { apply (f_equal (@length Z)) in Mv. rewrite !map_length in Mv. auto. }
    assert (U : forall d' c', Forall (below 32) d' -> Forall (below 32) c' -> map lower b = map (sym alphabech) (d' ++ c') -> vs = d' ++ c' /\ chk = fold_left (pm_step 35 cash_gen) (d' ++ c') st).
    { intros d' c' Fd Fc E. assert (Q : Some (chk, vs) = Some (fold_left (pm_step 35 cash_gen) (d' ++ c') st, d' ++ c')).
      { apply HV. split; [apply Forall_app; auto|auto]. }
      injection Q as -> ->. auto. }
    destruct (Z.eqb_spec chk 1) as [EK|EK]; cbn [negb].
    + split.
      * intros E. injection E as <- <-. split; [auto|]. exists (skipn (length vs - 8) vs).
        rewrite firstn_skipn. split; [rewrite skipn_length; lia|].
        rewrite <- (firstn_skipn (length vs - 8) vs) in Fv. apply Forall_app in Fv. destruct Fv. rewrite <- Kv. auto.
      * intros (-> & c & Lc & Fd & Fc & E & _). apply U in E; auto. destruct E as (-> & _).
        rewrite app_length, Lc. replace (length d + 8 - 8)%nat with (length d) by lia.
        rewrite firstn_app_exact by auto. reflexivity.
    + split; [discriminate|]. intros (-> & c & Lc & Fd & Fc & E & Pc). apply U in E; auto. destruct E as (_ & E). congruence.
  - split; [discriminate|]. intros (-> & c & Lc & Fd & Fc & E & Pc).
    assert (Q : None = Some (fold_left (pm_step 35 cash_gen) (d ++ c) st, d ++ c)).
    { apply HV. split; [apply Forall_app; auto|auto]. }
    discriminate Q.
Qed.

Lemma cash32_deserialize_iff s fb prefix d : Forall cchar s -> Forall cchar fb ->
  cash32_deserialize s fb = Some (prefix, d) <-> single_case s /\ cash_accept s fb prefix d.
Proof.
  intros Hs Hfb. unfold cash32_deserialize. rewrite cscan_ok by auto. cbn [Nat.add orb].
  (* length of an accepted string *)
  assert (AL : cash_accept s fb prefix d -> (8 <= length s <= 196)%nat).
  { intros A. apply accept_shape in A; auto.
    destruct A as [(a & b & c & -> & _ & _ & L83 & _ & _ & E & _ & _ & Lc & L104 & _)|(c & _ & _ & _ & _ & _ & E & _ & _ & Lc & L104 & _)];
    apply (f_equal (@length Z)) in E; rewrite !map_length, app_length in E.
    - rewrite app_length. cbn [length]. lia.
    - lia. }
  assert (AS : cash_accept s fb prefix d -> exists p, cscan_spec s 0 false = Some p).
  { intros A. apply accept_shape in A; auto.
    destruct A as [(a & b & c & -> & _ & Na & L83 & Fa & Fb & _)|(c & _ & Fs & _)].
    - eexists. apply cscan_spec_colon; auto.
    - eexists. apply cscan_spec_none; auto. }
  destruct (Nat.le_gt_cases (length s) 196) as [L196|L196].
  2:{ split.
      - destruct (cscan_spec (firstn 196 s) 0 false); [|discriminate]. rewrite rdz_full by auto.
        replace (length s <=? Nat.min 196 (length s))%nat with false by lia. cbn [negb]. rewrite orb_true_r. discriminate.
      - intros (_ & A). apply AL in A. lia. }
  rewrite (firstn_all2 (n := 196)) by lia. replace (Nat.min 196 (length s)) with (length s) by lia.
  destruct (cscan_spec s 0 false) as [plen|] eqn:ESc.
  2:{ split; [discriminate|]. intros (_ & A). apply AS in A. destruct A as (p & A). discriminate. }
  rewrite firstn_all. rewrite rdz_full, Nat.leb_refl by auto. cbn [negb]. rewrite orb_false_r.
  destruct (Nat.ltb_spec (length s) 8) as [L8|L8].
  { split; [discriminate|]. intros (_ & A). apply AL in A. lia. }
  destruct (existsb lowb s && existsb uppb s) eqn:EC.
  { split; [discriminate|]. intros (SC & _). apply case_ok in SC. congruence. }
  apply case_ok in EC.
  apply cscan_spec_inv in ESc. destruct ESc as [(-> & FS)|(_ & a & b & Es & Fa & Fb & -> & Hp)].
  - (* no colon *)
    rewrite Nat.eqb_refl. unfold cash32_fallback.
    assert (NC : ~ In 58 s). { intros Hi. rewrite forallb_forall in FS. apply FS in Hi. vm_compute in Hi. discriminate Hi. }
    pose proof (prefix_test fb Hfb) as PT.
    assert (SH : cash_accept s fb prefix d -> exists c, prefix = fb /\ fb <> [] /\ Forall is_lower fb /\ (length fb <= 83)%nat /\
       map lower s = map (sym alphabech) (d ++ c) /\ Forall (below 32) d /\ Forall (below 32) c /\ length c = 8%nat /\ (length d <= 104)%nat /\
       fold_left (pm_step 35 cash_gen) (d ++ c) (cash_st prefix) = 1).
    { intros A. apply accept_shape in A; auto. destruct A as [(a & b & c & -> & _)|(c & E1 & _ & E2 & E3 & E4 & E5)].
      - exfalso. apply NC. apply in_or_app. right. left. reflexivity.
      - exists c. auto. }
    destruct (cash32_prefix_loop 83 fb 0) as [i|].
    2:{ split; [discriminate|]. intros (_ & A). apply SH in A. destruct A as (c & _ & N & F & L & _).
        apply is_lower_lowb in F. rewrite F in PT.
        replace (length fb <=? 83)%nat with true in PT by (symmetry; apply Nat.leb_le; lia).
        destruct fb; [congruence|]. discriminate PT. }
    destruct ((i =? 0)%nat || negb (rdz fb i =? 0)).
    { split; [discriminate|]. intros (_ & A). apply SH in A. destruct A as (c & _ & N & F & L & _).
        apply is_lower_lowb in F. rewrite F in PT.
        replace (length fb <=? 83)%nat with true in PT by (symmetry; apply Nat.leb_le; lia).
        destruct fb; [congruence|]. discriminate PT. }
    destruct (forallb lowb fb && negb (length fb =? 0)%nat && (length fb <=? 83)%nat) eqn:EP; [|discriminate].
    injection PT as ->. rewrite firstn_all.
    apply andb_true_iff in EP. destruct EP as (EP & L83). apply andb_true_iff in EP. destruct EP as (FL & NZ).
    apply is_lower_lowb in FL. apply Nat.leb_le in L83.
    destruct ((length s <? 8)%nat || (112 <? length s)%nat) eqn:EL.
    { split; [discriminate|]. intros (_ & A). apply SH in A. destruct A as (c & _ & _ & _ & _ & E & _ & _ & Lc & L104 & _).
      apply (f_equal (@length Z)) in E; rewrite !map_length, app_length in E. lia. }
    rewrite cash_pre by (apply lower_chars; auto). rewrite Nat.sub_diag. cbn [skipn].
    fold (des_tail fb (cash_st fb) s). rewrite des_tail_iff by (try lia; apply alnum_128; auto).
    split.
    + intros (-> & c & Lc & Fd & Fc & E & Pc). split; [auto|]. exists (map (sym alphabech) (d ++ c)). split.
      * split; [intros ->; discriminate NZ|]. split; [auto|]. split; [auto|]. split; [auto|].
        assert (length d <= 104)%nat.
        { apply (f_equal (@length Z)) in E; rewrite !map_length, app_length in E. lia. }
        split; [auto|]. exists c. rewrite cash_poly_split. auto.
      * right. auto.
    + intros (_ & A). apply SH in A. destruct A as (c & -> & _ & _ & _ & E & Fd & Fc & Lc & _ & Pc). split; [auto|]. exists c. auto.
  - (* colon *)
    cbn [Nat.add] in *. replace (length a =? 0)%nat with false by lia.
    assert (Fca : Forall cchar a /\ Forall cchar b).
    { rewrite Es in Hs. apply Forall_app in Hs. destruct Hs as (Q1 & Q2). inversion Q2; auto. }
    destruct Fca as (Hca & Hcb).
    assert (Lab : length s = (length a + 1 + length b)%nat) by (rewrite Es, app_length; cbn [length]; lia).
    assert (US : forall a' b', forallb alphab a' = true -> s = a' ++ 58 :: b' -> a' = a /\ b' = b).
    { intros a' b' Fa' E'. rewrite E' in Es. clear - Fa Fa' Es. revert a Fa Es.
      induction a' as [|x a' IH]; intros [|y a] Fa Es; cbn [app forallb] in *.
      - injection Es as ->. auto.
      - injection Es as <- Es. change (alphab 58) with false in Fa. discriminate Fa.
      - injection Es as -> Es. change (alphab 58) with false in Fa'. discriminate Fa'.
      - injection Es as <- Es. apply andb_true_iff in Fa, Fa'. destruct (IH (proj2 Fa') a (proj2 Fa) Es) as (-> & ->). auto. }
    assert (SH : cash_accept s fb prefix d -> exists c, map lower a = prefix /\ (length a <= 83)%nat /\
       map lower b = map (sym alphabech) (d ++ c) /\ Forall (below 32) d /\ Forall (below 32) c /\ length c = 8%nat /\ (length d <= 104)%nat /\
       fold_left (pm_step 35 cash_gen) (d ++ c) (cash_st prefix) = 1).
    { intros A. apply accept_shape in A; auto. destruct A as [(a' & b' & c & E & Ea & _ & L83 & Fa' & _ & Eb & R)|(c & _ & FS & _)].
      - apply US in E; auto. destruct E as (-> & ->). exists c. auto.
      - exfalso. rewrite Es, forallb_app in FS. cbn [forallb] in FS. change (alnumb 58) with false in FS.
        cbn [andb] in FS. rewrite andb_false_r in FS. discriminate. }
    assert (Elor : map (fun c => Z.lor (torsion_ascii c) 32) (firstn (length a) s) = map lower a).
    { rewrite Es, firstn_app_exact by auto. apply map_ext_in. intros c Hc. rewrite Forall_forall in Hca.
      rewrite forallb_forall in Fa. specialize (Fa c Hc). specialize (Hca c Hc). unfold cchar in Hca. rewrite ascii_id by lia.
      assert (A : forallb (fun c => negb (alphab c) || (Z.lor c 32 =? lower c)) (zseq 0 256) = true) by (vm_compute; reflexivity).
      pose proof (forall_zseq _ _ _ A c ltac:(lia)) as Q. cbn beta in Q. rewrite Fa in Q. cbn [negb orb] in Q. apply Z.eqb_eq. exact Q. }
    rewrite Elor.
    destruct (Nat.ltb_spec 83 (length a)) as [E83|E83].
    { split; [discriminate|]. intros (_ & A). apply SH in A. destruct A as (c & _ & L & _). lia. }
    replace (length s - (length a + 1))%nat with (length b) by lia.
    destruct ((length b <? 8)%nat || (112 <? length b)%nat) eqn:EL.
    { split; [discriminate|]. intros (_ & A). apply SH in A. destruct A as (c & _ & _ & E & _ & _ & Lc & L104 & _).
      apply (f_equal (@length Z)) in E; rewrite !map_length, app_length in E. lia. }
    assert (FLa : Forall is_lower (map lower a)).
    { rewrite Forall_map, Forall_forall. intros c Hc. rewrite forallb_forall in Fa. specialize (Fa c Hc).
      revert Fa. unfold alphab, lowb, uppb, is_lower, lower. destruct ((65 <=? c) && (c <=? 90)) eqn:EU; lia. }
    rewrite cash_pre_lor by (apply lower_chars; auto).
    replace (length s - length b)%nat with (length a + 1)%nat by lia.
    replace (skipn (length a + 1) s) with b.
    2:{ rewrite Es. replace (a ++ 58 :: b) with ((a ++ [58]) ++ b) by (rewrite <- app_assoc; reflexivity).
        rewrite skipn_app_exact; [reflexivity|]. rewrite app_length. reflexivity. }
    fold (des_tail (map lower a) (cash_st (map lower a)) b). rewrite des_tail_iff by (try lia; apply alnum_128; auto).
    split.
    + intros (-> & c & Lc & Fd & Fc & E & Pc). split; [auto|]. exists (map (sym alphabech) (d ++ c)). split.
      * split; [destruct a; cbn in *; [lia|congruence]|]. split; [auto|]. split; [rewrite map_length; auto|]. split; [auto|].
        assert (length d <= 104)%nat.
        { apply (f_equal (@length Z)) in E; rewrite !map_length, app_length in E. lia. }
        split; [auto|]. exists c. rewrite cash_poly_split. auto.
      * left. rewrite Es, map_app. cbn [map app]. change (lower 58) with 58. rewrite E. reflexivity.
    + intros (_ & A). apply SH in A. destruct A as (c & <- & _ & E & Fd & Fc & Lc & _ & Pc). split; [auto|]. exists c. auto.
Qed.

(* ---- addresses ---- *)
Lemma size_code_iff n c : 0 <= n -> cash32_size_code n = Some c <-> 0 <= c < 8 /\ nth_error cash_sizes (Z.to_nat c) = Some n.
Proof.
  intros Hn. unfold cash32_size_code. split.
  - repeat match goal with |- context [?a =? ?b] => destruct (Z.eqb_spec a b) end; intros E; inversion E; subst;
      (split; [lia|]); match goal with |- nth_error cash_sizes ?k = _ => let v := eval vm_compute in (nth_error cash_sizes k) in change (nth_error cash_sizes k) with v end; f_equal; lia.
  - intros (Hc & E).
    assert (C : c = 0 \/ c = 1 \/ c = 2 \/ c = 3 \/ c = 4 \/ c = 5 \/ c = 6 \/ c = 7) by lia.
    destruct C as [->|[->|[->|[->|[->|[->|[->| ->]]]]]]]; match type of E with nth_error cash_sizes ?k = _ => let v := eval vm_compute in (nth_error cash_sizes k) in change (nth_error cash_sizes k) with v in E end; inversion E; subst; reflexivity.
Qed.

Lemma cash32_encode_iff prefix t h s : Forall cchar prefix -> bytes h -> 0 <= t ->
  cash32_encode prefix t h = Some s <-> exists ds, cash_data t h ds /\ is_cash32 prefix ds s.
Proof.
  intros Hp Hh Ht. unfold cash32_encode, cash_data.
  destruct (Z.ltb_spec 15 t). { split; [discriminate|]. intros (ds & (Q & _) & _). lia. }
  destruct (cash32_size_code (Z.of_nat (length h))) as [c|] eqn:EC.
  - apply size_code_iff in EC; [|lia]. destruct EC as (Hc & EC).
    assert (E0 : w8 (Z.lor (Z.shiftl t 3) c) = t * 8 + c).
    { rewrite lor_shiftl_add by lia. change (2 ^ 3) with 8. apply w8_small. unfold M8. lia. }
    rewrite E0. unfold cash32_convert_bits. change (Z.shiftl 1 (8 + 5 - 1) - 1) with (2 ^ 12 - 1).
    rewrite convert_pad_ok; [|lia|constructor; [unfold byte; lia|auto]].
    rewrite cash32_serialize_iff by (auto; apply below_bytes, rfc_digits_below).
    split.
    + intros Q. eexists. split; [|exact Q]. split; [lia|]. split; [auto|]. exists c. auto.
    + intros (ds & (_ & _ & i & Ei & Hi & ->) & Q).
      assert (i = c); [|subst; auto].
      clear - Ei EC Hi Hc. assert (E : nth_error cash_sizes (Z.to_nat i) = nth_error cash_sizes (Z.to_nat c)) by congruence.
      assert (ND : NoDup cash_sizes). { unfold cash_sizes. repeat constructor; cbn; intuition lia. }
      apply (proj1 (NoDup_nth_error cash_sizes)) in E; auto; [lia|]. cbn. lia.
  - split; [discriminate|]. intros (ds & (_ & _ & i & Ei & Hi & _) & _).
    assert (Q : cash32_size_code (Z.of_nat (length h)) = Some i) by (apply size_code_iff; auto; lia). congruence.
Qed.

Lemma size_bits x : 0 <= x < 256 ->
  nth_error cash_sizes (Z.to_nat (x mod 8)) =
  Some (let size := 20 + 4 * Z.land x 3 in if negb (Z.land x 4 =? 0) then size * 2 else size).
Proof.
  intros Hx.
  assert (A : forallb (fun x => match nth_error cash_sizes (Z.to_nat (x mod 8)) with
      Some y => y =? (let size := 20 + 4 * Z.land x 3 in if negb (Z.land x 4 =? 0) then size * 2 else size) | None => false end) (zseq 0 256) = true)
    by (vm_compute; reflexivity).
  pose proof (forall_zseq _ _ _ A x ltac:(lia)) as Q. cbn beta in Q.
  destruct (nth_error cash_sizes (Z.to_nat (x mod 8))); [|discriminate]. f_equal. apply Z.eqb_eq. exact Q.
Qed.

Lemma cash32_decode_iff a expect t h : Forall cchar a -> Forall cchar expect ->
  cash32_decode a expect = Some (t, h) <->
  single_case a /\ exists ds, cash_data t h ds /\ cash_accept a expect expect ds.
Proof.
  intros Ha He. unfold cash32_decode.
  destruct (cash32_deserialize a expect) as [[p conv]|] eqn:ED.
  2:{ split; [discriminate|]. intros (SC & ds & _ & Q).
      assert (Q2 : cash32_deserialize a expect = Some (expect, ds)) by (apply cash32_deserialize_iff; auto). congruence. }
  pose proof ED as ED'. apply cash32_deserialize_iff in ED'; auto. destruct ED' as (SC & AC).
  assert (U : forall ds, cash_accept a expect expect ds -> p = expect /\ conv = ds).
  { intros ds Q. assert (Q2 : cash32_deserialize a expect = Some (expect, ds)) by (apply cash32_deserialize_iff; auto).
    rewrite ED in Q2. injection Q2 as -> ->. auto. }
  destruct (list_eq_dec Z.eq_dec p expect) as [->|NE]; cbn [negb].
  2:{ split; [discriminate|]. intros (_ & ds & _ & Q). apply U in Q. destruct Q as (Q & _). contradiction. }
  assert (F32 : Forall (below 32) conv) by (destruct AC as (pl & (_ & _ & _ & Q & _) & _); exact Q).
  assert (L104 : (length conv <= 104)%nat) by (destruct AC as (pl & (_ & _ & _ & _ & Q & _) & _); exact Q).
  replace (104 <? length conv)%nat with false by (symmetry; apply Nat.ltb_ge; lia). rewrite orb_false_r.
  unfold cash32_convert_bits. change (Z.shiftl 1 (5 + 8 - 1) - 1) with (2 ^ 12 - 1).
  assert (HN : forall d', convert_bits (2 ^ 12 - 1) 8 conv 5 false = Some d' <-> bytes d' /\ conv = rfc4648_digits 5 d')
    by (intros; apply convert_nopad_ok; auto; lia).
  assert (BC : forall t' h' i, bytes h' -> 0 <= t' <= 15 -> 0 <= i < 8 -> bytes (t' * 8 + i :: h')).
  { intros. constructor; [unfold byte; lia|auto]. }
  destruct (Nat.eqb_spec (length conv) 0) as [E0|E0].
  { split; [discriminate|]. intros (_ & ds & (_ & _ & i & _ & _ & ->) & Q). apply U in Q. destruct Q as (_ & ->).
    pose proof (rfc_digits_length (t * 8 + i :: h)) as R. rewrite E0 in R. cbn [length] in R. lia. }
  destruct (convert_bits (2 ^ 12 - 1) 8 conv 5 false) as [data|] eqn:EC.
  2:{ split; [discriminate|]. intros (_ & ds & (Q1 & Q2 & i & Q3 & Q4 & ->) & Q). apply U in Q. destruct Q as (_ & Q).
      assert (Q5 : None = Some (t * 8 + i :: h)) by (apply HN; auto). discriminate Q5. }
  pose proof (proj1 (HN data) eq_refl) as (Bd & Econv).
  assert (UD : forall t' h' i, bytes h' -> 0 <= t' <= 15 -> 0 <= i < 8 -> conv = rfc4648_digits 5 (t' * 8 + i :: h') -> data = t' * 8 + i :: h').
  { intros t' h' i Q1 Q2 Q3 Q4. assert (Q5 : Some data = Some (t' * 8 + i :: h')) by (apply HN; auto). injection Q5 as ->. reflexivity. }
  destruct data as [|d0 hash].
  { cbn [length Nat.eqb orb]. split; [discriminate|]. intros (_ & ds & (Q1 & Q2 & i & Q3 & Q4 & ->) & Q). apply U in Q. destruct Q as (_ & Q).
    apply UD in Q; auto. discriminate Q. }
  change (length (d0 :: hash) =? 0)%nat with false. cbn [orb].
  inversion Bd as [|? ? Hd0 Hhash]; subst. unfold byte in Hd0.
  pose proof (rfc_digits_length (d0 :: hash)) as RL.
  replace (65 <? length (d0 :: hash))%nat with false.
  2:{ symmetry. apply Nat.ltb_ge. cbn [length] in *. lia. }
  cbn [nth tl].
  assert (Et : Z.land (shr d0 3) 31 = d0 / 8).
  { rewrite land_31. unfold shr. rewrite shiftr_div by lia. change (2 ^ 3) with 8. lia. }
  rewrite Et. pose proof (size_bits d0 Hd0) as ES. cbn zeta in ES. set (size := if negb (Z.land d0 4 =? 0) then (20 + 4 * Z.land d0 3) * 2 else 20 + 4 * Z.land d0 3) in *.
  destruct (Z.ltb_spec 15 (d0 / 8)) as [E15|E15].
  { split; [discriminate|]. intros (_ & ds & (Q1 & Q2 & i & Q3 & Q4 & ->) & Q). apply U in Q. destruct Q as (_ & Q).
    apply UD in Q; auto. injection Q as -> ->. lia. }
  destruct (Z.eqb_spec size (Z.of_nat (length hash))) as [Es|Es]; cbn [negb].
  - split.
    + intros E. injection E as <- <-. split; [auto|]. eexists. split; [|exact AC].
      split; [lia|]. split; [auto|]. exists (d0 mod 8). split; [rewrite ES, Es; reflexivity|]. split; [lia|].
      f_equal. f_equal. lia.
    + intros (_ & ds & (Q1 & Q2 & i & Q3 & Q4 & ->) & Q). apply U in Q. destruct Q as (_ & Q).
      apply UD in Q; auto. injection Q as -> ->. f_equal. f_equal. lia.
  - split; [discriminate|]. intros (_ & ds & (Q1 & Q2 & i & Q3 & Q4 & ->) & Q). apply U in Q. destruct Q as (_ & Q).
    apply UD in Q; auto. injection Q as -> ->. exfalso. apply Es.
    replace ((t * 8 + i) mod 8) with i in ES by lia. congruence.
Qed.
