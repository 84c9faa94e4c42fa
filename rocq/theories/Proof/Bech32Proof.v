(* bech32: serialization and deserialization against BIP 173 *)
From Coq Require Import String.
From Verif.Base Require Import Prelude.
From Verif.Model Require Import Encoding Bech32.
From Verif.Spec Require Import EncodingSpec Bech32Spec.
From Verif.Proof Require Import EncodingProof PolymodProof.

(* characters of a NUL-terminated string *)
Definition cchar (c : Z) : Prop := 1 <= c < 256.

Lemma ascii_id c : 0 <= c < 256 -> torsion_ascii c = c.
Proof. intros. unfold torsion_ascii. rewrite land_255, Z.mod_small; lia. Qed.

(* ---- the symbol table ---- *)
Definition btab_check : bool :=
  forallb (fun v => (tab bech32_charset v =? sym alphabech v) && (tabval bech32_table (sym alphabech v) =? v)
                    && (33 <=? sym alphabech v) && (sym alphabech v <=? 126)
                    && (lower (sym alphabech v) =? sym alphabech v) && negb (sym alphabech v =? 49)
                    && negb (sym alphabech v =? 58)) (zseq 0 32)
  && forallb (fun c => (tabval bech32_table c =? tabval bech32_table (lower c)) &&
       (high_bit (tabval bech32_table c) ||
         ((0 <=? tabval bech32_table c) && (tabval bech32_table c <? 32) && (sym alphabech (tabval bech32_table c) =? lower c))))
      (zseq 0 128).
Lemma btab_ok : btab_check = true. Proof. vm_compute. reflexivity. Qed.

Lemma bsym v : below 32 v -> tab bech32_charset v = sym alphabech v /\ tabval bech32_table (sym alphabech v) = v /\
  33 <= sym alphabech v <= 126 /\ lower (sym alphabech v) = sym alphabech v /\ sym alphabech v <> 49 /\ sym alphabech v <> 58.
Proof.
  intros Hv. pose proof btab_ok as H. unfold btab_check in H. apply andb_true_iff in H. destruct H as [H _].
  pose proof (forall_zseq _ _ _ H v) as Q. cbn beta in Q. unfold below in Hv. lia.
Qed.
Lemma bval c : 0 <= c < 128 -> tabval bech32_table c = tabval bech32_table (lower c) /\
  (high_bit (tabval bech32_table c) = false ->
   below 32 (tabval bech32_table c) /\ sym alphabech (tabval bech32_table c) = lower c).
Proof.
  intros Hc. pose proof btab_ok as H. unfold btab_check in H. apply andb_true_iff in H. destruct H as [_ H].
  pose proof (forall_zseq _ _ _ H c) as Q. cbn beta in Q. unfold below.
  destruct (high_bit (tabval bech32_table c)); lia.
Qed.
Lemma bval_enc c v : 0 <= c < 128 -> below 32 v -> lower c = sym alphabech v ->
  tabval bech32_table c = v /\ high_bit (tabval bech32_table c) = false.
Proof.
  intros Hc Hv E. destruct (bval c Hc) as [E1 _]. destruct (bsym v Hv) as (_ & E2 & _).
  rewrite E1, E, E2. split; [reflexivity|]. apply high_bit_small. unfold below in Hv. lia.
Qed.

(* ---- folds ---- *)
Lemma fold_step_map (f : Z -> Z) (l : list Z) : (forall c, 0 <= f c < 32) -> forall a, 0 <= a < 2 ^ 30 ->
  fold_left (fun chk c => Z.lxor (bech32_polymod chk) (f c)) l a =
  fold_left (pm_step 25 bip173_gen) (map f l) a.
Proof.
  intros Hf. induction l as [|c l IH]; intros a Ha; cbn [fold_left map]; [reflexivity|].
  rewrite bech32_step by lia. apply IH. apply (pm_step_range 25 bip173_gen ltac:(lia) bip173_gen_ok).
  specialize (Hf c). lia.
Qed.
Lemma fold_left_ext_in {A B} (f g : A -> B -> A) l : (forall a b, In b l -> f a b = g a b) ->
  forall a, fold_left f l a = fold_left g l a.
Proof.
  induction l as [|x l IH]; intros H a; cbn [fold_left]; [reflexivity|].
  rewrite H by (left; reflexivity). apply IH. intros; apply H. right. assumption.
Qed.

Lemma data_loop_ok (poly : Z -> Z) n gen (Hn : 0 <= n) (Hgen : Forall (below (2 ^ (n + 5))) gen)
  (Hstep : forall c v, 0 <= c -> Z.lxor (poly c) v = pm_step n gen c v) d :
  Forall byte d -> forall a, 0 <= a < 2 ^ (n + 5) ->
  forall r, bech32_data_loop poly a d = Some r <->
  Forall (below 32) d /\ r = (fold_left (pm_step n gen) d a, map (sym alphabech) d).
Proof.
  induction 1 as [|x d Hx Hd IH]; intros a Ha r; cbn [bech32_data_loop fold_left map].
  - split; [intros [= <-]; auto|]. intros (_ & ->). reflexivity.
  - rewrite Hstep by lia.
    destruct (Z.eqb_spec (shr x 5) 0) as [E|E]; cbn [negb].
    + assert (Hx32 : below 32 x).
      { unfold shr in E. rewrite shiftr_div in E by lia. change (2 ^ 5) with 32 in E.
        unfold byte in Hx. unfold below. lia. }
      assert (Hr : 0 <= pm_step n gen a x < 2 ^ (n + 5)).
      { apply pm_step_range; auto. apply below32_range; auto. }
      destruct (bsym x Hx32) as (Ex & _). rewrite Ex.
      destruct (bech32_data_loop poly (pm_step n gen a x) d) as [[c o]|] eqn:El.
      * pose proof (proj1 (IH _ Hr (c, o)) El) as (F & [= -> ->]).
        split; [intros [= <-]; auto|]. intros (_ & ->). reflexivity.
      * split; [discriminate|]. intros (F & _). inversion F; subst.
        assert (Q : Some (fold_left (pm_step n gen) d (pm_step n gen a x), map (sym alphabech) d) = None).
        { rewrite <- El. symmetry. apply IH; auto. }
        discriminate Q.
    + split; [discriminate|]. intros (F & _). inversion F; subst. exfalso. apply E.
      unfold shr. rewrite shiftr_div by lia. change (2 ^ 5) with 32.
      match goal with H : below 32 x |- _ => unfold below in H end. lia.
Qed.

Lemma vals_ok (poly : Z -> Z) n gen (Hn : 0 <= n) (Hgen : Forall (below (2 ^ (n + 5))) gen)
  (Hstep : forall c v, 0 <= c -> Z.lxor (poly c) v = pm_step n gen c v) s :
  Forall (below 128) s -> forall a, 0 <= a < 2 ^ (n + 5) ->
  forall chk vs, bech32_vals poly a s = Some (chk, vs) <->
  Forall (below 32) vs /\ map lower s = map (sym alphabech) vs /\ chk = fold_left (pm_step n gen) vs a.
Proof.
  induction 1 as [|c s Hc Hs IH]; intros a Ha chk vs; cbn [bech32_vals].
  - split; [intros [= <- <-]; repeat split; constructor|].
    intros (F & E & ->). destruct vs; [reflexivity|discriminate].
  - destruct (bval c Hc) as (E1 & E2). destruct (high_bit (tabval bech32_table c)) eqn:EH.
    + split; [discriminate|]. intros (F & E & _). destruct vs as [|v vs]; [discriminate|].
      cbn [map] in E. injection E as Ec Es. inversion F; subst.
      destruct (bval_enc c v) as (_ & Q); auto. congruence.
    + specialize (E2 eq_refl). destruct E2 as (Hv & Es). rewrite Hstep by lia.
      set (v := tabval bech32_table c) in *.
      assert (Hr : 0 <= pm_step n gen a v < 2 ^ (n + 5)).
      { apply pm_step_range; auto. apply below32_range; auto. }
      specialize (IH _ Hr).
      destruct (bech32_vals poly (pm_step n gen a v) s) as [[c1 v1]|] eqn:El.
      * pose proof (proj1 (IH c1 v1) eq_refl) as (F1 & M1 & K1).
        split.
        -- intros [= <- <-]. cbn [map fold_left]. split; [auto|]. split; [congruence|exact K1].
        -- intros (F & E & K). destruct vs as [|v' vs]; [discriminate|].
           cbn [map] in E. injection E as Ec Et. inversion F; subst.
           destruct (bval_enc c v') as (Q & _); auto. fold v in Q. subst v'.
           assert (Some (fold_left (pm_step n gen) v1 (pm_step n gen a v), v1) = Some (fold_left (pm_step n gen) vs (pm_step n gen a v), vs)) as Qs.
           { apply IH. auto. }
           injection Qs as Q1 Q2. cbn [fold_left]. subst. reflexivity.
      * split; [discriminate|]. intros (F & E & K). destruct vs as [|v' vs]; [discriminate|].
        cbn [map] in E. injection E as Ec Et. inversion F; subst.
        destruct (bval_enc c v') as (Q & _); auto. fold v in Q. subst v'.
        assert (None = Some (fold_left (pm_step n gen) vs (pm_step n gen a v), vs)) as Qs by (apply IH; auto).
        discriminate Qs.
Qed.

(* ---- serialize ---- *)
Definition hrp_charb (c : Z) : bool := (33 <=? c) && (c <=? 126) && negb ((65 <=? c) && (c <=? 90)).
Lemma hrp_charb_spec c : hrp_charb c = true <-> hrp_char c.
Proof. unfold hrp_charb, hrp_char, is_upper. lia. Qed.

Lemma hrp_loop_ok n : forall s hlen a, Forall cchar s -> 0 <= a < 2 ^ 30 ->
  bech32_hrp_loop n s hlen a =
  if forallb hrp_charb (firstn n s)
  then Some ((hlen + Nat.min n (length s))%nat,
             fold_left (pm_step 25 bip173_gen) (map (fun c => c / 32) (firstn n s)) a)
  else None.
Proof.
  induction n as [|n IH]; intros s hlen a Hs Ha; cbn [bech32_hrp_loop firstn forallb].
  - cbn [map fold_left Nat.min]. f_equal. f_equal. lia.
  - destruct s as [|c s]; cbn [forallb map fold_left length Nat.min].
    + f_equal. f_equal. lia.
    + inversion Hs; subst. unfold cchar in *. rewrite ascii_id by lia. cbn zeta.
      destruct (Z.eqb_spec c 0); [lia|].
      assert (EH : hrp_charb c = negb ((c <? 33) || (126 <? c)) && negb ((65 <=? c) && (c <=? 90))) by (unfold hrp_charb; lia).
      rewrite EH. destruct ((c <? 33) || (126 <? c)) eqn:E1; [reflexivity|].
      destruct ((65 <=? c) && (c <=? 90)) eqn:E2; [reflexivity|]. cbn [negb andb].
      unfold shr at 1. rewrite shiftr_div by lia. change (2 ^ 5) with 32.
      rewrite bech32_step by lia. rewrite IH; auto.
      * replace (S hlen + Nat.min n (length s))%nat with (hlen + S (Nat.min n (length s)))%nat by lia. reflexivity.
      * apply (pm_step_range 25 bip173_gen ltac:(lia) bip173_gen_ok).
        change (2 ^ (25 + 5)) with 1073741824. lia.
Qed.

Lemma rdz_full s k : Forall cchar s -> (rdz s k =? 0) = (length s <=? k)%nat.
Proof.
  intros Hs. unfold rdz. destruct (Nat.leb_spec (length s) k).
  - rewrite nth_overflow by lia. reflexivity.
  - pose proof (Forall_nth_d cchar s k 0) as Q.
    assert (In (nth k s 0) s) as Hin by (apply nth_In; lia).
    rewrite Forall_forall in Hs. apply Hs in Hin. unfold cchar in Hin. lia.
Qed.

Lemma hrp_expand_32 hrp : Forall hrp_char hrp -> Forall (below 32) (hrp_expand hrp).
Proof.
  intros H. unfold hrp_expand. apply Forall_app. split; [|constructor; [unfold below; lia|]];
  rewrite Forall_map; (eapply Forall_impl; [|exact H]); intros c (Hc & _); unfold below; lia.
Qed.

Lemma poly_expand hrp : Forall hrp_char hrp ->
  fold_left (fun chk c => Z.lxor (bech32_polymod chk) (Z.land (torsion_ascii c) 31)) hrp
    (bech32_polymod (fold_left (pm_step 25 bip173_gen) (map (fun c => c / 32) hrp) 1)) =
  bip173_polymod (hrp_expand hrp).
Proof.
  intros H. unfold bip173_polymod, hrp_expand. rewrite fold_left_app. cbn [fold_left app].
  set (a := fold_left _ (map (fun c => c / 32) hrp) 1).
  assert (Ha : 0 <= a < 2 ^ (25 + 5)).
  { apply (pm_fold_range 25 bip173_gen ltac:(lia) bip173_gen_ok); [|lia].
    rewrite Forall_map. eapply Forall_impl; [|exact H]. intros c (Hc & _). unfold below. lia. }
  rewrite <- (Z.lxor_0_r (bech32_polymod a)), bech32_step by lia.
  rewrite (fold_step_map (fun c => Z.land (torsion_ascii c) 31)).
  - f_equal. apply map_ext_in. intros c Hc. rewrite Forall_forall in H. apply H in Hc. destruct Hc as (Hc & _).
    rewrite ascii_id by lia. apply land_31.
  - intros c. rewrite land_31. apply Z.mod_pos_bound. lia.
  - apply (pm_step_range 25 bip173_gen ltac:(lia) bip173_gen_ok). lia.
Qed.

Lemma iter_bech32 k : forall a, 0 <= a < 2 ^ 30 ->
  iter_polymod bech32_polymod k a = iter_polymod (pmz 25 bip173_gen) k a.
Proof.
  induction k as [|k IH]; intros a Ha; cbn [iter_polymod]; [reflexivity|].
  rewrite <- (Z.lxor_0_r (bech32_polymod a)), bech32_step by lia. apply IH.
  apply (pmz_range 25 bip173_gen ltac:(lia) bip173_gen_ok).
Qed.

Lemma checksum_syms (m : nat) x : 0 <= x ->
  map (fun i => tab bech32_charset (Z.land (shr x ((Z.of_nat m - 1 - i) * 5)) 31)) (zseq 0 m) =
  map (sym alphabech) (bedig 32 m x).
Proof.
  intros Hx. unfold bedig. rewrite map_rev.
  assert (E : map (sym alphabech) (digits 32 m x) =
     map (fun j => tab bech32_charset (Z.land (shr x (j * 5)) 31)) (zseq 0 m)).
  { assert (G : forall y b, 0 <= b -> 0 <= y -> y = x / 32 ^ b -> map (sym alphabech) (digits 32 m y) =
      map (fun j => tab bech32_charset (Z.land (shr x (j * 5)) 31)) (zseq b m)).
    { clear. induction m as [|m IH]; intros y b Hb Hy E; cbn [digits zseq map]; [reflexivity|].
      f_equal.
      - rewrite land_31. unfold shr. rewrite shiftr_div by lia. rewrite (Z.mul_comm b 5), Z.pow_mul_r by lia.
        change (2 ^ 5) with 32. rewrite <- E.
        symmetry. apply bsym. unfold below. apply Z.mod_pos_bound. lia.
      - apply IH; try lia. rewrite E. rewrite Z.pow_add_r by lia. change (32 ^ 1) with 32.
        rewrite Z.div_div; try lia; apply Z.pow_pos_nonneg; lia. }
    apply G; [lia|lia|]. rewrite Z.pow_0_r, Z.div_1_r. reflexivity. }
  rewrite E, <- map_rev.
  assert (R : rev (zseq 0 m) = map (fun i => Z.of_nat m - 1 - i) (zseq 0 m)).
  { assert (G : forall b, rev (zseq b m) = map (fun i => 2 * b + Z.of_nat m - 1 - i) (zseq b m)).
    { clear. induction m as [|m IH]; intros b; [reflexivity|].
      assert (S : zseq b (S m) = zseq b m ++ [b + Z.of_nat m]).
      { clear. revert b. induction m as [|m IH]; intros b.
        - cbn. f_equal. lia.
        - change (zseq b (S (S m))) with (b :: zseq (b + 1) (S m)). rewrite IH.
          cbn [zseq app]. do 3 f_equal. lia. }
      rewrite S at 1. rewrite rev_app_distr. cbn [rev app zseq map]. f_equal; [lia|].
      rewrite IH.
      assert (G : forall c, map (fun i => 2 * b + Z.of_nat m - 1 - i) (zseq c m) =
         map (fun i => 2 * b + Z.of_nat (Datatypes.S m) - 1 - i) (zseq (c + 1) m)).
      { clear. induction m as [|m IH]; intros c; [reflexivity|]. cbn [zseq map]. f_equal; [lia|].
        assert (H : forall k, map (fun i => 2 * b + Z.of_nat (Datatypes.S m) - 1 - i) (zseq k m) =
           map (fun i => 2 * b + Z.of_nat (Datatypes.S (Datatypes.S m)) - 1 - i) (zseq (k + 1) m)).
        { intros k. specialize (IH k). clear - IH.
          revert IH. generalize (zseq k m) (zseq (k + 1) m). induction l as [|x l IHl]; intros [|y l'] E; try discriminate; [reflexivity|].
          cbn [map] in *. injection E as E1 E2. f_equal; [lia|]. apply IHl; auto. }
        apply H. }
      apply G. }
    rewrite G. apply map_ext. intros. lia. }
  rewrite R, map_map. reflexivity.
Qed.

Lemma bech32_serialize_iff hrp d k s : Forall cchar hrp -> bytes d -> 0 <= k < 2 ^ 30 ->
  bech32_serialize hrp d k = Some s <-> is_bech32 k hrp d s.
Proof.
  intros Hh Hd Hk. unfold bech32_serialize. rewrite hrp_loop_ok by (auto; lia). cbn [Nat.add].
  destruct (forallb hrp_charb (firstn 83 hrp)) eqn:EF.
  2:{ split; [discriminate|]. intros (_ & F & _). exfalso.
      assert (forallb hrp_charb (firstn 83 hrp) = true); [|congruence].
      apply forallb_forall. intros c Hc. apply hrp_charb_spec. rewrite Forall_forall in F. apply F.
      rewrite <- (firstn_skipn 83 hrp). apply in_or_app. left. exact Hc. }
  rewrite rdz_full by auto.
  destruct (Nat.eqb_spec (Nat.min 83 (length hrp)) 0) as [E0|E0]; cbn [orb].
  { split; [discriminate|]. intros (N & _). destruct hrp; [congruence|]. cbn [length] in E0. lia. }
  destruct (Nat.leb_spec (length hrp) (Nat.min 83 (length hrp))) as [EL|EL]; cbn [negb].
  2:{ split; [discriminate|]. intros (_ & _ & _ & c & Hc & _ & _ & -> & L).
      rewrite !app_length, map_length, app_length, Hc in L. cbn [length] in L. lia. }
  replace (Nat.min 83 (length hrp)) with (length hrp) by lia.
  rewrite (firstn_all2 (n := 83)) in * by lia. rewrite (firstn_all hrp).
  assert (Fh : Forall hrp_char hrp).
  { apply Forall_forall. intros c Hc. apply hrp_charb_spec. rewrite forallb_forall in EF. auto. }
  rewrite poly_expand by auto.
  set (a := bip173_polymod (hrp_expand hrp)).
  assert (Ha : 0 <= a < 2 ^ (25 + 5)).
  { apply (pm_fold_range 25 bip173_gen ltac:(lia) bip173_gen_ok); [|lia]. apply hrp_expand_32; auto. }
  destruct (Z.ltb_spec 90 (Z.of_nat (length hrp) + 1 + Z.of_nat (length d) + 6)) as [E9|E9].
  { split; [discriminate|]. intros (_ & _ & _ & c & Hc & _ & _ & -> & L).
    rewrite !app_length, map_length, app_length, Hc in L. cbn [length] in L. lia. }
  pose proof (data_loop_ok bech32_polymod 25 bip173_gen ltac:(lia) bip173_gen_ok bech32_step d Hd a Ha) as HD.
  destruct (bech32_data_loop bech32_polymod a d) as [[chk o]|] eqn:EL2.
  2:{ split; [discriminate|]. intros (_ & _ & F & _). exfalso.
      assert (Q : None = Some (fold_left (pm_step 25 bip173_gen) d a, map (sym alphabech) d)) by (apply HD; auto).
      discriminate Q. }
  pose proof (proj1 (HD _) eq_refl) as (Fd & [= Echk Eo]).
  assert (Hchk : 0 <= chk < 2 ^ (25 + 5)).
  { rewrite Echk. apply (pm_fold_range 25 bip173_gen ltac:(lia) bip173_gen_ok); auto. }
  rewrite iter_bech32 by lia.
  set (x := Z.lxor _ k).
  assert (Hx : 0 <= x < 2 ^ (25 + 5)).
  { subst x. apply lxor_range; [lia| |lia]. cbn [iter_polymod]. apply (pmz_range 25 bip173_gen ltac:(lia) bip173_gen_ok). }
  pose proof (checksum_syms 6 x ltac:(lia)) as ES. cbn [zseq Z.add] in ES.
  change (Z.of_nat 6 - 1) with 5 in ES.
  change [0; 1; 2; 3; 4; 5] with (zseq 0 6). 
  change (zseq 0 6) with [0; 1; 2; 3; 4; 5].
  replace (map (fun i => tab bech32_charset (Z.land (shr x ((5 - i) * 5)) 31)) [0; 1; 2; 3; 4; 5])
    with (map (sym alphabech) (bedig 32 6 x)) by (rewrite <- ES; reflexivity).
  assert (B32 : Forall (below 32) (bedig 32 6 x)) by (apply Forall_rev, digits_below; lia).
  assert (BL : length (bedig 32 6 x) = 6%nat) by (unfold bedig; rewrite rev_length, digits_length; reflexivity).
  assert (PS : forall c, bip173_polymod (hrp_expand hrp ++ d ++ c) = fold_left (pm_step 25 bip173_gen) c chk).
  { intros c. unfold bip173_polymod. rewrite !fold_left_app. rewrite Echk. reflexivity. }
  remember (bedig 32 6 x) as cs eqn:Ecs.
  split.
  - intros E. injection E as E. subst s. split; [intros ->; cbn in E0; lia|]. split; [auto|]. split; [auto|].
    exists cs. split; [auto|]. split; [auto|]. split.
    + rewrite PS. rewrite Ecs in *. apply (pm_checksum 25 bip173_gen ltac:(lia) bip173_gen_ok 6 chk k); auto; lia.
    + split; [rewrite map_app, Eo; reflexivity|].
      rewrite app_length. cbn [length]. rewrite app_length, map_length, BL, Eo, map_length. lia.
  - intros (_ & _ & _ & c & Lc & Fc & Pc & -> & _). rewrite PS in Pc.
    apply (pm_checksum 25 bip173_gen ltac:(lia) bip173_gen_ok 6 chk k) in Pc; auto; try lia.
    fold x in Pc. subst c. rewrite map_app, Eo, Ecs. reflexivity.
Qed.
