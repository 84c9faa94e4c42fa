(* base32 and base32hex *)
From Verif.Base Require Import Prelude.
From Verif.Model Require Import Encoding.
From Verif.Spec Require Import EncodingSpec.
From Verif.Proof Require Import EncodingProof.

(* the digits of RFC 4648 base32, group by group *)
Fixpoint e32 (l : list Z) : list Z :=
  match l with
  | a :: b :: c :: d :: e :: t =>
    a / 8 :: a mod 8 * 4 + b / 64 :: b / 2 mod 32 :: b mod 2 * 16 + c / 16 ::
    c mod 16 * 2 + d / 128 :: d / 4 mod 32 :: d mod 4 * 8 + e / 32 :: e mod 32 :: e32 t
  | [a; b; c; d] =>
    [a / 8; a mod 8 * 4 + b / 64; b / 2 mod 32; b mod 2 * 16 + c / 16;
     c mod 16 * 2 + d / 128; d / 4 mod 32; d mod 4 * 8]
  | [a; b; c] =>
    [a / 8; a mod 8 * 4 + b / 64; b / 2 mod 32; b mod 2 * 16 + c / 16; c mod 16 * 2]
  | [a; b] => [a / 8; a mod 8 * 4 + b / 64; b / 2 mod 32; b mod 2 * 16]
  | [a] => [a / 8; a mod 8 * 4]
  | [] => []
  end.

Ltac d5 g Hg := dlist g Hg; destruct g; [|discriminate].

Lemma e32_below l : bytes l -> Forall (below 32) (e32 l).
Proof.
  apply (list_ind_step 5 (fun l => bytes l -> Forall (below 32) (e32 l))); clear l; [lia| |].
  - intros [|a [|b [|c [|d [|? ?]]]]] HL Hs; invbytes; unfold byte in *; cbn [e32];
      try (cbn [length] in HL; lia); repeat constructor; unfold below; lia.
  - intros g l Hg IH Hs. d5 g Hg. cbn [app e32] in *. invbytes. unfold byte in *.
    repeat (constructor; [unfold below; lia|]). auto.
Qed.

Lemma e32_rfc l : bytes l -> e32 l = rfc4648_digits 5 l.
Proof.
  apply (list_ind_step 5 (fun l => bytes l -> e32 l = rfc4648_digits 5 l)); clear l; [lia| |].
  - intros [|a [|b [|c [|d [|? ?]]]]] HL Hs; invbytes; unfold byte in *;
      try (cbn [length] in HL; lia).
    + rewrite rfc_digits_nil by lia. reflexivity.
    + symmetry. apply (bedig_unique 32 (e32 [a])); [lia| |].
      * apply e32_below; repeat constructor; lia.
      * cbn [e32 rev app dval length]. unfold be_val. cbn [rev app dval].
        change (2 ^ _) with 4. lia.
    + symmetry. apply (bedig_unique 32 (e32 [a; b])); [lia| |].
      * apply e32_below; repeat constructor; lia.
      * cbn [e32 rev app dval length]. unfold be_val. cbn [rev app dval].
        change (2 ^ _) with 16. lia.
    + symmetry. apply (bedig_unique 32 (e32 [a; b; c])); [lia| |].
      * apply e32_below; repeat constructor; lia.
      * cbn [e32 rev app dval length]. unfold be_val. cbn [rev app dval].
        change (2 ^ _) with 2. lia.
    + symmetry. apply (bedig_unique 32 (e32 [a; b; c; d])); [lia| |].
      * apply e32_below; repeat constructor; lia.
      * cbn [e32 rev app dval length]. unfold be_val. cbn [rev app dval].
        change (2 ^ _) with 8. lia.
  - intros g l Hg IH Hs.
    rewrite (rfc_digits_group 5 g 8 l) by (first [lia | apply bytes_app in Hs; tauto]).
    rewrite <- IH by (apply bytes_app in Hs; tauto).
    d5 g Hg. rename z into a, z0 into b, z1 into c, z2 into d, z3 into e.
    cbn [app] in Hs. invbytes.
    change (e32 ([a; b; c; d; e] ++ l)) with (e32 [a; b; c; d; e] ++ e32 l). f_equal.
    symmetry. apply (bedig_unique 32 (e32 [a; b; c; d; e])); [lia| |].
    + apply e32_below; repeat constructor; unfold byte in *; lia.
    + unfold byte in *. cbn [e32 rev app dval length]. unfold be_val. cbn [rev app dval]. lia.
Qed.

Lemma enc_loop_group cs lft a b c d e t : byte a -> byte b -> byte c -> byte d -> byte e ->
  base32_enc_loop cs 0 lft (a :: b :: c :: d :: e :: t) =
  let '(o, m, l) := base32_enc_loop cs 0 (d mod 1 + e mod 1 + w8 (Z.shiftl (Z.land d 3) 3)) t in
  (map (tab cs) (e32 [a; b; c; d; e]) ++ o, m, l).
Proof.
  intros. unfold byte in *. cbn [base32_enc_loop base32_enc_step Z.eqb Pos.eqb].
  rewrite !Z.mod_1_r. cbn [Z.add].
  destruct (base32_enc_loop cs 0 (w8 (Z.shiftl (Z.land d 3) 3)) t) as [[o m] l].
  f_equal. f_equal. cbn [app e32 map]. bits2arith.
  rewrite !(Z.mod_small (_ * _) 256) by lia. lor2add. reflexivity.
Qed.

Lemma enc_loop_tail cs lft l : bytes l -> (length l < 5)%nat ->
  exists o lf, base32_enc_loop cs 0 lft l = (o, Z.of_nat (length l), lf) /\
   map (tab cs) (e32 l) = if (0 <? Z.of_nat (length l)) then o ++ [tab cs lf] else o.
Proof.
  intros Hl HL. destruct l as [|a [|b [|c [|d [|? ?]]]]]; invbytes; unfold byte in *;
    try (cbn [length] in HL; lia); cbn [base32_enc_loop base32_enc_step Z.eqb Pos.eqb];
    eexists; eexists; (split; [reflexivity|]); [reflexivity|..];
    cbn [app e32 map length]; match goal with |- context [0 <? ?x] => change (0 <? x) with true end;
    cbv iota; cbn [app]; bits2arith; rewrite ?(Z.mod_small (_ * _) 256) by lia; lor2add; reflexivity.
Qed.

Lemma enc_loop_all cs l : bytes l -> forall lft,
  exists o lf, base32_enc_loop cs 0 lft l = (o, Z.of_nat (length l) mod 5, lf) /\
   map (tab cs) (e32 l) = if (0 <? Z.of_nat (length l) mod 5) then o ++ [tab cs lf] else o.
Proof.
  apply (list_ind_step 5 (fun l => bytes l -> forall lft,
   exists o lf, base32_enc_loop cs 0 lft l = (o, Z.of_nat (length l) mod 5, lf) /\
   map (tab cs) (e32 l) = if (0 <? Z.of_nat (length l) mod 5) then o ++ [tab cs lf] else o)); clear l; [lia| |].
  - intros l HL Hl lft. rewrite Z.mod_small by lia. apply enc_loop_tail; auto.
  - intros g l Hg IH Hs lft. d5 g Hg. cbn [app] in *. invbytes.
    rewrite enc_loop_group by auto.
    match goal with |- context [base32_enc_loop cs 0 ?x l] => destruct (IH ltac:(assumption) x) as (o & lf & -> & E) end.
    cbn [length]. replace (Z.of_nat (S (S (S (S (S (length l))))))) with (Z.of_nat (length l) + 1 * 5) by lia.
    rewrite Z.mod_add by lia. eexists. exists lf. split; [reflexivity|].
    match goal with |- map _ (e32 (?a :: ?b :: ?c :: ?d :: ?e :: l)) = _ =>
      change (e32 (a :: b :: c :: d :: e :: l)) with (e32 [a; b; c; d; e] ++ e32 l) end.
    rewrite map_app, E. destruct (0 <? _); rewrite ?app_assoc; reflexivity.
Qed.

Lemma e32_len l : Z.of_nat (length (e32 l)) = (Z.of_nat (length l) / 5) * 8 +
  tab [0; 2; 4; 5; 7] (Z.of_nat (length l) mod 5).
Proof.
  apply (list_ind_step 5 (fun l => Z.of_nat (length (e32 l)) = (Z.of_nat (length l) / 5) * 8 +
    tab [0; 2; 4; 5; 7] (Z.of_nat (length l) mod 5))); clear l; [lia| |].
  - intros [|a [|b [|c [|d [|? ?]]]]] HL; try reflexivity. cbn [length] in HL; lia.
  - intros g l Hg IH. d5 g Hg. cbn [app e32 length].
    replace (Z.of_nat (S (S (S (S (S (length l))))))) with (Z.of_nat (length l) + 1 * 5) by lia.
    rewrite Z.mod_add, Z.div_add by lia. lia.
Qed.

Lemma mod5_cases n : 0 <= n -> n mod 5 = 0 \/ n mod 5 = 1 \/ n mod 5 = 2 \/ n mod 5 = 3 \/ n mod 5 = 4.
Proof. lia. Qed.

Lemma base32_encode_eq cs l pad : bytes l ->
  base32_encode0 cs l pad = (if pad then pad_eq 8 else fun x => x) (map (tab cs) (e32 l)).
Proof.
  intros Hl. unfold base32_encode0. destruct (enc_loop_all cs l Hl 0) as (o & lf & -> & E).
  set (n := Z.of_nat (length l)) in *. assert (0 <= n) by lia.
  pose proof (e32_len l) as EL. fold n in EL.
  assert (P : pad_eq 8 (map (tab cs) (e32 l)) = map (tab cs) (e32 l) ++ repeat 61 (Z.to_nat (base32_padding (n mod 5)))).
  { unfold pad_eq. f_equal. f_equal. rewrite map_length. set (k := length (e32 l)) in *.
    assert (G : Z.of_nat (k mod 8) = Z.of_nat k mod 8) by (rewrite Nat2Z.inj_mod; reflexivity).
    unfold base32_padding.
    destruct (mod5_cases n) as [A|[A|[A|[A|A]]]]; auto; rewrite A in *;
      match type of EL with context [tab ?l ?i] => let v := eval vm_compute in (tab l i) in change (tab l i) with v in EL end;
      rewrite EL in G.
    - replace (k mod 8)%nat with 0%nat by lia. reflexivity.
    - replace (k mod 8)%nat with 2%nat by lia. reflexivity.
    - replace (k mod 8)%nat with 4%nat by lia. reflexivity.
    - replace (k mod 8)%nat with 5%nat by lia. reflexivity.
    - replace (k mod 8)%nat with 7%nat by lia. reflexivity. }
  destruct (Z.ltb_spec 0 (n mod 5)) as [H0|H0].
  - destruct pad.
    + rewrite P, E, <- app_assoc. reflexivity.
    + rewrite E. reflexivity.
  - rewrite <- E. destruct pad; auto. rewrite P.
    replace (n mod 5) with 0 by lia. cbn. rewrite app_nil_r. reflexivity.
Qed.

(* ---- decoding ---- *)
Fixpoint dvals (mode lft : Z) (vs : list Z) : list Z * Z * Z :=
  match vs with
  | [] => ([], mode, lft)
  | v :: t =>
    let '(o, mode, lft) := base32_dec_step mode lft v in
    let '(o', mode', lft') := dvals mode lft t in
    (o ++ o', mode', lft')
  end.

Lemma dvals_group l : length l = 8%nat -> Forall (below 32) l -> exists o,
  bytes o /\ length o = 5%nat /\ e32 o = l /\
  forall t, dvals 0 0 (l ++ t) = let '(o', m, lf) := dvals 0 0 t in (o ++ o', m, lf).
Proof.
  intros HL Hl. dlist l HL. destruct l; [|discriminate].
  rename z into a, z0 into b, z1 into c, z2 into d, z3 into e, z4 into f, z5 into g, z6 into h.
  repeat match goal with H : Forall _ (_ :: _) |- _ => apply Forall_cons_iff in H; destruct H end.
  unfold below in *.
  eexists. repeat split; [| | |intros t; cbn [app dvals base32_dec_step Z.eqb Pos.eqb];
    destruct (dvals 0 0 t) as [[o' m] lf]; cbn [app]; bits2arith; lor2add;
    repeat (rewrite (lor_k _ _ 5 32) by (first [reflexivity|lia]));
    instantiate (1 := [_; _; _; _; _]); reflexivity].
  - repeat constructor; lia.
  - reflexivity.
  - cbn [e32]. repeat f_equal; lia.
Qed.

Lemma dvals_tail l : (length l < 8)%nat -> Forall (below 32) l -> exists o lf,
  dvals 0 0 l = (o, Z.of_nat (length l), lf) /\ bytes o /\ 0 <= lf /\
  (length l <> 1%nat -> length l <> 3%nat -> length l <> 6%nat -> lf = 0 -> e32 o = l).
Proof.
  intros HL Hl.
  destruct l as [|a [|b [|c [|d [|e [|f [|g [|? ?]]]]]]]]; try (cbn [length] in HL; lia);
  repeat match goal with H : Forall _ (_ :: _) |- _ => apply Forall_cons_iff in H; destruct H end;
  unfold below in *; cbn [dvals base32_dec_step Z.eqb Pos.eqb app];
  eexists; eexists; (split; [reflexivity|]); bits2arith; lor2add;
  (split; [repeat constructor; lia|]); (split; [lia|]); cbn [length]; intros; try lia; cbn [e32]; repeat f_equal; lia.
Qed.

Lemma dvals_sound l : Forall (below 32) l -> exists o lf,
  dvals 0 0 l = (o, Z.of_nat (length l) mod 8, lf) /\ bytes o /\ 0 <= lf /\
  let m := Z.of_nat (length l) mod 8 in
  (m <> 1 -> m <> 3 -> m <> 6 -> lf = 0 -> e32 o = l).
Proof.
  apply (list_ind_step 8 (fun l => Forall (below 32) l -> exists o lf,
  dvals 0 0 l = (o, Z.of_nat (length l) mod 8, lf) /\ bytes o /\ 0 <= lf /\
  let m := Z.of_nat (length l) mod 8 in
  (m <> 1 -> m <> 3 -> m <> 6 -> lf = 0 -> e32 o = l))); clear l; [lia| |].
  - intros l HL Hl. destruct (dvals_tail l HL Hl) as (o & lf & E & Ho & Hlf & H).
    exists o, lf. cbv zeta. rewrite Z.mod_small by lia. repeat (split; auto). intros. apply H; auto; lia.
  - intros g l Hg IH Hs. apply Forall_app in Hs as [Hs1 Hs2].
    destruct (dvals_group g Hg Hs1) as (og & B1 & B2 & B3 & B4). rewrite B4.
    destruct (IH Hs2) as (o & lf & -> & Ho & Hlf & H).
    exists (og ++ o), lf. rewrite app_length, Hg. cbv zeta.
    replace (Z.of_nat (8 + length l)) with (Z.of_nat (length l) + 1 * 8) by lia.
    rewrite Z.mod_add by lia. repeat split; auto.
    + apply bytes_app; auto.
    + intros. transitivity (e32 og ++ e32 o); [d5 og B2; reflexivity|]. rewrite B3, H by auto. reflexivity.
Qed.

Lemma dvals_e32 o : bytes o -> dvals 0 0 (e32 o) = (o, Z.of_nat (length (e32 o)) mod 8, 0).
Proof.
  apply (list_ind_step 5 (fun o => bytes o -> dvals 0 0 (e32 o) = (o, Z.of_nat (length (e32 o)) mod 8, 0)));
    clear o; [lia| |].
  - intros [|a [|b [|c [|d [|? ?]]]]] HL Hs; try (cbn [length] in HL; lia); invbytes; unfold byte in *;
    cbn [e32 dvals base32_dec_step Z.eqb Pos.eqb app]; bits2arith; lor2add; cbn [length];
    match goal with |- context [Z.of_nat ?n mod 8] => let v := eval vm_compute in (Z.of_nat n mod 8) in change (Z.of_nat n mod 8) with v end;
    repeat f_equal; lia.
  - intros g l Hg IH Hs. apply bytes_app in Hs as [Hs1 Hs2].
    assert (E : e32 (g ++ l) = e32 g ++ e32 l) by (d5 g Hg; reflexivity).
    rewrite E. assert (EL : length (e32 g) = 8%nat) by (d5 g Hg; reflexivity).
    destruct (dvals_group (e32 g) EL (e32_below g Hs1)) as (og & B1 & B2 & B3 & B4).
    rewrite B4, IH, app_length, EL by auto.
    replace (Z.of_nat (8 + length (e32 l))) with (Z.of_nat (length (e32 l)) + 1 * 8) by lia.
    rewrite Z.mod_add by lia. do 3 f_equal.
    d5 og B2. d5 g Hg. cbn [app] in *. invbytes. unfold byte in *. cbn [e32] in B3. injection B3 as X1 X2 X3 X4 X5 X6 X7 X8.
    repeat f_equal; lia.
Qed.

Section B32.
  Variables (tb cs : list Z).
  Hypothesis OK : tab_ok tb cs lower 32 = true.

  Lemma dec_loop_span s : exists pre rest, s = pre ++ rest /\
    Forall (fun c => high_bit (tabval tb c) = false) pre /\
    (rest = [] \/ exists c t, rest = c :: t /\ high_bit (tabval tb c) = true) /\
    forall mode lft, base32_dec_loop tb mode lft s =
      let '(o, m, l) := dvals mode lft (map (tabval tb) pre) in (o, m, l, rest).
  Proof.
    induction s as [|c s (pre & rest & E & HP & HR & HD)].
    - exists [], []. repeat split; auto.
    - destruct (high_bit (tabval tb c)) eqn:Hc.
      + exists [], (c :: s). repeat split; auto; [right; eauto|].
        intros. cbn [base32_dec_loop]. rewrite Hc. reflexivity.
      + exists (c :: pre), rest. repeat split; auto.
        * cbn [app]. congruence.
        * intros. cbn [base32_dec_loop map dvals]. rewrite Hc.
          destruct (base32_dec_step mode lft (tabval tb c)) as [[o1 m1] l1]. rewrite HD.
          destruct (dvals m1 l1 (map (tabval tb) pre)) as [[o2 m2] l2]. reflexivity.
  Qed.

  Lemma span_unique (P : Z -> bool) p r p' r' : p ++ r = p' ++ r' ->
    Forall (fun c => P c = false) p -> Forall (fun c => P c = false) p' ->
    (r = [] \/ exists c t, r = c :: t /\ P c = true) ->
    (r' = [] \/ exists c t, r' = c :: t /\ P c = true) -> p = p' /\ r = r'.
  Proof.
    revert p'. induction p as [|x p IH]; intros [|y p'] E Hp Hp' Hr Hr'; cbn [app] in E.
    - auto.
    - subst r. exfalso. destruct Hr as [|(c & t & Ec & Hc)]; [discriminate|].
      injection Ec as -> _. apply Forall_cons_iff in Hp' as [? _]. congruence.
    - subst r'. exfalso. destruct Hr' as [|(c & t & Ec & Hc)]; [discriminate|].
      injection Ec as -> _. apply Forall_cons_iff in Hp as [? _]. congruence.
    - injection E as -> E. apply Forall_cons_iff in Hp as [? ?]. apply Forall_cons_iff in Hp' as [? ?].
      destruct (IH p' E) as [-> ->]; auto.
  Qed.

  Lemma neg_mod8 m : 0 <= m < 8 -> Z.land (- m) 7 = (8 - m) mod 8.
  Proof. intros. rewrite land_7. lia. Qed.

  Lemma forallb_61 r : forallb (fun c => c =? 61) r = true <-> r = repeat 61 (length r).
  Proof.
    induction r as [|x r IH]; cbn [forallb length repeat]; [tauto|]. rewrite andb_true_iff, IH.
    split; [intros [? ?]; f_equal; auto; lia|]. intros E; injection E as E1 E2. split; [lia|auto].
  Qed.

  Definition padded (unpad : Z) := if unpad =? 0 then (fun x => x) else pad_eq 8.

  Lemma base32_dec_iff s unpad b : bytes s -> Z.of_nat (length s) < 2 ^ 63 -> unpad = 0 \/ unpad = 1 ->
    (base32_decode0 tb s unpad = Some b <->
     bytes b /\ map lower s = padded unpad (map (tab cs) (e32 b))).
  Proof.
    intros Hs HL Hu.
    destruct (dec_loop_span s) as (pre & rest & E & HP & HR & HD).
    unfold base32_decode0. rewrite HD.
    assert (Hpre : bytes pre /\ bytes rest) by (rewrite E in Hs; apply bytes_app in Hs; tauto).
    destruct Hpre as [Hpre Hrest].
    assert (HV : Forall (below 32) (map (tabval tb) pre)).
    { apply Forall_forall. intros v Hv. apply in_map_iff in Hv as (c & <- & Hc).
      pose proof (proj1 (Forall_forall _ _) HP c Hc) as H1. cbn beta in H1.
      pose proof (proj1 (Forall_forall _ _) Hpre c Hc) as H2.
      apply (tok_dec _ _ _ _ OK) in H1; auto. unfold below; lia. }
    assert (HM : map (tab cs) (map (tabval tb) pre) = map lower pre).
    { rewrite map_map. apply map_ext_in. intros c Hc.
      pose proof (proj1 (Forall_forall _ _) HP c Hc) as H1. cbn beta in H1.
      pose proof (proj1 (Forall_forall _ _) Hpre c Hc) as H2.
      apply (tok_dec _ _ _ _ OK) in H1; auto. tauto. }
    set (n := length pre) in *.
    assert (LS : length s = (n + length rest)%nat) by (rewrite E, app_length; reflexivity).
    assert (Hw : forall m, 0 <= m < 8 -> w64 (Z.of_nat (length s - length rest) + Z.land (- m) 7 * unpad)
       = Z.of_nat n + (8 - m) mod 8 * unpad).
    { intros m Hm. rewrite neg_mod8 by auto. rewrite LS, Nat.add_sub. unfold w64, M64.
      apply Z.mod_small. split; [lia|]. destruct Hu; subst unpad; lia. }
    assert (Pad : forall bs, length (e32 bs) = n ->
        (padded unpad (map (tab cs) (e32 bs))) = map (tab cs) (e32 bs) ++
          repeat 61 (Z.to_nat ((8 - Z.of_nat n mod 8) mod 8 * unpad))).
    { intros bs Hbs. unfold padded. destruct Hu; subst unpad; cbn [Z.eqb].
      - rewrite Z.mul_0_r. cbn. rewrite app_nil_r. reflexivity.
      - unfold pad_eq. rewrite map_length, Hbs, Z.mul_1_r. f_equal. f_equal.
        assert (G : Z.of_nat (n mod 8) = Z.of_nat n mod 8) by (rewrite Nat2Z.inj_mod; reflexivity).
        assert (G2 : Z.of_nat ((8 - n mod 8) mod 8) = (8 - Z.of_nat n mod 8) mod 8).
        { rewrite Nat2Z.inj_mod, Nat2Z.inj_sub, G; [reflexivity|lia]. }
        rewrite <- G2, Nat2Z.id. reflexivity. }
    split.
    - destruct (dvals_sound _ HV) as (o & lf & -> & Ho & Hlf & H). rewrite map_length in *. fold n in H |- *.
      set (m := Z.of_nat n mod 8) in *. assert (Hm : 0 <= m < 8) by (subst m; lia).
      destruct ((m =? 1) || (m =? 3) || (m =? 6)) eqn:C1; [discriminate|].
      destruct (Z.ltb_spec 0 lf); [discriminate|].
      rewrite Hw by auto.
      destruct (Z.eqb_spec (Z.of_nat (length s)) (Z.of_nat n + (8 - m) mod 8 * unpad)) as [HE|]; [|discriminate].
      cbn [negb]. destruct (forallb _ rest) eqn:F; [|discriminate]. intros Eo; injection Eo as <-.
      cbv zeta in H. assert (He : e32 o = map (tabval tb) pre).
      { apply H; try lia; intros ->; discriminate C1. }
      split; auto. rewrite Pad by (rewrite He, map_length; reflexivity).
      rewrite He, HM, E, map_app. f_equal. apply forallb_61 in F. rewrite F.
      fold m. replace (length rest) with (Z.to_nat ((8 - m) mod 8 * unpad)) by lia.
      generalize (Z.to_nat ((8 - m) mod 8 * unpad)) as k. induction k as [|k IHk]; [reflexivity|].
      cbn [repeat map]. rewrite IHk. reflexivity.
    - intros [Hb Em].
      set (q := e32 b) in *.
      assert (Hq : Forall (below 32) q) by (apply e32_below; auto).
      (* split the folded string *)
      assert (Hsp : exists k, padded unpad (map (tab cs) q) = map (tab cs) q ++ repeat 61 k).
      { unfold padded. destruct (unpad =? 0); [exists O; cbn; rewrite app_nil_r; auto|]. eexists. reflexivity. }
      destruct Hsp as [k Hk]. rewrite Hk in Em.
      assert (Es : s = firstn (length q) s ++ skipn (length q) s) by (rewrite firstn_skipn; auto).
      set (p := firstn (length q) s) in *. set (r := skipn (length q) s) in *.
      assert (EP : map lower p = map (tab cs) q).
      { unfold p. rewrite <- firstn_map, Em. rewrite firstn_app_exact; auto. rewrite map_length; auto. }
      assert (ER : map lower r = repeat 61 k).
      { unfold r. rewrite <- skipn_map, Em. rewrite skipn_app_exact; auto. rewrite map_length; auto. }
      clearbody p r.
      assert (Hpb : bytes p /\ bytes r) by (rewrite Es in Hs; apply bytes_app in Hs; tauto).
      destruct Hpb as [Hpb Hrb].
      assert (Hpt : map (tabval tb) p = q /\ Forall (fun c => high_bit (tabval tb c) = false) p).
      { clear -EP Hpb Hq OK. clearbody q. revert p EP Hpb. induction q as [|v q IH]; intros [|c p] EP Hpb; try discriminate.
        - split; [reflexivity|constructor].
        - cbn [map] in EP. injection EP as E1 E2. invbytes. apply Forall_cons_iff in Hq as [Hv Hq].
          unfold below in Hv.
          assert (T : tabval tb c = v) by (apply (tok_enc _ _ _ _ OK); auto; lia).
          destruct (IH Hq p E2) as [I1 I2]; auto. split.
          + cbn [map]. congruence.
          + constructor; auto. rewrite T. apply high_bit_small. lia. }
      destruct Hpt as [Hpt Hpf].
      assert (Er61 : r = repeat 61 k).
      { clear -ER Hrb OK. revert r ER Hrb. induction k as [|k IH]; intros [|c r] ER Hrb; try discriminate; auto.
        cbn [map repeat] in *. injection ER as E1 E2. invbytes. apply (proj1 (tok_fold61 _ _ _ _ OK c ltac:(assumption))) in E1.
        f_equal; auto. }
      destruct (span_unique (fun c => high_bit (tabval tb c)) pre rest p r) as [-> ->]; auto.
      { rewrite <- E, <- Es. reflexivity. }
      { rewrite Er61. destruct k as [|k]; [auto|]. right. cbn [repeat]. exists 61, (repeat 61 k). split; [reflexivity|].
        apply (tok_eq _ _ _ _ OK); lia. }
      rewrite Hpt. unfold q. rewrite dvals_e32 by auto. fold q.
      assert (Lq : length q = n). { unfold n. rewrite <- Hpt, map_length. reflexivity. }
      rewrite Lq. set (m := Z.of_nat n mod 8) in *. assert (Hm : 0 <= m < 8) by (subst m; lia).
      pose proof (e32_len b) as EL. fold q in EL. rewrite Lq in EL.
      assert (Hm2 : m <> 1 /\ m <> 3 /\ m <> 6).
      { unfold m. rewrite EL. pose proof (mod5_cases (Z.of_nat (length b)) ltac:(lia)) as A.
        destruct A as [A|[A|[A|[A|A]]]]; rewrite A; cbv [tab nth Z.to_nat Pos.to_nat Pos.iter_op Init.Nat.add]; lia. }
      destruct (Z.eqb_spec m 1); [lia|]. destruct (Z.eqb_spec m 3); [lia|]. destruct (Z.eqb_spec m 6); [lia|].
      cbn [orb Z.ltb]. change (0 <? 0) with false. cbv iota. rewrite Hw by auto.
      assert (Hkk : Z.of_nat k = (8 - m) mod 8 * unpad).
      { assert (Ek : map (tab cs) q ++ repeat 61 k = map (tab cs) q ++ repeat 61 (Z.to_nat ((8 - m) mod 8 * unpad))).
        { rewrite <- Hk. apply Pad; auto. }
        apply app_inv_head in Ek. apply (f_equal (@length Z)) in Ek. rewrite !repeat_length in Ek.
        rewrite Ek. rewrite Z2Nat.id; auto. destruct Hu; subst unpad; lia. }
      rewrite LS, Er61, repeat_length.
      replace (Z.of_nat (n + k) =? Z.of_nat n + (8 - m) mod 8 * unpad) with true by lia.
      cbn [negb].
      replace (forallb (fun c => c =? 61) (repeat 61 k)) with true; [reflexivity|].
      symmetry. apply forallb_61. rewrite repeat_length. reflexivity.
  Qed.

  (* test accepts exactly what decode accepts *)
  Lemma table_span_eq s : bytes s -> exists pre rest, s = pre ++ rest /\ table_span tb s = (pre, rest) /\
    Forall (fun c => high_bit (tabval tb c) = false) pre /\
    (rest = [] \/ exists c t, rest = c :: t /\ high_bit (tabval tb c) = true).
  Proof.
    induction 1 as [|c s Hc Hs (pre & rest & E & ES & HP & HR)].
    - exists [], []. repeat split; auto.
    - cbn [table_span]. rewrite (tok_neg1 _ _ _ _ OK) by auto. destruct (high_bit (tabval tb c)) eqn:H.
      + exists [], (c :: s). repeat split; auto. right; eauto.
      + rewrite ES. exists (c :: pre), rest. repeat split; auto. cbn [app]. congruence.
  Qed.

  Lemma dvals_lft_tail l : (length l < 8)%nat -> Forall (below 32) l ->
    snd (dvals 0 0 l) = 
    let v := last l 0 in let m := Z.of_nat (length l) in
    if m =? 2 then v mod 4 else if m =? 4 then v mod 16 else if m =? 5 then v mod 2 
    else if m =? 7 then v mod 8 else snd (dvals 0 0 l).
  Proof.
    intros HL Hl.
    destruct l as [|a [|b [|c [|d [|e [|f [|g [|? ?]]]]]]]]; try (cbn [length] in HL; lia);
    try reflexivity; cbn [dvals base32_dec_step Z.eqb Pos.eqb app snd last length]; bits2arith;
    reflexivity.
  Qed.

  Lemma dvals_lft l : Forall (below 32) l -> 
    let v := last l 0 in let m := Z.of_nat (length l) mod 8 in
    (m = 2 -> snd (dvals 0 0 l) = v mod 4) /\ (m = 4 -> snd (dvals 0 0 l) = v mod 16) /\
    (m = 5 -> snd (dvals 0 0 l) = v mod 2) /\ (m = 7 -> snd (dvals 0 0 l) = v mod 8) /\
    (m = 0 -> snd (dvals 0 0 l) = 0).
  Proof.
    apply (list_ind_step 8 (fun l => Forall (below 32) l -> 
    let v := last l 0 in let m := Z.of_nat (length l) mod 8 in
    (m = 2 -> snd (dvals 0 0 l) = v mod 4) /\ (m = 4 -> snd (dvals 0 0 l) = v mod 16) /\
    (m = 5 -> snd (dvals 0 0 l) = v mod 2) /\ (m = 7 -> snd (dvals 0 0 l) = v mod 8) /\
    (m = 0 -> snd (dvals 0 0 l) = 0))); clear l; [lia| |].
    - intros l HL Hl v m. pose proof (dvals_lft_tail l HL Hl) as D. cbv zeta in D.
      subst m. rewrite Z.mod_small by lia.
      repeat split; intros E; rewrite E in D; cbn [Z.eqb Pos.eqb] in D; auto.
      destruct l; [reflexivity|cbn [length] in E; lia].
    - intros g l Hg IH Hs. apply Forall_app in Hs as [Hs1 Hs2].
      destruct (dvals_group g Hg Hs1) as (og & B1 & B2 & B3 & B4). rewrite B4.
      specialize (IH Hs2). cbv zeta in *. rewrite app_length, Hg.
      replace (Z.of_nat (8 + length l)) with (Z.of_nat (length l) + 1 * 8) by lia.
      rewrite Z.mod_add by lia.
      destruct (dvals 0 0 l) as [[o' m] lf] eqn:ED. cbn [snd] in *.
      destruct l as [|x l].
      + cbn in ED. injection ED as <- <- <-. repeat split; intros E; cbn in E; try discriminate E; auto.
      + replace (last (g ++ x :: l) 0) with (last (x :: l) 0); [exact IH|].
        clear. induction g as [|y g IHg]; [reflexivity|]. cbn [app]. rewrite IHg. destruct (g ++ x :: l) eqn:E; auto.
        destruct g; discriminate.
  Qed.

  Lemma base32_test_iff s unpad : bytes s ->
    (base32_test0 tb s unpad = true <-> exists b, base32_decode0 tb s unpad = Some b).
  Proof.
    intros Hs.
    destruct (table_span_eq s Hs) as (pre & rest & E & ES & HP & HR).
    destruct (dec_loop_span s) as (pre' & rest' & E' & HP' & HR' & HD).
    destruct (span_unique (fun c => high_bit (tabval tb c)) pre rest pre' rest') as [<- <-]; auto; [congruence|].
    unfold base32_test0, base32_decode0. rewrite ES, HD.
    assert (Hpre : bytes pre /\ bytes rest) by (rewrite E in Hs; apply bytes_app in Hs; tauto).
    destruct Hpre as [Hpre Hrest].
    assert (HV : Forall (below 32) (map (tabval tb) pre)).
    { apply Forall_forall. intros v Hv. apply in_map_iff in Hv as (c & <- & Hc).
      pose proof (proj1 (Forall_forall _ _) HP c Hc) as H1. cbn beta in H1.
      pose proof (proj1 (Forall_forall _ _) Hpre c Hc) as H2.
      apply (tok_dec _ _ _ _ OK) in H1; auto. unfold below; lia. }
    destruct (dvals_sound _ HV) as (o & lf & ED & Ho & Hlf & _).
    pose proof (dvals_lft _ HV) as L. rewrite ED in *. rewrite map_length in *. cbn [snd] in L. cbv zeta in L.
    replace (length s - length rest)%nat with (length pre) by (rewrite E, app_length; lia).
    set (m := Z.of_nat (length pre) mod 8) in *. assert (Hm : 0 <= m < 8) by (subst m; lia).
    assert (LV : m <> 0 -> tab tb (torsion_ascii (last pre 0)) = last (map (tabval tb) pre) 0).
    { intros Hm0. destruct (exists_last (l := pre)) as (p & x & EP).
      { intros ->. apply Hm0. reflexivity. }
      rewrite EP, map_app, !last_last. cbn [map]. rewrite last_last.
      rewrite EP in Hpre, HP. apply bytes_app in Hpre as [_ Hx]. apply Forall_app in HP as [_ HPx].
      apply bytes_cons in Hx as [Hx _]. apply Forall_cons_iff in HPx as [HPx _].
      apply (tok_tab _ _ _ _ OK); auto. }
    destruct L as (L2 & L4 & L5 & L7 & L0).
    set (tl1 := negb (Z.of_nat (length s) =? w64 (Z.of_nat (length pre) + Z.land (- m) 7 * unpad))).
    set (tl2 := forallb (fun c => c =? 61) rest).
    assert (FIN : forall (b1 b2 : bool), b1 = b2 ->
      ((if b1 then false else if tl1 then false else tl2) = true <->
       exists b, (if b2 then None else if tl1 then None else if tl2 then Some o else None) = Some b)).
    { intros b1 b2 <-. destruct b1, tl1, tl2; split; intros G; eauto; try discriminate; destruct G; discriminate. }
    assert (Hc : m = 0 \/ m = 1 \/ m = 2 \/ m = 3 \/ m = 4 \/ m = 5 \/ m = 6 \/ m = 7) by lia.
    destruct Hc as [C|[C|[C|[C|[C|[C|[C|C]]]]]]]; rewrite C; cbn [Z.eqb Pos.eqb orb]; cbv iota.
    - specialize (L0 C). rewrite L0. apply (FIN false (0 <? 0)). reflexivity.
    - split; [discriminate|intros [? ?]; discriminate].
    - rewrite LV, L2 by lia. bits2arith. apply FIN. destruct (Z.eqb_spec (last (map (tabval tb) pre) 0 mod 4) 0); lia.
    - split; [discriminate|intros [? ?]; discriminate].
    - rewrite LV, L4 by lia. bits2arith. apply FIN. destruct (Z.eqb_spec (last (map (tabval tb) pre) 0 mod 16) 0); lia.
    - rewrite LV, L5 by lia. bits2arith. apply FIN. destruct (Z.eqb_spec (last (map (tabval tb) pre) 0 mod 2) 0); lia.
    - split; [discriminate|intros [? ?]; discriminate].
    - rewrite LV, L7 by lia. bits2arith. apply FIN. destruct (Z.eqb_spec (last (map (tabval tb) pre) 0 mod 8) 0); lia.
  Qed.
End B32.
