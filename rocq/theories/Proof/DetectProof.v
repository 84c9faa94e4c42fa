(* Error detection, from the checksum distance. *)
From Verif.Base Require Import Prelude.
From Verif.Model Require Import Encoding Bech32.
From Verif.Spec Require Import EncodingSpec Bech32Spec.
From Verif.Proof Require Import PolymodProof LinOps Bech32Proof Bech32Des Cash32Proof Bech32Dist Cash32Dist.
#[local] Ltac Zify.zify_post_hook ::= idtac.

Lemma last_sep (x : Z) a : forall a' b b', ~ In x b -> ~ In x b' -> a ++ x :: b = a' ++ x :: b' -> a = a' /\ b = b'.
Proof.
  induction a as [|y a IH]; intros [|y' a'] b b' Hb Hb' E; cbn [app] in E.
  - injection E as ->. auto.
  - injection E as E1 E2. exfalso. apply Hb. rewrite E2. apply in_or_app. right. left. auto.
  - injection E as E1 E2. exfalso. apply Hb'. rewrite <- E2. apply in_or_app. right. left. auto.
  - injection E as E1 E2. destruct (IH _ _ _ Hb Hb' E2). subst. auto.
Qed.

Lemma sym_inj v w : below 32 v -> below 32 w -> sym alphabech v = sym alphabech w -> v = w.
Proof. intros Hv Hw E. destruct (bsym v Hv) as (_ & A & _), (bsym w Hw) as (_ & B & _). congruence. Qed.

Lemma hamming_xor v : forall w, length v = length w -> Forall (below 32) v -> Forall (below 32) w ->
  hamming (map (sym alphabech) v) (map (sym alphabech) w) = nonzeros (xorl v w).
Proof.
  induction v as [|x v IH]; intros [|y w] L Fv Fw; cbn [length] in L; try discriminate; [reflexivity|].
  inversion Fv; subst. inversion Fw; subst. unfold xorl, nonzeros in *. cbn [map hamming map2 filter].
  rewrite (IH w) by (auto; congruence).
  destruct (Z.eq_dec (sym alphabech x) (sym alphabech y)) as [E|E].
  - apply sym_inj in E; auto. subst. rewrite Z.lxor_nilpotent. reflexivity.
  - destruct (Z.eqb_spec (Z.lxor x y) 0) as [E'|E']; [apply Z.lxor_eq in E'; congruence|]. reflexivity.
Qed.
Lemma xorl_below v : forall w, Forall (below 32) v -> Forall (below 32) w -> Forall (below 32) (xorl v w).
Proof.
  induction v as [|x v IH]; intros [|y w] Fv Fw; try constructor; inversion Fv; inversion Fw; subst.
  - unfold below in *. change 32 with (2 ^ 5) in *. apply lxor_range; auto. lia.
  - apply IH; auto.
Qed.
Lemma nonzeros_0 l : Forall (fun v => v = 0) l -> nonzeros l = 0%nat.
Proof. unfold nonzeros. induction 1 as [|v l Hv Hl IH]; [reflexivity|]. subst. exact IH. Qed.

Lemma fold_diff n gen st v w k : 0 <= n -> length v = length w ->
  fold_left (pm_step n gen) v st = k -> fold_left (pm_step n gen) w st = k ->
  fold_left (pm_step n gen) (xorl v w) 0 = 0.
Proof.
  intros Hn L A B. rewrite <- (Z.lxor_nilpotent st). rewrite pm_fold_lin by auto. rewrite A, B, !Z.lxor_nilpotent. reflexivity.
Qed.

Lemma bech32_detect s s' k hrp d w w' : Forall cchar s' -> 0 <= k ->
  single_case s /\ is_bech32 k hrp d (map lower s) ->
  map lower s = hrp ++ [49] ++ w -> map lower s' = hrp ++ [49] ++ w' -> ~ In 49 w' ->
  length w' = length w -> (1 <= hamming w w' <= 4)%nat ->
  bech32_deserialize s' k = None.
Proof.
  intros Hs' Hk (_ & I) Ew Ew' N' L H.
  destruct (bech32_deserialize s' k) as [[hrp' d']|] eqn:E; [exfalso|reflexivity].
  apply bech32_deserialize_iff in E; auto. destruct E as (_ & I').
  destruct I as (Nh & Fh & Fd & c & Lc & Fc & Pc & Es & Ls).
  destruct I' as (Nh' & Fh' & Fd' & c' & Lc' & Fc' & Pc' & Es' & Ls').
  rewrite Ew' in Es'. apply last_sep in Es'; auto; [|apply sym_not49; apply Forall_app; auto].
  destruct Es' as (<- & ->).
  rewrite Ew in Es. apply app_inv_head in Es. injection Es as ->.
  rewrite Ew in Ls. rewrite !app_length in Ls. cbn [length] in Ls.
  rewrite !map_length in *.
  assert (FV : Forall (below 32) (d ++ c)) by (apply Forall_app; auto).
  assert (FW : Forall (below 32) (d' ++ c')) by (apply Forall_app; auto).
  set (v := d ++ c) in *. set (v' := d' ++ c') in *.
  rewrite hamming_xor in H by auto.
  unfold bip173_polymod in Pc, Pc'. rewrite fold_left_app in Pc, Pc'.
  pose proof (fold_diff 25 bip173_gen _ v v' k ltac:(lia) (eq_sym L) Pc Pc') as Z0.
  apply bech32_distance in Z0.
  - apply nonzeros_0 in Z0. lia.
  - apply xorl_below; auto.
  - rewrite xorl_length. destruct hrp; [congruence|]. cbn [length] in Ls. lia.
  - lia.
Qed.

Lemma cash32_detect s s' fb prefix d pre pl pl' : Forall cchar s -> Forall cchar s' -> Forall cchar fb ->
  single_case s /\ cash_accept s fb prefix d ->
  (pre = [] \/ pre = prefix ++ [58]) ->
  map lower s = pre ++ pl -> map lower s' = pre ++ pl' -> ~ In 58 pl -> ~ In 58 pl' ->
  length pl' = length pl -> (1 <= hamming pl pl' <= 4)%nat ->
  cash32_deserialize s' fb = None.
Proof.
  intros Hs Hs' Hf (_ & A) Hpre Ew Ew' N N' L H.
  destruct (cash32_deserialize s' fb) as [[prefix' d']|] eqn:E; [exfalso|reflexivity].
  apply cash32_deserialize_iff in E; auto. destruct E as (_ & A').
  destruct A as (q & Q & Eq). destruct A' as (q' & Q' & Eq').
  rewrite Ew in Eq. rewrite Ew' in Eq'.
  destruct Q as (_ & FL & _ & Fd & Ld & c & Lc & Fc & Pc & ->).
  destruct Q' as (_ & FL' & _ & Fd' & Ld' & c' & Lc' & Fc' & Pc' & ->).
  assert (FV : Forall (below 32) (d ++ c)) by (apply Forall_app; auto).
  assert (FW : Forall (below 32) (d' ++ c')) by (apply Forall_app; auto).
  pose proof (no58_sym _ FV) as M. pose proof (no58_sym _ FW) as M'.
  assert (K : prefix' = prefix /\ pl = map (sym alphabech) (d ++ c) /\ pl' = map (sym alphabech) (d' ++ c')).
  { destruct Hpre as [->| ->]; cbn [app] in Eq, Eq'.
    - destruct Eq as [Eq|(P1 & P2)]; [exfalso; apply N; rewrite Eq; apply in_or_app; right; left; auto|].
      destruct Eq' as [Eq'|(P1' & P2')]; [exfalso; apply N'; rewrite Eq'; apply in_or_app; right; left; auto|].
      split; [congruence|auto].
    - rewrite <- app_assoc in Eq, Eq'. cbn [app] in Eq, Eq'.
      destruct Eq as [Eq|(P1 & P2)]; [|exfalso; apply M; rewrite <- P2; apply in_or_app; right; left; auto].
      destruct Eq' as [Eq'|(P1' & P2')]; [|exfalso; apply M'; rewrite <- P2'; apply in_or_app; right; left; auto].
      apply last_sep in Eq; auto. apply last_sep in Eq'; auto. intuition congruence. }
  destruct K as (-> & -> & ->). rewrite !map_length in L. rewrite hamming_xor in H by auto.
  rewrite cash_poly_split in Pc, Pc'.
  pose proof (fold_diff 35 cash_gen _ (d ++ c) (d' ++ c') 1 ltac:(lia) (eq_sym L) Pc Pc') as Z0.
  apply cash32_distance in Z0.
  - apply nonzeros_0 in Z0. lia.
  - apply xorl_below; auto.
  - rewrite xorl_length, app_length. lia.
  - lia.
Qed.
