(* Modular exponentiation of signed integers. *)
From Coq Require Import Zpow_facts Znumtheory.
From Verif.Base Require Import Prelude.
From Verif.Model Require Import Encoding Hash Mpn Mpz MpnMod MpzPow.
From Verif.Proof Require Import MpnProof MpnShift MpnDiv MpzProof MpzOps MpzBits MpzLogic MpnModProof MpnPow MpnPowm MpnBarrett.

Section w.
Variable w : Z.
Hypothesis W4 : 4 < w.
Hypothesis W64 : w <= 48 \/ w = 64.
Let Hw : 0 < w. Proof. lia. Qed.
Notation val := (dval (LB w)).

Lemma isz_val : forall x u, isz w x u -> normal w (lm x) /\ val (lm x) = Z.abs u.
Proof.
  intros x u [(nx & lx & Ex & Nx & Zx) Vx]. subst x. rewrite lm_mkz. split; [exact Nx|]. rewrite mkz_zval in Vx by exact Zx. pose proof (val_range w Hw lx (proj1 Nx)). unfold sg in Vx. destruct nx; lia.
Qed.
Lemma isz_nonneg_lm : forall x u, isz w x u -> 0 <= u -> val (lm x) = u.
Proof. intros x u H Hu. destruct (isz_val x u H) as (_ & V). rewrite Z.abs_eq in V by exact Hu. exact V. Qed.
Lemma isz_nz : forall x u, isz w x u -> (size x =? 0) = (u =? 0).
Proof.
  intros x u H. destruct (Z.eqb_spec (size x) 0) as [E|E].
  - rewrite (isz_size0 w x u H) by (apply Z.eqb_eq; exact E). reflexivity.
  - destruct (Z.eqb_spec u 0) as [F|F]; [|reflexivity]. subst u. exfalso. apply E. destruct (isz_val x 0 H) as (N & V). destruct H as [(nx & lx & Ex & Nx & Zx) Vx]. subst x. rewrite lm_mkz in V.
    apply (normal_0 w Hw lx Nx) in V. subst lx. rewrite (Zx eq_refl). reflexivity.
Qed.
Lemma len_le : forall a b, normal w a -> normal w b -> val a < val b -> (length a <= length b)%nat.
Proof. intros a b Na Nb L. destruct (le_lt_dec (length a) (length b)) as [G|G]; [exact G|]. pose proof (normal_len w Hw b a Nb Na G). lia. Qed.
Lemma mod_z : forall n d u v, isz w n u -> isz w d v -> v <> 0 -> exists r, mpz_mod w n d = Ok r /\ isz w r (u mod Z.abs v).
Proof.
  intros n d u v Hn Hd Hv. destruct (divmod_spec w Hw n d u v Hn Hd Hv) as (q & r & a & b & E & Q & R & F1 & F2). unfold mpz_mod. rewrite E. cbn [bind snd]. exists r. split; [reflexivity|].
  replace (u mod Z.abs v) with b; [exact R|]. rewrite F1. destruct (Z.abs_spec v) as [[A1 A2]|[A1 A2]]; rewrite A2 in *.
  - apply (Z.mod_unique _ _ a); [lia|ring].
  - apply (Z.mod_unique _ _ (- a)); [lia|ring].
Qed.
Lemma nz_last : forall x v, isz w x v -> v <> 0 -> lm x <> [] /\ last (lm x) 0 <> 0.
Proof.
  intros x v H Hv. destruct (isz_val x v H) as (N & V). assert (Hne : lm x <> []) by (intros E; rewrite E in V; cbn [dval] in V; lia). split; [exact Hne|].
  destruct (proj1 (normal_last w Hw (lm x) (proj1 N)) N) as [E|E]; [contradiction|exact E].
Qed.
Lemma powm_inner_spec : forall x y m u v n, isz w x u -> isz w y v -> isz w m n -> n <> 0 -> Z.abs u < Z.abs n ->
  exists z, mpz_powm_inner w x y m = Ok z /\ isz w z ((Z.abs u ^ Z.abs v) mod Z.abs n).
Proof.
  intros x y m u v n Hx Hy Hm Hn Hu. destruct (isz_val x u Hx) as (Nx & Vx). destruct (isz_val y v Hy) as (Ny & Vy). destruct (isz_val m n Hm) as (Nm & Vm). destruct (nz_last m n Hm Hn) as (M1 & M2).
  destruct (powm_spec w W4 (lm x) (lm y) (lm m) (proj1 Nx) (proj1 Ny) (proj1 Nm) M1 M2 W64 ltac:(apply len_le; [assumption..|lia])) as (z & E & L & H & V). unfold mpz_powm_inner. rewrite E. cbn [bind].
  destruct (stripped_spec w Hw z H) as (S1 & S2). exists (mkz false (stripped z)). split; [reflexivity|]. apply isz_mkz; [exact S1|]. unfold sg. rewrite S2, V, Vx, Vy, Vm. reflexivity.
Qed.
Lemma powm_sec_inner_spec : forall x y m u v n, isz w x u -> isz w y v -> isz w m n -> n <> 0 -> Z.odd n = true -> Z.abs u < Z.abs n ->
  exists z, mpz_powm_sec_inner w x y m = Ok z /\ isz w z ((Z.abs u ^ Z.abs v) mod Z.abs n).
Proof.
  intros x y m u v n Hx Hy Hm Hn Ho Hu. destruct (isz_val x u Hx) as (Nx & Vx). destruct (isz_val y v Hy) as (Ny & Vy). destruct (isz_val m n Hm) as (Nm & Vm). destruct (nz_last m n Hm Hn) as (M1 & M2).
  assert (Om : Z.odd (nth 0 (lm m) 0) = true). { rewrite <- (val_odd w W4 _ (proj1 Nm)), Vm. destruct n; exact Ho. }
  destruct (sec_powm_spec w W4 (lm x) (lm y) (lm m) (proj1 Nx) (proj1 Ny) (proj1 Nm) M1 M2 Om W64 ltac:(apply len_le; [assumption..|lia])) as (z & E & L & H & V). unfold mpz_powm_sec_inner. rewrite E. cbn [bind].
  destruct (stripped_spec w Hw z H) as (S1 & S2). exists (mkz false (stripped z)). split; [reflexivity|]. apply isz_mkz; [exact S1|]. unfold sg. rewrite S2, V, Vx, Vy, Vm. reflexivity.
Qed.
Lemma pow_mod_abs : forall u v n, n <> 0 -> 0 <= v -> ((u mod Z.abs n) ^ v) mod Z.abs n = (u ^ v) mod Z.abs n.
Proof. intros u v n Hn Hv. symmetry. apply Zpower_mod. lia. Qed.
Theorem mpz_powm_spec : forall inv x y m u v n, isz w x u -> isz w y v -> isz w m n -> n <> 0 -> 0 <= v ->
  exists z, mpz_powm w inv x y m = Ok z /\ isz w z ((u ^ v) mod Z.abs n).
Proof.
  intros inv x y m u v n Hx Hy Hm Hn Hv. unfold mpz_powm. rewrite (isz_nz m n Hm). destruct (Z.eqb_spec n 0) as [E|_]; [contradiction|]. rewrite (isz_neg w Hw y v Hy). destruct (Z.ltb_spec v 0) as [E|_]; [lia|].
  rewrite (isz_neg w Hw x u Hx), (cmpabs_spec w Hw x m u n Hx Hm). destruct ((u <? 0) || (0 <=? Z.sgn (Z.abs u - Z.abs n))) eqn:C.
  - destruct (mod_z x m u n Hx Hm Hn) as (t & Et & Ht). rewrite Et. cbn [bind]. pose proof (Z.mod_pos_bound u (Z.abs n) ltac:(lia)) as R.
    destruct (powm_inner_spec t y m _ v n Ht Hy Hm Hn ltac:(lia)) as (z & Ez & Hz). exists z. split; [exact Ez|]. rewrite (Z.abs_eq (u mod Z.abs n)), (Z.abs_eq v), pow_mod_abs in Hz by lia. exact Hz.
  - apply orb_false_iff in C. destruct C as [C1 C2]. apply Z.ltb_ge in C1. apply Z.leb_gt in C2. destruct (powm_inner_spec x y m u v n Hx Hy Hm Hn ltac:(lia)) as (z & Ez & Hz). exists z. split; [exact Ez|]. rewrite (Z.abs_eq u), (Z.abs_eq v) in Hz by lia. exact Hz.
Qed.
(* a negative exponent goes through the inverse, and aborts without one *)
Theorem mpz_powm_neg_spec : forall inv x y m u v n, isz w x u -> isz w y v -> isz w m n -> n <> 0 -> v < 0 ->
  match inv x m with
  | None => mpz_powm w inv x y m = Abort
  | Some t => forall i, isz w t i -> 0 <= i < Z.abs n -> exists z, mpz_powm w inv x y m = Ok z /\ isz w z ((i ^ (- v)) mod Z.abs n)
  end.
Proof.
  intros inv x y m u v n Hx Hy Hm Hn Hv. unfold mpz_powm. rewrite (isz_nz m n Hm). destruct (Z.eqb_spec n 0) as [E|_]; [contradiction|]. rewrite (isz_neg w Hw y v Hy). destruct (Z.ltb_spec v 0) as [_|E]; [|lia].
  destruct (inv x m) as [t|]; [|reflexivity]. intros i Hi Ri. destruct (powm_inner_spec t y m i v n Hi Hy Hm Hn ltac:(lia)) as (z & Ez & Hz). exists z. split; [exact Ez|]. rewrite (Z.abs_eq i), (Z.abs_neq v) in Hz by lia. exact Hz.
Qed.
Theorem mpz_powm_sec_spec : forall x y m u v n, isz w x u -> isz w y v -> isz w m n ->
  if (v <? 0) || negb (Z.odd n) then mpz_powm_sec w x y m = Abort
  else exists z, mpz_powm_sec w x y m = Ok z /\ isz w z ((u ^ v) mod Z.abs n).
Proof.
  intros x y m u v n Hx Hy Hm. unfold mpz_powm_sec. rewrite (isz_nz m n Hm). rewrite (isz_neg w Hw y v Hy). destruct (isz_val m n Hm) as (Nm & Vm).
  assert (Om : Z.odd (nth 0 (lm m) 0) = Z.odd n). { rewrite <- (val_odd w W4 _ (proj1 Nm)), Vm. destruct n; reflexivity. } rewrite Om.
  destruct (Z.ltb_spec v 0) as [Hv|Hv]; cbn [orb]; [reflexivity|]. destruct (Z.eqb_spec n 0) as [E|Hn]; [subst n; reflexivity|]. cbn [orb]. destruct (Z.odd n) eqn:Ho; cbn [negb]; [|reflexivity].
  rewrite (isz_neg w Hw x u Hx), (cmpabs_spec w Hw x m u n Hx Hm). destruct ((u <? 0) || (0 <=? Z.sgn (Z.abs u - Z.abs n))) eqn:C.
  - destruct (mod_z x m u n Hx Hm Hn) as (t & Et & Ht). rewrite Et. cbn [bind]. pose proof (Z.mod_pos_bound u (Z.abs n) ltac:(lia)) as R.
    destruct (powm_sec_inner_spec t y m _ v n Ht Hy Hm Hn Ho ltac:(lia)) as (z & Ez & Hz). exists z. split; [exact Ez|]. rewrite (Z.abs_eq (u mod Z.abs n)), (Z.abs_eq v), pow_mod_abs in Hz by lia. exact Hz.
  - apply orb_false_iff in C. destruct C as [C1 C2]. apply Z.ltb_ge in C1. apply Z.leb_gt in C2. destruct (powm_sec_inner_spec x y m u v n Hx Hy Hm Hn Ho ltac:(lia)) as (z & Ez & Hz). exists z. split; [exact Ez|]. rewrite (Z.abs_eq u), (Z.abs_eq v) in Hz by lia. exact Hz.
Qed.
End w.
