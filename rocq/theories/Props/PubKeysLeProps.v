(* C86 (Montgomery and Edwards parts) public keys by coordinates. *)
From Coq Require Import Znumtheory.
From Verif.Base Require Import Prelude.
From Verif.Spec Require Import EcSpec EdSpec DsaSpec EddsaSpec.
From Verif.Model Require Import Encoding Field Wei Edwards Eddsa Mont PubKeys PubKeysLe.
From Verif.Proof Require Import FieldProof EcCodec EdCodec EdGroup EdProof EdCtx EcdhProof PubKeysLeProof.
From Verif.Props Require Import EdwardsProps EddsaProps MontProps.
Section Ed.
Variable p : positive.
Variable d : edw_def p.
Hypothesis D : good_ed p d.
Variable c : edw p.
Hypothesis X : ed_context p d c.
Local Notation P := (Zpos p).
Local Notation fe := (fe p).
Local Notation on := (on p (k_a p d) (k_d p d)).
(* a sign gives the parity of the coordinate that is missing; -1 leaves it open *)
Definition parity (s : Z) (z : fe) : Prop := s = -1 \/ fv z mod 2 = s.
(* the points two little-endian strings of any length stand for; one of them may be empty *)
Definition ed_denotes (xr yr : list Z) (s : Z) (x y : fe) : Prop := (xr <> [] \/ yr <> []) /\ on (x, y) /\ (xr <> [] -> fv x = le_val xr) /\ (yr <> [] -> fv y = le_val yr) /\
  (xr = [] -> parity s x) /\ (yr = [] -> parity s y).
(* C86: accepted exactly when there is such a point, and the key is the encoding of one *)
Theorem C86_eddsa_import xr yr s : bytes xr -> bytes yr -> s = -1 \/ s = 0 \/ s = 1 -> exists out ok, eddsa_pubkey_import p c xr yr s = Some (out, ok) /\ (ok = true <-> exists x y, ed_denotes xr yr s x y) /\
  (ok = true -> exists x y, ed_denotes xr yr s x y /\ out = ed_enc P (fv x) (fv y)).
Proof. exact (ed_import_ok p d D c (ed_context_ok p d D c X) xr yr s). Qed.
Lemma parity_root s (u v : fe) : s <> -1 -> parity s u -> parity s v -> fe_mul u u = fe_mul v v -> u = v.
Proof.
  intros N [?|Pu]; [contradiction|]. intros [?|Pv]; [contradiction|]. intros E. apply (EcCodec.root_parity p (ge_p _ _ D) (P3' p d D)); [exact E|]. rewrite !odd_mod in *. destruct (fe_is_odd u), (fe_is_odd v); congruence.
Qed.
(* C86: with a sign or both coordinates there is at most one such point *)
Theorem C86_eddsa_import_unique xr yr s x y x' y' : (xr <> [] /\ yr <> []) \/ s <> -1 -> ed_denotes xr yr s x y -> ed_denotes xr yr s x' y' -> x = x' /\ y = y'.
Proof.
  intros U (N & O & EX & EY & SX & SY) (_ & O' & EX' & EY' & SX' & SY'). destruct (list_eq_dec Z.eq_dec xr []) as [E|NX]; destruct (list_eq_dec Z.eq_dec yr []) as [E'|NY].
  - destruct N; contradiction.
  - assert (y = y') by (apply fe_eq; rewrite (EY NY), (EY' NY); reflexivity). subst y'. split; [|reflexivity]. assert (S : s <> -1) by (destruct U as [[? _]|U]; [contradiction|exact U]). apply (parity_root s _ _ S (SX E) (SX' E)).
    apply (on_x2 p) in O. apply (on_x2 p) in O'. apply (root_unique p d D _ _ _ (den_nz p (ge_p _ _ D) _ _ (ge_c _ _ D) y)). congruence.
  - assert (x = x') by (apply fe_eq; rewrite (EX NX), (EX' NX); reflexivity). subst x'. split; [reflexivity|]. assert (S : s <> -1) by (destruct U as [[_ ?]|U]; [contradiction|exact U]). apply (parity_root s _ _ S (SY E') (SY' E')).
    apply (on_y2 p d) in O. apply (on_y2 p d) in O'. apply (root_unique p d D _ _ _ (den_x p d D x)). congruence.
  - split; apply fe_eq; [rewrite (EX NX), (EX' NX)|rewrite (EY NY), (EY' NY)]; reflexivity.
Qed.
(* C86: both coordinates of a point on the curve, padded or not, give its key *)
Theorem C86_eddsa_import_point x y i j s : s = -1 \/ s = 0 \/ s = 1 -> on (x, y) ->
  eddsa_pubkey_import p c (le_bytes (octs P) (fv x) ++ repeat 0 i) (le_bytes (octs P) (fv y) ++ repeat 0 j) s = Some (ed_enc P (fv x) (fv y), true).
Proof.
  intros S O. assert (BB : forall (z : fe) k, bytes (le_bytes (octs P) (fv z) ++ repeat 0 k)) by (intros z k; apply Forall_app; split; [apply le_bytes_bytes|apply Forall_forall; intros t I; apply repeat_spec in I; subst t; unfold byte; lia]).
  assert (VV : forall (z : fe) k, le_val (le_bytes (octs P) (fv z) ++ repeat 0 k) = fv z) by (intros z k; apply le_pad_val).
  assert (NN : forall (z : fe) k, le_bytes (octs P) (fv z) ++ repeat 0 k <> []) by (intros z k E; apply app_eq_nil in E; destruct E as [E _]; apply (f_equal (@length Z)) in E; rewrite le_bytes_length in E; pose proof (EcCodec.octs_pos P eq_refl); cbn in E; lia).
  destruct (C86_eddsa_import _ _ s (BB x i) (BB y j) S) as (out & ok & E & H1 & H2).
  assert (DN : ed_denotes (le_bytes (octs P) (fv x) ++ repeat 0 i) (le_bytes (octs P) (fv y) ++ repeat 0 j) s x y). { split; [left; apply NN|]. split; [exact O|]. split; [intros _; symmetry; apply VV|]. split; [intros _; symmetry; apply VV|]. split; intros K; destruct (NN _ _ K). }
  assert (OK : ok = true) by (apply H1; exists x, y; exact DN). destruct (H2 OK) as (x' & y' & DN' & ->). destruct (C86_eddsa_import_unique _ _ _ _ _ _ _ (or_introl (conj (NN _ _) (NN _ _))) DN DN') as (<- & <-). rewrite E, OK. reflexivity.
Qed.
End Ed.
Section Dh.
Variable p : positive.
Variable d : mont_def p.
Hypothesis D : good_mont p d.
Variable c : mont p.
Hypothesis X : mont_init p d = Some c.
Local Notation fe := (fe p).
Definition dh_denotes (xr yr : list Z) (x y : fe) : Prop := xr <> [] /\ m_on p (w_a p d) (w_b p d) (Aff x y) /\ fv x = le_val xr /\ (yr <> [] -> fv y = le_val yr).
(* C86: the key is the first coordinate, accepted exactly when there is a point of the curve with it (and with the second one, if given) *)
Theorem C86_ecdh_import xr yr : bytes xr -> bytes yr -> exists out ok, ecdh_pubkey_import p c xr yr = Some (out, ok) /\ (ok = true <-> exists x y, dh_denotes xr yr x y) /\
  (ok = true -> out = le_bytes (octs (Zpos p)) (le_val xr)).
Proof.
  intros Bx By. destruct (mo_import_ok p d D c (Cx p d D c X) xr yr Bx By) as (out & ok & E & H1 & H2). exists out, ok. split; [exact E|]. split; [exact H1|]. intros K. destruct (H2 K) as (x & <- & ->). reflexivity.
Qed.
End Dh.
Example C86_eddsa_ex naf : map (fun t => eddsa_pubkey_import p29 (c29 naf) (fst (fst t)) (snd (fst t)) (snd t)) [([2], [22; 0; 0], 0); ([2], [], 0); ([2], [], 1); ([], [22], 1); ([2; 1], [], 0); ([], [1], 1); ([], [1], 0); ([], [], 0); ([2], [21], 0)] =
  [Some ([22], true); Some ([22], true); Some ([7], true); Some ([150], true); Some ([28], false); Some ([1], false); Some ([1], true); Some ([0], false); Some ([1], false)].
Proof. vm_compute. reflexivity. Qed.
Example C86_ecdh_ex : map (fun t => m29 (fun c => ecdh_pubkey_import p29 c (fst t) (snd t))) [([3], [27]); ([3; 0], []); ([3], [26]); ([4], []); ([], [1]); ([3; 1], []); ([31], []); ([0], [])] =
  [Some (Some ([3], true)); Some (Some ([3], true)); Some (Some ([0], false)); Some (Some ([0], false)); Some (Some ([0], false)); Some (Some ([0], false)); Some (Some ([2], false)); Some (Some ([0], true))].
Proof. vm_compute. reflexivity. Qed.

(* the axioms of every theorem above, listed at once *)
Definition PubKeysLeProps_all := (@C86_eddsa_import, @C86_eddsa_import_unique, @C86_eddsa_import_point, @C86_ecdh_import).
Print Assumptions PubKeysLeProps_all.
