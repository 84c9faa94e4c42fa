(* Montgomery and Edwards keys by coordinates. *)
From Verif.Base Require Import Prelude.
From Coq Require Import Znumtheory.
From Verif.Model Require Import Encoding Hash Field EcScalar Wei Ecdsa Edwards Eddsa Mont PubKeys PubKeysLe.
From Verif.Spec Require Import EcSpec DsaSpec EdSpec EddsaSpec.
From Verif.Proof Require Import Asn1Proof Cong FieldProof FieldSquare Rfc6979 EcCodec EdGroup EdProof EdCodec EdCtx EddsaProof EddsaKeys PubKeysProof.
From Verif.Proof Require MontProof EcdhProof.
Lemma le_be l : le_val l = be_val (rev l). Proof. unfold le_val, be_val. rewrite rev_involutive. reflexivity. Qed.
Lemma bytes_rev' l : bytes l -> bytes (rev l). Proof. unfold bytes. apply Forall_rev. Qed.
Section P.
Variable p : positive.
Local Notation fe := (Field.fe p).
Local Notation P := (Zpos p).
Add Ring fring : (FieldProof.ring_th p).
Lemma ximport_pad_ok raw : bytes raw -> let '(x, ok) := xfe_import_pad p raw in (ok = true <-> le_val raw < P) /\ (ok = true -> fv (x : fe) = le_val raw).
Proof.
  intros B. unfold xfe_import_pad, byte_pad_le. rewrite (fsize_octs p). destruct (drop_pad_ok (octs P) (rev raw) (bytes_rev' _ B)) as (B1 & V & G). rewrite rev_length. set (r := drop_pad (octs P) (rev raw)) in *. rewrite (le_be raw). pose proof (P_octs p) as PO. destruct (Nat.ltb_spec (octs P) (length r)) as [L|L].
  - destruct (xfe_import p (repeat 0 (octs P))) as [x ok]. cbn [andb]. specialize (G L). split; [split; [discriminate|lia]|discriminate].
  - set (t := rev r ++ repeat 0 (octs P - length r)). assert (RT : rev t = repeat 0 (octs P - length r) ++ r). { unfold t. rewrite rev_app_distr, rev_involutive. f_equal. clear. induction (octs P - length r)%nat as [|k IH]; [reflexivity|]. cbn [repeat rev]. rewrite IH. clear. induction k as [|k IH]; [reflexivity|]. cbn [repeat app]. rewrite IH. reflexivity. }
    assert (Vt : le_val t = be_val (rev raw)) by (rewrite le_be, RT, be_val_repeat0; exact V). unfold xfe_import. cbn [andb]. rewrite Vt. split; [apply Z.ltb_lt|]. intros H. apply Z.ltb_lt in H. pose proof (be_val_range (rev raw) (bytes_rev' _ B)) as R. rewrite fv_of. rewrite (Z.mod_small (be_val (rev raw)) (2 ^ _)); [apply Z.mod_small; lia|].
    unfold fbits. rewrite sc_bitlen_blen by reflexivity. pose proof (blen_range P eq_refl). lia.
Qed.
(* the coordinate itself *)
Lemma pad_unique raw : bytes raw -> exists x ok, xfe_import_pad p raw = (x, ok) /\ (ok = true -> fv x = le_val raw) /\ (forall X : fe, fv X = le_val raw -> ok = true /\ X = x).
Proof.
  intros B. pose proof (ximport_pad_ok raw B) as H. destruct (xfe_import_pad p raw) as [x ok]. destruct H as [H1 H2]. exists x, ok. split; [reflexivity|]. split; [exact H2|]. intros X E. assert (O : ok = true) by (apply H1; rewrite <- E; apply fv_range). split; [exact O|]. apply fe_eq. rewrite E. symmetry. exact (H2 O).
Qed.
Lemma le_pad_val (z : fe) k : le_val (le_bytes (octs P) (fv z) ++ repeat 0 k) = fv z.
Proof.
  rewrite le_be, rev_app_distr. replace (rev (repeat 0 k)) with (repeat 0 k) by (clear; induction k as [|k IH]; [reflexivity|]; cbn [repeat rev]; rewrite <- IH; clear; induction k as [|k IH]; [reflexivity|]; cbn [repeat app]; rewrite <- IH; reflexivity).
  rewrite be_val_repeat0, <- le_be. rewrite le_val_le_bytes. apply Z.mod_small. pose proof (fv_range p z). pose proof (P_octs p). lia.
Qed.
Lemma has_ne l : has l = true -> l <> []. Proof. apply has_iff. Qed.
Lemma has_nil l : has l = false -> l = []. Proof. destruct l; [reflexivity|discriminate]. Qed.
Section Ed.
Variable d : edw_def p.
Hypothesis D : good_ed p d.
Variable c : edw p.
Hypothesis C : ectx_ok p d c.
Local Notation a := (k_a p d).
Local Notation dd := (k_d p d).
Local Notation on := (eon p a dd).
Local Notation arep := (arep p a dd).
Local Notation Pp := (ge_p _ _ D).
Local Notation PR := (ge_r _ _ D).
Local Notation K := (ge_c _ _ D).
Lemma P3' : 2 < P. Proof. pose proof (prime_ge_2 _ Pp) as H. destruct PR as [E|E]; destruct (Z.eq_dec P 2) as [E2|N2]; try lia; rewrite E2 in E; discriminate. Qed.
Definition par (s : Z) (x : fe) : Prop := s = -1 \/ fv x mod 2 = s.
Lemma root_unique v (x y : fe) : v <> f0 -> fe_mul (fe_mul x x) v = fe_mul (fe_mul y y) v -> fe_mul x x = fe_mul y y.
Proof.
  intros N E. assert (C1 : forall t : fe, t = fe_mul (fe_mul t v) (fe_inv v)) by (intros t; transitivity (fe_mul t (fe_mul (fe_inv v) v)); [rewrite (inv_l p Pp v N); ring|ring]). rewrite (C1 (fe_mul x x)), E, <- C1. reflexivity.
Qed.
Lemma signed_root u v s : v <> f0 -> s = -1 \/ s = 0 \/ s = 1 -> exists r ok, fe_isqrt p u v = Some (r, ok) /\ let '(z, ret) := ed_sign p r ok s in
  (ret = true -> fe_mul (fe_mul z z) v = u /\ par s z) /\ (forall x, fe_mul (fe_mul x x) v = u -> par s x -> ret = true).
Proof.
  intros V S. destruct (isqrt_ok p Pp PR u v V) as (r & ok & E & Sd & Cm). exists r, ok. split; [exact E|]. unfold ed_sign, par. destruct (Z.eqb_spec s (-1)) as [S1|S1]; [split; [intros Q; split; [exact (Sd Q)|left; exact S1]|intros x X _; exact (Cm x X)]|].
  assert (S' : s = 0 \/ s = 1) by lia. set (z := fe_set_odd r (s =? 1)). assert (R2 : fe_mul z z = fe_mul r r) by (unfold z; apply set_odd_sq). split.
  - intros B. apply andb_true_iff in B. destruct B as (Bq & Bz). split; [rewrite R2; exact (Sd Bq)|]. right. rewrite odd_mod. destruct (is_zero_spec p z) as [Z0|NZ].
    + rewrite Z0 in *. destruct S' as [-> | ->]; [|discriminate Bz]. unfold fe_is_odd. rewrite fv_f0. reflexivity.
    + assert (Nr : r <> f0) by (intros ->; apply NZ; unfold z; apply set_odd_zero). unfold z. rewrite (set_odd_parity p Pp P3' r _ Nr). destruct S' as [-> | ->]; reflexivity.
  - intros x X [?|M]; [contradiction|]. pose proof (Cm x X) as O. rewrite O. cbn [andb]. destruct (is_zero_spec p z) as [Z0|NZ]; [|reflexivity]. assert (XR : fe_mul x x = fe_mul z z) by (rewrite R2; apply (root_unique v); [exact V|rewrite X; symmetry; exact (Sd O)]).
    assert (X0 : x = f0) by (destruct (sq_roots p Pp x z XR) as [-> | ->]; [exact Z0|rewrite Z0; ring]). subst x. rewrite fv_f0 in M. change (0 mod 2) with 0 in M. rewrite <- M. reflexivity.
Qed.
Lemma den_x (x : fe) : fe_sub (fe_mul dd (fe_mul x x)) f1 <> f0.
Proof.
  intros E. destruct K as (_ & _ & Nd & _). assert (Ed : fe_mul dd (fe_mul x x) = f1) by (transitivity (fe_add (fe_sub (fe_mul dd (fe_mul x x)) f1) f1); [ring|rewrite E; ring]).
  assert (N10 : (f1 : fe) <> f0) by (intros H; apply (f_equal fv) in H; rewrite fv_f0 in H; unfold f1 in H; rewrite fv_of, Z.mod_small in H by (pose proof P3'; lia); discriminate).
  assert (Nx : x <> f0) by (intros ->; apply N10; rewrite <- Ed; ring). apply (Nd (fe_inv x)).
  transitivity (fe_mul f1 (fe_mul (fe_inv x) (fe_inv x))); [ring|]. rewrite <- Ed. transitivity (fe_mul dd (fe_mul (fe_mul (fe_inv x) x) (fe_mul (fe_inv x) x))); [ring|]. rewrite (inv_l p Pp) by exact Nx. ring.
Qed.
Lemma on_y2 (x y : fe) : on (x, y) <-> fe_mul (fe_mul y y) (fe_sub (fe_mul dd (fe_mul x x)) f1) = fe_sub (fe_mul a (fe_mul x x)) f1.
Proof.
  unfold EdGroup.eon, on_ed. split; intros H.
  - transitivity (fe_sub (fe_add f1 (fe_mul dd (fe_mul (fe_mul x x) (fe_mul y y)))) (fe_add (fe_mul y y) f1)); [ring|]. rewrite <- H. ring.
  - transitivity (fe_add (fe_mul y y) (fe_add (fe_sub (fe_mul a (fe_mul x x)) f1) f1)); [ring|]. rewrite <- H. ring.
Qed.
Lemma set_x_ed x s : s = -1 \/ s = 0 \/ s = 1 -> exists q ok, xge_set_x p a dd x s = Some (q, ok) /\ (exists Q, arep q Q) /\ (ok = true -> exists y, arep q (x, y) /\ par s y) /\ (forall y, on (x, y) -> par s y -> ok = true).
Proof.
  intros S. unfold xge_set_x, fe_sqr. rewrite (mul_d_eq p dd), (mul_a_eq p a). destruct (signed_root (fe_sub (fe_mul a (fe_mul x x)) f1) (fe_sub (fe_mul dd (fe_mul x x)) f1) s (den_x x) S) as (r & ok & -> & H). destruct (ed_sign p r ok s) as [z ret]. destruct H as (H1 & H2). eexists _, ret. split; [reflexivity|].
  assert (R : ret = true -> arep (xge_finish p x z ret) (x, z) /\ par s z). { intros Q. rewrite Q. destruct (H1 Q) as (E & PS). split; [|exact PS]. apply (finish_rep p Pp a dd). apply on_y2. exact E. }
  split; [destruct ret; [exists (x, z); apply R; reflexivity|exists (ezero p); rewrite (finish_zero p); apply (zero_arep p Pp a dd)]|]. split; [intros Q; exists z; exact (R Q)|]. intros y O PS. apply (H2 y); [apply on_y2; exact O|exact PS].
Qed.
Lemma set_y_ed y s : s = -1 \/ s = 0 \/ s = 1 -> exists q ok, xge_set_y p a dd y s = Some (q, ok) /\ (exists Q, arep q Q) /\ (ok = true -> exists x, arep q (x, y) /\ par s x) /\ (forall x, on (x, y) -> par s x -> ok = true).
Proof.
  intros S. unfold xge_set_y, fe_sqr. rewrite (mul_d_eq p dd). destruct (signed_root (fe_sub (fe_mul y y) f1) (fe_sub (fe_mul dd (fe_mul y y)) a) s (den_nz p Pp a dd K y) S) as (r & ok & -> & H). destruct (ed_sign p r ok s) as [z ret]. destruct H as (H1 & H2). eexists _, ret. split; [reflexivity|].
  assert (R : ret = true -> arep (xge_finish p z y ret) (z, y) /\ par s z). { intros Q. rewrite Q. destruct (H1 Q) as (E & PS). split; [|exact PS]. apply (finish_rep p Pp a dd). apply (on_x2 p a dd). exact E. }
  split; [destruct ret; [exists (z, y); apply R; reflexivity|exists (ezero p); rewrite (finish_zero p); apply (zero_arep p Pp a dd)]|]. split; [intros Q; exists z; exact (R Q)|]. intros x O PS. apply (H2 x); [apply (on_x2 p a dd); exact O|exact PS].
Qed.
(* the points two strings stand for *)
Definition ed_stands (xr yr : list Z) (s : Z) (x y : fe) : Prop := (xr <> [] \/ yr <> []) /\ on (x, y) /\ (xr <> [] -> fv x = le_val xr) /\ (yr <> [] -> fv y = le_val yr) /\
  (xr = [] -> par s x) /\ (yr = [] -> par s y).
Theorem ed_import_ok xr yr s : bytes xr -> bytes yr -> s = -1 \/ s = 0 \/ s = 1 -> exists out ok, eddsa_pubkey_import p c xr yr s = Some (out, ok) /\ (ok = true <-> exists x y, ed_stands xr yr s x y) /\
  (ok = true -> exists x y, ed_stands xr yr s x y /\ out = ed_enc P (fv x) (fv y)).
Proof.
  intros Bx By S. unfold eddsa_pubkey_import. rewrite (ex_a _ _ _ C), (ex_d _ _ _ C). destruct (pad_unique xr Bx) as (x & okx & EX & X1 & X2). destruct (pad_unique yr By) as (y & oky & EY & Y1 & Y2). rewrite EX, EY.
  assert (EXP : forall q Q, arep q Q -> xge_export p q = Some (ed_enc P (fv (fst Q)) (fv (snd Q)))) by (intros q [u v] R; eapply export_ok; [exact Pp|exact PR|exact (proj1 R)]).
  assert (EMP : forall raw (u : fe) ok0, raw = [] -> (forall X : fe, fv X = le_val raw -> ok0 = true /\ X = u) -> ok0 = true) by (intros raw u ok0 E H; apply (H f0); rewrite E, fv_f0; reflexivity).
  destruct (has xr) eqn:HX; [apply has_ne in HX|apply has_nil in HX]; (destruct (has yr) eqn:HY; [apply has_ne in HY|apply has_nil in HY]); cbn [andb orb].
  - rewrite (set_xy_ok p a dd). pose proof (validate_ok p a dd x y) as VO. destruct (edwards_validate_xy p a dd x y).
    + assert (O : on (x, y)) by (apply VO; reflexivity). rewrite (EXP _ _ (finish_rep p Pp a dd x y O)). cbn [fst snd]. eexists _, _. split; [reflexivity|]. rewrite andb_true_r. assert (SD : okx && oky = true -> ed_stands xr yr s x y). { intros Q. apply andb_prop in Q. destruct Q as [Qx Qy]. repeat split; auto; contradiction. }
      split; [split; [intros Q; exists x, y; exact (SD Q)|]|intros Q; exists x, y; split; [exact (SD Q)|reflexivity]]. intros (u & v & _ & _ & U & W & _). destruct (X2 u (U HX)) as (-> & _). destruct (Y2 v (W HY)) as (-> & _). reflexivity.
    + rewrite (EXP _ _ (zero_arep p Pp a dd)). eexists _, _. split; [reflexivity|]. rewrite andb_false_r. split; [split; [discriminate|]|discriminate]. intros (u & v & _ & O & U & W & _). destruct (X2 u (U HX)) as (_ & ->). destruct (Y2 v (W HY)) as (_ & ->). apply VO in O. exact O.
  - rewrite (EMP yr y oky HY Y2), andb_true_r. destruct (set_x_ed x s S) as (q & ret & -> & (Q & RQ) & S1 & S2). rewrite (EXP _ _ RQ). eexists _, _. split; [reflexivity|].
    assert (SD : okx && ret = true -> exists v, ed_stands xr yr s x v /\ Q = (x, v)). { intros QQ. apply andb_prop in QQ. destruct QQ as [Qx Qr]. destruct (S1 Qr) as (v & RV & PV). exists v. split; [|exact (rep_inj p Pp a dd q Q (x, v) (proj1 RQ) (proj1 RV))]. split; [auto|]. split; [exact (proj1 (proj1 RV))|]. split; [auto|]. split; [contradiction|]. split; [contradiction|auto]. }
    split; [split; [intros QQ; destruct (SD QQ) as (v & H & _); exists x, v; exact H|]|intros QQ; destruct (SD QQ) as (v & H & ->); exists x, v; split; [exact H|reflexivity]]. intros (u & v & _ & O & U & _ & _ & PV). destruct (X2 u (U HX)) as (-> & ->). cbn [andb]. exact (S2 v O (PV HY)).
  - rewrite (EMP xr x okx HX X2). cbn [andb]. destruct (set_y_ed y s S) as (q & ret & -> & (Q & RQ) & S1 & S2). rewrite (EXP _ _ RQ). eexists _, _. split; [reflexivity|].
    assert (SD : oky && ret = true -> exists u, ed_stands xr yr s u y /\ Q = (u, y)). { intros QQ. apply andb_prop in QQ. destruct QQ as [Qy Qr]. destruct (S1 Qr) as (u & RV & PV). exists u. split; [|exact (rep_inj p Pp a dd q Q (u, y) (proj1 RQ) (proj1 RV))]. split; [auto|]. split; [exact (proj1 (proj1 RV))|]. split; [contradiction|]. split; [auto|]. split; [auto|contradiction]. }
    split; [split; [intros QQ; destruct (SD QQ) as (u & H & _); exists u, y; exact H|]|intros QQ; destruct (SD QQ) as (u & H & ->); exists u, y; split; [exact H|reflexivity]]. intros (u & v & _ & O & _ & W & PU & _). destruct (Y2 v (W HY)) as (-> & ->). cbn [andb]. exact (S2 u O (PU HX)).
  - destruct (set_y_ed y s S) as (q & ret & -> & (Q & RQ) & _ & _). rewrite (EXP _ _ RQ). eexists _, _. split; [reflexivity|]. split; [split; [discriminate|]|discriminate]. intros (u & v & [N|N] & _); contradiction.
Qed.
End Ed.
Section Mo.
Variable d : mont_def p.
Hypothesis D : EcdhProof.good_mont p d.
Variable c : mont p.
Hypothesis C : EcdhProof.mctx_ok p d c.
Local Notation A := (w_a p d).
Local Notation B := (w_b p d).
Local Notation mon := (MontProof.mon p A B).
Local Notation Pp := (EcdhProof.gm_p p d D).
Definition mo_stands (xr yr : list Z) (x y : fe) : Prop := xr <> [] /\ mon (Aff x y) /\ fv x = le_val xr /\ (yr <> [] -> fv y = le_val yr).
Theorem mo_import_ok xr yr : bytes xr -> bytes yr -> exists out ok, ecdh_pubkey_import p c xr yr = Some (out, ok) /\ (ok = true <-> exists x y, mo_stands xr yr x y) /\
  (ok = true -> exists x, fv x = le_val xr /\ out = EcdhProof.xenc p x).
Proof.
  intros Bx By. unfold ecdh_pubkey_import. rewrite (EcdhProof.mc_a _ _ _ C), (EcdhProof.mc_b _ _ _ C), (EcdhProof.mc_bi _ _ _ C). destruct (pad_unique xr Bx) as (x & okx & EX & X1 & X2). destruct (pad_unique yr By) as (y & oky & EY & Y1 & Y2). rewrite EX, EY.
  destruct (MontProof.set_x_ok p Pp (EcdhProof.gm_5 p d D) A B (EcdhProof.gm_k p d D) _ eq_refl x (-1) (EcdhProof.gm_r p d D) (or_introl eq_refl)) as (q & ret & E & S1 & S2).
  destruct (has xr) eqn:HX; [apply has_ne in HX|apply has_nil in HX]; cbn [andb].
  2:{ rewrite E. unfold mge_export. eexists _, _. split; [reflexivity|]. cbn [andb]. split; [split; [discriminate|]|discriminate]. intros (u & v & N & _). contradiction. }
  destruct (has yr) eqn:HY; [apply has_ne in HY|apply has_nil in HY].
  - pose proof (MontProof.set_xy_ok p Pp A B (EcdhProof.gm_k p d D) _ eq_refl x y) as SX. destruct (mge_set_xy p A B _ x y) as [q' r']. destruct SX as (V & R). unfold mge_export. eexists _, _. split; [reflexivity|]. rewrite (EcdhProof.xexport_eq p).
    destruct r'; inversion R; subst; cbn [minf mx negb]; rewrite ?andb_true_r, ?andb_false_r.
    + split; [|intros Q; apply andb_prop in Q; exists x; split; [apply X1, Q|reflexivity]]. split.
      * intros Q. apply andb_prop in Q. destruct Q as (Qx & Qy). exists x, y. split; [exact HX|]. split; [apply V; reflexivity|]. auto.
      * intros (u & v & _ & _ & U & W). destruct (X2 u U) as (-> & _). destruct (Y2 v (W HY)) as (-> & _). reflexivity.
    + split; [split; [discriminate|]|discriminate]. intros (u & v & _ & O & U & W). destruct (X2 u U) as (_ & ->). destruct (Y2 v (W HY)) as (_ & ->). apply V in O. exact O.
  - assert (OY : oky = true) by (apply (Y2 f0); rewrite HY, fv_f0; reflexivity). rewrite OY, andb_true_r, E. unfold mge_export. eexists _, _. split; [reflexivity|]. rewrite (EcdhProof.xexport_eq p). destruct ret.
    + destruct (S1 eq_refl) as (v & M & R & _). inversion R; subst. cbn [minf mx negb]. rewrite !andb_true_r. split; [|intros Q; exists x; split; [exact (X1 Q)|reflexivity]]. split; [intros Q; exists x, v; split; [exact HX|]; split; [exact M|]; split; [exact (X1 Q)|contradiction]|]. intros (u & w & _ & _ & U & _). apply (X2 u U).
    + rewrite andb_false_r. cbn [andb]. split; [split; [discriminate|]|discriminate]. intros (u & w & _ & O & U & _). destruct (X2 u U) as (_ & ->). destruct (S2 eq_refl) as (_ & N). destruct (N w O). discriminate.
Qed.
End Mo.
End P.
