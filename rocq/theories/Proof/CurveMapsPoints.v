(* The maps on points and octet strings: from uniform octets, to uniform octets, and the hash loops. *)
From Coq Require Import Znumtheory Setoid Ncring Cring Integral_domain NsatzTactic.
From Verif.Base Require Import Prelude.
From Verif.Model Require Import Encoding NumTheory Field EcScalar Wei Ecdsa Edwards Eddsa Mont Convert CurveMaps.
From Verif.Spec Require Import EcSpec EdSpec MontSpec ConvSpec MapSpec.
From Verif.Proof Require Import Cong EncodingProof EcScalarProof FieldProof FieldNsatz FieldSquare FieldJacobi EcCodec GrpMul EdGroup EdProof EdCodec WeiProof MontProof ConvGroup ConvProof CurveMapsProof.
(* ---- octets ---- *)
Section Octets.
Variable p : positive.
Local Notation P := (Zpos p).
Local Notation fe := (Field.fe p).
Local Notation nb := (fbits p).
Lemma nb_pos : (0 < nb)%nat.
Proof. pose proof (bitlen_bound P ltac:(lia)) as B. fold nb in B. destruct nb; [cbn in B; lia|lia]. Qed.
Lemma fv_nb (u : fe) : 0 <= fv u < 2 ^ Z.of_nat nb.
Proof. pose proof (fv_range p u). pose proof (bitlen_bound P ltac:(lia)) as B. fold nb in B. lia. Qed.
Lemma size_split : exists k, fsize p = S k /\ ((nb mod 8 = 0)%nat /\ Z.of_nat nb = 8 * Z.of_nat k + 8 \/ (nb mod 8 <> 0)%nat /\ Z.of_nat nb = 8 * Z.of_nat k + Z.of_nat (nb mod 8)).
Proof.
  pose proof nb_pos as N. unfold fsize. generalize nb N. intros b B. exists ((b - 1) / 8)%nat. pose proof (Nat.div_mod_eq b 8) as D. pose proof (Nat.mod_upper_bound b 8 ltac:(lia)) as R.
  replace (b + 7)%nat with (b - 1 + 1 * 8)%nat by lia. rewrite Nat.div_add by lia. pose proof (Nat.div_mod_eq (b - 1) 8) as D'. pose proof (Nat.mod_upper_bound (b - 1) 8 ltac:(lia)) as R'.
  split; [lia|]. destruct (Nat.eq_dec (b mod 8) 0) as [E|E]; [left|right]; split; try assumption; lia.
Qed.
Lemma hint_full hint : (nb mod 8 = 0)%nat -> hint_bits p hint = 0.
Proof.
  intros E. unfold hint_bits. rewrite E. cbn [Nat.eqb]. change 0xff with (Z.ones 8). apply Z.bits_inj'. intros n Hn. rewrite Z.bits_0, !Z.land_spec, Z.lnot_spec by exact Hn. destruct (Z.testbit (Z.ones 8) n); [rewrite Bool.andb_false_r|rewrite Bool.andb_false_r]; reflexivity.
Qed.
Lemma hint_part hint : (nb mod 8 <> 0)%nat -> exists w, hint_bits p hint = w * 2 ^ Z.of_nat (nb mod 8).
Proof.
  intros E. unfold hint_bits. apply Nat.eqb_neq in E. rewrite E. set (m := Z.of_nat (nb mod 8)). exists (Z.shiftr (Z.land (Z.shiftr hint 8) 0xff) m). rewrite <- Z.shiftl_mul_pow2 by (unfold m; lia).
  rewrite <- Z.ldiff_ones_r by (unfold m; lia). rewrite Z.ones_equiv. replace (Z.pred (2 ^ m)) with (2 ^ m - 1) by lia. apply Z.bits_inj'. intros n Hn. rewrite Z.ldiff_spec, !Z.land_spec, Z.lnot_spec by exact Hn.
  destruct (Z.testbit (2 ^ m - 1) n), (Z.testbit (Z.shiftr hint 8) n), (Z.testbit 255 n); reflexivity.
Qed.
Lemma le_or_val v hint : 0 <= v < 2 ^ Z.of_nat nb -> le_val (le_or p (le_bytes (fsize p) v) (hint_bits p hint)) mod 2 ^ Z.of_nat nb = v /\ length (le_or p (le_bytes (fsize p) v) (hint_bits p hint)) = fsize p.
Proof.
  intros V. destruct size_split as (k & K & C). unfold le_or. set (l := le_bytes (fsize p) v). assert (L : length l = S k) by (unfold l; rewrite le_bytes_length; exact K).
  split; [|rewrite app_length, firstn_length, L, K; cbn [length]; lia]. rewrite K. cbn [Nat.sub]. rewrite Nat.sub_0_r. pose proof (EdCodec.le_split l k L) as S. assert (LF : length (firstn k l) = k) by (rewrite firstn_length, L; lia).
  assert (VL : le_val l = v). { unfold l. rewrite le_val_le_bytes. apply Z.mod_small. rewrite K. split; [lia|]. eapply Z.lt_le_trans; [apply V|]. replace 256 with (2 ^ 8) by reflexivity. rewrite <- Z.pow_mul_r by lia. apply Z.pow_le_mono_r; [lia|]. pose proof (Nat.mod_upper_bound nb 8 ltac:(lia)). lia. }
  destruct C as [(E & B)|(E & B)].
  - rewrite (hint_full hint E), Z.lor_0_r, <- S, VL. apply Z.mod_small. exact V.
  - destruct (hint_part hint E) as (w & ->). set (m := Z.of_nat (nb mod 8)) in *. assert (M : 0 <= m) by (unfold m; lia). assert (BL : bytes l) by apply le_bytes_bytes. set (t := nth k l 0) in *. set (f := firstn k l) in *. rewrite S in VL, BL. apply bytes_app in BL. destruct BL as (Bf & Bt). apply bytes_cons in Bt. destruct Bt as (Bt & _).
    unfold le_val in VL |- *. rewrite dval_app, LF in *. cbn [dval] in *. rewrite Z.mul_0_r, Z.add_0_r in *. fold (le_val f) in *. pose proof (le_val_range f Bf) as Rf. rewrite LF in Rf. assert (PW : 2 ^ Z.of_nat nb = 256 ^ Z.of_nat k * 2 ^ m). { rewrite B, Z.pow_add_r, Z.pow_mul_r by lia. reflexivity. }
    assert (TB : t < 2 ^ m). { apply (Z.mul_lt_mono_pos_l (256 ^ Z.of_nat k)); [lia|]. rewrite <- PW. lia. }
    rewrite Z.lor_comm, (lor_k w t m (2 ^ m) eq_refl M (conj (proj1 Bt) TB)). replace (le_val f + 256 ^ Z.of_nat k * (w * 2 ^ m + t)) with (v + w * 2 ^ Z.of_nat nb); [|rewrite PW, <- VL; ring]. rewrite Z.mod_add by lia. apply Z.mod_small. exact V.
Qed.
Lemma le_import (u : fe) hint : fst (xfe_import p (le_or p (xfe_export p u) (hint_bits p hint))) = u /\ length (le_or p (xfe_export p u) (hint_bits p hint)) = fsize p.
Proof. destruct (le_or_val (fv u) hint (fv_nb u)) as (E & L). split; [|exact L]. unfold xfe_import, xfe_export. cbn [fst]. rewrite E. apply (fe_of_fv p). Qed.
Definition be_or (l : list Z) (b : Z) : list Z := Z.lor (nth 0 l 0) b :: skipn 1 l.
Lemma be_import (u : fe) hint : fst (Ecdsa.fe_import p (be_or (Ecdsa.fe_export p u) (hint_bits p hint))) = u /\ length (be_or (Ecdsa.fe_export p u) (hint_bits p hint)) = fsize p.
Proof.
  destruct (le_or_val (fv u) hint (fv_nb u)) as (E & L). unfold Ecdsa.fe_import, Ecdsa.fe_export. cbn [fst].
  assert (Q : be_or (be_bytes (fsize p) (fv u)) (hint_bits p hint) = rev (le_or p (le_bytes (fsize p) (fv u)) (hint_bits p hint))).
  { unfold be_bytes. change (digits 256 (fsize p) (fv u)) with (le_bytes (fsize p) (fv u)). destruct size_split as (k & K & _). pose proof (le_bytes_length (fsize p) (fv u)) as LL. rewrite K in LL at 2. pose proof (EdCodec.le_split _ k LL) as S. unfold le_or. replace (fsize p - 1)%nat with k by lia.
    set (l := le_bytes (fsize p) (fv u)) in *. clearbody l. assert (Q : forall f t, be_or (rev (f ++ [t])) (hint_bits p hint) = rev (f ++ [Z.lor t (hint_bits p hint)])) by (intros f t; rewrite !rev_app_distr; reflexivity). rewrite S at 1. apply Q. }
  rewrite Q, rev_length. split; [|exact L]. unfold be_val. rewrite rev_involutive. unfold le_val in E. rewrite E. apply (fe_of_fv p).
Qed.
End Octets.
(* ---- the loop of the hash functions, when no round is skipped ---- *)
Section Loop.
Variable G : Type.
Variables (from : list Z -> option G) (skip : G -> bool) (sub : G -> G -> G) (to_u : G -> Z -> option (list Z * bool)).
Lemma loop_ok P draws : (forall u1 h g, In (u1, h) draws -> from u1 = Some g -> skip g = false) -> forall p2 hint out, point_to_hash G from skip sub to_u P p2 hint draws = Some (Some out) ->
  exists u1 u2 h p1, In (u1, h) draws /\ out = u1 ++ u2 /\ from u1 = Some p1 /\ to_u (sub P p1) h = Some (u2, true).
Proof.
  induction draws as [|(u1 & h) draws IH]; intros NS p2 hint out E; [discriminate|]. cbn [point_to_hash] in E. destruct (from u1) as [p1|] eqn:F; [|discriminate]. rewrite (NS u1 h p1 (or_introl eq_refl) F) in E. cbv beta iota in E.
  destruct (to_u (sub P p1) h) as [[u2 [|]]|] eqn:T; [|destruct (IH (fun a b c H => NS a b c (or_intror H)) _ _ _ E) as (a & b & c & d & H1 & H2); exists a, b, c, d; split; [right; exact H1|exact H2]|discriminate].
  injection E as <-. exists u1, u2, h, p1. split; [left; reflexivity|auto].
Qed.
(* what the maps do, over any group *)
Variable Pt : Type.
Variables (on : Pt -> Prop) (op : Pt -> Pt -> Pt) (e : Pt) (inv : Pt -> Pt) (rep : G -> Pt -> Prop).
Hypothesis L : group_laws Pt on op e inv.
Variable gadd : G -> G -> G.
Hypothesis AD : forall q r Q R, rep q Q -> rep r R -> rep (gadd q r) (op Q R).
Hypothesis SB : forall q r Q R, rep q Q -> rep r R -> rep (sub q r) (op Q (inv R)).
Variable n : nat.
Hypothesis FA : forall raw, exists r Q, from raw = Some r /\ rep r Q /\ on Q.
Definition from2 (raw : list Z) : option G := match from (firstn n raw), from (firstn n (skipn n raw)) with Some p1, Some p2 => Some (gadd p1 p2) | _, _ => None end.
Lemma from2_ok raw : exists r Q, from2 raw = Some r /\ rep r Q /\ on Q.
Proof. unfold from2. destruct (FA (firstn n raw)) as (r1 & Q1 & -> & R1 & O1). destruct (FA (firstn n (skipn n raw))) as (r2 & Q2 & -> & R2 & O2). eexists _, _. split; [reflexivity|]. split; [exact (AD _ _ _ _ R1 R2)|exact (gl_op _ _ _ _ _ L _ _ O1 O2)]. Qed.
Lemma regroup Q S R : on Q -> on S -> on R -> op S (op (op Q (inv S)) R) = op Q R.
Proof.
  intros HQ HS HR. pose proof (gl_inv _ _ _ _ _ L S HS) as HN. rewrite <- (gl_assoc _ _ _ _ _ L S (op Q (inv S)) R) by (auto using (gl_op _ _ _ _ _ L)). f_equal. rewrite (gl_comm _ _ _ _ _ L Q (inv S)) by auto.
  rewrite <- (gl_assoc _ _ _ _ _ L S (inv S) Q) by auto. rewrite (gl_neg _ _ _ _ _ L S HS). exact (gl_id _ _ _ _ _ L Q HQ).
Qed.
Lemma halves (u1 u2 : list Z) : length u1 = n -> length u2 = n -> firstn n (u1 ++ u2) = u1 /\ firstn n (skipn n (u1 ++ u2)) = u2.
Proof. intros L1 L2. split; [rewrite firstn_app, L1, Nat.sub_diag, firstn_O, app_nil_r; apply firstn_all2; lia|]. rewrite skipn_app, L1, Nat.sub_diag, skipn_all2 by lia. cbn [skipn app]. apply firstn_all2. lia. Qed.
Variable good : list Z -> Prop.
Variable R : Pt.
Hypothesis OR : on R.
Hypothesis TU : forall q Q h out, rep q Q -> on Q -> to_u q h = Some (out, true) -> good out -> length out = n /\ exists r, from out = Some r /\ rep r (op Q R).
Lemma hash_gen q Q stale hint draws out : rep q Q -> on Q -> (forall u1 h, In (u1, h) draws -> length u1 = n) -> (forall u1 h g, In (u1, h) draws -> from u1 = Some g -> skip g = false) ->
  point_to_hash G from skip sub to_u q stale hint draws = Some (Some out) -> good (skipn n out) -> exists r, from2 out = Some r /\ rep r (op Q R).
Proof.
  intros RQ OQ LN NS E NZ. destruct (loop_ok q draws NS _ _ _ E) as (u1 & u2 & h & p1 & IN & -> & F & T2). pose proof (LN u1 h IN) as L1. rewrite skipn_app, L1, Nat.sub_diag, skipn_all2 in NZ by lia. cbn [skipn app] in NZ.
  destruct (FA u1) as (p1' & Q1 & F' & R1 & O1). rewrite F in F'. injection F' as <-. pose proof (gl_inv _ _ _ _ _ L Q1 O1) as ON.
  destruct (TU _ _ h u2 (SB _ _ _ _ RQ R1) (gl_op _ _ _ _ _ L _ _ OQ ON) T2 NZ) as (L2 & r2 & F2 & R2).
  destruct (halves u1 u2 L1 L2) as (H1 & H2). unfold from2. rewrite H1, H2, F, F2. eexists. split; [reflexivity|]. rewrite <- (regroup Q Q1 R OQ O1 OR). exact (AD _ _ _ _ R1 R2).
Qed.
End Loop.
Section P.
Variable p : positive.
Hypothesis Pp : prime (Zpos p).
Local Notation P := (Zpos p).
Hypothesis PR : (P mod 4 = 3 \/ P mod 8 = 5)%Z.
Hypothesis P5 : (3 < P)%Z.
Local Notation fe := (Field.fe p).
#[local] Existing Instance fe_ops.
#[local] Existing Instance fe_ring.
#[local] Existing Instance fe_cring.
#[local] Instance dom' : @Integral_domain fe f0 f1 fe_add fe_mul fe_sub fe_neg eq (fe_ops p) (fe_ring p) (fe_cring p) := fe_dom p Pp.
Declare Scope fe_scope.
Delimit Scope fe_scope with fe.
Bind Scope fe_scope with Field.fe.
Local Infix "+" := fe_add : fe_scope.
Local Infix "*" := fe_mul : fe_scope.
Local Infix "-" := fe_sub : fe_scope.
Local Notation "- x" := (fe_neg x) : fe_scope.
Local Open Scope fe_scope.
Add Ring fring : (ring_th p).
Local Notation P3 := (EdCodec.P3 p Pp PR).
Local Notation sq := (square fe fe_mul).
Local Notation gm := (g_mont fe fe_add fe_mul).
Local Notation gw := (g_wei fe fe_add fe_mul).
Section Mont.
Variables A B bi z : fe.
Hypothesis K : mont_ok fe f0 f1 fe_add fe_mul A B.
Hypothesis HB : bi = fe_inv B.
Hypothesis NSQ : ~ sq z.
Local Notation mrep := (MontProof.mrep p).
Local Notation mon := (MontProof.mon p A B).
Local Notation a0 := (A * bi).
Local Notation b0 := (bi * bi).
Local Notation spec := (ell2 fe f0 f1 fe_add fe_mul fe_sub fe_neg a0 b0 z).
Lemma BI : bi * B = f1. Proof. rewrite HB. apply (inv_l p Pp), K. Qed.
Lemma mul_b x : mont_mul_b p B x = x * B. Proof. unfold mont_mul_b. destruct (equal_spec p B f1) as [-> |_]; [ring|reflexivity]. Qed.
Lemma bi_one : B = f1 -> bi = f1. Proof. intros E. rewrite <- BI, E. ring. Qed.
Lemma div_b x : mont_div_b p B bi x = x * bi. Proof. unfold mont_div_b. destruct (equal_spec p B f1) as [E|_]; [rewrite (bi_one E); ring|reflexivity]. Qed.
Lemma solve_y0 x : mont_solve_y0 p A B bi x = gm a0 b0 x.
Proof. unfold mont_solve_y0, mont_a0, fe_sqr, g_mont. cbv zeta. destruct (equal_spec p B f1) as [E|_]; [rewrite (bi_one E)|]; ring. Qed.
(* the substitution x = B x', y = B y' *)
Lemma on_iff x y : mon (Aff (x * B) (y * B)) <-> y * y = gm a0 b0 x.
Proof.
  unfold mon, on_mont, g_mont. pose proof BI as I. split; intros H; [apply (mul_cancel p Pp _ _ (B * (B * B)))|].
  - destruct K as (NB & _). exact (mul_nz p Pp _ _ NB (mul_nz p Pp _ _ NB NB)).
  - clear - H I Pp. nsatz.
  - clear - H I Pp. nsatz.
Qed.
Theorem mont_fwd u : exists x y, mont_elligator2 p A B bi z u = Some (MkM (x * B) (y * B) false) /\ mon (Aff (x * B) (y * B)) /\ spec u x /\ parity p y u.
Proof.
  destruct (ell_fwd p Pp PR a0 b0 z NSQ _ solve_y0 u) as (x & y & E & C & S & Q). exists x, y. unfold mont_elligator2, mont_a0. rewrite E, !mul_b. rewrite on_iff. auto.
Qed.
Hypothesis A0 : A <> f0.
Hypothesis ND : forall s, s * s <> A * A - (f1 + f1) * (f1 + f1).
Lemma a0_nz : a0 <> f0.
Proof. intros E. apply A0. pose proof BI as I. transitivity (a0 * B); [transitivity (A * (bi * B)); [rewrite I; ring|ring]|]. rewrite E. ring. Qed.
Lemma nd0 s : s * s <> a0 * a0 - (f1 + f1) * ((f1 + f1) * b0).
Proof. intros E. apply (ND (s * B)). pose proof BI as I. clear - E I Pp. nsatz. Qed.
Lemma back x : x * bi * B = x. Proof. transitivity (x * (bi * B)); [ring|]. rewrite BI. ring. Qed.
Theorem mont_inv q Q hint u : mrep q Q -> mon Q -> mont_invert2 p A B bi z q hint = Some (u, true) -> u <> f0 -> mont_elligator2 p A B bi z u = Some q.
Proof.
  intros R O E NU. unfold mont_invert2, mont_a0 in E. rewrite !div_b in E. destruct (invert2 p a0 z (mx p q * bi) (my p q * bi) hint) as [[u' ret]|] eqn:I; [|discriminate]. injection E as -> E. apply andb_true_iff in E. destruct E as (-> & NI).
  destruct R as [|X Y]; [discriminate|]. cbn [mx my] in I. assert (C : (Y * bi) * (Y * bi) = gm a0 b0 (X * bi)) by (apply on_iff; rewrite !back; exact O).
  pose proof (ell_inv p Pp PR a0 b0 z NSQ _ solve_y0 a0_nz nd0 _ _ hint u C I NU) as F. unfold mont_elligator2, mont_a0. rewrite F, !mul_b, !back. reflexivity.
Qed.
Theorem mont_complete u q : f1 + z * (u * u) <> f0 -> mont_elligator2 p A B bi z u = Some q -> exists hint u', (hint = 0 \/ hint = 1)%Z /\ mont_invert2 p A B bi z q hint = Some (u', true) /\ u' * u' = u * u /\ (my p q <> f0 -> u' = u).
Proof.
  intros T E. unfold mont_elligator2, mont_a0 in E. destruct (elligator2 p _ a0 z u) as [[x y]|] eqn:F; [|discriminate]. injection E as <-. rewrite !mul_b.
  destruct (ell_complete p Pp PR a0 b0 z NSQ _ solve_y0 a0_nz u x y T F) as (hint & u' & H & I & U & Q). exists hint, u'. refine (conj H (conj _ (conj U _))).
  - unfold mont_invert2, mont_a0. cbn [mx my minf]. rewrite !div_b. assert (BB : forall v, v * B * bi = v) by (intros v; transitivity (v * (bi * B)); [ring|rewrite BI; ring]). rewrite !BB, I. reflexivity.
  - cbn [my]. intros N. apply Q. intros ->. apply N. ring.
Qed.
Theorem mont_uniform T q Q R hint out : mrep T R -> mon R -> mrep q Q -> mon Q -> mont_point_to_uniform p A B bi z T q hint = Some (out, true) -> fst (xfe_import p out) <> f0 ->
  length out = fsize p /\ exists r, mont_point_from_uniform p A B bi z out = Some r /\ mrep r (madd' p A B Q R).
Proof.
  intros RT OT RQ OQ E NU. unfold mont_point_to_uniform in E. destruct (mont_invert2 p A B bi z (mge_add p A B q T) hint) as [[u ret]|] eqn:I; [|discriminate]. injection E as <- ->. destruct (le_import p u hint) as (IM & L). rewrite IM in NU. split; [exact L|].
  pose proof (mge_add_ok p Pp P5 A B K bi HB q T Q R RQ RT) as AD. exists (mge_add p A B q T). split; [|exact AD]. unfold mont_point_from_uniform. rewrite IM.
  exact (mont_inv _ _ hint u AD (gl_op _ _ _ _ _ (mlaw p Pp P5 A B K) _ _ OQ OT) I NU).
Qed.
Lemma mont_from_any raw : exists r Q, mont_point_from_uniform p A B bi z raw = Some r /\ mrep r Q /\ mon Q.
Proof. destruct (mont_fwd (fst (xfe_import p raw))) as (x & y & E & O & _). eexists _, _. split; [exact E|]. split; [constructor|exact O]. Qed.
Theorem mont_from_hash raw : exists r Q, mont_point_from_hash p A B bi z raw = Some r /\ mrep r Q /\ mon Q.
Proof. exact (from2_ok _ _ _ _ _ _ _ mrep (mlaw p Pp P5 A B K) _ (mge_add_ok p Pp P5 A B K bi HB) (fsize p) mont_from_any raw). Qed.
Theorem mont_hash T q Q R stale hint draws out : mrep T R -> mon R -> mrep q Q -> mon Q -> (forall u1 h, In (u1, h) draws -> length u1 = fsize p) ->
  (forall u1 h g, In (u1, h) draws -> mont_point_from_uniform p A B bi z u1 = Some g -> fe_is_zero (my p g) = false) ->
  point_to_hash (mge p) (mont_point_from_uniform p A B bi z) (fun g => fe_is_zero (my p g)) (mge_sub p A B) (mont_point_to_uniform p A B bi z T) q stale hint draws = Some (Some out) ->
  fst (xfe_import p (skipn (fsize p) out)) <> f0 -> exists r, mont_point_from_hash p A B bi z out = Some r /\ mrep r (madd' p A B Q R).
Proof.
  intros RT OT RQ OQ LN NS E NZ. refine (hash_gen _ _ _ _ _ _ _ _ _ _ mrep (mlaw p Pp P5 A B K) _ (mge_add_ok p Pp P5 A B K bi HB) (mge_sub_ok p Pp P5 A B K bi HB) (fsize p) mont_from_any (fun l => fst (xfe_import p l) <> f0) R OT _ q Q stale hint draws out RQ OQ LN NS E NZ).
  intros q' Q' h out' RQ' OQ' E' N'. exact (mont_uniform T q' Q' R h out' RT OT RQ' OQ' E' N').
Qed.
End Mont.
Section Edwards.
Variables a d A B bi c z : fe.
Variable i : bool.
Hypothesis K : complete fe f0 f1 fe_add fe_mul a d.
Hypothesis LK : linked_ p a d A B c i.
Hypothesis HB : bi = fe_inv B.
Hypothesis NSQ : ~ sq z.
Local Notation eon := (eon p a d).
Local Notation eadd := (EdGroup.eadd p a d).
Local Notation xrep := (EdProof.xrep p a d).
Local Notation phi := (to_ed_ p c i).
Local Notation psi := (to_mont_ p c i).
Local Notation MK := (link_ok p Pp a d K A B c i LK).
Lemma ell_mont u : edwards_elligator2 p A B bi c z i u = match mont_elligator2 p A B bi z u with Some m => Some (mont_to_edwards p c i false m) | None => None end.
Proof.
  unfold edwards_elligator2, mont_elligator2, edwards_A0, mont_a0. assert (S : forall x, edwards_solve_y0 p A bi x = mont_solve_y0 p A B bi x).
  { intros x. rewrite (solve_y0 A B bi MK HB). unfold edwards_solve_y0, edwards_A0, fe_sqr, g_mont. cbv zeta. ring. }
  unfold elligator2. rewrite !S. destruct (map_finish _ _ _ _) as [[x y]|]; [|reflexivity]. rewrite !(mul_b A B bi MK HB). reflexivity.
Qed.
Lemma inv_mont_eq q hint : edwards_invert2 p A bi c z i q hint = mont_invert2 p A B bi z (edwards_to_mont p c i false q) hint.
Proof. unfold edwards_invert2, mont_invert2, edwards_A0, mont_a0. rewrite !(div_b A B bi MK HB). reflexivity. Qed.
Local Notation spec := (ell2 fe f0 f1 fe_add fe_mul fe_sub fe_neg (A * bi) (bi * bi) z).
Theorem ed_fwd u : exists x y q, edwards_elligator2 p A B bi c z i u = Some q /\ mon_ p A B (Aff (x * B) (y * B)) /\ xrep q (phi (Aff (x * B) (y * B))) /\ spec u x /\ parity p y u.
Proof.
  destruct (mont_fwd A B bi z MK HB NSQ u) as (x & y & E & O & S & Q). rewrite ell_mont, E. eexists x, y, _. split; [reflexivity|]. split; [exact O|]. split; [|auto].
  exact (to_edwards_ok p Pp a d K A B c i LK false eq_refl _ _ (mr_aff p _ _) O).
Qed.
Hypothesis A0 : A <> f0.
Lemma ed_nd s : s * s <> A * A - (f1 + f1) * (f1 + f1).
Proof.
  intros E. pose proof (proj1 K) as (r & Hr). assert (NR : r <> f0) by (intros ->; apply (proj1 (proj2 K)); rewrite <- Hr; ring). pose proof (lB p Pp a d K A B c i LK) as NB. pose proof (lc p Pp a d K A B c i LK) as NC.
  apply (ConvGroup.no_sq p Pp a d K s (B * (c * c) * r)); [exact (mul_nz p Pp _ _ (mul_nz p Pp _ _ NB (mul_nz p Pp _ _ NC NC)) NR)|]. rewrite E.
  assert (D : exists t, (A - (f1 + f1)) * (A + (f1 + f1)) = t /\ t = d * (B * (c * c) * r * (B * (c * c) * r))); [|destruct D as (t & D1 & D2); rewrite <- D2, <- D1; ring].
  eexists. split; [reflexivity|]. pose proof (proj1 (proj2 K)) as NA. pose proof LK as L. unfold linked_, linked in L. revert L. clear - Pp Hr NA. destruct i; intros (L1 & L2).
  - assert (L3 : B * (d * (c * c)) = A + (f1 + f1)). { apply (mul_cancel p Pp _ _ a NA). clear - L1 L2 Pp. nsatz. } rewrite <- L2, <- L3, <- Hr. ring.
  - assert (L3 : B * (d * (c * c)) = A - (f1 + f1)). { apply (mul_cancel p Pp _ _ a NA). clear - L1 L2 Pp. nsatz. } rewrite <- L2, <- L3, <- Hr. ring.
Qed.
Theorem ed_inv q Q hint u : xrep q Q -> edwards_invert2 p A bi c z i q hint = Some (u, true) -> u <> f0 -> exists r, edwards_elligator2 p A B bi c z i u = Some r /\ xrep r Q.
Proof.
  intros R E NU. pose proof (proj1 R) as O. rewrite inv_mont_eq in E. pose proof (to_mont_ok p Pp a d K A B c i LK false eq_refl q Q R) as RM. pose proof (mont_on p Pp a d K A B c i LK Q O) as OM.
  rewrite ell_mont, (mont_inv A B bi z MK HB NSQ A0 ed_nd _ _ hint u RM OM E NU). eexists. split; [reflexivity|]. rewrite <- (ed_mont p Pp a d K A B c i LK Q O). exact (to_edwards_ok p Pp a d K A B c i LK false eq_refl _ _ RM OM).
Qed.
Theorem ed_uniform T q Q R hint out : arep p a d T R -> xrep q Q -> edwards_point_to_uniform p a d A bi c z i T q hint = Some (out, true) -> fst (xfe_import p out) <> f0 ->
  length out = fsize p /\ exists r, edwards_point_from_uniform p A B bi c z i out = Some r /\ xrep r (eadd Q R).
Proof.
  intros RT RQ E NU. unfold edwards_point_to_uniform in E. destruct (edwards_invert2 p A bi c z i (xge_mixed_add p a d q T) hint) as [[u ret]|] eqn:I; [|discriminate]. injection E as <- ->. destruct (le_import p u hint) as (IM & L). rewrite IM in NU. split; [exact L|].
  unfold edwards_point_from_uniform. rewrite IM. exact (ed_inv _ _ hint u (madd_rep p Pp a d K q T Q R RQ RT) I NU).
Qed.
Lemma ed_from_any raw : exists r Q, edwards_point_from_uniform p A B bi c z i raw = Some r /\ xrep r Q /\ eon Q.
Proof. destruct (ed_fwd (fst (xfe_import p raw))) as (x & y & q & E & _ & R & _). eexists _, _. split; [exact E|]. split; [exact R|exact (proj1 R)]. Qed.
Theorem ed_from_hash raw : exists r Q, edwards_point_from_hash p a d A B bi c z i raw = Some r /\ xrep r Q.
Proof. destruct (from2_ok _ _ _ _ _ _ _ xrep (EdGroup.laws p Pp a d K) _ (add_rep p Pp a d K) (fsize p) ed_from_any raw) as (r & Q & E & R & _). exists r, Q. auto. Qed.
Theorem ed_hash T q Q R stale hint draws out : arep p a d T R -> xrep q Q -> (forall u1 h, In (u1, h) draws -> length u1 = fsize p) ->
  (forall u1 h g, In (u1, h) draws -> edwards_point_from_uniform p A B bi c z i u1 = Some g -> fe_is_zero (xx p g) = false) ->
  point_to_hash (xge p) (edwards_point_from_uniform p A B bi c z i) (fun g => fe_is_zero (xx p g)) (xge_sub p a d) (edwards_point_to_uniform p a d A bi c z i T) q stale hint draws = Some (Some out) ->
  fst (xfe_import p (skipn (fsize p) out)) <> f0 -> exists r, edwards_point_from_hash p a d A B bi c z i out = Some r /\ xrep r (eadd Q R).
Proof.
  intros RT RQ LN NS E NZ. refine (hash_gen _ _ _ _ _ _ _ _ _ _ xrep (EdGroup.laws p Pp a d K) _ (add_rep p Pp a d K) (sub_rep p Pp a d K) (fsize p) ed_from_any (fun l => fst (xfe_import p l) <> f0) R (proj1 (proj1 RT)) _ q Q stale hint draws out RQ (proj1 RQ) LN NS E NZ).
  intros q' Q' h out' RQ' _ E' N'. exact (ed_uniform T q' Q' R h out' RT RQ' E' N').
Qed.
End Edwards.
Section Wei.
Variables a b z ai zi i2 i3 c : fe.
Variable h : Z.
Hypothesis NS : nonsingular fe f0 f1 fe_add fe_mul a b.
Local Notation won := (WeiProof.on' p a b).
Local Notation wrep := (WeiProof.wrep p a b).
Local Notation wadd := (WeiProof.padd' p a).
Hypothesis NO2 : forall x, ~ won (Aff x f0).
Hypothesis OKP : a <> f0 /\ b <> f0 /\ ~ sq z /\ ai = fe_inv a /\ zi = fe_inv z /\ (forall x, z * a * x = b -> sq (gw a b x)) \/
  a = f0 /\ z <> f0 /\ zi = fe_inv z /\ i2 * (f1 + f1) = f1 /\ i3 * (f1 + f1 + f1) = f1 /\ c * c = - (z * z + z * z + z * z) /\ (forall x, x + x = c - z -> sq (gw f0 b x)).
Local Notation no2 := (fun _ : (h <= 1)%Z => NO2).
Lemma won_iff x y : won (Aff x y) <-> y * y = gw a b x. Proof. unfold WeiProof.on', on_curve, g_wei. split; intros ->; ring. Qed.
Lemma wei_from_any raw : exists r Q, wei_point_from_uniform p a b z ai zi i2 i3 c raw = Some r /\ wrep r Q /\ won Q.
Proof.
  unfold wei_point_from_uniform. set (u := fst _). destruct OKP as [(AN & BN & ZN & AI & ZI & SP)|(AZ & ZN & ZI & I2 & I3 & CC & SP)].
  - replace (zero_a p a) with false by (unfold zero_a; destruct (is_zero_spec p a); [contradiction|reflexivity]). destruct (sswu_fwd p Pp PR a b z ai zi AN ZN AI ZI SP u) as (x & y & E & C & _). eexists _, (Aff x y). split; [exact E|]. apply won_iff in C. split; [constructor|]; exact C.
  - replace (zero_a p a) with true by (unfold zero_a; destruct (is_zero_spec p a); [reflexivity|contradiction]). destruct (svdw_fwd p Pp PR a b z zi i2 i3 c AZ P5 ZN ZI I2 I3 CC SP u) as (x & y & E & C & _). eexists _, (Aff x y). split; [exact E|]. rewrite <- AZ in C. apply won_iff in C. split; [constructor|]; exact C.
Qed.
Theorem wei_uniform T q Q R hint out : wrep T R -> wrep q Q -> wei_point_to_uniform p a b z zi i2 i3 c h T q hint = Some (out, true) -> fst (fe_import p out) <> f0 ->
  length out = fsize p /\ exists r, wei_point_from_uniform p a b z ai zi i2 i3 c out = Some r /\ wrep r (wadd Q (if (1 <? h)%Z then R else Inf)).
Proof.
  intros RT RQ E NU. unfold wei_point_to_uniform in E. set (q' := if (1 <? h)%Z then wge_add p a q T else q) in E. cbv zeta in E. assert (RQ' : wrep q' (wadd Q (if (1 <? h)%Z then R else Inf))).
  { unfold q'. destruct (1 <? h)%Z; [exact (wge_add_ok p Pp P3 a b h no2 _ _ _ _ RQ RT)|]. rewrite (gl_comm _ _ _ _ _ (WeiProof.laws p Pp P3 a b h NS no2) Q Inf (wrep_on p a b _ _ RQ) Logic.I). rewrite (gl_id _ _ _ _ _ (WeiProof.laws p Pp P3 a b h NS no2) Q (wrep_on p a b _ _ RQ)). exact RQ. }
  clearbody q'. match type of E with match ?X with _ => _ end = _ => destruct X as [[u ret]|] eqn:I; [|discriminate] end. destruct (be_import p u hint) as (IM & L). change (Some (be_or (fe_export p u) (hint_bits p hint), ret) = Some (out, true)) in E. set (o := be_or _ _) in *. clearbody o. injection E as <- ->. rewrite IM in NU. split; [exact L|].
  unfold wei_point_from_uniform. rewrite IM. exists q'. split; [|exact RQ']. destruct RQ' as [|x y O].
  { exfalso. revert I. unfold wei_svdwi, wei_sswui. destruct (zero_a p a); cbv zeta; (destruct (fe_sqrt _) as [[? ?]|]; [|discriminate]); (destruct (fe_isqrt _ _ _) as [[? ?]|]; [|discriminate]); try destruct (wei_svdwf _ _ _ _ _ _ _ _ _); cbn [wge_zero winf negb]; rewrite Bool.andb_false_r; discriminate. }
  assert (NY : y <> f0) by (intros ->; exact (NO2 x O)). apply won_iff in O.
  destruct OKP as [(AN & BN & ZN & AI & ZI & SP)|(AZ & ZN & ZI & I2 & I3 & CC & SP)].
  - replace (zero_a p a) with false in * by (unfold zero_a; destruct (is_zero_spec p a); [contradiction|reflexivity]). exact (sswu_inv p Pp PR a b z ai zi AN BN ZN AI ZI x y hint u O NY I NU).
  - replace (zero_a p a) with true in * by (unfold zero_a; destruct (is_zero_spec p a); [reflexivity|contradiction]). rewrite AZ in O. exact (svdw_inv p Pp PR a b z zi i2 i3 c AZ P5 ZN ZI I2 I3 CC SP x y hint u O I NU).
Qed.
Theorem wei_from_hash raw : exists r Q, wei_point_from_hash p a b z ai zi i2 i3 c raw = Some r /\ wrep r Q /\ won Q.
Proof. exact (from2_ok _ _ _ _ _ _ _ wrep (WeiProof.laws p Pp P3 a b h NS no2) _ (wge_add_ok p Pp P3 a b h no2) (fsize p) wei_from_any raw). Qed.
Theorem wei_hash T q Q R stale hint draws out : wrep T R -> wrep q Q -> (forall u1 h, In (u1, h) draws -> length u1 = fsize p) ->
  point_to_hash (wge p) (wei_point_from_uniform p a b z ai zi i2 i3 c) (fun g => (1 <? h)%Z && fe_is_zero (wy g)) (wge_sub p a) (wei_point_to_uniform p a b z zi i2 i3 c h T) q stale hint draws = Some (Some out) ->
  fst (fe_import p (skipn (fsize p) out)) <> f0 -> exists r, wei_point_from_hash p a b z ai zi i2 i3 c out = Some r /\ wrep r (wadd Q (if (1 <? h)%Z then R else Inf)).
Proof.
  intros RT RQ LN E NZ. assert (OR : won (if (1 <? h)%Z then R else Inf)) by (destruct (1 <? h)%Z; [exact (wrep_on p a b _ _ RT)|exact Logic.I]).
  refine (hash_gen _ _ _ _ _ _ _ _ _ _ wrep (WeiProof.laws p Pp P3 a b h NS no2) _ (wge_add_ok p Pp P3 a b h no2) (wge_sub_ok p Pp P3 a b h no2) (fsize p) wei_from_any (fun l => fst (fe_import p l) <> f0) _ OR _ q Q stale hint draws out RQ (wrep_on p a b _ _ RQ) LN _ E NZ).
  - intros q' Q' h' out' RQ' _ E' N'. exact (wei_uniform T q' Q' R h' out' RT RQ' E' N').
  - intros u1 h' g _ F. destruct (wei_from_any u1) as (r & S & F' & RS & OS). rewrite F in F'. injection F' as <-. apply andb_false_intro2. destruct RS as [|x y O].
    + (* never the point at infinity *) revert F. unfold wei_point_from_uniform, wei_svdw, wei_sswu. cbv zeta. destruct (zero_a p a); [destruct (wei_svdwf _ _ _ _ _ _ _ _ _)|destruct (fe_invert _)]; (destruct (map_finish _ _ _ _) as [[? ?]|]; discriminate).
    + cbn [wy]. destruct (is_zero_spec p y) as [-> |]; [destruct (NO2 x O)|reflexivity].
Qed.
End Wei.
End P.
