(* Conversion of public keys between EdDSA and ECDH. *)
From Coq Require Import Znumtheory.
From Verif.Base Require Import Prelude.
From Verif.Model Require Import Encoding NumTheory Field EcScalar Wei Ecdsa Edwards Eddsa Mont Convert.
From Verif.Spec Require Import EcSpec EdSpec MontSpec DsaSpec EddsaSpec ConvSpec.
From Verif.Proof Require Import Cong FieldProof EcCodec GrpMul EdGroup EdProof EdCodec MontGroup MontProof EcdhProof ConvGroup ConvProof.
Section P.
Variable p : positive.
Local Notation P := (Zpos p).
Local Notation fe := (Field.fe p).
Variable md : mont_def p.
Hypothesis D : good_mont p md.
Variable mc : mont p.
Hypothesis Cx : mctx_ok p md mc.
Local Notation A := (w_a p md).
Local Notation B := (w_b p md).
Variables a d : fe.
Hypothesis K : complete fe f0 f1 fe_add fe_mul a d.
Variables (c : fe) (i : bool).
Hypothesis L : linked_ p a d A B c i.
Hypothesis NB : fbits p <> 448%nat.
Variable ec : edw p.
Hypothesis Ca : x_a p ec = a.
Hypothesis Cd : x_d p ec = d.
Local Notation Pp := (gm_p p md D).
Local Notation P5 := (gm_5 p md D).
Local Notation R := (gm_r p md D).
Local Notation on := (eon p a d).
Local Notation mon := (mon_ p A B).
Local Notation phi := (to_ed_ p c i).
Local Notation psi := (to_mont_ p c i).
Local Notation neg := (eneg p).
Local Notation zero := (ezero p).
Local Notation xenc := (xenc p).
Local Notation xdec := (xdec p).
Add Ring fring : (ring_th p).
Definition enc (Q : fe * fe) : list Z := ed_enc P (fv (fst Q)) (fv (snd Q)).
Definition ucoord (Q : point fe) : fe := match Q with Inf => f0 | Aff u _ => u end.
Lemma nb : true && (fbits p =? 448)%nat = false. Proof. cbn [andb]. apply Nat.eqb_neq. exact NB. Qed.
Lemma P3 : 2 < P. Proof. pose proof P5 as H. clear - H. lia. Qed.
Lemma psi_inf Q : on Q -> psi Q = Inf <-> Q = zero.
Proof.
  intros H. split.
  - intros E. rewrite <- (ed_mont p Pp a d K A B c i L Q H), E. reflexivity.
  - intros ->. unfold to_mont_, to_mont, ezero, ed_zero. destruct (fe_eq_dec p f0 f0) as [_|N]; [|contradiction]. destruct (fe_eq_dec p f1 f1) as [_|N]; [reflexivity|contradiction].
Qed.
Theorem eddsa_convert_ok raw : bytes raw -> length raw = ed_octs P -> exists out ok, eddsa_pubkey_convert p ec c i raw = Some (out, ok) /\
  (ok = true <-> exists Q, on Q /\ Q <> zero /\ raw = enc Q) /\ (forall Q, on Q -> raw = enc Q -> out = xenc (ucoord (psi Q))).
Proof.
  intros Br Lr. unfold eddsa_pubkey_convert, xge_export_mge. destruct (EdCodec.import_ok p Pp R a d K ec Ca Cd raw Lr Br) as (q & ok & -> & H1 & (Q0 & H2) & H3).
  pose proof (to_mont_ok p Pp a d K A B c i L true nb q Q0 (proj1 H2)) as T. eexists _, _. split; [reflexivity|]. rewrite (xexport_eq p). split; [split|].
  - intros E. apply Bool.andb_true_iff in E. destruct E as (E1 & E2). destruct (H1 E1) as (x & y & Rx & Er). exists (x, y). pose proof (proj1 (proj1 Rx)) as O. refine (conj O (conj _ Er)). intros Z. apply (psi_inf _ O) in Z.
    pose proof (to_mont_ok p Pp a d K A B c i L true nb q _ (proj1 Rx)) as T'. rewrite Z in T'. inversion T' as [HQ|]. rewrite <- HQ in E2. discriminate.
  - intros ((x & y) & O & NZ & Er). destruct (H3 x y O Er) as (-> & Rx). cbn [andb]. pose proof (to_mont_ok p Pp a d K A B c i L true nb q _ (proj1 Rx)) as T'. destruct (psi (x, y)) as [|u v] eqn:E; [apply (psi_inf _ O) in E; contradiction|]. inversion T'. reflexivity.
  - intros (x & y) O Er. destruct (H3 x y O Er) as (_ & Rx). pose proof (to_mont_ok p Pp a d K A B c i L true nb q _ (proj1 Rx)) as T'. f_equal. destruct T'; reflexivity.
Qed.
Lemma neg_on' Q : on Q -> on (neg Q). Proof. apply neg_on. Qed.
(* the end of ecdh_pubkey_convert writes an Edwards point *)
Lemma finish_ok (x y : fe) : on (x, y) ->
  (let out := xfe_export p y in let s := Z.shiftl (if fe_is_odd x then 1 else 0) 7 in
   if (fbits p mod 8 =? 0)%nat then out ++ [s] else firstn (fsize p - 1) out ++ [Z.lor (nth (fsize p - 1) out 0) s]) = enc (x, y).
Proof.
  intros O. assert (X : EdProof.xrep p a d (MkX x y f1 (fe_mul x y)) (x, y)).
  { refine (conj O (conj (f1_nz p Pp) _)). cbn [xx xy xz xt fst snd]. refine (conj _ (conj _ _)); ring. }
  pose proof (EdCodec.export_ok p Pp R a d _ _ _ X) as E. unfold xge_export in E. cbn [xx xy xz] in E. assert (I1 : fe_invert (@f1 p) = (f1, true)).
  { rewrite (surjective_pairing (fe_invert _)), (invert_flag p Pp _ P3). assert (I1 : fe_inv (@f1 p) = f1) by (transitivity (fe_mul (fe_inv f1) (@f1 p)); [ring|exact (inv_l p Pp _ (f1_nz p Pp))]).
    unfold fe_invert. cbn [fst]. rewrite I1. destruct (is_zero_spec p (@f1 p)) as [Z|]; [destruct (f1_nz p Pp Z)|reflexivity]. }
  rewrite I1 in E. cbn [negb] in E. replace (fe_mul x f1) with x in E by ring. replace (fe_mul y f1) with y in E by ring. injection E as E. exact E.
Qed.
Theorem ecdh_convert_ok i16 raw s : s = -1 \/ s = 0 \/ s = 1 -> exists out ok, ecdh_pubkey_convert p mc c i i16 raw s = Some (out, ok) /\
  (ok = true <-> exists v, mon (Aff (xdec raw) v)) /\ (ok = false -> out = enc zero) /\
  (forall v, mon (Aff (xdec raw) v) -> exists Q, (Q = phi (Aff (xdec raw) v) \/ Q = neg (phi (Aff (xdec raw) v))) /\ out = enc Q /\ (s = -1 \/ fst Q = f0 \/ fv (fst Q) mod 2 = s)).
Proof.
  intros S. unfold ecdh_pubkey_convert. rewrite (proj2 (Nat.eqb_neq _ _) NB). unfold mge_import. rewrite (ximport_eq p), (mc_a _ _ _ Cx), (mc_b _ _ _ Cx), (mc_bi _ _ _ Cx).
  destruct (set_x_ok p Pp P5 A B (gm_k p md D) (fe_inv B) eq_refl (xdec raw) (-1) R (or_introl eq_refl)) as (q & ok & -> & Hok & Hno). cbv iota beta.
  assert (HQ : exists T, mrep p q T /\ mon T /\ (ok = true -> exists v, T = Aff (xdec raw) v) /\ (ok = false -> T = Inf)).
  { destruct ok; [destruct (Hok eq_refl) as (v & O & M & _); exists (Aff (xdec raw) v); refine (conj M (conj O (conj _ _))); [intros _; exists v; reflexivity|discriminate]|]. exists Inf. refine (conj (proj1 (Hno eq_refl)) (conj Logic.I (conj _ _))); [discriminate|reflexivity]. }
  destruct HQ as (T & M & O & T1 & T2). unfold mge_export_xge. pose proof (to_edwards_ok p Pp a d K A B c i L true nb q T M O) as X. destruct X as (EO & Zn & X & Y & _). set (e := mont_to_edwards p c i true q) in *. clearbody e.
  assert (EI : fe_invert (xz p e) = (fe_inv (xz p e), true)). { rewrite (surjective_pairing (fe_invert _)), (invert_flag p Pp _ P3). destruct (is_zero_spec p (xz p e)); [contradiction|reflexivity]. }
  rewrite EI. cbn [negb]. pose proof (inv_l p Pp _ Zn) as IL. destruct (phi T) as [x y] eqn:ET. cbn [fst snd] in X, Y.
  replace (fe_mul (xx p e) (fe_inv (xz p e))) with x by (rewrite X; transitivity (fe_mul x (fe_mul (fe_inv (xz p e)) (xz p e))); [rewrite IL; ring|ring]).
  replace (fe_mul (xy p e) (fe_inv (xz p e))) with y by (rewrite Y; transitivity (fe_mul y (fe_mul (fe_inv (xz p e)) (xz p e))); [rewrite IL; ring|ring]).
  set (x' := if s =? -1 then x else fe_set_odd x (negb (s =? 0))).
  assert (XX : (x' = x \/ x' = fe_neg x) /\ (s = -1 \/ x' = f0 \/ fv x' mod 2 = s)).
  { unfold x'. destruct (Z.eqb_spec s (-1)) as [S1|S1]; [split; left; [reflexivity|exact S1]|]. split; [unfold fe_set_odd, fe_neg_cond; destruct (xorb _ _); [right|left]; reflexivity|]. right.
    destruct (is_zero_spec p x) as [Z|Z]; [left; rewrite Z; apply (set_odd_zero p)|right]. rewrite (odd_mod p), (set_odd_parity p Pp P3 x _ Z). destruct (Z.eqb_spec s 0); cbn [negb]; lia. }
  destruct XX as (XX & SS). clearbody x'. assert (ON : on (x', y)) by (destruct XX as [-> | ->]; [exact EO|exact (neg_on p a d (x, y) EO)]).
  eexists _, ok. split; [reflexivity|]. pose proof (finish_ok x' y ON) as F. cbv zeta in F. cbv zeta. rewrite F. clear F.
  assert (PM : (x', y) = (x, y) \/ (x', y) = neg (x, y)) by (destruct XX as [-> | ->]; [left|right]; reflexivity).
  split; [split|split].
  - intros Q. destruct (T1 Q) as (v & ->). exists v. exact O.
  - intros (v & H). destruct ok; [reflexivity|]. destruct (proj2 (Hno eq_refl) v H). discriminate.
  - intros Q. pose proof (T2 Q) as TI. rewrite TI in ET. change (phi Inf) with zero in ET. unfold ezero, ed_zero in ET |- *. injection ET as <- <-. f_equal. f_equal. destruct XX as [-> | ->]; [reflexivity|ring].
  - intros v H. assert (OK : ok = true). { destruct ok; [reflexivity|]. destruct (proj2 (Hno eq_refl) v H). discriminate. }
    destruct (T1 OK) as (v' & ET'). exists (x', y). cbn [fst]. split; [|split; [reflexivity|exact SS]]. rewrite ET' in ET, O.
    pose proof (msame_x fe f0 f1 fe_add fe_mul fe_sub (fe_div p) fe_neg fe_inv (field_th p Pp) (fe_eq_dec p) A B (gm_k p md D) _ _ _ O H) as [-> | ->]; [rewrite ET; exact PM|].
    change (Aff (xdec raw) (fe_neg v)) with (pneg fe fe_neg (Aff (xdec raw) v)) in ET. pose proof (ed_neg_ p Pp a d K A B c i L _ H) as EN. rewrite EN in ET. destruct PM as [-> | ->]; [right; symmetry; exact ET|left].
    rewrite <- ET. destruct (phi (Aff (xdec raw) v)) as [x0 y0]. unfold eneg, ed_neg. cbn [fst snd]. f_equal. ring.
Qed.
Theorem round_trip i16 Q : on Q -> Q <> zero -> exists u, eddsa_pubkey_convert p ec c i (enc Q) = Some (xenc u, true) /\
  ecdh_pubkey_convert p mc c i i16 (xenc u) (fv (fst Q) mod 2) = Some (enc Q, true).
Proof.
  intros O NZ. exists (ucoord (psi Q)). assert (Be : bytes (enc Q)) by apply enc_bytes. assert (Le : length (enc Q) = ed_octs P) by apply enc_length. destruct (eddsa_convert_ok (enc Q) Be Le) as (out & ok & E & H1 & H2). rewrite E.
  rewrite (H2 Q O eq_refl), (proj2 H1) by (exists Q; exact (conj O (conj NZ eq_refl))). split; [reflexivity|]. set (u := ucoord (psi Q)).
  assert (S : fv (fst Q) mod 2 = -1 \/ fv (fst Q) mod 2 = 0 \/ fv (fst Q) mod 2 = 1) by (pose proof (Z.mod_pos_bound (fv (fst Q)) 2 eq_refl); lia).
  destruct (ecdh_convert_ok i16 (xenc u) _ S) as (out2 & ok2 & -> & G1 & _ & G2). pose proof (mont_on p Pp a d K A B c i L Q O) as MO. rewrite (xdec_enc p md D) in G1, G2.
  assert (HM : exists v, psi Q = Aff u v) by (unfold u; destruct (psi Q) as [|u' v] eqn:EP; [apply (psi_inf _ O) in EP; contradiction|exists v; reflexivity]). destruct HM as (v & EP). rewrite EP in MO.
  rewrite (proj2 G1) by (exists v; exact MO). f_equal. f_equal. destruct (G2 v MO) as (Q' & PM & -> & SS). rewrite <- EP, (ed_mont p Pp a d K A B c i L Q O) in PM. f_equal. destruct PM as [PM|PM]; [exact PM|].
  destruct Q as [x y]. rewrite PM in SS |- *. unfold eneg, ed_neg in *. cbn [fst snd] in *. f_equal. destruct (is_zero_spec p x) as [-> |NX]; [ring|]. exfalso. destruct SS as [SS|[SS|SS]].
  - pose proof (Z.mod_pos_bound (fv x) 2 eq_refl). lia.
  - exact (opp_nz p x NX SS).
  - rewrite !(odd_mod p), (odd_neg p Pp P3 x NX) in SS. destruct (fe_is_odd x); discriminate.
Qed.
Theorem round_trip' i16 u v s : mon (Aff u v) -> s = -1 \/ s = 0 \/ s = 1 -> exists pub, ecdh_pubkey_convert p mc c i i16 (xenc u) s = Some (pub, true) /\ eddsa_pubkey_convert p ec c i pub = Some (xenc u, true).
Proof.
  intros O S. destruct (ecdh_convert_ok i16 (xenc u) s S) as (out & ok & -> & G1 & _ & G2). rewrite (xdec_enc p md D) in G1, G2. rewrite (proj2 G1) by (exists v; exact O). exists out. split; [reflexivity|]. destruct (G2 v O) as (Q & PM & -> & _).
  assert (QE : exists w, mon (Aff u w) /\ Q = phi (Aff u w)).
  { destruct PM as [-> | ->]; [exists v; split; [exact O|reflexivity]|]. exists (fe_neg v). rewrite <- (ed_neg_ p Pp a d K A B c i L _ O). split; [|reflexivity]. unfold mon_, on_mont in *. rewrite <- O. ring. }
  destruct QE as (w & Ow & ->). pose proof (ed_on p Pp a d K A B c i L _ Ow) as EO. set (Q := phi (Aff u w)) in *. assert (Be : bytes (enc Q)) by apply enc_bytes. assert (Le : length (enc Q) = ed_octs P) by apply enc_length.
  destruct (eddsa_convert_ok (enc Q) Be Le) as (out' & ok' & -> & H1 & H2). assert (PQ : psi Q = Aff u w) by exact (mont_ed p Pp a d K A B c i L _ Ow).
  rewrite (H2 Q EO eq_refl), PQ, (proj2 H1); [reflexivity|]. exists Q. refine (conj EO (conj _ eq_refl)). intros Z. apply (psi_inf _ EO) in Z. congruence.
Qed.
End P.
