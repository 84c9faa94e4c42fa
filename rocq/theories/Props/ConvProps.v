(* C82: the maps between Montgomery and Edwards curves, and the public key conversions between EdDSA and ECDH. *)
From Coq Require Import Znumtheory.
From Verif.Base Require Import Prelude.
From Verif.Spec Require Import EcSpec EdSpec MontSpec DsaSpec EddsaSpec ConvSpec.
From Verif.Model Require Import Encoding Bio NumTheory Field EcScalar Wei Primes Ecdsa Edwards Eddsa Mont Convert.
From Verif.Proof Require Import PrimesProof FieldProof FieldSquare EcCodec GrpMul EdGroup EdProof EdCodec MontProof EcdhProof ConvGroup ConvProof ConvKeys.
From Verif.Props Require Import EdwardsProps MontProps.
Section Maps.
Variable p : positive.
Hypothesis Pp : prime (Zpos p).
Hypothesis P5 : 3 < Zpos p.
Local Notation fe := (Field.fe p).
Variables a d : fe.
Hypothesis K : complete fe f0 f1 fe_add fe_mul a d.
(* the correspondence of Spec/ConvSpec.v over the field of p elements *)
Definition link (A B c : fe) (invert : bool) : Prop := linked fe f1 fe_add fe_mul fe_sub a d A B c invert.
Definition ed_of (c : fe) (invert : bool) : point fe -> fe * fe := to_ed fe f0 f1 fe_add fe_mul fe_sub (fe_div p) fe_neg (fe_eq_dec p) c invert.
Definition mont_of (c : fe) (invert : bool) : fe * fe -> point fe := to_mont fe f0 f1 fe_add fe_mul fe_sub (fe_div p) (fe_eq_dec p) c invert.
(* every complete Edwards curve gets a Montgomery form, whatever c, inverted or not: no division fails *)
Theorem C82_init c invert : exists A B, edwards_init_isomorphism p a d c invert = Some (A, B) /\ link A B (if fe_is_zero c then f1 else c) invert /\ mont_ok fe f0 f1 fe_add fe_mul A B.
Proof.
  destruct (init_iso_ok p Pp P5 a d K c invert) as (A & B & E & L). exists A, B. exact (conj E (conj L (link_ok p Pp a d K A B _ invert L))).
Qed.
Variables (A B c : fe) (invert : bool).
Hypothesis L : link A B c invert.
Local Notation phi := (ed_of c invert).
Local Notation psi := (mont_of c invert).
(* the two maps are inverse bijections between the curves, exceptional points included *)
Theorem C82_bijection : (forall P, m_on p A B P -> on p a d (phi P) /\ psi (phi P) = P) /\ (forall Q, on p a d Q -> m_on p A B (psi Q) /\ phi (psi Q) = Q).
Proof.
  split.
  - intros P H. exact (conj (ed_on p Pp a d K A B c invert L P H) (mont_ed p Pp a d K A B c invert L P H)).
  - intros Q H. exact (conj (mont_on p Pp a d K A B c invert L Q H) (ed_mont p Pp a d K A B c invert L Q H)).
Qed.
(* and group homomorphisms *)
Theorem C82_homomorphism : phi Inf = zero p /\ (forall P, m_on p A B P -> phi (m_neg p P) = neg p (phi P)) /\
  (forall P Q, m_on p A B P -> m_on p A B Q -> phi (m_add p A B P Q) = add p a d (phi P) (phi Q)) /\
  (forall P Q, on p a d P -> on p a d Q -> psi (add p a d P Q) = m_add p A B (psi P) (psi Q)).
Proof.
  assert (H : forall P Q, m_on p A B P -> m_on p A B Q -> phi (m_add p A B P Q) = add p a d (phi P) (phi Q)) by exact (ed_add p Pp a d K A B c invert L (three_nz p P5)).
  split; [reflexivity|]. split; [exact (ed_neg_ p Pp a d K A B c invert L)|]. split; [exact H|]. intros P Q HP HQ. destruct C82_bijection as (B1 & B2). destruct (B2 P HP) as (P1 & P2), (B2 Q HQ) as (Q1 & Q2).
  rewrite <- P2 at 1. rewrite <- Q2 at 1. rewrite <- H by assumption. apply B1. exact (gl_op _ _ _ _ _ (both_law p Pp a d K A B c invert L (three_nz p P5)) _ _ P1 Q1).
Qed.
(* so a multiple of a converted point is the converted multiple *)
Theorem C82_multiple k P : m_on p A B P -> phi (m_nmul p A B k P) = nmul p a d k (phi P).
Proof.
  intros H. destruct C82_homomorphism as (H0 & H1 & H2 & _). pose proof (both_law p Pp a d K A B c invert L (three_nz p P5)) as GL.
  assert (N : forall n, m_on p A B (EcSpec.nmul (point fe) (m_add p A B) Inf n P) /\ phi (EcSpec.nmul (point fe) (m_add p A B) Inf n P) = EcSpec.nmul (fe * fe) (add p a d) (zero p) n (phi P)).
  { induction n as [|n (IH1 & IH2)]; [split; [exact I|exact H0]|]. split; [exact (gl_op _ _ _ _ _ GL P _ H IH1)|]. change (phi (m_add p A B P (EcSpec.nmul (point fe) (m_add p A B) Inf n P)) = add p a d (phi P) (EcSpec.nmul (fe * fe) (add p a d) (zero p) n (phi P))). rewrite <- IH2. exact (H2 P _ H IH1). }
  destruct k as [|k|k]; [exact H0|exact (proj2 (N _))|]. change (phi (m_neg p (EcSpec.nmul (point fe) (m_add p A B) Inf (Pos.to_nat k) P)) = neg p (EcSpec.nmul (fe * fe) (add p a d) (zero p) (Pos.to_nat k) (phi P))).
  rewrite <- (proj2 (N _)). apply H1, N.
Qed.
Hypothesis NB : fbits p <> 448%nat.
(* the code computes these maps *)
Theorem C82_mont_to_edwards q Q : m_on p A B Q -> m_affine p q Q -> xpoint p a d (mge_export_xge p c invert q) (phi Q).
Proof. intros H M. apply (affine_iff p) in M. exact (to_edwards_ok p Pp a d K A B c invert L true (nb p NB) q Q M H). Qed.
Theorem C82_edwards_to_mont q Q : xpoint p a d q Q -> m_affine p (xge_export_mge p c invert q) (psi Q).
Proof. intros M. apply (affine_iff p). exact (to_mont_ok p Pp a d K A B c invert L true (nb p NB) q Q M). Qed.
End Maps.
(* ---- curves of 448 bits use the 4-isogenies between v^2 = u^3 + (2 - 4 d) u^2 + u and x^2 + y^2 = 1 + d x^2 y^2 ---- *)
Section Iso4.
Variable p : positive.
Hypothesis Pp : prime (Zpos p).
Hypothesis M4 : Zpos p mod 4 = 3.
Hypothesis B448 : fbits p = 448%nat.
Local Notation fe := (Field.fe p).
Variable d : fe.
Hypothesis K : complete fe f0 f1 fe_add fe_mul f1 d.
Local Notation f2 := (fe_add f1 f1).
Local Notation f4 := (fe_add f2 f2).
Definition A4 : fe := fe_sub f2 (fe_mul f4 d).
Definition phi4 : point fe -> fe * fe := iso4_to_ed fe f0 f1 fe_add fe_mul fe_sub (fe_div p) fe_neg (fe_eq_dec p).
Definition psi4 : fe * fe -> point fe := iso4_to_mont fe f0 f1 fe_add fe_mul fe_sub (fe_div p) (fe_eq_dec p).
Lemma P2 : 2 < Zpos p.
Proof. assert (H : Zpos p <> 1 /\ Zpos p <> 2) by (split; intros E; rewrite E in M4; discriminate). lia. Qed.
Lemma no_i (s : fe) : fe_mul s s <> fe_neg f1.
Proof.
  intros E. pose proof (square_sq p Pp P2 s) as S. rewrite E, (square_neg p Pp P2 M4 f1 (f1_nz p Pp)) in S. assert (E1 : @f1 p = fe_mul f1 f1) by (apply fe_eq; cbn; rewrite !Z.mod_small by (pose proof P2; lia); reflexivity).
  rewrite E1, (square_sq p Pp P2) in S. discriminate.
Qed.
(* each lands on the other curve *)
Theorem C82_isogeny_on : (forall P, m_on p A4 f1 P -> on p f1 d (phi4 P)) /\ (forall Q, on p f1 d Q -> m_on p A4 f1 (psi4 Q)).
Proof. split; [exact (iso4_on p Pp d K no_i)|exact (iso4_mont_on p Pp d)]. Qed.
(* and the code computes the formulas of RFC 7748, section 4.2 *)
Theorem C82_isogeny_code c invert : (forall q Q, m_on p A4 f1 Q -> m_affine p q Q -> xpoint p f1 d (mge_export_xge p c invert q) (phi4 Q)) /\
  (forall q Q, xpoint p f1 d q Q -> m_affine p (xge_export_mge p c invert q) (psi4 Q)).
Proof.
  split.
  - intros q Q H M. apply (affine_iff p) in M. exact (to_edwards4_ok p Pp d K no_i B448 c invert q Q M H).
  - intros q Q M. apply (affine_iff p). exact (to_mont4_ok p Pp d B448 c invert q Q M).
Qed.
(* a key of EdDSA is converted exactly when it is the encoding of a point other than zero; the result is y^2 / x^2 *)
Theorem C82_eddsa_convert_448 ec c invert raw : x_a p ec = f1 -> x_d p ec = d -> bytes raw -> length raw = ed_octs (Zpos p) -> exists out ok, eddsa_pubkey_convert p ec c invert raw = Some (out, ok) /\
  (ok = true <-> exists Q, on p f1 d Q /\ Q <> zero p /\ raw = enc p Q) /\ (forall Q, on p f1 d Q -> raw = enc p Q -> out = fst (dh_out p (psi4 Q))).
Proof.
  intros Ca Cd Br Lr. unfold eddsa_pubkey_convert, xge_export_mge. destruct (EdCodec.import_ok p Pp (or_introl M4) f1 d K ec Ca Cd raw Lr Br) as (q & ok & -> & H1 & _ & H3).
  assert (ZI : forall Q, psi4 Q = Inf <-> Q = zero p).
  { intros (x & y). unfold psi4, iso4_to_mont, zero. destruct (fe_eq_dec p x f0) as [-> |N]; [|split; [discriminate|congruence]]. destruct (fe_eq_dec p y f1) as [-> |N]; [split; reflexivity|split; [discriminate|congruence]]. }
  assert (T : forall x y, arep p f1 d q (x, y) -> mrep p (edwards_to_mont p c invert true q) (psi4 (x, y))) by (intros x y R; exact (to_mont4_ok p Pp d B448 c invert q (x, y) (proj1 R))).
  eexists _, _. split; [reflexivity|]. rewrite (xexport_eq p). split; [split|].
  - intros E. apply Bool.andb_true_iff in E. destruct E as (E1 & E2). destruct (H1 E1) as (x & y & Rx & Er). exists (x, y). refine (conj (proj1 (proj1 Rx)) (conj _ Er)). intros Z. apply ZI in Z.
    pose proof (T x y Rx) as T'. rewrite Z in T'. inversion T' as [HQ|]. rewrite <- HQ in E2. discriminate.
  - intros ((x & y) & O & NZ & Er). destruct (H3 x y O Er) as (-> & Rx). cbn [andb]. pose proof (T x y Rx) as T'. destruct (psi4 (x, y)) as [|u v] eqn:E; [apply ZI in E; contradiction|]. inversion T'. reflexivity.
  - intros (x & y) O Er. destruct (H3 x y O Er) as (_ & Rx). pose proof (T x y Rx) as T'. destruct T'; reflexivity.
Qed.
End Iso4.
(* ---- public keys, for the other curves ---- *)
Section Keys.
Variable p : positive.
Variable md : mont_def p.
Hypothesis D : good_mont p md.
Variable mc : mont p.
Hypothesis X : mont_init p md = Some mc.
Variables a d : Field.fe p.
Hypothesis K : complete (Field.fe p) f0 f1 fe_add fe_mul a d.
Variables (c : Field.fe p) (invert : bool).
Hypothesis L : link p a d (w_a p md) (w_b p md) c invert.
Hypothesis NB : fbits p <> 448%nat.
Variable ec : edw p.
Hypothesis Ca : x_a p ec = a.
Hypothesis Cd : x_d p ec = d.
Variable i16 : Z.
Local Notation phi := (ed_of p c invert).
Local Notation psi := (mont_of p c invert).
Local Notation mon := (m_on p (w_a p md) (w_b p md)).
Theorem C82_eddsa_convert raw : bytes raw -> length raw = ed_octs (Zpos p) -> exists out ok, eddsa_pubkey_convert p ec c invert raw = Some (out, ok) /\
  (ok = true <-> exists Q, on p a d Q /\ Q <> zero p /\ raw = enc p Q) /\ (forall Q, on p a d Q -> raw = enc p Q -> out = fst (dh_out p (psi Q))).
Proof.
  intros Br Lr. destruct (eddsa_convert_ok p md D a d K c invert L NB ec Ca Cd raw Br Lr) as (out & ok & E & H1 & H2). exists out, ok. refine (conj E (conj H1 _)). intros Q O Er. rewrite (H2 Q O Er).
  change (to_mont_ p c invert Q) with (psi Q). destruct (psi Q); reflexivity.
Qed.
(* the other way the sign of x is lost: sign chooses it, or -1 leaves it to the root *)
Theorem C82_ecdh_convert raw s : s = -1 \/ s = 0 \/ s = 1 -> exists out ok, ecdh_pubkey_convert p mc c invert i16 raw s = Some (out, ok) /\
  (ok = true <-> exists v, mon (Aff (dh_dec p raw) v)) /\ (ok = false -> out = enc p (zero p)) /\
  (forall v, mon (Aff (dh_dec p raw) v) -> exists Q, (Q = phi (Aff (dh_dec p raw) v) \/ Q = neg p (phi (Aff (dh_dec p raw) v))) /\ out = enc p Q /\ (s = -1 \/ fst Q = f0 \/ fv (fst Q) mod 2 = s)).
Proof. exact (ecdh_convert_ok p md D mc (MontProps.Cx p md D mc X) a d K c invert L NB i16 raw s). Qed.
(* with the sign kept aside nothing is lost *)
Theorem C82_key_round_trip Q : on p a d Q -> Q <> zero p -> exists u, eddsa_pubkey_convert p ec c invert (enc p Q) = Some (dh_enc p u, true) /\
  ecdh_pubkey_convert p mc c invert i16 (dh_enc p u) (fv (fst Q) mod 2) = Some (enc p Q, true).
Proof. exact (round_trip p md D mc (MontProps.Cx p md D mc X) a d K c invert L NB ec Ca Cd i16 Q). Qed.
Theorem C82_key_round_trip' u v s : mon (Aff u v) -> s = -1 \/ s = 0 \/ s = 1 -> exists pub, ecdh_pubkey_convert p mc c invert i16 (dh_enc p u) s = Some (pub, true) /\
  eddsa_pubkey_convert p ec c invert pub = Some (dh_enc p u, true).
Proof. exact (round_trip' p md D mc (MontProps.Cx p md D mc X) a d K c invert L NB ec Ca Cd i16 u v s). Qed.
End Keys.
(* ---- 2 v^2 = u^3 + 4 u^2 + u over 29 elements is linked, inverted, to x^2 + y^2 = 1 + 3 x^2 y^2 ---- *)
Lemma k29' : complete (fe p29) f0 f1 fe_add fe_mul (e29 1) (e29 3).
Proof.
  refine (conj _ (conj _ (conj _ _))).
  - exists (e29 1). apply fe_eq. vm_compute. reflexivity.
  - intros E. apply (f_equal (@fv p29)) in E. vm_compute in E. discriminate E.
  - intros s E. assert (A : forallb (fun v => negb (v * v mod 29 =? 3)) (zseq 0 29) = true) by (vm_compute; reflexivity).
    pose proof (forall_zseq _ 0 29 A (fv s) (fv_range _ s)) as N. cbv beta in N. apply (f_equal (@fv p29)) in E. change (fv (fe_mul s s)) with (fv s * fv s mod 29) in E. rewrite E in N. discriminate N.
  - intros E. apply (f_equal (@fv p29)) in E. vm_compute in E. discriminate E.
Qed.
Example C82_link_ex : link p29 (e29 1) (e29 3) (w_a p29 md29) (w_b p29 md29) (e29 1) true /\
  option_map (fun r => (fv (fst r), fv (snd r))) (edwards_init_isomorphism p29 (e29 1) (e29 3) (e29 0) true) = Some (4, 2) /\
  option_map (fun r => (fv (fst r), fv (snd r))) (edwards_init_isomorphism p29 (e29 28) (e29 2) (e29 0) false) = Some (9, 18).
Proof. split; [split; apply fe_eq; vm_compute; reflexivity|]. vm_compute. split; reflexivity. Qed.
Definition showm (q : mge p29) : Z * Z * bool := (fv (mx p29 q), fv (my p29 q), minf p29 q).
Example C82_map_ex : show29 (mge_export_xge p29 (e29 1) true (MkM (e29 2) (e29 10) false)) = (6, 3) /\ show29 (mge_export_xge p29 (e29 1) true (MkM f0 f0 false)) = (0, 28) /\
  show29 (mge_export_xge p29 (e29 1) true (MkM f0 f0 true)) = (0, 1) /\ showm (xge_export_mge p29 (e29 1) true (x29 6 3)) = (2, 10, false) /\
  showm (xge_export_mge p29 (e29 1) true (x29 0 28)) = (0, 0, false) /\ showm (xge_export_mge p29 (e29 1) true (x29 0 1)) = (0, 0, true).
Proof. vm_compute. repeat split; reflexivity. Qed.
Definition ed29' : edw p29 := MkEdw p29 (e29 1) (e29 3) 4 7 Hash.MD4 false [] (x29 6 3) [] [] 0 (xge_zero p29).
(* the base point both ways, with both signs; a string on the twist; the neutral element *)
Example C82_keys_ex : eddsa_pubkey_convert p29 ed29' (e29 1) true [3] = Some ([2], true) /\ eddsa_pubkey_convert p29 ed29' (e29 1) true [1] = Some ([0], false) /\
  m29 (fun c => ecdh_pubkey_convert p29 c (e29 1) true 0 [2] 0) = Some (Some ([3], true)) /\ m29 (fun c => ecdh_pubkey_convert p29 c (e29 1) true 0 [2] 1) = Some (Some ([131], true)) /\
  m29 (fun c => ecdh_pubkey_convert p29 c (e29 1) true 0 [1] 1) = Some (Some ([1], false)).
Proof. vm_compute. repeat split; reflexivity. Qed.
(* Ed25519: the base points of RFC 7748, y = 4/5 and u = 9 *)
Definition c25519 : fe p25519 := fe_of p25519 0x0f26edf460a006bbd27b08dc03fc4f7ec5a1d3d14b7d1a82cc6e04aaff457e06.
Example C82_25519_ex : let e := fe_of p25519 in link p25519 (fe_neg f1) (e 0x52036cee2b6ffe738cc740797779e89800700a4d4141d8ab75eb4dca135978a3) (e 486662) f1 c25519 false.
Proof. split; apply fe_eq; vm_compute; reflexivity. Qed.

(* the axioms of every theorem above, listed at once *)
Definition ConvProps_all := (@C82_init, @C82_bijection, @C82_homomorphism, @C82_multiple, @C82_mont_to_edwards, @C82_edwards_to_mont, @C82_isogeny_on,
  @C82_isogeny_code, @C82_eddsa_convert_448, @C82_eddsa_convert, @C82_ecdh_convert, @C82_key_round_trip, @C82_key_round_trip').
Print Assumptions ConvProps_all.
