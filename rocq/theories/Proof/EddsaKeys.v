(* EdDSA: derived secrets, tweaked and combined keys. *)
From Verif.Base Require Import Prelude.
From Coq Require Import Znumtheory.
From Verif.Model Require Import Encoding Bio Hash Drbg NumTheory Field EcScalar Wei Ecdsa Schnorr Edwards Eddsa.
From Verif.Spec Require Import HashSpec KdfSpec DrbgSpec EcSpec DsaSpec EdSpec EddsaSpec.
From Verif.Proof Require Import HashProof HmacProof DrbgProof Cong Rfc6979 FieldProof EcGroup GrpMul EcScalarProof EcCodec EdGroup EdProof EdMul EdCodec EdCtx SchnorrProof EddsaProof.
Section P.
Variable p : positive.
Local Notation fe := (Field.fe p).
Local Notation P := (Zpos p).
Variable d : edw_def p.
Hypothesis D : good_ed p d.
Variable c : edw p.
Hypothesis C : ectx_ok p d c.
Local Notation a := (k_a p d).
Local Notation dd := (k_d p d).
Local Notation h := (k_h p d).
Local Notation n := (k_n p d).
Local Notation on := (eon p a dd).
Local Notation add := (eadd p a dd).
Local Notation neg := (eneg p).
Local Notation zero := (ezero p).
Local Notation xrep := (xrep p a dd).
Local Notation arep := (arep p a dd).
Local Notation zm := (zm p a dd).
Local Notation G := (EG p d).
Local Notation Pp := (ge_p _ _ D).
Local Notation PR := (ge_r _ _ D).
Local Notation K := (ge_c _ _ D).
Local Notation Mon := (m_on p Pp a dd K).
Local Notation Madd := (m_add p Pp a dd K).
Local Notation Mmul := (m_mul p Pp a dd K).
Local Notation Me := (m_e p Pp a dd K).
Local Notation M1 := (m_1 p Pp a dd K).
Local Notation Aon := (a_on p Pp a dd K).
Local Notation Gon := (EG_on p d D).
Local Notation N1 := (en_pos p d D).
Local Notation adj := (ed_octs P).
Local Notation penc := (penc p).
Local Notation secret := (secret p d).
Local Notation okpriv := (okpriv p).
Lemma import_penc A : on A -> exists q, xge_import p c (penc A) = Some (q, true) /\ arep q A.
Proof.
  intros O. destruct A as [x y]. destruct (import_ok p Pp PR a dd K c (ex_a _ _ _ C) (ex_d _ _ _ C) (penc (x, y)) (penc_length p _) (penc_bytes p _)) as (q & ok & E & _ & _ & R). destruct (R x y O eq_refl) as (-> & AQ). exists q. split; assumption.
Qed.
Lemma export_rep q Q : xrep q Q -> xge_export p q = Some (penc Q). Proof. exact (rep_export p d D q Q). Qed.
Lemma pub_map_ok A f Q : on A -> (forall q, arep q A -> xrep (f q) Q) -> pub_map p c (penc A) f = Some (penc Q, true).
Proof. intros O F. unfold pub_map. destruct (import_penc A O) as (q & -> & AQ). rewrite (export_rep _ _ (F q AQ)). reflexivity. Qed.
(* which octets are keys *)
Theorem pubkey_verify_ok pub : bytes pub -> length pub = adj -> exists b, eddsa_pubkey_verify p c pub = Some b /\ (b = true <-> exists A, on A /\ pub = penc A).
Proof.
  intros B L. unfold eddsa_pubkey_verify. destruct (import_ok p Pp PR a dd K c (ex_a _ _ _ C) (ex_d _ _ _ C) pub L B) as (q & ok & -> & R1 & _ & R3). exists ok. split; [reflexivity|]. split.
  - intros ->. destruct (R1 eq_refl) as (x & y & AQ & E). exists (x, y). split; [exact (proj1 (proj1 AQ))|exact E].
  - intros ([x y] & O & E). exact (proj1 (R3 x y O E)).
Qed.
(* ---- derived secrets ---- *)
Lemma flag_eq q Q : xrep q Q -> negb (xge_is_zero p q) = true <-> Q <> zero.
Proof. intros X. pose proof (is_zero_rep p Pp a dd q Q X) as H. destruct (xge_is_zero p q); cbn [negb]; split; try discriminate; try reflexivity; [intros N; destruct N; apply H; reflexivity|intros _ E; apply H in E; discriminate]. Qed.
Theorem derive_scalar_ok A s : on A -> bytes s -> (octs P <= length s)%nat -> let Q := zm (ed_clamp (blen P) h (le_val (firstn (octs P) s))) A in
  exists b, eddsa_derive_with_scalar p c (penc A) s = Ok (penc Q, b) /\ (b = true <-> Q <> zero).
Proof.
  intros O B L Q. unfold eddsa_derive_with_scalar. destruct (clamp_ok p d D c s C B L) as (out & -> & Bo & Lo & Vo). cbn [of_opt bind]. destruct (import_penc A O) as (q & -> & AQ). cbn [of_opt bind].
  rewrite (raw_eq p d D c C), firstn_all2, Vo by lia. pose proof (Xmul p d D c C q A _ (clamp_range p d (le_val (firstn (octs P) s))) (proj1 AQ)) as X. fold Q in X. rewrite (export_rep _ _ X). cbn [of_opt bind andb]. eexists. split; [reflexivity|]. apply flag_eq. exact X.
Qed.
Lemma clamp_idem v : ed_clamp (blen P) h (ed_clamp (blen P) h v) = ed_clamp (blen P) h v.
Proof.
  destruct (clamp_h p d D v) as (q & E). assert (HP := h_pos p d D). unfold ed_clamp at 1. rewrite E at 1 2. rewrite Z.mod_mul, Z.sub_0_r by lia. rewrite <- E. unfold ed_clamp. set (B := 2 ^ (blen P - 1)).
  assert (PB : 0 < B) by (apply Z.pow_pos_nonneg; [lia|unfold blen; pose proof (Z.log2_nonneg P); lia]). f_equal. replace (B + (v - v mod h) mod B) with ((v - v mod h) mod B + 1 * B) by ring. rewrite Z.mod_add, Z.mod_mod by lia. reflexivity.
Qed.
Lemma secret_idem priv : ed_clamp (blen P) h (secret priv) = secret priv. Proof. apply clamp_idem. Qed.
Theorem derive_ok A priv : on A -> okpriv priv -> exists b, eddsa_derive p c (penc A) priv = Ok (penc (zm (secret priv) A), b) /\ (b = true <-> zm (secret priv) A <> zero).
Proof.
  intros O OP. unfold eddsa_derive. destruct (convert_ok p d D c C priv OP) as (s & -> & B & L & V). cbn [bind]. pose proof (derive_scalar_ok A s O B ltac:(lia)) as H. cbv zeta in H. rewrite firstn_all2, V, secret_idem in H by lia. exact H.
Qed.
Lemma secret_sub priv A : on A -> sub p d (zm (secret priv) A).
Proof.
  intros O. destruct (clamp_h p d D (le_val (firstn adj (pdigest p d priv)))) as (q & E). fold (secret priv) in E. rewrite E, Mmul by exact O. apply (sub_zm p d D). apply (sub_h p d D). exact O.
Qed.
Theorem derive_agree priv1 priv2 : okpriv priv1 -> okpriv priv2 -> exists pub1 pub2 Q b,
  eddsa_pubkey_create p c priv1 = Ok pub1 /\ eddsa_pubkey_create p c priv2 = Ok pub2 /\
  eddsa_derive p c pub2 priv1 = Ok (penc Q, b) /\ eddsa_derive p c pub1 priv2 = Ok (penc Q, b) /\ on Q /\ zm n Q = zero /\ (b = true <-> Q <> zero).
Proof.
  intros O1 O2. exists (penc (zm (secret priv1) G)), (penc (zm (secret priv2) G)). pose proof (Mon (secret priv1) G Gon) as OA. pose proof (Mon (secret priv2) G Gon) as OB.
  destruct (derive_ok _ priv1 OB O1) as (b1 & E1 & F1). destruct (derive_ok _ priv2 OA O2) as (b2 & E2 & F2). rewrite <- !Mmul in * by exact Gon. rewrite (Z.mul_comm (secret priv2)) in E2, F2.
  exists (zm (secret priv1 * secret priv2) G), b1. assert (b1 = b2) as <-. { destruct b1, b2; try reflexivity; [symmetry; apply F2, F1; reflexivity|apply F1, F2; reflexivity]. }
  refine (conj (create_ok p d D c C priv1 O1) (conj (create_ok p d D c C priv2 O2) (conj E1 (conj E2 (conj _ (conj _ F1)))))); [apply Mon; exact Gon|]. apply (sub_zm p d D). apply (sub_G p d D).
Qed.
(* ---- tweaks ---- *)
Definition oksc (s : list Z) : Prop := bytes s /\ length s = octs P.
Lemma oksc_export x : oksc (xsc_export p c x). Proof. unfold xsc_export. rewrite (xssize_eq p d D c C). split; [apply le_bytes_bytes|apply le_bytes_length]. Qed.
Lemma val_export x : 0 <= x < n -> le_val (xsc_export p c x) = x.
Proof. intros X. unfold xsc_export. rewrite (xssize_eq p d D c C), le_val_le_bytes. apply Z.mod_small. pose proof (n_lt p d D). lia. Qed.
Lemma red s : oksc s -> xsc_reduce p c s = le_val s mod n. Proof. intros (B & L). rewrite (reduce_eq p d D c C s B), firstn_all2 by lia. reflexivity. Qed.
Lemma red_range x : 0 <= x mod n < n. Proof. apply Z.mod_pos_bound. pose proof N1. lia. Qed.
Lemma scalar_add_ok s t : oksc s -> oksc t -> oksc (eddsa_scalar_tweak_add p c s t) /\ le_val (eddsa_scalar_tweak_add p c s t) = (le_val s + le_val t) mod n.
Proof. intros S T. split; [apply oksc_export|]. unfold eddsa_scalar_tweak_add. rewrite (red s S), (red t T), (ex_n _ _ _ C). unfold sc_add. rewrite val_export by apply red_range. pose proof N1. symmetry. apply Z.add_mod. lia. Qed.
Lemma scalar_mul_ok s t : oksc s -> oksc t -> oksc (eddsa_scalar_tweak_mul p c s t) /\ le_val (eddsa_scalar_tweak_mul p c s t) = (le_val s * le_val t) mod n.
Proof. intros S T. split; [apply oksc_export|]. unfold eddsa_scalar_tweak_mul. rewrite (red s S), (red t T), (ex_n _ _ _ C). unfold sc_mul. rewrite val_export by apply red_range. pose proof N1. symmetry. apply Z.mul_mod. lia. Qed.
Lemma scalar_neg_ok s : oksc s -> oksc (eddsa_scalar_negate p c s) /\ le_val (eddsa_scalar_negate p c s) = (- le_val s) mod n.
Proof.
  intros S. split; [apply oksc_export|]. unfold eddsa_scalar_negate. rewrite (red s S), (ex_n _ _ _ C). pose proof N1 as N1. pose proof (red_range (le_val s)) as R. unfold sc_neg. destruct (Z.eqb_spec (le_val s mod n) 0) as [E|E].
  - rewrite val_export by lia. rewrite Z.mod_opp_l_z by lia. reflexivity.
  - rewrite val_export by lia. rewrite Z.mod_opp_l_nz by lia. reflexivity.
Qed.
Theorem pub_tweak_add_ok A t : on A -> oksc t -> eddsa_pubkey_tweak_add p c (penc A) t = Some (penc (add A (zm (le_val t) G)), true).
Proof.
  intros O T. unfold eddsa_pubkey_tweak_add. apply pub_map_ok; [exact O|]. intros q AQ. rewrite (red t T). apply (Xadd p d D c C); [exact (proj1 AQ)|]. rewrite <- (emod_zm p d D). apply (Xmul_g p d D c C).
Qed.
(* the multiplication walks only the bits of the field *)
Theorem pub_tweak_mul_ok A t : on A -> oksc t -> eddsa_pubkey_tweak_mul p c (penc A) t = Some (penc (zm (le_val t mod 16 ^ Z.of_nat (xnsteps (fbits p))) A), true).
Proof.
  intros O (B & L). unfold eddsa_pubkey_tweak_mul. apply pub_map_ok; [exact O|]. intros q AQ. rewrite (raw_eq p d D c C), firstn_all2 by lia. apply (Xmul_any p d D c C). exact (proj1 AQ).
Qed.
Theorem pub_negate_ok A : on A -> eddsa_pubkey_negate p c (penc A) = Some (penc (neg A), true).
Proof. intros O. unfold eddsa_pubkey_negate. apply pub_map_ok; [exact O|]. intros q AQ. apply neg_rep. exact (proj1 AQ). Qed.
Theorem pub_add_ok A B : on A -> on B -> eddsa_pubkey_add p c (penc A) (penc B) = Some (penc (add A B), true).
Proof.
  intros OA OB. unfold eddsa_pubkey_add. destruct (import_penc A OA) as (q & -> & AQ). destruct (import_penc B OB) as (r & -> & BR). rewrite (export_rep _ _ (Xmadd p d D c C q r A B (proj1 AQ) BR)). reflexivity.
Qed.
Definition psum (l : list (fe * fe)) : fe * fe := fold_left add l zero.
Lemma combine_loop_ok l : forall acc Q, Forall on l -> xrep acc Q -> on Q -> combine_loop p c acc true (map penc l) = Some (penc (fold_left add l Q), true).
Proof.
  induction l as [|A l IH]; intros acc Q F X O; cbn [map combine_loop fold_left].
  - rewrite (export_rep _ _ X). reflexivity.
  - apply Forall_cons_iff in F. destruct F as (OA & F). destruct (import_penc A OA) as (q & -> & AQ). cbn [andb]. apply IH; [exact F|apply (Xmadd p d D c C); assumption|apply Aon; assumption].
Qed.
Theorem pub_combine_ok l : Forall on l -> eddsa_pubkey_combine p c (map penc l) = Some (penc (psum l), true).
Proof.
  intros F. unfold eddsa_pubkey_combine, psum. destruct l as [|A l]; cbn [map].
  - exact (combine_loop_ok [] (xge_zero p) zero F (zero_rep p Pp a dd) (on_inf p a dd)).
  - apply Forall_cons_iff in F. destruct F as (OA & F). destruct (import_penc A OA) as (q & -> & AQ). rewrite (combine_loop_ok l q A F (proj1 AQ) OA). cbn [fold_left]. rewrite (a_zl p Pp a dd K A OA). reflexivity.
Qed.
Theorem pub_small_ok A : on A -> exists b, eddsa_pubkey_is_small p c (penc A) = Some b /\ (b = true <-> zm h A = zero /\ A <> zero).
Proof.
  intros O. unfold eddsa_pubkey_is_small, xge_is_small. destruct (import_penc A O) as (q & -> & AQ). destruct (Xmulh p d D c C q A (proj1 AQ)) as (r & E & X). unfold xmulh in E. rewrite E. cbn [andb]. eexists. split; [reflexivity|].
  rewrite andb_true_iff, (is_zero_rep p Pp a dd r _ X), (flag_eq q A (proj1 AQ)). reflexivity.
Qed.
Theorem pub_torsion_ok A : n < 2 ^ blen P -> on A -> exists b, eddsa_pubkey_has_torsion p c (penc A) = Some b /\ (b = true <-> zm n A <> zero).
Proof.
  intros NL O. unfold eddsa_pubkey_has_torsion, xge_has_torsion. destruct (import_penc A O) as (q & -> & AQ). cbn [andb]. rewrite (ex_n _ _ _ C). eexists. split; [reflexivity|]. apply flag_eq. apply (Xmul p d D c C q A n); [pose proof N1; lia|exact (proj1 AQ)].
Qed.
(* tweaking the scalar and tweaking the key agree *)
Theorem tweak_add_agree s t : oksc s -> oksc t -> exists pub pub', eddsa_pubkey_from_scalar p c s = Some pub /\ eddsa_pubkey_from_scalar p c (eddsa_scalar_tweak_add p c s t) = Some pub' /\ eddsa_pubkey_tweak_add p c pub t = Some (pub', true).
Proof.
  intros S T. destruct (scalar_add_ok s t S T) as (S' & V). exists (penc (zm (le_val s) G)), (penc (zm (le_val s + le_val t) G)).
  split; [apply (from_scalar_ok p d D c C); apply S|]. split; [rewrite (from_scalar_ok p d D c C _ (proj1 S') (proj2 S')), V, (emod_zm p d D); reflexivity|].
  rewrite pub_tweak_add_ok by (exact T || apply Mon; exact Gon). rewrite Madd by exact Gon. reflexivity.
Qed.
Theorem tweak_mul_agree s t : oksc s -> oksc t -> le_val t < 16 ^ Z.of_nat (xnsteps (fbits p)) -> exists pub pub', eddsa_pubkey_from_scalar p c s = Some pub /\ eddsa_pubkey_from_scalar p c (eddsa_scalar_tweak_mul p c s t) = Some pub' /\ eddsa_pubkey_tweak_mul p c pub t = Some (pub', true).
Proof.
  intros S T LT. destruct (scalar_mul_ok s t S T) as (S' & V). exists (penc (zm (le_val s) G)), (penc (zm (le_val s * le_val t) G)).
  split; [apply (from_scalar_ok p d D c C); apply S|]. split; [rewrite (from_scalar_ok p d D c C _ (proj1 S') (proj2 S')), V, (emod_zm p d D); reflexivity|].
  rewrite pub_tweak_mul_ok by (exact T || apply Mon; exact Gon). rewrite Z.mod_small by (split; [apply (le_val_range t (proj1 T))|exact LT]). rewrite <- Mmul, Z.mul_comm by exact Gon. reflexivity.
Qed.
(* small order keys give the identity, and torsion does not matter *)
Theorem derive_small A priv : on A -> okpriv priv -> zm h A = zero -> eddsa_derive p c (penc A) priv = Ok (penc zero, false).
Proof.
  intros O OP E. destruct (derive_ok A priv O OP) as (b & ED & F). destruct (clamp_h p d D (le_val (firstn adj (pdigest p d priv)))) as (q & EC). fold (secret priv) in EC. assert (Z0 : zm (secret priv) A = zero) by (rewrite EC, Mmul, E, Me by exact O; reflexivity).
  rewrite ED, Z0. destruct b; [|reflexivity]. destruct (proj1 F eq_refl). exact Z0.
Qed.
Theorem derive_torsion A T priv : on A -> on T -> okpriv priv -> zm h T = zero -> eddsa_derive p c (penc (add A T)) priv = eddsa_derive p c (penc A) priv.
Proof.
  intros OA OT OP E. destruct (derive_ok _ priv (Aon _ _ OA OT) OP) as (b & ED & F). destruct (derive_ok A priv OA OP) as (b' & ED' & F'). destruct (clamp_h p d D (le_val (firstn adj (pdigest p d priv)))) as (q & EC). fold (secret priv) in EC.
  assert (Z0 : zm (secret priv) (add A T) = zm (secret priv) A). { rewrite (m_op p Pp a dd K) by assumption. rewrite (f_equal (fun k => zm k T) EC), Mmul, E, Me by exact OT. apply (a_inf p Pp a dd K). apply Mon. exact OA. }
  rewrite Z0 in ED, F. rewrite ED, ED'. do 2 f_equal. destruct b, b'; try reflexivity; [symmetry; apply F', F; reflexivity|apply F, F'; reflexivity].
Qed.
(* ---- tweaked signatures ---- *)
Definition tweak_prefix (priv tweak : list Z) : list Z := firstn adj (hash_value (k_hash p d) (prefix p d priv ++ tweak) adj).
Theorem sign_tweak_ok f msg priv tweak ph ctx (v : Z) : okb msg -> flag ph ctx -> okpriv priv -> oksc tweak -> (size_of (k_hash p d) adj <= rate_of (k_hash p d))%nat ->
  (forall s, oksc s -> le_val s = secret priv -> oksc (f c s tweak) /\ le_val (f c s tweak) = v) ->
  eddsa_sign_tweak p f c msg priv tweak ph ctx = Ok (esign p d v (tweak_prefix priv tweak) msg ph ctx).
Proof.
  intros OM F O (BT & LT) SR FV. unfold eddsa_sign_tweak. destruct (expand_ok p d D c C priv O) as (s & -> & B & L & V). cbn [bind fst snd]. destruct (digest_ok p d D c C priv O) as (_ & Bd & Ld).
  assert (Lp : length (prefix p d priv) = adj) by (unfold prefix; rewrite firstn_length, skipn_length; lia). assert (Bp : bytes (prefix p d priv)) by (apply bytes_firstn, bytes_skipn; exact Bd).
  rewrite (xssize_eq p d D c C), (firstn_all2 tweak), (ex_hash _ _ _ C), (adj_eq p) by lia. pose proof (adj_ge p) as AG.
  assert (OK : Forall okb [prefix p d priv; tweak]). { constructor; [apply (okb_short p d D); [exact Bp|lia]|]. constructor; [apply (okb_short p d D); [exact BT|lia]|constructor]. }
  rewrite (init_val (k_hash p d) _ adj OK SR). cbn [bind concat]. rewrite app_nil_r. destruct (FV s (conj B L) V) as ((B' & L') & V'). assert (BB : bytes (prefix p d priv ++ tweak)) by (apply bytes_app; split; assumption).
  destruct (hash_value_ok (k_hash p d) (prefix p d priv ++ tweak) adj BB) as (HL & HB). rewrite (sign_scalar_ok p d D c C); try assumption. rewrite V'. reflexivity.
Qed.
End P.
