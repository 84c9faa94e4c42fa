(* C66, C67, C69 (ECDSA part), C78: the Weierstrass context and ECDSA of ecc.c. *)
From Coq Require Import Znumtheory.
From Verif.Base Require Import Prelude.
From Verif.Spec Require Import DerSpec HashSpec EcSpec DsaSpec EcdsaSpec.
From Verif.Model Require Import Encoding Asn1 Hash Field EcScalar Wei Ecdsa Primes.
From Verif.Proof Require Import Asn1Proof Cong PrimesProof FieldProof GrpMul EcScalarProof WeiProof WeiMul WeiCtx EcCodec DsaProof EcdsaProof EcdsaKeys.
From Verif.Props Require Import WeiProps.
Section C.
Variable p : positive.
Local Notation fe := (fe p).
Local Notation P := (Zpos p).
(* any curve satisfying good_def (primes p and n, nonsingular, G of order n, the constants of an endomorphism right) with
   n < 2^1024, and any context made by wei_init and any number of wei_randomize calls *)
Variable d : wei_def p.
Hypothesis D : good_def p d.
Variable c : wei p.
Hypothesis C : context p d c.
Local Notation n := (d_n p d).
Local Notation a := (d_a p d).
Local Notation b := (d_b p d).
Local Notation on := (on p a b).
Local Notation add := (add p a).
(* the multiple k Q of a point, by repeated addition *)
Local Notation zm := (zm p a).
Local Notation G := (Aff (d_x p d) (d_y p d)).
Local Notation CO := (context_ok p d D c C).
Hypothesis small_n : n < 2 ^ 1024.

(* ---- C78 ---- *)
(* the tables can always be built *)
Theorem C78_init : exists c0, wei_init p d = Some c0.
Proof. destruct (init_ok p d D) as (c0 & E & _). exists c0. exact E. Qed.
(* base point, variable point, double and multi multiplications, for every blinding *)
Theorem C78_mul_g k : wpoint p a b (mul_g p c k) (zm k G).
Proof. apply wpoint_iff, (Mul_g p d D c CO). Qed.
Theorem C78_mul q Q k : 0 <= k < n -> wpoint p a b q Q -> wpoint p a b (mul p c q k) (zm k Q).
Proof. intros K W. apply wpoint_iff, (Mul p d D c CO); [exact K|apply wpoint_iff; exact W]. Qed.
Theorem C78_mul_double k1 q Q k2 : 0 <= k1 < n -> 0 <= k2 < n -> wpoint p a b q Q -> exists r, mul_double p c k1 q k2 = Some r /\ wpoint p a b r (add (zm k1 G) (zm k2 Q)).
Proof. intros K1 K2 W. apply wpoint_iff in W. destruct (Mdouble p d D c CO k1 q Q k2 K1 K2 W) as (r & E & R). exists r. split; [exact E|]. apply wpoint_iff. exact R. Qed.
(* the sum of scalar multiples of a list of points *)
Fixpoint msum (l : list (Z * point fe)) : point fe := match l with [] => Inf | (k, Q) :: t => add (zm k Q) (msum t) end.
Theorem C78_mul_multi k0 l Ps : 0 <= k0 < n -> Forall2 (fun t u => snd t = fst u /\ 0 <= fst u < n /\ wpoint p a b (fst t) (snd u)) l Ps ->
  exists r, jmul_multi p c k0 l = Some r /\ jpoint p a b r (add (zm k0 G) (msum Ps)).
Proof.
  intros K F. destruct (Jmulti p d D c CO k0 l (map (fun u => (snd u, fst u)) Ps) K) as (r & E & R).
  - induction F as [|t u l Ps (E & R & W) F IH]; [constructor|]. cbn [map]. constructor; [|exact IH]. apply wpoint_iff in W. unfold term. cbn [fst snd]. rewrite E. repeat split; try assumption; lia.
  - exists r. split; [exact E|]. apply jpoint_iff. assert (EM : forall L, msum L = WeiMul.msum p a (map (fun u => (snd u, fst u)) L)); [|rewrite EM; exact R].
    induction L as [|[k Q] L IH]; [reflexivity|]. cbn [msum map WeiMul.msum fst snd]. rewrite IH. reflexivity.
Qed.
(* ---- C66 ---- *)
Local Notation accepts := (ecdsa_accepts fe (@fv p) add zm G n).
(* square roots are computed in the model for p = 3 mod 4 *)
Local Notation readable pub := (compressed pub -> P mod 4 = 3).
(* a point encoding is accepted exactly when it is a SEC 1 encoding of a point of the curve *)
Theorem C66_import_exact raw : bytes raw -> readable raw -> exists q ok, wge_import p c raw = Some (q, ok) /\
  (ok = true <-> exists x y, on (Aff x y) /\ sec1 P (fv x) (fv y) raw) /\ (forall x y, on (Aff x y) -> sec1 P (fv x) (fv y) raw -> q = MkW x y false).
Proof.
  intros B M. destruct (import_sound p d D c CO raw B M) as (q & ok & E & _ & S). exists q, ok. split; [exact E|]. split; [split|].
  - intros K. destruct (S K) as (x & y & O & X & _). exists x, y. split; [exact O|exact X].
  - intros (x & y & O & X). pose proof (import_complete p d D c CO x y raw M O X) as E'. rewrite E' in E. congruence.
  - intros x y O X. pose proof (import_complete p d D c CO x y raw M O X) as E'. rewrite E' in E. congruence.
Qed.
(* verification accepts exactly the low-s signatures of SEC 1 4.1.4 *)
Theorem C66_verify_exact msg r s pub : bytes msg -> bytes r -> bytes s -> bytes pub -> length r = octs n -> length s = octs n -> readable pub ->
  exists res, ecdsa_verify p c msg (r ++ s) pub = Some res /\
  (res = true <-> exists x y, on (Aff x y) /\ sec1 P (fv x) (fv y) pub /\ be_val s <= n / 2 /\ accepts (Aff x y) (bits2int n msg mod n) (be_val r) (be_val s)).
Proof. exact (verify_ok p d D c CO msg r s pub). Qed.
(* a signature is made with the first usable RFC 6979 nonce, satisfies the signing equation and has a low s *)
Theorem C66_sign fuel msg priv sig param : bytes msg -> bytes priv -> ecdsa_sign p fuel c msg priv = Ok (sig, param, true) ->
  let x := be_val priv in let m := bits2int n msg mod n in let cand j := rfc_candidate (d_hash p d) n j (rfc_init (d_hash p d) (i2o n x) (i2o n m)) in
  0 < x < n /\ exists i X Y r s (neg : bool), let k := cand i in let s' := if neg then n - s else s in
    0 < k < n /\ zm k G = Aff X Y /\ r = fv X mod n /\ 0 < r /\ (s * k) mod n = (m + r * x) mod n /\ 0 <= s' <= n / 2 /\
    (forall j, (j < i)%nat -> ~ (0 < cand j < n /\ exists X Y, zm (cand j) G = Aff X Y /\ fv X mod n <> 0)) /\
    sig = i2o n r ++ i2o n s' /\ param = (if fv X <? n then 0 else 2) + (if xorb (fe_is_odd Y) neg then 1 else 0).
Proof.
  intros Bm Bp E. destruct (sign_spec p d D c CO small_n fuel msg priv sig param Bm Bp E) as (X0 & i & X & Y & r & s & ng & K & (S1 & S2 & S3 & S4) & R & U & F & _ & -> & ->). cbv zeta. split; [exact X0|].
  exists i, X, Y, r, s, ng. split; [exact K|]. split; [exact S1|]. split; [exact S2|]. split; [apply R|]. split; [exact S4|]. split; [exact F|]. split; [exact U|]. split; reflexivity.
Qed.
(* signing ends as soon as some candidate is usable; it reports whether the key was valid *)
Theorem C66_sign_total fuel msg priv i : bytes msg -> bytes priv ->
  let x := if be_val priv <? n then be_val priv else 0 in let m := bits2int n msg mod n in let k := rfc_candidate (d_hash p d) n i (rfc_init (d_hash p d) (i2o n x) (i2o n m)) in
  0 < k < n -> (exists X Y, zm k G = Aff X Y /\ fv X mod n <> 0) -> (i < fuel)%nat ->
  exists sig param, ecdsa_sign p fuel c msg priv = Ok (sig, param, (be_val priv <? n) && negb (be_val priv =? 0)).
Proof. intros Bm Bp x m k K U L. exact (sign_total p d D c CO small_n fuel msg priv i Bm Bp (conj K U) L). Qed.
(* a signature verifies under every encoding of the key, unless its s is zero *)
Theorem C66_sign_verifies fuel msg priv sig param X Y pub : bytes msg -> bytes priv -> ecdsa_sign p fuel c msg priv = Ok (sig, param, true) -> be_val (skipn (octs n) sig) <> 0 ->
  zm (be_val priv) G = Aff X Y -> sec1 P (fv X) (fv Y) pub -> readable pub -> ecdsa_verify p c msg sig pub = Some true.
Proof. exact (sign_verify p d D c CO small_n fuel msg priv sig param X Y pub). Qed.
(* and the signer's key is recovered *)
Theorem C66_sign_recovers fuel msg priv sig param compact : bytes msg -> bytes priv -> P mod 4 = 3 -> wei_has_small_gap p n = true ->
  ecdsa_sign p fuel c msg priv = Ok (sig, param, true) -> be_val (skipn (octs n) sig) <> 0 ->
  exists X Y, zm (be_val priv) G = Aff X Y /\ ecdsa_recover p c msg sig param compact = Some (sec1_enc P compact (fv X) (fv Y), true).
Proof. exact (sign_recover p d D c CO small_n fuel msg priv sig param compact). Qed.
(* normalisation gives the low form, and for keys of order n acceptance does not depend on which form is used *)
Theorem C66_normalize r s : 0 <= r < n -> 0 <= s < n ->
  exists s', ecdsa_sig_normalize p c (i2o n r ++ i2o n s) = (i2o n r ++ i2o n s', true) /\ s' <= n / 2 /\ (s' = s \/ 0 < s < n /\ s' = n - s) /\ ecdsa_is_low_s p c (i2o n r ++ i2o n s') = true.
Proof. exact (normalize_ok p d D c CO r s). Qed.
Theorem C66_is_low r s : 0 <= r < n -> 0 <= s < n -> ecdsa_is_low_s p c (i2o n r ++ i2o n s) = true <-> s <= n / 2.
Proof. exact (is_low_iff p d D c CO r s). Qed.
Theorem C66_negated_s A m r s : on A -> zm n A = Inf -> accepts A m r s -> accepts A m r (n - s).
Proof. exact (accepts_neg p d D A m r s). Qed.

(* ---- C67 ---- *)
(* der_pair r s is the DER form SEQUENCE { INTEGER r, INTEGER s } *)
Theorem C67_roundtrip r s : 0 <= r < n -> 0 <= s < n -> exists der, ecdsa_sig_export p c (i2o n r ++ i2o n s) = Some (der, true) /\ der_pair r s der /\
  ecdsa_sig_import p c der = ROk (i2o n r ++ i2o n s, true) [] /\ forall junk, bytes junk -> ecdsa_sig_import_lax p c (der ++ junk) = ROk (i2o n r ++ i2o n s, true) [].
Proof.
  intros R S. destruct (export_import p d D c CO small_n r s R S) as (der & E & I & L). exists der. split; [exact E|]. split; [|split; assumption].
  destruct (export_ok p d D c CO small_n r s R S) as (der' & E' & DP & _). unfold sig_of in E, E'. assert (der' = der) by congruence. subst der'. exact DP.
Qed.
(* strict import decides DER, never reads out of bounds, and clears the output on failure *)
Theorem C67_strict_exact der : bytes der -> exists sig ok, ecdsa_sig_import p c der = ROk (sig, ok) [] /\ (ok = true <-> exists r s, 0 <= r < n /\ 0 <= s < n /\ der_pair r s der) /\
  (forall r s, 0 <= r < n -> 0 <= s < n -> der_pair r s der -> sig = i2o n r ++ i2o n s) /\ (ok = false -> sig = i2o n 0 ++ i2o n 0).
Proof. exact (import_strict p d D c CO small_n der). Qed.
Theorem C67_canonical der sig rest : bytes der -> ecdsa_sig_import p c der = ROk (sig, true) rest -> ecdsa_sig_export p c sig = Some (der, true).
Proof. exact (import_export p d D c CO small_n der sig rest). Qed.
Theorem C67_lax_in_bounds der : bytes der -> ecdsa_sig_import_lax p c der <> ROob.
Proof. intros B. pose proof (decode_safe p d c CO der false B) as S. unfold ecdsa_sig_import_lax, sig_import. destruct (ecdsa_decode_der p c der false) as [[r s] rest| |]; [discriminate|discriminate|contradiction]. Qed.

(* ---- C69 ---- *)
Theorem C69_ecdsa_derive_agrees x y c1 c2 compact : (c1 = true \/ c2 = true -> P mod 4 = 3) -> 0 < x < n -> 0 < y < n ->
  exists X Y, zm (x * y) G = Aff X Y /\
  ecdsa_derive p c (fst (ecdsa_pubkey_create p c (i2o n y) c1)) (i2o n x) compact = Some (sec1_enc P compact (fv X) (fv Y), true) /\
  ecdsa_derive p c (fst (ecdsa_pubkey_create p c (i2o n x) c2)) (i2o n y) compact = Some (sec1_enc P compact (fv X) (fv Y), true).
Proof. exact (derive_agree p d D c CO x y c1 c2 compact). Qed.
(* the public key of x is x G *)
Theorem C69_create x compact : 0 < x < n -> exists X Y, zm x G = Aff X Y /\ on (Aff X Y) /\ ecdsa_pubkey_create p c (i2o n x) compact = (sec1_enc P compact (fv X) (fv Y), true).
Proof. exact (create_eq p d D c CO x compact). Qed.
Lemma created x c1 : (c1 = true -> P mod 4 = 3) -> 0 < x < n -> exists X Y, zm x G = Aff X Y /\ on (Aff X Y) /\ sec1 P (fv X) (fv Y) (fst (ecdsa_pubkey_create p c (i2o n x) c1)) /\ readable (fst (ecdsa_pubkey_create p c (i2o n x) c1)).
Proof.
  intros M Hx. destruct (create_eq p d D c CO x c1 Hx) as (X & Y & E & O & ->). exists X, Y. split; [exact E|]. split; [exact O|]. cbn [fst]. split; [apply sec1_enc_ok|]. intros K. apply M. exact (enc_compressed p c1 _ _ K).
Qed.
(* tweaking the private key and the public key give the same key, and fail together *)
Theorem C69_tweak_add x t c1 compact : (c1 = true -> P mod 4 = 3) -> 0 < x < n -> 0 <= t < n -> exists out priv' ok,
  ecdsa_privkey_tweak_add p c (i2o n x) (i2o n t) = (priv', ok) /\ priv' = i2o n ((x + t) mod n) /\
  ecdsa_pubkey_tweak_add p c (fst (ecdsa_pubkey_create p c (i2o n x) c1)) (i2o n t) compact = Some (out, ok) /\
  (ok = true -> ecdsa_pubkey_create p c priv' compact = (out, true)) /\ (ok = false <-> (x + t) mod n = 0).
Proof.
  intros M Hx Ht. destruct (created x c1 M Hx) as (X & Y & E & O & S & R). pose proof (n0 p d D) as N0. pose proof (Z.mod_pos_bound (x + t) n N0) as B.
  assert (EA : WeiProof.padd' p a (Aff X Y) (zm t G) = zm ((x + t) mod n) G) by (rewrite (mod_zm p d D), <- E; symmetry; apply (m_add p (gd_p _ _ D) (gd_3 _ _ D) a b (d_h p d) (gd_ns _ _ D) (gd_no2 _ _ D)); exact (G_on p d D)).
  exists (fst (penc p compact (zm ((x + t) mod n) G))), (i2o n ((x + t) mod n)), (negb ((x + t) mod n =? 0)). split; [exact (priv_tweak_add p d D c CO x t Hx Ht)|]. split; [reflexivity|].
  destruct (Z.eqb_spec ((x + t) mod n) 0) as [Z0|Z0]; cbn [negb].
  - split; [|split; [discriminate|tauto]]. rewrite (pub_tweak_add p d D c CO X Y _ t compact O S R Ht). unfold WeiCtx.G; rewrite EA, Z0. reflexivity.
  - split; [|split; [|split; [discriminate|contradiction]]].
    + rewrite (pub_tweak_add p d D c CO X Y _ t compact O S R Ht). unfold WeiCtx.G; rewrite EA. destruct (mulG p d D ((x + t) mod n)) as (u & v & Em & _); [lia|]. unfold WeiCtx.G in *. rewrite Em. reflexivity.
    + intros _. rewrite (create_enc p d D c CO) by lia. destruct (mulG p d D ((x + t) mod n)) as (u & v & Em & _); [lia|]. unfold WeiCtx.G in *. rewrite Em. reflexivity.
Qed.
Theorem C69_tweak_mul x t c1 compact : (c1 = true -> P mod 4 = 3) -> 0 < x < n -> 0 <= t < n -> exists out priv' ok,
  ecdsa_privkey_tweak_mul p c (i2o n x) (i2o n t) = (priv', ok) /\ priv' = i2o n ((x * t) mod n) /\
  ecdsa_pubkey_tweak_mul p c (fst (ecdsa_pubkey_create p c (i2o n x) c1)) (i2o n t) compact = Some (out, ok) /\
  (ok = true -> ecdsa_pubkey_create p c priv' compact = (out, true)) /\ (ok = false <-> t = 0).
Proof.
  intros M Hx Ht. destruct (created x c1 M Hx) as (X & Y & E & O & S & R). pose proof (n0 p d D) as N0. pose proof (Z.mod_pos_bound (x * t) n N0) as B.
  assert (EA : zm t (Aff X Y) = zm ((x * t) mod n) G) by (rewrite (mod_zm p d D), <- E, (Z.mul_comm x t); symmetry; apply (m_mul p (gd_p _ _ D) (gd_3 _ _ D) a b (d_h p d) (gd_ns _ _ D) (gd_no2 _ _ D)); exact (G_on p d D)).
  exists (fst (penc p compact (zm ((x * t) mod n) G))), (i2o n ((x * t) mod n)), (negb ((x * t) mod n =? 0)). split; [exact (priv_tweak_mul p d D c CO x t Hx Ht)|]. split; [reflexivity|].
  destruct (Z.eqb_spec ((x * t) mod n) 0) as [Z0|Z0]; cbn [negb].
  - split; [|split; [discriminate|split; [intros _|reflexivity]]]; [rewrite (pub_tweak_mul p d D c CO X Y _ t compact O S R Ht); rewrite EA, Z0; reflexivity|].
    destruct (Z.eq_dec t 0) as [|NT]; [assumption|]. destruct (nz_prod p d D x t Hx); [lia|exact Z0].
  - split; [|split; [|split; [discriminate|intros ->; rewrite Z.mul_0_r, Z.mod_0_l in Z0 by lia; contradiction]]].
    + rewrite (pub_tweak_mul p d D c CO X Y _ t compact O S R Ht). rewrite EA. destruct (mulG p d D ((x * t) mod n)) as (u & v & Em & _); [lia|]. unfold WeiCtx.G in Em. rewrite Em. reflexivity.
    + intros _. rewrite (create_enc p d D c CO) by lia. destruct (mulG p d D ((x * t) mod n)) as (u & v & Em & _); [lia|]. unfold WeiCtx.G in *. rewrite Em. reflexivity.
Qed.
Theorem C69_negate x c1 compact : (c1 = true -> P mod 4 = 3) -> 0 < x < n -> ecdsa_privkey_negate p c (i2o n x) = (i2o n (n - x), true) /\
  ecdsa_pubkey_negate p c (fst (ecdsa_pubkey_create p c (i2o n x) c1)) compact = Some (ecdsa_pubkey_create p c (i2o n (n - x)) compact).
Proof.
  intros M Hx. split; [exact (priv_negate p d D c CO x Hx)|]. destruct (created x c1 M Hx) as (X & Y & E & O & S & R). rewrite (pub_negate p d D c CO X Y _ compact O S R), (create_enc p d D c CO) by lia. do 2 f_equal.
  rewrite <- E. unfold WeiCtx.G. replace (n - x) with (- x + 1 * n) by ring. transitivity (zm (- x) G).
  - symmetry. apply (m_neg p (gd_p _ _ D) (gd_3 _ _ D) a b (d_h p d) (gd_ns _ _ D) (gd_no2 _ _ D)). exact (G_on p d D).
  - apply (eqm_zm p d D). rewrite Z.mod_add; [reflexivity|lia].
Qed.
Theorem C69_invert x : 0 < x < n -> exists w, ecdsa_privkey_invert p c (i2o n x) = (i2o n w, true) /\ 0 < w < n /\ (x * w) mod n = 1.
Proof. exact (priv_invert p d D c CO x). Qed.
(* sums of keys *)
Theorem C69_combine l Q compact : key_sum p d l Q -> ecdsa_pubkey_combine p c l compact = Some (match Q with Aff x y => (sec1_enc P compact (fv x) (fv y), true) | Inf => (sec1_enc P compact 0 0, false) end).
Proof. exact (pub_combine p d D c CO l Q compact). Qed.
End C.

(* the curve of C65_ex with SHA-256 *)
Definition d43 : wei_def c43 := MkWeiDef (fe_of c43 0) (fe_of c43 7) 1 31 MD4 SHA256 (fe_of c43 2) (fe_of c43 12) None.
Lemma d43_good : good_def c43 d43.
Proof.
  constructor; cbn [d_a d_b d_h d_n d_x d_y d_endo d43]; try exact I.
  - exact (cv_prime _ _ _ _ c43_ok).
  - reflexivity.
  - exact (cv_ns _ _ _ _ c43_ok).
  - exact (cv_no2 _ _ _ _ c43_ok).
  - apply isprime_spec; [reflexivity|]. vm_compute. reflexivity.
  - reflexivity.
  - apply fe_eq. vm_compute. reflexivity.
  - vm_compute. reflexivity.
Qed.
Definition fixed43 : list (wge c43) := match wge_fixed_points_var c43 (fe_of c43 0) 1 5 (w43 2 12) with Some l => l | None => [] end.
Definition e43 (naf : list (wge c43)) : wei c43 := MkWei (fe_of c43 0) (fe_of c43 7) 1 31 MD4 SHA256 (w43 2 12) fixed43 naf 0 (jge_zero c43) None.
Lemma init_shape p (d : wei_def p) g fixed : good_def p d -> d_endo p d = None -> MkW (d_x p d) (d_y p d) false = g ->
  wge_fixed_points_var p (d_a p d) (d_h p d) (sc_bitlen (d_n p d)) g = Some fixed ->
  exists naf, wei_init p d = Some (MkWei (d_a p d) (d_b p d) (d_h p d) (d_n p d) (d_hash p d) (d_xof p d) g fixed naf 0 (jge_zero p) None).
Proof.
  intros D EN EG EF. destruct (C78_init p d D) as (c0 & E). unfold wei_init in *. cbv zeta in *. rewrite EG, EF, EN in *.
  destruct (wge_naf_points_var p (d_a p d) (d_h p d) g NAF_WIDTH_PRE) as [naf|]; [|discriminate E]. exists naf. reflexivity.
Qed.
Lemma fixed43_ok : wge_fixed_points_var c43 (fe_of c43 0) 1 5 (w43 2 12) = Some fixed43.
Proof.
  unfold fixed43. destruct (wge_fixed_points_var c43 (fe_of c43 0) 1 5 (w43 2 12)) eqn:E; [reflexivity|]. exfalso.
  apply (f_equal (fun o => match o with Some _ => true | None => false end)) in E. vm_compute in E. discriminate E.
Qed.
(* its context, whatever the 1024 entries of the wide table are *)
Lemma init43 : exists naf, wei_init c43 d43 = Some (e43 naf).
Proof. exact (init_shape c43 d43 (w43 2 12) fixed43 d43_good eq_refl eq_refl fixed43_ok). Qed.
Definition ok43 (r : outcome (list Z * Z * bool)) (sig : list Z) (par : Z) : bool :=
  match r with Ok (s, q, true) => (q =? par) && (length s =? length sig)%nat && forallb (fun '(u, v) => u =? v) (combine s sig) | _ => false end.
(* C66 does not hold as stated: nothing in ecdsa_sign rejects s = 0, and such a signature is refused by ecdsa_verify under
   every key. Message 64, key 4: m = 8, r = 29 and m + r x = 124 = 4 n. *)
Theorem C66_zero_s_refuted : exists c msg priv sig param, context c43 d43 c /\ bytes msg /\ bytes priv /\ ecdsa_sign c43 5 c msg priv = Ok (sig, param, true) /\
  forall pub, bytes pub -> ecdsa_verify c43 c msg sig pub = Some false.
Proof.
  destruct init43 as (naf & E). pose proof (ctx_init _ _ _ E) as C. exists (e43 naf), [64], [4], [29; 0], 1. split; [exact C|].
  assert (B : forall v, 0 <= v < 256 -> bytes [v]) by (intros v V; repeat constructor; exact (proj1 V) || exact (proj2 V)).
  split; [apply B; lia|]. split; [apply B; lia|]. split; [vm_compute; reflexivity|]. intros pub Bp.
  vm_compute. reflexivity.
Qed.
(* message 56, key 9: a signature with a negated s and r reduced modulo n (the abscissa 34 is above n) *)
Lemma sign43 naf : ecdsa_sign c43 5 (e43 naf) [56] [9] = Ok ([3; 2], 3, true).
Proof. vm_compute. reflexivity. Qed.
Example C66_ex : exists c, context c43 d43 c /\ ecdsa_sign c43 5 c [56] [9] = Ok ([3; 2], 3, true) /\ ecdsa_pubkey_create c43 c [9] true = ([2; 20], true) /\
  ecdsa_verify c43 c [56] [3; 2] [2; 20] = Some true /\ ecdsa_recover c43 c [56] [3; 2] 3 true = Some ([2; 20], true) /\ ecdsa_verify c43 c [56] [3; 29] [2; 20] = Some false.
Proof.
  destruct init43 as (naf & E). pose proof (ctx_init _ _ _ E) as C. exists (e43 naf). split; [exact C|]. pose proof (sign43 naf) as S. split; [exact S|].
  assert (Cr : ecdsa_pubkey_create c43 (e43 naf) [9] true = ([2; 20], true)) by (vm_compute; reflexivity). split; [exact Cr|].
  assert (B : forall v, 0 <= v < 256 -> bytes [v]) by (intros v V; repeat constructor; exact (proj1 V) || exact (proj2 V)). assert (SM : d_n c43 d43 < 2 ^ 1024) by (vm_compute; reflexivity).
  destruct (C69_create c43 d43 d43_good (e43 naf) C 9 true) as (X & Y & EX & O & EC); [cbn; lia|]. change (i2o (d_n c43 d43) 9) with [9] in EC. rewrite Cr in EC. assert (EP : [2; 20] = sec1_enc (Zpos c43) true (fv X) (fv Y)) by congruence.
  split; [|split].
  - apply (C66_sign_verifies c43 d43 d43_good (e43 naf) C SM 5 [56] [9] [3; 2] 3 X Y); try (apply B; lia); try exact S; try reflexivity; [vm_compute; discriminate|exact EX|rewrite EP; apply sec1_enc_ok].
  - destruct (C66_sign_recovers c43 d43 d43_good (e43 naf) C SM 5 [56] [9] [3; 2] 3 true) as (X' & Y' & EX' & R); try (apply B; lia); try exact S; try reflexivity; [vm_compute; discriminate|].
    change (be_val [9]) with 9 in EX'. assert (Aff X' Y' = Aff X Y) as EQ by congruence. injection EQ as -> ->. rewrite EP. exact R.
  - vm_compute. reflexivity.
Qed.
(* 0x30 0x06 0x02 0x01 0x01 0x02 0x01 0x06 *)
Example C67_ex : exists c, context c43 d43 c /\ ecdsa_sig_export c43 c [1; 6] = Some ([48; 6; 2; 1; 1; 2; 1; 6], true) /\
  ecdsa_sig_import c43 c [48; 6; 2; 1; 1; 2; 1; 6] = ROk ([1; 6], true) [] /\ ecdsa_sig_import c43 c [48; 7; 2; 2; 0; 1; 2; 1; 6] = ROk ([0; 0], false) [] /\
  ecdsa_sig_import_lax c43 c [48; 7; 2; 2; 0; 1; 2; 1; 6] = ROk ([1; 6], true) [] /\ ecdsa_sig_import c43 c [48; 6; 2; 1; 31; 2; 1; 6] = ROk ([0; 0], false) [].
Proof. destruct init43 as (naf & E). exists (e43 naf). split; [exact (ctx_init _ _ _ E)|]. vm_compute. repeat split; reflexivity. Qed.
Example C69_ecdsa_ex : exists c, context c43 d43 c /\ fst (ecdsa_pubkey_create c43 c [9] true) = [2; 20] /\ fst (ecdsa_pubkey_create c43 c [23] false) = [4; 32; 3] /\
  ecdsa_derive c43 c [4; 32; 3] [9] true = ecdsa_derive c43 c [2; 20] [23] true /\ ecdsa_privkey_tweak_add c43 c [9] [22] = ([0], false) /\
  ecdsa_pubkey_tweak_add c43 c [2; 20] [22] true = Some ([2; 0], false) /\ ecdsa_privkey_tweak_add c43 c [9] [14] = ([23], true) /\ ecdsa_pubkey_tweak_add c43 c [2; 20] [14] false = Some ([4; 32; 3], true).
Proof. destruct init43 as (naf & E). exists (e43 naf). split; [exact (ctx_init _ _ _ E)|]. vm_compute. repeat split; reflexivity. Qed.
Example C78_ex naf : show (mul_g c43 (e43 naf) 23) = (32, 3, false) /\ show (mul c43 (e43 naf) (w43 20 40) 2) = show (mul_g c43 (e43 naf) 18) /\ winf (mul_g c43 (e43 naf) 31) = true /\
  show (mul_g c43 (wei_randomize c43 (e43 naf) 11) 23) = (32, 3, false).
Proof. vm_compute. repeat split; reflexivity. Qed.

(* the axioms of every theorem above, listed at once *)
Definition EcdsaProps_all := (@C78_init, @C78_mul_g, @C78_mul, @C78_mul_double, @C78_mul_multi, @C66_import_exact, @C66_verify_exact, @C66_sign,
  @C66_sign_total, @C66_sign_verifies, @C66_sign_recovers, @C66_normalize, @C66_is_low, @C66_negated_s, @C67_roundtrip, @C67_strict_exact, @C67_canonical,
  @C67_lax_in_bounds, @C69_ecdsa_derive_agrees, @C69_create, @C69_tweak_add, @C69_tweak_mul, @C69_negate, @C69_invert, @C69_combine, @C66_zero_s_refuted).
Print Assumptions EcdsaProps_all.
