(* C65 (Montgomery part), C69 (ecdh), C81: the Montgomery points, the ladder and the ECDH of ecc.c. *)
From Coq Require Import Znumtheory.
From Verif.Base Require Import Prelude.
From Verif.Spec Require Import EcSpec MontSpec DsaSpec.
From Verif.Model Require Import Encoding Bio NumTheory Field EcScalar Wei Ecdsa Eddsa Mont.
From Verif.Proof Require Import PrimesProof FieldProof EcCodec GrpMul MontProof EcdhProof.
From Verif.Props Require Import EdwardsProps.
(* ---- the curve B y^2 = x^3 + A x^2 + x, as in Spec/MontSpec.v, over the field of p elements ---- *)
Section Curve.
Variable p : positive.
Hypothesis Pp : prime (Zpos p).
Hypothesis P5 : 3 < Zpos p.
Local Notation fe := (fe p).
Variables A B : fe.
Hypothesis K : mont_ok fe f0 f1 fe_add fe_mul A B.
Definition m_on : point fe -> Prop := on_mont fe fe_add fe_mul A B.
Definition m_add : point fe -> point fe -> point fe := madd fe f0 f1 fe_add fe_mul fe_sub (fe_div p) (fe_eq_dec p) A B.
Definition m_neg : point fe -> point fe := pneg fe fe_neg.
Definition m_nmul : Z -> point fe -> point fe := zmul (point fe) m_add Inf m_neg.
Theorem C65_mont_group : m_on Inf /\ (forall P, m_on P -> m_on (m_neg P) /\ m_add Inf P = P /\ m_add P (m_neg P) = Inf) /\
  (forall P Q, m_on P -> m_on Q -> m_on (m_add P Q) /\ m_add P Q = m_add Q P) /\
  (forall P Q R, m_on P -> m_on Q -> m_on R -> m_add (m_add P Q) R = m_add P (m_add Q R)).
Proof.
  pose proof (mlaw p Pp P5 A B K) as L. refine (conj (gl_e _ _ _ _ _ L) (conj _ (conj _ (gl_assoc _ _ _ _ _ L)))).
  - intros P H. exact (conj (gl_inv _ _ _ _ _ L P H) (conj (gl_id _ _ _ _ _ L P H) (gl_neg _ _ _ _ _ L P H))).
  - intros P Q H H'. exact (conj (gl_op _ _ _ _ _ L P Q H H') (gl_comm _ _ _ _ _ L P Q H H')).
Qed.
(* what mont_init stores for 1 / B and (A + 2) / 4 *)
Variables bi a24 : fe.
Hypothesis HB : mont_bi p B = Some bi.
Hypothesis HA : mont_a24 p A = Some a24.
Lemma HB' : bi = fe_inv B.
Proof. unfold mont_bi in HB. rewrite (invert_var_eq p Pp) in HB by exact (p3 p P5). unfold fe_invert in HB. congruence. Qed.
Add Ring fring : (ring_th p).
Lemma HA' : fe_mul (fe_mul (fe_add f1 f1) (fe_add f1 f1)) a24 = fe_add A (fe_add f1 f1).
Proof.
  unfold mont_a24 in HA. rewrite (invert_var_eq p Pp) in HA by exact (p3 p P5). unfold fe_invert in HA. injection HA as <-. set (f4 := fe_add (fe_add f1 f1) (fe_add f1 f1) : fe). assert (N : f4 <> f0).
  { intros E. pose proof (two_nz p P5) as T. apply (mul_nz p Pp _ _ T T). rewrite <- E. unfold f4. ring. }
  transitivity (fe_mul (fe_add A (fe_add f1 f1)) (fe_mul (fe_inv f4) f4)); [unfold f4; ring|]. rewrite (inv_l p Pp f4 N). ring.
Qed.
(* an affine point: its coordinates, or (0, 0) with the infinity flag *)
Definition m_affine (q : mge p) (Q : point fe) : Prop := match Q with Inf => q = MkM f0 f0 true | Aff x y => q = MkM x y false end.
Lemma affine_iff q Q : mrep p q Q <-> m_affine q Q.
Proof. split; [intros [|x y]; reflexivity|]. destruct Q; cbn; intros ->; constructor. Qed.
Theorem C65_mge_add q r Q R : m_affine q Q -> m_affine r R -> m_affine (mge_add p A B q r) (m_add Q R).
Proof. rewrite <- !affine_iff. exact (mge_add_ok p Pp P5 A B K bi HB' q r Q R). Qed.
Theorem C65_mge_dbl q Q : m_affine q Q -> m_affine (mge_dbl p A B q) (m_add Q Q).
Proof. rewrite <- !affine_iff. exact (mge_dbl_ok p A B K bi HB' q Q). Qed.
Theorem C65_mge_sub q r Q R : m_affine q Q -> m_affine r R -> m_affine (mge_sub p A B q r) (m_add Q (m_neg R)).
Proof. rewrite <- !affine_iff. exact (mge_sub_ok p Pp P5 A B K bi HB' q r Q R). Qed.
Theorem C65_mge_neg q Q : m_affine q Q -> m_affine (mge_neg p q) (m_neg Q).
Proof. rewrite <- !affine_iff. exact (mge_neg_ok p q Q). Qed.
Theorem C65_mge_equal q r Q R : m_affine q Q -> m_affine r R -> mge_equal p q r = true <-> Q = R.
Proof. rewrite <- !affine_iff. exact (mge_equal_ok p q r Q R). Qed.
Theorem C65_mge_validate q Q : m_affine q Q -> mge_validate p A B bi q = true <-> m_on Q.
Proof. rewrite <- !affine_iff. exact (mge_validate_ok p Pp A B K bi HB' q Q). Qed.
Theorem C65_mge_set_xy x y : let '(q, ok) := mge_set_xy p A B bi x y in (ok = true <-> m_on (Aff x y)) /\ m_affine q (if ok then Aff x y else Inf).
Proof. pose proof (set_xy_ok p Pp A B K bi HB' x y) as H. destruct (mge_set_xy p A B bi x y) as [q ok]. rewrite <- affine_iff. exact H. Qed.
(* the point with this x and the wanted parity of y: refused exactly when there is none *)
Theorem C65_mge_set_x x s : Zpos p mod 4 = 3 \/ Zpos p mod 8 = 5 -> s = -1 \/ s = 0 \/ s = 1 -> exists q ok, mge_set_x p A B bi x s = Some (q, ok) /\
  (ok = true <-> exists y, m_on (Aff x y) /\ (s = -1 \/ fv y mod 2 = s)) /\ (ok = true -> exists y, m_on (Aff x y) /\ m_affine q (Aff x y) /\ (s = -1 \/ fv y mod 2 = s)) /\ (ok = false -> m_affine q Inf).
Proof.
  intros PR S. destruct (set_x_ok p Pp P5 A B K bi HB' x s PR S) as (q & ok & E & S1 & S2). exists q, ok. split; [exact E|]. split; [split|split].
  - intros O. destruct (S1 O) as (y & M & _ & SG). exists y. split; assumption.
  - intros (y & M & SG). destruct ok; [reflexivity|]. destruct (S2 eq_refl) as (_ & S3). destruct (S3 y M) as (E1 & E2). subst s y. destruct SG as [C|C]; [discriminate|]. rewrite (fv_f0 p) in C. discriminate C.
  - intros O. destruct (S1 O) as (y & M & R & SG). exists y. rewrite <- affine_iff. exact (conj M (conj R SG)).
  - intros O. rewrite <- affine_iff. exact (proj1 (S2 O)).
Qed.
(* a projective x coordinate: (X : Z) stands for x = X / Z, and Z = 0 for infinity *)
Definition m_proj (q : pge p) (Q : point fe) : Prop := match Q with Inf => pz p q = f0 /\ px p q <> f0 | Aff x _ => pz p q <> f0 /\ px p q = fe_mul x (pz p q) end.
Theorem C65_pge_set_mge q Q : m_affine q Q -> m_proj (pge_set_mge p q) Q.
Proof. rewrite <- affine_iff. exact (prep_mge p Pp q Q). Qed.
Theorem C65_pge_dbl q Q : m_on Q -> m_proj q Q -> m_proj (pge_dbl p a24 q) (m_add Q Q).
Proof. exact (pge_dbl_ok p Pp P5 A B K a24 HA' q Q). Qed.
(* one step of the ladder: 2Q and Q + R from Q, R and R - Q = (x, y), whenever x is not zero *)
Theorem C65_pge_ladder p1 q r x y Q R affine : m_on (Aff x y) -> x <> f0 -> m_proj p1 (Aff x y) -> (affine = true -> pz p p1 = f1) -> m_on Q -> m_on R -> m_add R (m_neg Q) = Aff x y -> m_proj q Q -> m_proj r R ->
  m_proj (fst (pge_ladder p a24 p1 q r affine)) (m_add Q Q) /\ m_proj (snd (pge_ladder p a24 p1 q r affine)) (m_add Q R).
Proof. exact (ladder_ok p Pp P5 A B K a24 HA' p1 q r x y Q R affine). Qed.
Theorem C65_pge_equal q r Q R : m_on Q -> m_on R -> m_proj q Q -> m_proj r R -> pge_equal p q r = true <-> Q = R \/ Q = m_neg R.
Proof. exact (pge_equal_ok p Pp A B K q r Q R). Qed.
Theorem C65_pge_is_zero q Q : m_proj q Q -> pge_is_zero p q = true <-> Q = Inf.
Proof. exact (is_zero_ok p q Q). Qed.
Theorem C65_pge_validate q x : pz p q <> f0 -> px p q = fe_mul x (pz p q) -> pge_validate p A B bi q = true <-> exists y, m_on (Aff x y).
Proof. exact (pge_validate_ok p Pp P5 A B K bi HB' q x). Qed.
Theorem C65_pge_set_x x : snd (pge_set_x p A B bi x) = true <-> exists y, m_on (Aff x y).
Proof. exact (validate_x_iff p Pp P5 A B K bi HB' x). Qed.
Theorem C65_mge_set_pge q Q : Zpos p mod 4 = 3 \/ Zpos p mod 8 = 5 -> m_on Q -> m_proj q Q -> exists r, mge_set_pge p A B bi q (-1) = Some (r, true) /\ (m_affine r Q \/ m_affine r (m_neg Q)).
Proof. intros PR H X. destruct (set_pge_ok p Pp P5 A B K bi HB' q Q PR H X) as (r & E & R). exists r. rewrite <- !affine_iff. exact (conj E R). Qed.
(* ---- C81: the ladder ---- *)
Theorem C81_ladder q x y k affine : m_on (Aff x y) -> x <> f0 -> m_proj q (Aff x y) -> (affine = true -> pz p q = f1) ->
  m_proj (mont_mul p a24 q k affine) (m_nmul (k mod 2 ^ blen (Zpos p)) (Aff x y)).
Proof. pose proof (mul_ok p Pp P5 A B K a24 HA' q x y k affine) as M. rewrite (sc_bitlen_blen (Zpos p) eq_refl : Z.of_nat (fbits p) = _) in M. exact M. Qed.
(* for x = 0, the point of order two, the ladder gives infinity whatever the scalar *)
Theorem C81_ladder_zero q k affine : px p q = f0 \/ pz p q = f0 -> m_proj (mont_mul p a24 q k affine) Inf.
Proof.
  intros Z. destruct (mul_zero_base p a24 q k affine Z) as (Z1 & Z2). split; [|rewrite Z2; exact (f1_nz p Pp)]. unfold pge_is_zero in Z1. destruct (is_zero_spec p (pz p (mont_mul p a24 q k affine))); [assumption|discriminate].
Qed.
(* so it is exact on every point for even scalars, which clamped ones are *)
Theorem C81_ladder_even q x y k affine : m_on (Aff x y) -> m_proj q (Aff x y) -> (affine = true -> pz p q = f1) -> Z.even (k mod 2 ^ blen (Zpos p)) = true ->
  m_proj (mont_mul p a24 q k affine) (m_nmul (k mod 2 ^ blen (Zpos p)) (Aff x y)).
Proof. pose proof (mul_even p Pp P5 A B K a24 HA' q x y k affine) as M. rewrite (sc_bitlen_blen (Zpos p) eq_refl : Z.of_nat (fbits p) = _) in M. exact M. Qed.
End Curve.
(* ---- ECDH over the context of mont_init ---- *)
Section Dh.
Variable p : positive.
Variable d : mont_def p.
(* p and n prime, roots computable, a curve, G of order n, h a power of two, sizes *)
Hypothesis D : good_mont p d.
Variable c : mont p.
Hypothesis X : mont_init p d = Some c.
Local Notation P := (Zpos p).
Local Notation fe := (fe p).
Local Notation A := (w_a p d).
Local Notation B := (w_b p d).
Local Notation h := (w_h p d).
Local Notation n := (w_n p d).
Local Notation G := (Aff (w_x p d) (w_y p d)).
Lemma Cx : mctx_ok p d c.
Proof. destruct (init_ok p d D) as (c' & E & Kc). rewrite X in E. injection E as ->. exact Kc. Qed.
(* RFC 7748: private keys are clamped, public keys are little endian, reduced modulo 2^bits and then modulo p *)
Definition dh_key (priv : list Z) : Prop := bytes priv /\ (octs P <= length priv)%nat.
Definition dh_scalar (priv : list Z) : Z := mont_clamp_spec (blen P) h (le_val (firstn (octs P) priv)).
Definition dh_enc (x : fe) : list Z := le_bytes (octs P) (fv x).
Definition dh_dec (pub : list Z) : fe := fe_of p (le_val (firstn (octs P) pub) mod 2 ^ blen P).
(* the octets of the x coordinate, and zeros with a false flag for infinity *)
Definition dh_out (Q : point fe) : list Z * bool := match Q with Inf => (dh_enc f0, false) | Aff x _ => (dh_enc x, true) end.
Theorem C81_init : exists c0, mont_init p d = Some c0.
Proof. destruct (init_ok p d D) as (c0 & E & _). exists c0. exact E. Qed.
Theorem C81_clamp priv : dh_key priv -> exists k, mont_clamp p c priv = Some k /\ length k = octs P /\ le_val k = dh_scalar priv /\ (h | dh_scalar priv) /\ 2 ^ (blen P - 1) <= dh_scalar priv < 2 ^ blen P.
Proof.
  intros (Bl & L). destruct (mclamp_ok p d D c Cx priv Bl L) as (k & E & _ & Lk & V). exists k. exact (conj E (conj Lk (conj V (conj (mclamp_h p d D _) (mclamp_range p d _))))).
Qed.
Theorem C81_enc_dec x : dh_dec (dh_enc x) = x.
Proof. exact (xdec_enc p d D x). Qed.
(* the public key of priv is the x coordinate of its multiple of G; the assertion fails exactly when that is infinity *)
Theorem C81_create priv : dh_key priv -> ecdh_pubkey_create p c priv = match m_nmul p A B (dh_scalar priv) G with Inf => Abort | Aff x _ => Ok (dh_enc x) end.
Proof. intros (Bl & L). exact (create_ok p d D c Cx priv Bl L). Qed.
Theorem C81_create_abort priv : dh_key priv -> ecdh_pubkey_create p c priv = Abort <-> (n | dh_scalar priv).
Proof. intros (Bl & L). exact (create_abort p d D c Cx priv Bl L). Qed.
(* no clamped scalar is a multiple of the order when h n has too many bits, as for X25519 *)
Theorem C81_create_total priv : dh_key priv -> 2 ^ blen P <= h * n -> exists x, ecdh_pubkey_create p c priv = Ok (dh_enc x).
Proof.
  intros KP BN. rewrite (C81_create priv KP). destruct (m_nmul p A B (dh_scalar priv) G) as [|x y] eqn:E; [|exists x; reflexivity]. exfalso.
  assert (DN : (n | dh_scalar priv)) by (apply (C81_create_abort priv KP); rewrite (C81_create priv KP), E; reflexivity). destruct (C81_clamp priv KP) as (_ & _ & _ & _ & DH & R).
  assert (RP : rel_prime h n). { destruct (gm_h _ _ D) as (j & J & -> & _). apply rel_prime_sym, prime_rel_prime; [exact (gm_n _ _ D)|]. intros Q. pose proof (Zpow_facts.prime_power_prime n 2 j ltac:(lia) (gm_n _ _ D) prime_2 Q) as C2. pose proof (gm_n3 _ _ D). lia. }
  assert (DD : (h * n | dh_scalar priv)). { destruct DH as (u & EU). rewrite EU in DN |- *. rewrite Z.mul_comm in DN. apply Gauss in DN; [|apply rel_prime_sym; exact RP]. destruct DN as (v & ->). exists v. ring. }
  destruct DD as (v & EV). pose proof (Z.pow_pos_nonneg 2 (blen P - 1) eq_refl) as PP. assert (B0 : 0 <= blen P - 1) by (unfold blen; pose proof (Z.log2_nonneg P); lia). specialize (PP B0). assert (1 <= v) by nia. nia.
Qed.
(* but when h n is itself a clamped scalar, as for X448, its octets are a private key on which the assertion fails *)
Theorem C81_create_aborts : 2 ^ (blen P - 1) <= h * n < 2 ^ blen P -> dh_key (le_bytes (octs P) (h * n)) /\ ecdh_pubkey_create p c (le_bytes (octs P) (h * n)) = Abort.
Proof.
  intros R. assert (KP : dh_key (le_bytes (octs P) (h * n))) by (split; [apply le_bytes_bytes|rewrite le_bytes_length; lia]). split; [exact KP|]. apply (C81_create_abort _ KP). unfold dh_scalar. rewrite firstn_all2 by (rewrite le_bytes_length; lia).
  rewrite le_val_le_bytes. pose proof (octs_pow p) as OP. pose proof (Z.pow_nonneg 2 (blen P - 1)). rewrite Z.mod_small by (clear - OP R H; lia). rewrite (mclamp_fix p d D (h * n)); [exists h; ring|exists n; ring|exact R].
Qed.
(* the secret is the x coordinate of the clamped multiple of the point with the given x: for every public key, canonical or not, on
   the curve or on any twist A, B' of it *)
Theorem C81_derive pub priv B' y : dh_key priv -> mont_ok fe f0 f1 fe_add fe_mul A B' -> m_on p A B' (Aff (dh_dec pub) y) ->
  ecdh_derive p c pub priv = Ok (dh_out (m_nmul p A B' (dh_scalar priv) (Aff (dh_dec pub) y))).
Proof. intros (Bl & L). exact (derive_ok p d D c Cx pub priv B' y Bl L). Qed.
Theorem C81_derive_covers x : exists B' y, mont_ok fe f0 f1 fe_add fe_mul A B' /\ m_on p A B' (Aff x y).
Proof. exact (twist_exists p d D x). Qed.
(* points of small order, on the curve or a twist, give zero and are reported *)
Theorem C81_derive_small pub priv B' y : dh_key priv -> mont_ok fe f0 f1 fe_add fe_mul A B' -> m_on p A B' (Aff (dh_dec pub) y) -> m_nmul p A B' h (Aff (dh_dec pub) y) = Inf ->
  ecdh_derive p c pub priv = Ok (dh_enc f0, false).
Proof. intros (Bl & L). exact (derive_small p d D c Cx pub priv B' y Bl L). Qed.
(* C69: both sides get the same secret and it is not reported as zero *)
Theorem C69_ecdh_agree pa pb qa qb : dh_key pa -> dh_key pb -> ecdh_pubkey_create p c pa = Ok qa -> ecdh_pubkey_create p c pb = Ok qb ->
  exists x y, m_nmul p A B (dh_scalar pa * dh_scalar pb) G = Aff x y /\ ecdh_derive p c qb pa = Ok (dh_enc x, true) /\ ecdh_derive p c qa pb = Ok (dh_enc x, true).
Proof. intros (Ba & La) (Bb & Lb). exact (agree p d D c Cx pa pb qa qb Ba Bb La Lb). Qed.
Theorem C81_pubkey_verify pub : ecdh_pubkey_verify p c pub = true <-> exists y, m_on p A B (Aff (dh_dec pub) y).
Proof. exact (verify_ok p d D c Cx pub). Qed.
Theorem C81_pubkey_is_small pub : exists b, ecdh_pubkey_is_small p c pub = Some b /\ (b = true <-> exists y, m_on p A B (Aff (dh_dec pub) y) /\ m_nmul p A B h (Aff (dh_dec pub) y) = Inf).
Proof. exact (EcdhProof.is_small_ok p d D c Cx pub). Qed.
Theorem C81_pubkey_has_torsion pub : ecdh_pubkey_has_torsion p c pub = true <-> exists y, m_on p A B (Aff (dh_dec pub) y) /\ m_nmul p A B n (Aff (dh_dec pub) y) <> Inf.
Proof. exact (EcdhProof.has_torsion_ok p d D c Cx pub). Qed.
Theorem C81_pubkey_export pub s : s = -1 \/ s = 0 \/ s = 1 -> exists xr yr ok, ecdh_pubkey_export p c pub s = Some (xr, yr, ok) /\
  (ok = true <-> exists y, m_on p A B (Aff (dh_dec pub) y) /\ (s = -1 \/ fv y mod 2 = s)) /\
  (ok = true -> exists y, m_on p A B (Aff (dh_dec pub) y) /\ xr = dh_enc (dh_dec pub) /\ yr = dh_enc y /\ (s = -1 \/ fv y mod 2 = s)) /\
  (ok = false -> xr = dh_enc f0 /\ yr = dh_enc f0).
Proof.
  intros S. destruct (pub_export_ok p d D c Cx pub s S) as (xr & yr & ok & E & S1 & S2). exists xr, yr, ok. split; [exact E|]. split; [split|split].
  - intros O. destruct (S1 O) as (y & M & _ & _ & SG). exists y. split; assumption.
  - intros (y & M & SG). destruct ok; [reflexivity|]. destruct (S2 eq_refl) as (_ & _ & S3). destruct (S3 y M) as (E1 & E2). subst s y. destruct SG as [C|C]; [discriminate|]. rewrite (fv_f0 p) in C. discriminate C.
  - exact S1.
  - intros O. destruct (S2 O) as (E1 & E2 & _). split; assumption.
Qed.
End Dh.
(* ---- a curve with 28 points over 29 elements: 2 y^2 = x^3 + 4 x^2 + x, base point (2, 10) of order 7 ---- *)
Definition md29 : mont_def p29 := MkMontDef p29 (e29 4) (e29 2) 4 7 (e29 2) (e29 10).
Definition inf29 (Q : point (fe p29)) : bool := match Q with Inf => true | _ => false end.
Lemma inf29_ok Q : inf29 Q = true -> Q = Inf. Proof. destruct Q; [reflexivity|discriminate]. Qed.
Lemma md29_ok : mont_ok (fe p29) f0 f1 fe_add fe_mul (e29 4) (e29 2).
Proof. split; intros E; apply (f_equal (@fv p29)) in E; vm_compute in E; discriminate E. Qed.
Lemma md29_good : good_mont p29 md29.
Proof.
  constructor; cbn [w_a w_b w_h w_n w_x w_y md29].
  - exact p29_ok.
  - reflexivity.
  - right. reflexivity.
  - apply isprime_spec; [reflexivity|]. vm_compute. reflexivity.
  - reflexivity.
  - exact md29_ok.
  - apply fe_eq. vm_compute. reflexivity.
  - apply inf29_ok. vm_compute. reflexivity.
  - exists 2. repeat split; try lia; vm_compute; reflexivity.
  - vm_compute. reflexivity.
  - vm_compute. reflexivity.
Qed.

Definition m29 {T} (f : mont p29 -> T) : option T := match mont_init p29 md29 with Some c => Some (f c) | None => None end.

(* every kind of private key: 28 = 4 * 7 is a clamped scalar, so the assertion of ecdh_pubkey_create fails on it *)
Example C81_create_ex : map (fun k => m29 (fun c => ecdh_pubkey_create p29 c [k])) [0; 16; 20; 24; 28; 31] = [Some (Ok [21]); Some (Ok [21]); Some (Ok [2]); Some (Ok [10]); Some Abort; Some Abort].
Proof. vm_compute. reflexivity. Qed.
Theorem C81_create_refuted : exists p d c priv, good_mont p d /\ mont_init p d = Some c /\ dh_key p priv /\ ecdh_pubkey_create p c priv = Abort.
Proof.
  assert (R : 2 ^ (blen (Zpos p29) - 1) <= 4 * 7 < 2 ^ blen (Zpos p29)) by (vm_compute; split; [discriminate|reflexivity]). destruct (C81_init p29 md29 md29_good) as (c & E).
  exists p29, md29, c, (le_bytes (octs (Zpos p29)) (4 * 7)). exact (conj md29_good (conj E (C81_create_aborts p29 md29 md29_good c E R))).
Qed.
Example C81_abort_ex : 2 ^ (blen (Zpos p29) - 1) <= 4 * 7 < 2 ^ blen (Zpos p29) /\ exists c, mont_init p29 md29 = Some c /\ ecdh_pubkey_create p29 c [28] = Abort.
Proof.
  assert (R : 2 ^ (blen (Zpos p29) - 1) <= 4 * 7 < 2 ^ blen (Zpos p29)) by (vm_compute; split; [discriminate|reflexivity]). split; [exact R|]. destruct (C81_init p29 md29 md29_good) as (c & E). exists c. split; [exact E|].
  exact (proj2 (C81_create_aborts p29 md29 md29_good c E R)).
Qed.
Example C69_ecdh_ex : m29 (fun c => (ecdh_derive p29 c [21] [24], ecdh_derive p29 c [10] [16], ecdh_derive p29 c [42] [144])) = Some (Ok ([2], true), Ok ([2], true), Ok ([2], true)).
Proof. vm_compute. reflexivity. Qed.
(* 0 and 28 have order at most 4; 1 and 24 are on the twist, 1 of order 4 there and 24 of order 16; 29 and 31 are not canonical *)
Example C81_derive_ex : map (fun x => m29 (fun c => ecdh_derive p29 c [x] [20])) [0; 28; 1; 24; 29; 31; 2] =
  [Some (Ok ([0], false)); Some (Ok ([0], false)); Some (Ok ([0], false)); Some (Ok ([0], true)); Some (Ok ([0], false)); Some (Ok ([2], true)); Some (Ok ([2], true))].
Proof. vm_compute. reflexivity. Qed.
Example C81_checks_ex : map (fun x => m29 (fun c => (ecdh_pubkey_verify p29 c [x], ecdh_pubkey_is_small p29 c [x], ecdh_pubkey_has_torsion p29 c [x]))) [0; 28; 1; 24; 2; 3] =
  [Some (true, Some true, true); Some (true, Some true, true); Some (false, Some false, false); Some (false, Some false, false); Some (true, Some false, false); Some (true, Some false, true)].
Proof. vm_compute. reflexivity. Qed.
Example C81_export_ex : map (fun x => m29 (fun c => ecdh_pubkey_export p29 c [x] 1)) [0; 1; 3; 31] = [Some (Some ([0], [0], false)); Some (Some ([0], [0], false)); Some (Some ([3], [27], true)); Some (Some ([2], [19], true))].
Proof. vm_compute. reflexivity. Qed.
Definition mq (l : list Z) : mge p29 := match l with [x; y] => MkM (e29 x) (e29 y) false | _ => mge_zero p29 end.
Definition mv (q : mge p29) : Z * Z * bool := (fv (mx p29 q), fv (my p29 q), minf p29 q).
Example C65_mge_ex : map mv [mge_add p29 (e29 4) (e29 2) (mq [2; 10]) (mq [0; 0]); mge_dbl p29 (e29 4) (e29 2) (mq [28; 1]); mge_add p29 (e29 4) (e29 2) (mq [2; 10]) (mq [2; 19]); mge_sub p29 (e29 4) (e29 2) (mq [2; 10]) (mq [2; 19])] =
  [(15, 12, false); (0, 0, false); (0, 0, true); (21, 19, false)].
Proof. vm_compute. reflexivity. Qed.
Definition pv (q : pge p29) : Z := fv (fe_mul (px p29 q) (fe_inv (pz p29 q))).
Example C81_ladder_ex : m29 (fun c => map (fun k => pv (mont_mul p29 (m_a24 p29 c) (pge_set_mge p29 (mq [3; 27])) k true)) [1; 2; 3; 4; 5; 28; 29]) = Some [3; 2; 18; 21; 15; 0; 3].
Proof. vm_compute. reflexivity. Qed.
(* the deployed parameters: h n has too many bits for X25519 but is a clamped scalar for X448 *)
Definition n25519 : Z := 2 ^ 252 + 27742317777372353535851937790883648493.
Definition n448 : Z := 2 ^ 446 - 13818066809895115352007386748515426880336692474882178609894547503885.
Example C81_x25519_ex : 2 ^ blen (2 ^ 255 - 19) <= 8 * n25519. Proof. vm_compute. discriminate. Qed.
Example C81_x448_ex : 2 ^ (blen (2 ^ 448 - 2 ^ 224 - 1) - 1) <= 4 * n448 < 2 ^ blen (2 ^ 448 - 2 ^ 224 - 1). Proof. vm_compute. split; [discriminate|reflexivity]. Qed.
Definition p25519 : positive := Z.to_pos (2 ^ 255 - 19).
Definition p448 : positive := Z.to_pos (2 ^ 448 - 2 ^ 224 - 1).
(* ecc.c 9990-10034 and 10036-10093 *)
Definition x25519 : mont_def p25519 := MkMontDef p25519 (fe_of p25519 486662) f1 8 n25519 (fe_of p25519 9) (fe_of p25519 43114425171068552920764898935933967039370386198203806730763910166200978582548).
Definition x448 : mont_def p448 := MkMontDef p448 (fe_of p448 156326) f1 4 n448 (fe_of p448 5) (fe_of p448 355293926785568175264127502063783334808976399387714271831880898435169088786967410002932673765864550910142774147268105838985595290606362).
Succeed Definition x25519_vector : match mont_init p25519 x25519 with None => Abort | Some c => ecdh_derive p25519 c (le_bytes 32 34426434033919594451155107781188821651316167215306631574996226621102155684838) (le_bytes 32 88925887110773138616681052956207043583107764937498542285260013040410376226469) end =
  Ok (le_bytes 32 37325765543539916631701301279660700968428932651319597985674090122993663859395, true) := ltac:(vm_cast_no_check (@eq_refl (outcome (list Z * bool)) (Ok (le_bytes 32 37325765543539916631701301279660700968428932651319597985674090122993663859395, true)))).

(* the axioms of every theorem above, listed at once *)
Definition MontProps_all := (@C65_mont_group, @C65_mge_add, @C65_mge_dbl, @C65_mge_sub, @C65_mge_neg, @C65_mge_equal, @C65_mge_validate, @C65_mge_set_xy,
  @C65_mge_set_x, @C65_pge_set_mge, @C65_pge_dbl, @C65_pge_ladder, @C65_pge_equal, @C65_pge_is_zero, @C65_pge_validate, @C65_pge_set_x, @C65_mge_set_pge,
  @C81_ladder, @C81_ladder_zero, @C81_ladder_even, @C81_init, @C81_clamp, @C81_enc_dec, @C81_create, @C81_create_abort, @C81_create_total, @C81_create_aborts,
  @C81_derive, @C81_derive_covers, @C81_derive_small, @C69_ecdh_agree, @C81_pubkey_verify, @C81_pubkey_is_small, @C81_pubkey_has_torsion, @C81_pubkey_export,
  @C81_create_refuted).
Print Assumptions MontProps_all.
