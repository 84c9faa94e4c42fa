(* C68, C69, C78 (Edwards parts), C80: the Edwards context and EdDSA of ecc.c. *)
From Coq Require Import Znumtheory.
From Verif.Base Require Import Prelude.
From Verif.Spec Require Import HashSpec EcSpec EdSpec DsaSpec EddsaSpec.
From Verif.Model Require Import Encoding Bio Hash NumTheory Field EcScalar Wei Ecdsa Primes Edwards Eddsa.
From Verif.Proof Require Import PrimesProof HmacProof SchnorrProof FieldProof GrpMul EdGroup EdProof EdMul EdCodec EdCtx EddsaProof EddsaVerify EddsaKeys.
From Verif.Props Require Import EdwardsProps.
Section C.
Variable p : positive.
Variable d : edw_def p.
(* p and n prime, roots computable, the law complete, G of order n, h a power of two, h n kills every point, sizes *)
Hypothesis D : good_ed p d.
(* edwards_init, then any number of edwards_randomize *)
Variable c : edw p.
Hypothesis X : ed_context p d c.
Local Notation pt := (fe p * fe p)%type.
Local Notation P := (Zpos p).
Local Notation a := (k_a p d).
Local Notation dd := (k_d p d).
Local Notation h := (k_h p d).
Local Notation n := (k_n p d).
Local Notation on := (on p a dd).
Local Notation add := (add p a dd).
Local Notation neg := (neg p).
Local Notation zero := (zero p).
Local Notation nmul := (nmul p a dd).
Local Notation enc := (enc p).
Definition base : pt := (k_x p d, k_y p d).
Local Notation G := base.
Local Notation C := (ed_context_ok p d D c X).
Local Notation b := (ed_octs P).
(* ---- C78: multiplication in every context ---- *)
Theorem C78_ed_init : exists c0, edwards_init p d = Some c0.
Proof. destruct (einit_ok p d D) as (c0 & E & _). exists c0. exact E. Qed.
Theorem C78_ed_mul_g k : xpoint p a dd (xmul_g p c k) (nmul k G).
Proof. exact (Xmul_g p d D c C k). Qed.
Theorem C78_ed_mul_double k1 q Q k2 : 0 <= k1 < n -> 0 <= k2 < n -> xpoint p a dd q Q -> exists r, xmul_double p c k1 q k2 = Some r /\ xpoint p a dd r (add (nmul k1 G) (nmul k2 Q)).
Proof. exact (Xdouble p d D c C k1 q Q k2). Qed.
Fixpoint lincomb (l : list (pt * Z)) : pt := match l with [] => zero | (Q, k) :: t => add (nmul k Q) (lincomb t) end.
Theorem C78_ed_mul_multi k0 l Ps : 0 <= k0 < n -> Forall2 (fun t u => xpoint p a dd (fst t) (fst u) /\ snd t = snd u /\ 0 <= snd t < n) l Ps ->
  exists r, xmul_multi p c k0 l = Some r /\ xpoint p a dd r (add (nmul k0 G) (lincomb Ps)).
Proof. exact (Xmulti p d D c C k0 l Ps). Qed.
Theorem C78_ed_mul_cofactor q Q : xpoint p a dd q Q -> exists r, xmulh p c q = Some r /\ xpoint p a dd r (nmul h Q).
Proof. exact (Xmulh p d D c C q Q). Qed.
(* ---- C68 ---- *)
Definition octets (m : list Z) : Prop := bytes m /\ Z.of_nat (length m) < 2 ^ 64.
(* pure, context and prehashed variants; contexts as RFC 8032 allows them *)
Definition variant (ph : Z) (ctx : list Z) : Prop := (ph = -1 \/ ph = 0 \/ ph = 1) /\ bytes ctx /\ (length ctx <= 255)%nat.
Definition edom (ph : Z) (ctx : list Z) : list Z := ed_dom (k_context p d) (k_prefix p d) ph ctx.
Definition challenge (m : list Z) : Z := ed_int (k_hash p d) P n m.
(* sig and pub are canonical encodings of R, s < n and A *)
Definition parsed (msg sig pub : list Z) (ph : Z) (ctx : list Z) (R A : pt) (s e : Z) : Prop :=
  on R /\ on A /\ 0 <= s < n /\ sig = enc R ++ le_bytes b s /\ pub = enc A /\ e = challenge (edom ph ctx ++ enc R ++ enc A ++ msg).
(* s G = R + e A *)
Definition strictly (msg sig pub : list Z) (ph : Z) (ctx : list Z) : Prop :=
  exists R A s e, parsed msg sig pub ph ctx R A s e /\ nmul s G = add R (nmul e A).
(* h s G = h (R + e A) *)
Definition loosely (msg sig pub : list Z) (ph : Z) (ctx : list Z) : Prop :=
  exists R A s e, parsed msg sig pub ph ctx R A s e /\ nmul h (nmul s G) = nmul h (add R (nmul e A)).
Definition inputs (msg sig pub : list Z) (ph : Z) (ctx : list Z) : Prop :=
  octets msg /\ variant ph ctx /\ bytes sig /\ length sig = (2 * b)%nat /\ bytes pub /\ length pub = b.
Theorem C68_eddsa_verify_exact msg sig pub ph ctx : inputs msg sig pub ph ctx ->
  exists r, eddsa_verify p c msg sig pub ph ctx = Ok r /\ (r = true <-> strictly msg sig pub ph ctx).
Proof. exact (verify_ok p d D c C msg sig pub ph ctx). Qed.
Theorem C68_eddsa_single_exact msg sig pub ph ctx : inputs msg sig pub ph ctx ->
  exists r, eddsa_verify_single p c msg sig pub ph ctx = Ok r /\ (r = true <-> loosely msg sig pub ph ctx).
Proof. exact (single_ok p d D c C msg sig pub ph ctx). Qed.
(* the strict equation implies the cofactored one; they agree when R and A lie in the subgroup of order n *)
Theorem C68_eddsa_strict_loose msg sig pub ph ctx : strictly msg sig pub ph ctx -> loosely msg sig pub ph ctx.
Proof. exact (valid_cofactored p d msg sig pub ph ctx). Qed.
Theorem C68_eddsa_loose_strict msg sig pub ph ctx R A s e : parsed msg sig pub ph ctx R A s e -> nmul n R = zero -> nmul n A = zero ->
  loosely msg sig pub ph ctx -> strictly msg sig pub ph ctx.
Proof. intros H ER EA. destruct H as (OR & OA & H). exact (cofactored_sub p d D msg sig pub ph ctx R A s e (conj OR (conj OA H)) (conj OR ER) (conj OA EA)). Qed.
Lemma parsed_det msg sig pub ph ctx R A s e R' A' s' e' : parsed msg sig pub ph ctx R A s e -> parsed msg sig pub ph ctx R' A' s' e' -> R = R' /\ A = A' /\ s = s' /\ e = e'.
Proof. exact (reads_det p d D msg sig pub ph ctx R A s e R' A' s' e'). Qed.
(* RFC 8032: the clamped low half of the digest of the key is the scalar, the high half goes into the nonce *)
Definition key (priv : list Z) : Prop := bytes priv /\ length priv = b.
Definition scalar (priv : list Z) : Z := ed_clamp (blen P) h (le_val (firstn b (hash_value (k_hash p d) priv (2 * b)))).
Definition nonce_key (priv : list Z) : list Z := firstn b (skipn b (hash_value (k_hash p d) priv (2 * b))).
Definition rfc8032 (x : Z) (pre msg : list Z) (ph : Z) (ctx : list Z) : list Z :=
  let r := challenge (edom ph ctx ++ pre ++ msg) in
  let R := enc (nmul r G) in
  let e := challenge (edom ph ctx ++ R ++ enc (nmul x G) ++ msg) in
  R ++ le_bytes b ((r + e * x) mod n).
Theorem C68_eddsa_create priv : key priv -> eddsa_pubkey_create p c priv = Ok (enc (nmul (scalar priv) G)).
Proof. exact (create_ok p d D c C priv). Qed.
Theorem C68_eddsa_sign msg priv ph ctx : octets msg -> variant ph ctx -> key priv -> eddsa_sign p c msg priv ph ctx = Ok (rfc8032 (scalar priv) (nonce_key priv) msg ph ctx).
Proof. exact (sign_ok p d D c C msg priv ph ctx). Qed.
Theorem C68_eddsa_sign_with_scalar msg s pre ph ctx : octets msg -> variant ph ctx -> bytes s -> length s = octs P -> bytes pre ->
  eddsa_sign_with_scalar p c msg s pre ph ctx = Ok (rfc8032 (le_val s) (firstn b pre) msg ph ctx).
Proof. exact (sign_scalar_ok p d D c C msg s pre ph ctx). Qed.
Lemma enc_ok Q : bytes (enc Q) /\ length (enc Q) = b.
Proof. split; [apply enc_bytes|apply enc_length]. Qed.
Lemma rfc_ok x pre msg ph ctx : bytes (rfc8032 x pre msg ph ctx) /\ length (rfc8032 x pre msg ph ctx) = (2 * b)%nat.
Proof.
  unfold rfc8032. split; [apply Forall_app; split; [apply enc_bytes|apply le_bytes_bytes]|]. unfold enc. rewrite app_length, enc_length, le_bytes_length. lia.
Qed.
Theorem C68_eddsa_sign_verifies msg priv ph ctx sig pub : octets msg -> variant ph ctx -> key priv -> eddsa_sign p c msg priv ph ctx = Ok sig -> eddsa_pubkey_create p c priv = Ok pub ->
  eddsa_verify p c msg sig pub ph ctx = Ok true /\ eddsa_verify_single p c msg sig pub ph ctx = Ok true.
Proof.
  intros M V KP S PK. rewrite (C68_eddsa_sign msg priv ph ctx M V KP) in S. rewrite (C68_eddsa_create priv KP) in PK.
  match type of S with Ok ?u = Ok _ => assert (E : u = sig) by congruence end. match type of PK with Ok ?u = Ok _ => assert (E' : u = pub) by congruence end. clear S PK. subst sig pub.
  set (x := scalar priv). set (pre := nonce_key priv). assert (I : inputs msg (rfc8032 x pre msg ph ctx) (enc (nmul x G)) ph ctx).
  { destruct (rfc_ok x pre msg ph ctx). destruct (enc_ok (nmul x G)). unfold inputs. tauto. }
  pose proof (esign_valid p d D x pre msg ph ctx) as EV. change (strictly msg (rfc8032 x pre msg ph ctx) (enc (nmul x G)) ph ctx) in EV.
  destruct (C68_eddsa_verify_exact _ _ _ _ _ I) as (r & E & Q). destruct (C68_eddsa_single_exact _ _ _ _ _ I) as (r' & E' & Q').
  rewrite E, E', (proj2 Q EV), (proj2 Q' (C68_eddsa_strict_loose _ _ _ _ _ EV)). split; reflexivity.
Qed.
(* signing with a tweaked key: the tweaked scalar, and a nonce key depending on both *)
Theorem C68_eddsa_sign_tweak msg priv tweak ph ctx : octets msg -> variant ph ctx -> key priv -> bytes tweak -> length tweak = octs P -> (size_of (k_hash p d) b <= rate_of (k_hash p d))%nat ->
  let pre := firstn b (hash_value (k_hash p d) (nonce_key priv ++ tweak) b) in
  eddsa_sign_tweak_add p c msg priv tweak ph ctx = Ok (rfc8032 ((scalar priv + le_val tweak) mod n) pre msg ph ctx) /\
  eddsa_sign_tweak_mul p c msg priv tweak ph ctx = Ok (rfc8032 ((scalar priv * le_val tweak) mod n) pre msg ph ctx).
Proof.
  intros M V KP BT LT SR pre. split.
  - apply (sign_tweak_ok p d D c C (eddsa_scalar_tweak_add p) msg priv tweak ph ctx _ M V KP (conj BT LT) SR). intros s OS E. change (scalar priv) with (secret p d priv). rewrite <- E. exact (scalar_add_ok p d D c C s tweak OS (conj BT LT)).
  - apply (sign_tweak_ok p d D c C (eddsa_scalar_tweak_mul p) msg priv tweak ph ctx _ M V KP (conj BT LT) SR). intros s OS E. change (scalar priv) with (secret p d priv). rewrite <- E. exact (scalar_mul_ok p d D c C s tweak OS (conj BT LT)).
Qed.
(* batches: rf bounds the retries of the coefficient generator, Fail is its exhaustion *)
Definition binputs (ph : Z) (ctx : list Z) (t : list Z * list Z * list Z) : Prop := let '(msg, sig, pub) := t in inputs msg sig pub ph ctx.
Definition bvalid (ph : Z) (ctx : list Z) (t : list Z * list Z * list Z) : Prop := let '(msg, sig, pub) := t in loosely msg sig pub ph ctx.
Theorem C68_eddsa_batch_valid rf size items ph ctx : (2 <= size)%nat -> Forall (binputs ph ctx) items -> Forall (bvalid ph ctx) items ->
  eddsa_verify_batch p rf c size items ph ctx = Ok true \/ eddsa_verify_batch p rf c size items ph ctx = Fail.
Proof. intros S W. exact (proj1 (ed_batch_ok p d D c C rf size items ph ctx S W)). Qed.
Theorem C68_eddsa_batch_one_invalid rf size l1 t l2 ph ctx : (2 <= size)%nat -> Forall (binputs ph ctx) (l1 ++ t :: l2) -> Forall (bvalid ph ctx) l1 -> ~ bvalid ph ctx t -> Forall (bvalid ph ctx) l2 ->
  eddsa_verify_batch p rf c size (l1 ++ t :: l2) ph ctx = Ok false \/ eddsa_verify_batch p rf c size (l1 ++ t :: l2) ph ctx = Fail.
Proof. intros S W. exact (proj1 (proj2 (ed_batch_ok p d D c C rf size (l1 ++ t :: l2) ph ctx S W)) l1 t l2 eq_refl). Qed.
Theorem C68_eddsa_batch_exact rf size items ph ctx : (2 <= size)%nat -> Forall (binputs ph ctx) items -> (size <= 3)%nat \/ (length items <= 1)%nat ->
  exists r, eddsa_verify_batch p rf c size items ph ctx = Ok r /\ (r = true <-> Forall (bvalid ph ctx) items).
Proof. intros S W. exact (proj2 (proj2 (ed_batch_ok p d D c C rf size items ph ctx S W))). Qed.
(* ---- C69 ---- *)
Theorem C69_eddsa_pubkey_exact pub : bytes pub -> length pub = b -> exists r, eddsa_pubkey_verify p c pub = Some r /\ (r = true <-> exists A, on A /\ pub = enc A).
Proof. exact (pubkey_verify_ok p d D c C pub). Qed.
Theorem C69_eddsa_derive_agrees priv1 priv2 : key priv1 -> key priv2 -> exists pub1 pub2 Q r,
  eddsa_pubkey_create p c priv1 = Ok pub1 /\ eddsa_pubkey_create p c priv2 = Ok pub2 /\
  eddsa_derive p c pub2 priv1 = Ok (enc Q, r) /\ eddsa_derive p c pub1 priv2 = Ok (enc Q, r) /\ on Q /\ nmul n Q = zero /\ (r = true <-> Q <> zero).
Proof. exact (derive_agree p d D c C priv1 priv2). Qed.
Theorem C69_eddsa_derive A priv : on A -> key priv -> exists r, eddsa_derive p c (enc A) priv = Ok (enc (nmul (scalar priv) A), r) /\ (r = true <-> nmul (scalar priv) A <> zero).
Proof. exact (derive_ok p d D c C A priv). Qed.
(* a point of small order is reported, and adding one to the peer's key changes nothing *)
Theorem C69_eddsa_derive_small A priv : on A -> key priv -> nmul h A = zero -> eddsa_derive p c (enc A) priv = Ok (enc zero, false).
Proof. exact (derive_small p d D c C A priv). Qed.
Theorem C69_eddsa_derive_torsion A T priv : on A -> on T -> key priv -> nmul h T = zero -> eddsa_derive p c (enc (add A T)) priv = eddsa_derive p c (enc A) priv.
Proof. exact (derive_torsion p d D c C A T priv). Qed.
Definition scalar_bytes (s : list Z) : Prop := bytes s /\ length s = octs P.
Theorem C69_eddsa_scalars s t : scalar_bytes s -> scalar_bytes t ->
  le_val (eddsa_scalar_tweak_add p c s t) = (le_val s + le_val t) mod n /\ le_val (eddsa_scalar_tweak_mul p c s t) = (le_val s * le_val t) mod n /\ le_val (eddsa_scalar_negate p c s) = (- le_val s) mod n.
Proof. intros S T. exact (conj (proj2 (scalar_add_ok p d D c C s t S T)) (conj (proj2 (scalar_mul_ok p d D c C s t S T)) (proj2 (scalar_neg_ok p d D c C s S)))). Qed.
Theorem C69_eddsa_tweak_add s t : scalar_bytes s -> scalar_bytes t -> exists pub pub', eddsa_pubkey_from_scalar p c s = Some pub /\
  eddsa_pubkey_from_scalar p c (eddsa_scalar_tweak_add p c s t) = Some pub' /\ eddsa_pubkey_tweak_add p c pub t = Some (pub', true).
Proof. exact (tweak_add_agree p d D c C s t). Qed.
Lemma steps_pow : 16 ^ Z.of_nat (xnsteps (fbits p)) = 2 ^ (4 * ((blen P + 3) / 4)).
Proof.
  assert (BP : 0 <= blen P) by (rewrite <- (bits_field p); apply Nat2Z.is_nonneg). rewrite Z.pow_mul_r; [|lia|apply Z.div_pos; lia]. change (2 ^ 4) with 16. f_equal. unfold xnsteps. rewrite Nat2Z.inj_div, Nat2Z.inj_add, (bits_field p). reflexivity.
Qed.
(* multiplicative tweaks agree below 2^(4 ceil(bits / 4)); C69_eddsa_tweak_mul_refuted has the rest *)
Theorem C69_eddsa_tweak_mul s t : scalar_bytes s -> scalar_bytes t -> le_val t < 2 ^ (4 * ((blen P + 3) / 4)) -> exists pub pub', eddsa_pubkey_from_scalar p c s = Some pub /\
  eddsa_pubkey_from_scalar p c (eddsa_scalar_tweak_mul p c s t) = Some pub' /\ eddsa_pubkey_tweak_mul p c pub t = Some (pub', true).
Proof. rewrite <- steps_pow. exact (tweak_mul_agree p d D c C s t). Qed.
Theorem C69_eddsa_tweak_mul_cut A t : on A -> scalar_bytes t -> eddsa_pubkey_tweak_mul p c (enc A) t = Some (enc (nmul (le_val t mod 2 ^ (4 * ((blen P + 3) / 4))) A), true).
Proof. rewrite <- steps_pow. exact (pub_tweak_mul_ok p d D c C A t). Qed.
Theorem C69_eddsa_pubkeys A B : on A -> on B -> eddsa_pubkey_negate p c (enc A) = Some (enc (neg A), true) /\ eddsa_pubkey_add p c (enc A) (enc B) = Some (enc (add A B), true).
Proof. intros OA OB. exact (conj (pub_negate_ok p d D c C A OA) (pub_add_ok p d D c C A B OA OB)). Qed.
Theorem C69_eddsa_combine l : Forall on l -> eddsa_pubkey_combine p c (map enc l) = Some (enc (fold_left add l zero), true).
Proof. exact (pub_combine_ok p d D c C l). Qed.
Theorem C69_eddsa_small A : on A -> exists r, eddsa_pubkey_is_small p c (enc A) = Some r /\ (r = true <-> nmul h A = zero /\ A <> zero).
Proof. exact (pub_small_ok p d D c C A). Qed.
Theorem C69_eddsa_torsion A : n < 2 ^ blen P -> on A -> exists r, eddsa_pubkey_has_torsion p c (enc A) = Some r /\ (r = true <-> nmul n A <> zero).
Proof. exact (pub_torsion_ok p d D c C A). Qed.
(* ---- C80: domain separation ---- *)
(* with a domain string, equal hash inputs have equal prehash flags, contexts and remainders *)
Theorem C80_domain_injective ph ctx m ph' ctx' m' : variant ph ctx -> variant ph' ctx' -> edom ph ctx <> [] -> edom ph' ctx' <> [] ->
  edom ph ctx ++ m = edom ph' ctx' ++ m' -> (ph = 1 <-> ph' = 1) /\ ctx = ctx' /\ m = m'.
Proof.
  intros (V & B & L) (V' & B' & L') N N'. unfold edom, ed_dom in *. destruct (negb _ && _ && _); [contradiction|]. destruct (negb _ && _ && _); [contradiction|].
  rewrite <- !app_assoc. intros E. apply app_inv_head in E. cbn [app] in E.
  assert (E1 : (if ph =? 1 then 1 else 0) = (if ph' =? 1 then 1 else 0)) by congruence. assert (E2 : Z.of_nat (length ctx) = Z.of_nat (length ctx')) by congruence. assert (E3 : ctx ++ m = ctx' ++ m') by congruence.
  destruct (app_eq_app_len ctx m ctx' m' ltac:(lia) E3) as [-> ->]. split; [|split; reflexivity]. destruct (Z.eqb_spec ph 1), (Z.eqb_spec ph' 1); try discriminate E1; tauto.
Qed.
(* what the code hashes for the domain: that string of the first 255 octets of the context *)
Theorem C80_domain ph ctx : (ph = -1 \/ ph = 0 \/ ph = 1) -> bytes ctx -> concat (eddsa_dom p c ph ctx) = edom ph (firstn 255 ctx).
Proof.
  intros V B. replace (eddsa_dom p c ph ctx) with (eddsa_dom p c ph (firstn 255 ctx)) by (unfold eddsa_dom; rewrite firstn_firstn; reflexivity).
  apply (dom_ok p d D c C). split; [exact V|]. split; [|rewrite firstn_length; lia]. rewrite <- (firstn_skipn 255 ctx) in B. apply Forall_app in B. exact (proj1 B).
Qed.
(* so a longer context, which RFC 8032 refuses, is interchangeable with its first 255 octets *)
Theorem C80_context_cut msg priv sig pub ph ctx : eddsa_sign p c msg priv ph ctx = eddsa_sign p c msg priv ph (firstn 255 ctx) /\
  eddsa_verify p c msg sig pub ph ctx = eddsa_verify p c msg sig pub ph (firstn 255 ctx).
Proof.
  assert (E : eddsa_dom p c ph ctx = eddsa_dom p c ph (firstn 255 ctx)) by (unfold eddsa_dom; rewrite firstn_firstn; reflexivity).
  unfold eddsa_sign, eddsa_sign_with_scalar, eddsa_nonce, eddsa_challenge, eddsa_verify, eddsa_read, eddsa_challenge, eddsa_hash. rewrite E. split; reflexivity.
Qed.
End C.

(* every point of a small curve checked in turn *)
Definition all_pts (p : positive) (f : fe p * fe p -> bool) : bool := forallb (fun u => forallb (fun v => f (fe_of p u, fe_of p v)) (zseq 0 (Z.to_nat (Zpos p)))) (zseq 0 (Z.to_nat (Zpos p))).
Lemma all_pts_ok p f : all_pts p f = true -> forall Q, f Q = true.
Proof.
  intros A [x y]. unfold all_pts in A. pose proof (fv_range p x) as RX. pose proof (fv_range p y) as RY.
  pose proof (forall_zseq _ 0 _ A (fv x) ltac:(clear - RX; lia)) as B. cbv beta in B. pose proof (forall_zseq _ 0 _ B (fv y) ltac:(clear - RY; lia)) as E. cbv beta in E. rewrite !fe_of_fv in E. exact E.
Qed.
Definition killed (p : positive) (a d : fe p) (k : Z) (Q : fe p * fe p) : bool :=
  if edwards_validate_xy p a d (fst Q) (snd Q) then let R := nmul p a d k Q in fe_equal (fst R) f0 && fe_equal (snd R) f1 else true.
Lemma killed_ok p a d k Q : killed p a d k Q = true -> on p a d Q -> nmul p a d k Q = zero p.
Proof.
  unfold killed. intros E O. destruct Q as [x y]. cbn [fst snd] in E. rewrite (proj2 (validate_ok p a d x y) O) in E. destruct (nmul p a d k (x, y)) as [u v]. cbn [fst snd] in E.
  apply andb_true_iff in E. destruct E as [E1 E2]. destruct (equal_spec p u f0); [|discriminate]. destruct (equal_spec p v f1); [|discriminate]. subst. reflexivity.
Qed.
(* the curve of C65_ed_ex *)
Definition d29 : edw_def p29 := MkEdwDef p29 (e29 28) (e29 2) 4 7 MD4 false [83; 105; 103] (e29 2) (e29 22).
Lemma d29_good : good_ed p29 d29.
Proof.
  constructor; cbn [k_a k_d k_h k_n k_hash k_prefix k_x k_y d29].
  - exact p29_ok.
  - right. reflexivity.
  - exact k29.
  - apply isprime_spec; [reflexivity|]. vm_compute. reflexivity.
  - reflexivity.
  - apply fe_eq. vm_compute. reflexivity.
  - apply (killed_ok p29 (e29 28) (e29 2) 7); [vm_compute; reflexivity|apply fe_eq; vm_compute; reflexivity].
  - exists 2. vm_compute. repeat split; try reflexivity; discriminate.
  - intros Q O. apply (killed_ok p29 (e29 28) (e29 2) (4 * 7)); [|exact O]. apply all_pts_ok. vm_compute. reflexivity.
  - reflexivity.
  - split; [|reflexivity]. repeat constructor; discriminate.
  - split; apply Nat.leb_le; vm_compute; reflexivity.
Qed.
Definition fixed29 : list (xge p29) := match xge_fixed_points p29 (e29 28) (e29 2) 3 (x29 2 22) with Some l => l | None => [] end.
Definition c29 (naf : list (xge p29)) : edw p29 := MkEdw p29 (e29 28) (e29 2) 4 7 MD4 false [83; 105; 103] (x29 2 22) fixed29 naf 0 (xge_zero p29).
Lemma init_shape p (d : edw_def p) g fixed : good_ed p d -> MkX (k_x p d) (k_y p d) f1 (fe_mul (k_x p d) (k_y p d)) = g ->
  xge_fixed_points p (k_a p d) (k_d p d) (sc_bitlen (k_n p d)) g = Some fixed ->
  exists naf, edwards_init p d = Some (MkEdw p (k_a p d) (k_d p d) (k_h p d) (k_n p d) (k_hash p d) (k_context p d) (k_prefix p d) g fixed naf 0 (xge_zero p)).
Proof.
  intros D EG EF. destruct (C78_ed_init p d D) as (c0 & E). unfold edwards_init in *. rewrite EG in *. rewrite EF in *.
  destruct (xge_fixed_naf_points p (k_a p d) (k_d p d) g XNAF_WIDTH_PRE) as [naf|]; [|discriminate E]. exists naf. reflexivity.
Qed.
Lemma fixed29_ok : xge_fixed_points p29 (e29 28) (e29 2) 3 (x29 2 22) = Some fixed29.
Proof.
  unfold fixed29. destruct (xge_fixed_points p29 (e29 28) (e29 2) 3 (x29 2 22)) eqn:E; [reflexivity|]. exfalso.
  apply (f_equal (fun o => match o with Some _ => true | None => false end)) in E. vm_compute in E. discriminate E.
Qed.
Lemma init29 : exists naf, edwards_init p29 d29 = Some (c29 naf).
Proof.
  exact (init_shape p29 d29 (x29 2 22) fixed29 d29_good ltac:(unfold x29, xge_finish; f_equal; apply fe_eq; vm_compute; reflexivity) fixed29_ok).
Qed.
Lemma bytes_of l : forallb (fun v => (0 <=? v) && (v <? 256)) l = true -> bytes l.
Proof. intros F. apply Forall_forall. intros v I. rewrite forallb_forall in F. specialize (F v I). unfold byte. lia. Qed.
Lemma pt_eq p (P Q : fe p * fe p) : fv (fst P) = fv (fst Q) -> fv (snd P) = fv (snd Q) -> P = Q.
Proof. destruct P, Q. cbn [fst snd]. intros E1 E2. f_equal; apply fe_eq; assumption. Qed.
(* a signature in each variant; (9, 10) is 2 G plus the point (0, -1) of order two: accepted by the cofactored equation only *)
Example C68_eddsa_ex : exists c, ed_context p29 d29 c /\ eddsa_pubkey_create p29 c [9] = Ok [3] /\ eddsa_sign p29 c [1; 2; 3] [9] (-1) [] = Ok [131; 2] /\ eddsa_sign p29 c [1; 2; 3] [9] 1 [7] = Ok [1; 5] /\
  eddsa_verify p29 c [1; 2; 3] [131; 2] [3] (-1) [] = Ok true /\ eddsa_verify_single p29 c [1; 2; 3] [1; 5] [3] 1 [7] = Ok true /\
  eddsa_verify p29 c [1; 2; 3] [138; 6] [3] (-1) [] = Ok false /\ eddsa_verify_single p29 c [1; 2; 3] [138; 6] [3] (-1) [] = Ok true /\
  eddsa_verify_batch p29 0 c 2 [([1; 2; 3], [131; 2], [3]); ([1; 2; 3], [138; 6], [3])] (-1) [] = Ok true.
Proof.
  destruct init29 as (naf & E). pose proof (ectx_init _ _ _ E) as C. exists (c29 naf). split; [exact C|].
  assert (PK : eddsa_pubkey_create p29 (c29 naf) [9] = Ok [3]) by (vm_compute; reflexivity). split; [exact PK|].
  assert (S1 : eddsa_sign p29 (c29 naf) [1; 2; 3] [9] (-1) [] = Ok [131; 2]) by (vm_compute; reflexivity). split; [exact S1|].
  assert (S2 : eddsa_sign p29 (c29 naf) [1; 2; 3] [9] 1 [7] = Ok [1; 5]) by (vm_compute; reflexivity). split; [exact S2|].
  assert (M : octets [1; 2; 3]) by (split; [apply bytes_of|]; reflexivity). assert (K9 : key p29 [9]) by (split; [apply bytes_of|]; reflexivity).
  assert (V1 : variant (-1) []) by (split; [tauto|split; [apply bytes_of; reflexivity|cbn; lia]]). assert (V2 : variant 1 [7]) by (split; [tauto|split; [apply bytes_of; reflexivity|cbn; lia]]).
  destruct (C68_eddsa_sign_verifies p29 d29 d29_good (c29 naf) C _ _ _ _ _ _ M V1 K9 S1 PK) as [A1 A2]. split; [exact A1|]. split; [exact (proj2 (C68_eddsa_sign_verifies p29 d29 d29_good (c29 naf) C _ _ _ _ _ _ M V2 K9 S2 PK))|].
  assert (I : forall sig, forallb (fun v => (0 <=? v) && (v <? 256)) sig = true -> length sig = 2%nat -> inputs p29 [1; 2; 3] sig [3] (-1) []).
  { intros sig B L. refine (conj M (conj V1 (conj (bytes_of _ B) (conj L (conj _ eq_refl))))). apply bytes_of. reflexivity. }
  assert (R : parsed p29 d29 [1; 2; 3] [138; 6] [3] (-1) [] (pt29 9 10) (pt29 18 3) 6 6).
  { refine (conj _ (conj _ (conj _ (conj _ (conj _ _))))); [apply fe_eq; vm_compute; reflexivity|apply fe_eq; vm_compute; reflexivity|split; [discriminate|reflexivity]|vm_compute; reflexivity|vm_compute; reflexivity|vm_compute; reflexivity]. }
  assert (LO : loosely p29 d29 [1; 2; 3] [138; 6] [3] (-1) []).
  { exists (pt29 9 10), (pt29 18 3), 6, 6. split; [exact R|]. apply pt_eq; vm_compute; reflexivity. }
  assert (NS : ~ strictly p29 d29 [1; 2; 3] [138; 6] [3] (-1) []).
  { intros (R' & A' & s' & e' & Q & EQ). destruct (parsed_det p29 d29 d29_good _ _ _ _ _ _ _ _ _ _ _ _ _ R Q) as (<- & <- & <- & <-). apply (f_equal (fun Q => (fv (fst Q), fv (snd Q)))) in EQ. vm_compute in EQ. discriminate EQ. }
  destruct (C68_eddsa_verify_exact p29 d29 d29_good (c29 naf) C _ _ _ _ _ (I [138; 6] eq_refl eq_refl)) as (r & E1 & E2).
  destruct (C68_eddsa_single_exact p29 d29 d29_good (c29 naf) C _ _ _ _ _ (I [138; 6] eq_refl eq_refl)) as (r' & E1' & E2').
  split; [rewrite E1; destruct r; [exfalso; apply NS; apply E2; reflexivity|reflexivity]|]. split; [rewrite E1'; f_equal; apply E2'; exact LO|].
  destruct (C68_eddsa_batch_exact p29 d29 d29_good (c29 naf) C 0 2 [([1; 2; 3], [131; 2], [3]); ([1; 2; 3], [138; 6], [3])] (-1) []) as (rb & F1 & F2); [lia| |left; lia|].
  - apply Forall_cons; [|apply Forall_cons; [|apply Forall_nil]]; apply I; reflexivity.
  - rewrite F1. f_equal. apply F2. apply Forall_cons; [|apply Forall_cons; [exact LO|apply Forall_nil]].
    destruct (C68_eddsa_single_exact p29 d29 d29_good (c29 naf) C _ _ _ _ _ (I [131; 2] eq_refl eq_refl)) as (r1 & G1 & G2). apply G2. rewrite A2 in G1. congruence.
Qed.
(* [0] is the point (12, 0) of order four, [28] the one of order two *)
Example C69_eddsa_ex naf : eddsa_derive p29 (c29 naf) [3] [9] = Ok ([19], true) /\ eddsa_derive p29 (c29 naf) [28] [9] = Ok ([1], false) /\ eddsa_pubkey_from_scalar p29 (c29 naf) [9] = Some [19] /\
  eddsa_pubkey_tweak_add p29 (c29 naf) [3] [9] = Some ([128 + 19], true) /\ eddsa_pubkey_from_scalar p29 (c29 naf) (eddsa_scalar_tweak_add p29 (c29 naf) [24] [9]) = Some [128 + 19] /\
  eddsa_pubkey_combine p29 (c29 naf) [[3]; [22]; [28]] = Some ([26], true) /\ eddsa_pubkey_is_small p29 (c29 naf) [0] = Some true /\ eddsa_pubkey_has_torsion p29 (c29 naf) [22] = Some false.
Proof. vm_compute. repeat split; reflexivity. Qed.
Example C78_ed_ex naf : show29 (xmul_g p29 (c29 naf) 3) = (18, 3) /\ show29 (xmul_g p29 (edwards_randomize p29 (c29 naf) 5) 3) = (18, 3) /\ show29 (xmul_g p29 (c29 naf) 7) = (0, 1).
Proof. vm_compute. repeat split; reflexivity. Qed.
Example C80_ex naf : concat (eddsa_dom p29 (c29 naf) 1 [7; 8]) = [83; 105; 103; 1; 2; 7; 8] /\ edom p29 d29 (-1) [] = [] /\ edom p29 d29 0 [] = [83; 105; 103; 0; 0].
Proof. vm_compute. repeat split; reflexivity. Qed.
(* contexts of more than 255 octets are not told apart from their beginnings *)
Theorem C80_long_context_refuted : exists ctx ctx' msg sig pub, bytes ctx /\ bytes ctx' /\ ctx <> ctx' /\
  (forall c, ed_context p29 d29 c -> eddsa_sign p29 c msg [9] 0 ctx = Ok sig /\ eddsa_pubkey_create p29 c [9] = Ok pub /\ eddsa_verify p29 c msg sig pub 0 ctx' = Ok true).
Proof.
  assert (B : forall k, bytes (repeat 7 k)) by (intros k; apply Forall_forall; intros v I; apply repeat_spec in I; subst v; split; lia).
  exists (repeat 7 255), (repeat 7 256), [1; 2; 3], (rfc8032 p29 d29 (scalar p29 d29 [9]) (nonce_key p29 d29 [9]) [1; 2; 3] 0 (repeat 7 255)), (enc p29 (nmul p29 (e29 28) (e29 2) (scalar p29 d29 [9]) (base p29 d29))).
  split; [apply B|]. split; [apply B|]. split; [intros E; apply (f_equal (@length Z)) in E; rewrite !repeat_length in E; discriminate E|]. intros c C.
  assert (M : octets [1; 2; 3]) by (split; [apply bytes_of|]; reflexivity). assert (K9 : key p29 [9]) by (split; [apply bytes_of|]; reflexivity).
  assert (V : variant 0 (repeat 7 255)) by (split; [tauto|split; [apply B|rewrite repeat_length; lia]]).
  pose proof (C68_eddsa_sign p29 d29 d29_good c C _ _ _ _ M V K9) as S. pose proof (C68_eddsa_create p29 d29 d29_good c C _ K9) as PK. split; [exact S|]. split; [exact PK|].
  rewrite (proj2 (C80_context_cut p29 c [1; 2; 3] [9] _ _ 0 (repeat 7 256))). change (firstn 255 (repeat 7 256)) with (repeat 7 255). exact (proj1 (C68_eddsa_sign_verifies p29 d29 d29_good c C _ _ _ _ _ _ M V K9 S PK)).
Qed.
(* -x^2 + y^2 = 1 + 5 x^2 y^2 over Z/13: 12 points, (4, 10) of order 3; the walk reads four bits of the eight of a tweak.
   As on the 251 bit field of ED1174, where a tweak has 256 bits and 252 are read. *)
Definition p13 : positive := 13%positive.
Definition e13 : Z -> fe p13 := fe_of p13.
Definition d13 : edw_def p13 := MkEdwDef p13 (e13 12) (e13 5) 4 3 MD4 false [] (e13 4) (e13 10).
Lemma d13_good : good_ed p13 d13.
Proof.
  constructor; cbn [k_a k_d k_h k_n k_hash k_prefix k_x k_y d13].
  - apply isprime_spec; [reflexivity|]. vm_compute. reflexivity.
  - right. reflexivity.
  - refine (conj _ (conj _ (conj _ _))).
    + exists (e13 5). apply fe_eq. vm_compute. reflexivity.
    + intros E. apply (f_equal (@fv p13)) in E. vm_compute in E. discriminate E.
    + intros s E. assert (A : forallb (fun v => negb (v * v mod 13 =? 5)) (zseq 0 13) = true) by (vm_compute; reflexivity).
      pose proof (forall_zseq _ 0 13 A (fv s) (fv_range _ s)) as N. cbv beta in N. apply (f_equal (@fv p13)) in E. change (fv (fe_mul s s)) with (fv s * fv s mod 13) in E. rewrite E in N. discriminate N.
    + intros E. apply (f_equal (@fv p13)) in E. vm_compute in E. discriminate E.
  - apply isprime_spec; [reflexivity|]. vm_compute. reflexivity.
  - reflexivity.
  - apply fe_eq. vm_compute. reflexivity.
  - apply (killed_ok p13 (e13 12) (e13 5) 3); [vm_compute; reflexivity|apply fe_eq; vm_compute; reflexivity].
  - exists 2. vm_compute. repeat split; try reflexivity; discriminate.
  - intros Q O. apply (killed_ok p13 (e13 12) (e13 5) (4 * 3)); [|exact O]. apply all_pts_ok. vm_compute. reflexivity.
  - reflexivity.
  - split; [constructor|reflexivity].
  - split; apply Nat.leb_le; vm_compute; reflexivity.
Qed.
(* 16 = 1 mod 3: the tweaked private key keeps its public key, the tweaked public key is the neutral element *)
Theorem C69_eddsa_tweak_mul_refuted : exists (p : positive) (d : edw_def p) c s t pub, good_ed p d /\ ed_context p d c /\ scalar_bytes p s /\ scalar_bytes p t /\
  eddsa_pubkey_from_scalar p c s = Some pub /\ eddsa_pubkey_from_scalar p c (eddsa_scalar_tweak_mul p c s t) = Some pub /\ pub <> enc p (zero p) /\ eddsa_pubkey_tweak_mul p c pub t = Some (enc p (zero p), true).
Proof.
  destruct (C78_ed_init p13 d13 d13_good) as (c & E). pose proof (ectx_init _ _ _ E) as C. exists p13, d13, c, [1], [16], (enc p13 (base p13 d13)).
  assert (B1 : scalar_bytes p13 [1]) by (split; [apply bytes_of|]; reflexivity). assert (B2 : scalar_bytes p13 [16]) by (split; [apply bytes_of|]; reflexivity).
  refine (conj d13_good (conj C (conj B1 (conj B2 _)))). pose proof (ed_context_ok p13 d13 d13_good c C) as CK.
  assert (F : forall s, scalar_bytes p13 s -> le_val s = 1 -> eddsa_pubkey_from_scalar p13 c s = Some (enc p13 (base p13 d13))).
  { intros s [BS LS] V. rewrite (from_scalar_ok p13 d13 d13_good c CK s BS LS), V. rewrite (m_1 p13 (ge_p _ _ d13_good) (k_a p13 d13) (k_d p13 d13) (ge_c _ _ d13_good) (EG p13 d13) (ge_on _ _ d13_good)). reflexivity. }
  split; [apply F; [exact B1|reflexivity]|]. split.
  { destruct (scalar_mul_ok p13 d13 d13_good c CK [1] [16] B1 B2) as [O V]. apply F; [exact O|exact V]. }
  split; [intros N; vm_compute in N; discriminate N|]. rewrite (C69_eddsa_tweak_mul_cut p13 d13 d13_good c C (base p13 d13) [16] (ge_on _ _ d13_good) B2). reflexivity.
Qed.

(* the axioms of every theorem above, listed at once *)
Definition EddsaProps_all := (@C78_ed_init, @C78_ed_mul_g, @C78_ed_mul_double, @C78_ed_mul_multi, @C78_ed_mul_cofactor, @C68_eddsa_verify_exact,
  @C68_eddsa_single_exact, @C68_eddsa_strict_loose, @C68_eddsa_loose_strict, @C68_eddsa_create, @C68_eddsa_sign, @C68_eddsa_sign_with_scalar,
  @C68_eddsa_sign_verifies, @C68_eddsa_sign_tweak, @C68_eddsa_batch_valid, @C68_eddsa_batch_one_invalid, @C68_eddsa_batch_exact, @C69_eddsa_pubkey_exact,
  @C69_eddsa_derive_agrees, @C69_eddsa_derive, @C69_eddsa_derive_small, @C69_eddsa_derive_torsion, @C69_eddsa_scalars, @C69_eddsa_tweak_add,
  @C69_eddsa_tweak_mul, @C69_eddsa_tweak_mul_cut, @C69_eddsa_pubkeys, @C69_eddsa_combine, @C69_eddsa_small, @C69_eddsa_torsion, @C80_domain_injective,
  @C80_domain, @C80_context_cut, @C80_long_context_refuted, @C69_eddsa_tweak_mul_refuted).
Print Assumptions EddsaProps_all.
