(* C83: the maps from field elements and octets to points, their inverses, and hashing to a curve. *)
From Coq Require Import Znumtheory.
From Verif.Base Require Import Prelude.
From Verif.Spec Require Import EcSpec EdSpec MontSpec ConvSpec MapSpec.
From Verif.Model Require Import Encoding Bio NumTheory Field EcScalar Wei Primes Ecdsa Edwards Eddsa Mont Convert CurveMaps.
From Verif.Proof Require Import PrimesProof FieldProof FieldSquare EcCodec GrpMul EdGroup EdProof EdCodec WeiProof MontProof ConvGroup ConvProof CurveMapsProof CurveMapsPoints.
From Verif.Props Require Import EdwardsProps MontProps ConvProps.
From Verif.Props Require WeiProps.
Section Maps.
Variable p : positive.
Hypothesis Pp : prime (Zpos p).
Hypothesis P5 : 3 < Zpos p.
Hypothesis PR : Zpos p mod 4 = 3 \/ Zpos p mod 8 = 5.
Local Notation fe := (Field.fe p).
Local Notation two := (fe_add f1 f1).
Definition is_sq (x : fe) : Prop := exists s, fe_mul s s = x.
(* the ordinate has the parity of u, unless it is zero *)
Definition same_sign (y u : fe) : Prop := y = f0 \/ Z.odd (fv y) = Z.odd (fv u).
(* the field element in a string: the low bits of the number *)
Definition le_field (raw : list Z) : fe := fe_of p (le_val raw mod 2 ^ Z.of_nat (fbits p)).
Definition be_field (raw : list Z) : fe := fe_of p (be_val raw mod 2 ^ Z.of_nat (fbits p)).
Section Mont.
Variables A B bi z : fe.
Hypothesis K : mont_ok fe f0 f1 fe_add fe_mul A B.
Hypothesis HB : bi = fe_inv B.
Hypothesis NSQ : ~ is_sq z.
(* Elligator 2 on y^2 = x^3 + (A / B) x^2 + x / B^2, scaled by B: total, on the curve, at the abscissa of the specification *)
Definition ell_x : fe -> fe -> Prop := ell2 fe f0 f1 fe_add fe_mul fe_sub fe_neg (fe_mul A bi) (fe_mul bi bi) z.
Theorem C83_mont_elligator2 u : exists x y, mont_elligator2 p A B bi z u = Some (MkM (fe_mul x B) (fe_mul y B) false) /\ m_on p A B (Aff (fe_mul x B) (fe_mul y B)) /\ ell_x u x /\ same_sign y u.
Proof. exact (mont_fwd p Pp PR A B bi z K HB NSQ u). Qed.
(* a curve with exactly one point of order two, and A nonzero *)
Hypothesis A0 : A <> f0.
Hypothesis ND : ~ is_sq (fe_sub (fe_mul A A) (fe_mul two two)).
Local Lemma nd s : fe_mul s s <> fe_sub (fe_mul A A) (fe_mul two two). Proof. intros E. apply ND. exists s. exact E. Qed.
(* the inverse is sound when it does not give zero, for every hint *)
Theorem C83_mont_invert2 q Q hint u : m_affine p q Q -> m_on p A B Q -> mont_invert2 p A B bi z q hint = Some (u, true) -> u <> f0 -> mont_elligator2 p A B bi z u = Some q.
Proof. rewrite <- affine_iff. exact (mont_inv p Pp PR A B bi z K HB NSQ A0 nd q Q hint u). Qed.
(* and finds every preimage but those with 1 + z u^2 = 0 *)
Theorem C83_mont_preimages u q : fe_add f1 (fe_mul z (fe_mul u u)) <> f0 -> mont_elligator2 p A B bi z u = Some q -> exists hint u', (hint = 0 \/ hint = 1) /\
  mont_invert2 p A B bi z q hint = Some (u', true) /\ fe_mul u' u' = fe_mul u u /\ (my p q <> f0 -> u' = u).
Proof. exact (mont_complete p Pp PR A B bi z K HB NSQ A0 u q). Qed.
(* octets: to_uniform gives a string of the right size that from_uniform maps to the point plus the torsion point of the hint *)
Theorem C83_mont_uniform T q Q R hint out : m_affine p T R -> m_on p A B R -> m_affine p q Q -> m_on p A B Q -> mont_point_to_uniform p A B bi z T q hint = Some (out, true) -> le_field out <> f0 ->
  length out = fsize p /\ exists r, mont_point_from_uniform p A B bi z out = Some r /\ m_affine p r (m_add p A B Q R).
Proof.
  rewrite <- !affine_iff. intros H1 H2 H3 H4 H5 H6. destruct (mont_uniform p Pp PR P5 A B bi z K HB NSQ A0 nd T q Q R hint out H1 H2 H3 H4 H5 H6) as (L & r & E & H). split; [exact L|]. exists r. split; [exact E|]. apply affine_iff. exact H.
Qed.
Theorem C83_mont_from_hash raw : exists r Q, mont_point_from_hash p A B bi z raw = Some r /\ m_affine p r Q /\ m_on p A B Q.
Proof. destruct (mont_from_hash p Pp PR P5 A B bi z K HB NSQ raw) as (r & Q & E & H). rewrite affine_iff in H. exists r, Q. auto. Qed.
(* a hash found for a point maps back to that point plus the torsion point, when no draw maps to a point of order two. Missing:
   the draws that the loop means to skip, for which it fails (C83_mont_hash_refuted) *)
Theorem C83_mont_hash_partial T R q Q stale draws out : m_affine p T R -> m_on p A B R -> m_affine p q Q -> m_on p A B Q -> (forall u1 h, In (u1, h) draws -> length u1 = fsize p) ->
  (forall u1 h g, In (u1, h) draws -> mont_point_from_uniform p A B bi z u1 = Some g -> my p g <> f0) ->
  point_to_hash (mge p) (mont_point_from_uniform p A B bi z) (fun g => fe_is_zero (my p g)) (mge_sub p A B) (mont_point_to_uniform p A B bi z T) q stale 0 draws = Some (Some out) ->
  le_field (skipn (fsize p) out) <> f0 -> exists r, mont_point_from_hash p A B bi z out = Some r /\ m_affine p r (m_add p A B Q R).
Proof.
  rewrite <- !affine_iff. intros H1 H2 H3 H4 H5 H6 H7 H8. destruct (mont_hash p Pp PR P5 A B bi z K HB NSQ A0 nd T q Q R stale 0 draws out H1 H2 H3 H4 H5) as (r & E & H); [|exact H7|exact H8|exists r; split; [exact E|apply affine_iff; exact H]].
  intros u1 h g I F. pose proof (H6 u1 h g I F) as N. destruct (is_zero_spec p (my p g)); [contradiction|reflexivity].
Qed.
End Mont.
Section Edwards.
Variables a d A B bi c z : fe.
Variable invert : bool.
Hypothesis K : complete fe f0 f1 fe_add fe_mul a d.
Hypothesis L : link p a d A B c invert.
Hypothesis HB : bi = fe_inv B.
Hypothesis NSQ : ~ is_sq z.
(* Elligator 2 followed by the isomorphism *)
Theorem C83_edwards_elligator2 u : exists x y q, edwards_elligator2 p A B bi c z invert u = Some q /\ m_on p A B (Aff (fe_mul x B) (fe_mul y B)) /\
  xpoint p a d q (ed_of p c invert (Aff (fe_mul x B) (fe_mul y B))) /\ ell_x A bi z u x /\ same_sign y u.
Proof. exact (ed_fwd p Pp PR a d A B bi c z invert K L HB NSQ u). Qed.
Hypothesis A0 : A <> f0.
Theorem C83_edwards_invert2 q Q hint u : xpoint p a d q Q -> edwards_invert2 p A bi c z invert q hint = Some (u, true) -> u <> f0 -> exists r, edwards_elligator2 p A B bi c z invert u = Some r /\ xpoint p a d r Q.
Proof. exact (ed_inv p Pp PR a d A B bi c z invert K L HB NSQ A0 q Q hint u). Qed.
Theorem C83_edwards_uniform T q Q R hint out : xaffine p a d T R -> xpoint p a d q Q -> edwards_point_to_uniform p a d A bi c z invert T q hint = Some (out, true) -> le_field out <> f0 ->
  length out = fsize p /\ exists r, edwards_point_from_uniform p A B bi c z invert out = Some r /\ xpoint p a d r (add p a d Q R).
Proof. exact (ed_uniform p Pp PR a d A B bi c z invert K L HB NSQ A0 T q Q R hint out). Qed.
Theorem C83_edwards_from_hash raw : exists r Q, edwards_point_from_hash p a d A B bi c z invert raw = Some r /\ xpoint p a d r Q.
Proof. exact (ed_from_hash p Pp PR a d A B bi c z invert K L HB NSQ raw). Qed.
(* likewise; missing: the draws that the loop means to skip (C83_edwards_hash_refuted) *)
Theorem C83_edwards_hash_partial T R q Q stale draws out : xaffine p a d T R -> xpoint p a d q Q -> (forall u1 h, In (u1, h) draws -> length u1 = fsize p) ->
  (forall u1 h g, In (u1, h) draws -> edwards_point_from_uniform p A B bi c z invert u1 = Some g -> xx p g <> f0) ->
  point_to_hash (xge p) (edwards_point_from_uniform p A B bi c z invert) (fun g => fe_is_zero (xx p g)) (xge_sub p a d) (edwards_point_to_uniform p a d A bi c z invert T) q stale 0 draws = Some (Some out) ->
  le_field (skipn (fsize p) out) <> f0 -> exists r, edwards_point_from_hash p a d A B bi c z invert out = Some r /\ xpoint p a d r (add p a d Q R).
Proof.
  intros H1 H2 H3 H4 H5 H6. refine (ed_hash p Pp PR a d A B bi c z invert K L HB NSQ A0 T q Q R stale 0 draws out H1 H2 H3 _ H5 H6).
  intros u1 h g I F. pose proof (H4 u1 h g I F) as N. destruct (is_zero_spec p (xx p g)); [contradiction|reflexivity].
Qed.
End Edwards.
Section Wei.
Variables a b z ai zi i2 i3 c : fe.
Variable h : Z.
Local Notation g := (fun x => fe_add (fe_add (fe_mul (fe_mul x x) x) (fe_mul a x)) b).
(* what the constants of a curve must satisfy for the simplified SWU map, and for the Shallue-van de Woestijne map *)
Definition sswu_ok : Prop := a <> f0 /\ b <> f0 /\ ~ is_sq z /\ ai = fe_inv a /\ zi = fe_inv z /\ (forall x, fe_mul (fe_mul z a) x = b -> is_sq (g x)).
Definition svdw_ok : Prop := a = f0 /\ z <> f0 /\ zi = fe_inv z /\ fe_mul i2 two = f1 /\ fe_mul i3 (fe_add two f1) = f1 /\
  fe_mul c c = fe_neg (fe_add (fe_add (fe_mul z z) (fe_mul z z)) (fe_mul z z)) /\ (forall x, fe_add x x = fe_sub c z -> is_sq (g x)).
Lemma gw_eq x : g_wei fe fe_add fe_mul a b x = g x. Proof. reflexivity. Qed.
Theorem C83_sswu u : sswu_ok -> exists x y, wei_sswu p a b z ai zi u = Some (MkW x y false) /\ WeiProps.on p a b (Aff x y) /\ sswu fe f0 f1 fe_add fe_mul fe_neg a b z u x /\ same_sign y u.
Proof. intros (AN & BN & ZN & AI & ZI & SP). exact (sswu_fwd p Pp PR a b z ai zi AN ZN AI ZI SP u). Qed.
Theorem C83_sswu_inverse x y hint u : sswu_ok -> WeiProps.on p a b (Aff x y) -> y <> f0 -> wei_sswui p a b z (MkW x y false) hint = Some (u, true) -> u <> f0 -> wei_sswu p a b z ai zi u = Some (MkW x y false).
Proof. intros (AN & BN & ZN & AI & ZI & SP). exact (sswu_inv p Pp PR a b z ai zi AN BN ZN AI ZI x y hint u). Qed.
Theorem C83_svdw u : svdw_ok -> exists x y, wei_svdw p a b z zi i2 i3 c u = Some (MkW x y false) /\ WeiProps.on p a b (Aff x y) /\ svdw fe f0 fe_add fe_mul fe_sub fe_neg b z c u x /\ same_sign y u.
Proof.
  intros (AZ & ZN & ZI & I2 & I3 & CC & SP). rewrite AZ in SP. destruct (svdw_fwd p Pp PR a b z zi i2 i3 c AZ P5 ZN ZI I2 I3 CC SP u) as (x & y & E & H). exists x, y. split; [exact E|]. rewrite AZ. exact H.
Qed.
Theorem C83_svdw_inverse x y hint u : svdw_ok -> WeiProps.on p a b (Aff x y) -> wei_svdwi p a b z zi i2 i3 c (MkW x y false) hint = Some (u, true) -> u <> f0 -> wei_svdw p a b z zi i2 i3 c u = Some (MkW x y false).
Proof.
  intros (AZ & ZN & ZI & I2 & I3 & CC & SP) O. rewrite AZ in SP. unfold WeiProps.on in O. rewrite AZ in O. exact (svdw_inv p Pp PR a b z zi i2 i3 c AZ P5 ZN ZI I2 I3 CC SP x y hint u O).
Qed.
(* octets and hashes, on curves without a point of order two *)
Hypothesis NS : nonsingular fe f0 f1 fe_add fe_mul a b.
Hypothesis NO2 : forall x, ~ WeiProps.on p a b (Aff x f0).
Hypothesis OKP : sswu_ok \/ svdw_ok.
Local Notation wpoint := (WeiProps.wpoint p a b).
Local Notation w_add := (WeiProps.add p a).
Local Lemma okp : a <> f0 /\ b <> f0 /\ ~ square fe fe_mul z /\ ai = fe_inv a /\ zi = fe_inv z /\ (forall x, fe_mul (fe_mul z a) x = b -> square fe fe_mul (g_wei fe fe_add fe_mul a b x)) \/
  a = f0 /\ z <> f0 /\ zi = fe_inv z /\ fe_mul i2 two = f1 /\ fe_mul i3 (fe_add two f1) = f1 /\ fe_mul c c = fe_neg (fe_add (fe_add (fe_mul z z) (fe_mul z z)) (fe_mul z z)) /\
  (forall x, fe_add x x = fe_sub c z -> square fe fe_mul (g_wei fe fe_add fe_mul f0 b x)).
Proof. destruct OKP as [H|(AZ & H)]; [left; exact H|right]. split; [exact AZ|]. rewrite AZ in H. exact H. Qed.
Local Notation tors R := (if 1 <? h then R else Inf).
Theorem C83_wei_uniform T q Q R hint out : wpoint T R -> wpoint q Q -> wei_point_to_uniform p a b z zi i2 i3 c h T q hint = Some (out, true) -> be_field out <> f0 ->
  length out = fsize p /\ exists r, wei_point_from_uniform p a b z ai zi i2 i3 c out = Some r /\ wpoint r (w_add Q (tors R)).
Proof.
  rewrite !WeiProps.wpoint_iff. intros H1 H2 H3 H4. destruct (wei_uniform p Pp PR P5 a b z ai zi i2 i3 c h NS NO2 okp T q Q R hint out H1 H2 H3 H4) as (L & r & E & H). split; [exact L|]. exists r. split; [exact E|]. apply WeiProps.wpoint_iff. exact H.
Qed.
Theorem C83_wei_from_hash raw : exists r Q, wei_point_from_hash p a b z ai zi i2 i3 c raw = Some r /\ wpoint r Q.
Proof. destruct (wei_from_hash p Pp PR P5 a b z ai zi i2 i3 c h NS NO2 okp raw) as (r & Q & E & H & _). exists r, Q. split; [exact E|]. apply WeiProps.wpoint_iff. exact H. Qed.
(* here no round is skipped, so the loop is sound whatever was on the stack *)
Theorem C83_wei_hash T R q Q stale draws out : wpoint T R -> wpoint q Q -> (forall u1 k, In (u1, k) draws -> length u1 = fsize p) ->
  point_to_hash (wge p) (wei_point_from_uniform p a b z ai zi i2 i3 c) (fun g => (1 <? h) && fe_is_zero (wy g)) (wge_sub p a) (wei_point_to_uniform p a b z zi i2 i3 c h T) q stale 0 draws = Some (Some out) ->
  be_field (skipn (fsize p) out) <> f0 -> exists r, wei_point_from_hash p a b z ai zi i2 i3 c out = Some r /\ wpoint r (w_add Q (tors R)).
Proof.
  rewrite !WeiProps.wpoint_iff. intros H1 H2 H3 H4 H5. destruct (wei_hash p Pp PR P5 a b z ai zi i2 i3 c h NS NO2 okp T q Q R stale 0 draws out H1 H2 H3 H4 H5) as (r & E & H). exists r. split; [exact E|]. apply WeiProps.wpoint_iff. exact H.
Qed.
End Wei.
End Maps.
(* ---- examples and refutations over small fields ---- *)
Definition mell (B z u : Z) := option_map mv (mont_elligator2 p29 (e29 4) (e29 B) (fe_inv (e29 B)) (e29 z) (e29 u)).
Definition minv (B z x y hint : Z) := option_map (fun r => (fv (fst r), snd r)) (mont_invert2 p29 (e29 4) (e29 B) (fe_inv (e29 B)) (e29 z) (MkM (e29 x) (e29 y) false) hint).
Lemma not_sq (p : positive) v : forallb (fun s => negb (s * s mod Zpos p =? v)) (zseq 0 (Pos.to_nat p)) = true -> forall x : fe p, fv x = v -> ~ is_sq p x.
Proof.
  intros A x E (s & S). pose proof (fv_range p s) as R. pose proof (forall_zseq _ 0 (Pos.to_nat p) A (fv s) ltac:(rewrite positive_nat_Z; lia)) as N. cbv beta in N.
  apply (f_equal (@fv p)) in S. change (fv (fe_mul s s)) with (fv s * fv s mod Zpos p) in S. rewrite S, E, Z.eqb_refl in N. discriminate N.
Qed.
Lemma mont_29 (v : Z) : (v = 1 \/ v = 2) -> mont_ok (fe p29) f0 f1 fe_add fe_mul (e29 4) (e29 v) /\ ~ is_sq p29 (e29 2) /\ e29 4 <> f0 /\ ~ is_sq p29 (fe_sub (fe_mul (e29 4) (e29 4)) (fe_mul (fe_add f1 f1) (fe_add f1 f1))).
Proof.
  intros V. assert (NE : forall x y : fe p29, fv x <> fv y -> x <> y) by (intros x y N E; apply N; rewrite E; reflexivity). refine (conj _ (conj _ (conj _ _))).
  - refine (conj _ _); try (destruct V as [-> | ->]); apply NE; vm_compute; discriminate.
  - apply (not_sq p29 2); vm_compute; reflexivity.
  - apply NE. vm_compute. discriminate.
  - apply (not_sq p29 12); vm_compute; reflexivity.
Qed.
(* every point of the curve that has a preimage, both ways; the last octet takes bits of the hint *)
Example C83_mont_ex : mell 2 2 13 = Some (2, 10, false) /\ minv 2 2 2 10 1 = Some (13, true) /\ minv 2 2 2 10 0 = Some (19, true) /\ mell 2 2 19 = Some (2, 10, false) /\
  mont_point_to_uniform p29 (e29 4) (e29 2) (fe_inv (e29 2)) (e29 2) (mge_zero p29) (mq [2; 10]) 0xff01 = Some ([237], true) /\ le_field p29 [237] = e29 13.
Proof. do 5 (split; [vm_compute; reflexivity|]). apply fe_eq. vm_compute. reflexivity. Qed.
(* an inverse that gives zero may be wrong: (25, 5) gives u = 0, but u = 0 gives (25, 24); so does (0, 0) *)
Theorem C83_mont_zero_refuted : exists B z x y hint, mont_ok (fe p29) f0 f1 fe_add fe_mul (e29 4) (e29 B) /\ ~ is_sq p29 (e29 z) /\ ~ is_sq p29 (fe_sub (fe_mul (e29 4) (e29 4)) (fe_mul (fe_add f1 f1) (fe_add f1 f1))) /\
  m_on p29 (e29 4) (e29 B) (Aff (e29 x) (e29 y)) /\ minv B z x y hint = Some (0, true) /\ mell B z 0 <> Some (x, y, false).
Proof.
  exists 1, 2, 25, 5, 0. destruct (mont_29 1 (or_introl eq_refl)) as (M & Z & _ & N). refine (conj M (conj Z (conj N (conj _ _)))); [apply fe_eq; vm_compute; reflexivity|]. split; [vm_compute; reflexivity|vm_compute; discriminate].
Qed.
Definition mhash (q stale : mge p29) (draws : list (list Z * Z)) := let A := e29 4 in let B := e29 2 in let bi := fe_inv B in
  point_to_hash (mge p29) (mont_point_from_uniform p29 A B bi (e29 2)) (fun g => fe_is_zero (my p29 g)) (mge_sub p29 A B) (mont_point_to_uniform p29 A B bi (e29 2) (mge_zero p29)) q stale 0 draws.
Definition munhash (raw : list Z) := option_map mv (mont_point_from_hash p29 (e29 4) (e29 2) (fe_inv (e29 2)) (e29 2) raw).
Example C83_mont_hash_ex : mhash (mq [2; 10]) (mge_zero p29) [([3], 0xff00); ([4], 0xff01)] = Some (Some [4; 250]) /\ munhash [4; 250] = Some (2, 10, false).
Proof. split; vm_compute; reflexivity. Qed.
(* `continue' in the do loop goes on to test the point p2 left from before: the hash for (2, 10) is one for another point *)
Theorem C83_mont_hash_refuted : exists x y stale draws out r, m_on p29 (e29 4) (e29 2) (Aff (e29 x) (e29 y)) /\ mhash (mq [x; y]) stale draws = Some (Some out) /\ fv (le_field p29 (skipn 1 out)) <> 0 /\ munhash out = Some r /\ r <> (x, y, false).
Proof. exists 2, 10, (mq [3; 2]), [([0], 0)], [0; 9], (10, 3, false). split; [apply fe_eq; vm_compute; reflexivity|]. split; [vm_compute; reflexivity|]. split; [vm_compute; discriminate|]. split; [vm_compute; reflexivity|discriminate]. Qed.
(* the same on the Edwards curve x^2 + y^2 = 1 + 3 x^2 y^2 *)
Definition ell29 (u : Z) := option_map show29 (edwards_elligator2 p29 (e29 4) (e29 2) (fe_inv (e29 2)) (e29 1) (e29 2) true (e29 u)).
Definition einv29 (x y hint : Z) := option_map (fun r => (fv (fst r), snd r)) (edwards_invert2 p29 (e29 4) (fe_inv (e29 2)) (e29 1) (e29 2) true (x29 x y) hint).
Definition ehash (q stale : xge p29) (draws : list (list Z * Z)) := let a := e29 1 in let d := e29 3 in let A := e29 4 in let B := e29 2 in let bi := fe_inv B in
  point_to_hash (xge p29) (edwards_point_from_uniform p29 A B bi (e29 1) (e29 2) true) (fun g => fe_is_zero (xx p29 g)) (xge_sub p29 a d) (edwards_point_to_uniform p29 a d A bi (e29 1) (e29 2) true (x29 0 1)) q stale 0 draws.
Definition eunhash (raw : list Z) := option_map show29 (edwards_point_from_hash p29 (e29 1) (e29 3) (e29 4) (e29 2) (fe_inv (e29 2)) (e29 1) (e29 2) true raw).
Example C83_edwards_ex : ell29 13 = Some (6, 3) /\ einv29 6 3 1 = Some (13, true) /\ ehash (x29 6 3) (x29 0 1) [([3], 0xff00); ([4], 0xff01)] = Some (Some [4; 250]) /\ eunhash [4; 250] = Some (6, 3).
Proof. repeat split; vm_compute; reflexivity. Qed.
Theorem C83_edwards_hash_refuted : exists x y stale draws out r, on p29 (e29 1) (e29 3) (e29 x, e29 y) /\ ehash (x29 x y) stale draws = Some (Some out) /\ fv (le_field p29 (skipn 1 out)) <> 0 /\ eunhash out = Some r /\ r <> (x, y).
Proof. exists 6, 3, (x29 6 3), [([0], 0)], [0; 19], (23, 26). split; [apply fe_eq; vm_compute; reflexivity|]. split; [vm_compute; reflexivity|]. split; [vm_compute; discriminate|]. split; [vm_compute; reflexivity|discriminate]. Qed.
(* ---- y^2 = x^3 + x + 3 over 43 elements with z = 2, and y^2 = x^3 + 7 with z = 2 and c = 17: c^2 = - 3 z^2 ---- *)
Definition c43 := WeiProps.c43.
Definition e43 : Z -> fe c43 := fe_of c43.
Lemma ne43 (x y : fe c43) : fv x <> fv y -> x <> y. Proof. intros N E. apply N. rewrite E. reflexivity. Qed.
Lemma uniq43 (k t : fe c43) v : forallb (fun x => (Z.eqb x v) || negb (fv k * x mod 43 =? fv t)) (zseq 0 43) = true -> forall x, fe_mul k x = t -> x = e43 v.
Proof.
  intros A x E. pose proof (fv_range c43 x) as R. pose proof (forall_zseq _ 0 43 A (fv x) R) as N. cbv beta in N. apply (f_equal (@fv c43)) in E. change (fv (fe_mul k x)) with (fv k * fv x mod 43) in E. rewrite E, Z.eqb_refl, Bool.orb_false_r in N. apply Z.eqb_eq in N.
  rewrite <- N. symmetry. apply (fe_of_fv c43).
Qed.
Example C83_sswu_ok_ex : sswu_ok c43 (e43 1) (e43 3) (e43 2) (fe_inv (e43 1)) (fe_inv (e43 2)).
Proof.
  refine (conj _ (conj _ (conj _ (conj eq_refl (conj eq_refl _))))); [apply ne43; vm_compute; discriminate|apply ne43; vm_compute; discriminate|apply (not_sq c43 2); vm_compute; reflexivity|].
  intros x E. apply (uniq43 _ _ 23) in E; [|vm_compute; reflexivity]. rewrite E. exists (e43 14). apply fe_eq. vm_compute. reflexivity.
Qed.
Example C83_svdw_ok_ex : svdw_ok c43 (e43 0) (e43 7) (e43 2) (fe_inv (e43 2)) (e43 22) (e43 29) (e43 17).
Proof.
  refine (conj _ (conj _ (conj eq_refl (conj _ (conj _ (conj _ _)))))); [apply fe_eq; vm_compute; reflexivity|apply ne43; vm_compute; discriminate|apply fe_eq; vm_compute; reflexivity|apply fe_eq; vm_compute; reflexivity|apply fe_eq; vm_compute; reflexivity|].
  intros x E. assert (E2 : fe_mul (e43 2) x = e43 15). { transitivity (fe_add x x); [|rewrite E; apply fe_eq; vm_compute; reflexivity]. apply fe_eq. change (fv (e43 2) * fv x mod 43 = (fv x + fv x) mod 43). change (fv (e43 2)) with 2. f_equal. lia. }
  apply (uniq43 _ _ 29) in E2; [|vm_compute; reflexivity]. rewrite E2. exists (e43 12). apply fe_eq. vm_compute. reflexivity.
Qed.
Definition sswu43 (u : Z) := option_map WeiProps.show (wei_sswu c43 (e43 1) (e43 3) (e43 2) (fe_inv (e43 1)) (fe_inv (e43 2)) (e43 u)).
Definition sswui43 (x y hint : Z) := option_map (fun r => (fv (fst r), snd r)) (wei_sswui c43 (e43 1) (e43 3) (e43 2) (WeiProps.w43 x y) hint).
Definition svdw43 (u : Z) := option_map WeiProps.show (wei_svdw c43 (e43 0) (e43 7) (e43 2) (fe_inv (e43 2)) (e43 22) (e43 29) (e43 17) (e43 u)).
Definition svdwi43 (x y hint : Z) := option_map (fun r => (fv (fst r), snd r)) (wei_svdwi c43 (e43 0) (e43 7) (e43 2) (fe_inv (e43 2)) (e43 22) (e43 29) (e43 17) (WeiProps.w43 x y) hint).
Example C83_wei_ex : sswu43 1 = Some (36, 13, false) /\ sswu43 5 = Some (10, 29, false) /\ sswui43 10 29 0 = Some (5, true) /\ svdw43 4 = Some (12, 12, false) /\ svdwi43 12 12 3 = Some (4, true) /\ svdw43 9 = Some (25, 25, false) /\ svdwi43 25 25 1 = Some (9, true).
Proof. repeat split; vm_compute; reflexivity. Qed.
(* zero is wrong here too: at x = - b / a for the one, at an odd ordinate above (c - z) / 2 for the other *)
Theorem C83_sswu_zero_refuted : exists x y hint, WeiProps.on c43 (e43 1) (e43 3) (Aff (e43 x) (e43 y)) /\ y <> 0 /\ sswui43 x y hint = Some (0, true) /\ sswu43 0 <> Some (x, y, false).
Proof. exists 40, 4, 2. split; [apply fe_eq; vm_compute; reflexivity|]. split; [discriminate|]. split; [vm_compute; reflexivity|vm_compute; discriminate]. Qed.
Theorem C83_svdw_zero_refuted : exists x y hint, WeiProps.on c43 (e43 0) (e43 7) (Aff (e43 x) (e43 y)) /\ svdwi43 x y hint = Some (0, true) /\ svdw43 0 <> Some (x, y, false).
Proof. exists 29, 31, 0. split; [apply fe_eq; vm_compute; reflexivity|]. split; [vm_compute; reflexivity|vm_compute; discriminate]. Qed.

(* the axioms of every theorem above, listed at once *)
Definition CurveMapsProps_all := (@C83_mont_elligator2, @C83_mont_invert2, @C83_mont_preimages, @C83_mont_uniform, @C83_mont_from_hash, @C83_mont_hash_partial,
  @C83_edwards_elligator2, @C83_edwards_invert2, @C83_edwards_uniform, @C83_edwards_from_hash, @C83_edwards_hash_partial, @C83_sswu, @C83_sswu_inverse,
  @C83_svdw, @C83_svdw_inverse, @C83_wei_uniform, @C83_wei_from_hash, @C83_wei_hash, @C83_mont_zero_refuted, @C83_mont_hash_refuted, @C83_edwards_hash_refuted,
  @C83_sswu_zero_refuted, @C83_svdw_zero_refuted).
Print Assumptions CurveMapsProps_all.
