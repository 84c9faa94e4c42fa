(* C94 decoding of ristretto elements: exact, and one string per coset. *)
From Coq Require Import Znumtheory.
From Verif.Base Require Import Prelude.
From Verif.Spec Require Import EcSpec EdSpec DsaSpec.
From Verif.Model Require Import Hash NumTheory Field EcScalar Ecdsa Edwards Eddsa RistrettoEq RistrettoImport.
From Verif.Proof Require Import Rfc6979 FieldProof EcCodec EdGroup EdProof RistrettoEqProof RistrettoImportProof.
From Verif.Proof Require EdCodec.
From Verif.Props Require Import EdwardsProps RistrettoEqProps.
Section C.
Variable p : positive.
Variables a d : fe p.
Hypothesis Pp : prime (Zpos p).
Hypothesis PR : Zpos p mod 4 = 3 \/ Zpos p mod 8 = 5.
(* a a nonzero square and d none *)
Hypothesis K : complete (fe p) f0 f1 fe_add fe_mul a d.
(* a = 1 or a = -1; rs->adm1s exists *)
Hypothesis A2 : fe_mul a a = f1.
Hypothesis R1 : exists r : fe p, fe_mul r r = fe_sub (fe_mul a d) f1.
Variable c : edw p.
Hypothesis Ca : x_a p c = a.
Hypothesis Cd : x_d p c = d.
Local Notation on := (on p a d).
Definition even (x : fe p) : Prop := Z.odd (fv x) = false.
Definition string (raw : list Z) : Prop := bytes raw /\ length raw = octs (Zpos p).
(* raw is a canonical even s with y = (1 + a s^2) / (1 - a s^2), x is even and on the curve; with cofactor 8 also x y is even and y nonzero *)
Definition decodes (raw : list Z) (P : fe p * fe p) : Prop :=
  let s := fe_of p (le_val raw) in let as2 := fe_mul a (fe_mul s s) in
  le_val raw < Zpos p /\ Z.odd (le_val raw) = false /\ on P /\ even (fst P) /\ fe_mul (snd P) (fe_sub f1 as2) = fe_add f1 as2 /\
  (x_h p c = 8 -> even (fe_mul (fst P) (snd P)) /\ snd P <> f0).
Lemma fv_small v : 0 <= v < Zpos p -> fv (fe_of p v) = v. Proof. intros R. rewrite fv_of. apply Z.mod_small. exact R. Qed.
Lemma xfe_eq raw : bytes raw -> le_val raw < Zpos p -> fst (xfe_import p raw) = fe_of p (le_val raw).
Proof. intros B L. pose proof (le_val_range raw B). unfold xfe_import, fbits. cbn [fst]. rewrite sc_bitlen_blen by reflexivity. pose proof (blen_range (Zpos p) eq_refl). rewrite Z.mod_small by lia. reflexivity. Qed.
Lemma decodes_core raw x y : bytes raw -> (decodes raw (x, y) <-> le_val raw < Zpos p /\ core p a d (fe_of p (le_val raw)) x y /\ extra p c x y).
Proof.
  intros B. pose proof (le_val_range raw B) as R. unfold decodes, core, extra, even, fe_is_odd. cbv zeta. cbn [fst snd]. change (on (x, y)) with (eon p a d (x, y)). split.
  - intros (L & O & H1 & H2 & H3 & H4). rewrite fv_small by lia. tauto.
  - intros (L & H). rewrite fv_small in H by lia. tauto.
Qed.
(* C94: fe_rsqrt gives the even root of u / v, exactly when there is one *)
Theorem C94_rsqrt (u v : fe p) : exists z ok, fe_rsqrt p u v = Some (z, ok) /\ (ok = true <-> v <> f0 /\ exists t, fe_mul (fe_mul t t) v = u) /\ (ok = true -> fe_mul (fe_mul z z) v = u) /\ even z.
Proof.
  destruct (rsqrt_total p PR u v) as (z & ok & E). exists z, ok. split; [exact E|]. split; [split|split].
  - intros ->. destruct (rsqrt_sound p Pp PR u v z E) as (N & R). split; [exact N|]. exists z. exact R.
  - intros (N & t & T). destruct (rsqrt_complete p Pp PR u v t N T) as (z' & E'). rewrite E in E'. injection E' as _ ->. reflexivity.
  - intros ->. exact (proj2 (rsqrt_sound p Pp PR u v z E)).
  - unfold fe_rsqrt in E. destruct (fe_isqrt p u v) as [[r k]|]; [|discriminate]. injection E as <- _. change (fe_is_odd (fe_set_odd r false) = false). destruct (is_zero_spec p r) as [-> |N]; [rewrite (set_odd_zero p); exact (f0_even p)|exact (set_odd_parity p Pp (EdCodec.P3 p Pp PR) r false N)].
Qed.
(* C94: rge_import accepts exactly the strings that decode to a point, and gives that point *)
Theorem C94_import raw : bytes raw -> exists q ok, rge_import p c raw = Some (q, ok) /\ (ok = true <-> exists P, decodes raw P) /\ (forall P, decodes raw P -> xaffine p a d q P).
Proof.
  intros B. destruct (import_ok p Pp PR a d K A2 R1 c Ca Cd raw) as (q & ok & E & S & T). exists q, ok. split; [exact E|].
  assert (C : forall P, decodes raw P -> ok = true). { intros [x y] H. apply (decodes_core raw x y B) in H. destruct H as (L & C & X). apply (T x y); [apply Z.ltb_lt; exact L|rewrite (xfe_eq raw B L); exact C|exact X]. }
  assert (D : ok = true -> exists x y, q = MkX x y f1 (fe_mul x y) /\ decodes raw (x, y)).
  { intros O. destruct (S O) as (L & x & y & Eq & C' & X). apply Z.ltb_lt in L. rewrite (xfe_eq raw B L) in C'. exists x, y. split; [exact Eq|]. apply (decodes_core raw x y B). tauto. }
  split; [split; [intros O; destruct (D O) as (x & y & _ & H); exists (x, y); exact H|intros (P & H); exact (C P H)]|].
  intros [x y] H. destruct (D (C _ H)) as (x' & y' & -> & H'). apply (decodes_core raw _ _ B) in H, H'. destruct H as (_ & H & _), H' as (_ & H' & _). destruct (core_unique p Pp PR a d K A2 _ _ _ _ _ H H') as (-> & ->).
  pose proof (proj1 (proj2 (proj2 H'))) as O. exact (finish_rep p Pp a d x' y' O).
Qed.
(* C94: to one point only *)
Theorem C94_unique raw P Q : bytes raw -> decodes raw P -> decodes raw Q -> P = Q.
Proof.
  intros B H H'. destruct P as [x y], Q as [x' y']. apply (decodes_core raw _ _ B) in H, H'. destruct H as (_ & H & _), H' as (_ & H' & _). destruct (core_unique p Pp PR a d K A2 _ _ _ _ _ H H') as (-> & ->). reflexivity.
Qed.
Hypothesis Ch : x_h p c = 4 \/ (x_h p c = 8 /\ a = fe_neg f1).
(* C94: no two strings decode into one coset of the points killed by h / 2 *)
Theorem C94_canonical raw raw' P Q : string raw -> string raw' -> decodes raw P -> decodes raw' Q -> same p a d c P Q -> raw = raw' /\ P = Q.
Proof.
  intros (B & L) (B' & L') H H' S. assert (O : on P) by (destruct H as (_ & _ & H & _); exact H). assert (O' : on Q) by (destruct H' as (_ & _ & H' & _); exact H').
  assert (RP : forall R, on R -> xpoint p a d (MkX (fst R) (snd R) f1 (fe_mul (fst R) (snd R))) R) by (intros [x y] OR; exact (proj1 (finish_rep p Pp a d x y OR))).
  apply (C93_equal p a d Pp K c Ch _ _ P Q (RP P O) (RP Q O')) in S. apply (rge_equal_iff p Pp a d c _ _ P Q (RP P O) (RP Q O')) in S.
  rewrite (surjective_pairing P) in H. rewrite (surjective_pairing Q) in H'. apply (decodes_core raw _ _ B) in H. apply (decodes_core raw' _ _ B') in H'. destruct H as (R & C & X), H' as (R' & C' & X').
  assert (E : P = Q). { destruct S as [S|(E8 & S)]; [exact (coset_2 p Pp PR a d K A2 _ _ P Q C C' S)|]. exfalso. destruct (X E8) as (X1 & X2), (X' E8) as (X1' & X2'). assert (A : a = fe_neg f1) by (destruct Ch as [E4|(_ & A)]; [rewrite E4 in E8; discriminate|exact A]). exact (coset_4 p Pp PR a d K _ _ P Q A C C' X1 X1' X2 X2' S). }
  split; [|exact E]. subst Q. pose proof (core_inj p Pp PR a d K A2 _ _ _ _ C C') as ES. apply (f_equal (fun s : fe p => fv s)) in ES. pose proof (le_val_range raw B). pose proof (le_val_range raw' B'). rewrite !fv_small in ES by lia.
  rewrite <- (le_bytes_le_val raw B), <- (le_bytes_le_val raw' B'), L, L', ES. reflexivity.
Qed.
(* C94: so elements read from two strings compare equal exactly when the strings are the same *)
Theorem C94_compare raw raw' q r : string raw -> string raw' -> rge_import p c raw = Some (q, true) -> rge_import p c raw' = Some (r, true) -> (rge_equal p c q r = true <-> raw = raw').
Proof.
  intros S S' E E'. destruct (C94_import raw (proj1 S)) as (q' & ok & F & A & D). rewrite E in F. injection F as <- <-. destruct (C94_import raw' (proj1 S')) as (r' & ok & F & A' & D'). rewrite E' in F. injection F as <- <-.
  destruct (proj1 A eq_refl) as (P & HP), (proj1 A' eq_refl) as (Q & HQ). pose proof (proj1 (D P HP)) as X. pose proof (proj1 (D' Q HQ)) as Y. rewrite (C93_equal p a d Pp K c Ch q r P Q X Y). split.
  - intros W. exact (proj1 (C94_canonical raw raw' P Q S S' HP HQ W)).
  - intros <-. apply (C93_equal p a d Pp K c Ch q r P Q X Y). rewrite E in E'. injection E' as <-. exact (proj1 (C93_quotient p a d Pp K c Ch q q q q P P P P X X X X)).
Qed.
(* C94: zeros are the neutral element *)
Theorem C94_zero : decodes (le_bytes (octs (Zpos p)) 0) (zero p).
Proof.
  assert (V : le_val (le_bytes (octs (Zpos p)) 0) = 0) by (rewrite le_val_le_bytes; apply Z.mod_0_l; apply Z.pow_nonzero; lia). unfold decodes. rewrite V. cbv zeta. unfold zero, even. cbn [fst snd].
  assert (Z0 : fe_of p 0 = f0) by reflexivity. rewrite Z0. assert (M : forall u : fe p, fe_mul f0 u = f0) by (exact (zero_l p)). rewrite !M. replace (fe_mul a f0) with (@f0 p) by (rewrite (Rmul_comm (ring_th p)), M; reflexivity).
  split; [lia|]. split; [reflexivity|]. split; [exact (on_zero p a d)|]. rewrite fv_f0. split; [reflexivity|]. split.
  - rewrite (Rmul_1_l (ring_th p)), (Rsub_def (ring_th p)). f_equal.
  - intros _. split; [reflexivity|]. intros E. apply (proj2 (proj2 (proj2 K))). rewrite E. apply (Radd_0_l (ring_th p)).
Qed.
End C.
(* ---- -x^2 + y^2 = 1 + 3 x^2 y^2 over Z/29: -3 - 1 is the square of 5 ---- *)
Lemma k29r : complete (fe p29) f0 f1 fe_add fe_mul (e29 28) (e29 3).
Proof.
  refine (conj _ (conj _ (conj _ _))).
  - exists (e29 12). apply fe_eq. vm_compute. reflexivity.
  - intros E. apply (f_equal (@fv p29)) in E. vm_compute in E. discriminate E.
  - intros s E. assert (A : forallb (fun v => negb (v * v mod 29 =? 3)) (zseq 0 29) = true) by (vm_compute; reflexivity).
    pose proof (forall_zseq _ 0 29 A (fv s) (fv_range _ s)) as N. cbv beta in N. apply (f_equal (@fv p29)) in E. change (fv (fe_mul s s)) with (fv s * fv s mod 29) in E. rewrite E in N. discriminate N.
  - intros E. apply (f_equal (@fv p29)) in E. vm_compute in E. discriminate E.
Qed.
Definition r29 (h : Z) : edw p29 := MkEdw p29 (e29 28) (e29 3) h 7 MD4 false [] (xge_zero p29) [] [] 0 (xge_zero p29).
Definition read29 (h : Z) (b : Z) : option (Z * Z * bool) := match rge_import p29 (r29 h) [b] with Some (q, ok) => Some (fv (xx p29 q), fv (xy p29 q), ok) | None => None end.
Definition taken29 (h : Z) : list (Z * option (Z * Z * bool)) := filter (fun t => match snd t with Some (_, _, ok) => ok | None => false end) (map (fun b => (b, read29 h b)) (zseq 0 256)).
Lemma hyps29 : Zpos p29 mod 8 = 5 /\ fe_mul (e29 28) (e29 28) = f1 /\ (exists r, fe_mul r r = fe_sub (fe_mul (e29 28) (e29 3)) f1) /\ e29 28 = fe_neg f1.
Proof. split; [reflexivity|]. split; [apply fe_eq; vm_compute; reflexivity|]. split; [exists (e29 5)|]; apply fe_eq; vm_compute; reflexivity. Qed.
(* the octets taken with each cofactor, and their points; an instance of C94_compare *)
Example C94_ex : taken29 4 = [(0, Some (0, 1, true)); (2, Some (14, 11, true)); (4, Some (16, 23, true)); (14, Some (14, 18, true)); (22, Some (16, 6, true)); (28, Some (12, 0, true))] /\
  taken29 8 = [(0, Some (0, 1, true)); (4, Some (16, 23, true)); (14, Some (14, 18, true))] /\
  forall q r, rge_import p29 (r29 8) [4] = Some (q, true) -> rge_import p29 (r29 8) [14] = Some (r, true) -> rge_equal p29 (r29 8) q r <> true.
Proof.
  split; [vm_compute; reflexivity|]. split; [vm_compute; reflexivity|]. destruct hyps29 as (H1 & H2 & H3 & H4). intros q r Q R E.
  assert (S : forall b, 0 <= b < 256 -> string p29 [b]) by (intros b W; split; [apply bytes_cons; split; [exact W|constructor]|reflexivity]).
  apply (C94_compare p29 (e29 28) (e29 3) p29_ok (or_intror H1) k29r H2 H3 (r29 8) eq_refl eq_refl (or_intror (conj eq_refl H4)) [4] [14] q r (S 4 ltac:(lia)) (S 14 ltac:(lia)) Q R) in E. discriminate.
Qed.
(* 1 / 4 = 15^2 = 14^2: the even root; 1 / 2 has none, 1 / 0 neither *)
Example C94_rsqrt_ex : map (fun v => match fe_rsqrt p29 f1 (e29 v) with Some (z, true) => Some (fv z) | _ => None end) [1; 4; 2; 0] = [Some 28; Some 14; None; None].
Proof. vm_compute. reflexivity. Qed.

(* the axioms of every theorem above, listed at once *)
Definition RistrettoImportProps_all := (@C94_rsqrt, @C94_import, @C94_unique, @C94_canonical, @C94_compare, @C94_zero).
Print Assumptions RistrettoImportProps_all.
