(* C65 (Edwards part), C79: the twisted Edwards formulas, multiplications and point encoding of ecc.c. *)
From Coq Require Import Znumtheory.
From Verif.Base Require Import Prelude.
From Verif.Spec Require Import EcSpec EdSpec DsaSpec EddsaSpec.
From Verif.Model Require Import Bio Field EcScalar Wei Primes Edwards Eddsa.
From Verif.Proof Require Import PrimesProof FieldProof GrpMul EdGroup EdProof EdMul EdCodec.
Section C.
Variable p : positive.
Variables a d : fe p.
Local Notation pt := (fe p * fe p)%type.
(* the curve a x^2 + y^2 = 1 + d x^2 y^2 over Z/p of EdSpec *)
Definition on (P : pt) : Prop := on_ed (fe p) f1 fe_add fe_mul a d P.
Definition add (P Q : pt) : pt := ed_add (fe p) f1 fe_add fe_mul fe_sub (fun x y => fe_mul x (fe_inv y)) a d P Q.
Definition neg (P : pt) : pt := ed_neg (fe p) fe_neg P.
Definition zero : pt := (f0, f1).
Definition nmul (k : Z) (P : pt) : pt := zmul pt add zero neg k P.
Hypothesis Pp : prime (Zpos p).
Hypothesis P3 : 2 < Zpos p.
(* a a nonzero square and d none *)
Hypothesis K : complete (fe p) f0 f1 fe_add fe_mul a d.
(* (X : Y : T : Z) with z nonzero stands for (X / Z, Y / Z) and T Z = X Y *)
Definition xpoint (q : xge p) (P : pt) : Prop :=
  on P /\ xz p q <> f0 /\ xx p q = fe_mul (fst P) (xz p q) /\ xy p q = fe_mul (snd P) (xz p q) /\ xt p q = fe_mul (fe_mul (fst P) (snd P)) (xz p q).
Definition xaffine (q : xge p) (P : pt) : Prop := xpoint q P /\ xz p q = f1.
Theorem C65_ed_group : group_laws pt on add zero neg.
Proof. exact (laws p Pp a d K). Qed.
(* one formula for all inputs: doubling, inverses and the neutral element included *)
Theorem C65_ed_formulas q r P Q : xpoint q P -> xpoint r Q ->
  xpoint (xge_add p a d q r) (add P Q) /\ xpoint (xge_sub p a d q r) (add P (neg Q)) /\ xpoint (xge_dbl p a q) (add P P) /\ xpoint (xge_neg p q) (neg P) /\
  (xge_equal p q r = true <-> P = Q) /\ (xge_is_zero p q = true <-> P = zero).
Proof.
  intros H H'. refine (conj _ (conj _ (conj _ (conj _ (conj _ _))))).
  - exact (add_rep p Pp a d K q r P Q H H').
  - exact (sub_rep p Pp a d K q r P Q H H').
  - exact (dbl_rep p Pp a d K q P H).
  - exact (neg_rep p a d q P H).
  - exact (equal_rep p Pp a d q r P Q H H').
  - exact (is_zero_rep p Pp a d q P H).
Qed.
Theorem C65_ed_mixed q r P Q : xpoint q P -> xaffine r Q -> xpoint (xge_mixed_add p a d q r) (add P Q) /\ xpoint (xge_mixed_sub p a d q r) (add P (neg Q)).
Proof. intros H H'. split; [exact (madd_rep p Pp a d K q r P Q H H')|exact (msub_rep p Pp a d K q r P Q H H')]. Qed.
(* membership tests accept exactly the points of the curve *)
Theorem C65_ed_validate : (forall x y, edwards_validate_xy p a d x y = true <-> on (x, y)) /\ (forall q, xge_validate p a d q = true <-> exists P, xpoint q P).
Proof. split; [exact (validate_ok p a d)|exact (xvalidate_ok p Pp a d)]. Qed.
(* simultaneous inversion *)
Theorem C65_ed_normalize l Ps : Forall2 xpoint l Ps -> exists out, xge_normalize_all_var p l = Some out /\ Forall2 xaffine out Ps.
Proof. exact (normalize_ok p Pp P3 a d l Ps). Qed.
(* the constant time window walk: exact for scalars of sbits bits, and for longer ones it reads the low 4 ceil(sbits / 4) bits *)
Theorem C65_ed_mul sbits q P k : xpoint q P -> xpoint (edwards_mul p a d sbits q k) (nmul (k mod 2 ^ (4 * ((Z.of_nat sbits + 3) / 4))) P).
Proof.
  intros H. pose proof (edwards_mul_any p Pp a d K sbits q P k H) as R. replace (2 ^ (4 * ((Z.of_nat sbits + 3) / 4))) with (16 ^ Z.of_nat (xnsteps sbits)); [exact R|].
  rewrite Z.pow_mul_r; [|lia|apply Z.div_pos; lia]. change (2 ^ 4) with 16. f_equal. unfold xnsteps. rewrite Nat2Z.inj_div, Nat2Z.inj_add. reflexivity.
Qed.
(* ---- C79: the encoding ---- *)
Hypothesis R : Zpos p mod 4 = 3 \/ Zpos p mod 8 = 5.
Definition enc (P : pt) : list Z := ed_enc (Zpos p) (fv (fst P)) (fv (snd P)).
Theorem C79_enc_injective P Q : on P -> on Q -> enc P = enc Q -> P = Q.
Proof. destruct P as [x y], Q as [x' y']. exact (enc_inj p Pp R a d K x y x' y'). Qed.
(* an import answers for every string of the right length and accepts exactly the encodings; in particular y < p and, when x = 0, sign 0 *)
Theorem C79_import_exact c raw : x_a p c = a -> x_d p c = d -> bytes raw -> length raw = ed_octs (Zpos p) ->
  exists q ok, xge_import p c raw = Some (q, ok) /\ (ok = true <-> exists P, on P /\ raw = enc P) /\ (forall P, on P -> raw = enc P -> xaffine q P) /\ (ok = false -> exists P, xaffine q P).
Proof.
  intros Ca Cd B L. destruct (import_ok p Pp R a d K c Ca Cd raw L B) as (q & ok & E & H1 & H2 & H3). exists q, ok. refine (conj E (conj (conj _ _) (conj _ _))).
  - intros T. destruct (H1 T) as (x & y & A & EQ). exists (x, y). split; [exact (proj1 (proj1 A))|exact EQ].
  - intros ((x & y) & O & EQ). exact (proj1 (H3 x y O EQ)).
  - intros (x & y) O EQ. exact (proj2 (H3 x y O EQ)).
  - intros _. exact H2.
Qed.
Theorem C79_export q P : xpoint q P -> xge_export p q = Some (enc P) /\ bytes (enc P) /\ length (enc P) = ed_octs (Zpos p).
Proof. destruct P as [x y]. intros H. refine (conj (export_ok p Pp R a d q x y H) (conj _ _)); [apply enc_bytes|apply enc_length]. Qed.
(* hence no two accepted strings decode to the same point *)
Theorem C79_import_export c raw q : x_a p c = a -> x_d p c = d -> bytes raw -> length raw = ed_octs (Zpos p) -> xge_import p c raw = Some (q, true) -> xge_export p q = Some raw.
Proof.
  intros Ca Cd B L E. destruct (C79_import_exact c raw Ca Cd B L) as (q' & ok & E' & [H1 _] & H2 & _). rewrite E in E'. injection E' as <- <-. destruct (H1 eq_refl) as (P & O & EQ).
  rewrite EQ. exact (proj1 (C79_export q P (proj1 (H2 P O EQ)))).
Qed.
End C.

(* -x^2 + y^2 = 1 + 2 x^2 y^2 over Z/29: 28 points, (2, 22) of order 7 *)
Definition p29 : positive := 29%positive.
Definition e29 : Z -> fe p29 := fe_of p29.
Lemma p29_ok : prime (Zpos p29).
Proof. apply isprime_spec; [reflexivity|]. vm_compute. reflexivity. Qed.
Lemma k29 : complete (fe p29) f0 f1 fe_add fe_mul (e29 28) (e29 2).
Proof.
  refine (conj _ (conj _ (conj _ _))).
  - exists (e29 12). apply fe_eq. vm_compute. reflexivity.
  - intros E. apply (f_equal (@fv p29)) in E. vm_compute in E. discriminate E.
  - intros s E. assert (A : forallb (fun v => negb (v * v mod 29 =? 2)) (zseq 0 29) = true) by (vm_compute; reflexivity).
    pose proof (forall_zseq _ 0 29 A (fv s) (fv_range _ s)) as N. cbv beta in N. apply (f_equal (@fv p29)) in E. change (fv (fe_mul s s)) with (fv s * fv s mod 29) in E. rewrite E in N. discriminate N.
  - intros E. apply (f_equal (@fv p29)) in E. vm_compute in E. discriminate E.
Qed.
Definition pt29 (x y : Z) : fe p29 * fe p29 := (e29 x, e29 y).
Definition x29 (x y : Z) : xge p29 := xge_finish p29 (e29 x) (e29 y) true.
Definition show29 (q : xge p29) : Z * Z := let z := fe_inv (xz p29 q) in (fv (fe_mul (xx p29 q) z), fv (fe_mul (xy p29 q) z)).
Example C65_ed_ex : on p29 (e29 28) (e29 2) (pt29 2 22) /\ show29 (xge_dbl p29 (e29 28) (x29 2 22)) = show29 (xge_add p29 (e29 28) (e29 2) (x29 2 22) (x29 2 22)) /\
  show29 (edwards_mul p29 (e29 28) (e29 2) 5 (x29 2 22) 7) = (0, 1) /\ show29 (edwards_mul p29 (e29 28) (e29 2) 5 (x29 2 22) (7 + 256 * 3)) = (0, 1) /\
  show29 (xge_add p29 (e29 28) (e29 2) (x29 2 22) (xge_neg p29 (x29 2 22))) = (0, 1) /\ xge_validate p29 (e29 28) (e29 2) (x29 2 22) = true /\ edwards_validate_xy p29 (e29 28) (e29 2) (e29 2) (e29 21) = false.
Proof. split; [apply fe_eq; vm_compute; reflexivity|]. vm_compute. repeat split; reflexivity. Qed.
Definition ed29 (naf : list (xge p29)) : edw p29 := MkEdw p29 (e29 28) (e29 2) 4 7 Hash.MD4 false [] (x29 2 22) [] naf 0 (xge_zero p29).
Definition ok29 (raw : list Z) : option bool := option_map snd (xge_import p29 (ed29 []) raw).
(* 22 with x = 2 even; the other sign is (27, 22); y = 22 + 29 and the negative zero (0, 1) are refused *)
Example C79_ex : xge_export p29 (x29 2 22) = Some [22] /\ option_map (fun r => show29 (fst r)) (xge_import p29 (ed29 []) [22]) = Some (2, 22) /\
  option_map (fun r => show29 (fst r)) (xge_import p29 (ed29 []) [128 + 22]) = Some (27, 22) /\ ok29 [51] = Some false /\ ok29 [1] = Some true /\ ok29 [129] = Some false /\ ok29 [2] = Some false.
Proof. vm_compute. repeat split; reflexivity. Qed.

(* the axioms of every theorem above, listed at once *)
Definition EdwardsProps_all := (@C65_ed_group, @C65_ed_formulas, @C65_ed_mixed, @C65_ed_validate, @C65_ed_normalize, @C65_ed_mul, @C79_enc_injective,
  @C79_import_exact, @C79_export, @C79_import_export).
Print Assumptions EdwardsProps_all.
