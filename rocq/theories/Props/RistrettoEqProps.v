(* C93 the comparisons of ristretto elements: equality of cosets of the points killed by half the cofactor. *)
From Coq Require Import Znumtheory.
From Verif.Base Require Import Prelude.
From Verif.Spec Require Import EcSpec EdSpec.
From Verif.Model Require Import Hash NumTheory Field EcScalar Edwards Eddsa RistrettoEq.
From Verif.Proof Require Import FieldProof GrpMul EdGroup EdProof RistrettoEqProof.
From Verif.Props Require Import EdwardsProps EddsaProps.
From Verif.Props Require ConvProps.
Section C.
Variable p : positive.
Variables a d : fe p.
Hypothesis Pp : prime (Zpos p).
(* a a nonzero square and d none *)
Hypothesis K : complete (fe p) f0 f1 fe_add fe_mul a d.
Local Notation on := (on p a d).
Local Notation add := (add p a d).
Local Notation neg := (neg p).
Local Notation zero := (zero p).
Local Notation nmul := (nmul p a d).
Local Notation point := (xpoint p a d).
Local Notation L := (laws p Pp a d K).
(* any context with cofactor 4, or with cofactor 8 and a = -1; nothing else in it is read *)
Variable c : edw p.
Hypothesis H : x_h p c = 4 \/ (x_h p c = 8 /\ a = fe_neg f1).
(* the same coset of the points killed by h / 2 *)
Definition same (P Q : fe p * fe p) : Prop := nmul (x_h p c / 2) (add P (neg Q)) = zero.
Lemma nmul2 P : on P -> nmul 2 P = add P P.
Proof. intros O. etransitivity; [exact (zm_double _ _ _ _ _ L 1 P O)|]. rewrite (zm_1 _ _ _ _ _ L P O). reflexivity. Qed.
Lemma nmul4 P : on P -> nmul 4 P = add (add P P) (add P P).
Proof. intros O. etransitivity; [exact (zm_double _ _ _ _ _ L 2 P O)|]. pose proof (nmul2 P O) as E. unfold EdwardsProps.nmul in E. rewrite <- E. reflexivity. Qed.
Lemma minus_a u : a = fe_neg f1 -> fe_mul (fe_neg a) u = u.
Proof. intros ->. replace (fe_neg (fe_neg f1)) with (@f1 p) by (symmetry; apply (Ropp_opp (Eqsth _) (Eq_ext fe_add fe_mul fe_neg) (ring_th p))). apply (Rmul_1_l (ring_th p)). Qed.
Lemma diff_on P Q : on P -> on Q -> on (add P (neg Q)).
Proof. intros O O'. exact (add_on p Pp a d K _ _ O (neg_on p a d _ O')). Qed.
(* C93: rge_equal holds exactly on elements of the same coset *)
Theorem C93_equal q r P Q : point q P -> point r Q -> (rge_equal p c q r = true <-> same P Q).
Proof.
  intros X Y. rewrite (rge_equal_iff p Pp a d c q r P Q X Y). destruct X as (O & _), Y as (O' & _). pose proof (diff_on P Q O O') as OD. destruct (diff_zero p Pp a d K P Q O O') as (D1 & D2). unfold same. destruct H as [E|(E & A)]; rewrite E.
  - change (4 / 2) with 2. rewrite (nmul2 _ OD). rewrite <- D1. etransitivity; [|symmetry; exact (two_kills p Pp a d K _ OD)]. split; [intros [W|(W & _)]; [exact W|discriminate]|intros W; left; exact W].
  - change (8 / 2) with 4. rewrite (nmul4 _ OD). rewrite (minus_a _ A) in D2. rewrite <- D1, <- D2. etransitivity; [|symmetry; exact (four_kills p Pp a d K _ OD)]. tauto.
Qed.
(* C93: rge_is_zero holds exactly on the points killed by h / 2 *)
Theorem C93_is_zero q P : point q P -> (rge_is_zero p c q = true <-> nmul (x_h p c / 2) P = zero).
Proof.
  intros X. rewrite (rge_is_zero_iff p Pp a d c q P X). destruct X as (O & _). destruct H as [E|(E & A)]; rewrite E.
  - change (4 / 2) with 2. rewrite (nmul2 _ O). etransitivity; [|symmetry; exact (two_kills p Pp a d K _ O)]. split; [intros [W|(W & _)]; [exact W|discriminate]|intros W; left; exact W].
  - change (8 / 2) with 4. rewrite (nmul4 _ O). etransitivity; [|symmetry; exact (four_kills p Pp a d K _ O)]. tauto.
Qed.
(* C93: so it is an equivalence that sums and negation respect, and is_zero is equality with the neutral element *)
Theorem C93_quotient q r s t P Q R S : point q P -> point r Q -> point s R -> point t S ->
  rge_equal p c q q = true /\ rge_equal p c q r = rge_equal p c r q /\ (rge_equal p c q r = true -> rge_equal p c r s = true -> rge_equal p c q s = true) /\
  (rge_equal p c q r = true -> rge_equal p c s t = true -> rge_equal p c (xge_add p a d q s) (xge_add p a d r t) = true) /\
  rge_equal p c (xge_neg p q) (xge_neg p r) = rge_equal p c q r /\ rge_is_zero p c q = rge_equal p c q (xge_zero p).
Proof.
  intros X Y Z W. pose proof (C93_equal _ _ _ _ X X) as EXX. pose proof (C93_equal _ _ _ _ X Y) as EXY. pose proof (C93_equal _ _ _ _ Y X) as EYX. pose proof (C93_equal _ _ _ _ Y Z) as EYZ. pose proof (C93_equal _ _ _ _ X Z) as EXZ. pose proof (C93_equal _ _ _ _ Z W) as EZW.
  pose proof (C93_equal _ _ _ _ (add_rep p Pp a d K _ _ _ _ X Z) (add_rep p Pp a d K _ _ _ _ Y W)) as ES. pose proof (C93_equal _ _ _ _ (neg_rep p a d _ _ X) (neg_rep p a d _ _ Y)) as EN. pose proof (C93_equal _ _ _ _ X (zero_rep p Pp a d)) as EZ. pose proof (C93_is_zero _ _ X) as IZ.
  destruct X as (OP & _), Y as (OQ & _), Z as (OR & _), W as (OS & _). unfold same in *. set (k := x_h p c / 2) in *.
  assert (OZ : on zero) by exact (on_zero p a d).
  assert (NO : forall A, on A -> on (neg A)) by (intros A O; exact (neg_on p a d A O)).
  assert (AO : forall A B, on A -> on B -> on (add A B)) by (intros A B O O'; exact (add_on p Pp a d K A B O O')).
  assert (KO : forall A B, on A -> on B -> nmul k (add A B) = add (nmul k A) (nmul k B)) by (intros A B O O'; exact (zm_op _ _ _ _ _ L k A B O O')).
  assert (ZZ : add zero zero = zero) by exact (add_zero p Pp a d K _ OZ).
  assert (SW : forall A B C D, on A -> on B -> on C -> on D -> add (add A B) (add C D) = add (add A C) (add B D)) by (intros A B C D O1 O2 O3 O4; exact (swap4 _ _ _ _ _ L A B C D O1 O2 O3 O4)).
  assert (NA : forall A B, on A -> on B -> neg (add A B) = add (neg A) (neg B)) by (intros A B O O'; exact (inv_op _ _ _ _ _ L A B O O')).
  assert (NN : forall A, on A -> neg (neg A) = A) by (intros A O; exact (inv_inv _ _ _ _ _ L A O)).
  assert (NZ : neg zero = zero) by exact (inv_e _ _ _ _ _ L).
  assert (KN : forall A, on A -> nmul k (neg A) = neg (nmul k A)) by (intros A O; apply (inv_unique _ _ _ _ _ L); [exact (zm_on _ _ _ _ _ L k A O)|exact (zm_on _ _ _ _ _ L k _ (NO A O))|]; change (add (nmul k A) (nmul k (neg A)) = zero); rewrite <- KO by auto; replace (add A (neg A)) with zero by (symmetry; exact (add_neg p Pp a d K A O)); exact (zm_e _ _ _ _ _ L k)).
  assert (B2 : forall x y : bool, (x = true <-> y = true) -> x = y) by (intros [] [] Q0; try reflexivity; [symmetry|]; apply Q0; reflexivity).
  assert (FL : forall A, on A -> (nmul k (neg A) = zero <-> nmul k A = zero)).
  { intros A O. rewrite (KN A O). split; intros E; [rewrite <- (NN (nmul k A)) by exact (zm_on _ _ _ _ _ L k A O); rewrite E|rewrite E]; exact NZ. }
  split; [apply EXX; replace (add P (neg P)) with zero by (symmetry; exact (add_neg p Pp a d K P OP)); exact (zm_e _ _ _ _ _ L k)|]. split; [|split; [|split; [|split]]].
  - apply B2. rewrite EXY, EYX, <- FL, (NA P (neg Q)), (NN Q), (add_comm p a d (neg P) Q : add (neg P) Q = add Q (neg P)) by auto. reflexivity.
  - rewrite EXY, EYZ, EXZ. intros E1 E2. replace (add P (neg R)) with (add (add P (neg Q)) (add Q (neg R))); [rewrite KO, E1, E2 by auto; exact ZZ|].
    rewrite (add_comm p a d Q (neg R) : add Q (neg R) = add (neg R) Q), SW by auto. rewrite (add_comm p a d (neg Q) Q : add (neg Q) Q = add Q (neg Q)). replace (add Q (neg Q)) with zero by (symmetry; exact (add_neg p Pp a d K Q OQ)). exact (id_r _ _ _ _ _ L _ (AO _ _ OP (NO _ OR))).
  - rewrite EXY, EZW, ES. intros E1 E2. change (nmul k (add (add P R) (neg (add Q S))) = zero). rewrite NA, SW, KO, E1, E2 by auto. exact ZZ.
  - apply B2. rewrite EN, EXY. change (nmul k (add (neg P) (neg (neg Q))) = zero <-> nmul k (add P (neg Q)) = zero). rewrite <- NA, FL by auto. reflexivity.
  - apply B2. rewrite IZ, EZ. change (nmul k P = zero <-> nmul k (add P (neg zero)) = zero). rewrite NZ. replace (add P zero) with P by (symmetry; exact (id_r _ _ _ _ _ L P OP)). reflexivity.
Qed.
(* C93: on points of odd order no two are confused *)
Theorem C93_odd n q r P Q : Z.odd n = true -> nmul n P = zero -> nmul n Q = zero -> point q P -> point r Q -> (rge_equal p c q r = true <-> P = Q) /\ (rge_is_zero p c q = true <-> P = zero).
Proof.
  intros N HP HQ X Y. rewrite (C93_equal _ _ _ _ X Y), (C93_is_zero _ _ X). destruct X as (OP & _), Y as (OQ & _). unfold same.
  assert (U : forall R, on R -> nmul n R = zero -> (nmul (x_h p c / 2) R = zero <-> R = zero)).
  { intros R O E. split; [|intros ->; exact (zm_e _ _ _ _ _ L _)]. intros T. assert (T4 : nmul 4 R = zero). { destruct H as [Eh|(Eh & _)]; rewrite Eh in T; [|exact T]. change (4 / 2) with 2 in T. etransitivity; [exact (zm_mul _ _ _ _ _ L 2 2 R O)|]. etransitivity; [exact (f_equal (nmul 2) T)|]. exact (zm_e _ _ _ _ _ L _). }
    assert (M : exists u, (n * n) mod 4 = 1 /\ n * n = 1 + 4 * u). { apply Z.odd_spec in N. destruct N as (m & ->). exists (m * m + m). split; [|ring]. replace ((2 * m + 1) * (2 * m + 1)) with (1 + (m * m + m) * 4) by ring. rewrite Z.mod_add by lia. reflexivity. }
    destruct M as (u & _ & M). rewrite <- (zm_1 _ _ _ _ _ L R O). transitivity (nmul (n * n) R).
    - symmetry. apply (zm_eqm _ _ _ _ _ L (n * n) 1 4 R O T4). rewrite M, Z.mul_comm, Z.mod_add by lia. reflexivity.
    - etransitivity; [exact (zm_mul _ _ _ _ _ L n n R O)|]. etransitivity; [exact (f_equal (nmul n) E)|]. exact (zm_e _ _ _ _ _ L _). }
  split; [|exact (U P OP HP)]. rewrite U.
  - split; [|intros ->; exact (add_neg p Pp a d K Q OQ)]. intros E. apply (cancel _ _ _ _ _ L P Q (neg Q) OP OQ (neg_on p a d _ OQ)). etransitivity; [exact E|]. symmetry. exact (add_neg p Pp a d K Q OQ).
  - exact (diff_on P Q OP OQ).
  - etransitivity; [exact (zm_op _ _ _ _ _ L n P (neg Q) OP (neg_on p a d _ OQ))|]. change (add (nmul n P) (nmul n (neg Q)) = zero). rewrite HP. etransitivity; [exact (add_zero p Pp a d K _ (zm_on _ _ _ _ _ L n _ (neg_on p a d _ OQ)))|].
    pose proof (zm_op _ _ _ _ _ L n Q (neg Q) OQ (neg_on p a d _ OQ)) as W. change (nmul n (add Q (neg Q)) = add (nmul n Q) (nmul n (neg Q))) in W. rewrite HQ in W. replace (add Q (neg Q)) with zero in W by (symmetry; exact (add_neg p Pp a d K Q OQ)).
    etransitivity; [symmetry; exact (add_zero p Pp a d K _ (zm_on _ _ _ _ _ L n _ (neg_on p a d _ OQ)))|]. etransitivity; [symmetry; exact W|]. exact (zm_e _ _ _ _ _ L _).
Qed.
End C.
(* ---- -x^2 + y^2 = 1 + 2 x^2 y^2 over Z/29, of 28 points: (0, -1) has order 2, (12, 0) and (17, 0) order 4 ---- *)
Definition h29 (h : Z) : edw p29 := MkEdw p29 (e29 28) (e29 2) h 7 MD4 false [] (x29 2 22) [] [] 0 (xge_zero p29).
(* (2, 22) and its sums with those points: equal to the first two with cofactor 4, to all four with cofactor 8 *)
Definition coset29 : list (xge p29) := x29 2 22 :: map (xge_add p29 (e29 28) (e29 2) (x29 2 22)) [x29 0 28; x29 12 0; x29 17 0; x29 2 22].
Lemma h29_ok : (x_h p29 (h29 4) = 4 \/ (x_h p29 (h29 4) = 8 /\ e29 28 = fe_neg f1)) /\ (x_h p29 (h29 8) = 4 \/ (x_h p29 (h29 8) = 8 /\ e29 28 = fe_neg f1)).
Proof. split; [left; reflexivity|right; split; [reflexivity|apply fe_eq; vm_compute; reflexivity]]. Qed.
Example C93_ex : map (rge_equal p29 (h29 4) (x29 2 22)) coset29 = [true; true; false; false; false] /\ map (rge_equal p29 (h29 8) (x29 2 22)) coset29 = [true; true; true; true; false] /\
  map (rge_is_zero p29 (h29 4)) [x29 0 1; x29 0 28; x29 12 0; x29 2 22] = [true; true; false; false] /\ map (rge_is_zero p29 (h29 8)) [x29 0 1; x29 0 28; x29 12 0; x29 2 22] = [true; true; true; false] /\
  same p29 (e29 28) (e29 2) (h29 4) (pt29 2 22) (pt29 27 7).
Proof.
  split; [vm_compute; reflexivity|]. split; [vm_compute; reflexivity|]. split; [vm_compute; reflexivity|]. split; [vm_compute; reflexivity|].
  unfold same. apply injective_projections; apply fe_eq; vm_compute; reflexivity.
Qed.
(* C93: with cofactor 8 the assumption a = -1 (ristretto_init, 7898-7902) is needed, since 8562-8563 leave out the -a of the formula above them: for a = 1 elements of one coset are told apart *)
Theorem C93_a_needed : exists p a d c q r P Q, prime (Zpos p) /\ complete (fe p) f0 f1 fe_add fe_mul a d /\ x_h p c = 8 /\ xpoint p a d q P /\ xpoint p a d r Q /\ same p a d c P Q /\ rge_equal p c q r = false.
Proof.
  exists p29, (e29 1), (e29 3), (h29 8), (x29 6 3), (x29 3 23), (pt29 6 3), (pt29 3 23). split; [exact p29_ok|]. split; [exact ConvProps.k29'|]. split; [reflexivity|].
  split; [|split; [|split; [|vm_compute; reflexivity]]].
  - exact (proj1 (finish_rep p29 p29_ok (e29 1) (e29 3) (e29 6) (e29 3) ltac:(apply fe_eq; vm_compute; reflexivity))).
  - exact (proj1 (finish_rep p29 p29_ok (e29 1) (e29 3) (e29 3) (e29 23) ltac:(apply fe_eq; vm_compute; reflexivity))).
  - unfold same. apply injective_projections; apply fe_eq; vm_compute; reflexivity.
Qed.

(* the axioms of every theorem above, listed at once *)
Definition RistrettoEqProps_all := (@C93_equal, @C93_is_zero, @C93_quotient, @C93_odd, @C93_a_needed).
Print Assumptions RistrettoEqProps_all.
