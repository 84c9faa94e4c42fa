(* Multiples in an abelian group whose laws hold on a subset. *)
From Coq Require Import ZArith Lia.
From Verif.Spec Require Import EcSpec.
Section M.
Variable G : Type.
Variable on : G -> Prop.
Variables (op : G -> G -> G) (e : G) (inv : G -> G).
Record group_laws : Prop := {
  gl_e : on e;
  gl_inv : forall P, on P -> on (inv P);
  gl_op : forall P Q, on P -> on Q -> on (op P Q);
  gl_comm : forall P Q, on P -> on Q -> op P Q = op Q P;
  gl_assoc : forall P Q R, on P -> on Q -> on R -> op (op P Q) R = op P (op Q R);
  gl_id : forall P, on P -> op e P = P;
  gl_neg : forall P, on P -> op P (inv P) = e }.
Hypothesis L : group_laws.
Local Notation nm := (nmul G op e).
Local Notation zm := (zmul G op e inv).
Lemma id_r P : on P -> op P e = P.
Proof. intros H. rewrite (gl_comm L) by (try apply (gl_e L); assumption). apply (gl_id L P H). Qed.
Lemma cancel P Q R : on P -> on Q -> on R -> op P R = op Q R -> P = Q.
Proof.
  intros HP HQ HR E. rewrite <- (id_r P HP), <- (id_r Q HQ), <- (gl_neg L R HR). pose proof (gl_inv L R HR) as HI. rewrite <- !(gl_assoc L) by assumption. rewrite E. reflexivity.
Qed.
Lemma cancel_l P Q R : on P -> on Q -> on R -> op R P = op R Q -> P = Q.
Proof. intros HP HQ HR E. apply (cancel P Q R); try assumption. rewrite (gl_comm L P R), (gl_comm L Q R) by assumption. exact E. Qed.
Lemma inv_unique P Q : on P -> on Q -> op P Q = e -> Q = inv P.
Proof. intros HP HQ E. apply (cancel_l _ _ P); try assumption; [apply (gl_inv L); assumption|]. rewrite E, (gl_neg L) by assumption. reflexivity. Qed.
Lemma inv_inv P : on P -> inv (inv P) = P.
Proof. intros H. pose proof (gl_inv L P H) as HI. symmetry. apply inv_unique; try assumption. rewrite (gl_comm L) by assumption. apply (gl_neg L); assumption. Qed.
Lemma inv_e : inv e = e.
Proof. symmetry. apply inv_unique; try apply (gl_e L). apply (gl_id L). apply (gl_e L). Qed.
Lemma swap4 P Q R S : on P -> on Q -> on R -> on S -> op (op P Q) (op R S) = op (op P R) (op Q S).
Proof.
  intros HP HQ HR HS. rewrite !(gl_assoc L) by (try apply (gl_op L); assumption). f_equal. rewrite <- !(gl_assoc L) by (try apply (gl_op L); assumption). f_equal. apply (gl_comm L); assumption.
Qed.
Lemma inv_op P Q : on P -> on Q -> inv (op P Q) = op (inv P) (inv Q).
Proof.
  intros HP HQ. pose proof (gl_inv L P HP). pose proof (gl_inv L Q HQ). symmetry. apply inv_unique; try apply (gl_op L); try assumption. rewrite swap4 by assumption.
  rewrite !(gl_neg L) by assumption. apply (gl_id L). apply (gl_e L).
Qed.
Lemma nm_on k P : on P -> on (nm k P).
Proof. intros H. induction k; cbn; [apply (gl_e L)|apply (gl_op L); assumption]. Qed.
Lemma nm_S k P : nm (S k) P = op P (nm k P). Proof. reflexivity. Qed.
Lemma nm_add a b P : on P -> nm (a + b) P = op (nm a P) (nm b P).
Proof.
  intros H. induction a as [|a IH]; cbn [Nat.add]; [cbn; symmetry; apply (gl_id L); apply nm_on; exact H|].
  rewrite !nm_S, IH. symmetry. apply (gl_assoc L); try apply nm_on; exact H.
Qed.
Lemma zm_on k P : on P -> on (zm k P).
Proof. intros H. destruct k; cbn; [apply (gl_e L)|apply nm_on; exact H|apply (gl_inv L); apply nm_on; exact H]. Qed.
Lemma zm_nat k P : zm (Z.of_nat k) P = nm k P.
Proof. destruct k; [reflexivity|]. cbn [Z.of_nat zmul]. rewrite SuccNat2Pos.id_succ. reflexivity. Qed.
Lemma zm_neg k P : on P -> zm (- k) P = inv (zm k P).
Proof. intros H. destruct k; cbn; [symmetry; apply inv_e|reflexivity|symmetry; apply inv_inv; apply nm_on; exact H]. Qed.
Lemma zm_sub_nat a b P : on P -> zm (Z.of_nat a - Z.of_nat b) P = op (nm a P) (inv (nm b P)).
Proof.
  intros H. pose proof (nm_on a P H) as HA. pose proof (nm_on b P H) as HB. destruct (Nat.le_gt_cases b a).
  - replace (Z.of_nat a - Z.of_nat b)%Z with (Z.of_nat (a - b)) by lia. rewrite zm_nat. replace a with ((a - b) + b)%nat at 2 by lia. rewrite nm_add by exact H.
    pose proof (nm_on (a - b) P H). rewrite (gl_assoc L), (gl_neg L), id_r by (try apply (gl_inv L); assumption). reflexivity.
  - replace (Z.of_nat a - Z.of_nat b)%Z with (- Z.of_nat (b - a))%Z by lia. rewrite zm_neg, zm_nat by exact H. replace b with ((b - a) + a)%nat at 2 by lia. rewrite nm_add by exact H.
    pose proof (nm_on (b - a) P H) as HC. rewrite inv_op by assumption. pose proof (gl_inv L _ HC). pose proof (gl_inv L _ HA).
    rewrite (gl_comm L) by (try apply (gl_op L); assumption). rewrite (gl_assoc L) by assumption. rewrite (gl_comm L (inv (nm a P))), (gl_neg L), id_r by assumption. reflexivity.
Qed.
Lemma z_split k : exists a b, k = (Z.of_nat a - Z.of_nat b)%Z.
Proof. exists (Z.to_nat k), (Z.to_nat (- k)). lia. Qed.
Theorem zm_add a b P : on P -> zm (a + b) P = op (zm a P) (zm b P).
Proof.
  intros H. destruct (z_split a) as (a1 & a2 & ->), (z_split b) as (b1 & b2 & ->).
  replace (Z.of_nat a1 - Z.of_nat a2 + (Z.of_nat b1 - Z.of_nat b2))%Z with (Z.of_nat (a1 + b1) - Z.of_nat (a2 + b2))%Z by lia.
  rewrite !zm_sub_nat by exact H. rewrite !nm_add by exact H. pose proof (nm_on a1 P H). pose proof (nm_on b1 P H). pose proof (nm_on a2 P H). pose proof (nm_on b2 P H).
  rewrite inv_op by assumption. apply swap4; try assumption; apply (gl_inv L); assumption.
Qed.
Lemma zm_1 P : on P -> zm 1 P = P. Proof. intros H. cbn. apply id_r. exact H. Qed.
Lemma zm_0 P : zm 0 P = e. Proof. reflexivity. Qed.
Lemma zm_double k P : on P -> zm (2 * k) P = op (zm k P) (zm k P).
Proof. intros H. rewrite <- zm_add by exact H. f_equal. lia. Qed.
Lemma zm_succ k P : on P -> zm (k + 1) P = op (zm k P) P.
Proof. intros H. rewrite zm_add, zm_1 by exact H. reflexivity. Qed.
Lemma zm_m1 P : on P -> zm (-1) P = inv P.
Proof. intros H. change (-1)%Z with (- (1))%Z. rewrite zm_neg, zm_1 by exact H. reflexivity. Qed.
Lemma zm_e k : zm k e = e.
Proof.
  assert (N : forall n, nm n e = e) by (induction n as [|n IH]; [reflexivity|rewrite nm_S, IH; apply (gl_id L); apply (gl_e L)]).
  destruct k; cbn; rewrite ?N; [reflexivity|reflexivity|apply inv_e].
Qed.
Theorem zm_mul a b P : on P -> zm (a * b) P = zm a (zm b P).
Proof.
  intros H. pose proof (zm_on b P H) as HB.
  assert (N : forall n, zm (Z.of_nat n * b) P = nm n (zm b P)).
  { induction n as [|n IH]; [reflexivity|]. rewrite nm_S, <- IH. replace (Z.of_nat (S n) * b)%Z with (b + Z.of_nat n * b)%Z by lia. apply zm_add. exact H. }
  destruct (z_split a) as (a1 & a2 & ->). rewrite zm_sub_nat by exact HB. rewrite <- !N. rewrite <- zm_neg, <- zm_add by exact H. f_equal. lia.
Qed.
Theorem zm_op k P Q : on P -> on Q -> zm k (op P Q) = op (zm k P) (zm k Q).
Proof.
  intros HP HQ. pose proof (gl_op L P Q HP HQ) as HS.
  assert (N : forall n, nm n (op P Q) = op (nm n P) (nm n Q)).
  { induction n as [|n IH]; [cbn; symmetry; apply (gl_id L); apply (gl_e L)|]. rewrite !nm_S, IH. apply swap4; try apply nm_on; assumption. }
  destruct (z_split k) as (a & b & ->). rewrite !zm_sub_nat by assumption. rewrite !N. pose proof (nm_on a P HP). pose proof (nm_on b P HP). pose proof (nm_on a Q HQ). pose proof (nm_on b Q HQ).
  rewrite inv_op by assumption. apply swap4; try assumption; apply (gl_inv L); assumption.
Qed.
Theorem zm_mod k n P : on P -> zm n P = e -> zm (k mod n) P = zm k P.
Proof.
  intros H E. destruct (Z.eq_dec n 0) as [->|N]; [rewrite Zmod_0_r; reflexivity|].
  rewrite (Z.div_mod k n N) at 2. rewrite zm_add, (Z.mul_comm n), zm_mul, E, zm_e by exact H. symmetry. apply (gl_id L). apply zm_on. exact H.
Qed.
Lemma zm_eqm a b n P : on P -> zm n P = e -> (a mod n = b mod n)%Z -> zm a P = zm b P.
Proof. intros H E X. rewrite <- (zm_mod a n), <- (zm_mod b n), X by assumption. reflexivity. Qed.
End M.
