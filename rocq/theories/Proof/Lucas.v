(* The Lucas test accepts every prime for which the search finds a parameter: arithmetic of Z[x]/(x^2 - P x + 1) modulo a prime. *)
From Coq Require Import Znumtheory Zpow_facts Ring.
From Verif.Base Require Import Prelude.
From Verif.Model Require Import Encoding MpnMod NumTheory Primes.
From Verif.Proof Require Import Cong Fermat NumGcd NumJacobi NumRoot Reciprocity PrimesProof SqrtComplete.

(* ---- binomial coefficients ---- *)
Fixpoint cho (n k : nat) : Z := match n, k with _, O => 1 | O, S _ => 0 | S n, S k => cho n k + cho n (S k) end.
Lemma cho_0 n : cho n 0 = 1. Proof. destruct n; reflexivity. Qed.
Lemma cho_S n k : cho (S n) (S k) = cho n k + cho n (S k). Proof. reflexivity. Qed.
Lemma cho_big n : forall k, (n < k)%nat -> cho n k = 0.
Proof. induction n as [|n IH]; intros [|k] H; try lia; [reflexivity|]. rewrite cho_S, !IH by lia. reflexivity. Qed.
Lemma cho_diag n : cho n n = 1.
Proof. induction n as [|n IH]; [reflexivity|]. rewrite cho_S, IH, cho_big by lia. reflexivity. Qed.
Lemma cho_absorb n : forall k, Z.of_nat (S k) * cho (S n) (S k) = Z.of_nat (S n) * cho n k.
Proof.
  induction n as [|n IH]; intros k.
  - destruct k as [|k]; [reflexivity|]. rewrite (cho_big 0 (S k)), (cho_big 1 (S (S k))) by lia. lia.
  - rewrite cho_S. destruct k as [|k].
    + rewrite !cho_0. pose proof (IH 0%nat) as E. rewrite cho_0 in E. rewrite Z.mul_add_distr_l, E. lia.
    + pose proof (IH k) as E1. pose proof (IH (S k)) as E2. rewrite Z.mul_add_distr_l, E2. rewrite (cho_S n k) in *.
      set (a := cho n k) in *. set (b := cho n (S k)) in *. clearbody a b. clear IH. rewrite !Nat2Z.inj_succ in *. nia.
Qed.
Lemma cho_prime p k : prime (Z.of_nat p) -> (0 < k < p)%nat -> (Z.of_nat p | cho p k).
Proof.
  intros Hp Hk. destruct p as [|p]; [lia|]. destruct k as [|k]; [lia|]. assert (D : (Z.of_nat (S p) | Z.of_nat (S k) * cho (S p) (S k))) by (rewrite cho_absorb; exists (cho p k); ring).
  apply prime_mult in D; [|exact Hp]. destruct D as [D|D]; [|exact D]. apply Z.divide_pos_le in D; lia.
Qed.

(* ---- the ring ---- *)
Section Quad.
Variable P : Z.
Definition qadd (x y : Z * Z) : Z * Z := (fst x + fst y, snd x + snd y).
Definition qmul (x y : Z * Z) : Z * Z := (fst x * fst y - snd x * snd y, fst x * snd y + snd x * fst y + P * (snd x * snd y)).
Definition qopp (x : Z * Z) : Z * Z := (- fst x, - snd x).
Definition qsub (x y : Z * Z) : Z * Z := qadd x (qopp y).
Definition q_ (a : Z) : Z * Z := (a, 0).
Definition nrm (x : Z * Z) : Z := fst x * fst x + P * (fst x * snd x) + snd x * snd x.
Definition tr (x : Z * Z) : Z := 2 * fst x + P * snd x.
Definition cj (x : Z * Z) : Z * Z := (fst x + P * snd x, - snd x).
Definition al : Z * Z := (0, 1).
Lemma qext (x y : Z * Z) : fst x = fst y -> snd x = snd y -> x = y. Proof. destruct x, y. cbn [fst snd]. intros -> ->. reflexivity. Qed.
Ltac qr := intros; apply qext; unfold qsub, qadd, qmul, qopp, q_; cbn [fst snd]; ring.
Lemma q_ring : ring_theory (q_ 0) (q_ 1) qadd qmul qsub qopp eq.
Proof. constructor; first [qr | reflexivity]. Qed.
Add Ring qring : q_ring.
Ltac qr_unfold := apply qext; unfold qsub, qadd, qmul, qopp, q_, nrm, tr, cj, al; cbn [fst snd]; ring.
Fixpoint qpow (x : Z * Z) (n : nat) : Z * Z := match n with O => q_ 1 | S n => qmul x (qpow x n) end.
Lemma qpow_add x m n : qpow x (m + n) = qmul (qpow x m) (qpow x n).
Proof. induction m as [|m IH]; cbn [Nat.add qpow]; [ring|]. rewrite IH. ring. Qed.
Lemma qpow_mul x m n : qpow x (m * n) = qpow (qpow x m) n.
Proof. induction n as [|n IH]; [rewrite Nat.mul_0_r; reflexivity|]. rewrite Nat.mul_succ_r, Nat.add_comm, qpow_add, IH. reflexivity. Qed.
Lemma qpow_mulb x y n : qpow (qmul x y) n = qmul (qpow x n) (qpow y n).
Proof. induction n as [|n IH]; cbn [qpow]; [ring|]. rewrite IH. ring. Qed.
Lemma q_mul a b : qmul (q_ a) (q_ b) = q_ (a * b). Proof. qr. Qed.
Lemma q_add a b : qadd (q_ a) (q_ b) = q_ (a + b). Proof. qr. Qed.
Lemma q_pow a n : qpow (q_ a) n = q_ (a ^ Z.of_nat n).
Proof. induction n as [|n IH]; [reflexivity|]. cbn [qpow]. rewrite IH, q_mul, Nat2Z.inj_succ, Z.pow_succ_r by lia. reflexivity. Qed.
Fixpoint qsum (n : nat) (f : nat -> Z * Z) : Z * Z := match n with O => q_ 0 | S n => qadd (qsum n f) (f n) end.
Lemma qsum_ext n f g : (forall k, (k < n)%nat -> f k = g k) -> qsum n f = qsum n g.
Proof. induction n as [|n IH]; intros H; [reflexivity|]. cbn [qsum]. rewrite (H n) by lia. rewrite IH; [reflexivity|]. intros k Hk. apply H. lia. Qed.
Lemma qsum_add n f g : qsum n (fun k => qadd (f k) (g k)) = qadd (qsum n f) (qsum n g).
Proof. induction n as [|n IH]; cbn [qsum]; [ring|]. rewrite IH. ring. Qed.
Lemma qsum_mul n c f : qsum n (fun k => qmul c (f k)) = qmul c (qsum n f).
Proof. induction n as [|n IH]; cbn [qsum]; [ring|]. rewrite IH. ring. Qed.
Lemma qsum_first n f : qsum (S n) f = qadd (f 0%nat) (qsum n (fun k => f (S k))).
Proof. induction n as [|n IH]; [cbn [qsum]; ring|]. cbn [qsum] in *. rewrite IH. ring. Qed.
Definition term (x y : Z * Z) (n k : nat) : Z * Z := qmul (q_ (cho n k)) (qmul (qpow x (n - k)) (qpow y k)).
Lemma term_0 x y n : term x y n 0 = qpow x n. Proof. unfold term. rewrite cho_0, Nat.sub_0_r. cbn [qpow]. ring. Qed.
Lemma term_n x y n : term x y n n = qpow y n. Proof. unfold term. rewrite cho_diag, Nat.sub_diag. cbn [qpow]. ring. Qed.
Lemma binomial x y n : qpow (qadd x y) n = qsum (S n) (term x y n).
Proof.
  induction n as [|n IH]; [cbn [qpow qsum]; unfold term; cbn [cho qpow Nat.sub]; ring|]. cbn [qpow]. rewrite IH.
  rewrite (qsum_first (S n) (term x y (S n))), term_0.
  rewrite (qsum_ext (S n) (fun k => term x y (S n) (S k)) (fun k => qadd (qmul y (term x y n k)) (qmul (q_ (cho n (S k))) (qmul (qpow x (n - k)) (qpow y (S k)))))).
  2:{ intros k Hk. unfold term. rewrite cho_S, <- q_add. cbn [Nat.sub qpow]. ring. }
  rewrite qsum_add, qsum_mul.
  assert (E : qsum (S n) (fun k => qmul (q_ (cho n (S k))) (qmul (qpow x (n - k)) (qpow y (S k)))) = qmul x (qsum n (fun k => term x y n (S k)))).
  { cbn [qsum]. rewrite (cho_big n (S n)) by lia. rewrite <- qsum_mul. rewrite (qsum_ext n _ (fun k => qmul x (term x y n (S k)))); [ring|].
    intros k Hk. unfold term. replace (n - k)%nat with (S (n - S k)) by lia. cbn [qpow]. ring. }
  rewrite E, (qsum_first n (term x y n)), term_0. cbn [qpow]. ring.
Qed.

(* ---- congruence modulo p ---- *)
Variable p : Z.
Hypothesis Hp : prime p.
Hypothesis O : Z.odd p = true.
Let p3 : 3 <= p := P3 p Hp O.
Definition cg (x y : Z * Z) : Prop := exists q, x = qadd y (qmul (q_ p) q).
Lemma cg_refl x : cg x x. Proof. exists (q_ 0). ring. Qed.
Lemma cg_sym x y : cg x y -> cg y x. Proof. intros (q & ->). exists (qopp q). ring. Qed.
Lemma cg_trans x y z : cg x y -> cg y z -> cg x z. Proof. intros (q & ->) (r & ->). exists (qadd q r). ring. Qed.
Lemma cg_add x y u v : cg x y -> cg u v -> cg (qadd x u) (qadd y v). Proof. intros (q & ->) (r & ->). exists (qadd q r). ring. Qed.
Lemma cg_sub x y u v : cg x y -> cg u v -> cg (qsub x u) (qsub y v). Proof. intros (q & ->) (r & ->). exists (qsub q r). ring. Qed.
Lemma cg_mul x y u v : cg x y -> cg u v -> cg (qmul x u) (qmul y v).
Proof. intros (q & ->) (r & ->). exists (qadd (qadd (qmul y r) (qmul q v)) (qmul (q_ p) (qmul q r))). ring. Qed.
Lemma cg_pow x y n : cg x y -> cg (qpow x n) (qpow y n).
Proof. intros H. induction n as [|n IH]; [apply cg_refl|]. cbn [qpow]. apply cg_mul; assumption. Qed.
Lemma cg_iff x y : cg x y <-> (p | fst x - fst y) /\ (p | snd x - snd y).
Proof.
  split.
  - intros ([a b] & ->). unfold qadd, qmul, q_. cbn [fst snd]. split; [exists a|exists b]; ring.
  - intros ((a & A) & (b & B)). exists (a, b). apply qext; unfold qadd, qmul, q_; cbn [fst snd]; lia.
Qed.
Lemma cg_q a b : a ≡ b ⟦ p ⟧ -> cg (q_ a) (q_ b).
Proof. intros E. apply eqm_iff in E; [|lia]. apply cg_iff. split; [exact E|]. exists 0. reflexivity. Qed.
Lemma qsum_cg n f : (forall k, (k < n)%nat -> cg (f k) (q_ 0)) -> cg (qsum n f) (q_ 0).
Proof.
  induction n as [|n IH]; intros H; [apply cg_refl|]. cbn [qsum]. replace (q_ 0) with (qadd (q_ 0) (q_ 0)) by ring. apply cg_add; [apply IH; intros; apply H; lia|apply H; lia].
Qed.
Lemma frobenius x y : cg (qpow (qadd x y) (Z.to_nat p)) (qadd (qpow x (Z.to_nat p)) (qpow y (Z.to_nat p))).
Proof.
  assert (Pn : prime (Z.of_nat (Z.to_nat p))) by (rewrite Z2Nat.id by lia; exact Hp). assert (L : (3 <= Z.to_nat p)%nat) by lia.
  assert (Ep : Z.of_nat (Z.to_nat p) = p) by (apply Z2Nat.id; lia).
  set (n := Z.to_nat p) in *. clearbody n. rewrite binomial. cbn [qsum]. destruct n as [|n]; [lia|]. rewrite qsum_first, term_0, term_n.
  assert (Z0 : cg (qsum n (fun k => term x y (S n) (S k))) (q_ 0)).
  { apply qsum_cg. intros k Hk. destruct (cho_prime (S n) (S k) Pn ltac:(lia)) as (c & Ec). rewrite Ep in Ec. unfold term. rewrite Ec, <- q_mul. exists (qmul (q_ c) (qmul (qpow x (S n - S k)) (qpow y (S k)))). ring. }
  destruct Z0 as (q & Eq). rewrite Eq. exists q. cbn [qpow]. ring.
Qed.

Lemma nrm_mul x y : nrm (qmul x y) = nrm x * nrm y. Proof. unfold nrm, qmul. cbn [fst snd]. ring. Qed.
Lemma cj_nrm x : qmul x (cj x) = q_ (nrm x). Proof. qr_unfold. Qed.
Lemma cj_tr x : qadd x (cj x) = q_ (tr x). Proof. qr_unfold. Qed.
Lemma nrm_pow x n : nrm x = 1 -> nrm (qpow x n) = 1.
Proof. intros H. induction n as [|n IH]; [unfold nrm, qpow, q_; cbn [fst snd]; ring|]. cbn [qpow]. rewrite nrm_mul, H, IH. reflexivity. Qed.
Lemma tr_cg x y : cg x y -> tr x ≡ tr y ⟦ p ⟧.
Proof. intros H. apply cg_iff in H. destruct H as [(a & A) (b & B)]. apply eqm_iff; [lia|]. exists (2 * a + P * b). unfold tr. nia. Qed.
Lemma tr_sq x : nrm x = 1 -> tr (qmul x x) = tr x * tr x - 2.
Proof. unfold nrm, tr, qmul. cbn [fst snd]. intros E. nia. Qed.

Hypothesis ND : forall z, ~ z * z ≡ P * P - 4 ⟦ p ⟧.
Lemma odd2 a : (p | 2 * a) -> (p | a).
Proof.
  intros D. apply prime_mult in D; [|exact Hp]. destruct D as [D|D]; [|exact D]. apply Z.divide_pos_le in D; lia.
Qed.
Lemma nrm_zero x : (p | nrm x) -> cg x (q_ 0).
Proof.
  intros D. destruct x as [a b]. unfold nrm in D. cbn [fst snd] in D.
  assert (B : (p | b)).
  { destruct (Zdivide_dec p b) as [B|B]; [exact B|exfalso].
    assert (NZ : 0 < b mod p < p). { pose proof (Z.mod_pos_bound b p ltac:(lia)). destruct (Z.eq_dec (b mod p) 0) as [E|E]; [|lia]. exfalso. apply B. apply Z.mod_divide; [lia|exact E]. }
    pose proof (iv_ok p Hp O (b mod p) NZ) as I. set (i := iv p (b mod p)) in *. apply (ND ((2 * a + P * b) * i)).
    assert (I' : b * i ≡ 1 ⟦ p ⟧) by (eapply eqm_trans; [|exact I]; apply eqm_mul; [apply eqm_sym, eqm_mod|apply eqm_refl]).
    apply eqm_iff in I'; [|lia]. apply eqm_iff; [lia|]. destruct I' as (u & U). destruct D as (v & V). exists (4 * v * i * i + (P * P - 4) * u * (b * i + 1)).
    replace ((2 * a + P * b) * i * ((2 * a + P * b) * i) - (P * P - 4)) with (4 * (a * a + P * (a * b) + b * b) * i * i + (P * P - 4) * (b * i - 1) * (b * i + 1)) by ring. rewrite V, U. ring. }
  assert (A : (p | a * a)). { replace (a * a) with (a * a + P * (a * b) + b * b - b * (P * a + b)) by ring. apply Z.divide_sub_r; [exact D|]. apply Z.divide_mul_l. exact B. }
  apply prime_mult in A; [|exact Hp]. assert (A' : (p | a)) by (destruct A; assumption). apply cg_iff. cbn [fst snd q_]. rewrite !Z.sub_0_r. split; assumption.
Qed.
Lemma nrm_cg x y : cg x y -> nrm x ≡ nrm y ⟦ p ⟧.
Proof.
  intros H. apply cg_iff in H. destruct H as [A B]. destruct x as [a b], y as [c d]. cbn [fst snd] in *. apply (eqm_iff p a c ltac:(lia)) in A. apply (eqm_iff p b d ltac:(lia)) in B. unfold nrm. cbn [fst snd].
  apply eqm_add; [apply eqm_add|]; repeat apply eqm_mul; try assumption; apply eqm_refl.
Qed.
Lemma no_zero_div x y : cg (qmul x y) (q_ 0) -> cg x (q_ 0) \/ cg y (q_ 0).
Proof.
  intros H. apply nrm_cg in H. rewrite nrm_mul in H. replace (nrm (q_ 0)) with 0 in H by (unfold nrm, q_; cbn [fst snd]; ring). apply eqm_0 in H; [|lia]. apply prime_mult in H; [|exact Hp].
  destruct H as [H|H]; [left|right]; apply nrm_zero; exact H.
Qed.
Lemma cg_eq0 x y : cg (qsub x y) (q_ 0) -> cg x y.
Proof. intros (q & E). exists q. replace x with (qadd (qsub x y) y) by ring. rewrite E. ring. Qed.
Lemma sqrt_one x : cg (qmul x x) (q_ 1) -> cg x (q_ 1) \/ cg x (q_ (-1)).
Proof.
  intros H. assert (Z0 : cg (qmul (qsub x (q_ 1)) (qsub x (q_ (-1)))) (q_ 0)).
  { replace (qmul (qsub x (q_ 1)) (qsub x (q_ (-1)))) with (qsub (qmul x x) (q_ 1)) by (change (q_ (-1)) with (qopp (q_ 1)); ring). replace (q_ 0) with (qsub (q_ 1) (q_ 1)) by ring. apply cg_sub; [exact H|apply cg_refl]. }
  apply no_zero_div in Z0. destruct Z0 as [Z0|Z0]; [left|right]; apply cg_eq0; exact Z0.
Qed.
Lemma sqrt_m1 x : nrm x = 1 -> cg (qmul x x) (q_ (-1)) -> tr x ≡ 0 ⟦ p ⟧.
Proof.
  intros N H. pose proof (tr_cg _ _ H) as T. rewrite tr_sq in T by exact N. replace (tr (q_ (-1))) with (-2) in T by (unfold tr, q_; cbn [fst snd]; ring).
  apply eqm_iff in T; [|lia]. replace (tr x * tr x - 2 - -2) with (tr x * tr x) in T by ring. apply eqm_0; [lia|]. apply prime_mult in T; [|exact Hp]. destruct T; assumption.
Qed.
Lemma tr_two x : nrm x = 1 -> tr x ≡ 2 ⟦ p ⟧ -> cg x (q_ 1).
Proof.
  intros N T. assert (H : cg (qmul (qsub x (q_ 1)) (qsub x (q_ 1))) (q_ 0)).
  { replace (qmul (qsub x (q_ 1)) (qsub x (q_ 1))) with (qmul x (qsub (q_ (tr x)) (q_ 2))).
    - apply cg_q in T. replace (q_ 0) with (qmul x (qsub (q_ 2) (q_ 2))) by ring. apply cg_mul; [apply cg_refl|]. apply cg_sub; [exact T|apply cg_refl].
    - rewrite <- cj_tr. change (q_ 2) with (qadd (q_ 1) (q_ 1)). transitivity (qadd (qmul x x) (qsub (qmul x (cj x)) (qadd x x))); [ring|]. rewrite cj_nrm, N. ring. }
  apply no_zero_div in H. apply cg_eq0. destruct H; assumption.
Qed.

(* ---- the powers of the root ---- *)
Lemma nrm_al : nrm al = 1. Proof. unfold nrm, al. cbn [fst snd]. ring. Qed.
Lemma disc : qmul (-P, 2) (-P, 2) = q_ (P * P - 4). Proof. qr_unfold. Qed.
Lemma al_p : cg (qpow al (Z.to_nat p)) (P, -1).
Proof.
  pose proof (frobenius (-P, 2) (q_ P)) as F. replace (qadd (-P, 2) (q_ P)) with (qmul (q_ 2) al) in F by qr_unfold. rewrite qpow_mulb, !q_pow, Z2Nat.id in F by lia.
  assert (E1 : cg (q_ (2 ^ p)) (q_ 2)).
  { apply cg_q. assert (N2 : 2 mod p <> 0) by (rewrite Z.mod_small by lia; lia). pose proof (fermat p 2 Hp N2) as E. replace (2 ^ p) with (2 * 2 ^ (p - 1)) by (rewrite <- Z.pow_succ_r by lia; f_equal; lia).
    apply eqm_trans with (2 * 1); [|apply eqm_refl]. apply eqm_mul; [apply eqm_refl|]. unfold eqm. rewrite E, Z.mod_1_l by lia. reflexivity. }
  assert (E2 : cg (q_ (P ^ p)) (q_ P)).
  { apply cg_q. destruct (Z.eq_dec (P mod p) 0) as [Z0|Z0].
    - assert (Z1 : P ≡ 0 ⟦ p ⟧) by (unfold eqm; rewrite Z0, Z.mod_0_l by lia; reflexivity). apply eqm_trans with (0 ^ p); [apply eqm_pow; exact Z1|]. rewrite Z.pow_0_l by lia. apply eqm_sym. exact Z1.
    - pose proof (fermat p P Hp Z0) as E. replace (P ^ p) with (P * P ^ (p - 1)) by (rewrite <- Z.pow_succ_r by lia; f_equal; lia).
      apply eqm_trans with (P * 1); [|rewrite Z.mul_1_r; apply eqm_refl]. apply eqm_mul; [apply eqm_refl|]. unfold eqm. rewrite E, Z.mod_1_l by lia. reflexivity. }
  assert (E3 : cg (qpow (-P, 2) (Z.to_nat p)) (qmul (q_ (-1)) (-P, 2))).
  { pose proof (odd_half p O) as EH. pose proof (half_nn p ltac:(lia)) as HN. replace (Z.to_nat p) with (S (2 * Z.to_nat (half p))) by lia. cbn [qpow]. rewrite qpow_mul. cbn [qpow].
    replace (qmul (-P, 2) (qmul (-P, 2) (q_ 1))) with (q_ (P * P - 4)) by (rewrite <- disc; ring). rewrite q_pow, Z2Nat.id by lia.
    pose proof (euler_nonresidue p Hp O (P * P - 4) ND) as EN. apply cg_q in EN. eapply cg_trans; [apply cg_mul; [apply cg_refl|exact EN]|]. replace (qmul (-P, 2) (q_ (-1))) with (qmul (q_ (-1)) (-P, 2)) by ring. apply cg_refl. }
  assert (G : cg (qmul (q_ 2) (qpow al (Z.to_nat p))) (qmul (q_ 2) (P, -1))).
  { eapply cg_trans; [apply cg_mul; [apply cg_sym, E1|apply cg_refl]|]. eapply cg_trans; [exact F|]. eapply cg_trans; [apply cg_add; [exact E3|exact E2]|].
    replace (qadd (qmul (q_ (-1)) (-P, 2)) (q_ P)) with (qmul (q_ 2) (P, -1)) by qr_unfold. apply cg_refl. }
  apply cg_iff in G. apply cg_iff. unfold qmul, q_ in G. cbn [fst snd] in *. destruct G as [G1 G2]. split; apply odd2.
  - replace (2 * (fst (qpow al (Z.to_nat p)) - P)) with (2 * fst (qpow al (Z.to_nat p)) - 0 * snd (qpow al (Z.to_nat p)) - (2 * P - 0 * -1)) by ring. exact G1.
  - eapply Z.divide_trans; [exact G2|]. exists 1. ring.
Qed.
Theorem al_order : cg (qpow al (Z.to_nat (p + 1))) (q_ 1).
Proof.
  replace (Z.to_nat (p + 1)) with (S (Z.to_nat p)) by lia. cbn [qpow]. eapply cg_trans; [apply cg_mul; [apply cg_refl|exact al_p]|]. replace (qmul al (P, -1)) with (q_ 1); [apply cg_refl|]. unfold al. qr_unfold.
Qed.

(* ---- the loops ---- *)
Lemma tail_ok t : forall x, nrm x = 1 -> cg (qpow x (2 ^ S t)) (q_ 1) -> ~ cg x (q_ 1) -> ~ cg x (q_ (-1)) -> lucas_tail p t (tr x mod p) = true.
Proof.
  induction t as [|t IH]; intros x N E N1 N2.
  - exfalso. change (2 ^ 1)%nat with 2%nat in E. cbn [qpow] in E. replace (qmul x (qmul x (q_ 1))) with (qmul x x) in E by ring. destruct (sqrt_one x E); contradiction.
  - cbn [lucas_tail]. destruct (Z.eqb_spec (tr x mod p) 0) as [T|T]; [reflexivity|]. destruct (Z.eqb_spec (tr x mod p) 2) as [U|U].
    + exfalso. apply N1. apply tr_two; [exact N|]. unfold eqm. rewrite U. symmetry. apply Z.mod_small. lia.
    + replace ((tr x mod p * (tr x mod p) - 2) mod p) with (tr (qmul x x) mod p). 
      2:{ rewrite tr_sq by exact N. rewrite Zminus_mod, (Zminus_mod (tr x mod p * _)), <- Z.mul_mod by lia. reflexivity. }
      apply IH.
      * rewrite nrm_mul, N. reflexivity.
      * replace (qmul x x) with (qpow x 2) by (cbn [qpow]; ring). rewrite <- qpow_mul. exact E.
      * intros Q. destruct (sqrt_one x Q); contradiction.
      * intros Q. apply T. pose proof (sqrt_m1 x N Q) as W. unfold eqm in W. rewrite Z.mod_0_l in W by lia. exact W.
Qed.
Lemma bit_step s v k i : nrm al = 1 -> v = (tr (qpow al k) mod p, tr (qpow al (S k)) mod p) ->
  lucas_bit p P s v i = (tr (qpow al (2 * k + (if Z.testbit s i then 1 else 0))) mod p, tr (qpow al (S (2 * k + (if Z.testbit s i then 1 else 0)))) mod p).
Proof.
  intros _ ->. unfold lucas_bit. pose proof (nrm_pow al k nrm_al) as N.
  assert (E0 : qpow al (2 * k) = qmul (qpow al k) (qpow al k)) by (replace (2 * k)%nat with (k + k)%nat by lia; apply qpow_add).
  set (x := qpow al k) in *. assert (T1 : tr (qmul x (qmul al x)) = tr x * tr (qmul al x) - P).
  { transitivity (tr x * tr (qmul al x) - P * nrm x); [unfold nrm, tr, qmul, al; cbn [fst snd]; ring|rewrite N; ring]. }
  assert (T2 : tr (qmul (qmul al x) (qmul al x)) = tr (qmul al x) * tr (qmul al x) - 2) by (apply tr_sq; rewrite nrm_mul, nrm_al, N; reflexivity).
  pose proof (tr_sq x N) as T0.
  assert (M : forall a b c, (a mod p * (b mod p) - c) mod p = (a * b - c) mod p) by (intros; rewrite Zminus_mod, <- Z.mul_mod, <- Zminus_mod by lia; reflexivity).
  destruct (Z.testbit s i).
  - f_equal.
    + replace (2 * k + 1)%nat with (S (2 * k)) by lia. cbn [qpow]. rewrite E0. fold x. rewrite M, <- T1. f_equal. f_equal. ring.
    + replace (S (2 * k + 1)) with (S (S (2 * k))) by lia. cbn [qpow]. rewrite E0. fold x. rewrite M, <- T2. f_equal. f_equal. ring.
  - rewrite Nat.add_0_r. f_equal.
    + rewrite E0. rewrite M, <- T0. reflexivity.
    + cbn [qpow]. rewrite E0. fold x. rewrite (Z.mul_comm (tr _ mod p)), M, <- T1. f_equal. f_equal. ring.
Qed.
Lemma zseq_snoc m : forall a, zseq a (S m) = zseq a m ++ [a + Z.of_nat m].
Proof. induction m as [|m IH]; intros a; [cbn; rewrite Z.add_0_r; reflexivity|]. change (a :: zseq (a + 1) (S m) = a :: (zseq (a + 1) m ++ [a + Z.of_nat (S m)])). rewrite IH. replace (a + 1 + Z.of_nat m) with (a + Z.of_nat (S m)) by lia. reflexivity. Qed.
Lemma ladder s : 0 <= s -> forall m, fold_left (lucas_bit p P s) (rev (zseq 0 m)) (tr (qpow al (Z.to_nat (s / 2 ^ Z.of_nat m))) mod p, tr (qpow al (S (Z.to_nat (s / 2 ^ Z.of_nat m)))) mod p) =
  (tr (qpow al (Z.to_nat s)) mod p, tr (qpow al (S (Z.to_nat s))) mod p).
Proof.
  intros S0. induction m as [|m IH].
  - cbn [zseq rev fold_left]. change (2 ^ Z.of_nat 0) with 1. rewrite Z.div_1_r. reflexivity.
  - assert (Ez : zseq 0 (S m) = zseq 0 m ++ [Z.of_nat m]) by apply zseq_snoc.
    rewrite Ez, rev_app_distr. cbn [rev app fold_left]. rewrite (bit_step s _ _ (Z.of_nat m) nrm_al eq_refl). rewrite <- IH at 1. f_equal.
    assert (Ek : (2 * Z.to_nat (s / 2 ^ Z.of_nat (S m)) + (if Z.testbit s (Z.of_nat m) then 1 else 0) = Z.to_nat (s / 2 ^ Z.of_nat m))%nat).
    { rewrite Nat2Z.inj_succ, Z.pow_succ_r, Z.mul_comm, <- Z.div_div by lia. pose proof (Z.div_pos s (2 ^ Z.of_nat m) S0 ltac:(lia)) as Q0.
      replace (Z.testbit s (Z.of_nat m)) with (Z.odd (s / 2 ^ Z.of_nat m)) by (rewrite Z.testbit_odd, Z.shiftr_div_pow2 by lia; reflexivity).
      set (q := s / 2 ^ Z.of_nat m) in *. clearbody q. pose proof (Zmod_odd q) as Q1. pose proof (Z.div_mod q 2 ltac:(lia)) as Q2. pose proof (Z.div_pos q 2 Q0 ltac:(lia)) as Q3.
      destruct (Z.odd q); rewrite Q1 in Q2; clear - Q0 Q2 Q3; lia. }
    rewrite Ek. reflexivity.
Qed.
Theorem lucas_run : 3 <= P < p -> 7 < p ->
  let r := ctz (p + 1) in let s := Z.shiftr (p + 1) r in
  let '(vk, vk1) := fold_left (lucas_bit p P s) (rev (zseq 0 (S (Z.to_nat (bitlen s))))) (2, P) in
  (if ((vk =? 2) || (vk =? p - 2)) && ((vk * P - vk1 * 2) mod p =? 0) then true else lucas_tail p (Z.to_nat (r - 1)) vk) = true.
Proof.
  intros HP P7. cbv zeta. destruct (oddp_spec (p + 1) ltac:(lia)) as (Eo & Oo & Bo). pose proof (ctz_nonneg (p + 1)) as C0.
  assert (Es : Z.shiftr (p + 1) (ctz (p + 1)) = oddp (p + 1)).
  { rewrite Z.shiftr_div_pow2 by exact C0. rewrite Eo at 1. rewrite Z.mul_comm. apply Z.div_mul. apply Z.pow_nonzero; lia. }
  rewrite Es. set (r := ctz (p + 1)) in *. set (s := oddp (p + 1)) in *. clearbody r s. clear Es.
  assert (R1 : 1 <= r).
  { destruct (Z.eq_dec r 0) as [->|]; [|lia]. exfalso. rewrite Z.pow_0_r, Z.mul_1_l in Eo. rewrite <- Eo, Z.odd_add, O in Oo. discriminate Oo. }
  pose proof (ladder s ltac:(lia) (S (Z.to_nat (bitlen s)))) as L. rewrite (Z.div_small s) in L.
  2:{ split; [lia|]. unfold bitlen. replace (s =? 0) with false by lia. rewrite Z.abs_eq by lia. pose proof (Z.log2_nonneg s). rewrite Nat2Z.inj_succ, Z2Nat.id by lia.
      pose proof (Z.log2_spec s ltac:(lia)) as [_ LS]. eapply Z.lt_trans; [exact LS|]. apply Z.pow_lt_mono_r; lia. }
  cbn [Z.to_nat qpow] in L. replace (tr (q_ 1)) with 2 in L by (unfold tr, q_; cbn [fst snd]; ring). replace (tr (qmul al (q_ 1))) with P in L by (unfold tr, qmul, al, q_; cbn [fst snd]; ring).
  rewrite !Z.mod_small in L by lia. rewrite L. clear L.
  assert (OR : cg (qpow (qpow al (Z.to_nat s)) (2 ^ S (Z.to_nat (r - 1)))) (q_ 1)).
  { rewrite <- qpow_mul. replace (Z.to_nat s * 2 ^ S (Z.to_nat (r - 1)))%nat with (Z.to_nat (p + 1)); [exact al_order|]. apply Nat2Z.inj. rewrite Nat2Z.inj_mul, Nat2Z.inj_pow, !Z2Nat.id by lia.
    change (Z.of_nat 2) with 2. rewrite Nat2Z.inj_succ, Z2Nat.id by lia. rewrite Eo. replace (Z.succ (r - 1)) with r by lia. ring. }
  pose proof (nrm_pow al (Z.to_nat s) nrm_al) as N. cbn [qpow]. set (x := qpow al (Z.to_nat s)) in *. clearbody x.
  assert (D1 : cg x (q_ 1) -> tr x mod p = 2 /\ tr (qmul al x) mod p = P).
  { intros Q. split; [pose proof (tr_cg _ _ Q) as T|pose proof (tr_cg _ _ (cg_mul _ _ _ _ (cg_refl al) Q)) as T]; unfold eqm in T; rewrite T.
    - replace (tr (q_ 1)) with 2 by (unfold tr, q_; cbn [fst snd]; ring). apply Z.mod_small. lia.
    - replace (tr (qmul al (q_ 1))) with P by (unfold tr, qmul, al, q_; cbn [fst snd]; ring). apply Z.mod_small. lia. }
  assert (D2 : cg x (q_ (-1)) -> tr x mod p = p - 2 /\ tr (qmul al x) mod p = p - P).
  { intros Q. split; [pose proof (tr_cg _ _ Q) as T|pose proof (tr_cg _ _ (cg_mul _ _ _ _ (cg_refl al) Q)) as T]; unfold eqm in T; rewrite T.
    - replace (tr (q_ (-1))) with (p - 2 + -1 * p) by (unfold tr, q_; cbn [fst snd]; ring). rewrite Z_mod_plus_full. apply Z.mod_small. lia.
    - replace (tr (qmul al (q_ (-1)))) with (p - P + -1 * p) by (unfold tr, qmul, al, q_; cbn [fst snd]; ring). rewrite Z_mod_plus_full. apply Z.mod_small. lia. }
  destruct (((tr x mod p =? 2) || (tr x mod p =? p - 2)) && ((tr x mod p * P - tr (qmul al x) mod p * 2) mod p =? 0)) eqn:T; [reflexivity|].
  apply tail_ok; [exact N|exact OR|intros Q|intros Q].
  - destruct (D1 Q) as [Q1 Q2]. rewrite Q1, Q2 in T. replace (2 * P - P * 2) with 0 in T by ring. rewrite Z.mod_0_l in T by lia. discriminate T.
  - destruct (D2 Q) as [Q1 Q2]. rewrite Q1, Q2 in T. replace ((p - 2) * P - (p - P) * 2) with ((P - 2) * p) in T by ring. rewrite Z.mod_mul in T by lia.
    rewrite Z.eqb_refl, orb_true_r in T. discriminate T.
Qed.
End Quad.

(* ---- the search for a parameter, and the whole test ---- *)
Definition lucas_bound (limit : Z) : Z := if limit =? 0 then 10000 else Z.min limit 10000.
Section Search.
Variable n limit : Z.
Hypothesis Hp : prime n.
Hypothesis O : Z.odd n = true.
Hypothesis N7 : 7 < n.
Lemma param_zero a : 3 <= a <= n - 2 -> jsym (a * a - 4) n = 0 -> n = a + 2.
Proof.
  intros A J. apply (jsym_prime n Hp O) in J. replace (a * a - 4) with ((a - 2) * (a + 2)) in J by ring. apply prime_mult in J; [|exact Hp].
  destruct J as [J|J]; apply Z.divide_pos_le in J; lia.
Qed.
Lemma jsym_three x : jsym x n = 0 \/ jsym x n = 1 \/ jsym x n = -1.
Proof. unfold jsym. destruct (Z.gcd x n =? 1) eqn:E; [|left; reflexivity]. right. pose proof (jsym_sign x n ltac:(lia)) as S. unfold jsym in S. rewrite E in S. exact S. Qed.
Lemma last_zero : jsym ((n - 2) * (n - 2) - 4) n = 0.
Proof. apply (jsym_prime n Hp O). exists (n - 4). ring. Qed.
Lemma search : exists r, until 10001 (lucas_param n limit) 3 = inr r /\
  match r with
  | None => forall a, 3 <= a <= lucas_bound limit -> jsym (a * a - 4) n = 1
  | Some None => exists a, 3 <= a <= lucas_bound limit /\ jsym (a * a - 4) n = 0
  | Some (Some a) => 3 <= a <= lucas_bound limit /\ a < n /\ jsym (a * a - 4) n = -1
  end.
Proof.
  apply (until_done (fun s => 3 <= s <= 10001 /\ s <= n - 2 /\ forall a, 3 <= a < s -> jsym (a * a - 4) n = 1)
    (fun r => match r with
      | None => forall a, 3 <= a <= lucas_bound limit -> jsym (a * a - 4) n = 1
      | Some None => exists a, 3 <= a <= lucas_bound limit /\ jsym (a * a - 4) n = 0
      | Some (Some a) => 3 <= a <= lucas_bound limit /\ a < n /\ jsym (a * a - 4) n = -1
      end) (fun s => 10001 - s)).
  - intros s (S1 & S2 & S3). unfold lucas_param. destruct (Z.ltb_spec 10000 s) as [L|L].
    { intros a A. apply S3. unfold lucas_bound in A. destruct (limit =? 0); lia. }
    destruct (negb (limit =? 0) && (limit <? s)) eqn:Lim.
    { intros a A. apply S3. apply andb_true_iff in Lim. destruct Lim as [L1 L2]. apply negb_true_iff in L1. unfold lucas_bound in A. rewrite L1 in A. lia. }
    assert (SB : s <= lucas_bound limit) by (unfold lucas_bound; destruct (limit =? 0); cbn [negb andb] in Lim; lia).
    rewrite (jac_jsym n Hp O) by nia. destruct (jsym_three (s * s - 4)) as [J|[J|J]]; rewrite J; cbn [Z.eqb Pos.eqb].
    + rewrite (param_zero s ltac:(lia) J), Z.eqb_refl. exists s. split; [lia|]. rewrite <- (param_zero s ltac:(lia) J). exact J.
    + assert (NS : s <> n - 2) by (intros E; rewrite E, last_zero in J; discriminate J).
      assert (SQ : (s =? 40) && match mpz_perfect_square_p n with Some b => b | None => true end = false).
      { apply andb_false_iff. right. destruct (mpz_perfect_square_spec n) as (b & Eb & Hb). rewrite Eb. destruct b; [|reflexivity]. exfalso. destruct (proj1 Hb eq_refl) as (t & Et).
        assert (D : (Z.abs t | n)) by (exists (Z.abs t); rewrite <- Z.abs_mul, Z.abs_eq; lia). destruct (prime_divisors n Hp _ D) as [e|[e|[e|e]]]; clear - e Et N7; nia. }
      rewrite SQ. split; [|lia]. split; [lia|]. split; [lia|]. intros a A. destruct (Z.eq_dec a s) as [->|]; [exact J|]. apply S3. lia.
    + split; [lia|]. split; [lia|exact J].
  - split; [lia|]. split; [lia|]. intros a A. lia.
  - lia.
Qed.
Theorem lucas_accepts : lucas_prime n limit = true <-> exists a, 3 <= a <= lucas_bound limit /\ jsym (a * a - 4) n <> 1.
Proof.
  unfold lucas_prime. replace (n <? 2) with false by lia. rewrite <- Z.negb_odd, O. cbn [negb]. replace (n <=? 7) with false by lia.
  destruct search as (r & Er & Hr). rewrite Er. destruct r as [[a|]|].
  - destruct Hr as (A1 & A2 & J). split; [intros _; exists a; split; [exact A1|rewrite J; discriminate]|intros _].
    pose proof (lucas_run a n Hp O (proj1 (proj2 (proj2 (jsym_prime n Hp O _))) J) ltac:(lia) N7) as R. cbv zeta in R |- *.
    destruct (fold_left _ _ _) as [vk vk1]. exact R.
  - split; [intros _|reflexivity]. destruct Hr as (a & A & J). exists a. split; [exact A|]. rewrite J. discriminate.
  - split; [discriminate|]. intros (a & A & J). exfalso. apply J. apply Hr. exact A.
Qed.
End Search.

Lemma odd_prime_not_even x : prime x -> 7 < x -> Z.odd x = false -> False.
Proof.
  intros Hp X O. rewrite <- Z.negb_even in O. apply negb_false_iff, Z.even_spec in O. destruct O as (h & E). destruct (prime_divisors x Hp 2) as [e|[e|[e|e]]]; try lia. exists h. lia.
Qed.
Lemma jsym_not_one n x : prime n -> Z.odd n = true -> jsym x n <> 1 <-> x mod n = 0 \/ forall z, (z * z) mod n <> x mod n.
Proof.
  intros Hp O. destruct (jsym_prime n Hp O x) as (J0 & J1 & J2). pose proof (P3 n Hp O) as N3. assert (E0 : x mod n = 0 <-> (n | x)) by (apply Z.mod_divide; lia). split.
  - intros N. destruct (jsym_three n x) as [J|[J|J]]; [left; apply E0, J0, J|contradiction|right; intros z; exact (proj1 J2 J z)].
  - intros [E|E] J; apply J1 in J; destruct J as [Nd (z & Hz)]; [apply Nd, E0, E|exact (E z Hz)].
Qed.
(* a prime that leaves 1 modulo every number up to 10002 has no parameter *)
Lemma no_param n : prime n -> Z.odd n = true -> 10002 < n -> (forall m, 2 <= m <= 10002 -> n mod m = 1) -> forall m, 1 <= m <= 10002 -> jsym m n = 1.
Proof.
  intros Hp O N H. assert (One : forall m, 0 < m -> Z.odd m = true -> jsym 1 m = 1).
  { intros m M Om. pose proof (jsym_mul 1 1 m M Om) as E. rewrite Z.mul_1_l in E. destruct (jsym_sign 1 m (Z.gcd_1_l m)) as [J|J]; rewrite J in *; [reflexivity|discriminate E]. }
  assert (T : forall k, forall m, 1 <= m <= 10002 -> m <= Z.of_nat k -> jsym m n = 1).
  { induction k as [|k IH]; intros m M K; [lia|]. destruct (Z.odd m) eqn:Om.
    - destruct (Z.eq_dec m 1) as [->|M1]; [apply One; [lia|exact O]|]. rewrite jsym_rec by (first [lia | assumption]).
      rewrite (H 4) by lia. change (1 =? 3) with false. rewrite andb_false_r, Z.mul_1_l.
      rewrite <- (jsym_mod n m) by lia. rewrite (H m) by lia. apply One; [lia|exact Om].
    - assert (E : m = 2 * (m / 2)). { pose proof (Zmod_odd m) as E. rewrite Om in E. pose proof (Z.div_mod m 2 ltac:(lia)). lia. }
      rewrite E, jsym_mul by (first [lia | assumption]). rewrite jsym_2 by (first [lia | assumption]). rewrite (H 8) by lia. cbn [Z.eqb Pos.eqb orb]. rewrite Z.mul_1_l. apply IH; lia. }
  intros m M. apply (T (Z.to_nat m)); lia.
Qed.
Lemma lucas_rejects n : prime n -> Z.odd n = true -> 10002 < n -> (forall m, 2 <= m <= 10002 -> n mod m = 1) -> lucas_prime n 0 = false.
Proof.
  intros Hp O N H. destruct (lucas_prime n 0) eqn:E; [|reflexivity]. exfalso. apply (lucas_accepts n 0 Hp O ltac:(lia)) in E. destruct E as (a & A & J). change (lucas_bound 0) with 10000 in A. apply J.
  replace (a * a - 4) with ((a - 2) * (a + 2)) by ring. rewrite jsym_mul by (first [lia | assumption]). rewrite !(no_param n Hp O N H) by lia. reflexivity.
Qed.
