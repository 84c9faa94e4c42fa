(* Congruences and Fermat's little theorem over Z. *)
From Coq Require Import Znumtheory Zpow_facts Permutation.
From Verif.Base Require Import Prelude.

Definition prod (l : list Z) : Z := fold_right Z.mul 1 l.
Lemma prod_perm : forall l k, Permutation l k -> prod l = prod k.
Proof. intros l k P. induction P; cbn [prod fold_right] in *; unfold prod in *; try congruence; ring. Qed.
Lemma prod_map : forall p a l, p <> 0 -> prod (map (fun x => (a * x) mod p) l) mod p = (a ^ Z.of_nat (length l) * prod l) mod p.
Proof.
  intros p a l Hp. induction l as [|x l IH]; [cbn [map length]; rewrite Z.pow_0_r, Z.mul_1_l; reflexivity|].
  cbn [map length]. unfold prod in *. cbn [fold_right]. rewrite Z.mul_mod, Z.mod_mod, IH, <- Z.mul_mod by exact Hp. f_equal. rewrite Nat2Z.inj_succ, Z.pow_succ_r by lia. ring.
Qed.
Lemma prod_coprime : forall p l, prime p -> (forall x, In x l -> 0 < x < p) -> rel_prime p (prod l).
Proof.
  intros p l Hp H. induction l as [|x l IH]; [apply rel_prime_sym, rel_prime_1|]. unfold prod in *. cbn [fold_right]. apply rel_prime_mult.
  - apply rel_prime_sym, rel_prime_le_prime; [exact Hp|]. specialize (H x (or_introl eq_refl)). lia.
  - apply IH. intros y Hy. apply H. right. exact Hy.
Qed.
Definition units (p : Z) : list Z := map (fun k => Z.of_nat k) (seq 1 (Z.to_nat (p - 1))).
Lemma units_in : forall p x, In x (units p) <-> 0 < x < p.
Proof.
  intros p x. unfold units. rewrite in_map_iff. split.
  - intros (k & E & H). apply in_seq in H. lia.
  - intros H. exists (Z.to_nat x). split; [lia|]. apply in_seq. lia.
Qed.
Lemma units_nodup : forall p, NoDup (units p).
Proof. intros p. apply FinFun.Injective_map_NoDup; [intros a b E; lia|apply seq_NoDup]. Qed.

Theorem fermat : forall p a, prime p -> a mod p <> 0 -> (a ^ (p - 1)) mod p = 1.
Proof.
  intros p a Hp Ha. pose proof (prime_ge_2 p Hp) as P2. set (u := units p). set (f := fun x => (a * x) mod p).
  assert (RA : rel_prime p a). { apply prime_rel_prime; [exact Hp|]. intros D. apply Ha. apply Z.mod_divide; [lia|exact D]. }
  assert (IN : forall x, In x u -> In (f x) u).
  { intros x Hx. apply units_in in Hx. apply units_in. unfold f. pose proof (Z.mod_pos_bound (a * x) p ltac:(lia)). enough ((a * x) mod p <> 0) by lia. intros E. apply Z.mod_divide in E; [|lia].
    apply Gauss in E; [|exact RA]. apply Z.divide_pos_le in E; lia. }
  assert (INJ : forall x y, In x u -> In y u -> f x = f y -> x = y).
  { intros x y Hx Hy E. apply units_in in Hx. apply units_in in Hy. unfold f in E. assert (D : (p | a * (x - y))).
    { apply Z.mod_divide; [lia|]. rewrite Z.mul_sub_distr_l. rewrite Zminus_mod, E, Z.sub_diag. apply Z.mod_0_l. lia. }
    apply Gauss in D; [|exact RA]. destruct D as (c & D). assert (c = 0) by (clear - D Hx Hy P2; nia). subst c. lia. }
  assert (ND : NoDup (map f u)).
  { assert (G : forall l, (forall x, In x l -> In x u) -> NoDup l -> NoDup (map f l)).
    { induction l as [|x l IH]; intros Hl N; [constructor|]. inversion N; subst. cbn [map]. constructor.
      - rewrite in_map_iff. intros (y & E & Hy). apply INJ in E; [subst y; contradiction| |]; apply Hl; [right; exact Hy|left; reflexivity].
      - apply IH; [|assumption]. intros y Hy. apply Hl. right. exact Hy. }
    apply G; [auto|apply units_nodup]. }
  assert (PM : Permutation (map f u) u).
  { apply NoDup_Permutation_bis; [exact ND|rewrite map_length; apply le_n|]. intros x Hx. apply in_map_iff in Hx. destruct Hx as (y & E & Hy). subst x. apply IN. exact Hy. }
  pose proof (prod_map p a u ltac:(lia)) as PR. fold f in PR. rewrite (prod_perm _ _ PM) in PR.
  assert (LU : Z.of_nat (length u) = p - 1) by (unfold u, units; rewrite map_length, seq_length; lia). rewrite LU in PR.
  assert (D : (p | prod u * (a ^ (p - 1) - 1))).
  { apply Z.mod_divide; [lia|]. replace (prod u * (a ^ (p - 1) - 1)) with (a ^ (p - 1) * prod u - prod u) by ring. rewrite Zminus_mod, <- PR, Z.sub_diag. apply Z.mod_0_l. lia. }
  apply Gauss in D; [|apply prod_coprime; [exact Hp|intros x Hx; apply units_in; exact Hx]]. destruct D as (c & D). symmetry. apply (Z.mod_unique _ _ c); lia.
Qed.
Corollary fermat_all : forall p a, prime p -> (a ^ p) mod p = a mod p.
Proof.
  intros p a Hp. pose proof (prime_ge_2 p Hp) as P2. replace p with (1 + (p - 1)) at 1 by lia. rewrite Z.pow_add_r, Z.pow_1_r by lia. destruct (Z.eq_dec (a mod p) 0) as [E|E].
  - rewrite Z.mul_mod, E by lia. reflexivity.
  - rewrite Z.mul_mod, fermat, Z.mul_1_r by (lia || assumption). apply Z.mod_mod. lia.
Qed.
