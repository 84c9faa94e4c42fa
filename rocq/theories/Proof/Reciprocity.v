(* The Jacobi symbol by Gauss and Schering: its laws, quadratic reciprocity, and the link with Legendre symbols. *)
From Coq Require Import Znumtheory Permutation.
From Verif.Base Require Import Prelude.
From Verif.Model Require Import Encoding MpnMod NumTheory.
From Verif.Proof Require Import Cong Fermat NumJacobi.

(* ---- products of signs ---- *)
Definition chi (x : Z) : Z := if Z.even x then 1 else -1.
Lemma chi_add x y : chi (x + y) = chi x * chi y.
Proof. unfold chi. rewrite Z.even_add. destruct (Z.even x), (Z.even y); reflexivity. Qed.
Lemma chi_mul_odd x y : Z.odd x = true -> chi (x * y) = chi y.
Proof. intros O. unfold chi. rewrite Z.even_mul, <- Z.negb_odd, O. reflexivity. Qed.
Lemma chi_sq x : chi x * chi x = 1. Proof. unfold chi. destruct (Z.even x); reflexivity. Qed.
Definition sign (v : Z) : Prop := v = 1 \/ v = -1.
Lemma sign_sq v : sign v -> v * v = 1. Proof. intros [-> | ->]; reflexivity. Qed.
Definition prd (l : list Z) (f : Z -> Z) : Z := prod (map f l).
Lemma prd_nil f : prd [] f = 1. Proof. reflexivity. Qed.
Lemma prd_cons x l f : prd (x :: l) f = f x * prd l f. Proof. reflexivity. Qed.
Lemma prd_app l k f : prd (l ++ k) f = prd l f * prd k f.
Proof. induction l as [|x l IH]; [rewrite prd_nil, Z.mul_1_l; reflexivity|]. cbn [app]. rewrite !prd_cons, IH. ring. Qed.
Lemma prd_mul l f g : prd l (fun x => f x * g x) = prd l f * prd l g.
Proof. induction l as [|x l IH]; [reflexivity|]. rewrite !prd_cons, IH. ring. Qed.
Lemma prd_ext l f g : (forall x, In x l -> f x = g x) -> prd l f = prd l g.
Proof. induction l as [|x l IH]; intros H; [reflexivity|]. rewrite !prd_cons, (H x) by (left; reflexivity). rewrite IH; [reflexivity|]. intros y I. apply H. right. exact I. Qed.
Lemma prd_perm l k f : Permutation l k -> prd l f = prd k f.
Proof. intros P. apply prod_perm. apply Permutation_map. exact P. Qed.
Lemma prd_map l g f : prd (map g l) f = prd l (fun x => f (g x)).
Proof. unfold prd. rewrite map_map. reflexivity. Qed.
Lemma prd_swap l k f : prd l (fun x => prd k (fun y => f x y)) = prd k (fun y => prd l (fun x => f x y)).
Proof.
  induction l as [|x l IH]; [symmetry; induction k as [|y k IK]; [reflexivity|rewrite prd_cons, IK; reflexivity]|]. rewrite prd_cons, IH. rewrite <- prd_mul. apply prd_ext. intros y _. reflexivity.
Qed.
Lemma prd_sign l f : (forall x, In x l -> sign (f x)) -> sign (prd l f).
Proof.
  induction l as [|x l IH]; intros H; [left; reflexivity|]. rewrite prd_cons. destruct (H x (or_introl eq_refl)) as [-> | ->]; (destruct IH as [-> | ->]; [intros y I; apply H; right; exact I| |]); unfold sign; lia.
Qed.
Lemma prd_const l v : prd l (fun _ => v) = v ^ Z.of_nat (length l).
Proof. induction l as [|x l IH]; [reflexivity|]. rewrite prd_cons, IH. cbn [length]. rewrite Nat2Z.inj_succ, Z.pow_succ_r by lia. reflexivity. Qed.
Lemma pow_m1 k : 0 <= k -> (-1) ^ k = chi k.
Proof.
  intros K. rewrite <- (Z2Nat.id k K). clear K. induction (Z.to_nat k) as [|m IH]; [reflexivity|]. rewrite Nat2Z.inj_succ, Z.pow_succ_r, IH by lia. unfold chi. rewrite Z.even_succ, <- Z.negb_even. destruct (Z.even _); reflexivity.
Qed.
(* ---- the half system 1 .. (n-1)/2 ---- *)
Definition half (n : Z) : Z := (n - 1) / 2.
Definition hl (n : Z) : list Z := zseq 1 (Z.to_nat (half n)).
Lemma odd_half n : Z.odd n = true -> n = 2 * half n + 1.
Proof. intros O. unfold half. rewrite Zodd_bool_iff in O. apply Zodd_ex in O. destruct O as [m ->]. replace (2 * m + 1 - 1) with (m * 2) by ring. rewrite Z.div_mul by lia. ring. Qed.
Lemma half_nn n : 0 < n -> 0 <= half n. Proof. intros H. apply Z.div_pos; lia. Qed.
Lemma hl_in n x : 0 < n -> In x (hl n) <-> 1 <= x <= half n.
Proof. intros N. unfold hl. rewrite zseq_in. pose proof (half_nn n N). lia. Qed.
Lemma zseq_nodup s m : NoDup (zseq s m).
Proof. revert s. induction m as [|m IH]; intros s; cbn [zseq]; constructor; [rewrite zseq_in; lia|apply IH]. Qed.
Lemma hl_nodup n : NoDup (hl n). Proof. apply zseq_nodup. Qed.
Lemma hl_len n : 0 < n -> Z.of_nat (length (hl n)) = half n.
Proof. intros N. unfold hl. rewrite zseq_length. pose proof (half_nn n N). lia. Qed.
(* the sign and the absolute value of the least residue *)
Definition sg (n x : Z) : Z := if x mod n <=? half n then 1 else -1.
Definition ab (n x : Z) : Z := if x mod n <=? half n then x mod n else n - x mod n.
Lemma sg_sign n x : sign (sg n x). Proof. unfold sg, sign. destruct (_ <=? _); auto. Qed.
Section N.
Variable n : Z.
Hypothesis Np : 0 < n.
Hypothesis On : Z.odd n = true.
Lemma Eh : n = 2 * half n + 1. Proof. exact (odd_half n On). Qed.
Lemma sg_mod x : sg n (x mod n) = sg n x. Proof. unfold sg. rewrite Z.mod_mod by lia. reflexivity. Qed.
Lemma sg_eqm x y : x ≡ y ⟦ n ⟧ -> sg n x = sg n y. Proof. unfold eqm, sg. intros ->. reflexivity. Qed.
Lemma ab_spec x : x ≡ sg n x * ab n x ⟦ n ⟧.
Proof.
  apply eqm_sym. unfold sg, ab. destruct (Z.leb_spec (x mod n) (half n)) as [L|L]; [rewrite Z.mul_1_l; apply eqm_mod|].
  apply eqm_iff; [exact Np|]. exists (- 1 - x / n). pose proof (Z.div_mod x n ltac:(lia)). lia.
Qed.
Lemma ab_range x : x mod n <> 0 -> 1 <= ab n x <= half n.
Proof. intros NZ. pose proof (Z.mod_pos_bound x n Np). pose proof Eh. unfold ab. destruct (Z.leb_spec (x mod n) (half n)); lia. Qed.
Lemma sg_opp x : x mod n <> 0 -> sg n (- x) = - sg n x.
Proof.
  intros NZ. pose proof (Z.mod_pos_bound x n Np). pose proof Eh. unfold sg. assert (E : (- x) mod n = n - x mod n) by (rewrite Z.mod_opp_l_nz by lia; reflexivity). rewrite E. destruct (Z.leb_spec (x mod n) (half n)), (Z.leb_spec (n - x mod n) (half n)); lia.
Qed.
(* multiplication by a unit permutes the half system up to signs *)
Lemma unit_nz a k : Z.gcd a n = 1 -> 1 <= k <= half n -> (a * k) mod n <> 0.
Proof.
  intros C K E. pose proof Eh. apply Z.mod_divide in E; [|lia]. apply Gauss in E; [apply Z.divide_pos_le in E; lia|]. apply Zgcd_1_rel_prime. rewrite Z.gcd_comm. exact C.
Qed.
Lemma ab_inj a j k : Z.gcd a n = 1 -> 1 <= j <= half n -> 1 <= k <= half n -> ab n (a * j) = ab n (a * k) -> j = k.
Proof.
  intros C J K E. pose proof Eh as EH. pose proof (ab_spec (a * j)) as SJ. pose proof (ab_spec (a * k)) as SK. rewrite E in SJ. set (t := ab n (a * k)) in *. clearbody t.
  assert (RP : rel_prime n a) by (apply Zgcd_1_rel_prime; rewrite Z.gcd_comm; exact C).
  assert (H : (n | a * (j - k)) \/ (n | a * (j + k))).
  { destruct (sg_sign n (a * j)) as [Sj|Sj]; destruct (sg_sign n (a * k)) as [Sk|Sk]; rewrite Sj in SJ; rewrite Sk in SK; apply eqm_iff in SJ, SK; try exact Np.
    - left. replace (a * (j - k)) with ((a * j - 1 * t) - (a * k - 1 * t)) by ring. apply Z.divide_sub_r; assumption.
    - right. replace (a * (j + k)) with ((a * j - 1 * t) + (a * k - -1 * t)) by ring. apply Z.divide_add_r; assumption.
    - right. replace (a * (j + k)) with ((a * j - -1 * t) + (a * k - 1 * t)) by ring. apply Z.divide_add_r; assumption.
    - left. replace (a * (j - k)) with ((a * j - -1 * t) - (a * k - -1 * t)) by ring. apply Z.divide_sub_r; assumption. }
  destruct H as [H|H]; apply Gauss in H; try exact RP.
  - destruct (Z.eq_dec j k) as [|NE]; [assumption|exfalso]. apply Z.divide_abs_r in H. apply Z.divide_pos_le in H; lia.
  - exfalso. apply Z.divide_pos_le in H; lia.
Qed.
Lemma ab_perm a : Z.gcd a n = 1 -> Permutation (map (fun k => ab n (a * k)) (hl n)) (hl n).
Proof.
  intros C. apply NoDup_Permutation_bis.
  - assert (G : forall l, (forall x, In x l -> In x (hl n)) -> NoDup l -> NoDup (map (fun k => ab n (a * k)) l)); [|apply G; [auto|apply hl_nodup]].
    induction l as [|x l IH]; intros Hl ND; [constructor|]. inversion ND; subst. cbn [map]. constructor.
    + rewrite in_map_iff. intros (y & E & Hy). assert (y = x). { apply (ab_inj a); [exact C|apply hl_in; [exact Np|]; apply Hl; right; exact Hy|apply hl_in; [exact Np|]; apply Hl; left; reflexivity|exact E]. } subst y. contradiction.
    + apply IH; [|assumption]. intros y Hy. apply Hl. right. exact Hy.
  - rewrite map_length. apply le_n.
  - intros x I. apply in_map_iff in I. destruct I as (k & <- & K). apply hl_in in K; [|exact Np]. apply hl_in; [exact Np|]. apply ab_range. exact (unit_nz a k C K).
Qed.
End N.
(* ---- the symbol ---- *)
Definition jsym (a n : Z) : Z := if Z.gcd a n =? 1 then prd (hl n) (fun k => sg n (a * k)) else 0.
Lemma jsym_unit a n : Z.gcd a n = 1 -> jsym a n = prd (hl n) (fun k => sg n (a * k)). Proof. intros E. unfold jsym. rewrite E. reflexivity. Qed.
Lemma jsym_zero a n : Z.gcd a n <> 1 -> jsym a n = 0. Proof. intros E. unfold jsym. rewrite (proj2 (Z.eqb_neq _ _) E). reflexivity. Qed.
Lemma jsym_sign a n : Z.gcd a n = 1 -> sign (jsym a n).
Proof. intros E. rewrite (jsym_unit a n E). apply prd_sign. intros x _. apply sg_sign. Qed.
Lemma gcd_mod' a n : 0 < n -> Z.gcd (a mod n) n = Z.gcd a n. Proof. intros N. rewrite Z.gcd_mod by lia. apply Z.gcd_comm. Qed.
Lemma jsym_mod a n : 0 < n -> jsym (a mod n) n = jsym a n.
Proof.
  intros N. unfold jsym. rewrite (gcd_mod' a n N). destruct (Z.gcd a n =? 1); [|reflexivity]. apply prd_ext. intros k _. apply sg_eqm. apply eqm_mul; [apply eqm_mod|apply eqm_refl].
Qed.
Lemma jsym_1 a : jsym a 1 = 1.
Proof. rewrite jsym_unit by apply Z.gcd_1_r. reflexivity. Qed.
Lemma jsym_0 n : 1 < n -> jsym 0 n = 0.
Proof. intros N. apply jsym_zero. rewrite Z.gcd_0_l, Z.abs_eq by lia. lia. Qed.
Lemma gcd_mul a b n : 0 < n -> Z.gcd (a * b) n = 1 <-> Z.gcd a n = 1 /\ Z.gcd b n = 1.
Proof.
  intros N. rewrite !Zgcd_1_rel_prime. split.
  - intros H. split; apply (rel_prime_div (a * b) n _ H); [exists b; ring|exists a; ring].
  - intros [H1 H2]. apply rel_prime_sym. apply rel_prime_mult; apply rel_prime_sym; assumption.
Qed.
Lemma jsym_mul a b n : 0 < n -> Z.odd n = true -> jsym (a * b) n = jsym a n * jsym b n.
Proof.
  intros N O. destruct (Z.eq_dec (Z.gcd (a * b) n) 1) as [E|E].
  - pose proof (proj1 (gcd_mul a b n N) E) as [Ea Eb]. rewrite !jsym_unit by assumption. rewrite <- (prd_perm _ _ (fun k => sg n (a * k)) (ab_perm n N O b Eb)), prd_map, <- prd_mul. apply prd_ext. intros k K. apply hl_in in K; [|exact N].
    assert (NZ : (a * ab n (b * k)) mod n <> 0) by (apply unit_nz; [exact N|exact O|exact Ea|apply ab_range; [exact N|exact O|apply unit_nz; assumption]]).
    rewrite (sg_eqm n (a * b * k) (sg n (b * k) * (a * ab n (b * k)))).
    + destruct (sg_sign n (b * k)) as [-> | ->]; [rewrite !Z.mul_1_l, Z.mul_1_r; reflexivity|]. replace (-1 * (a * ab n (b * k))) with (- (a * ab n (b * k))) by ring. rewrite sg_opp by assumption. ring.
    + replace (a * b * k) with (a * (b * k)) by ring. replace (sg n (b * k) * (a * ab n (b * k))) with (a * (sg n (b * k) * ab n (b * k))) by ring. apply eqm_mul; [apply eqm_refl|]. apply ab_spec. exact N.
  - rewrite jsym_zero by exact E. rewrite (gcd_mul a b n N) in E. destruct (Z.eq_dec (Z.gcd a n) 1) as [Ea|Ea]; [|rewrite (jsym_zero a n Ea); reflexivity]. rewrite (jsym_zero b n); [ring|]. intros Eb. apply E. split; assumption.
Qed.
(* a threshold: the product of -1 past t *)
Lemma prd_thr t m s : s - 1 <= t -> prd (zseq s m) (fun k => if k <=? t then 1 else -1) = if t <? s + Z.of_nat m - 1 then chi (s + Z.of_nat m - 1 - t) else 1.
Proof.
  revert s. induction m as [|m IH]; intros s T.
  - cbn [zseq]. rewrite prd_nil. destruct (Z.ltb_spec t (s + Z.of_nat 0 - 1)); [lia|reflexivity].
  - cbn [zseq]. rewrite prd_cons. destruct (Z.leb_spec s t) as [L|L].
    + rewrite IH by lia. replace (s + 1 + Z.of_nat m - 1) with (s + Z.of_nat (S m) - 1) by lia. ring.
    + assert (ES : s = t + 1) by lia. rewrite (prd_ext _ _ (fun _ => -1)) by (intros x I; apply zseq_in in I; destruct (Z.leb_spec x t); lia). rewrite prd_const, zseq_length. destruct (Z.ltb_spec t (s + Z.of_nat (S m) - 1)); [|lia].
      rewrite pow_m1 by lia. replace (s + Z.of_nat (S m) - 1 - t) with (1 + Z.of_nat m) by lia. rewrite chi_add. reflexivity.
Qed.
Lemma jsym_2 n : 0 < n -> Z.odd n = true -> jsym 2 n = if (n mod 8 =? 1) || (n mod 8 =? 7) then 1 else -1.
Proof.
  intros N O. pose proof (odd_half n O) as EH. pose proof (half_nn n N) as HN. assert (E : Z.gcd 2 n = 1). { apply Zgcd_1_rel_prime. apply prime_rel_prime; [exact prime_2|]. intros [q Q]. lia. }
  rewrite (jsym_unit 2 n E). rewrite (prd_ext _ _ (fun k => if k <=? half n / 2 then 1 else -1)).
  - unfold hl. rewrite prd_thr by (pose proof (Z.div_pos (half n) 2 HN ltac:(lia)); lia). rewrite Z2Nat.id by exact HN. replace (1 + half n - 1) with (half n) by ring. set (h := half n) in *. clearbody h. subst n. clear O N E.
    pose proof (Z.div_mod h 4 ltac:(lia)) as D. pose proof (Z.mod_pos_bound h 4 ltac:(lia)) as B. set (q := h / 4) in *. set (r := h mod 4) in *. clearbody q r.
    assert (R : r = 0 \/ r = 1 \/ r = 2 \/ r = 3) by lia.
    assert (E8 : (2 * h + 1) mod 8 = 2 * r + 1) by (symmetry; apply (Z.mod_unique _ _ q); lia). rewrite E8.
    destruct R as [-> | [-> | [-> | ->]]].
    + assert (E2 : h / 2 = 2 * q) by (symmetry; apply (Z.div_unique _ _ _ 0); lia). rewrite E2. destruct (Z.ltb_spec (2 * q) h); [|reflexivity]. unfold chi. replace (h - 2 * q) with (2 * q) by lia. rewrite Z.even_mul. reflexivity.
    + assert (E2 : h / 2 = 2 * q) by (symmetry; apply (Z.div_unique _ _ _ 1); lia). rewrite E2. destruct (Z.ltb_spec (2 * q) h); [|lia]. unfold chi. replace (h - 2 * q) with (1 + 2 * q) by lia. rewrite Z.even_add, Z.even_mul. reflexivity.
    + assert (E2 : h / 2 = 2 * q + 1) by (symmetry; apply (Z.div_unique _ _ _ 0); lia). rewrite E2. destruct (Z.ltb_spec (2 * q + 1) h); [|lia]. unfold chi. replace (h - (2 * q + 1)) with (1 + 2 * q) by lia. rewrite Z.even_add, Z.even_mul. reflexivity.
    + assert (E2 : h / 2 = 2 * q + 1) by (symmetry; apply (Z.div_unique _ _ _ 1); lia). rewrite E2. destruct (Z.ltb_spec (2 * q + 1) h); [|lia]. unfold chi. replace (h - (2 * q + 1)) with (2 * (q + 1)) by lia. rewrite Z.even_mul. reflexivity.
  - intros k K. apply hl_in in K; [|exact N]. unfold sg. rewrite Z.mod_small by lia. pose proof (Z.div_mod (half n) 2 ltac:(lia)). pose proof (Z.mod_pos_bound (half n) 2 ltac:(lia)). destruct (Z.leb_spec (2 * k) (half n)), (Z.leb_spec k (half n / 2)); lia.
Qed.
(* Eisenstein: an odd numerator *)
Lemma eisenstein m n : 0 < m -> 0 < n -> Z.odd m = true -> Z.odd n = true -> Z.gcd m n = 1 -> jsym m n = prd (hl n) (fun k => chi (m * k / n)).
Proof.
  intros M N Om On C. rewrite (jsym_unit m n C).
  assert (E : prd (hl n) chi = prd (hl n) (fun k => chi (m * k / n)) * prd (hl n) (fun k => sg n (m * k)) * prd (hl n) chi).
  { rewrite <- (prd_perm _ _ chi (ab_perm n N On m C)) at 2. rewrite prd_map, <- !prd_mul. apply prd_ext. intros k K. rewrite <- (chi_mul_odd m k Om). rewrite (Z.div_mod (m * k) n) at 1 by lia. rewrite chi_add, (chi_mul_odd n _ On).
    rewrite <- Z.mul_assoc. f_equal. unfold sg, ab. destruct (_ <=? _); [ring|]. unfold Z.sub. rewrite chi_add. unfold chi at 2 3. rewrite <- (Z.negb_odd n), On, Z.even_opp. cbn [negb]. unfold chi. destruct (Z.even _); reflexivity. }
  assert (S1 : sign (prd (hl n) chi)) by (apply prd_sign; intros x _; unfold sign, chi; destruct (Z.even x); auto).
  assert (S2 : sign (prd (hl n) (fun k => chi (m * k / n)))) by (apply prd_sign; intros x _; unfold sign, chi; destruct (Z.even _); auto).
  assert (S3 : sign (prd (hl n) (fun k => sg n (m * k)))) by (apply prd_sign; intros x _; apply sg_sign).
  destruct S1 as [S1|S1], S2 as [S2|S2], S3 as [S3|S3]; rewrite S1, S2, S3 in E; rewrite S2, S3; lia.
Qed.
(* the number of lattice points under the line in a column *)
Lemma column m n k : 0 < m -> 0 < n -> Z.odd m = true -> Z.odd n = true -> 1 <= k <= half n -> chi (m * k / n) = prd (hl m) (fun j => if n * j <=? m * k then -1 else 1).
Proof.
  intros M N Om On K. pose proof (odd_half m Om) as EM. pose proof (odd_half n On) as EN. pose proof (half_nn m M) as HM. pose proof (Z.div_mod (m * k) n ltac:(lia)) as DM. pose proof (Z.mod_pos_bound (m * k) n N) as DB.
  set (q := m * k / n) in *. assert (Q0 : 0 <= q) by (apply Z.div_pos; nia). assert (QH : q <= half m) by nia.
  rewrite (prd_ext _ _ (fun j => -1 * (if j <=? q then 1 else -1))).
  - rewrite prd_mul, prd_const. unfold hl. rewrite prd_thr by lia. rewrite zseq_length, Z2Nat.id by exact HM. rewrite pow_m1 by exact HM. replace (1 + half m - 1) with (half m) by ring. destruct (Z.ltb_spec q (half m)).
    + rewrite <- chi_add. unfold chi. replace (half m + (half m - q)) with (2 * half m - q) by ring. rewrite Z.even_sub, Z.even_mul. cbn [orb Z.even]. destruct (Z.even q); reflexivity.
    + replace (half m) with q by lia. ring.
  - intros j J. apply hl_in in J; [|exact M]. clearbody q. set (r := (m * k) mod n) in *. clearbody r. destruct (Z.leb_spec (n * j) (m * k)), (Z.leb_spec j q); try reflexivity; exfalso; nia.
Qed.
Lemma half_par n : 0 < n -> Z.odd n = true -> Z.even (half n) = negb (n mod 4 =? 3).
Proof.
  intros N O. pose proof (odd_half n O) as E. set (h := half n) in *. clearbody h. pose proof (Z.div_mod h 2 ltac:(lia)) as D. pose proof (Z.mod_pos_bound h 2 ltac:(lia)) as B. rewrite (Zeven_mod h). unfold Zeq_bool. set (q := h / 2) in *. set (r := h mod 2) in *. clearbody q r.
  assert (E4 : n mod 4 = 2 * r + 1) by (symmetry; apply (Z.mod_unique _ _ q); lia). rewrite E4. assert (R : r = 0 \/ r = 1) by lia. destruct R as [-> | ->]; reflexivity.
Qed.
Lemma jsym_rec m n : 0 < m -> 0 < n -> Z.odd m = true -> Z.odd n = true -> jsym m n = (if (m mod 4 =? 3) && (n mod 4 =? 3) then -1 else 1) * jsym n m.
Proof.
  intros M N Om On. destruct (Z.eq_dec (Z.gcd m n) 1) as [C|C]; [|rewrite (jsym_zero m n C), (jsym_zero n m) by (rewrite Z.gcd_comm; exact C); ring].
  assert (C' : Z.gcd n m = 1) by (rewrite Z.gcd_comm; exact C). rewrite (eisenstein m n M N Om On C), (eisenstein n m N M On Om C').
  rewrite (prd_ext (hl n) (fun k => chi (m * k / n)) (fun k => prd (hl m) (fun j => if n * j <=? m * k then -1 else 1))) by (intros k K; apply column; try assumption; apply hl_in; assumption).
  rewrite (prd_ext (hl m) (fun k => chi (n * k / m)) (fun j => prd (hl n) (fun k => if m * k <=? n * j then -1 else 1))) by (intros k K; apply column; try assumption; apply hl_in; assumption).
  set (A := prd (hl n) _). set (B := prd (hl m) _). assert (AB : A * B = chi (half n * half m)).
  { unfold A, B. rewrite (prd_swap (hl m) (hl n)), <- prd_mul. rewrite (prd_ext _ _ (fun k => chi (half m))).
    - rewrite prd_const, (hl_len n N). unfold chi at 2. rewrite Z.even_mul. unfold chi. destruct (Z.even (half m)); [rewrite Z.pow_1_l by (apply half_nn; exact N); rewrite orb_true_r; reflexivity|]. rewrite orb_false_r. apply pow_m1. apply half_nn. exact N.
    - intros k K. apply hl_in in K; [|exact N]. rewrite <- prd_mul. rewrite (prd_ext _ _ (fun _ => -1)); [rewrite prd_const, (hl_len m M); apply pow_m1, half_nn; exact M|]. intros j J. apply hl_in in J; [|exact M].
      assert (NE : n * j <> m * k). { intros E. assert (D : (n | m * k)) by (exists j; lia). apply Gauss in D; [|apply Zgcd_1_rel_prime; exact C']. pose proof (odd_half n On). apply Z.divide_pos_le in D; lia. }
      destruct (Z.leb_spec (n * j) (m * k)), (Z.leb_spec (m * k) (n * j)); lia. }
  assert (SB : sign B). { unfold B. apply prd_sign. intros j _. apply prd_sign. intros k _. unfold sign. destruct (_ <=? _); auto. }
  assert (EA : A = chi (half n * half m) * B) by (rewrite <- AB, <- Z.mul_assoc, (sign_sq B SB); ring). rewrite EA. f_equal. unfold chi. rewrite Z.even_mul, (half_par n N On), (half_par m M Om). destruct (n mod 4 =? 3), (m mod 4 =? 3); reflexivity.
Qed.
Theorem jsym_laws : jacobi_laws jsym.
Proof.
  split; [intros a n N _; apply jsym_mod; exact N|]. split; [exact jsym_1|]. split; [intros n N _; apply jsym_0; exact N|]. split; [exact jsym_mul|]. split; [exact jsym_2|exact jsym_rec].
Qed.

(* ---- multiplicativity below ---- *)
Lemma jsym_eqm a b n : 0 < n -> a ≡ b ⟦ n ⟧ -> jsym a n = jsym b n.
Proof. intros N E. rewrite <- (jsym_mod a n N), <- (jsym_mod b n N). unfold eqm in E. rewrite E. reflexivity. Qed.
Lemma mod4_odd n : Z.odd n = true -> n mod 4 = 1 \/ n mod 4 = 3.
Proof. intros O. pose proof (odd_half n O). pose proof (Z.div_mod n 4 ltac:(lia)). pose proof (Z.mod_pos_bound n 4 ltac:(lia)). lia. Qed.
Lemma jsym_lower a m n : 0 < m -> 0 < n -> Z.odd m = true -> Z.odd n = true -> jsym a (m * n) = jsym a m * jsym a n.
Proof.
  intros M N Om On. assert (MN : 0 < m * n) by nia. assert (Omn : Z.odd (m * n) = true) by (rewrite Z.odd_mul, Om, On; reflexivity).
  assert (K : exists a', 0 < a' /\ Z.odd a' = true /\ a' ≡ a ⟦ m * n ⟧).
  { pose proof (Z.mod_pos_bound a (m * n) MN). destruct (Z.odd (a mod (m * n))) eqn:E.
    - exists (a mod (m * n)). split; [destruct (Z.eq_dec (a mod (m * n)) 0) as [Z0|]; [rewrite Z0 in E; discriminate|lia]|]. split; [exact E|apply eqm_mod].
    - exists (a mod (m * n) + m * n). split; [lia|]. split; [rewrite Z.odd_add, E, Omn; reflexivity|]. unfold eqm. rewrite <- (Z.mul_1_l (m * n)) at 2. rewrite Z.mod_add by lia. apply Z.mod_mod. lia. }
  destruct K as (a' & A0 & Ao & E). rewrite <- (jsym_eqm a' a (m * n) MN E). rewrite <- (jsym_eqm a' a m M), <- (jsym_eqm a' a n N); [|apply (eqm_div (m * n)); try assumption; exists m; ring|apply (eqm_div (m * n)); try assumption; exists n; ring].
  rewrite (jsym_rec a' (m * n)), (jsym_rec a' m), (jsym_rec a' n) by assumption. rewrite jsym_mul by assumption.
  assert (E4 : (m * n) mod 4 = ((m mod 4) * (n mod 4)) mod 4) by (apply Z.mul_mod; lia). assert (V : ((m * n) mod 4 =? 3) = xorb (m mod 4 =? 3) (n mod 4 =? 3)) by (rewrite E4; destruct (mod4_odd m Om) as [-> | ->], (mod4_odd n On) as [-> | ->]; reflexivity).
  rewrite V. destruct (m mod 4 =? 3), (n mod 4 =? 3), (a' mod 4 =? 3); cbn [xorb andb]; ring.
Qed.
(* ---- Gauss's lemma ---- *)
Lemma prd_eqm l f g n : (forall x, In x l -> f x ≡ g x ⟦ n ⟧) -> prd l f ≡ prd l g ⟦ n ⟧.
Proof. induction l as [|x l IH]; intros H; [apply eqm_refl|]. rewrite !prd_cons. apply eqm_mul; [apply H; left; reflexivity|]. apply IH. intros y I. apply H. right. exact I. Qed.
Theorem gauss p a : prime p -> Z.odd p = true -> a ^ half p ≡ jsym a p ⟦ p ⟧.
Proof.
  intros Hp O. pose proof (prime_ge_2 p Hp) as P2. pose proof (odd_half p O) as EH. destruct (Z.eq_dec (Z.gcd a p) 1) as [C|C].
  - rewrite (jsym_unit a p C). assert (P0 : 0 < p) by lia.
    assert (E : a ^ half p * prd (hl p) (fun k => k) ≡ prd (hl p) (fun k => sg p (a * k)) * prd (hl p) (fun k => k) ⟦ p ⟧).
    { rewrite <- (hl_len p P0), <- prd_const, <- prd_mul. rewrite <- (prd_perm _ _ (fun k => k) (ab_perm p P0 O a C)). rewrite prd_map, <- prd_mul. apply prd_eqm. intros k _. apply ab_spec. exact P0. }
    apply eqm_iff in E; [|exact P0]. apply eqm_iff; [exact P0|]. rewrite <- Z.mul_sub_distr_r, Z.mul_comm in E. apply Gauss in E; [exact E|]. unfold prd. rewrite map_id. apply prod_coprime; [exact Hp|]. intros x I. apply hl_in in I; lia.
  - rewrite (jsym_zero a p C). assert (D : (p | a)). { destruct (Zdivide_dec p a) as [D|D]; [exact D|]. exfalso. apply C. rewrite Z.gcd_comm. apply Zgcd_1_rel_prime. apply prime_rel_prime; assumption. }
    apply eqm_0; [lia|]. destruct D as [c ->]. assert (0 < half p) by lia. exists (c ^ half p * p ^ (half p - 1)). rewrite Z.pow_mul_l. rewrite <- Z.mul_assoc. f_equal. rewrite Z.mul_comm, <- Z.pow_succ_r by lia. f_equal. lia.
Qed.
(* ---- Euler's criterion ---- *)
(* a product over a list paired off by an involution without fixed points *)
Lemma remove_perm (x : Z) l : NoDup l -> In x l -> Permutation l (x :: remove Z.eq_dec x l).
Proof.
  intros ND I. apply NoDup_Permutation; [exact ND| |].
  - constructor; [apply remove_In|]. induction l as [|y l IH]; cbn [remove]; [constructor|]. inversion ND; subst. destruct (Z.eq_dec x y) as [-> |NE].
    + rewrite notin_remove by assumption. assumption.
    + constructor; [intros H; apply in_remove in H; destruct H; contradiction|]. destruct I as [->|I]; [contradiction|]. apply IH; assumption.
  - intros y. split; [intros H; destruct (Z.eq_dec y x) as [-> |NE]; [left; reflexivity|right; apply in_in_remove; assumption]|]. intros [<- |H]; [exact I|]. apply in_remove in H. apply H.
Qed.
Lemma pairing n a f : forall m l, length l = (2 * m)%nat -> NoDup l -> (forall x, In x l -> In (f x) l /\ f (f x) = x /\ f x <> x /\ x * f x ≡ a ⟦ n ⟧) -> prod l ≡ a ^ Z.of_nat m ⟦ n ⟧.
Proof.
  induction m as [|m IH]; intros l L ND H.
  - destruct l; [apply eqm_refl|discriminate].
  - destruct l as [|x l]; [discriminate|]. inversion ND as [|? ? NI ND']; subst. destruct (H x (or_introl eq_refl)) as ([E|I] & FF & NF & XF); [exfalso; apply NF; symmetry; exact E|].
    pose proof (remove_perm (f x) l ND' I) as PM. set (l' := remove Z.eq_dec (f x) l) in *. assert (ND2 : NoDup (f x :: l')) by (eapply Permutation_NoDup; [exact PM|exact ND']). inversion ND2 as [|? ? NI2 ND3]; subst.
    assert (E : prod (x :: l) = x * f x * prod l') by (unfold prod; cbn [fold_right]; fold (prod l); rewrite (prod_perm _ _ PM); unfold prod; cbn [fold_right]; ring).
    rewrite E, Nat2Z.inj_succ, Z.pow_succ_r by lia. apply eqm_mul; [exact XF|]. apply IH; [|exact ND3|].
    + apply Permutation_length in PM. cbn [length] in PM, L. lia.
    + intros y Y. assert (Yl : In y l) by (eapply Permutation_in; [apply Permutation_sym; exact PM|right; exact Y]). destruct (H y (or_intror Yl)) as (IY & FY & NY & XY). split; [|split; [exact FY|split; [exact NY|exact XY]]].
      assert (Nx : f y <> x) by (intros E'; apply (f_equal f) in E'; rewrite FY in E'; subst y; contradiction).
      assert (Nfx : f y <> f x) by (intros E'; apply (f_equal f) in E'; rewrite FY, FF in E'; subst y; contradiction).
      destruct IY as [E'|IY]; [exfalso; apply Nx; symmetry; exact E'|]. apply (Permutation_in _ PM) in IY. destruct IY as [E'|IY]; [exfalso; apply Nfx; symmetry; exact E'|exact IY].
Qed.
Section Euler.
Variable p : Z.
Hypothesis Hp : prime p.
Hypothesis O : Z.odd p = true.
Lemma P3 : 3 <= p. Proof. pose proof (prime_ge_2 p Hp). pose proof (odd_half p O). lia. Qed.
Lemma P0 : 0 < p. Proof. pose proof P3. lia. Qed.
Lemma cancel u x y : 0 < u < p -> u * x ≡ u * y ⟦ p ⟧ -> x ≡ y ⟦ p ⟧.
Proof.
  intros U E. apply eqm_iff in E; [|exact P0]. apply eqm_iff; [exact P0|]. rewrite <- Z.mul_sub_distr_l in E. apply Gauss in E; [exact E|]. apply rel_prime_sym, rel_prime_le_prime; [exact Hp|lia].
Qed.
Definition iv (x : Z) : Z := x ^ (p - 2) mod p.
Lemma iv_ok x : 0 < x < p -> x * iv x ≡ 1 ⟦ p ⟧.
Proof.
  intros X. pose proof P3. unfold iv. apply eqm_trans with (x * x ^ (p - 2)); [apply eqm_mul; [apply eqm_refl|apply eqm_mod]|]. rewrite <- Z.pow_succ_r by lia. replace (Z.succ (p - 2)) with (p - 1) by lia.
  unfold eqm. rewrite (Z.mod_small 1 p) by lia. apply fermat; [exact Hp|]. rewrite Z.mod_small; lia.
Qed.
Lemma eqm0_unit x : x mod p <> 0 -> 0 < x mod p < p. Proof. intros H. pose proof (Z.mod_pos_bound x p P0). lia. Qed.
(* the partner of x *)
Definition ptn (a x : Z) : Z := (a * iv x) mod p.
Lemma ptn_ok a x : 0 < x < p -> x * ptn a x ≡ a ⟦ p ⟧.
Proof.
  intros X. unfold ptn. apply eqm_trans with (x * (a * iv x)); [apply eqm_mul; [apply eqm_refl|apply eqm_mod]|]. replace (x * (a * iv x)) with (a * (x * iv x)) by ring.
  apply eqm_trans with (a * 1); [apply eqm_mul; [apply eqm_refl|apply iv_ok; exact X]|]. rewrite Z.mul_1_r. apply eqm_refl.
Qed.
Lemma ptn_unit a x : a mod p <> 0 -> 0 < x < p -> 0 < ptn a x < p.
Proof.
  intros A X. unfold ptn. apply eqm0_unit. intros E. apply A. pose proof (ptn_ok a x X) as K. unfold ptn in K. rewrite E, Z.mul_0_r in K. unfold eqm in K. rewrite <- K. apply Z.mod_0_l. pose proof P0. lia.
Qed.
Lemma ptn_unique a x y : 0 < x < p -> 0 < y < p -> x * y ≡ a ⟦ p ⟧ -> ptn a x = y.
Proof.
  intros X Y E. apply (eqm_small p); [apply Z.mod_pos_bound; exact P0|lia|]. apply (cancel x); [exact X|]. apply eqm_trans with a; [apply ptn_ok; exact X|apply eqm_sym; exact E].
Qed.
Lemma ptn_inv a x : a mod p <> 0 -> 0 < x < p -> ptn a (ptn a x) = x.
Proof. intros A X. apply ptn_unique; [apply ptn_unit; assumption|exact X|]. rewrite Z.mul_comm. apply ptn_ok. exact X. Qed.
Lemma wilson : prod (zseq 1 (Z.to_nat (p - 1))) ≡ -1 ⟦ p ⟧.
Proof.
  pose proof P3. pose proof (odd_half p O) as EH. set (l := zseq 2 (Z.to_nat (p - 3))).
  assert (IL : forall x, In x l <-> 2 <= x <= p - 2) by (intros x; unfold l; rewrite zseq_in; lia).
  assert (PM : Permutation (zseq 1 (Z.to_nat (p - 1))) (1 :: p - 1 :: l)).
  { apply NoDup_Permutation; [apply zseq_nodup| |].
    - constructor; [intros [E|I]; [lia|apply IL in I; lia]|]. constructor; [intros I; apply IL in I; lia|apply zseq_nodup].
    - intros x. rewrite zseq_in. cbn [In]. rewrite IL. lia. }
  rewrite (prod_perm _ _ PM). change (prod (1 :: p - 1 :: l)) with (1 * ((p - 1) * prod l)). rewrite Z.mul_1_l. apply eqm_trans with (-1 * 1); [|apply eqm_refl]. apply eqm_mul.
  - apply eqm_iff; [lia|]. exists 1. lia.
  - apply eqm_trans with (1 ^ Z.of_nat (Z.to_nat (half p - 1))); [|rewrite Z.pow_1_l by lia; apply eqm_refl]. apply (pairing p 1 (ptn 1)); [unfold l; rewrite zseq_length; lia|apply zseq_nodup|].
    intros x X. apply IL in X. assert (N1 : 1 mod p <> 0) by (rewrite Z.mod_small; lia). pose proof (ptn_unit 1 x N1 ltac:(lia)) as U. pose proof (ptn_ok 1 x ltac:(lia)) as K.
    assert (K' : (p | x * ptn 1 x - 1)) by (apply eqm_iff; [lia|exact K]). split; [|split; [apply ptn_inv; [exact N1|lia]|split; [|exact K]]].
    + apply IL. destruct (Z.eq_dec (ptn 1 x) 1) as [E|N]; [exfalso; rewrite E, Z.mul_1_r in K'; apply Z.divide_pos_le in K'; lia|].
      destruct (Z.eq_dec (ptn 1 x) (p - 1)) as [E|N']; [|lia]. exfalso. rewrite E in K'. replace (x * (p - 1) - 1) with (x * p - (x + 1)) by ring. assert (D : (p | x + 1)). { replace (x + 1) with (x * p - (x * (p - 1) - 1)) by ring. apply Z.divide_sub_r; [exists x; reflexivity|exact K']. } apply Z.divide_pos_le in D; lia.
    + intros E. rewrite E in K'. replace (x * x - 1) with ((x - 1) * (x + 1)) in K' by ring. apply prime_mult in K'; [|exact Hp]. destruct K' as [D|D]; apply Z.divide_pos_le in D; lia.
Qed.
Theorem euler_nonresidue a : (forall z, ~ z * z ≡ a ⟦ p ⟧) -> a ^ half p ≡ -1 ⟦ p ⟧.
Proof.
  intros NR. pose proof P3. pose proof (odd_half p O) as EH. assert (A : a mod p <> 0). { intros E. apply (NR 0). unfold eqm. rewrite E. apply Z.mod_0_l. lia. }
  apply eqm_trans with (prod (zseq 1 (Z.to_nat (p - 1)))); [|exact wilson]. apply eqm_sym. replace (half p) with (Z.of_nat (Z.to_nat (half p))) by lia. apply (pairing p a (ptn a)); [rewrite zseq_length; lia|apply zseq_nodup|].
  intros x X. apply zseq_in in X. assert (X' : 0 < x < p) by lia. pose proof (ptn_unit a x A X') as U. split; [apply zseq_in; lia|]. split; [apply ptn_inv; assumption|]. split; [|apply ptn_ok; exact X'].
  intros E. apply (NR x). pose proof (ptn_ok a x X') as K. rewrite E in K. exact K.
Qed.
Theorem euler_residue z a : ~ (p | a) -> z * z ≡ a ⟦ p ⟧ -> a ^ half p ≡ 1 ⟦ p ⟧.
Proof.
  intros NA E. pose proof P3. pose proof (odd_half p O) as EH. apply eqm_trans with ((z * z) ^ half p); [apply eqm_pow; apply eqm_sym; exact E|]. rewrite <- Z.pow_2_r, <- Z.pow_mul_r by lia. replace (2 * half p) with (p - 1) by lia.
  unfold eqm. rewrite (Z.mod_small 1 p) by lia. apply fermat; [exact Hp|]. intros Z0. apply NA. apply eqm_0; [lia|]. apply eqm_trans with (z * z); [apply eqm_sym; exact E|]. apply Z.mod_divide in Z0; [|lia]. apply eqm_0; [lia|]. apply Z.divide_mul_l. exact Z0.
Qed.
(* the symbol modulo a prime is the Legendre symbol *)
Theorem jsym_prime a : (jsym a p = 0 <-> (p | a)) /\ (jsym a p = 1 <-> ~ (p | a) /\ exists z, z * z ≡ a ⟦ p ⟧) /\ (jsym a p = -1 <-> forall z, ~ z * z ≡ a ⟦ p ⟧).
Proof.
  pose proof P3 as H3. pose proof (gauss p a Hp O) as GS. destruct (Zdivide_dec p a) as [Da|NDa].
  - assert (C : Z.gcd a p <> 1). { intros C. destruct Da as [q ->]. rewrite Z.gcd_comm, Z.mul_comm, Z.gcd_mul_diag_l in C by lia. lia. } rewrite (jsym_zero a p C).
    split; [split; auto|]. split; [split; [discriminate|intros [N _]; contradiction]|]. split; [discriminate|]. intros N. exfalso. apply (N 0). apply eqm_sym. apply eqm_0; [lia|exact Da].
  - assert (C : Z.gcd a p = 1). { rewrite Z.gcd_comm. apply Zgcd_1_rel_prime. apply prime_rel_prime; assumption. } pose proof (jsym_sign a p C) as SG.
    assert (R1 : forall z, z * z ≡ a ⟦ p ⟧ -> jsym a p = 1).
    { intros z Z0. pose proof (euler_residue z a NDa Z0) as E1. destruct SG as [-> |SG]; [reflexivity|]. exfalso. rewrite SG in GS. assert (K : 1 ≡ -1 ⟦ p ⟧) by (apply eqm_trans with (a ^ half p); [apply eqm_sym; exact E1|exact GS]). apply eqm_iff in K; [|lia]. apply Z.divide_pos_le in K; lia. }
    assert (R2 : (forall z, ~ z * z ≡ a ⟦ p ⟧) -> jsym a p = -1).
    { intros NR. pose proof (euler_nonresidue a NR) as E1. destruct SG as [SG| ->]; [|reflexivity]. exfalso. rewrite SG in GS. assert (K : 1 ≡ -1 ⟦ p ⟧) by (apply eqm_trans with (a ^ half p); [apply eqm_sym; exact GS|exact E1]). apply eqm_iff in K; [|lia]. apply Z.divide_pos_le in K; lia. }
    split; [split; [intros E; exfalso; destruct SG; lia|intros D; contradiction]|].
    assert (DEC : (exists z, z * z ≡ a ⟦ p ⟧) \/ (forall z, ~ z * z ≡ a ⟦ p ⟧)).
    { destruct (existsb (fun z => (z * z) mod p =? a mod p) (zseq 0 (Z.to_nat p))) eqn:E.
      - left. apply existsb_exists in E. destruct E as (z & _ & E). exists z. apply Z.eqb_eq in E. exact E.
      - right. intros z Z0. assert (T : existsb (fun z => (z * z) mod p =? a mod p) (zseq 0 (Z.to_nat p)) = true); [|congruence]. apply existsb_exists. exists (z mod p). pose proof (Z.mod_pos_bound z p ltac:(lia)). split; [apply zseq_in; lia|]. apply Z.eqb_eq. rewrite <- Z.mul_mod by lia. exact Z0. }
    split.
    + split; [|intros [_ [z Z0]]; exact (R1 z Z0)]. intros E. split; [exact NDa|]. destruct DEC as [D|D]; [exact D|]. rewrite (R2 D) in E. discriminate.
    + split; [|exact R2]. intros E. destruct DEC as [[z Z0]|D]; [|exact D]. rewrite (R1 z Z0) in E. discriminate.
Qed.
End Euler.
(* Legendre's symbol, as a relation *)
Definition legendre (p x v : Z) : Prop :=
  (v = 0 /\ (p | x)) \/ (v = 1 /\ ~ (p | x) /\ exists z, (z * z) mod p = x mod p) \/ (v = -1 /\ forall z, (z * z) mod p <> x mod p).
Lemma legendre_jsym p x v : prime p -> Z.odd p = true -> legendre p x v -> jsym x p = v.
Proof.
  intros Hp O L. destruct (jsym_prime p Hp O x) as (J0 & J1 & J2). destruct L as [[-> D]|[(-> & N & z & E)|[-> N]]]; [apply J0; exact D|apply J1; split; [exact N|exists z; exact E]|apply J2; exact N].
Qed.
Lemma jsym_legendre p x : prime p -> Z.odd p = true -> legendre p x (jsym x p).
Proof.
  intros Hp O. destruct (jsym_prime p Hp O x) as (J0 & J1 & J2). destruct (Z.eq_dec (Z.gcd x p) 1) as [C|C].
  - destruct (jsym_sign x p C) as [E|E].
    + right. left. split; [exact E|]. apply J1 in E. destruct E as (N & z & E). split; [exact N|]. exists z. exact E.
    + right. right. split; [exact E|]. apply J2. exact E.
  - left. rewrite (jsym_zero x p C). split; [reflexivity|]. apply J0. apply jsym_zero. exact C.
Qed.
Lemma jsym_prod x : forall ps vs, Forall prime ps -> Z.odd (fold_right Z.mul 1 ps) = true -> Forall2 (fun p v => legendre p x v) ps vs -> jsym x (fold_right Z.mul 1 ps) = fold_right Z.mul 1 vs.
Proof.
  intros ps vs P O F. induction F as [|p v ps vs L F IH]; [apply jsym_1|]. apply Forall_cons_iff in P. destruct P as [Hp P]. change (fold_right Z.mul 1 (p :: ps)) with (p * fold_right Z.mul 1 ps) in *. change (fold_right Z.mul 1 (v :: vs)) with (v * fold_right Z.mul 1 vs).
  rewrite Z.odd_mul in O. apply andb_true_iff in O. destruct O as [O1 O2]. assert (PP : 0 < fold_right Z.mul 1 ps). { clear - P. induction P as [|q l Q P IH]; [reflexivity|]. change (0 < q * fold_right Z.mul 1 l). pose proof (prime_ge_2 q Q). nia. }
  pose proof (prime_ge_2 p Hp). rewrite jsym_lower by (assumption || lia). rewrite (IH P O2), (legendre_jsym p x v Hp O1 L). reflexivity.
Qed.
Theorem jacobi_value x y ps vs : Z.odd y = true -> Forall prime ps -> fold_right Z.mul 1 ps = Z.abs y -> Forall2 (fun p v => legendre p x v) ps vs ->
  mpz_jacobi x y = Ok (Some ((if (x <? 0) && (y <? 0) then -1 else 1) * fold_right Z.mul 1 vs)).
Proof.
  intros O P E F. rewrite (mpz_jacobi_spec jsym jsym_laws x y O). assert (Oa : Z.odd (fold_right Z.mul 1 ps) = true) by (rewrite E; destruct y; exact O). rewrite <- E, (jsym_prod x ps vs P Oa F). reflexivity.
Qed.
