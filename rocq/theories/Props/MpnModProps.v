(* C54: modular exponentiation, and the reductions under it. The limb width w is any from 5 to 48, or 64
   (mp_inv_mod runs four Newton steps, or five for 64-bit limbs; the code has 32 and 64). *)
From Coq Require Import Znumtheory.
From Verif.Base Require Import Prelude.
From Verif.Model Require Import Encoding Hash Mpn Mpz MpnMod MpzPow.
From Verif.Proof Require Import MpnProof MpnShift MpnDiv MpzProof MpnModProof MpnPowm MpnBarrett MpzPowProof Fermat.
From Verif.Props Require Import MpzProps.

Notation limbs w := (Forall (below (2 ^ w))).
Notation value w := (dval (2 ^ w)).
Definition width (w : Z) : Prop := 4 < w <= 48 \/ w = 64.
(* a modulus: at least one limb and no zero limb on top *)
Definition modulus (w : Z) (ms : list Z) : Prop := limbs w ms /\ ms <> [] /\ last ms 0 <> 0.
Lemma width_4 w : width w -> 4 < w /\ 0 < w /\ (w <= 48 \/ w = 64).
Proof. intros [H|H]; lia. Qed.

(* the inverse of an odd limb modulo 2^w *)
Theorem C54_inv_mod w d : width w -> below (2 ^ w) d -> Z.odd d = true ->
  exists m, mp_inv_mod w d = Ok m /\ below (2 ^ w) m /\ (d * m) mod 2 ^ w = 1.
Proof. intros H Hd Ho. destruct (width_4 w H) as (_ & H0 & H1). exact (inv_mod_spec w H0 d Hd Ho H1). Qed.
(* Montgomery products: z * R = x * y modulo m, R = (2^w)^n, for all operands of n limbs, reduced or not *)
Theorem C54_montmul w xs ys ms k : width w -> modulus w ms -> limbs w xs -> limbs w ys -> length xs = length ms -> length ys = length ms ->
  (nth 0 ms 0 * k) mod 2 ^ w = 2 ^ w - 1 ->
  let R := (2 ^ w) ^ Z.of_nat (length ms) in
  (exists z, mpn_montmul w xs ys ms k = Ok z /\ length z = length ms /\ limbs w z /\ (value w z * R) mod value w ms = (value w xs * value w ys) mod value w ms) /\
  (exists z, mpn_sec_montmul w xs ys ms k = Ok z /\ length z = length ms /\ limbs w z /\ (value w z * R) mod value w ms = (value w xs * value w ys) mod value w ms /\
     (value w xs <= value w ms -> value w z < value w ms)).
Proof.
  intros H (Hm & Hne & Hl) Hx Hy Lx Ly Hk R. destruct (width_4 w H) as (W4 & H0 & H1). pose proof (m_rng w W4 ms Hm Hne Hl) as M. assert (MN : value w ms <> 0) by (unfold LB in M; lia). split.
  - destruct (montmul_spec w W4 ms Hm Hne Hl k Hk xs ys (conj Lx Hx) (conj Ly Hy)) as (z & E & (Lz & Hz) & C). exists z. split; [exact E|]. split; [exact Lz|]. split; [exact Hz|]. rewrite Z.mul_comm. apply cong_mod; [exact MN|exact C].
  - destruct (sec_montmul_spec w W4 ms Hm Hne Hl k Hk xs ys (conj Lx Hx) (conj Ly Hy)) as (z & E & (Lz & Hz) & C & G & _). exists z. split; [exact E|]. split; [exact Lz|]. split; [exact Hz|]. split; [rewrite Z.mul_comm; apply cong_mod; [exact MN|exact C]|exact G].
Qed.
(* the Montgomery parameters of an odd modulus *)
Theorem C54_mont w ms : width w -> modulus w ms -> Z.odd (value w ms) = true ->
  exists k rr, mpn_mont w ms = Ok (k, rr) /\ (nth 0 ms 0 * k) mod 2 ^ w = 2 ^ w - 1 /\ length rr = length ms /\ limbs w rr /\
  value w rr = (2 ^ w) ^ (2 * Z.of_nat (length ms)) mod value w ms.
Proof.
  intros H (Hm & Hne & Hl) Ho. destruct (width_4 w H) as (W4 & H0 & H1). fold (LB w) in Ho. rewrite (val_odd w W4 ms Hm) in Ho. destruct (mont_spec w W4 ms Hm Hne Hl Ho H1) as (k & rr & E & K & L & R & V). exists k, rr. split; [exact E|]. split; [exact K|]. split; [exact L|]. split; [exact R|].
  fold (LB w). rewrite V. f_equal. replace (2 * Z.of_nat (length ms)) with (Z.of_nat (length ms) + Z.of_nat (length ms)) by lia. rewrite Z.pow_add_r by lia. reflexivity.
Qed.
(* Barrett: the precomputation aborts exactly for the moduli (2^w)^(n-1), and the reduction is exact for the rest *)
Theorem C54_barrett w ms shift : 0 < w -> modulus w ms -> (2 * length ms <= shift)%nat ->
  if value w ms =? (2 ^ w) ^ (Z.of_nat (length ms) - 1) then mpn_barrett w ms shift = Abort
  else exists bs, mpn_barrett w ms shift = Ok bs /\ value w bs = (2 ^ w) ^ Z.of_nat shift / value w ms /\
       forall xs, limbs w xs -> length xs = shift ->
       let z := mpn_reduce w xs bs ms shift in length z = length ms /\ limbs w z /\ value w z = value w xs mod value w ms.
Proof.
  intros Hw (Hm & Hne & Hl) Hs. fold (LB w). destruct (barrett_spec w Hw ms shift Hm Hne Hl Hs) as (B1 & B2). destruct (Z.eqb_spec (dval (LB w) ms) (LB w ^ (Z.of_nat (length ms) - 1))) as [E|E]; [apply B2; exact E|].
  destruct (B1 E) as (b & Eb & Lb & Hb & Vb). exists b. split; [exact Eb|]. split; [exact Vb|]. intros xs Hx Lx z. exact (reduce_spec w Hw xs b ms shift Hx Hm Hne Hl Hs Lx Eb).
Qed.
(* limb arrays: division, Montgomery sliding window and fixed window all give x^y mod m *)
Theorem C54_powm_limbs w xs ys ms : width w -> limbs w xs -> limbs w ys -> modulus w ms -> (length xs <= length ms)%nat ->
  exists z, mpn_powm w xs ys ms = Ok z /\ length z = length ms /\ limbs w z /\ value w z = (value w xs ^ value w ys) mod value w ms.
Proof. intros H Hx Hy (Hm & Hne & Hl) Lx. destruct (width_4 w H) as (W4 & H0 & H1). exact (powm_spec w W4 xs ys ms Hx Hy Hm Hne Hl H1 Lx). Qed.
Theorem C54_sec_powm_limbs w xs ys ms : width w -> limbs w xs -> limbs w ys -> modulus w ms -> Z.odd (value w ms) = true -> (length xs <= length ms)%nat ->
  exists z, mpn_sec_powm w xs ys ms = Ok z /\ length z = length ms /\ limbs w z /\ value w z = (value w xs ^ value w ys) mod value w ms.
Proof. intros H Hx Hy (Hm & Hne & Hl) Ho Lx. destruct (width_4 w H) as (W4 & H0 & H1). fold (LB w) in Ho. rewrite (val_odd w W4 ms Hm) in Ho. exact (sec_powm_spec w W4 xs ys ms Hx Hy Hm Hne Hl Ho H1 Lx). Qed.
(* signed integers *)
Theorem C54_powm w inv x y m u v n : width w -> holds w x u -> holds w y v -> holds w m n -> n <> 0 -> 0 <= v ->
  gives w (mpz_powm w inv x y m) ((u ^ v) mod Z.abs n).
Proof.
  intros H Hx Hy Hm Hn Hv. destruct (width_4 w H) as (W4 & H0 & H1). apply (proj1 (holds_isz w x u H0)) in Hx. apply (proj1 (holds_isz w y v H0)) in Hy. apply (proj1 (holds_isz w m n H0)) in Hm.
  apply gives_okz; [exact H0|]. exact (mpz_powm_spec w W4 H1 inv x y m u v n Hx Hy Hm Hn Hv).
Qed.
Theorem C54_powm_sec w x y m u v n : width w -> holds w x u -> holds w y v -> holds w m n ->
  if (0 <=? v) && Z.odd n then gives w (mpz_powm_sec w x y m) ((u ^ v) mod Z.abs n) else mpz_powm_sec w x y m = Abort.
Proof.
  intros H Hx Hy Hm. destruct (width_4 w H) as (W4 & H0 & H1). apply (proj1 (holds_isz w x u H0)) in Hx. apply (proj1 (holds_isz w y v H0)) in Hy. apply (proj1 (holds_isz w m n H0)) in Hm.
  pose proof (mpz_powm_sec_spec w W4 H1 x y m u v n Hx Hy Hm) as S. destruct (Z.ltb_spec v 0) as [E|E]; destruct (Z.leb_spec 0 v) as [F|F]; try lia; cbn [orb andb] in *; [exact S|]. destruct (Z.odd n); cbn [negb] in S; [|exact S].
  apply gives_okz; [exact H0|exact S].
Qed.
Theorem C54_powm_by_zero w inv x y : mpz_powm w inv x y (MkMpz 0 []) = Abort.
Proof. reflexivity. Qed.
(* constant-time inversion modulo an odd prime; the flag says whether x was invertible *)
Theorem C54_sec_invert w xs ms : width w -> limbs w xs -> modulus w ms -> (length xs <= length ms)%nat -> prime (value w ms) -> value w ms <> 2 ->
  exists z, mpn_sec_invert w xs ms = Ok (z, if value w xs mod value w ms =? 0 then 0 else 1) /\ length z = length ms /\ limbs w z /\ 0 <= value w z < value w ms /\
  (value w xs * value w z) mod value w ms = if value w xs mod value w ms =? 0 then 0 else 1.
Proof.
  intros H Hx (Hm & Hne & Hl) Lx Hp Hp2. destruct (width_4 w H) as (W4 & H0 & H1). fold (LB w) in *. pose proof (prime_ge_2 _ Hp) as P2.
  assert (Ho : Z.odd (dval (LB w) ms) = true). { rewrite <- Z.negb_even. destruct (Z.even (dval (LB w) ms)) eqn:Ev; [|reflexivity]. exfalso. apply Z.even_spec in Ev. destruct Ev as (q & Eq). destruct (prime_divisors _ Hp 2) as [D|[D|[D|D]]]; try lia. exists q. lia. }
  rewrite (val_odd w W4 ms Hm) in Ho. destruct (sec_invert_spec w H0 xs ms W4 H1 Hx Hm Hne Hl Ho Lx ltac:(lia)) as (z & E & L & Hz & V). set (x := dval (LB w) xs) in *. set (p := dval (LB w) ms) in *.
  assert (XZ : (x * dval (LB w) z) mod p = if x mod p =? 0 then 0 else 1).
  { rewrite V, Zmult_mod_idemp_r. rewrite <- Z.pow_succ_r by lia. replace (Z.succ (p - 2)) with (p - 1) by lia. destruct (Z.eqb_spec (x mod p) 0) as [X0|X0].
    - rewrite Zpow_facts.Zpower_mod by lia. rewrite X0, Z.pow_0_l by lia. apply Z.mod_0_l. lia.
    - apply fermat; assumption. }
  pose proof (Z.mod_pos_bound (x ^ (p - 2)) p ltac:(lia)) as R. rewrite <- V in R. exists z. split; [|split; [exact L|split; [exact Hz|split; [exact R|exact XZ]]]]. rewrite E. f_equal. f_equal.
  destruct (Z.eqb_spec (x mod p) 0) as [X0|X0]; destruct (Z.eqb_spec (dval (LB w) z) 0) as [Z0|Z0]; cbn [negb Z.b2z]; try reflexivity; exfalso.
  - apply Z0. rewrite V. rewrite Zpow_facts.Zpower_mod by lia. rewrite X0, Z.pow_0_l by lia. apply Z.mod_0_l. lia.
  - rewrite Z0, Z.mul_0_r, Z.mod_0_l in XZ by lia. discriminate.
Qed.

(* 64-bit limbs; the modulus 2^61 - 1 is prime *)
Example C54_ex : mpz_powm 64 (fun _ _ => None) (MkMpz (-1) [3]) (MkMpz 1 [5]) (MkMpz (-1) [1000]) = Ok (MkMpz 1 [757]) /\ (-3) ^ 5 mod 1000 = 757 /\
  mpn_sec_invert 64 [10] [2 ^ 61 - 1] = Ok ([2075258708292324556], 1) /\ (10 * 2075258708292324556) mod (2 ^ 61 - 1) = 1.
Proof. vm_compute. repeat split. Qed.
Example C54_barrett_ex : mpn_barrett 32 [0; 1] 4 = Abort /\ mpn_barrett 32 [1; 1] 4 = Ok [4294967295; 0; 4294967295] /\
  mpn_reduce 32 [5; 6; 7; 8] [4294967295; 0; 4294967295] [1; 1] 4 = [4294967295; 0] /\ mpn_barrett 32 [5; 1] 3 = Abort.
Proof. vm_compute. repeat split. Qed.

(* the axioms of every theorem above, listed at once *)
Definition MpnModProps_all := (@C54_inv_mod, @C54_montmul, @C54_mont, @C54_barrett, @C54_powm_limbs, @C54_sec_powm_limbs, @C54_powm, @C54_powm_sec,
  @C54_powm_by_zero, @C54_sec_invert).
Print Assumptions MpnModProps_all.
