(* C50, C51, C52: signed integers. *)
From Verif.Base Require Import Prelude.
From Verif.Model Require Import Encoding Hash Mpn Mpz.
From Verif.Proof Require Import MpnProof MpnShift MpnDiv MpzProof MpzOps MpzBits MpzLogic.

Notation limbs w := (Forall (below (2 ^ w))).
Notation value w := (dval (2 ^ w)).

(* The structure x holds the integer v: the sign of the size field is the sign of v, its magnitude
   counts the limbs, and the top limb is not zero. *)
Definition holds (w : Z) (x : mpz) (v : Z) : Prop :=
  Z.abs (size x) = Z.of_nat (length (lm x)) /\ limbs w (lm x) /\ (lm x = [] \/ last (lm x) 0 <> 0) /\
  v = (if size x <? 0 then - value w (lm x) else value w (lm x)).
Definition gives (w : Z) (r : outcome mpz) (v : Z) : Prop := exists z, r = Ok z /\ holds w z v.
(* mp_limb_t and mp_long_t operands *)
Definition ulimb (w y : Z) : Prop := 0 <= y < 2 ^ w.
Definition slimb (w y : Z) : Prop := - 2 ^ (w - 1) <= y < 2 ^ (w - 1).

Lemma holds_isz w x v : 0 < w -> holds w x v <-> isz w x v.
Proof.
  intros Hw. split.
  - intros (H1 & H2 & H3 & H4). destruct x as [sz l]. cbn [size lm] in *. assert (N : normal w l) by (apply normal_last; assumption).
    assert (E : MkMpz sz l = mkz (sz <? 0) l) by (unfold mkz; f_equal; destruct (Z.ltb_spec sz 0); lia). rewrite E. apply isz_mkz; [exact N|]. subst v. unfold sg. reflexivity.
  - intros [(nx & lx & Ex & Nx & Zx) Vx]. subst x. split; [|split; [|split]].
    + cbn [size mkz lm]. destruct nx; lia.
    + rewrite lm_mkz. exact (proj1 Nx).
    + rewrite lm_mkz. apply (normal_last w Hw); [exact (proj1 Nx)|exact Nx].
    + symmetry. exact Vx.
Qed.
Lemma gives_okz w r v : 0 < w -> okz w r v -> gives w r v.
Proof. intros Hw (z & E & H). exists z. split; [exact E|apply holds_isz; assumption]. Qed.
Ltac hz := repeat match goal with H : holds ?w ?x ?v, Hw : 0 < ?w |- _ => apply (proj1 (holds_isz w x v Hw)) in H end.
Ltac hs := try (apply gives_okz; [assumption|]); try (apply holds_isz; [assumption|]).

(* every integer has exactly one representation *)
Theorem C51_canonical w x y v : 0 < w -> holds w x v -> holds w y v -> x = y.
Proof. intros Hw Hx Hy. hz. exact (isz_inj w Hw x y v Hx Hy). Qed.
Theorem C51_add_sub w x y u v : 0 < w -> holds w x u -> holds w y v ->
  gives w (mpz_add w x y) (u + v) /\ gives w (mpz_sub w x y) (u - v).
Proof. intros Hw Hx Hy. hz. split; hs; [apply add_spec|apply sub_spec]; assumption. Qed.
Theorem C51_add_sub_ui w x y u : 0 < w -> holds w x u -> ulimb w y ->
  gives w (mpz_add_ui w x y) (u + y) /\ gives w (mpz_sub_ui w x y) (u - y) /\ gives w (mpz_ui_sub w y x) (y - u).
Proof. intros Hw Hx Hy. hz. split; [|split]; hs; [apply add_ui_spec|apply sub_ui_spec|apply ui_sub_spec]; assumption. Qed.
Theorem C51_add_sub_si w x y u : 0 < w -> holds w x u -> slimb w y ->
  gives w (mpz_add_si w x y) (u + y) /\ gives w (mpz_sub_si w x y) (u - y) /\ gives w (mpz_si_sub w y x) (y - u).
Proof. intros Hw Hx Hy. hz. split; [|split]; hs; [apply add_si_spec|apply sub_si_spec|apply si_sub_spec]; assumption. Qed.
Theorem C51_mul w x y u v : 0 < w -> holds w x u -> holds w y v -> gives w (mpz_mul w x y) (u * v).
Proof. intros Hw Hx Hy. hz. hs. apply mul_spec; assumption. Qed.
Theorem C51_mul_ui_si w x y u : 0 < w -> holds w x u ->
  (ulimb w y -> holds w (mpz_mul_ui w x y) (u * y)) /\ (slimb w y -> holds w (mpz_mul_si w x y) (u * y)).
Proof. intros Hw Hx. hz. split; intros Hy; hs; [apply mul_ui_spec|apply mul_si_spec]; assumption. Qed.
(* whatever the scratch area held before *)
Theorem C51_sqr w scratch x u : 1 < w -> holds w x u -> gives w (mpz_sqr w scratch x) (u * u).
Proof. intros H1 Hx. assert (Hw : 0 < w) by lia. hz. hs. apply sqr_spec; assumption. Qed.
Theorem C51_addmul_submul w z x y t u v : 0 < w -> holds w z t -> holds w x u -> holds w y v ->
  gives w (mpz_addmul w z x y) (t + u * v) /\ gives w (mpz_submul w z x y) (t - u * v).
Proof. intros Hw Hz Hx Hy. hz. split; hs; [apply addmul_spec|apply submul_spec]; assumption. Qed.
Theorem C51_addmul_submul_ui_si w z x y t u : 0 < w -> holds w z t -> holds w x u ->
  (ulimb w y -> gives w (mpz_addmul_ui w z x y) (t + u * y) /\ gives w (mpz_submul_ui w z x y) (t - u * y)) /\
  (slimb w y -> gives w (mpz_addmul_si w z x y) (t + u * y) /\ gives w (mpz_submul_si w z x y) (t - u * y)).
Proof. intros Hw Hz Hx. hz. split; intros Hy; split; hs; [apply addmul_ui_spec|apply submul_ui_spec|apply addmul_si_spec|apply submul_si_spec]; assumption. Qed.
Theorem C51_neg_abs w x u : 0 < w -> holds w x u -> holds w (mpz_neg x) (- u) /\ holds w (mpz_abs x) (Z.abs u).
Proof. intros Hw Hx. hz. split; hs; [apply neg_spec|apply abs_spec]; assumption. Qed.
Theorem C51_set w y : 0 < w -> (ulimb w y -> holds w (mpz_set_ui y) y) /\ (slimb w y -> holds w (mpz_set_si w y) y).
Proof. intros Hw. split; intros Hy; hs; [apply set_ui_spec|apply set_si_spec]; assumption. Qed.
Theorem C51_compare w x y u v : 0 < w -> holds w x u -> holds w y v ->
  mpz_sgn x = Z.sgn u /\ mpz_cmp x y = Z.sgn (u - v) /\ mpz_cmpabs x y = Z.sgn (Z.abs u - Z.abs v).
Proof. intros Hw Hx Hy. hz. split; [|split]; [apply (sgn_spec w Hw)|apply (cmp_spec w Hw)|apply (cmpabs_spec w Hw)]; assumption. Qed.
Theorem C51_compare_ui_si w x y u : 0 < w -> holds w x u ->
  (ulimb w y -> mpz_cmp_ui x y = Z.sgn (u - y) /\ mpz_cmpabs_ui x y = Z.sgn (Z.abs u - y)) /\
  (slimb w y -> mpz_cmp_si w x y = Z.sgn (u - y) /\ mpz_cmpabs_si w x y = Z.sgn (Z.abs u - Z.abs y)).
Proof.
  intros Hw Hx. hz. split; intros Hy; split; [apply (cmp_ui_spec w Hw)|apply (cmpabs_ui_spec w Hw)|apply (cmp_si_spec w Hw)|]; try assumption.
  unfold mpz_cmpabs_si. destruct (limb_cast_spec w Hw y Hy) as (E & L). rewrite <- E. apply (cmpabs_ui_spec w Hw); assumption.
Qed.
Theorem C51_bitlen w x u : 0 < w -> holds w x u -> mpz_bitlen w x = if u =? 0 then 0 else Z.log2 (Z.abs u) + 1.
Proof. intros Hw Hx. hz. apply bitlen_spec; assumption. Qed.
(* opposite signs with a borrow into the top limb; a carry that adds a limb *)
Example C51_ex : mpz_add 64 (MkMpz 2 [0; 1]) (MkMpz (-1) [1]) = Ok (MkMpz 1 [2 ^ 64 - 1]) /\
  mpz_sub 64 (MkMpz (-1) [2 ^ 64 - 1]) (MkMpz 1 [1]) = Ok (MkMpz (-2) [0; 1]) /\
  mpz_mul 32 (MkMpz (-1) [2 ^ 32 - 1]) (MkMpz 1 [2 ^ 32 - 1]) = Ok (MkMpz (-2) [1; 2 ^ 32 - 2]) /\
  mpz_cmp (MkMpz (-2) [0; 1]) (MkMpz 1 [5]) = -1 /\ mpz_add_si 32 (MkMpz 1 [2 ^ 31]) (- 2 ^ 31) = Ok (MkMpz 0 []).
Proof. vm_compute. repeat split. Qed.

(* C50: truncated and Euclidean division *)
Theorem C50_mpz_quorem w n d u v : 0 < w -> holds w n u -> holds w d v -> v <> 0 ->
  exists q r, mpz_quorem w n d = Ok (q, r) /\ holds w q (Z.quot u v) /\ holds w r (Z.rem u v).
Proof.
  intros Hw Hn Hd Hv. hz. destruct (quorem_spec w Hw n d u v Hn Hd Hv) as (q & r & E & Q & R).
  exists q, r. split; [exact E|]. split; hs; assumption.
Qed.
Theorem C50_mpz_divmod w n d u v : 0 < w -> holds w n u -> holds w d v -> v <> 0 ->
  exists q r a b, mpz_divmod w n d = Ok (q, r) /\ holds w q a /\ holds w r b /\ u = a * v + b /\ 0 <= b < Z.abs v.
Proof.
  intros Hw Hn Hd Hv. hz. destruct (divmod_spec w Hw n d u v Hn Hd Hv) as (q & r & a & b & E & Q & R & F).
  exists q, r, a, b. split; [exact E|]. split; [hs; assumption|]. split; [hs; assumption|exact F].
Qed.
Theorem C50_mpz_by_zero w n : mpz_quorem w n (MkMpz 0 []) = Abort /\ mpz_divmod w n (MkMpz 0 []) = Abort.
Proof.
  assert (Q : mpz_quorem w n (MkMpz 0 []) = Abort) by reflexivity. split; [exact Q|]. unfold mpz_divmod. rewrite Q. cbn [bind]. destruct (size n <? 0); reflexivity.
Qed.
Theorem C50_mpz_quo_word w n d u : 0 < w -> holds w n u -> d <> 0 ->
  (ulimb w d -> exists q, mpz_quo_ui w n d = Ok (q, Z.abs (Z.rem u d)) /\ holds w q (Z.quot u d)) /\
  (slimb w d -> exists q, mpz_quo_si w n d = Ok (q, Z.rem u d) /\ holds w q (Z.quot u d)).
Proof.
  intros Hw Hn H0. hz. split; intros Hd.
  - destruct (quo_ui_spec w Hw n d u Hn Hd H0) as (q & E & Q). exists q. split; [|hs; exact Q]. rewrite E. f_equal. f_equal.
    unfold ulimb in Hd. rewrite <- Z.rem_abs, Z.rem_mod_nonneg by lia. f_equal. lia.
  - destruct (quo_si_spec w Hw n d u Hn Hd H0) as (q & E & Q). exists q. split; [exact E|hs; exact Q].
Qed.
Theorem C50_mpz_div_word w n d u : 0 < w -> holds w n u -> d <> 0 ->
  (ulimb w d -> exists q, mpz_div_ui w n d = Ok (q, u mod d) /\ holds w q (u / d)) /\
  (slimb w d -> exists q r a, mpz_div_si w n d = Ok (q, r) /\ holds w q a /\ u = a * d + r /\ 0 <= r < Z.abs d).
Proof.
  intros Hw Hn H0. hz. split; intros Hd.
  - destruct (div_ui_spec w Hw n d u Hn Hd H0) as (q & E & Q). exists q. split; [exact E|hs; exact Q].
  - destruct (div_si_spec w Hw n d u Hn Hd H0) as (q & r & a & E & Q & F). exists q, r, a. split; [exact E|]. split; [hs; exact Q|exact F].
Qed.
Example C50_mpz_ex : mpz_divmod 32 (MkMpz (-1) [7]) (MkMpz (-1) [2]) = Ok (MkMpz 1 [4], MkMpz 1 [1]) /\
  mpz_quorem 32 (MkMpz (-1) [7]) (MkMpz 1 [2]) = Ok (MkMpz (-1) [3], MkMpz (-1) [1]) /\
  mpz_div_si 32 (MkMpz (-2) [0; 1]) 10 = Ok (MkMpz (-1) [429496730], 4).
Proof. vm_compute. repeat split. Qed.

(* C52: two's complement *)
Theorem C52_and_ior_xor w x y u v : 0 < w -> holds w x u -> holds w y v ->
  holds w (mpz_and w x y) (Z.land u v) /\ holds w (mpz_ior w x y) (Z.lor u v) /\ holds w (mpz_xor w x y) (Z.lxor u v).
Proof. intros Hw Hx Hy. hz. split; [|split]; hs; [apply and_spec|apply ior_spec|apply xor_spec]; assumption. Qed.
Theorem C52_com w x u : 0 < w -> holds w x u -> gives w (mpz_com w x) (Z.lnot u).
Proof. intros Hw Hx. hz. hs. apply com_spec; assumption. Qed.
Theorem C52_word_ui w x y u : 0 < w -> holds w x u -> ulimb w y ->
  mpz_and_ui w x y = Z.land u y /\ holds w (mpz_ior_ui w x y) (Z.lor u y) /\ holds w (mpz_xor_ui w x y) (Z.lxor u y).
Proof. intros Hw Hx Hy. hz. split; [apply and_ui_spec; assumption|]. split; hs; [apply ior_ui_spec|apply xor_ui_spec]; assumption. Qed.
Theorem C52_word_si w x y u : 1 < w -> holds w x u -> slimb w y ->
  holds w (mpz_and_si w x y) (Z.land u y) /\ holds w (mpz_ior_si w x y) (Z.lor u y) /\ holds w (mpz_xor_si w x y) (Z.lxor u y).
Proof. intros H1 Hx Hy. assert (Hw : 0 < w) by lia. hz. split; [|split]; hs; [apply and_si_spec|apply ior_si_spec|apply xor_si_spec]; assumption. Qed.
Theorem C52_tstbit w x p u : 0 < w -> holds w x u -> 0 <= p -> mpz_tstbit w x p = Z.testbit u p.
Proof. intros Hw Hx Hp. hz. apply tstbit_spec; assumption. Qed.
(* left shift, truncating and flooring right shifts, and their remainders *)
Theorem C52_shifts w x n u : 0 < w -> holds w x u -> 0 <= n ->
  holds w (mpz_mul_2exp w x n) (u * 2 ^ n) /\ holds w (mpz_quo_2exp w x n) (Z.quot u (2 ^ n)) /\ gives w (mpz_div_2exp w x n) (Z.shiftr u n) /\
  holds w (mpz_rem_2exp w x n) (Z.rem u (2 ^ n)) /\ holds w (mpz_mod_2exp w x n) (Z.land u (Z.ones n)) /\
  mpz_divisible_2exp_p w x n = (u mod 2 ^ n =? 0).
Proof.
  intros Hw Hx Hn. hz. rewrite Z.land_ones, Z.shiftr_div_pow2 by exact Hn. split; [|split; [|split; [|split; [|split]]]]; hs;
  [apply mul_2exp_spec|apply quo_2exp_spec|apply div_2exp_spec|apply rem_2exp_spec|apply mod_2exp_spec|apply divisible_spec]; assumption.
Qed.
(* Setting, clearing and flipping one bit: right for every nonnegative integer, and for a negative one
   unless it is too divisible by two. *)
Theorem C52_setbit w x p u : 0 < w -> holds w x u -> 0 <= p -> 0 <= u \/ u mod 2 ^ (p + 1) <> 0 -> holds w (mpz_setbit w x p) (Z.setbit u p).
Proof. intros Hw Hx Hp Hc. hz. hs. apply setbit_spec; assumption. Qed.
Theorem C52_clrbit w x p u : 0 < w -> holds w x u -> 0 <= p -> 0 <= u \/ u mod 2 ^ (p + 1) = 0 \/ u mod 2 ^ p <> 0 ->
  holds w (mpz_clrbit w x p) (Z.clearbit u p).
Proof. intros Hw Hx Hp Hc. hz. hs. apply clrbit_spec; assumption. Qed.
Theorem C52_combit w x p u : 0 < w -> holds w x u -> 0 <= p -> 0 <= u \/ u mod 2 ^ p <> 0 -> holds w (mpz_combit w x p) (Z.lxor u (2 ^ p)).
Proof. intros Hw Hx Hp Hc. hz. hs. apply combit_spec; assumption. Qed.
(* The side conditions are needed. Setting bit 0 of -2 gives -3, clearing bit 0 of -1 gives 0. *)
Theorem C52_setbit_refuted : exists x p, holds 64 x (-2) /\ Z.setbit (-2) p = -1 /\ holds 64 (mpz_setbit 64 x p) (-3).
Proof.
  exists (MkMpz (-1) [2]), 0. split; [|split; [reflexivity|]]; (split; [reflexivity|]; split; [constructor; [vm_compute; split; [discriminate|reflexivity]|constructor]|]; split; [right; vm_compute; discriminate|reflexivity]).
Qed.
Theorem C52_clrbit_refuted : exists x p, holds 64 x (-1) /\ Z.clearbit (-1) p = -2 /\ holds 64 (mpz_clrbit 64 x p) 0.
Proof.
  exists (MkMpz (-1) [1]), 0. split; [|split; [reflexivity|]].
  - split; [reflexivity|]. split; [constructor; [vm_compute; split; [discriminate|reflexivity]|constructor]|]. split; [right; vm_compute; discriminate|reflexivity].
  - replace (mpz_clrbit 64 (MkMpz (-1) [1]) 0) with (MkMpz 0 []) by reflexivity. split; [reflexivity|]. split; [constructor|]. split; [left; reflexivity|reflexivity].
Qed.
Example C52_ex : mpz_and 32 (MkMpz (-2) [0; 1]) (MkMpz (-1) [1]) = MkMpz (-2) [0; 1] /\
  mpz_ior 32 (MkMpz (-2) [0; 1]) (MkMpz 1 [5]) = MkMpz (-1) [2 ^ 32 - 5] /\
  mpz_xor 32 (MkMpz (-1) [2 ^ 32 - 1]) (MkMpz 1 [2 ^ 32 - 2]) = MkMpz (-1) [1] /\
  mpz_tstbit 32 (MkMpz (-2) [0; 1]) 31 = false /\ mpz_tstbit 32 (MkMpz (-2) [0; 1]) 32 = true /\ mpz_tstbit 32 (MkMpz (-2) [0; 1]) 77 = true /\
  mpz_div_2exp 32 (MkMpz (-1) [1]) 40 = Ok (MkMpz (-1) [1]).
Proof. vm_compute. repeat split. Qed.

(* the axioms of every theorem above, listed at once *)
Definition MpzProps_all := (@C51_canonical, @C51_add_sub, @C51_add_sub_ui, @C51_add_sub_si, @C51_mul, @C51_mul_ui_si, @C51_sqr, @C51_addmul_submul,
  @C51_addmul_submul_ui_si, @C51_neg_abs, @C51_set, @C51_compare, @C51_compare_ui_si, @C51_bitlen, @C50_mpz_quorem, @C50_mpz_divmod, @C50_mpz_by_zero,
  @C50_mpz_quo_word, @C50_mpz_div_word, @C52_and_ior_xor, @C52_com, @C52_word_ui, @C52_word_si, @C52_tstbit, @C52_shifts, @C52_setbit, @C52_clrbit,
  @C52_combit, @C52_setbit_refuted, @C52_clrbit_refuted).
Print Assumptions MpzProps_all.
