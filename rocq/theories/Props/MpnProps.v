(* C49, C50: limb arithmetic. A limb array stands for the number dval 2^w with w the limb width,
   any positive number here (the code has 32 and 64). *)
From Verif.Base Require Import Prelude.
From Verif.Model Require Import Encoding Mpn.
From Verif.Proof Require Import MpnProof MpnShift MpnDiv.

Notation limbs w := (Forall (below (2 ^ w))).
Notation value w := (dval (2 ^ w)).

(* C49: sums and differences, with the carry or borrow out *)
Theorem C49_add w xs ys : 0 < w -> limbs w xs -> limbs w ys ->
  match mpn_add w xs ys with
  | Ok (zs, c) => (length ys <= length xs)%nat /\ length zs = length xs /\ limbs w zs /\ 0 <= c <= 1 /\
                  value w zs + (2 ^ w) ^ Z.of_nat (length xs) * c = value w xs + value w ys
  | Fail => False
  | Abort => (length xs < length ys)%nat
  end.
Proof. intros Hw. exact (mpn_add_spec w Hw xs ys). Qed.
Theorem C49_sub w xs ys : 0 < w -> limbs w xs -> limbs w ys ->
  match mpn_sub w xs ys with
  | Ok (zs, c) => (length ys <= length xs)%nat /\ length zs = length xs /\ limbs w zs /\ 0 <= c <= 1 /\
                  value w zs - (2 ^ w) ^ Z.of_nat (length xs) * c = value w xs - value w ys
  | Fail => False
  | Abort => (length xs < length ys)%nat
  end.
Proof. intros Hw. exact (mpn_sub_spec w Hw xs ys). Qed.
Theorem C49_add_1 w xs y : 0 < w -> limbs w xs -> 0 <= y < 2 ^ w -> xs <> [] ->
  let '(zs, c) := mpn_add_1 w xs y in
  length zs = length xs /\ limbs w zs /\ 0 <= c <= 1 /\ value w zs + (2 ^ w) ^ Z.of_nat (length xs) * c = value w xs + y.
Proof. intros Hw Hx Hy Hn. apply (add_1_spec w Hw); [exact Hx|exact Hy|intros E; contradiction]. Qed.
Theorem C49_sub_1 w xs y : 0 < w -> limbs w xs -> 0 <= y < 2 ^ w -> xs <> [] ->
  let '(zs, c) := mpn_sub_1 w xs y in
  length zs = length xs /\ limbs w zs /\ 0 <= c <= 1 /\ value w zs - (2 ^ w) ^ Z.of_nat (length xs) * c = value w xs - y.
Proof. intros Hw Hx Hy Hn. apply (sub_1_spec w Hw); [exact Hx|exact Hy|intros E; contradiction]. Qed.
Theorem C49_sec_add_sub_1 w xs y : 0 < w -> limbs w xs -> 0 <= y < 2 ^ w ->
  (let '(zs, c) := mpn_sec_add_1 w xs y in
   length zs = length xs /\ limbs w zs /\ below (2 ^ w) c /\ value w zs + (2 ^ w) ^ Z.of_nat (length xs) * c = value w xs + y) /\
  (let '(zs, c) := mpn_sec_sub_1 w xs y in
   length zs = length xs /\ limbs w zs /\ below (2 ^ w) c /\ value w zs - (2 ^ w) ^ Z.of_nat (length xs) * c = value w xs - y).
Proof. intros Hw Hx Hy. split; [exact (sec_add_spec w Hw xs y Hx Hy)|exact (sec_sub_spec w Hw xs y Hx Hy)]. Qed.
(* products by a limb, accumulated into and out of an array *)
Theorem C49_mul_1 w zs xs y : 0 < w -> limbs w zs -> limbs w xs -> 0 <= y < 2 ^ w -> length zs = length xs ->
  let N := (2 ^ w) ^ Z.of_nat (length xs) in
  (let '(r, c) := mpn_mul_1 w xs y in
   length r = length xs /\ limbs w r /\ below (2 ^ w) c /\ value w r + N * c = value w xs * y) /\
  (let '(r, c) := mpn_addmul_1 w zs xs y in
   length r = length xs /\ limbs w r /\ below (2 ^ w) c /\ value w r + N * c = value w zs + value w xs * y) /\
  (let '(r, c) := mpn_submul_1 w zs xs y in
   length r = length xs /\ limbs w r /\ below (2 ^ w) c /\ value w r - N * c = value w zs - value w xs * y).
Proof.
  intros Hw Hz Hx Hy Hl N. unfold mpn_mul_1, mpn_addmul_1, mpn_submul_1. split; [|split].
  - pose proof (mul_1_loop_spec w Hw xs 0 y Hx (limb0 w Hw) Hy) as M. destruct (mul_1_loop w 0 xs y) as [r c].
    destruct M as (M1 & M2 & M3 & M4). split; [exact M1|]. split; [exact M2|]. split; [exact M3|]. fold (LB w) in *. unfold N. fold (LB w). lia.
  - pose proof (addmul_1_loop_spec w Hw xs zs 0 y Hz Hx Hl (limb0 w Hw) Hy) as M. destruct (addmul_1_loop w 0 zs xs y) as [r c].
    destruct M as (M1 & M2 & M3 & M4). split; [exact M1|]. split; [exact M2|]. split; [exact M3|]. fold (LB w) in *. unfold N. fold (LB w). lia.
  - pose proof (submul_1_loop_spec w Hw xs zs 0 y Hz Hx Hl (limb0 w Hw) Hy) as M. destruct (submul_1_loop w 0 zs xs y) as [r c].
    destruct M as (M1 & M2 & M3 & M4). split; [exact M1|]. split; [exact M2|]. split; [exact M3|]. fold (LB w) in *. unfold N. fold (LB w). lia.
Qed.
(* full products and squares; the assertion in mpn_sqr never fires *)
Theorem C49_mul w xs ys : 0 < w -> limbs w xs -> limbs w ys ->
  length (mpn_mul w xs ys) = (length xs + length ys)%nat /\ limbs w (mpn_mul w xs ys) /\
  value w (mpn_mul w xs ys) = value w xs * value w ys.
Proof. intros Hw. exact (mpn_mul_spec w Hw xs ys). Qed.
Theorem C49_sqr w xs : 1 < w -> limbs w xs ->
  exists zs, mpn_sqr w xs = Ok zs /\ length zs = (2 * length xs)%nat /\ limbs w zs /\ value w zs = value w xs * value w xs.
Proof.
  intros Hw Hx. pose proof (mpn_sqr_spec w ltac:(lia) xs Hx ltac:(lia)) as M.
  destruct (mpn_sqr w xs) as [zs| |]; [|contradiction|contradiction]. exists zs. split; [reflexivity|exact M].
Qed.
(* the product computed from half limbs is the full product *)
Theorem C49_mul_half_limbs w x y : 0 < w -> Z.even w = true -> 0 <= x < 2 ^ w -> 0 <= y < 2 ^ w ->
  mp_mul_hd w x y = (x * y / 2 ^ w, (x * y) mod 2 ^ w) /\ mp_sqr_hd w x = (x * x / 2 ^ w, (x * x) mod 2 ^ w).
Proof.
  intros Hw He Hx Hy. apply Z.even_spec in He. destruct He as (h & Eh).
  split; [exact (mp_mul_hd_spec w Hw h x y Eh Hx Hy)|exact (mp_sqr_hd_spec w Hw h x Eh Hx)].
Qed.
(* shifts by less than a limb *)
Theorem C49_shift w xs bits : 0 < bits < w -> limbs w xs ->
  (let '(zs, c) := mpn_lshift w xs bits in
   length zs = length xs /\ limbs w zs /\ 0 <= c < 2 ^ bits /\ value w zs + (2 ^ w) ^ Z.of_nat (length xs) * c = value w xs * 2 ^ bits) /\
  (let '(zs, c) := mpn_rshift w xs bits in
   length zs = length xs /\ limbs w zs /\ value w zs = value w xs / 2 ^ bits /\ c = value w xs mod 2 ^ bits).
Proof.
  intros Hb Hx. assert (Hw : 0 < w) by lia. split; [exact (mpn_lshift_spec w Hw bits Hb xs Hx)|exact (mpn_rshift_spec w Hw bits Hb xs Hx)].
Qed.
Theorem C49_neg w xs : 0 < w -> limbs w xs ->
  let '(zs, c) := mpn_neg w xs in
  length zs = length xs /\ limbs w zs /\ value w zs = (- value w xs) mod (2 ^ w) ^ Z.of_nat (length xs) /\
  c = (if value w xs =? 0 then 0 else 1).
Proof. intros Hw. exact (mpn_neg_spec w Hw xs). Qed.
Theorem C49_compare w xs ys : 0 < w -> limbs w xs -> limbs w ys ->
  (length xs = length ys -> mpn_cmp xs ys (length xs) = Z.sgn (value w xs - value w ys)) /\
  mpn_zero_p xs = (value w xs =? 0) /\
  (let n := mpn_strip xs (length xs) in value w (firstn n xs) = value w xs /\ (n = 0%nat \/ nth (n - 1) xs 0 <> 0)).
Proof.
  intros Hw Hx Hy. split; [exact (mpn_cmp_full w Hw xs ys Hx Hy)|]. split; [exact (mpn_zero_p_spec w Hw xs Hx)|].
  destruct (mpn_strip_spec w (length xs) xs (le_n _)) as (S1 & S2 & S3). rewrite firstn_all in S2. cbv zeta. split; [exact S2|exact S3].
Qed.
Theorem C49_sub_mod w xs ys ms : 0 < w -> limbs w xs -> limbs w ys -> limbs w ms ->
  length xs = length ms -> length ys = length ms -> value w xs < value w ms -> value w ys < value w ms ->
  value w (mpn_sub_mod w xs ys ms) = (value w xs - value w ys) mod value w ms.
Proof. intros Hw Hx Hy Hm L1 L2 X Y. apply (mpn_sub_mod_spec w Hw xs ys ms); assumption. Qed.
Example C49_ex : mpn_mul 64 [2 ^ 64 - 1; 2 ^ 64 - 1] [2 ^ 64 - 1] = [1; 2 ^ 64 - 1; 2 ^ 64 - 2] /\
  mpn_sqr 32 [2 ^ 32 - 1; 2 ^ 32 - 1; 5] = Ok [1; 0; 4294967284; 4294967295; 35; 0] /\
  mpn_add 64 [2 ^ 64 - 1; 2 ^ 64 - 1] [1] = Ok ([0; 0], 1) /\ mpn_neg 64 [0; 1] = ([0; 2 ^ 64 - 1], 1).
Proof. vm_compute. repeat split. Qed.

(* C50: division by an array (Algorithm D with a reciprocal) and by a limb *)
Theorem C50_divmod w np dp : 0 < w -> limbs w np -> limbs w dp ->
  match mpn_divmod w np dp with
  | Ok (q, r) => dp <> [] /\ (length dp <= length np)%nat /\ last dp 0 <> 0 /\
     length q = (length np - length dp + 1)%nat /\ limbs w q /\ length r = length dp /\ limbs w r /\
     value w q = value w np / value w dp /\ value w r = value w np mod value w dp
  | Fail => False
  | Abort => dp = [] \/ (length np < length dp)%nat \/ last dp 0 = 0
  end.
Proof. intros Hw. exact (mpn_divmod_spec w Hw np dp). Qed.
Theorem C50_divmod_1 w np d : 0 < w -> limbs w np -> 0 <= d < 2 ^ w ->
  match mpn_divmod_1 w np d with
  | Ok (q, r) => d <> 0 /\ length q = length np /\ limbs w q /\ value w q = value w np / d /\ r = value w np mod d
  | Fail => False
  | Abort => d = 0
  end.
Proof. intros Hw. exact (mpn_divmod_1_spec w Hw np d). Qed.
(* the reciprocal and the 2-by-1 step it supports *)
Theorem C50_div_2by1 w u1 u0 d : 0 < w -> 0 <= u1 < d -> 0 <= u0 < 2 ^ w -> 2 ^ (w - 1) <= d < 2 ^ w ->
  mp_div_2by1 w u1 u0 d (mp_inv_2by1 w d) = ((u1 * 2 ^ w + u0) / d, (u1 * 2 ^ w + u0) mod d).
Proof.
  intros Hw Hu1 Hu0 Hd. assert (E : 2 ^ w = 2 * 2 ^ (w - 1)) by (rewrite <- Z.pow_succ_r by lia; f_equal; lia).
  assert (Ld : below (LB w) d) by (unfold below, LB; pose proof (Z.pow_pos_nonneg 2 (w - 1)); lia).
  assert (Hn : LB w <= 2 * d) by (unfold LB; lia).
  pose proof (mp_div_2by1_spec w Hw u1 u0 d (mp_inv_2by1 w d) Hu0 Ld Hn (inv_2by1_spec w Hw d Ld Hn) Hu1) as M.
  destruct (mp_div_2by1 w u1 u0 d (mp_inv_2by1 w d)) as [q r]. destruct M as (M1 & M2 & M3). fold (LB w). rewrite M3.
  destruct (div_eq_bounds (q * d + r) d q ltac:(lia) ltac:(lia)) as [Q1 Q2]. rewrite Q1, Q2. f_equal. lia.
Qed.
(* the portable two-limb division *)
Theorem C50_div_half_limbs w n1 n0 d : 0 < w -> Z.even w = true -> 0 <= n1 < d -> 0 <= n0 < 2 ^ w -> d < 2 ^ w ->
  mp_div_hd w n1 n0 d = Ok ((n1 * 2 ^ w + n0) / d, (n1 * 2 ^ w + n0) mod d).
Proof.
  intros Hw He H1 H0 Hd. apply Z.even_spec in He. destruct He as (h & Eh).
  apply (mp_div_hd_spec w Hw h n1 n0 d Eh); unfold below, LB; lia.
Qed.
(* equal top limbs, where the estimate is 2^32 - 1; a three-limb quotient; an unnormalized divisor *)
Example C50_ex : mpn_divmod 32 [3; 0; 2 ^ 31 - 1; 2 ^ 31 - 1] [2 ^ 32 - 1; 2 ^ 31 - 1; 2 ^ 31 - 1] =
    Ok ([2 ^ 32 - 1; 0], [2; 2147483649; 2147483646]) /\
  mpn_divmod 32 [0; 0; 0; 2 ^ 31] [2 ^ 32 - 1; 2 ^ 31] = Ok ([5; 2 ^ 32 - 2; 0], [5; 2147483641]) /\
  mpn_divmod 32 [1; 2] [3; 0] = Abort.
Proof. vm_compute. repeat split. Qed.

(* the axioms of every theorem above, listed at once *)
Definition MpnProps_all := (@C49_add, @C49_sub, @C49_add_1, @C49_sub_1, @C49_sec_add_sub_1, @C49_mul_1, @C49_mul, @C49_sqr, @C49_mul_half_limbs, @C49_shift,
  @C49_neg, @C49_compare, @C49_sub_mod, @C50_divmod, @C50_divmod_1, @C50_div_2by1, @C50_div_half_limbs).
Print Assumptions MpnProps_all.
