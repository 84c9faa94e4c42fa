(* The endomorphism split with the secp256k1 constants is short. *)
From Verif.Base Require Import Prelude.
From Verif.Model Require Import NumTheory EcScalar Wei.
From Verif.Proof Require Import Cong EcScalarProof.
(* the split is a decomposition, for any rounding constants; nl is the stored -lambda *)
Lemma split_mod n g1 g2 b1 b2 nl prec k : 0 < n -> let '(k1, k2) := wei_endo_split n g1 g2 b1 b2 nl prec k in
  0 <= k1 < n /\ 0 <= k2 < n /\ (k1 - nl * k2) mod n = k mod n.
Proof.
  intros N. unfold wei_endo_split. set (k2 := ((mulshift k g1 prec * b1) mod n + (mulshift k g2 prec * b2) mod n) mod n). cbv zeta.
  split; [apply Z.mod_pos_bound; exact N|]. split; [apply Z.mod_pos_bound; exact N|]. rewrite Zminus_mod_idemp_l.
  rewrite Zminus_mod. rewrite (Zplus_mod (k2 * nl mod n)). rewrite Zmod_mod. rewrite <- Zplus_mod. rewrite <- Zminus_mod. f_equal. ring.
Qed.
Lemma mulshift_spec x y prec : 1 <= prec -> exists e, 2 ^ prec * mulshift x y prec = x * y + e /\ - 2 ^ (prec - 1) < e <= 2 ^ (prec - 1).
Proof.
  intros H. unfold mulshift. assert (EP : 2 ^ prec = 2 * 2 ^ (prec - 1)) by (rewrite <- Z.pow_succ_r by lia; f_equal; lia). rewrite EP. clear EP. set (T := 2 ^ (prec - 1)). assert (T0 : 0 < T) by (apply Z.pow_pos_nonneg; lia). clearbody T.
  rewrite (Z.mul_comm 2 T), <- Z.div_div by lia. pose proof (Z.div_mod (x * y) T ltac:(lia)) as E. pose proof (Z.mod_pos_bound (x * y) T T0) as B. set (q := x * y / T) in *. set (r := (x * y) mod T) in *. clearbody q r.
  pose proof (Z.div_mod q 2 ltac:(lia)) as E2. pose proof (Z.mod_pos_bound q 2 ltac:(lia)) as B2. set (d := q / 2) in *. set (m := q mod 2) in *. clearbody d m.
  exists (T * m - r). rewrite E, E2. split; [ring|]. assert (m = 0 \/ m = 1) as [-> | ->] by lia; lia.
Qed.
(* minimising a representative of a small integer gives its absolute value *)
Lemma minimize_small n x B : 0 < n -> - B < x < B -> 2 * B <= n -> fst (sc_minimize n (x mod n)) < B.
Proof.
  intros N X H. destruct (Z.lt_ge_cases x 0) as [S|S].
  - replace (x mod n) with (x + n). 2:{ apply (Z.mod_unique_pos _ _ (-1)); lia. } unfold sc_minimize, sc_is_high, sc_neg. pose proof (Z.div_mod n 2 ltac:(lia)). pose proof (Z.mod_pos_bound n 2 ltac:(lia)).
    destruct (Z.ltb_spec (n / 2) (x + n)); cbn [fst]; [|lia]. destruct (Z.eqb_spec (x + n) 0); lia.
  - rewrite Z.mod_small by lia. pose proof (Z.div_mod n 2 ltac:(lia)). pose proof (Z.mod_pos_bound n 2 ltac:(lia)). unfold sc_minimize, sc_is_high, sc_neg.
    destruct (Z.ltb_spec (n / 2) x); cbn [fst]; lia.
Qed.
(* the secp256k1 constants: n (the scalar field), lambda, b1, b2, g1, g2 as stored (ecc.c 9532-9571) *)
Definition sec_n := 0xfffffffffffffffffffffffffffffffebaaedce6af48a03bbfd25e8cd0364141.
Definition sec_nl := 0xac9c52b33fa3cf1f5ad9e3fd77ed9ba4a880b9fc8ec739c2e0cfc810b51283cf.
Definition sec_b1 := 0xe4437ed6010e88286f547fa90abfe4c3.
Definition sec_b2 := 0xfffffffffffffffffffffffffffffffe8a280ac50774346dd765cda83db1562c.
Definition sec_g1 := 0x3086d221a7d46bcde86c90e49284eb153daa8a1471e8ca7fe893209a45dbb031.
Definition sec_g2 := 0xe4437ed6010e88286f547fa90abfe4c4221208ac9df506c61571b4ae8ac47f71.
Definition sec_a1 := 0x3086d221a7d46bcde86c90e49284eb15.
Definition sec_a2 := 0x114ca50f7a8e2f3f657c1108d9d44cfd8.
Lemma sec_bound k c1 c2 e1 e2 : 0 <= k < sec_n -> 2 ^ 384 * c1 = k * sec_g1 + e1 -> - 2 ^ 383 < e1 <= 2 ^ 383 -> 2 ^ 384 * c2 = k * sec_g2 + e2 -> - 2 ^ 383 < e2 <= 2 ^ 383 ->
  - 2 ^ 128 < c1 * sec_b1 - c2 * (sec_n - sec_b2) < 2 ^ 128 /\ - 2 ^ 128 < k - c1 * sec_a1 - c2 * sec_a2 < 2 ^ 128.
Proof.
  intros K E1 B1 E2 B2. change (2 ^ 384) with 0x1000000000000000000000000000000000000000000000000000000000000000000000000000000000000000000000000 in *.
  change (2 ^ 383) with 0x800000000000000000000000000000000000000000000000000000000000000000000000000000000000000000000000 in *. change (2 ^ 128) with 0x100000000000000000000000000000000.
  unfold sec_n, sec_g1, sec_g2, sec_b1, sec_b2, sec_a1, sec_a2 in *. lia.
Qed.
Lemma sec_split k : 0 <= k < sec_n -> let '(k1, k2) := wei_endo_split sec_n sec_g1 sec_g2 sec_b1 sec_b2 sec_nl 384 k in
  0 <= k1 < sec_n /\ 0 <= k2 < sec_n /\ (k1 - sec_nl * k2) mod sec_n = k mod sec_n /\ fst (sc_minimize sec_n k1) < 2 ^ 128 /\ fst (sc_minimize sec_n k2) < 2 ^ 128.
Proof.
  intros K. pose proof (split_mod sec_n sec_g1 sec_g2 sec_b1 sec_b2 sec_nl 384 k eq_refl) as H.
  destruct (mulshift_spec k sec_g1 384 ltac:(lia)) as (e1 & E1 & B1). destruct (mulshift_spec k sec_g2 384 ltac:(lia)) as (e2 & E2 & B2). change (384 - 1) with 383 in B1, B2.
  pose proof (sec_bound k _ _ _ _ K E1 B1 E2 B2) as [S2 S1]. unfold wei_endo_split in *. cbv zeta in *.
  set (c1 := mulshift k sec_g1 384) in *. set (c2 := mulshift k sec_g2 384) in *. clearbody c1 c2. clear E1 B1 E2 B2 e1 e2.
  set (k2 := ((c1 * sec_b1) mod sec_n + (c2 * sec_b2) mod sec_n) mod sec_n) in *. destruct H as (H1 & H2 & H3). split; [exact H1|]. split; [exact H2|]. split; [exact H3|].
  assert (K2 : k2 = (c1 * sec_b1 - c2 * (sec_n - sec_b2)) mod sec_n).
  { unfold k2. rewrite <- Zplus_mod. replace (c1 * sec_b1 - c2 * (sec_n - sec_b2)) with (c1 * sec_b1 + c2 * sec_b2 + (- c2) * sec_n) by ring. rewrite Z.mod_add by discriminate. reflexivity. }
  assert (K1 : (k2 * sec_nl mod sec_n + k) mod sec_n = (k - c1 * sec_a1 - c2 * sec_a2) mod sec_n).
  { rewrite Zplus_mod_idemp_l, K2, <- Zplus_mod_idemp_l, Zmult_mod_idemp_l, Zplus_mod_idemp_l. 
    replace (k - c1 * sec_a1 - c2 * sec_a2) with ((c1 * sec_b1 - c2 * (sec_n - sec_b2)) * sec_nl + k + (c2 * ((sec_nl * (sec_n - sec_b2) - sec_a2) / sec_n) - c1 * ((sec_nl * sec_b1 + sec_a1) / sec_n)) * sec_n).
    2:{ set (u1 := (sec_nl * sec_b1 + sec_a1) / sec_n). set (u2 := (sec_nl * (sec_n - sec_b2) - sec_a2) / sec_n). assert (U1 : sec_a1 = u1 * sec_n - sec_nl * sec_b1) by reflexivity. assert (U2 : sec_a2 = sec_nl * (sec_n - sec_b2) - u2 * sec_n) by reflexivity. rewrite U1, U2. ring. }
    rewrite Z.mod_add by discriminate. reflexivity. }
  rewrite K1, K2. split; apply minimize_small; try assumption; reflexivity || discriminate.
Qed.
