(* Poly1305 with 44-bit limbs *)
From Verif.Base Require Import Prelude.
From Verif.Model Require Import Bio Block Mac.
From Verif.Spec Require Import BlockSpec MacSpec.
From Verif.Proof Require Import BioProof BlockProof PolyProof.
#[local] Ltac Zify.zify_post_hook ::= idtac.

Lemma w64_id x : 0 <= x < 2 ^ 64 -> w64 x = x.
Proof. apply w64_small. Qed.
Lemma w128_id x : 0 <= x < 2 ^ 128 -> w128 x = x.
Proof. intros H. unfold w128. rewrite M128_eq. apply Z.mod_small. auto. Qed.
Lemma mulb a b A B : 0 <= a <= A -> 0 <= b <= B -> 0 <= a * b <= A * B.
Proof. intros. nia. Qed.
Ltac dm x n := pose proof (Z.div_mod x n ltac:(lia)); pose proof (Z.mod_pos_bound x n ltac:(lia)).

Definition val3 '((a, b, c) : Z * Z * Z) : Z := a + 2 ^ 44 * b + 2 ^ 88 * c.
Definition rok64 '((a, b, c) : Z * Z * Z) : Prop := 0 <= a < 2 ^ 44 /\ 0 <= b < 2 ^ 44 /\ 0 <= c < 2 ^ 36.
Definition hok64 '((a, b, c) : Z * Z * Z) : Prop := 0 <= a < 2 ^ 44 /\ 0 <= b < 2 ^ 45 /\ 0 <= c < 2 ^ 42.

Definition post64 (st : p64) (T : Z) (st' : p64) : Prop :=
  r64 st' = r64 st /\ pad64 st' = pad64 st /\ hok64 (h64 st') /\
  val3 (h64 st') mod p1305 = ((val3 (h64 st) + T) * val3 (r64 st)) mod p1305.

Lemma p64_block_spec st data (fin : bool) : bytes data -> length data = 16%nat -> rok64 (r64 st) -> hok64 (h64 st) ->
  post64 st (le_val data + if fin then 0 else 2 ^ 128) (p64_block st data fin).
Proof.
  intros Hb Hl Hr Hh. cbv delta [p64_block]. destruct st as [[[r0 r1] r2] [[h0 h1] h2] pad]. cbv beta iota delta [r64 h64 pad64] in *.
  set (st := mkP64 (r0, r1, r2) (h0, h1, h2) pad). set (T := le_val data).
  assert (HT : 0 <= T < 2 ^ 128) by (pose proof (le_val_range data Hb) as X; rewrite Hl in X; exact X).
  assert (R0 : read64le data = T mod 2 ^ 64).
  { rewrite read64le_firstn by (auto; lia). rewrite le_val_firstn by (auto; lia). reflexivity. }
  assert (R1 : read64le (skipn 8 data) = T / 2 ^ 64) by (rewrite read64_at by (auto; lia); apply t1_val; auto).
  rewrite R0, R1. clear R0 R1. destruct Hr as [Hr0 [Hr1 Hr2]]. destruct Hh as [Hh0 [Hh1 Hh2]].
  lt hib Ehib. lt s1 Es1. lt s2 Es2. lt t0 Et0. lt t1 Et1. lt a0 Ea0. lt a1 Ea1. lt a2 Ea2.
  subst t0 t1. rewrite mid_limb in Ea1 by auto. rewrite hi_limb in Ea2.
  rewrite low_land in Ea0 by (auto; split; [discriminate|reflexivity]).
  rewrite w64_land in Ea1 by (auto; split; [discriminate|reflexivity]).
  rewrite land_m44 in Ea0, Ea1. rewrite land_m42 in Ea2. rewrite shr_div in Ea1, Ea2 by lia.
  (* message limbs *)
  set (n0 := T mod 2 ^ 44) in *. set (n1 := T / 2 ^ 44 mod 2 ^ 44) in *.
  set (n2 := T / 2 ^ 88 + (if fin then 0 else 2 ^ 40)).
  assert (HN : n0 + 2 ^ 44 * n1 + 2 ^ 88 * (T / 2 ^ 88) = T).
  { change (2 ^ 88) with (2 ^ 44 * 2 ^ 44). rewrite <- Z.div_div by lia. unfold n0, n1. dm T (2 ^ 44). dm (T / 2 ^ 44) (2 ^ 44). lia. }
  assert (B2 : 0 <= T / 2 ^ 88 < 2 ^ 40) by (split; [apply Z.div_pos; lia|apply Z.div_lt_upper_bound; lia]).
  assert (B0 : 0 <= n0 < 2 ^ 44) by (apply Z.mod_pos_bound; lia).
  assert (B1 : 0 <= n1 < 2 ^ 44) by (apply Z.mod_pos_bound; lia).
  assert (E2 : Z.lor (T / 2 ^ 88 mod 2 ^ 42) hib = n2).
  { rewrite Z.mod_small by lia. unfold n2. rewrite Ehib. destruct fin; [rewrite Z.lor_0_r; lia|].
    rewrite Z.lor_comm. rewrite lor_shiftl_add by lia. rewrite Z.add_comm. reflexivity. }
  rewrite E2 in Ea2.
  assert (HN2 : n0 + 2 ^ 44 * n1 + 2 ^ 88 * n2 = T + if fin then 0 else 2 ^ 128) by (unfold n2; destruct fin; lia).
  assert (B2' : 0 <= n2 < 2 ^ 41) by (unfold n2; destruct fin; lia).
  clearbody n0 n1 n2. clear E2 Ehib HN B2. clear hib.
  unfold mul64 in Es1, Es2. unfold add64 in Ea0, Ea1, Ea2.
  rewrite w64_id in Es1, Es2, Ea0, Ea1, Ea2 by lia.
  assert (A0 : 0 <= a0 <= 2 ^ 45) by lia. assert (A1 : 0 <= a1 <= 2 ^ 46) by lia. assert (A2 : 0 <= a2 <= 2 ^ 43) by lia.
  assert (S1 : 0 <= s1 <= 2 ^ 49) by lia. assert (S2 : 0 <= s2 <= 2 ^ 41) by lia.
  assert (R0 : 0 <= r0 <= 2 ^ 44) by lia. assert (R1 : 0 <= r1 <= 2 ^ 44) by lia. assert (R2 : 0 <= r2 <= 2 ^ 36) by lia.
  lt d0 Ed0. lt d1 Ed1. lt d2 Ed2.
  pose proof (mulb a0 r0 _ _ A0 R0) as P00. pose proof (mulb a1 s2 _ _ A1 S2) as P12. pose proof (mulb a2 s1 _ _ A2 S1) as P21.
  pose proof (mulb a0 r1 _ _ A0 R1) as P01. pose proof (mulb a1 r0 _ _ A1 R0) as P10. pose proof (mulb a2 s2 _ _ A2 S2) as P22.
  pose proof (mulb a0 r2 _ _ A0 R2) as P02. pose proof (mulb a1 r1 _ _ A1 R1) as P11. pose proof (mulb a2 r0 _ _ A2 R0) as P20.
  assert (Fd0 : d0 = a0 * r0 + a1 * s2 + a2 * s1) by (rewrite Ed0, (w128_id (a0 * r0)), (w128_id (a1 * s2)), (w128_id (a0 * r0 + a1 * s2)), (w128_id (a2 * s1)), w128_id by lia; reflexivity).
  assert (Fd1 : d1 = a0 * r1 + a1 * r0 + a2 * s2) by (rewrite Ed1, (w128_id (a0 * r1)), (w128_id (a1 * r0)), (w128_id (a0 * r1 + a1 * r0)), (w128_id (a2 * s2)), w128_id by lia; reflexivity).
  assert (Fd2 : d2 = a0 * r2 + a1 * r1 + a2 * r0) by (rewrite Ed2, (w128_id (a0 * r2)), (w128_id (a1 * r1)), (w128_id (a0 * r2 + a1 * r1)), (w128_id (a2 * r0)), w128_id by lia; reflexivity).
  assert (Bd0 : 0 <= d0 < 2 ^ 93) by (clear - Fd0 P00 P12 P21; lia).
  assert (Bd1 : 0 <= d1 < 2 ^ 92) by (clear - Fd1 P01 P10 P22; lia).
  assert (Bd2 : 0 <= d2 < 2 ^ 92) by (clear - Fd2 P02 P11 P20; lia).
  assert (KEY : (val3 (h0, h1, h2) + (T + if fin then 0 else 2 ^ 128)) * val3 (r0, r1, r2) =
    d0 + 2 ^ 44 * d1 + 2 ^ 88 * d2 + p1305 * (4 * (a1 * r2 + a2 * r1 + 2 ^ 44 * (a2 * r2)))).
  { unfold val3, p1305. rewrite <- HN2. rewrite Fd0, Fd1, Fd2, Es1, Es2.
    replace (h0 + 2 ^ 44 * h1 + 2 ^ 88 * h2 + (n0 + 2 ^ 44 * n1 + 2 ^ 88 * n2)) with (a0 + 2 ^ 44 * a1 + 2 ^ 88 * a2) by lia. ring. }
  clear Ed0 Ed1 Ed2 Fd0 Fd1 Fd2 P00 P12 P21 P01 P10 P22 P02 P11 P20.
  set (kk := 4 * (a1 * r2 + a2 * r1 + 2 ^ 44 * (a2 * r2))) in KEY. clearbody kk.
  (* carries *)
  lt c0 Ec0. lt b0 Eb0. rewrite shr_div in Ec0 by lia. rewrite land_m44 in Eb0.
  assert (F0 : b0 = d0 mod 2 ^ 44).
  { rewrite Eb0. unfold w64. rewrite M64_eq. change (2 ^ 64) with (2 ^ 44 * 2 ^ 20).
    rewrite Z.rem_mul_r by lia. rewrite Z.mul_comm, Z.mod_add, Z.mod_mod by lia. reflexivity. }
  dm d0 (2 ^ 44). rewrite w64_id in Ec0 by lia. clear Eb0.
  lt e1 Ee1. rewrite w128_id in Ee1 by lia. lt c1 Ec1. lt b1 Eb1. rewrite shr_div in Ec1 by lia. rewrite land_m44 in Eb1.
  assert (F1 : b1 = e1 mod 2 ^ 44).
  { rewrite Eb1. unfold w64. rewrite M64_eq. change (2 ^ 64) with (2 ^ 44 * 2 ^ 20).
    rewrite Z.rem_mul_r by lia. rewrite Z.mul_comm, Z.mod_add, Z.mod_mod by lia. reflexivity. }
  dm e1 (2 ^ 44). rewrite w64_id in Ec1 by lia. clear Eb1.
  lt e2 Ee2. rewrite w128_id in Ee2 by lia. lt c2 Ec2. lt b2 Eb2. rewrite shr_div in Ec2 by lia. rewrite land_m42 in Eb2.
  assert (F2 : b2 = e2 mod 2 ^ 42).
  { rewrite Eb2. unfold w64. rewrite M64_eq. change (2 ^ 64) with (2 ^ 42 * 2 ^ 22).
    rewrite Z.rem_mul_r by lia. rewrite Z.mul_comm, Z.mod_add, Z.mod_mod by lia. reflexivity. }
  dm e2 (2 ^ 42). rewrite w64_id in Ec2 by lia. clear Eb2.
  lt f0 Ef0. unfold add64, mul64 in Ef0. rewrite (w64_id (c2 * 5)), w64_id in Ef0 by lia.
  lt c3 Ec3. rewrite shr_div in Ec3 by lia. lt g0 Eg0. rewrite land_m44 in Eg0. dm f0 (2 ^ 44).
  lt g1 Eg1. unfold add64 in Eg1. rewrite w64_id in Eg1 by lia.
  unfold post64. cbn [r64 h64 pad64]. split; [reflexivity|]. split; [reflexivity|]. split; [unfold hok64; lia|].
  subst st. cbn [r64 h64]. rewrite KEY. clear KEY.
  transitivity ((val3 (g0, g1, b2) + (c2 + kk) * p1305) mod p1305); [rewrite Z.mod_add by (unfold p1305; lia); reflexivity|].
  f_equal. unfold val3, p1305. lia.
Qed.

Lemma p64_init_spec key : bytes key -> length key = 32%nat ->
  let st := p64_init key in
  rok64 (r64 st) /\ val3 (r64 st) = clamp key /\ h64 st = (0, 0, 0) /\
  pad64 st = (le_val (firstn 16 (skipn 16 key)) mod 2 ^ 64, le_val (firstn 16 (skipn 16 key)) / 2 ^ 64).
Proof.
  intros Hb Hl. unfold p64_init. cbn [r64 h64 pad64].
  set (k1 := firstn 16 key). set (T := le_val k1).
  assert (L1 : length k1 = 16%nat) by (unfold k1; rewrite firstn_length; lia).
  assert (Hb1 : bytes k1) by (apply bytes_firstn; auto).
  assert (HT : 0 <= T < 2 ^ 128) by (pose proof (le_val_range k1 Hb1) as X; rewrite L1 in X; exact X).
  assert (R0 : read64le key = T mod 2 ^ 64).
  { rewrite read64le_firstn by (auto; lia). unfold T, k1. rewrite (le_val_firstn 16), (le_val_firstn 8) by (auto; lia).
    symmetry. change (256 ^ Z.of_nat 16) with (2 ^ 64 * 2 ^ 64). rewrite Z.rem_mul_r by lia.
    rewrite Z.mul_comm, Z.mod_add, Z.mod_mod by lia. reflexivity. }
  assert (R1 : read64le (skipn 8 key) = T / 2 ^ 64).
  { unfold T, k1. rewrite read64_at by (auto; lia). rewrite (le_val_firstn 16) by (auto; lia).
    change (256 ^ Z.of_nat 16) with (2 ^ 64 * 2 ^ 64). change (256 ^ Z.of_nat 8) with (2 ^ 64).
    rewrite Z.rem_mul_r by lia. rewrite Z.mul_comm, Z.div_add by lia. rewrite (Z.div_small (_ mod _)) by (apply Z.mod_pos_bound; lia). lia. }
  rewrite R0, R1. rewrite mid_limb by auto. rewrite hi_limb.
  rewrite low_land by (auto; split; [discriminate|reflexivity]).
  rewrite w64_land by (auto; split; [discriminate|reflexivity]).
  split; [|split; [|split; [reflexivity|]]].
  - unfold rok64. rewrite (Z.land_comm T), (Z.land_comm (shr T 44)), (Z.land_comm (shr T 88)). repeat split; try (apply land_range_l; lia).
    all: apply (land_range_l _ _ 44) || apply (land_range_l _ _ 36); lia.
  - unfold val3, clamp. apply (clamp_limbs T HT).
  - set (k2 := firstn 16 (skipn 16 key)).
    assert (L2 : length k2 = 16%nat) by (unfold k2; rewrite firstn_length, skipn_length; lia).
    assert (Hb2 : bytes k2) by (apply bytes_firstn, bytes_skipn; auto).
    assert (HS : skipn 16 key = k2) by (unfold k2; symmetry; apply firstn_all2; rewrite skipn_length; lia).
    assert (HT2 : 0 <= le_val k2 < 2 ^ 128) by (pose proof (le_val_range k2 Hb2) as X; rewrite L2 in X; exact X).
    replace (skipn 24 key) with (skipn 8 k2) by (rewrite <- HS, <- BufCrypt.skipn_add; reflexivity). rewrite HS.
    f_equal.
    + rewrite read64le_firstn by (auto; lia). rewrite le_val_firstn by (auto; lia). reflexivity.
    + rewrite read64_at by (auto; lia). apply t1_val. auto.
Qed.

Lemma land_all64 x : 0 <= x < 2 ^ 64 -> Z.land x (2 ^ 64 - 1) = x.
Proof. intros H. rewrite land_mask by lia. apply Z.mod_small. auto. Qed.

Definition is {A} (x l : A) : Prop := l = x.
Lemma le_bytes_split x : le_bytes 16 x = le_bytes 8 (x mod 2 ^ 64) ++ le_bytes 8 (x / 2 ^ 64).
Proof.
  apply (dval_inj 256); [lia| | |rewrite app_length, !le_bytes_length; reflexivity|].
  - apply bytes_below, le_bytes_bytes.
  - apply bytes_below, bytes_app. split; apply le_bytes_bytes.
  - rewrite dval_app. fold (le_val (le_bytes 16 x)) (le_val (le_bytes 8 (x mod 2 ^ 64))) (le_val (le_bytes 8 (x / 2 ^ 64))).
    rewrite !le_val_le_bytes, le_bytes_length. change (256 ^ Z.of_nat 8) with (2 ^ 64). change (256 ^ Z.of_nat 16) with (2 ^ 64 * 2 ^ 64).
    rewrite Z.rem_mul_r, Z.mod_mod by lia. reflexivity.
Qed.

Lemma p64_tag_spec st s : hok64 (h64 st) -> 0 <= s < 2 ^ 128 -> pad64 st = (s mod 2 ^ 64, s / 2 ^ 64) ->
  is (le_bytes 16 (val3 (h64 st) mod p1305 + s)) (p64_tag st).
Proof.
  intros Hh Hs Hp. cbv delta [p64_tag]. destruct st as [r [[h0 h1] h2] pad]. cbv beta iota delta [h64 pad64] in *. subst pad.
  destruct Hh as [Hh0 [Hh1 Hh2]]. set (v := val3 (h0, h1, h2)).
  assert (Ev : v = h0 + 2 ^ 44 * h1 + 2 ^ 88 * h2) by reflexivity. clearbody v.
  lt c Ec; rewrite shr_div in Ec by lia. lt a1 Ea1; rewrite land_m44 in Ea1. dm h1 (2 ^ 44).
  lt a2 Ea2; unfold add64 in Ea2; rewrite w64_id in Ea2 by lia.
  lt c2 Ec2; rewrite shr_div in Ec2 by lia. lt b2 Eb2; rewrite land_m42 in Eb2. dm a2 (2 ^ 42).
  lt a0 Ea0; unfold add64, mul64 in Ea0; rewrite (w64_id (c2 * 5)), w64_id in Ea0 by lia.
  lt c3 Ec3; rewrite shr_div in Ec3 by lia. lt b0 Eb0; rewrite land_m44 in Eb0. dm a0 (2 ^ 44).
  lt b1 Eb1; unfold add64 in Eb1; rewrite w64_id in Eb1 by lia.
  lt c4 Ec4; rewrite shr_div in Ec4 by lia. lt d1 Ed1; rewrite land_m44 in Ed1. dm b1 (2 ^ 44).
  lt e2 Ee2; unfold add64 in Ee2; rewrite w64_id in Ee2 by lia.
  lt c5 Ec5; rewrite shr_div in Ec5 by lia. lt d2 Ed2; rewrite land_m42 in Ed2. dm e2 (2 ^ 42).
  lt e0 Ee0; unfold add64, mul64 in Ee0; rewrite (w64_id (c5 * 5)), w64_id in Ee0 by lia.
  lt c6 Ec6; rewrite shr_div in Ec6 by lia. lt d0 Ed0; rewrite land_m44 in Ed0. dm e0 (2 ^ 44).
  lt e1 Ee1; unfold add64 in Ee1; rewrite w64_id in Ee1 by lia.
  (* now (d0, e1, d2) is fully carried *)
  assert (B : 0 <= d0 < 2 ^ 44 /\ 0 <= e1 < 2 ^ 44 /\ 0 <= d2 < 2 ^ 42) by lia.
  assert (V : exists k, v = d0 + 2 ^ 44 * e1 + 2 ^ 88 * d2 + k * p1305).
  { exists (c2 + c5). unfold p1305. lia. }
  clear - B V Hs. destruct B as [B0 [B1 B2]]. destruct V as [k V]. set (w := d0 + 2 ^ 44 * e1 + 2 ^ 88 * d2) in *.
  assert (Ew : w = d0 + 2 ^ 44 * e1 + 2 ^ 88 * d2) by reflexivity. clearbody w.
  assert (VM : v mod p1305 = w mod p1305) by (rewrite V, Z.mod_add by (unfold p1305; lia); reflexivity).
  rewrite VM. clear V VM v k.
  lt g0 Eg0; unfold add64 in Eg0; rewrite w64_id in Eg0 by lia.
  lt c Ec; rewrite shr_div in Ec by lia. lt f0 Ef0; rewrite land_m44 in Ef0. dm g0 (2 ^ 44).
  lt g1 Eg1; unfold add64 in Eg1; rewrite w64_id in Eg1 by lia.
  lt c1 Ec1; rewrite shr_div in Ec1 by lia. lt f1 Ef1; rewrite land_m44 in Ef1. dm g1 (2 ^ 44).
  lt g2 Eg2. unfold add64, sub64 in Eg2. rewrite (w64_id (d2 + c1)) in Eg2 by lia. change (Z.shiftl 1 42) with (2 ^ 42) in Eg2.
  lt mk Emk. lt x0 Ex0. lt x1 Ex1. lt x2 Ex2. lt mn Emn. lt y0 Ey0. lt y1 Ey1. lt y2 Ey2.
  (* selection *)
  assert (SEL : exists z, z = w mod p1305 /\ z = y0 + 2 ^ 44 * y1 + 2 ^ 88 * y2 /\ 0 <= y0 < 2 ^ 44 /\ 0 <= y1 < 2 ^ 44 /\ 0 <= y2 < 2 ^ 42).
  { destruct (Z.ltb_spec (d2 + c1) (2 ^ 42)) as [L|L].
    - (* h < p *)
      assert (G2 : g2 = 2 ^ 64 + (d2 + c1) - 2 ^ 42).
      { rewrite Eg2. unfold w64. rewrite M64_eq. replace (d2 + c1 - 2 ^ 42) with (2 ^ 64 + (d2 + c1) - 2 ^ 42 + (-1) * 2 ^ 64) by lia.
        rewrite Z.mod_add by lia. apply Z.mod_small. lia. }
      assert (M : mk = 0).
      { rewrite Emk, shr_div by lia. replace (g2 / 2 ^ 63) with 1; [reflexivity|]. apply (Z.div_unique _ _ _ (g2 - 2 ^ 63)); lia. }
      rewrite M in Ex0, Ex1, Ex2, Emn. rewrite Z.land_0_r in Ex0, Ex1, Ex2. subst x0 x1 x2. rewrite Z.lor_0_r in Ey0, Ey1, Ey2.
      change (not64 0) with (2 ^ 64 - 1) in Emn. subst mn. rewrite land_all64 in Ey0, Ey1, Ey2 by lia.
      exists w. split; [symmetry; apply Z.mod_small; unfold p1305; lia|lia].
    - assert (G2 : g2 = d2 + c1 - 2 ^ 42) by (rewrite Eg2; apply w64_id; lia).
      assert (M : mk = 2 ^ 64 - 1).
      { rewrite Emk, shr_div by lia. rewrite (Z.div_small g2) by lia. reflexivity. }
      rewrite M in Ex0, Ex1, Ex2, Emn. rewrite land_all64 in Ex0, Ex1, Ex2 by lia. change (not64 (2 ^ 64 - 1)) with 0 in Emn. subst mn.
      rewrite Z.land_0_r, Z.lor_0_l in Ey0, Ey1, Ey2.
      exists (w - p1305). split; [|unfold p1305; lia].
      symmetry. replace (w mod p1305) with ((w - p1305 + 1 * p1305) mod p1305) by (f_equal; lia).
      rewrite Z.mod_add by (unfold p1305; lia). apply Z.mod_small. unfold p1305; lia. }
  destruct SEL as [z [Z1 [Z2 [Y0 [Y1 Y2]]]]]. rewrite <- Z1. clear - Hs Z2 Y0 Y1 Y2.
  (* adding the pad *)
  set (s0 := s mod 2 ^ 44). set (s1 := s / 2 ^ 44 mod 2 ^ 44). set (s2 := s / 2 ^ 88).
  assert (S : s = s0 + 2 ^ 44 * s1 + 2 ^ 88 * s2 /\ 0 <= s0 < 2 ^ 44 /\ 0 <= s1 < 2 ^ 44 /\ 0 <= s2 < 2 ^ 40).
  { unfold s0, s1, s2. change (2 ^ 88) with (2 ^ 44 * 2 ^ 44). rewrite <- Z.div_div by lia. dm s (2 ^ 44). dm (s / 2 ^ 44) (2 ^ 44). lia. }
  rewrite mid_limb by auto. rewrite hi_limb.
  lt h0 Eh0. rewrite low_land in Eh0 by (auto; split; [discriminate|reflexivity]). rewrite land_m44 in Eh0. fold s0 in Eh0.
  unfold add64 in Eh0. rewrite w64_id in Eh0 by lia.
  lt c Ec; rewrite shr_div in Ec by lia. lt k0 Ek0; rewrite land_m44 in Ek0. dm h0 (2 ^ 44).
  lt h1 Eh1. rewrite w64_land in Eh1 by (auto; split; [discriminate|reflexivity]). rewrite land_m44, shr_div in Eh1 by lia. fold s1 in Eh1.
  unfold add64 in Eh1. rewrite (w64_id (s1 + c)), w64_id in Eh1 by lia.
  lt c1 Ec1; rewrite shr_div in Ec1 by lia. lt k1 Ek1; rewrite land_m44 in Ek1. dm h1 (2 ^ 44).
  lt h2 Eh2. rewrite land_m42, shr_div in Eh2 by lia. fold s2 in Eh2. rewrite (Z.mod_small s2) in Eh2 by lia.
  unfold add64 in Eh2. rewrite (w64_id (s2 + c1)), w64_id in Eh2 by lia.
  lt k2 Ek2; rewrite land_m42 in Ek2. dm h2 (2 ^ 42).
  lt lo Elo. lt hi Ehi.
  assert (B : z + s = k0 + 2 ^ 44 * k1 + 2 ^ 88 * h2 /\ 0 <= k0 < 2 ^ 44 /\ 0 <= k1 < 2 ^ 44) by lia.
  destruct B as [B [K0 K1]]. clearbody s0 s1 s2. clear - B K0 K1 Ek2 Elo Ehi H3 H4.
  assert (F1 : lo = (z + s) mod 2 ^ 64).
  { rewrite Elo. unfold shl64, w64. rewrite shiftl_mul, M64_eq by lia.
    replace (k1 * 2 ^ 44 mod 2 ^ 64) with (Z.shiftl (k1 mod 2 ^ 20) 44).
    - rewrite Z.lor_comm, lor_shiftl_add by lia. rewrite B.
      dm k1 (2 ^ 20). apply (Z.mod_unique_pos _ _ (k1 / 2 ^ 20 + 2 ^ 24 * h2)); lia.
    - rewrite shiftl_mul by lia. change (2 ^ 64) with (2 ^ 20 * 2 ^ 44). rewrite Z.mul_mod_distr_r by lia. reflexivity. }
  assert (F2 : hi mod 2 ^ 64 = (z + s) / 2 ^ 64 mod 2 ^ 64).
  { rewrite Ehi. unfold shl64, w64. rewrite shiftl_mul, M64_eq, shr_div by lia.
    replace (k2 * 2 ^ 24 mod 2 ^ 64) with (Z.shiftl (k2 mod 2 ^ 40) 24).
    - rewrite Z.lor_comm. dm k1 (2 ^ 20). rewrite lor_shiftl_add by lia. rewrite B.
      replace (k2 mod 2 ^ 40) with (h2 mod 2 ^ 40).
      + replace ((k0 + 2 ^ 44 * k1 + 2 ^ 88 * h2) / 2 ^ 64) with (k1 / 2 ^ 20 + 2 ^ 24 * h2).
        * dm h2 (2 ^ 40). rewrite Z.mod_small by lia. apply (Z.mod_unique_pos _ _ (h2 / 2 ^ 40)); lia.
        * apply (Z.div_unique_pos _ _ _ (k0 + 2 ^ 44 * (k1 mod 2 ^ 20))); lia.
      + rewrite Ek2. change (2 ^ 42) with (2 ^ 40 * 2 ^ 2). rewrite Z.rem_mul_r by lia.
        rewrite Z.mul_comm, Z.mod_add, Z.mod_mod by lia. reflexivity.
    - rewrite shiftl_mul by lia. change (2 ^ 64) with (2 ^ 40 * 2 ^ 24). rewrite Z.mul_mod_distr_r by lia. reflexivity. }
  unfold is. rewrite !write64le_spec, F1, le_bytes_split. f_equal.
  apply (dval_inj 256); [lia| | |rewrite !le_bytes_length; reflexivity|]; [apply bytes_below, le_bytes_bytes..|].
  fold (le_val (le_bytes 8 hi)) (le_val (le_bytes 8 ((z + s) / 2 ^ 64))). rewrite !le_val_le_bytes. exact F2.
Qed.
