(* Poly1305 with 26-bit limbs *)
From Verif.Base Require Import Prelude.
From Verif.Model Require Import Bio Block Mac.
From Verif.Spec Require Import BlockSpec MacSpec.
From Verif.Proof Require Import BioProof BlockProof BufCrypt PolyProof Poly64.
#[local] Ltac Zify.zify_post_hook ::= idtac.

Lemma w32_id x : 0 <= x < 2 ^ 32 -> w32 x = x.
Proof. apply w32_small. Qed.

Definition val5 '((a, b, c, d, e) : Z * Z * Z * Z * Z) : Z := a + 2 ^ 26 * b + 2 ^ 52 * c + 2 ^ 78 * d + 2 ^ 104 * e.
Definition rok32 '((a, b, c, d, e) : Z * Z * Z * Z * Z) : Prop :=
  0 <= a < 2 ^ 26 /\ 0 <= b < 2 ^ 26 /\ 0 <= c < 2 ^ 26 /\ 0 <= d < 2 ^ 26 /\ 0 <= e < 2 ^ 20.
(* the second limb may exceed 26 bits by the last carry *)
Definition hok32 '((a, b, c, d, e) : Z * Z * Z * Z * Z) : Prop :=
  0 <= a < 2 ^ 26 /\ 0 <= b < 2 ^ 26 + 2 ^ 7 /\ 0 <= c < 2 ^ 26 /\ 0 <= d < 2 ^ 26 /\ 0 <= e < 2 ^ 26.

(* a 26-bit limb read at byte k, shifted by s *)
Lemma limb32 d k s n c : bytes d -> (k + 4 <= length d)%nat -> 0 <= s <= 8 -> 8 * Z.of_nat k + s = n -> 0 <= c < 2 ^ (32 - s) ->
  Z.land (shr (read32le (skipn k d)) s) c = Z.land (shr (le_val d) n) c.
Proof.
  intros Hb Hl Hs Hn Hc. rewrite read32_at by auto. unfold shr. apply Z.bits_inj'. intros m Hm.
  rewrite !Z.land_spec, !Z.shiftr_spec by lia. destruct (Z.ltb_spec m (32 - s)).
  - rewrite Z.mod_pow2_bits_low by lia. replace (256 ^ Z.of_nat k) with (2 ^ (8 * Z.of_nat k)) by (rewrite Z.pow_mul_r by lia; reflexivity).
    rewrite <- Z.shiftr_div_pow2 by lia. rewrite Z.shiftr_spec by lia. do 2 f_equal. lia.
  - rewrite (testbit_high c (32 - s) m) by lia. rewrite !andb_false_r. reflexivity.
Qed.

Definition post32 (st : p32) (T : Z) (st' : p32) : Prop :=
  r32 st' = r32 st /\ pad32 st' = pad32 st /\ hok32 (h32 st') /\
  val5 (h32 st') mod p1305 = ((val5 (h32 st) + T) * val5 (r32 st)) mod p1305.

Lemma w32_low26 x : Z.land (w32 x) m26 = x mod 2 ^ 26.
Proof.
  rewrite land_m26. unfold w32. rewrite M32_eq. change (2 ^ 32) with (2 ^ 26 * 2 ^ 6).
  rewrite Z.rem_mul_r by lia. rewrite Z.mul_comm, Z.mod_add, Z.mod_mod by lia. reflexivity.
Qed.

Lemma p32_block_spec st data (fin : bool) : bytes data -> length data = 16%nat -> rok32 (r32 st) -> hok32 (h32 st) ->
  post32 st (le_val data + if fin then 0 else 2 ^ 128) (p32_block st data fin).
Proof.
  intros Hb Hl Hr Hh. cbv delta [p32_block]. destruct st as [[[[[r0 r1] r2] r3] r4] [[[[h0 h1] h2] h3] h4] pad]. cbv beta iota delta [r32 h32 pad32] in *.
  set (st := mkP32 (r0, r1, r2, r3, r4) (h0, h1, h2, h3, h4) pad). set (T := le_val data).
  assert (HT : 0 <= T < 2 ^ 128) by (pose proof (le_val_range data Hb) as X; rewrite Hl in X; exact X).
  destruct Hr as [Hr0 [Hr1 [Hr2 [Hr3 Hr4]]]]. destruct Hh as [Hh0 [Hh1 [Hh2 [Hh3 Hh4]]]].
  set (n0 := T mod 2 ^ 26). set (n1 := T / 2 ^ 26 mod 2 ^ 26). set (n2 := T / 2 ^ 52 mod 2 ^ 26). set (n3 := T / 2 ^ 78 mod 2 ^ 26).
  set (n4 := T / 2 ^ 104 + (if fin then 0 else 2 ^ 24)).
  assert (L0 : Z.land (shr (read32le data) 0) m26 = n0).
  { pose proof (limb32 data 0 0 0 m26 Hb ltac:(lia) ltac:(lia) eq_refl ltac:(split; [discriminate|reflexivity])) as E. cbn [skipn] in E. rewrite E.
    rewrite land_m26, shr_div by lia. change (2 ^ 0) with 1. rewrite Z.div_1_r. reflexivity. }
  assert (L1 : Z.land (shr (read32le (skipn 3 data)) 2) m26 = n1).
  { rewrite (limb32 data 3 2 26) by (first [assumption | lia | split; [discriminate|reflexivity]]). rewrite land_m26, shr_div by lia. reflexivity. }
  assert (L2 : Z.land (shr (read32le (skipn 6 data)) 4) m26 = n2).
  { rewrite (limb32 data 6 4 52) by (first [assumption | lia | split; [discriminate|reflexivity]]). rewrite land_m26, shr_div by lia. reflexivity. }
  assert (L3 : Z.land (shr (read32le (skipn 9 data)) 6) m26 = n3).
  { rewrite (limb32 data 9 6 78) by (first [assumption | lia | split; [discriminate|reflexivity]]). rewrite land_m26, shr_div by lia. reflexivity. }
  assert (B4 : 0 <= T / 2 ^ 104 < 2 ^ 24) by (split; [apply Z.div_pos; lia|apply Z.div_lt_upper_bound; lia]).
  assert (L4 : Z.lor (shr (read32le (skipn 12 data)) 8) (if fin then 0 else Z.shiftl 1 24) = n4).
  { rewrite read32_at by (auto; lia). fold T. change (256 ^ Z.of_nat 12) with (2 ^ 96).
    rewrite (Z.mod_small (T / 2 ^ 96)) by (split; [apply Z.div_pos; lia|apply Z.div_lt_upper_bound; lia]).
    rewrite shr_div, Z.div_div by lia. change (2 ^ 96 * 2 ^ 8) with (2 ^ 104). unfold n4.
    destruct fin; [rewrite Z.lor_0_r; lia|]. rewrite Z.lor_comm, lor_shiftl_add by lia. rewrite Z.add_comm. reflexivity. }
  rewrite L0, L1, L2, L3. lt hib Ehib. rewrite <- Ehib in L4. rewrite L4. clear L0 L1 L2 L3 L4 Ehib hib.
  assert (HN : n0 + 2 ^ 26 * n1 + 2 ^ 52 * n2 + 2 ^ 78 * n3 + 2 ^ 104 * n4 = T + if fin then 0 else 2 ^ 128).
  { assert (E : n0 + 2 ^ 26 * n1 + 2 ^ 52 * n2 + 2 ^ 78 * n3 + 2 ^ 104 * (T / 2 ^ 104) = T).
    { unfold n0, n1, n2, n3. change (2 ^ 52) with (2 ^ 26 * 2 ^ 26). change (2 ^ 78) with (2 ^ 26 * 2 ^ 26 * 2 ^ 26).
      change (2 ^ 104) with (2 ^ 26 * 2 ^ 26 * 2 ^ 26 * 2 ^ 26). rewrite <- !Z.div_div by lia.
      dm T (2 ^ 26). dm (T / 2 ^ 26) (2 ^ 26). dm (T / 2 ^ 26 / 2 ^ 26) (2 ^ 26). dm (T / 2 ^ 26 / 2 ^ 26 / 2 ^ 26) (2 ^ 26). lia. }
    unfold n4. destruct fin; lia. }
  assert (B0 : 0 <= n0 < 2 ^ 26) by (apply Z.mod_pos_bound; lia). assert (B1 : 0 <= n1 < 2 ^ 26) by (apply Z.mod_pos_bound; lia).
  assert (B2 : 0 <= n2 < 2 ^ 26) by (apply Z.mod_pos_bound; lia). assert (B3 : 0 <= n3 < 2 ^ 26) by (apply Z.mod_pos_bound; lia).
  assert (B5 : 0 <= n4 < 2 ^ 25) by (unfold n4; destruct fin; lia). clear B4.
  clearbody n0 n1 n2 n3 n4.
  lt s1 Es1. lt s2 Es2. lt s3 Es3. lt s4 Es4. lt a0 Ea0. lt a1 Ea1. lt a2 Ea2. lt a3 Ea3. lt a4 Ea4.
  unfold mul32 in Es1, Es2, Es3, Es4. unfold add32 in Ea0, Ea1, Ea2, Ea3, Ea4.
  rewrite w32_id in Es1, Es2, Es3, Es4, Ea0, Ea1, Ea2, Ea3, Ea4 by lia.
  assert (A0 : 0 <= a0 <= 2 ^ 27) by lia. assert (A1 : 0 <= a1 <= 2 ^ 27 + 2 ^ 7) by lia. assert (A2 : 0 <= a2 <= 2 ^ 27) by lia.
  assert (A3 : 0 <= a3 <= 2 ^ 27) by lia. assert (A4 : 0 <= a4 <= 2 ^ 26 + 2 ^ 25) by lia.
  assert (S1 : 0 <= s1 <= 5 * 2 ^ 26) by lia. assert (S2 : 0 <= s2 <= 5 * 2 ^ 26) by lia. assert (S3 : 0 <= s3 <= 5 * 2 ^ 26) by lia. assert (S4 : 0 <= s4 <= 5 * 2 ^ 20) by lia.
  assert (R0 : 0 <= r0 <= 2 ^ 26) by lia. assert (R1 : 0 <= r1 <= 2 ^ 26) by lia. assert (R2 : 0 <= r2 <= 2 ^ 26) by lia. assert (R3 : 0 <= r3 <= 2 ^ 26) by lia. assert (R4 : 0 <= r4 <= 2 ^ 20) by lia.
  lt d0 Ed0.
  assert (F0 : d0 = a0 * r0 + a1 * s4 + a2 * s3 + a3 * s2 + a4 * s1 /\ 0 <= d0 < 2 ^ 53 * 17).
  { pose proof (mulb a0 r0 _ _ A0 R0) as Q0. pose proof (mulb a1 s4 _ _ A1 S4) as Q1. pose proof (mulb a2 s3 _ _ A2 S3) as Q2. pose proof (mulb a3 s2 _ _ A3 S2) as Q3. pose proof (mulb a4 s1 _ _ A4 S1) as Q4. clear - Ed0 Q0 Q1 Q2 Q3 Q4. rewrite w64_id in Ed0 by lia. lia. }
  lt d1 Ed1.
  assert (F1 : d1 = a0 * r1 + a1 * r0 + a2 * s4 + a3 * s3 + a4 * s2 /\ 0 <= d1 < 2 ^ 53 * 14).
  { pose proof (mulb a0 r1 _ _ A0 R1) as Q0. pose proof (mulb a1 r0 _ _ A1 R0) as Q1. pose proof (mulb a2 s4 _ _ A2 S4) as Q2. pose proof (mulb a3 s3 _ _ A3 S3) as Q3. pose proof (mulb a4 s2 _ _ A4 S2) as Q4. clear - Ed1 Q0 Q1 Q2 Q3 Q4. rewrite w64_id in Ed1 by lia. lia. }
  lt d2 Ed2.
  assert (F2 : d2 = a0 * r2 + a1 * r1 + a2 * r0 + a3 * s4 + a4 * s3 /\ 0 <= d2 < 2 ^ 53 * 10).
  { pose proof (mulb a0 r2 _ _ A0 R2) as Q0. pose proof (mulb a1 r1 _ _ A1 R1) as Q1. pose proof (mulb a2 r0 _ _ A2 R0) as Q2. pose proof (mulb a3 s4 _ _ A3 S4) as Q3. pose proof (mulb a4 s3 _ _ A4 S3) as Q4. clear - Ed2 Q0 Q1 Q2 Q3 Q4. rewrite w64_id in Ed2 by lia. lia. }
  lt d3 Ed3.
  assert (F3 : d3 = a0 * r3 + a1 * r2 + a2 * r1 + a3 * r0 + a4 * s4 /\ 0 <= d3 < 2 ^ 53 * 6).
  { pose proof (mulb a0 r3 _ _ A0 R3) as Q0. pose proof (mulb a1 r2 _ _ A1 R2) as Q1. pose proof (mulb a2 r1 _ _ A2 R1) as Q2. pose proof (mulb a3 r0 _ _ A3 R0) as Q3. pose proof (mulb a4 s4 _ _ A4 S4) as Q4. clear - Ed3 Q0 Q1 Q2 Q3 Q4. rewrite w64_id in Ed3 by lia. lia. }
  lt d4 Ed4.
  assert (F4 : d4 = a0 * r4 + a1 * r3 + a2 * r2 + a3 * r1 + a4 * r0 /\ 0 <= d4 < 2 ^ 53 * 5).
  { pose proof (mulb a0 r4 _ _ A0 R4) as Q0. pose proof (mulb a1 r3 _ _ A1 R3) as Q1. pose proof (mulb a2 r2 _ _ A2 R2) as Q2. pose proof (mulb a3 r1 _ _ A3 R1) as Q3. pose proof (mulb a4 r0 _ _ A4 R0) as Q4. clear - Ed4 Q0 Q1 Q2 Q3 Q4. rewrite w64_id in Ed4 by lia. lia. }
  destruct F0 as [Fd0 Bd0]. destruct F1 as [Fd1 Bd1]. destruct F2 as [Fd2 Bd2]. destruct F3 as [Fd3 Bd3]. destruct F4 as [Fd4 Bd4].
  assert (KEY : exists kk, (val5 (h0, h1, h2, h3, h4) + (T + if fin then 0 else 2 ^ 128)) * val5 (r0, r1, r2, r3, r4) =
    d0 + 2 ^ 26 * d1 + 2 ^ 52 * d2 + 2 ^ 78 * d3 + 2 ^ 104 * d4 + p1305 * kk).
  { exists (a1 * r4 + a2 * r3 + a3 * r2 + a4 * r1 + 2 ^ 26 * (a2 * r4 + a3 * r3 + a4 * r2) + 2 ^ 52 * (a3 * r4 + a4 * r3) + 2 ^ 78 * (a4 * r4)).
    unfold val5, p1305. rewrite <- HN. rewrite Fd0, Fd1, Fd2, Fd3, Fd4, Es1, Es2, Es3, Es4.
    replace (h0 + 2 ^ 26 * h1 + 2 ^ 52 * h2 + 2 ^ 78 * h3 + 2 ^ 104 * h4 + (n0 + 2 ^ 26 * n1 + 2 ^ 52 * n2 + 2 ^ 78 * n3 + 2 ^ 104 * n4))
      with (a0 + 2 ^ 26 * a1 + 2 ^ 52 * a2 + 2 ^ 78 * a3 + 2 ^ 104 * a4) by lia. ring. }
  destruct KEY as [kk KEY]. clear Ed0 Ed1 Ed2 Ed3 Ed4 Fd0 Fd1 Fd2 Fd3 Fd4 A0 A1 A2 A3 A4 S1 S2 S3 S4 R0 R1 R2 R3 R4.
  lt c0 Ec0; rewrite shr_div in Ec0 by lia. lt b0 Eb0; rewrite w32_low26 in Eb0. dm d0 (2 ^ 26). rewrite w32_id in Ec0 by lia.
  lt e1 Ee1; unfold add64 in Ee1; rewrite w64_id in Ee1 by lia.
  lt c1 Ec1; rewrite shr_div in Ec1 by lia. lt b1 Eb1; rewrite w32_low26 in Eb1. dm e1 (2 ^ 26). rewrite w32_id in Ec1 by lia.
  lt e2 Ee2; unfold add64 in Ee2; rewrite w64_id in Ee2 by lia.
  lt c2 Ec2; rewrite shr_div in Ec2 by lia. lt b2 Eb2; rewrite w32_low26 in Eb2. dm e2 (2 ^ 26). rewrite w32_id in Ec2 by lia.
  lt e3 Ee3; unfold add64 in Ee3; rewrite w64_id in Ee3 by lia.
  lt c3 Ec3; rewrite shr_div in Ec3 by lia. lt b3 Eb3; rewrite w32_low26 in Eb3. dm e3 (2 ^ 26). rewrite w32_id in Ec3 by lia.
  lt e4 Ee4; unfold add64 in Ee4; rewrite w64_id in Ee4 by lia.
  lt c4 Ec4; rewrite shr_div in Ec4 by lia. lt b4 Eb4; rewrite w32_low26 in Eb4. dm e4 (2 ^ 26). rewrite w32_id in Ec4 by lia.
  lt f0 Ef0; unfold add32, mul32 in Ef0; rewrite (w32_id (c4 * 5)), w32_id in Ef0 by lia.
  lt c5 Ec5; rewrite shr_div in Ec5 by lia. lt g0 Eg0; rewrite land_m26 in Eg0. dm f0 (2 ^ 26).
  lt g1 Eg1; unfold add32 in Eg1; rewrite w32_id in Eg1 by lia.
  unfold post32. cbn [r32 h32 pad32]. split; [reflexivity|]. split; [reflexivity|]. split; [unfold hok32; lia|].
  subst st. cbn [r32 h32]. rewrite KEY. clear KEY.
  transitivity ((val5 (g0, g1, b2, b3, b4) + (c4 + kk) * p1305) mod p1305); [rewrite Z.mod_add by (unfold p1305; lia); reflexivity|].
  f_equal. unfold val5, p1305. lia.
Qed.

Lemma p32_init_spec key : bytes key -> length key = 32%nat ->
  let st := p32_init key in
  let s := le_val (firstn 16 (skipn 16 key)) in
  rok32 (r32 st) /\ val5 (r32 st) = clamp key /\ h32 st = (0, 0, 0, 0, 0) /\
  pad32 st = (s mod 2 ^ 32, s / 2 ^ 32 mod 2 ^ 32, s / 2 ^ 64 mod 2 ^ 32, s / 2 ^ 96 mod 2 ^ 32).
Proof.
  intros Hb Hl. unfold p32_init. cbn [r32 h32 pad32].
  set (k1 := firstn 16 key). set (T := le_val k1).
  assert (L1 : length k1 = 16%nat) by (unfold k1; rewrite firstn_length; lia).
  assert (Hb1 : bytes k1) by (apply bytes_firstn; auto).
  assert (HT : 0 <= T < 2 ^ 128) by (pose proof (le_val_range k1 Hb1) as X; rewrite L1 in X; exact X).
  assert (LL : forall k s n c, (k + 4 <= 16)%nat -> 0 <= s <= 8 -> 8 * Z.of_nat k + s = n -> 0 <= c < 2 ^ (32 - s) ->
     Z.land (shr (read32le (skipn k key)) s) c = Z.land (shr T n) c).
  { intros k s n c X1 X2 X3 X4. pose proof (limb32 k1 k s n c Hb1 ltac:(lia) X2 X3 X4) as X. fold T in X. rewrite <- X. do 2 f_equal.
    rewrite !read32le_firstn by (auto using bytes_skipn; rewrite skipn_length; lia). f_equal.
    unfold k1. rewrite skipn_firstn_comm, firstn_firstn. f_equal. lia. }
  split; [|split; [|split; [reflexivity|]]].
  - unfold rok32. rewrite !(Z.land_comm (shr _ _)).
    repeat (split; [apply (land_range_l _ _ 26); lia|]). apply (land_range_l _ _ 20); lia.
  - unfold val5, clamp. rewrite (LL 3%nat 2 26), (LL 6%nat 4 52), (LL 9%nat 6 78), (LL 12%nat 8 104) by (first [lia | split; [discriminate|reflexivity]]).
    pose proof (LL 0%nat 0 0 0x3ffffff ltac:(lia) ltac:(lia) eq_refl ltac:(split; [discriminate|reflexivity])) as E. cbn [skipn] in E. rewrite E.
    change (shr T 0) with T. apply (clamp_limbs32 T HT).
  - set (k2 := firstn 16 (skipn 16 key)).
    assert (L2 : length k2 = 16%nat) by (unfold k2; rewrite firstn_length, skipn_length; lia).
    assert (Hb2 : bytes k2) by (apply bytes_firstn, bytes_skipn; auto).
    assert (HS : skipn 16 key = k2) by (unfold k2; symmetry; apply firstn_all2; rewrite skipn_length; lia).
    replace (skipn 20 key) with (skipn 4 k2) by (rewrite <- HS, <- BufCrypt.skipn_add; reflexivity).
    replace (skipn 24 key) with (skipn 8 k2) by (rewrite <- HS, <- BufCrypt.skipn_add; reflexivity).
    replace (skipn 28 key) with (skipn 12 k2) by (rewrite <- HS, <- BufCrypt.skipn_add; reflexivity). rewrite HS.
    rewrite !read32_at by (auto; lia). rewrite read32le_firstn by (auto; lia). rewrite le_val_firstn by (auto; lia). reflexivity.
Qed.

Lemma land_all32 x : 0 <= x < 2 ^ 32 -> Z.land x (2 ^ 32 - 1) = x.
Proof. intros H. rewrite land_mask by lia. apply Z.mod_small. auto. Qed.

(* packing two neighbouring limbs *)
Lemma pack32 x y i j : 0 <= x < 2 ^ 26 -> 0 <= y < 2 ^ 26 -> 0 <= i <= 18 -> j = 26 - i ->
  Z.land (Z.lor (shr x i) (shl32 y j)) 0xffffffff = (x / 2 ^ i + 2 ^ j * y) mod 2 ^ 32.
Proof.
  intros Hx Hy Hi ->. rewrite land_ff32. apply Z.bits_inj'. intros n Hn.
  assert (HXB : 0 <= x / 2 ^ i < 2 ^ (26 - i)).
  { split; [apply Z.div_pos; [lia|apply Z.pow_pos_nonneg; lia]|]. apply Z.div_lt_upper_bound; [apply Z.pow_pos_nonneg; lia|].
    rewrite <- Z.pow_add_r by lia. replace (i + (26 - i)) with 26 by lia. lia. }
  replace (x / 2 ^ i + 2 ^ (26 - i) * y) with (Z.lor (Z.shiftl y (26 - i)) (x / 2 ^ i)).
  2:{ rewrite lor_shiftl_add by (auto; lia). lia. }
  rewrite <- Z.shiftr_div_pow2 by lia. unfold shr, shl32.
  destruct (Z.ltb_spec n 32).
  - rewrite !Z.mod_pow2_bits_low by lia. rewrite !Z.lor_spec, testbit_w32 by lia. destruct (Z.ltb_spec n 32); [|lia]. cbn [andb]. apply orb_comm.
  - rewrite !Z.mod_pow2_bits_high by lia. reflexivity.
Qed.
Lemma p32_tag_spec st s : hok32 (h32 st) -> 0 <= s < 2 ^ 128 ->
  pad32 st = (s mod 2 ^ 32, s / 2 ^ 32 mod 2 ^ 32, s / 2 ^ 64 mod 2 ^ 32, s / 2 ^ 96 mod 2 ^ 32) ->
  is (le_bytes 16 (val5 (h32 st) mod p1305 + s)) (p32_tag st).
Proof.
  intros Hh Hs Hp. cbv delta [p32_tag]. destruct st as [r [[[[h0 h1] h2] h3] h4] pad]. cbv beta iota delta [h32 pad32] in *. subst pad.
  destruct Hh as [Hh0 [Hh1 [Hh2 [Hh3 Hh4]]]]. set (v := val5 (h0, h1, h2, h3, h4)).
  assert (Ev : v = h0 + 2 ^ 26 * h1 + 2 ^ 52 * h2 + 2 ^ 78 * h3 + 2 ^ 104 * h4) by reflexivity. clearbody v.
  lt c Ec; rewrite shr_div in Ec by lia. lt a1 Ea1; rewrite land_m26 in Ea1. dm h1 (2 ^ 26).
  lt a2 Ea2; unfold add32 in Ea2; rewrite w32_id in Ea2 by lia.
  lt c2 Ec2; rewrite shr_div in Ec2 by lia. lt b2 Eb2; rewrite land_m26 in Eb2. dm a2 (2 ^ 26).
  lt a3 Ea3; unfold add32 in Ea3; rewrite w32_id in Ea3 by lia.
  lt c3 Ec3; rewrite shr_div in Ec3 by lia. lt b3 Eb3; rewrite land_m26 in Eb3. dm a3 (2 ^ 26).
  lt a4 Ea4; unfold add32 in Ea4; rewrite w32_id in Ea4 by lia.
  lt c4 Ec4; rewrite shr_div in Ec4 by lia. lt b4 Eb4; rewrite land_m26 in Eb4. dm a4 (2 ^ 26).
  lt a0 Ea0; unfold add32, mul32 in Ea0; rewrite (w32_id (c4 * 5)), w32_id in Ea0 by lia.
  lt c5 Ec5; rewrite shr_div in Ec5 by lia. lt b0 Eb0; rewrite land_m26 in Eb0. dm a0 (2 ^ 26).
  lt b1 Eb1; unfold add32 in Eb1; rewrite w32_id in Eb1 by lia.
  assert (C4 : c = 0 \/ c = 1) by lia.
  assert (B : 0 <= b0 < 2 ^ 26 /\ 0 <= b1 < 2 ^ 26 /\ 0 <= b2 < 2 ^ 26 /\ 0 <= b3 < 2 ^ 26 /\ 0 <= b4 < 2 ^ 26) by (destruct C4; lia).
  assert (V : exists k, v = b0 + 2 ^ 26 * b1 + 2 ^ 52 * b2 + 2 ^ 78 * b3 + 2 ^ 104 * b4 + k * p1305).
  { exists c4. unfold p1305. lia. }
  clear - B V Hs. destruct B as [B0 [B1 [B2 [B3 B4]]]]. destruct V as [k V]. set (w := b0 + 2 ^ 26 * b1 + 2 ^ 52 * b2 + 2 ^ 78 * b3 + 2 ^ 104 * b4) in *.
  assert (Ew : w = b0 + 2 ^ 26 * b1 + 2 ^ 52 * b2 + 2 ^ 78 * b3 + 2 ^ 104 * b4) by reflexivity. clearbody w.
  assert (VM : v mod p1305 = w mod p1305) by (rewrite V, Z.mod_add by (unfold p1305; lia); reflexivity).
  rewrite VM. clear V VM v k.
  lt g0 Eg0; unfold add32 in Eg0; rewrite w32_id in Eg0 by lia.
  lt c0 Ec0; rewrite shr_div in Ec0 by lia. lt f0 Ef0; rewrite land_m26 in Ef0. dm g0 (2 ^ 26).
  lt g1 Eg1; unfold add32 in Eg1; rewrite w32_id in Eg1 by lia.
  lt c1 Ec1; rewrite shr_div in Ec1 by lia. lt f1 Ef1; rewrite land_m26 in Ef1. dm g1 (2 ^ 26).
  lt g2 Eg2; unfold add32 in Eg2; rewrite w32_id in Eg2 by lia.
  lt c2 Ec2; rewrite shr_div in Ec2 by lia. lt f2 Ef2; rewrite land_m26 in Ef2. dm g2 (2 ^ 26).
  lt g3 Eg3; unfold add32 in Eg3; rewrite w32_id in Eg3 by lia.
  lt c3 Ec3; rewrite shr_div in Ec3 by lia. lt f3 Ef3; rewrite land_m26 in Ef3. dm g3 (2 ^ 26).
  lt g4 Eg4. unfold add32, sub32 in Eg4. rewrite (w32_id (b4 + c3)) in Eg4 by lia. change (Z.shiftl 1 26) with (2 ^ 26) in Eg4.
  lt mk Emk. lt x0 Ex0. lt x1 Ex1. lt x2 Ex2. lt x3 Ex3. lt x4 Ex4. lt mn Emn. lt y0 Ey0. lt y1 Ey1. lt y2 Ey2. lt y3 Ey3. lt y4 Ey4.
  assert (SEL : exists z, z = w mod p1305 /\ z = y0 + 2 ^ 26 * y1 + 2 ^ 52 * y2 + 2 ^ 78 * y3 + 2 ^ 104 * y4 /\
     0 <= y0 < 2 ^ 26 /\ 0 <= y1 < 2 ^ 26 /\ 0 <= y2 < 2 ^ 26 /\ 0 <= y3 < 2 ^ 26 /\ 0 <= y4 < 2 ^ 26).
  { destruct (Z.ltb_spec (b4 + c3) (2 ^ 26)) as [L|L].
    - assert (G2 : g4 = 2 ^ 32 + (b4 + c3) - 2 ^ 26).
      { rewrite Eg4. unfold w32. rewrite M32_eq. replace (b4 + c3 - 2 ^ 26) with (2 ^ 32 + (b4 + c3) - 2 ^ 26 + (-1) * 2 ^ 32) by lia.
        rewrite Z.mod_add by lia. apply Z.mod_small. lia. }
      assert (M : mk = 0).
      { rewrite Emk, shr_div by lia. replace (g4 / 2 ^ 31) with 1; [reflexivity|]. apply (Z.div_unique _ _ _ (g4 - 2 ^ 31)); lia. }
      rewrite M in Ex0, Ex1, Ex2, Ex3, Ex4, Emn. rewrite Z.land_0_r in Ex0, Ex1, Ex2, Ex3, Ex4. subst x0 x1 x2 x3 x4.
      rewrite Z.lor_0_r in Ey0, Ey1, Ey2, Ey3, Ey4.
      change (not32 0) with (2 ^ 32 - 1) in Emn. subst mn. rewrite land_all32 in Ey0, Ey1, Ey2, Ey3, Ey4 by lia.
      exists w. split; [symmetry; apply Z.mod_small; unfold p1305; lia|lia].
    - assert (G2 : g4 = b4 + c3 - 2 ^ 26) by (rewrite Eg4; apply w32_id; lia).
      assert (M : mk = 2 ^ 32 - 1).
      { rewrite Emk, shr_div by lia. rewrite (Z.div_small g4) by lia. reflexivity. }
      rewrite M in Ex0, Ex1, Ex2, Ex3, Ex4, Emn. rewrite land_all32 in Ex0, Ex1, Ex2, Ex3, Ex4 by lia.
      change (not32 (2 ^ 32 - 1)) with 0 in Emn. subst mn.
      rewrite Z.land_0_r, Z.lor_0_l in Ey0, Ey1, Ey2, Ey3, Ey4.
      exists (w - p1305). split; [|unfold p1305; lia].
      symmetry. replace (w mod p1305) with ((w - p1305 + 1 * p1305) mod p1305) by (f_equal; lia).
      rewrite Z.mod_add by (unfold p1305; lia). apply Z.mod_small. unfold p1305; lia. }
  destruct SEL as [z [Z1 [Z2 [Y0 [Y1 [Y2 [Y3 Y4]]]]]]]. rewrite <- Z1. clear - Hs Z2 Y0 Y1 Y2 Y3 Y4.
  (* 32-bit words of z mod 2^128 *)
  lt q0 Eq0. change (Z.lor y0) with (Z.lor (shr y0 0)) in Eq0. rewrite (pack32 y0 y1 0 26) in Eq0 by lia.
  lt q1 Eq1. rewrite (pack32 y1 y2 6 20) in Eq1 by lia. lt q2 Eq2. rewrite (pack32 y2 y3 12 14) in Eq2 by lia.
  lt q3 Eq3. rewrite (pack32 y3 y4 18 8) in Eq3 by lia.
  assert (Q : exists t, z = q0 + 2 ^ 32 * q1 + 2 ^ 64 * q2 + 2 ^ 96 * q3 + 2 ^ 128 * t /\
     0 <= q0 < 2 ^ 32 /\ 0 <= q1 < 2 ^ 32 /\ 0 <= q2 < 2 ^ 32 /\ 0 <= q3 < 2 ^ 32).
  { change (2 ^ 0) with 1 in *. rewrite Z.div_1_r in Eq0.
    dm (y0 + 2 ^ 26 * y1) (2 ^ 32). dm (y1 / 2 ^ 6 + 2 ^ 20 * y2) (2 ^ 32). dm (y2 / 2 ^ 12 + 2 ^ 14 * y3) (2 ^ 32). dm (y3 / 2 ^ 18 + 2 ^ 8 * y4) (2 ^ 32).
    dm y1 (2 ^ 6). dm y2 (2 ^ 12). dm y3 (2 ^ 18). 
    exists ((y3 / 2 ^ 18 + 2 ^ 8 * y4) / 2 ^ 32). 
    assert (E1 : (y0 + 2 ^ 26 * y1) / 2 ^ 32 = y1 / 2 ^ 6) by (symmetry; apply (Z.div_unique_pos _ _ _ (y0 + 2 ^ 26 * (y1 mod 2 ^ 6))); lia).
    assert (E2 : (y1 / 2 ^ 6 + 2 ^ 20 * y2) / 2 ^ 32 = y2 / 2 ^ 12) by (symmetry; apply (Z.div_unique_pos _ _ _ (y1 / 2 ^ 6 + 2 ^ 20 * (y2 mod 2 ^ 12))); lia).
    assert (E3 : (y2 / 2 ^ 12 + 2 ^ 14 * y3) / 2 ^ 32 = y3 / 2 ^ 18) by (symmetry; apply (Z.div_unique_pos _ _ _ (y2 / 2 ^ 12 + 2 ^ 14 * (y3 mod 2 ^ 18))); lia).
    rewrite E1, E2, E3 in *. lia. }
  destruct Q as [t [Z3 [Q0 [Q1 [Q2 Q3]]]]]. clear - Z3 Q0 Q1 Q2 Q3 Hs.
  set (s0 := s mod 2 ^ 32). set (s1 := s / 2 ^ 32 mod 2 ^ 32). set (s2 := s / 2 ^ 64 mod 2 ^ 32). set (s3 := s / 2 ^ 96 mod 2 ^ 32).
  assert (S : s = s0 + 2 ^ 32 * s1 + 2 ^ 64 * s2 + 2 ^ 96 * s3 /\ 0 <= s0 < 2 ^ 32 /\ 0 <= s1 < 2 ^ 32 /\ 0 <= s2 < 2 ^ 32 /\ 0 <= s3 < 2 ^ 32).
  { unfold s0, s1, s2, s3. change (2 ^ 64) with (2 ^ 32 * 2 ^ 32). change (2 ^ 96) with (2 ^ 32 * 2 ^ 32 * 2 ^ 32). rewrite <- !Z.div_div by lia.
    dm s (2 ^ 32). dm (s / 2 ^ 32) (2 ^ 32). dm (s / 2 ^ 32 / 2 ^ 32) (2 ^ 32). rewrite (Z.mod_small (s / 2 ^ 32 / 2 ^ 32 / 2 ^ 32)) by lia. lia. }
  clearbody s0 s1 s2 s3.
  lt f Ef; rewrite w64_id in Ef by lia. lt o0 Eo0. unfold w32 in Eo0. rewrite M32_eq in Eo0. rewrite shr_div by lia. dm f (2 ^ 32).
  lt f1 Ef1; rewrite w64_id in Ef1 by lia. lt o1 Eo1. unfold w32 in Eo1. rewrite M32_eq in Eo1. rewrite shr_div by lia. dm f1 (2 ^ 32).
  lt f2 Ef2; rewrite w64_id in Ef2 by lia. lt o2 Eo2. unfold w32 in Eo2. rewrite M32_eq in Eo2. rewrite shr_div by lia. dm f2 (2 ^ 32).
  lt f3 Ef3; rewrite w64_id in Ef3 by lia. lt o3 Eo3. unfold w32 in Eo3. rewrite M32_eq in Eo3. dm f3 (2 ^ 32).
  unfold is. rewrite !write32le_spec.
  assert (OB : 0 <= o0 < 2 ^ 32 /\ 0 <= o1 < 2 ^ 32 /\ 0 <= o2 < 2 ^ 32 /\ 0 <= o3 < 2 ^ 32) by lia.
  assert (OV : z + s = o0 + 2 ^ 32 * o1 + 2 ^ 64 * o2 + 2 ^ 96 * o3 + 2 ^ 128 * (t + f3 / 2 ^ 32)) by lia.
  clear - OB OV. destruct OB as [O0 [O1 [O2 O3]]].
  apply (dval_inj 256); [lia| | | |].
  - apply bytes_below. rewrite !bytes_app. repeat split; apply le_bytes_bytes.
  - apply bytes_below, le_bytes_bytes.
  - rewrite !app_length, !le_bytes_length. reflexivity.
  - rewrite !dval_app, !le_bytes_length.
    change (dval 256) with le_val. rewrite !le_val_le_bytes. change (256 ^ Z.of_nat 4) with (2 ^ 32). change (256 ^ Z.of_nat 16) with (2 ^ 128).
    rewrite !(Z.mod_small _ (2 ^ 32)) by lia. apply (Z.mod_unique_pos _ _ (t + f3 / 2 ^ 32)); lia.
Qed.
