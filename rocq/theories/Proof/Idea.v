(* IDEA: multiplication modulo 65537, its two forms, and decryption inverting encryption *)
From Coq Require Import Znumtheory.
From Verif.Base Require Import Prelude.
From Verif.Model Require Import Encoding Bio Util Hash Blowfish Ciphers64 Ciphers128.
From Verif.Proof Require Import BioProof BlowfishProof FinInv CipherGen Cipher64 Fermat PrimesProof.

Lemma prime_65537 : prime 65537.
Proof.
  apply prime_alt. split; [lia|]. intros d Hd D.
  assert (C : forallb (fun d => negb (65537 mod d =? 0)) (zseq 2 255) = true) by (vm_compute; reflexivity).
  assert (K : forall d, 1 < d -> (d | 65537) -> 256 < d).
  { intros e He De. destruct (Z.lt_ge_cases 256 e) as [L|L]; [exact L|exfalso]. pose proof (forall_zseq _ 2 255 C e ltac:(lia)) as Q. cbv beta in Q.
    apply negb_true_iff, Z.eqb_neq in Q. apply Q. apply Z.mod_divide; [lia|exact De]. }
  destruct D as [e He]. assert (E1 : 1 < e) by (clear - He Hd; nia). pose proof (K d ltac:(lia) (ex_intro _ e He)) as K1.
  assert (He' : 65537 = d * e) by lia. pose proof (K e E1 (ex_intro _ d He')) as K2. clear - K1 K2 He. nia.
Qed.
(* the residue a 16-bit word stands for *)
Definition res (x : Z) : Z := if x =? 0 then 65536 else x.
Lemma res_range x : hword x -> 1 <= res x <= 65536.
Proof. unfold hword, M16, res. destruct (Z.eqb_spec x 0); lia. Qed.
Lemma idea_one_res x : hword x -> idea_one x = res x.
Proof.
  intros H. unfold idea_one, res. destruct (Z.eqb_spec x 0) as [->|N]; [vm_compute; reflexivity|]. unfold hword, M16 in H.
  replace (w64 (x - 1)) with (x - 1) by (symmetry; apply Z.mod_small; unfold M64; lia).
  unfold shr. rewrite Z.shiftr_div_pow2 by lia. rewrite (Z.div_small (x - 1)) by (change (2 ^ 63) with 9223372036854775808; lia).
  change (w64 (- 0)) with 0. rewrite Z.land_0_r, Z.lor_0_r. reflexivity.
Qed.
Lemma nz_mod a b : a mod 65537 <> 0 -> b mod 65537 <> 0 -> (a * b) mod 65537 <> 0.
Proof.
  intros Ha Hb E. apply Z.mod_divide in E; [|lia]. apply (prime_mult 65537 prime_65537) in E. destruct E as [E|E]; apply Z.mod_divide in E; try lia.
Qed.
Lemma res_nz x : hword x -> res x mod 65537 <> 0.
Proof. intros H. pose proof (res_range x H). rewrite Z.mod_small by lia. lia. Qed.
Lemma res_w16 z : 1 <= z <= 65536 -> res (w16 z) = z.
Proof.
  intros H. unfold res, w16, M16. destruct (Z.eq_dec z 65536) as [->|N]; [reflexivity|]. rewrite Z.mod_small by lia. replace (z =? 0) with false by lia. reflexivity.
Qed.
Lemma w16_res x : hword x -> w16 (res x) = x.
Proof. intros H. unfold res, hword, w16, M16 in *. destruct (Z.eqb_spec x 0) as [->|N]; [reflexivity|]. apply Z.mod_small. exact H. Qed.
Lemma res_inj x y : hword x -> hword y -> res x = res y -> x = y.
Proof. intros Hx Hy E. rewrite <- (w16_res x Hx), <- (w16_res y Hy), E. reflexivity. Qed.
Lemma mul_spec x y : hword x -> hword y -> idea_mul x y = w16 ((res x * res y) mod 65537).
Proof.
  intros Hx Hy. unfold idea_mul. rewrite !idea_one_res by assumption. pose proof (res_range x Hx). pose proof (res_range y Hy). f_equal. f_equal.
  apply Z.mod_small. unfold M64. nia.
Qed.
Lemma mul_res x y : hword x -> hword y -> res (idea_mul x y) = (res x * res y) mod 65537.
Proof.
  intros Hx Hy. rewrite mul_spec by assumption. apply res_w16. pose proof (nz_mod _ _ (res_nz x Hx) (res_nz y Hy)). pose proof (Z.mod_pos_bound (res x * res y) 65537). lia.
Qed.
Lemma mul_hword x y : hword (idea_mul x y).
Proof. apply hword_mod. Qed.
Lemma inv_iter x n : 0 <= x < 65537 -> Nat.iter n (fun z => w64 (z * z * x) mod 65537) x = (x ^ (2 ^ Z.of_nat (S n) - 1)) mod 65537.
Proof.
  intros Hx. induction n as [|n IH].
  - cbn [Nat.iter nat_rect]. change (2 ^ Z.of_nat 1 - 1) with 1. rewrite Z.pow_1_r. symmetry. apply Z.mod_small. exact Hx.
  - change (Nat.iter (S n) (fun z => w64 (z * z * x) mod 65537) x) with (w64 (Nat.iter n (fun z => w64 (z * z * x) mod 65537) x * Nat.iter n (fun z => w64 (z * z * x) mod 65537) x * x) mod 65537).
    rewrite IH. set (e := 2 ^ Z.of_nat (S n) - 1). assert (He : 0 <= e) by (unfold e; pose proof (Z.pow_pos_nonneg 2 (Z.of_nat (S n)) ltac:(lia) ltac:(lia)); lia).
    pose proof (Z.mod_pos_bound (x ^ e) 65537 eq_refl) as B. set (m := (x ^ e) mod 65537) in *. unfold w64. rewrite (Z.mod_small (m * m * x) M64) by (unfold M64; nia).
    replace (2 ^ Z.of_nat (S (S n)) - 1) with (e + e + 1) by (unfold e; rewrite (Nat2Z.inj_succ (S n)), Z.pow_succ_r by lia; lia).
    rewrite !Z.pow_add_r, Z.pow_1_r by lia. unfold m. rewrite (Z.mul_mod (_ * _) x), (Z.mul_mod (x ^ e mod 65537)), !Z.mod_mod by lia.
    rewrite <- (Z.mul_mod (x ^ e)), <- (Z.mul_mod _ x) by lia. reflexivity.
Qed.
Lemma inv_hword x : hword (idea_inv x).
Proof. apply hword_mod. Qed.
Lemma inv_spec x : hword x -> (res (idea_inv x) * res x) mod 65537 = 1.
Proof.
  intros H. unfold idea_inv. destruct (Z.eq_dec x 0) as [->|N]; [vm_compute; reflexivity|]. unfold hword, M16 in H.
  rewrite inv_iter by lia. change (2 ^ Z.of_nat 16 - 1) with 65535. assert (R : res x = x) by (unfold res; replace (x =? 0) with false by lia; reflexivity).
  assert (NZ : x mod 65537 <> 0) by (rewrite Z.mod_small; lia).
  pose proof (fermat 65537 x prime_65537 NZ) as F. change (65537 - 1) with (Z.succ 65535) in F. rewrite Z.pow_succ_r in F by lia.
  assert (M : 1 <= x ^ 65535 mod 65537 <= 65536).
  { pose proof (Z.mod_pos_bound (x ^ 65535) 65537 eq_refl). destruct (Z.eq_dec (x ^ 65535 mod 65537) 0) as [E|E]; [|lia].
    rewrite Z.mul_mod, E, Z.mul_0_r in F by lia. discriminate F. }
  rewrite res_w16 by exact M. rewrite R. rewrite Zmult_mod_idemp_l, Z.mul_comm. exact F.
Qed.
Lemma mul_inv x k : hword x -> hword k -> idea_mul (idea_mul x k) (idea_inv k) = x.
Proof.
  intros Hx Hk. apply res_inj; [apply mul_hword|exact Hx|]. rewrite mul_res by auto using mul_hword, inv_hword. rewrite mul_res by assumption.
  rewrite Zmult_mod_idemp_l, <- Z.mul_assoc, (Z.mul_comm (res k)), <- Zmult_mod_idemp_r, (inv_spec k Hk), Z.mul_1_r. apply Z.mod_small. pose proof (res_range x Hx). lia.
Qed.
(* ---- the version without a wide modulo is the same function ---- *)
Lemma mask32 x : 0 <= x <= 65535 -> w32 (- shr (w32 (x - 1)) 31) = if x =? 0 then 0xffffffff else 0.
Proof.
  intros H. destruct (Z.eqb_spec x 0) as [->|N]; [vm_compute; reflexivity|]. unfold w32. rewrite (Z.mod_small (x - 1)) by (unfold M32; lia).
  unfold shr. rewrite Z.shiftr_div_pow2 by lia. rewrite Z.div_small by (change (2 ^ 31) with 2147483648; lia). reflexivity.
Qed.
Lemma land_all x : word x -> Z.land x 0xffffffff = x.
Proof. intros H. change 0xffffffff with (Z.ones 32). rewrite Z.land_ones by lia. apply Z.mod_small. exact H. Qed.
Theorem mul_variants x y : hword x -> hword y -> idea_mul_32 x y = idea_mul x y.
Proof.
  intros Hx Hy. rewrite mul_spec by assumption. pose proof (nz_mod _ _ (res_nz x Hx) (res_nz y Hy)) as NZ. unfold hword, M16 in Hx, Hy. unfold idea_mul_32. cbv zeta.
  rewrite !mask32 by lia. unfold mul32. replace (w32 (x * y)) with (x * y) by (symmetry; apply Z.mod_small; unfold M32; nia).
  destruct (Z.eqb_spec y 0) as [->|Ny].
  - rewrite Z.mul_0_r. change (w32 (Z.land 0 65535 - shr 0 16 + (if Z.land 0 65535 <? shr 0 16 then 1 else 0))) with 0. rewrite Z.lor_0_l, land_all by apply word_mod.
    change (w32 (1 - 0)) with 1. unfold res at 2. change (0 =? 0) with true. cbv iota.
    assert (E : (res x * 65536) mod 65537 = 65537 - res x).
    { symmetry. apply (Z.mod_unique_pos _ _ (res x - 1)); [|lia]. unfold res. destruct (x =? 0) eqn:E; lia. }
    rewrite E. unfold res. destruct (Z.eqb_spec x 0) as [->|Nx]; [vm_compute; reflexivity|]. rewrite Z.land_0_r, Z.lor_0_r.
    unfold w16, w32, M16, M32. replace (65537 - x) with (1 - x + 1 * 65536) by lia. rewrite Z_mod_plus_full. 
    rewrite <- (Znumtheory.Zmod_div_mod 65536 4294967296 (1 - x)); [reflexivity|lia|lia|exists 65536; reflexivity].
  - rewrite Z.land_0_r, Z.lor_0_r. destruct (Z.eqb_spec x 0) as [->|Nx].
    + rewrite Z.mul_0_l. change (w32 (Z.land 0 65535 - shr 0 16 + (if Z.land 0 65535 <? shr 0 16 then 1 else 0))) with 0. rewrite Z.lor_0_l, land_all by apply word_mod.
      unfold res. change (0 =? 0) with true. cbv iota. replace (y =? 0) with false by lia.
      assert (E : (65536 * y) mod 65537 = 65537 - y) by (symmetry; apply (Z.mod_unique_pos _ _ (y - 1)); lia). rewrite E.
      unfold w16, w32, M16, M32. replace (65537 - y) with (1 - y + 1 * 65536) by lia. rewrite Z_mod_plus_full.
      rewrite <- (Znumtheory.Zmod_div_mod 65536 4294967296 (1 - y)); [reflexivity|lia|lia|exists 65536; reflexivity].
    + rewrite Z.land_0_r, Z.lor_0_r. unfold res in *. replace (x =? 0) with false in * by lia. replace (y =? 0) with false in * by lia.
      set (p := x * y) in *. assert (Hp : 0 <= p < 4294967296) by (unfold p; nia). clearbody p. clear - Hp NZ.
      change 65535 with (Z.ones 16). rewrite Z.land_ones by lia. unfold shr. rewrite Z.shiftr_div_pow2 by lia. change (2 ^ 16) with 65536.
      pose proof (Z.div_mod p 65536 ltac:(lia)) as D. pose proof (Z.mod_pos_bound p 65536 eq_refl) as B. assert (Q : 0 <= p / 65536 < 65536) by (split; [apply Z.div_pos; lia|apply Z.div_lt_upper_bound; lia]).
      set (hi := p / 65536) in *. set (lo := p mod 65536) in *. clearbody hi lo. destruct (Z.ltb_spec lo hi) as [C|C].
      * assert (E : p mod 65537 = lo - hi + 65537) by (symmetry; apply (Z.mod_unique_pos _ _ (hi - 1)); lia). rewrite E in *. unfold w16, w32, M16, M32.
        rewrite <- (Znumtheory.Zmod_div_mod 65536 4294967296) by (try lia; exists 65536; reflexivity). replace (lo - hi + 65537) with (lo - hi + 1 + 1 * 65536) by lia. rewrite Z_mod_plus_full. reflexivity.
      * assert (E : p mod 65537 = lo - hi) by (symmetry; apply (Z.mod_unique_pos _ _ hi); lia). rewrite E in *. rewrite Z.add_0_r. unfold w16, w32, M16, M32.
        rewrite (Z.mod_small (lo - hi) 4294967296) by lia. reflexivity.
Qed.
Lemma inv32_iter x n : hword x -> let a := Nat.iter n (fun z => idea_mul_32 (idea_mul_32 z z) x) x in hword a /\ res a = (res x ^ (2 ^ Z.of_nat (S n) - 1)) mod 65537.
Proof.
  intros Hx. cbv zeta. induction n as [|n [IH1 IH2]].
  - cbn [Nat.iter nat_rect]. split; [exact Hx|]. change (2 ^ Z.of_nat 1 - 1) with 1. rewrite Z.pow_1_r. symmetry. apply Z.mod_small. pose proof (res_range x Hx). lia.
  - change (Nat.iter (S n) (fun z => idea_mul_32 (idea_mul_32 z z) x) x) with
      (idea_mul_32 (idea_mul_32 (Nat.iter n (fun z => idea_mul_32 (idea_mul_32 z z) x) x) (Nat.iter n (fun z => idea_mul_32 (idea_mul_32 z z) x) x)) x).
    set (a := Nat.iter n (fun z => idea_mul_32 (idea_mul_32 z z) x) x) in *. clearbody a. rewrite (mul_variants a a) by assumption. rewrite mul_variants by auto using mul_hword.
    split; [apply mul_hword|]. rewrite mul_res by auto using mul_hword. rewrite mul_res by assumption. rewrite IH2.
    set (e := 2 ^ Z.of_nat (S n) - 1). assert (He : 0 <= e) by (unfold e; pose proof (Z.pow_pos_nonneg 2 (Z.of_nat (S n)) ltac:(lia) ltac:(lia)); lia).
    replace (2 ^ Z.of_nat (S (S n)) - 1) with (e + e + 1) by (unfold e; rewrite (Nat2Z.inj_succ (S n)), Z.pow_succ_r by lia; lia).
    rewrite !Z.pow_add_r, Z.pow_1_r by lia. rewrite <- (Z.mul_mod (res x ^ e)) by lia. rewrite Zmult_mod_idemp_l. reflexivity.
Qed.
Theorem inv_variants x : hword x -> idea_inv_32 x = idea_inv x.
Proof.
  intros H. destruct (Z.eq_dec x 0) as [->|N]; [vm_compute; reflexivity|].
  pose proof (inv32_iter x 15 H) as A. cbv zeta in A. remember (2 ^ Z.of_nat 16 - 1) as e eqn:Ee. destruct A as [A1 A2].
  unfold idea_inv_32. set (a := Nat.iter 15 _ x) in *. clearbody a. apply res_inj; [exact A1|apply inv_hword|]. rewrite A2.
  unfold idea_inv. assert (R : res x = x) by (unfold res; replace (x =? 0) with false by lia; reflexivity). rewrite R in *. unfold hword, M16 in H.
  rewrite inv_iter by (clear - H; lia). rewrite <- Ee, <- A2. symmetry. apply res_w16. apply res_range. exact A1.
Qed.

(* ---- the rounds ---- *)
Definition KA (a b c d : Z) (x : quad) : quad := let '(x1, x2, x3, x4) := x in (idea_mul x1 a, w16 (x2 + b), w16 (x3 + c), idea_mul x4 d).
Definition PM (x : quad) : quad := let '(x1, x2, x3, x4) := x in (x1, x3, x2, x4).
Definition MA (e f : Z) (x : quad) : quad :=
  let '(x1, x2, x3, x4) := x in
  let y3 := idea_mul (Z.lxor x3 x1) e in
  let y2 := idea_mul (w16 (Z.lxor x2 x4 + y3)) f in
  let z3 := w16 (y3 + y2) in
  (Z.lxor x1 y2, Z.lxor x2 z3, Z.lxor x3 y2, Z.lxor x4 z3).
Lemma round_split K x i : idea_round K x i = PM (MA (rd K (6 * i + 4)) (rd K (6 * i + 5)) (KA (rd K (6 * i + 0)) (rd K (6 * i + 1)) (rd K (6 * i + 2)) (rd K (6 * i + 3)) x)).
Proof. destruct x as [[[x1 x2] x3] x4]. unfold idea_round, KA, MA, PM. cbv zeta. rewrite (Z.lxor_comm (idea_mul _ (rd K (6 * i + 5)))), (Z.lxor_comm (w16 (_ + idea_mul _ (rd K (6 * i + 5))))). reflexivity. Qed.
Lemma hword_xor a b : hword a -> hword b -> hword (Z.lxor a b).
Proof. unfold hword. change M16 with (2 ^ 16). apply lxor_range. lia. Qed.
Lemma MA_ok e f x : hquad x -> hquad (MA e f x).
Proof. destruct x as [[[x1 x2] x3] x4]. intros (A & B & C & D). unfold MA. cbv zeta. split; [|split; [|split]]; apply hword_xor; auto using hword_mod, mul_hword. Qed.
Lemma KA_ok a b c d x : hquad (KA a b c d x).
Proof. destruct x as [[[x1 x2] x3] x4]. unfold KA. split; [|split; [|split]]; auto using hword_mod, mul_hword. Qed.
Lemma PM_ok x : hquad x -> hquad (PM x).
Proof. destruct x as [[[x1 x2] x3] x4]. intros (A & B & C & D). exact (conj A (conj C (conj B D))). Qed.
Lemma PM_PM x : PM (PM x) = x.
Proof. destruct x as [[[x1 x2] x3] x4]. reflexivity. Qed.
Lemma xor_same a b y : Z.lxor (Z.lxor a y) (Z.lxor b y) = Z.lxor a b.
Proof. apply Z.bits_inj'. intros i _. rewrite !Z.lxor_spec. destruct (Z.testbit a i), (Z.testbit b i), (Z.testbit y i); reflexivity. Qed.
Lemma MA_MA e f x : MA e f (MA e f x) = x.
Proof.
  destruct x as [[[x1 x2] x3] x4]. unfold MA. cbv zeta. set (y3 := idea_mul (Z.lxor x3 x1) e). set (y2 := idea_mul (w16 (Z.lxor x2 x4 + y3)) f). set (z3 := w16 (y3 + y2)).
  rewrite !xor_same. fold y3. fold y2. fold z3. rewrite !xx. reflexivity.
Qed.
Lemma neg_inv x k : hword x -> w16 (w16 (x + k) + neg16 k) = x.
Proof. intros H. unfold neg16, w16. rewrite Zplus_mod_idemp_l, Zplus_mod_idemp_r. replace (x + k + - k) with x by lia. apply Z.mod_small. exact H. Qed.
Lemma KA_inv a b c d x : hword a -> hword d -> hquad x -> KA (idea_inv a) (neg16 b) (neg16 c) (idea_inv d) (KA a b c d x) = x.
Proof. intros Ha Hd. destruct x as [[[x1 x2] x3] x4]. intros (A & B & C & D). unfold KA. rewrite !mul_inv, !neg_inv by assumption. reflexivity. Qed.
Lemma KA_inv_swap a b c d x : hword a -> hword d -> hquad x -> KA (idea_inv a) (neg16 c) (neg16 b) (idea_inv d) (PM (KA a b c d x)) = PM x.
Proof. intros Ha Hd. destruct x as [[[x1 x2] x3] x4]. intros (A & B & C & D). unfold KA, PM. rewrite !mul_inv, !neg_inv by assumption. reflexivity. Qed.
Lemma KA_inv_PM a b c d x : hword a -> hword d -> hquad x -> KA (idea_inv a) (neg16 b) (neg16 c) (idea_inv d) (PM (PM (KA a b c d x))) = x.
Proof. intros. rewrite PM_PM. apply KA_inv; assumption. Qed.
Definition KAi (K : list Z) (i : nat) : quad -> quad := KA (rd K (6 * i + 0)) (rd K (6 * i + 1)) (rd K (6 * i + 2)) (rd K (6 * i + 3)).
Definition MAi (K : list Z) (i : nat) : quad -> quad := MA (rd K (6 * i + 4)) (rd K (6 * i + 5)).
Lemma words_split K x : idea_words K x = KAi K 8 (PM (fold_left (idea_round K) (seq 0 8) x)).
Proof. unfold idea_words. destruct (fold_left _ _ _) as [[[x1 x2] x3] x4]. reflexivity. Qed.
Section Run.
  Variable K : list Z.
  Hypothesis HK : Forall hword K.
  Let D := idea_init_decrypt K.
  Lemma kword i : hword (rd K i).
  Proof. apply (rd_all hword K i HK). unfold hword, M16. lia. Qed.
  Lemma round_ok x i : hquad (idea_round K x i).
  Proof. rewrite round_split. apply PM_ok, MA_ok, KA_ok. Qed.
  (* the first round of decryption *)
  Lemma first_step x : hquad x -> idea_round D (KAi K 8 (PM (idea_round K x 7))) 0 = PM (KAi K 7 x).
  Proof.
    intros W. rewrite (round_split D).
    change (rd D (6 * 0 + 0)) with (idea_inv (rd K 48)). change (rd D (6 * 0 + 1)) with (neg16 (rd K 49)). change (rd D (6 * 0 + 2)) with (neg16 (rd K 50)).
    change (rd D (6 * 0 + 3)) with (idea_inv (rd K 51)). change (rd D (6 * 0 + 4)) with (rd K 46). change (rd D (6 * 0 + 5)) with (rd K 47).
    unfold KAi at 1. cbn [Nat.mul Nat.add]. rewrite KA_inv by first [apply kword | apply PM_ok, round_ok]. rewrite round_split, PM_PM. cbn [Nat.mul Nat.add]. rewrite MA_MA. reflexivity.
  Qed.
  (* round j of decryption undoes round 7 - j *)
  Lemma next_step j x : (1 <= j <= 7)%nat -> hquad x -> idea_round D (PM (KAi K (8 - j) (idea_round K x (7 - j)))) j = PM (KAi K (7 - j) x).
  Proof.
    intros Hj W. rewrite (round_split D). unfold KAi at 1.
    assert (Q : rd D (6 * j + 0) = idea_inv (rd K (6 * (8 - j) + 0)) /\ rd D (6 * j + 1) = neg16 (rd K (6 * (8 - j) + 2)) /\ rd D (6 * j + 2) = neg16 (rd K (6 * (8 - j) + 1)) /\
      rd D (6 * j + 3) = idea_inv (rd K (6 * (8 - j) + 3)) /\ rd D (6 * j + 4) = rd K (6 * (7 - j) + 4) /\ rd D (6 * j + 5) = rd K (6 * (7 - j) + 5)).
    { do 8 (destruct j as [|j]; [try lia; repeat split; reflexivity|]). lia. }
    destruct Q as (Q0 & Q1 & Q2 & Q3 & Q4 & Q5). rewrite Q0, Q1, Q2, Q3, Q4, Q5. rewrite KA_inv_swap by first [apply kword | apply round_ok].
    rewrite round_split, PM_PM, MA_MA. reflexivity.
  Qed.
  Theorem idea_words_inv x : hquad x -> hquad (idea_words K x) /\ idea_words D (idea_words K x) = x.
  Proof.
    intros W. split; [rewrite words_split; apply KA_ok|].
    assert (P : forall n j, (j + n = 7)%nat -> forall y, hquad y -> fold_left (idea_round D) (seq j (S n)) (PM (KAi K (8 - j) (fold_left (idea_round K) (seq 0 (8 - j)) y))) = PM (KAi K 0 y) \/ j = 0%nat).
    { induction n as [|n IH]; intros j Hj y Wy.
      - left. assert (j = 7)%nat by lia. subst j. cbn [seq fold_left Nat.sub]. apply (next_step 7 y); [lia|exact Wy].
      - destruct j as [|j]; [right; reflexivity|left]. cbn [seq fold_left]. replace (8 - S j)%nat with (S (7 - S j)) at 2 by lia. rewrite seq_S, fold_left_app. cbn [fold_left Nat.add].
        rewrite next_step; [|lia|]. 2:{ generalize (7 - S j)%nat. intros m. destruct m; [exact Wy|]. rewrite seq_S, fold_left_app. apply round_ok. }
        destruct (IH (S (S j)) ltac:(lia) y Wy) as [Q|Q]; [|discriminate Q]. cbn [seq fold_left] in Q. replace (7 - S j)%nat with (8 - S (S j))%nat by lia. exact Q. }
    rewrite !words_split. change (seq 0 8) with (0%nat :: seq 1 7) at 1. cbn [fold_left].
    replace (fold_left (idea_round K) (seq 0 8) x) with (idea_round K (fold_left (idea_round K) (seq 0 7) x) 7) by reflexivity.
    assert (W7 : hquad (fold_left (idea_round K) (seq 0 7) x)) by (change (seq 0 7) with (seq 0 6 ++ [6%nat]); rewrite fold_left_app; apply round_ok).
    rewrite first_step by exact W7. destruct (P 6%nat 1%nat eq_refl x W) as [Q|Q]; [|discriminate Q]. cbn [Nat.sub] in Q.
    change (8 - 1)%nat with 7%nat in Q. rewrite Q. unfold KAi at 1. 
    change (rd D (6 * 8 + 0)) with (idea_inv (rd K 0)). change (rd D (6 * 8 + 1)) with (neg16 (rd K 1)). change (rd D (6 * 8 + 2)) with (neg16 (rd K 2)). change (rd D (6 * 8 + 3)) with (idea_inv (rd K 3)).
    unfold KAi. cbn [Nat.mul Nat.add]. rewrite KA_inv_PM by first [apply kword | exact W]. reflexivity.
  Qed.
End Run.
Lemma upd_all (P : Z -> Prop) l : forall i v, Forall P l -> P v -> Forall P (upd l i v).
Proof. induction l as [|a l IH]; intros i v H Hv; [destruct i; exact H|]. inversion H as [|? ? Ha Hl]; subst. destruct i; cbn [upd]; constructor; auto. Qed.
Lemma expand_hwords n : forall K off i, Forall hword K -> Forall hword (idea_expand n K off i).
Proof. induction n as [|n IH]; intros K off i H; [exact H|]. cbn [idea_expand]. apply IH. apply upd_all; [exact H|apply hword_mod]. Qed.
Theorem idea_roundtrip key src : bytes key -> bytes src -> length src = 8%nat ->
  let c := idea_init key in idea_decrypt c (idea_encrypt c src) = src /\ idea_encrypt c (idea_decrypt c src) = src.
Proof.
  intros Hk Hs L. cbv zeta. unfold idea_decrypt, idea_encrypt, idea_init. cbv zeta. cbn [enckey deckey].
  assert (HK : Forall hword (idea_init_encrypt key)).
  { unfold idea_init_encrypt. apply expand_hwords. apply Forall_app. split; apply Forall_forall; intros x Hx.
    - apply in_map_iff in Hx. destruct Hx as (i & <- & _). apply (f_range _ _ _ _ fmt16be), bytes_skipn, Hk.
    - apply repeat_spec in Hx. subst x. unfold hword, M16. lia. }
  generalize dependent (idea_init_encrypt key). intros K HK.
  exact (block_inverse 8 hquad (ld4h read16be) (st4h write16be) (idea_words K) (idea_words (idea_init_decrypt K)) (fmt_ld4h _ _ fmt16be) (idea_words_inv K HK) src Hs L).
Qed.
