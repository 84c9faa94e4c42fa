(* import and export of integers as byte strings (C56) *)
From Verif.Base Require Import Prelude.
From Verif.Model Require Import Encoding Hash Mpn Mpz MpzStr.
From Verif.Proof Require Import MpnProof MpnShift MpnDiv MpzProof.
Lemma digits_app b m n x : 0 < b -> digits b (m + n) x = digits b m x ++ digits b n (x / b ^ Z.of_nat m).
Proof.
  intros H. revert x. induction m as [|m IH]; intros x; cbn [Nat.add digits app].
  - change (Z.of_nat 0) with 0. rewrite Z.pow_0_r, Z.div_1_r. reflexivity.
  - rewrite IH. f_equal. f_equal. f_equal. replace (Z.of_nat (S m)) with (1 + Z.of_nat m) by lia. rewrite Z.pow_add_r, Z.pow_1_r, Z.div_div by (try lia; apply Z.pow_pos_nonneg; lia). reflexivity.
Qed.
Lemma digits_mod b n x y : 0 < b -> x mod b ^ Z.of_nat n = y mod b ^ Z.of_nat n -> digits b n x = digits b n y.
Proof. intros H E. apply (dval_inj b); try (apply digits_below; exact H); try exact H; [rewrite !digits_length; reflexivity|]. rewrite !dval_digits by exact H. exact E. Qed.
Lemma digits_0 b n : 0 < b -> digits b n 0 = repeat 0 n.
Proof. intros H. induction n as [|n IH]; [reflexivity|]. cbn [digits repeat]. rewrite Z.mod_0_l, Z.div_0_l, IH by lia. reflexivity. Qed.
Section Import.
Variable w : Z.
Variable k : nat.
Hypothesis Hk : (0 < k)%nat.
Hypothesis Wk : w = 8 * Z.of_nat k.
Lemma Hw : 0 < w. Proof. lia. Qed.
Notation B := (LB w).
Notation limb := (below (LB w)).
Notation limbs := (Forall (below (LB w))).
Notation val := (dval (LB w)).
Lemma lb_k : limb_bytes w = k.
Proof. unfold limb_bytes. rewrite Wk, Z.mul_comm, Z.div_mul by lia. lia. Qed.
Lemma pow256 n : 0 <= n -> 256 ^ n = 2 ^ (8 * n). Proof. intros H. rewrite Z.pow_mul_r by lia. reflexivity. Qed.
Lemma B_256 : B = 256 ^ Z.of_nat k. Proof. unfold LB. rewrite pow256 by lia. rewrite Wk. reflexivity. Qed.
Lemma B_pow n : B ^ Z.of_nat n = 256 ^ Z.of_nat (k * n). Proof. rewrite B_256, <- Z.pow_mul_r by lia. f_equal. lia. Qed.
Lemma or_bytes_val : forall l i, bytes l -> 0 <= i -> i + 8 * Z.of_nat (length l) <= w -> or_bytes w l i = le_val l * 2 ^ i.
Proof.
  induction l as [|b l IH]; intros i Hl Hi Hle; cbn [or_bytes].
  - reflexivity.
  - pose proof (Forall_inv Hl) as Hb. pose proof (Forall_inv_tail Hl) as Hl'. cbn [length] in Hle. rewrite IH by (assumption || lia). unfold byte in Hb. change (le_val (b :: l)) with (b + 256 * le_val l).
    rewrite Z.shiftl_mul_pow2 by lia. rewrite (tr_small w).
    + rewrite Z.pow_add_r by lia. change (2 ^ 8) with 256. replace (le_val l * (2 ^ i * 256)) with ((le_val l * 256) * 2 ^ i) by ring. rewrite <- !Z.shiftl_mul_pow2 by lia. rewrite <- Z.shiftl_lor. rewrite !Z.shiftl_mul_pow2 by lia.
      pose proof (lor_add_low (le_val l) b 8 ltac:(lia) Hb) as LA. change (2 ^ 8) with 256 in LA. rewrite LA. ring.
    + unfold below, LB. split; [apply Z.mul_nonneg_nonneg; [lia|apply Z.pow_nonneg; lia]|]. apply Z.lt_le_trans with (2 ^ (8 + i)).
      * rewrite Z.pow_add_r by lia. change (2 ^ 8) with 256. pose proof (Z.pow_pos_nonneg 2 i eq_refl Hi). nia.
      * apply Z.pow_le_mono_r; lia.
Qed.
Lemma le_limb l : bytes l -> (length l <= k)%nat -> limb (le_val l).
Proof.
  intros Hl L. pose proof (le_val_range l Hl) as R. unfold below. rewrite B_256. pose proof (Z.pow_le_mono_r 256 (Z.of_nat (length l)) (Z.of_nat k)). lia.
Qed.
Lemma byte_fold : forall l z j, bytes l -> 0 <= z < 256 ^ Z.of_nat j -> (j + length l <= k)%nat -> fold_left (fun z b => Z.lor (tr w (Z.shiftl z 8)) b) l z = z * 256 ^ Z.of_nat (length l) + be_val l.
Proof.
  induction l as [|b l IH]; intros z j Hl Hz Hj; cbn [fold_left].
  - cbn [length]. change (Z.of_nat 0) with 0. rewrite Z.pow_0_r. unfold be_val. cbn [rev dval]. lia.
  - pose proof (Forall_inv Hl) as Hb. pose proof (Forall_inv_tail Hl) as Hl'. cbn [length] in Hj. unfold byte in Hb. assert (P : 256 ^ Z.of_nat (S j) = 256 * 256 ^ Z.of_nat j) by (rewrite Nat2Z.inj_succ, Z.pow_succ_r by lia; reflexivity).
    assert (E : Z.lor (tr w (Z.shiftl z 8)) b = z * 256 + b).
    { rewrite Z.shiftl_mul_pow2 by lia. change (2 ^ 8) with 256. rewrite (tr_small w).
      - exact (lor_add_low z b 8 ltac:(lia) Hb).
      - unfold below. rewrite B_256. pose proof (Z.pow_le_mono_r 256 (Z.of_nat (S j)) (Z.of_nat k)). lia. }
    rewrite E. rewrite (IH _ (S j)) by (assumption || lia). unfold be_val. cbn [rev length]. rewrite dval_app, rev_length. cbn [dval]. rewrite Nat2Z.inj_succ, Z.pow_succ_r by lia. ring.
Qed.
Lemma import_le_ok : forall zn x, bytes x -> (length x <= k * zn)%nat -> let z := mpn_import_le w zn x in length z = zn /\ limbs z /\ val z = le_val x.
Proof.
  induction zn as [|zn IH]; intros x Hx L; cbn [mpn_import_le].
  - destruct x; [|cbn [length] in L; lia]. split; [reflexivity|split; [constructor|reflexivity]].
  - rewrite lb_k. destruct (Nat.leb_spec k (length x)) as [G|G].
    + destruct (IH (skipn k x)) as (L1 & L2 & L3); [apply Forall_skipn; exact Hx|rewrite skipn_length; lia|]. assert (F : bytes (firstn k x)) by (apply Forall_firstn; exact Hx). assert (FL : length (firstn k x) = k) by (rewrite firstn_length; lia).
      assert (E : mp_import_le w (firstn k x) = le_val (firstn k x)) by (unfold mp_import_le; rewrite or_bytes_val; [rewrite Z.pow_0_r; lia|exact F|lia|rewrite FL; lia]). cbn [length]. split; [rewrite L1; reflexivity|]. split.
      * constructor; [rewrite E; apply le_limb; [exact F|lia]|exact L2].
      * cbn [dval]. rewrite L3, E, B_256. rewrite <- (firstn_skipn k x) at 3. unfold le_val. rewrite dval_app, FL. reflexivity.
    + destruct (Nat.ltb_spec 0 (length x)) as [N|N].
      * assert (BR : bytes (rev x)) by (apply Forall_rev; exact Hx). rewrite (byte_fold (rev x) 0 0) by (try exact BR; try (rewrite rev_length; lia); cbn; lia). cbn [length]. rewrite repeat_length. split; [reflexivity|]. unfold be_val. rewrite rev_involutive. fold (le_val x). split.
        -- constructor; [apply le_limb; [exact Hx|lia]|]. apply Forall_forall. intros y Hy. apply repeat_spec in Hy. subst y. exact (limb0 w Hw).
        -- cbn [dval]. rewrite dval_repeat0. ring.
      * destruct x; [|cbn [length] in N; lia]. rewrite repeat_length. split; [reflexivity|]. split; [|rewrite dval_repeat0; reflexivity]. apply Forall_forall. intros y Hy. apply repeat_spec in Hy. subst y. exact (limb0 w Hw).
Qed.
Lemma import_be_rev : forall zn x, mpn_import_be w zn x = mpn_import_le w zn (rev x).
Proof.
  induction zn as [|zn IH]; intros x; cbn [mpn_import_be mpn_import_le]; [reflexivity|]. rewrite rev_length, rev_involutive. destruct (Nat.leb_spec (limb_bytes w) (length x)) as [G|G]; [|reflexivity]. unfold mp_import_be, mp_import_le. f_equal.
  - rewrite firstn_rev. reflexivity.
  - rewrite IH. rewrite skipn_rev. reflexivity.
Qed.
Lemma import_be_ok zn x : bytes x -> (length x <= k * zn)%nat -> let z := mpn_import_be w zn x in length z = zn /\ limbs z /\ val z = be_val x.
Proof. intros Hx L. rewrite import_be_rev. apply (import_le_ok zn (rev x)); [apply Forall_rev; exact Hx|rewrite rev_length; exact L]. Qed.
Lemma map_bytes : forall n x s, map (fun j => Z.land (Z.shiftr x (8 * Z.of_nat j)) 255) (seq s n) = digits 256 n (x / 256 ^ Z.of_nat s).
Proof.
  induction n as [|n IH]; intros x s; cbn [seq map digits]; [reflexivity|]. rewrite IH, land_255, Z.shiftr_div_pow2, <- pow256 by lia. f_equal. f_equal. rewrite Nat2Z.inj_succ, Z.pow_succ_r by lia. rewrite Z.mul_comm, Z.div_div by (try lia; apply Z.pow_pos_nonneg; lia). reflexivity.
Qed.
Lemma export_limb x : mp_export_le w x = digits 256 k x.
Proof. unfold mp_export_le. rewrite lb_k, map_bytes. change (Z.of_nat 0) with 0. rewrite Z.pow_0_r, Z.div_1_r. reflexivity. Qed.
Lemma byte_loop_ok : forall n x, byte_loop x n = digits 256 n x.
Proof. induction n as [|n IH]; intros x; cbn [byte_loop digits]; [reflexivity|]. rewrite IH, land_255, Z.shiftr_div_pow2 by lia. reflexivity. Qed.
Lemma export_le_ok : forall x zn, limbs x -> mpn_export_le w zn x = le_bytes zn (val x).
Proof.
  induction x as [|a x IH]; intros zn Hx; cbn [mpn_export_le].
  - unfold le_bytes. cbn [dval]. symmetry. apply digits_0. lia.
  - pose proof (Forall_inv Hx) as Ha. pose proof (Forall_inv_tail Hx) as Hx'. unfold below in Ha. rewrite lb_k. cbn [dval]. unfold le_bytes. destruct (Nat.leb_spec k zn) as [G|G].
    + replace zn with (k + (zn - k))%nat at 2 by lia. rewrite digits_app by lia. rewrite export_limb, IH by exact Hx'. unfold le_bytes. rewrite <- B_256. f_equal.
      * apply digits_mod; [lia|]. rewrite <- B_256. rewrite (Z.mul_comm B (val x)), Z.mod_add by lia. reflexivity.
      * rewrite (Z.mul_comm B (val x)), Z.div_add, Z.div_small by lia. reflexivity.
    + rewrite byte_loop_ok. apply digits_mod; [lia|]. set (V := val x). rewrite B_256. replace (Z.of_nat k) with (Z.of_nat (k - zn) + Z.of_nat zn) by lia. rewrite Z.pow_add_r by lia.
      replace (a + 256 ^ Z.of_nat (k - zn) * 256 ^ Z.of_nat zn * V) with (a + (256 ^ Z.of_nat (k - zn) * V) * 256 ^ Z.of_nat zn) by ring. rewrite Z.mod_add by (apply Z.pow_nonzero; lia). reflexivity.
Qed.
Lemma byte_loop_rev : forall n x, byte_loop_be x n = rev (byte_loop x n).
Proof. induction n as [|n IH]; intros x; cbn [byte_loop byte_loop_be rev]; [reflexivity|]. rewrite IH. reflexivity. Qed.
Lemma rev_repeat (a : Z) n : rev (repeat a n) = repeat a n.
Proof. induction n as [|n IH]; [reflexivity|]. cbn [repeat rev]. rewrite IH. clear IH. induction n as [|n IH]; [reflexivity|]. cbn [repeat app]. rewrite IH. reflexivity. Qed.
Lemma export_be_rev : forall x zn, mpn_export_be w zn x = rev (mpn_export_le w zn x).
Proof.
  induction x as [|a x IH]; intros zn; cbn [mpn_export_be mpn_export_le]; [symmetry; apply rev_repeat|]. destruct (Nat.leb_spec (limb_bytes w) zn); [|apply byte_loop_rev]. rewrite rev_app_distr, IH. f_equal. unfold mp_export_be, mp_export_le. rewrite map_rev. reflexivity.
Qed.
Lemma export_be_ok x zn : limbs x -> mpn_export_be w zn x = be_bytes zn (val x).
Proof. intros H. rewrite export_be_rev, export_le_ok by exact H. reflexivity. Qed.
(* the bit length of a normalised array *)
Lemma top_bits l : limbs l -> l <> [] -> last l 0 <> 0 -> let b := Z.of_nat (length l) * w - mp_clz w (nth (length l - 1) l 0) in 2 ^ (b - 1) <= val l < 2 ^ b /\ 0 < b /\ b <= Z.of_nat (length l) * w.
Proof.
  intros Hl N T. assert (EN : nth (length l - 1) l 0 = last l 0) by (clear - N; destruct (exists_last N) as (r & a & ->); rewrite last_last, app_length, app_nth2 by (cbn [length]; lia); cbn [length]; replace (length r + 1 - 1 - length r)%nat with 0%nat by lia; reflexivity).
  rewrite EN. pose proof (val_last w Hw l N Hl) as V. pose proof (last_limb w l Hl N) as TL. unfold below in TL. set (t := last l 0) in *. unfold mp_clz, mp_bitlen. destruct (Z.eqb_spec t 0) as [C|_]; [contradiction|]. assert (T0 : 0 < t) by lia.
  pose proof (Z.log2_spec t T0) as (G1 & G2). pose proof (Z.log2_nonneg t) as G0. assert (GW : Z.log2 t < w) by (apply Z.log2_lt_pow2; [exact T0|exact (proj2 TL)]). assert (LN : (1 <= length l)%nat) by (destruct l; [contradiction|cbn [length]; lia]). set (m := (length l - 1)%nat) in *.
  assert (EL : Z.of_nat (length l) = Z.of_nat m + 1) by lia. rewrite EL. cbn zeta. replace ((Z.of_nat m + 1) * w - (w - (Z.log2 t + 1))) with (w * Z.of_nat m + (Z.log2 t + 1)) by ring. assert (EB : B ^ Z.of_nat m = 2 ^ (w * Z.of_nat m)) by (unfold LB; rewrite Z.pow_mul_r by lia; reflexivity). rewrite EB in V.
  assert (PP : 0 < 2 ^ (w * Z.of_nat m)) by (apply Z.pow_pos_nonneg; nia). split; [|split; nia]. replace (w * Z.of_nat m + (Z.log2 t + 1) - 1) with (w * Z.of_nat m + Z.log2 t) by ring. rewrite !Z.pow_add_r by nia. change (2 ^ 1) with 2. rewrite Z.pow_succ_r in G2 by lia. nia.
Qed.
Lemma bitlen_ok x v : isz w x v -> mpz_bitlen w x = if v =? 0 then 0 else Z.log2 (Z.abs v) + 1.
Proof.
  intros [(neg & l & -> & N & NZ) V]. rewrite (mkz_zval w) in V by exact NZ. unfold mpz_bitlen. rewrite (lm_mkz neg l). destruct l as [|a l].
  - cbn [length Nat.eqb]. unfold sg in V. rewrite (NZ eq_refl) in V. cbn [dval] in V. subst v. reflexivity.
  - set (L := a :: l) in *. assert (NL : L <> []) by discriminate. assert (LL : (length L =? 0)%nat = false) by reflexivity. rewrite LL. pose proof (proj1 (normal_last w Hw L (proj1 N)) N) as [C|T]; [contradiction|]. pose proof (top_bits L (proj1 N) NL T) as (R & P & _).
    set (b := Z.of_nat (length L) * w - mp_clz w (nth (length L - 1) L 0)) in *. pose proof (Z.pow_pos_nonneg 2 (b - 1) eq_refl ltac:(lia)) as PP. assert (AV : Z.abs v = val L) by (subst v; unfold sg; destruct neg; lia). destruct (Z.eqb_spec v 0) as [C|_]; [lia|]. rewrite AV.
    rewrite (Z.log2_unique (val L) (b - 1)); [lia|lia|]. replace (Z.succ (b - 1)) with b by lia. exact R.
Qed.
Definition bytes_of (v : Z) : Z := ((if v =? 0 then 0 else Z.log2 (Z.abs v) + 1) + 7) / 8.
Lemma mpz_import_ok raw e : bytes raw -> e = 1 \/ e = -1 -> okz w (mpz_import w raw e) (if e =? 1 then be_val raw else le_val raw).
Proof.
  intros Hr He. unfold mpz_import. rewrite lb_k. set (zn := ((length raw + k - 1) / k)%nat). assert (LZ : (length raw <= k * zn)%nat). { subst zn. pose proof (Nat.div_mod (length raw + k - 1) k ltac:(lia)). pose proof (Nat.mod_upper_bound (length raw + k - 1) k ltac:(lia)). lia. }
  destruct (Nat.eqb_spec zn 0) as [Z0|Z0].
  - assert (raw = []) as -> by (destruct raw; [reflexivity|cbn [length] in LZ; lia]). destruct (e =? 1); exact (okz_z w _ _ (isz_0 w)).
  - unfold mpn_import. destruct He as [-> | ->]; cbn [Z.eqb Pos.eqb bind].
    + destruct (import_be_ok zn raw Hr LZ) as (L1 & L2 & L3). destruct (stripped_spec w Hw _ L2) as (N & V). apply okz_mkz; [exact N|]. unfold sg. rewrite V. exact L3.
    + destruct (import_le_ok zn raw Hr LZ) as (L1 & L2 & L3). destruct (stripped_spec w Hw _ L2) as (N & V). apply okz_mkz; [exact N|]. unfold sg. rewrite V. exact L3.
Qed.
Lemma mpz_export_ok x v n e : isz w x v -> e = 1 \/ e = -1 ->
  mpz_export w x n e = if bytes_of v <=? Z.of_nat n then Ok (if e =? 1 then be_bytes n (Z.abs v) else le_bytes n (Z.abs v)) else Abort.
Proof.
  intros Hx He. unfold mpz_export, mpz_bytelen. rewrite (bitlen_ok x v Hx). fold (bytes_of v). destruct Hx as [(neg & l & -> & N & NZ) V]. rewrite (mkz_zval w) in V by exact NZ. pose proof (val_range w Hw l (proj1 N)) as R. assert (AV : Z.abs v = val l) by (subst v; unfold sg; destruct neg; lia).
  destruct (bytes_of v <=? Z.of_nat n); [|reflexivity]. unfold mpn_export. rewrite (lm_mkz neg l), AV. destruct He as [-> | ->]; cbn [Z.eqb Pos.eqb]; [rewrite export_be_ok|rewrite export_le_ok]; try exact (proj1 N); reflexivity.
Qed.
Lemma bytes_of_spec v n : bytes_of v <= Z.of_nat n <-> Z.abs v < 256 ^ Z.of_nat n.
Proof.
  unfold bytes_of. rewrite pow256 by lia. destruct (Z.eqb_spec v 0) as [->|N].
  - cbn [Z.abs]. change ((0 + 7) / 8) with 0. pose proof (Z.pow_pos_nonneg 2 (8 * Z.of_nat n) eq_refl ltac:(lia)). lia.
  - set (b := Z.log2 (Z.abs v)). assert (P : 0 < Z.abs v) by lia. pose proof (Z.log2_nonneg (Z.abs v)). fold b in H. split; intros G.
    + apply Z.log2_lt_pow2; [exact P|]. fold b. pose proof (Z.div_mod (b + 1 + 7) 8 ltac:(lia)). pose proof (Z.mod_pos_bound (b + 1 + 7) 8 ltac:(lia)). lia.
    + apply Z.log2_lt_pow2 in G; [|exact P]. fold b in G. assert ((b + 1 + 7) / 8 < Z.of_nat n + 1) by (apply Z.div_lt_upper_bound; lia). lia.
Qed.
End Import.
