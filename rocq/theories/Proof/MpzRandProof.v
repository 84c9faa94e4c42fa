(* Random integers: which draws give which values. *)
From Verif.Base Require Import Prelude.
From Verif.Model Require Import Encoding Hash Mpn Mpz MpzRand.
From Verif.Proof Require Import MpnProof MpnShift MpnDiv MpzProof MpzImport EdCodec.
Section Rand.
Variable w : Z.
Hypothesis Hw : 0 < w.
Notation B := (LB w).
Notation limb := (below (LB w)).
Notation limbs := (Forall (below (LB w))).
Notation val := (dval (LB w)).
Lemma B_pos : 0 < B. Proof. unfold LB. apply Z.pow_pos_nonneg; lia. Qed.
(* the value of a draw of n limbs with the top limb shifted *)
Definition cut (n : nat) (s D : Z) : Z := let T := B ^ Z.of_nat (n - 1) in D mod T + T * (D / T / 2 ^ s).
Lemma split_val (d : list Z) m : length d = S m -> limbs d -> let T := B ^ Z.of_nat m in val (firstn m d) = val d mod T /\ nth m d 0 = val d / T /\ limbs (firstn m d) /\ limb (nth m d 0) /\ 0 < T.
Proof.
  intros L H T. pose proof B_pos as BP. assert (TP : 0 < T) by (apply Z.pow_pos_nonneg; lia). assert (E := EdCodec.le_split d m L). assert (LF : length (firstn m d) = m) by (rewrite firstn_length; lia).
  assert (HF : limbs (firstn m d)) by (apply Forall_firstn; exact H). assert (HT : limb (nth m d 0)) by (rewrite Forall_forall in H; apply H, nth_In; lia).
  assert (V : val d = val (firstn m d) + T * nth m d 0). { rewrite E at 1. rewrite dval_app, LF. cbn [dval]. unfold T. ring. }
  pose proof (dval_range B (firstn m d) ltac:(lia) HF) as R. rewrite LF in R. fold T in R. rewrite V. rewrite (Z.mul_comm T). rewrite Z.mod_add, Z.div_add by lia. rewrite Z.mod_small, Z.div_small by lia. auto.
Qed.
Lemma shift_top_ok n s d : (0 < n)%nat -> 0 <= s -> length d = n -> limbs d -> val (shift_top n s d) = cut n s (val d) /\ limbs (shift_top n s d) /\ length (shift_top n s d) = n.
Proof.
  intros N S L H. unfold shift_top, cut. destruct n as [|m]; [lia|]. replace (Datatypes.S m - 1)%nat with m by lia. cbv zeta. destruct (split_val d m L H) as (E1 & E2 & F & T & P). assert (LF : length (firstn m d) = m) by (rewrite firstn_length; lia).
  rewrite Z.shiftr_div_pow2 by exact S. split; [rewrite dval_app, LF; cbn [dval]; rewrite E1, E2; ring|]. split; [|rewrite app_length, LF; cbn; lia]. apply Forall_app. split; [exact F|]. constructor; [|constructor]. unfold below in *. split; [apply Z.div_pos; [lia|apply Z.pow_pos_nonneg; lia]|].
  eapply Z.le_lt_trans; [apply Z.div_le_upper_bound; [apply Z.pow_pos_nonneg; lia|]|apply T]. assert (1 <= 2 ^ s) by (pose proof (Z.pow_pos_nonneg 2 s eq_refl S); lia). nia.
Qed.
(* the first draw that is small enough *)
Fixpoint first_below (n : nat) (s m : Z) (draws : list (list Z)) : option Z :=
  match draws with [] => None | d :: draws => if cut n s (val d) <? m then Some (cut n s (val d)) else first_below n s m draws end.
Lemma loop_ok n s xs draws : (0 < n)%nat -> 0 <= s -> limbs xs -> (n <= length xs)%nat -> Forall (fun d => length d = n /\ limbs d) draws ->
  match randomm_loop n s xs draws with Some z => limbs z /\ length z = n /\ first_below n s (val (firstn n xs)) draws = Some (val z) | None => first_below n s (val (firstn n xs)) draws = None end.
Proof.
  intros N S X NX H. induction H as [|d draws (L & HD) H IH]; [reflexivity|]. cbn [randomm_loop first_below]. destruct (shift_top_ok n s d N S L HD) as (V & LZ & LN). rewrite (mpn_cmp_spec w Hw n _ _ LZ X) by lia. rewrite (firstn_all2 (shift_top n s d)) by lia. rewrite <- V. set (z := shift_top n s d) in *.
  destruct (Z.leb_spec 0 (Z.sgn (val z - val (firstn n xs)))) as [C|C]; destruct (Z.ltb_spec (val z) (val (firstn n xs))) as [D|D]; [exfalso; pose proof (Z.sgn_neg (val z - val (firstn n xs)) ltac:(lia)); lia|exact IH|auto|exfalso; pose proof (Z.sgn_nonneg (val z - val (firstn n xs))); lia].
Qed.
Lemma mod_pow2_limbs a l : 0 <= l <= w -> a mod 2 ^ l = Z.land a (2 ^ l - 1).
Proof. intros H. rewrite <- Z.land_ones by lia. rewrite Z.ones_equiv. f_equal. Qed.
Theorem urandomb_ok bits d : 0 <= bits -> limbs d -> length d = Z.to_nat ((bits + w - 1) / w) -> isz w (mpz_urandomb w bits d) (val d mod 2 ^ bits).
Proof.
  intros NB H L. unfold mpz_urandomb. rewrite <- L. set (z := if _ =? 0 then d else _). pose proof B_pos as BP.
  assert (Z0 : limbs z /\ val z = val d mod 2 ^ bits).
  { unfold z. pose proof (Z.mod_pos_bound bits w Hw) as M. pose proof (Z.div_mod bits w ltac:(lia)) as DM. destruct (Z.eqb_spec (bits mod w) 0) as [E|E].
    - split; [exact H|]. symmetry. apply Z.mod_small. pose proof (dval_range B d ltac:(lia) H) as R. rewrite L in R. replace ((bits + w - 1) / w) with (bits / w) in R; [|apply (Z.div_unique _ _ _ (w - 1)); lia]. rewrite Z2Nat.id in R by (apply Z.div_pos; lia). assert (PB : B ^ (bits / w) = 2 ^ bits) by (unfold LB; rewrite <- Z.pow_mul_r by (try apply Z.div_pos; lia); f_equal; lia). rewrite PB in R. exact R.
    - assert (Q : (bits + w - 1) / w = bits / w + 1) by (symmetry; apply (Z.div_unique _ _ _ (bits mod w - 1)); lia). rewrite Q in L. assert (QN : 0 <= bits / w) by (apply Z.div_pos; lia). set (m := Z.to_nat (bits / w)). assert (LM : length d = S m) by (unfold m; lia). rewrite LM. replace (S m - 1)%nat with m by lia.
      destruct (split_val d m LM H) as (E1 & E2 & F & T & P). assert (LF : length (firstn m d) = m) by (rewrite firstn_length; lia). rewrite <- mod_pow2_limbs by lia. set (l := bits mod w) in *. assert (PL : 0 < 2 ^ l) by (apply Z.pow_pos_nonneg; lia). pose proof (Z.mod_pos_bound (nth m d 0) (2 ^ l) PL) as R2. split.
      + apply Forall_app. split; [exact F|]. constructor; [|constructor]. unfold below, LB in *. assert (2 ^ l < 2 ^ w) by (apply Z.pow_lt_mono_r; lia). lia.
      + rewrite dval_app, LF. cbn [dval]. rewrite Z.mul_0_r, Z.add_0_r. assert (PW : 2 ^ bits = B ^ Z.of_nat m * 2 ^ l). { unfold LB. rewrite <- Z.pow_mul_r, <- Z.pow_add_r by lia. f_equal. unfold m. rewrite Z2Nat.id by lia. unfold l. lia. }
        rewrite PW, Z.rem_mul_r by lia. rewrite E1, E2. reflexivity. }
  destruct Z0 as (ZL & ZV). destruct (stripped_spec w Hw z ZL) as (N & V). split; [exists false, (stripped z); auto|]. rewrite (mkz_zval w) by auto. unfold sg. rewrite V. exact ZV.
Qed.
Theorem urandomm_ok x v draws : isz w x v -> v <> 0 -> let n := length (lm x) in Forall (fun d => length d = n /\ limbs d) draws -> exists s, 0 <= s < w /\ B ^ Z.of_nat n <= 2 * (Z.abs v * 2 ^ s) /\ Z.abs v * 2 ^ s < B ^ Z.of_nat n /\ (0 < n)%nat /\
  s = Z.of_nat n * w - (Z.log2 (Z.abs v) + 1) /\ match mpz_urandomm w x draws with Some z => exists u, first_below n s (Z.abs v) draws = Some u /\ isz w z (Z.sgn v * u) | None => first_below n s (Z.abs v) draws = None end.
Proof.
  intros [(neg & l & -> & N & NZ) V] NV. rewrite (lm_mkz neg l). intros n HD. rewrite (mkz_zval w) in V by exact NZ. assert (NL : l <> []). { intros E. rewrite E in V. cbn [dval] in V. apply NV. rewrite <- V. unfold sg. destruct neg; reflexivity. }
  assert (LN : (0 < n)%nat) by (unfold n; destruct l; [contradiction|cbn [length]; lia]). pose proof (proj1 (normal_last w Hw l (proj1 N)) N) as [C|T]; [contradiction|].
  assert (EN : nth (n - 1) l 0 = last l 0) by (unfold n; clear - NL; destruct (exists_last NL) as (r & a & ->); rewrite last_last, app_length, app_nth2 by (cbn [length]; lia); cbn [length]; replace (length r + 1 - 1 - length r)%nat with 0%nat by lia; reflexivity).
  assert (ST : mpn_strip l (length l) = n). { unfold n. destruct (length l) as [|k] eqn:EL; [destruct l; [contradiction|discriminate]|]. cbn [mpn_strip]. unfold n in EN. try rewrite EL in EN. replace (S k - 1)%nat with k in EN by lia. rewrite EN. destruct (Z.eqb_spec (last l 0) 0); [contradiction|reflexivity]. }
  pose proof (last_limb w l (proj1 N) NL) as TL. destruct (clz_spec w Hw (last l 0) TL T) as (S1 & S2 & S3). set (s := mp_clz w (last l 0)) in *. assert (AV : Z.abs v = val l) by (subst v; unfold sg; pose proof (dval_range B l B_pos (proj1 N)); destruct neg; lia).
  assert (PS : 0 < 2 ^ s) by (apply Z.pow_pos_nonneg; lia). assert (HS : Z.of_nat n * w - s = Z.log2 (val l) + 1 /\ B ^ Z.of_nat n <= 2 * (val l * 2 ^ s) /\ val l * 2 ^ s < B ^ Z.of_nat n).
  { assert (LS : length l = S (n - 1)) by (unfold n in *; lia). destruct (split_val l (n - 1) LS (proj1 N)) as (E1 & E2 & F & _ & P). pose proof (Z.div_mod (val l) (B ^ Z.of_nat (n - 1)) ltac:(lia)) as DM. pose proof (Z.mod_pos_bound (val l) _ P) as MB. rewrite EN in E2. rewrite <- E2 in DM. pose proof B_pos as BP.
    assert (BN : B ^ Z.of_nat n = B * B ^ Z.of_nat (n - 1)) by (rewrite <- Z.pow_succ_r by lia; f_equal; lia). assert (BW : B = 2 ^ (w - s) * 2 ^ s) by (unfold LB; rewrite <- Z.pow_add_r by lia; f_equal; lia). assert (TW : last l 0 + 1 <= 2 ^ (w - s)) by (rewrite BW in S3; nia).
    assert (H2 : B ^ Z.of_nat n <= 2 * (val l * 2 ^ s)) by (rewrite BN, DM; set (TT := B ^ Z.of_nat (n - 1)) in *; nia). assert (H3 : val l * 2 ^ s < B ^ Z.of_nat n). { rewrite BN. set (TT := B ^ Z.of_nat (n - 1)) in *. clearbody TT. assert (VL : val l < TT * 2 ^ (w - s)) by nia. assert (VM : val l * 2 ^ s < TT * 2 ^ (w - s) * 2 ^ s) by (apply Z.mul_lt_mono_pos_r; assumption). rewrite <- Z.mul_assoc, <- BW in VM. lia. }
    split; [|split; assumption]. assert (BP2 : B ^ Z.of_nat n = 2 ^ (Z.of_nat n * w - s - 1) * 2 * 2 ^ s). { unfold LB. rewrite <- Z.pow_mul_r by lia. rewrite (Z.mul_comm _ 2), <- Z.pow_succ_r by nia. rewrite <- Z.pow_add_r by nia. f_equal. lia. }
    rewrite (Z.log2_unique (val l) (Z.of_nat n * w - s - 1)); [lia|nia|]. rewrite Z.pow_succ_r by nia. rewrite BP2 in H2, H3. clear - PS H2 H3. set (P := 2 ^ (Z.of_nat n * w - s - 1)) in *. clearbody P. set (Q := 2 ^ s) in *. clearbody Q. set (V := val l) in *. clearbody V. split; [apply (Z.mul_le_mono_pos_r _ _ Q PS); lia|apply (Z.mul_lt_mono_pos_r Q _ _ PS); lia]. }
  exists s. rewrite AV. destruct HS as (HS & H2 & H3). split; [exact S1|]. split; [exact H2|]. split; [exact H3|]. split; [exact LN|]. split; [rewrite <- HS; ring|]. unfold mpz_urandomm, mpn_randomm. rewrite (lm_mkz neg l), ST. assert (SZ : (size (mkz neg l) =? 0) = false) by (unfold mkz; cbn [size]; apply Z.eqb_neq; destruct neg; unfold n in LN; lia). rewrite SZ. apply Nat.ltb_lt in LN as LT. rewrite LT, EN. fold s.
  pose proof (loop_ok n s l draws LN (proj1 S1) (proj1 N) (le_n _) HD) as LO. rewrite (firstn_all2 l) in LO by (unfold n; lia). destruct (randomm_loop n s l draws) as [z|]; [|exact LO]. destruct LO as (ZL & ZN & FB). exists (val z). split; [exact FB|]. unfold n. rewrite Nat.sub_diag, app_nil_r.
  destruct (stripped_spec w Hw z ZL) as (NS & VS). assert (SG : (size (mkz neg l) <? 0) = neg) by (unfold mkz; cbn [size]; destruct neg; [apply Z.ltb_lt|apply Z.ltb_ge]; unfold n in LN; lia). rewrite SG. pose proof (dval_range B z B_pos ZL) as RZ.
  assert (SV : Z.sgn v = if neg then -1 else 1). { assert (0 < val l) by lia. subst v. unfold sg. destruct neg; [apply Z.sgn_neg|apply Z.sgn_pos]; lia. } rewrite SV. destruct (stripped z) as [|a q] eqn:EZ.
  - cbn [dval] in VS. rewrite <- VS, Z.mul_0_r. assert (M0 : mkz neg [] = mkz false []) by (destruct neg; reflexivity). rewrite M0. split; [exists false, []; auto using normal_nil|reflexivity].
  - rewrite <- EZ in *. assert (NE : stripped z = [] -> neg = false) by (rewrite EZ; discriminate). split; [exists neg, (stripped z); auto|]. rewrite (mkz_zval w) by exact NE. rewrite VS. unfold sg. destruct neg; lia.
Qed.
(* every value comes from 2^s draws *)
Theorem cut_uniform n s m u : (0 < n)%nat -> 0 <= s < w -> m * 2 ^ s < B ^ Z.of_nat n -> 0 <= u < m -> exists g : Z -> list Z,
  (forall r, 0 <= r < 2 ^ s -> limbs (g r) /\ length (g r) = n /\ cut n s (val (g r)) = u) /\ (forall r r', 0 <= r < 2 ^ s -> 0 <= r' < 2 ^ s -> g r = g r' -> r = r') /\
  (forall d, limbs d -> length d = n -> cut n s (val d) = u -> exists r, 0 <= r < 2 ^ s /\ d = g r).
Proof.
  intros N S M U. pose proof B_pos as BP. set (T := B ^ Z.of_nat (n - 1)). assert (TP : 0 < T) by (apply Z.pow_pos_nonneg; lia). assert (PS : 0 < 2 ^ s) by (apply Z.pow_pos_nonneg; lia). assert (BN : B ^ Z.of_nat n = B * T) by (unfold T; rewrite <- Z.pow_succ_r by lia; f_equal; lia).
  assert (BW : B = 2 ^ (w - s) * 2 ^ s) by (unfold LB; rewrite <- Z.pow_add_r by lia; f_equal; lia). pose proof (Z.div_mod u T ltac:(lia)) as DM. pose proof (Z.mod_pos_bound u T TP) as MB. assert (UH : 0 <= u / T) by (apply Z.div_pos; lia). set (h := u / T) in *. set (o := u mod T) in *.
  assert (HB : h + 1 <= 2 ^ (w - s)). { assert (u * 2 ^ s < B * T) by nia. rewrite BW in H. assert (u < 2 ^ (w - s) * T) by nia. nia. }
  set (D := fun r => o + T * (h * 2 ^ s + r)). assert (DR : forall r, 0 <= r < 2 ^ s -> 0 <= D r < B ^ Z.of_nat n /\ D r mod T = o /\ D r / T = h * 2 ^ s + r).
  { intros r R. unfold D. rewrite (Z.mul_comm T). rewrite Z.mod_add, Z.div_add by lia. rewrite Z.mod_small, Z.div_small by lia. split; [|split; [reflexivity|lia]]. rewrite BN, BW. assert (0 <= h * 2 ^ s + r) by nia. assert (h * 2 ^ s + r + 1 <= 2 ^ (w - s) * 2 ^ s) by nia. nia. }
  exists (fun r => digits B n (D r)). assert (VD : forall r, 0 <= r < 2 ^ s -> val (digits B n (D r)) = D r) by (intros r R; rewrite dval_digits by lia; apply Z.mod_small, DR, R). split; [|split].
  - intros r R. split; [apply digits_below; lia|]. split; [apply digits_length|]. rewrite (VD r R). destruct (DR r R) as (_ & E1 & E2). unfold cut. fold T. cbv zeta. rewrite E1, E2. rewrite Z.div_add_l, (Z.div_small r) by lia. lia.
  - intros r r' R R' E. apply (f_equal val) in E. rewrite (VD r R), (VD r' R') in E. destruct (DR r R) as (_ & _ & E1), (DR r' R') as (_ & _ & E2). rewrite E in E1. lia.
  - intros d HD LD C. unfold cut in C. fold T in C. cbv zeta in C. pose proof (dval_range B d ltac:(lia) HD) as R. rewrite LD in R. set (q := val d / T) in *. pose proof (Z.div_mod (val d) T ltac:(lia)) as DM'. pose proof (Z.mod_pos_bound (val d) T TP) as MB'. pose proof (Z.div_mod q (2 ^ s) ltac:(lia)) as DQ. pose proof (Z.mod_pos_bound q (2 ^ s) PS) as MQ.
    assert (EH : q / 2 ^ s = h) by (unfold h; rewrite <- C, (Z.mul_comm T), Z.div_add by lia; rewrite (Z.div_small (val d mod T) T) by lia; lia). assert (EO : val d mod T = o) by (unfold o; rewrite <- C, (Z.mul_comm T), Z.mod_add by lia; symmetry; apply Z.mod_small; lia).
    exists (q mod 2 ^ s). split; [exact MQ|]. apply (dval_inj B); [lia|exact HD|apply digits_below; lia|rewrite digits_length; exact LD|]. rewrite (VD _ MQ). unfold D. rewrite <- EO, <- EH. fold q in DM'. rewrite DM' at 1. rewrite DQ at 1. ring.
Qed.
End Rand.
