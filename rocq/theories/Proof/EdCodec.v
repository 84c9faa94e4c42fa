(* Square roots, points and scalars of the Edwards curves as octets. *)
From Verif.Base Require Import Prelude.
From Coq Require Import Znumtheory.
From Verif.Model Require Import Encoding Bio Hash NumTheory Field EcScalar Wei Ecdsa Edwards Eddsa.
From Verif.Spec Require Import EcSpec DsaSpec EdSpec EddsaSpec.
From Verif.Proof Require Import Cong Fermat Rfc6979 Reciprocity FieldProof FieldSquare FieldJacobi EcCodec EdGroup EdProof.
Lemma nth_skipn0 {A} (l : list A) d n : nth 0 (skipn n l) d = nth n l d.
Proof. revert l. induction n as [|n IH]; intros [|x l]; cbn; try reflexivity. apply IH. Qed.
Lemma le_split l k : length l = S k -> l = firstn k l ++ [nth k l 0].
Proof.
  intros L. rewrite <- (firstn_skipn k l) at 1. f_equal. pose proof (nth_skipn0 l 0 k) as N. assert (LS : length (skipn k l) = 1%nat) by (rewrite skipn_length; lia).
  destruct (skipn k l) as [|v [|]]; cbn in LS; try lia. cbn [nth] in N. rewrite N. reflexivity.
Qed.
Lemma le_val_snoc u v : le_val (u ++ [v]) = le_val u + 256 ^ Z.of_nat (length u) * v.
Proof. unfold le_val. rewrite dval_app. cbn [dval]. ring. Qed.
Lemma byte_bits v : 0 <= v < 256 -> Z.land v 0x7f = v mod 128 /\ Z.shiftr v 7 = v / 128 /\ (v / 128 = 0 \/ v / 128 = 1).
Proof.
  intros H. split; [change 0x7f with (Z.ones 7); rewrite Z.land_ones by lia; reflexivity|]. split; [rewrite Z.shiftr_div_pow2 by lia; reflexivity|].
  pose proof (Z.div_lt_upper_bound v 128 2 eq_refl ltac:(lia)). pose proof (Z.div_pos v 128 ltac:(lia) eq_refl). lia.
Qed.
Lemma byte_top v b : 0 <= v < 128 -> Z.lor v (Z.shiftl (if b : bool then 1 else 0) 7) = v + (if b then 128 else 0).
Proof.
  intros H. destruct b; [|rewrite Z.shiftl_0_l, Z.lor_0_r; lia]. apply Z.eqb_eq.
  apply (forall_zseq (fun v => Z.lor v (Z.shiftl 1 7) =? v + 128) 0 128); [vm_compute; reflexivity|lia].
Qed.
Section P.
Variable p : positive.
Local Notation P := (Zpos p).
Local Notation fe := (Field.fe p).
Hypothesis Pp : prime P.
Hypothesis PR : P mod 4 = 3 \/ P mod 8 = 5.
Add Ring fring : (FieldProof.ring_th p).
Lemma P3 : 2 < P.
Proof. pose proof (prime_ge_2 _ Pp). destruct (Z.eq_dec P 2) as [E|]; [|lia]. rewrite E in PR. destruct PR; discriminate. Qed.
(* ---- roots ---- *)
Lemma root_total (x : fe) : exists y ok, fe_sqrt x = Some (y, ok).
Proof.
  unfold fe_sqrt. destruct (Z.eqb_spec (P mod 4) 3) as [E|N]; [eexists _, _; reflexivity|]. destruct PR as [E|E]; [contradiction|]. rewrite E. eexists _, _. reflexivity.
Qed.
Lemma two_pow : P mod 8 = 5 -> fe_pow (fe_add f1 f1 : fe) ((P - 1) / 2) = fe_neg f1.
Proof.
  intros E. rewrite (pow_jsym p Pp P3). assert (T : fv (fe_add f1 f1 : fe) = 2).
  { pose proof P3. unfold fe_add. rewrite fv_of. unfold f1. rewrite !fv_of. rewrite !(Z.mod_small 1) by lia. apply Z.mod_small. lia. }
  pose proof (p_half p Pp P3) as (PH & _). assert (O : Z.odd P = true) by (rewrite PH; rewrite Z.odd_add, Z.odd_mul; reflexivity).
  rewrite T, (jsym_2 P eq_refl O), E. change ((5 =? 1) || (5 =? 7)) with false. cbv iota. symmetry. apply (neg1_of p Pp P3).
Qed.
Lemma root_complete (y : fe) : exists r, fe_sqrt (fe_mul y y) = Some (r, true).
Proof.
  destruct PR as [E|E]; [exact (sqrt_complete p Pp P3 y E)|]. assert (E4 : P mod 4 = 1).
  { pose proof (Z.div_mod P 8 ltac:(lia)) as DM. rewrite E in DM. symmetry. apply Z.mod_unique_pos with (2 * (P / 8) + 1); lia. }
  unfold fe_sqrt. rewrite E, E4. change (1 =? 3) with false. change (5 =? 5) with true. cbv iota zeta. eexists. f_equal. f_equal. apply equal_iff. unfold fe_sqr.
  destruct (is_zero_spec p y) as [-> |NZ]; [ring|]. set (x := fe_mul y y). set (x2 := fe_add x x). set (e := (P - 5) / 8). set (a := fe_pow x2 e).
  assert (Ee : P = 8 * e + 5 /\ 0 <= e). { unfold e. pose proof (Z.div_mod P 8 ltac:(lia)) as DM. rewrite E in DM. pose proof P3. replace (P - 5) with (P / 8 * 8) by lia. rewrite Z.div_mul by lia. pose proof (Z.div_pos P 8 ltac:(lia) eq_refl). lia. }
  set (i := fe_mul (fe_mul a a) x2). assert (I : fe_mul i i = fe_neg f1).
  { transitivity (fe_pow x2 ((P - 1) / 2)).
    - replace ((P - 1) / 2) with ((e + e + 1) + (e + e + 1)). 2:{ replace (P - 1) with ((4 * e + 2) * 2) by lia. rewrite Z.div_mul by lia. lia. }
      rewrite (pow_add p), !(pow_add p x2) by lia. rewrite (pow_1 p). reflexivity.
    - replace x2 with (fe_mul (fe_add f1 f1) x) by (unfold x2; ring). pose proof (Z.div_pos (P - 1) 2 ltac:(lia) eq_refl). rewrite (pow_mul p), two_pow by assumption.
      assert (X : fe_pow x ((P - 1) / 2) = f1). { unfold x. rewrite (pow_mul p), <- (pow_add p) by assumption. destruct (p_half p Pp P3) as [H2 _]. replace ((P - 1) / 2 + (P - 1) / 2) with (P - 1) by lia. apply (fe_fermat p Pp). exact NZ. }
      rewrite X. ring. }
  transitivity (fe_add x (fe_mul (fe_add (fe_mul i i) f1) (fe_sub (fe_mul (fe_mul x x) (fe_mul a a)) x))).
  - unfold i, x2. ring.
  - rewrite I. ring.
Qed.
Variables a d : fe.
Hypothesis K : complete fe f0 f1 fe_add fe_mul a d.
Local Notation on := (eon p a d).
Local Notation xrep := (xrep p a d).
Local Notation arep := (arep p a d).
Lemma den_nz (y : fe) : fe_sub (fe_mul d (fe_mul y y)) a <> f0.
Proof.
  intros E. destruct K as ((s & Es) & Na & Nd & _). assert (Ed : fe_mul d (fe_mul y y) = a) by (transitivity (fe_add (fe_sub (fe_mul d (fe_mul y y)) a) a); [ring|rewrite E; ring]).
  assert (Ny : y <> f0) by (intros ->; apply Na; rewrite <- Ed; ring). apply (Nd (fe_mul s (fe_inv y))).
  transitivity (fe_mul (fe_mul s s) (fe_mul (fe_inv y) (fe_inv y))); [ring|]. rewrite Es, <- Ed. transitivity (fe_mul d (fe_mul (fe_mul (fe_inv y) y) (fe_mul (fe_inv y) y))); [ring|]. rewrite (inv_l p Pp) by exact Ny. ring.
Qed.
Lemma on_x2 (x y : fe) : on (x, y) <-> fe_mul (fe_mul x x) (fe_sub (fe_mul d (fe_mul y y)) a) = fe_sub (fe_mul y y) f1.
Proof.
  unfold EdGroup.eon, on_ed. split; intros H.
  - transitivity (fe_sub (fe_add f1 (fe_mul d (fe_mul (fe_mul x x) (fe_mul y y)))) (fe_add (fe_mul a (fe_mul x x)) f1)); [ring|]. rewrite <- H. ring.
  - transitivity (fe_add (fe_mul a (fe_mul x x)) (fe_add (fe_sub (fe_mul y y) f1) f1)); [ring|]. rewrite <- H. ring.
Qed.
Lemma isqrt_ok (u v : fe) : v <> f0 -> exists r ok, fe_isqrt p u v = Some (r, ok) /\ (ok = true -> fe_mul (fe_mul r r) v = u) /\ (forall x, fe_mul (fe_mul x x) v = u -> ok = true).
Proof.
  intros V. assert (EI : fe_invert v = (fe_inv v, true)).
  { rewrite (surjective_pairing (fe_invert v)). pose proof (invert_flag p Pp v P3) as IF. rewrite IF. destruct (is_zero_spec p v); [contradiction|reflexivity]. }
  unfold fe_isqrt. rewrite EI. pose proof (inv_l p Pp v V) as IL. destruct (root_total (fe_mul (fe_inv v) u)) as (r & ok & E). rewrite E. exists r, ok. split; [reflexivity|]. split.
  - intros ->. apply (sqrt_sound p) in E. rewrite E. transitivity (fe_mul u (fe_mul (fe_inv v) v)); [ring|]. rewrite IL. ring.
  - intros x X. destruct (root_complete x) as (r' & E'). replace (fe_mul x x) with (fe_mul (fe_inv v) u) in E'; [congruence|]. rewrite <- X. transitivity (fe_mul (fe_mul x x) (fe_mul (fe_inv v) v)); [ring|]. rewrite IL. ring.
Qed.

Lemma set_y_ok (y : fe) s : s = 0 \/ s = 1 -> exists q ok, xge_set_y p a d y s = Some (q, ok) /\
  (ok = true -> exists x, arep q (x, y) /\ fv x mod 2 = s) /\ (ok = false -> arep q (ezero p)) /\
  (forall x, on (x, y) -> fv x mod 2 = s -> ok = true).
Proof.
  intros S. unfold xge_set_y, fe_sqr. rewrite (mul_d_eq p d). destruct (isqrt_ok (fe_sub (fe_mul y y) f1) (fe_sub (fe_mul d (fe_mul y y)) a) (den_nz y)) as (r & sq & E & Sd & Cm).
  rewrite E. unfold ed_sign. replace (s =? -1) with false by (destruct S as [-> | ->]; reflexivity). cbv zeta. set (r' := fe_set_odd r (s =? 1)).
  assert (R2 : fe_mul r' r' = fe_mul r r) by (unfold r'; apply set_odd_sq).
  eexists _, _. split; [reflexivity|]. refine (conj _ (conj _ _)).
  - intros B. rewrite B. apply andb_true_iff in B. destruct B as (Bq & Bz). exists r'. assert (O : on (r', y)) by (apply on_x2; rewrite R2; apply Sd; exact Bq).
    split; [apply (finish_rep p Pp a d); exact O|]. rewrite odd_mod. destruct (is_zero_spec p r') as [Z0|NZ].
    + rewrite Z0 in *. destruct S as [-> | ->]; [|discriminate Bz]. unfold fe_is_odd. unfold f0. rewrite fv_of. reflexivity.
    + assert (Nr : r <> f0) by (intros ->; apply NZ; unfold r'; apply set_odd_zero). unfold r'. rewrite (set_odd_parity p Pp P3 r _ Nr). destruct S as [-> | ->]; reflexivity.
  - intros B. rewrite B, (finish_zero p). apply (zero_arep p Pp a d).
  - intros x O M. apply on_x2 in O. rewrite (Cm x O). apply Cm in O as Q. apply Sd in Q. assert (XR : fe_mul r r = fe_mul x x).
    { transitivity (fe_mul (fe_mul (fe_mul r r) (fe_sub (fe_mul d (fe_mul y y)) a)) (fe_inv (fe_sub (fe_mul d (fe_mul y y)) a))).
      - transitivity (fe_mul (fe_mul r r) (fe_mul (fe_inv (fe_sub (fe_mul d (fe_mul y y)) a)) (fe_sub (fe_mul d (fe_mul y y)) a))); [rewrite (inv_l p Pp _ (den_nz y)); ring|ring].
      - rewrite Q, <- O. transitivity (fe_mul (fe_mul x x) (fe_mul (fe_inv (fe_sub (fe_mul d (fe_mul y y)) a)) (fe_sub (fe_mul d (fe_mul y y)) a))); [ring|rewrite (inv_l p Pp _ (den_nz y)); ring]. }
    cbn [andb]. destruct (is_zero_spec p r') as [Z0|NZ]; [|reflexivity]. assert (X0 : x = f0).
    { destruct (sq_roots p Pp x r') as [-> | ->]; [congruence|exact Z0|rewrite Z0; ring]. }
    subst x. unfold f0 in M. rewrite fv_of in M. change (0 mod P mod 2) with 0 in M. rewrite <- M. reflexivity.
Qed.
(* ---- octets ---- *)
Lemma adj_octs : adj_size p = ed_octs P.
Proof.
  unfold adj_size, ed_octs, fsize. pose proof (sc_bitlen_blen P eq_refl) as B. fold (fbits p) in B. rewrite <- B. generalize (fbits p). intros b. clear.
  pose proof (Nat.mod_upper_bound b 8 ltac:(lia)) as U. pose proof (Nat.div_mod_eq b 8) as D.
  assert (Dz : Z.of_nat b / 8 = Z.of_nat (b / 8)) by (rewrite Nat2Z.inj_div; reflexivity). rewrite Dz.
  destruct (Nat.eqb_spec (b mod 8) 0) as [E|E]; set (q := (b / 8)%nat) in *; set (r := (b mod 8)%nat) in *; clearbody q r; clear Dz; subst b.
  - replace (8 * q + r + 7)%nat with (7 + q * 8)%nat by lia. rewrite Nat.div_add by lia. rewrite (Nat.div_small 7) by lia. lia.
  - replace (8 * q + r + 7)%nat with ((r - 1) + (q + 1) * 8)%nat by lia. rewrite Nat.div_add by lia. rewrite (Nat.div_small (r - 1)) by lia. lia.
Qed.
Definition lastk : nat := (ed_octs P - 1)%nat.
Lemma octs_last : ed_octs P = S lastk.
Proof. unfold lastk, ed_octs. pose proof (blen_range P eq_refl). assert (0 <= blen P / 8) by (apply Z.div_pos; [unfold blen; pose proof (Z.log2_nonneg P); lia|lia]). lia. Qed.
(* the field either fills the octets before the last or leaves the last one its top bit *)
Lemma fsize_cases : (fbits p mod 8 = 0)%nat /\ fsize p = lastk /\ P < 256 ^ Z.of_nat lastk \/
  (fbits p mod 8 <> 0)%nat /\ fsize p = S lastk /\ P < 256 ^ Z.of_nat lastk * 128.
Proof.
  pose proof adj_octs as A. rewrite octs_last in A. unfold adj_size in A. pose proof (sc_bitlen_blen P eq_refl) as B. fold (fbits p) in B. pose proof (blen_range P eq_refl) as (_ & R). rewrite <- B in R. unfold fsize in *.
  replace 256 with (2 ^ 8) by reflexivity. replace 128 with (2 ^ 7) by reflexivity. rewrite <- Z.pow_mul_r, <- Z.pow_add_r by lia. revert A R. generalize (fbits p) lastk. intros b k A R.
  destruct (Nat.eqb_spec (b mod 8) 0) as [E|E]; [left|right]; (split; [exact E|]); (split; [lia|]); (eapply Z.lt_le_trans; [exact R|apply Z.pow_le_mono_r; [lia|]]); clear R; pose proof (Nat.div_mod_eq b 8); pose proof (Nat.div_mod_eq (b + 7) 8); pose proof (Nat.mod_upper_bound b 8 ltac:(lia)); pose proof (Nat.mod_upper_bound (b + 7) 8 ltac:(lia)); lia.
Qed.
Lemma top_pow : 2 ^ (8 * Z.of_nat (ed_octs P) - 1) = 256 ^ Z.of_nat lastk * 128.
Proof. rewrite octs_last. replace (8 * Z.of_nat (S lastk) - 1) with (8 * Z.of_nat lastk + 7) by lia. rewrite Z.pow_add_r, Z.pow_mul_r by lia. reflexivity. Qed.
Lemma enc_val (x y : fe) : 0 <= fv y + fv x mod 2 * (256 ^ Z.of_nat lastk * 128) < 256 ^ Z.of_nat (S lastk).
Proof.
  pose proof (fv_range p y) as R. rewrite Nat2Z.inj_succ, Z.pow_succ_r by lia. pose proof (Z.pow_pos_nonneg 256 (Z.of_nat lastk) eq_refl ltac:(lia)) as PP.
  assert (P < 256 ^ Z.of_nat lastk * 128) by (destruct fsize_cases as [(_ & _ & L)|(_ & _ & L)]; lia). pose proof (Z.mod_pos_bound (fv x) 2 eq_refl). nia.
Qed.
Lemma enc_iff raw (x y : fe) : length raw = ed_octs P -> bytes raw ->
  (raw = ed_enc P (fv x) (fv y) <-> le_val raw = fv y + fv x mod 2 * (256 ^ Z.of_nat lastk * 128)).
Proof.
  intros L B. unfold ed_enc. rewrite top_pow. pose proof (enc_val x y) as V. split; intros E.
  - rewrite E, le_val_le_bytes. rewrite octs_last. apply Z.mod_small. exact V.
  - rewrite <- E, <- L. symmetry. apply le_bytes_le_val. exact B.
Qed.
Lemma enc_length x y : length (ed_enc P x y) = ed_octs P. Proof. apply le_bytes_length. Qed.
Lemma enc_bytes x y : bytes (ed_enc P x y). Proof. apply le_bytes_bytes. Qed.
Lemma enc_inj (x y x' y' : fe) : on (x, y) -> on (x', y') -> ed_enc P (fv x) (fv y) = ed_enc P (fv x') (fv y') -> (x, y) = (x', y').
Proof.
  intros O O' E. apply (enc_iff _ x' y' (enc_length _ _) (enc_bytes _ _)) in E. assert (E0 := proj1 (enc_iff _ x y (enc_length _ _) (enc_bytes _ _)) eq_refl). rewrite E0 in E.
  assert (L : forall z : fe, 0 <= fv z < 256 ^ Z.of_nat lastk * 128) by (intros z; pose proof (fv_range p z); destruct fsize_cases as [(_ & _ & L)|(_ & _ & L)]; pose proof (Z.pow_pos_nonneg 256 (Z.of_nat lastk) eq_refl ltac:(lia)); lia).
  set (H := 256 ^ Z.of_nat lastk * 128) in *. assert (Ey : fv y = fv y').
  { rewrite <- (Z.mod_small (fv y) H), <- (Z.mod_small (fv y') H) by apply L. rewrite <- (Z.mod_add (fv y) (fv x mod 2) H), <- (Z.mod_add (fv y') (fv x' mod 2) H) by (pose proof (L y); lia). rewrite E. reflexivity. }
  assert (Ex : fv x mod 2 = fv x' mod 2) by (rewrite Ey in E; pose proof (L y); nia). apply fe_eq in Ey. subst y'. f_equal. apply (root_parity p Pp P3).
  - apply on_x2 in O, O'. pose proof (inv_l p Pp _ (den_nz y)) as IL.
    assert (C : forall t : fe, fe_mul t t = fe_mul (fe_mul (fe_mul t t) (fe_sub (fe_mul d (fe_mul y y)) a)) (fe_inv (fe_sub (fe_mul d (fe_mul y y)) a))).
    { intros t. transitivity (fe_mul (fe_mul t t) (fe_mul (fe_inv (fe_sub (fe_mul d (fe_mul y y)) a)) (fe_sub (fe_mul d (fe_mul y y)) a))); [rewrite IL; ring|ring]. }
    rewrite (C x), (C x'), O, O'. reflexivity.
  - rewrite !odd_mod in Ex. destruct (fe_is_odd x), (fe_is_odd x'); congruence.
Qed.
Variable c : edw p.
Hypothesis Ca : x_a p c = a.
Hypothesis Cd : x_d p c = d.
Lemma import_ok raw : length raw = ed_octs P -> bytes raw -> exists q ok, xge_import p c raw = Some (q, ok) /\
  (ok = true -> exists x y, arep q (x, y) /\ raw = ed_enc P (fv x) (fv y)) /\ (exists Q, arep q Q) /\
  (forall x y, on (x, y) -> raw = ed_enc P (fv x) (fv y) -> ok = true /\ arep q (x, y)).
Proof.
  intros L B. assert (L' := L). rewrite octs_last in L'. pose proof (le_split raw lastk L') as SP. set (u := firstn lastk raw) in *. set (v := nth lastk raw 0) in *.
  assert (Lu : length u = lastk) by (unfold u; rewrite firstn_length; lia). assert (Bu : bytes u) by (apply bytes_firstn; exact B). assert (Bv : 0 <= v < 256). { rewrite SP in B. apply bytes_app in B. destruct B as (_ & B). apply bytes_cons in B. exact (proj1 B). }
  pose proof (byte_bits v Bv) as (V1 & V2 & V3). set (H := 256 ^ Z.of_nat lastk) in *. set (yv := le_val u + H * (v mod 128)). pose proof (le_val_range u Bu) as Ru. rewrite Lu in Ru. fold H in Ru. pose proof (Z.mod_pos_bound v 128 eq_refl) as Mv.
  assert (EV : le_val raw = yv + (v / 128) * (H * 128)). { rewrite SP, le_val_snoc, Lu. fold H. unfold yv. pose proof (Z.div_mod v 128 ltac:(lia)). set (vq := v / 128) in *. set (vr := v mod 128) in *. clearbody vq vr. nia. }
  assert (Ryv : 0 <= yv < H * 128) by (unfold yv; clear - Ru Mv; set (vr := v mod 128) in *; clearbody vr; nia).
  assert (FI : exists y ok, (if (fbits p mod 8 =? 0)%nat then let last := nth (fsize p) raw 0 in let '(y, ok) := xfe_import p (firstn (fsize p) raw) in (y, (Z.land last 0x7f =? 0) && ok, last)
      else let last := nth (fsize p - 1) raw 0 in let '(y, ok) := xfe_import p (firstn (fsize p - 1) raw ++ [Z.land last 0x7f]) in (y, ok, last)) = (y, ok, v) /\ ok = (yv <? P) /\ (ok = true -> fv y = yv)).
  { pose proof (sc_bitlen_blen P eq_refl) as SB. fold (fbits p) in SB. pose proof (blen_range P eq_refl) as (_ & PB). rewrite <- SB in PB. destruct fsize_cases as [(F0 & F1 & F2)|(F0 & F1 & F2)].
    - rewrite (proj2 (Nat.eqb_eq _ _) F0), F1. cbv zeta. unfold xfe_import. fold u v. eexists _, _. split; [reflexivity|]. rewrite V1. fold H in F2. destruct (Z.eqb_spec (v mod 128) 0) as [Z0|NZ].
      + assert (yv = le_val u) as EY by (unfold yv; rewrite Z0; lia). rewrite EY. split; [reflexivity|]. intros Q. cbn [andb] in Q. apply Z.ltb_lt in Q. rewrite fv_of. rewrite (Z.mod_small (le_val u) (2 ^ _)) by lia. apply Z.mod_small. lia.
      + cbn [andb]. split; [|discriminate]. symmetry. apply Z.ltb_ge. unfold yv. set (vr := v mod 128) in *. clearbody vr. clear - Ru Mv NZ F2. nia.
    - rewrite (proj2 (Nat.eqb_neq _ _) F0), F1. replace (S lastk - 1)%nat with lastk by lia. cbv zeta. unfold xfe_import. fold u v. rewrite V1, le_val_snoc, Lu. fold H. fold yv. eexists _, _. split; [reflexivity|]. split; [reflexivity|].
      intros Q. apply Z.ltb_lt in Q. rewrite fv_of. rewrite (Z.mod_small yv (2 ^ _)) by lia. apply Z.mod_small. lia. }
  destruct FI as (y & ok & FE & FO & FY). unfold xge_import. match goal with |- context [if (fbits p mod 8 =? 0)%nat then ?t1 else ?t2] => replace (if (fbits p mod 8 =? 0)%nat then t1 else t2) with (y, ok, v) by (symmetry; exact FE) end. rewrite Ca, Cd, V2.
  destruct (set_y_ok y (v / 128) V3) as (q & r & -> & S1 & S2 & S3). exists q, (ok && r). split; [reflexivity|]. refine (conj _ (conj _ _)).
  - intros Q. apply andb_true_iff in Q. destruct Q as (Q1 & Q2). destruct (S1 Q2) as (x & A & M). exists x, y. split; [exact A|]. apply (enc_iff raw x y L B). rewrite EV, M, (FY Q1). reflexivity.
  - destruct r; [destruct (S1 eq_refl) as (x & A & _); eexists; exact A|eexists; exact (S2 eq_refl)].
  - intros x y' O E. apply (enc_iff raw x y' L B) in E. fold H in E. rewrite EV in E. pose proof (fv_range p y') as Ry'. assert (fv y' < H * 128) by (unfold H; destruct fsize_cases as [(_ & _ & F)|(_ & _ & F)]; fold H in F |- *; lia).
    assert (EY : fv y' = yv). { rewrite <- (Z.mod_small (fv y') (H * 128)), <- (Z.mod_small yv (H * 128)) by lia. rewrite <- (Z.mod_add yv (v / 128)), <- (Z.mod_add (fv y') (fv x mod 2)) by lia. rewrite E. reflexivity. }
    assert (EX : fv x mod 2 = v / 128) by (rewrite EY in E; clear - E Ryv; set (s := v / 128) in *; set (s' := fv x mod 2) in *; clearbody s s'; nia).
    assert (OK : ok = true) by (rewrite FO; apply Z.ltb_lt; lia). assert (y = y') as -> by (apply fe_eq; rewrite (FY OK); congruence). pose proof (S3 x O EX) as R. rewrite OK, R. split; [reflexivity|]. destruct (S1 R) as (x' & A & M).
    replace x with x'; [exact A|]. pose proof (proj1 (proj1 A)) as O'. assert (EE : ed_enc P (fv x') (fv y') = ed_enc P (fv x) (fv y')) by (unfold ed_enc; rewrite M, EX; reflexivity). apply (enc_inj _ _ _ _ O' O) in EE. congruence.
Qed.
Lemma export_ok q x y : xrep q (x, y) -> xge_export p q = Some (ed_enc P (fv x) (fv y)).
Proof.
  intros (O & Zn & X & Y & _). cbn [fst snd] in X, Y. unfold xge_export. assert (EI : fe_invert (xz p q) = (fe_inv (xz p q), true)).
  { rewrite (surjective_pairing (fe_invert _)). rewrite (invert_flag p Pp _ P3). destruct (is_zero_spec p (xz p q)); [contradiction|reflexivity]. }
  rewrite EI. cbn [negb]. cbv zeta. pose proof (inv_l p Pp _ Zn) as IL. replace (fe_mul (xx p q) (fe_inv (xz p q))) with x by (rewrite X; transitivity (fe_mul x (fe_mul (fe_inv (xz p q)) (xz p q))); [rewrite IL; ring|ring]).
  replace (fe_mul (xy p q) (fe_inv (xz p q))) with y by (rewrite Y; transitivity (fe_mul y (fe_mul (fe_inv (xz p q)) (xz p q))); [rewrite IL; ring|ring]).
  f_equal. pose proof (odd_mod p x) as OM. pose proof (fv_range p y) as Ry. unfold xfe_export. destruct fsize_cases as [(F0 & F1 & F2)|(F0 & F1 & F2)].
  - rewrite (proj2 (Nat.eqb_eq _ _) F0), F1. apply enc_iff.
    + rewrite app_length, le_bytes_length, octs_last. cbn [length]. lia.
    + apply bytes_app. split; [apply le_bytes_bytes|]. apply bytes_cons. split; [destruct (fe_is_odd x); unfold byte; cbn; lia|apply bytes_nil].
    + rewrite le_val_snoc, le_bytes_length, le_val_le_bytes, OM. rewrite Z.mod_small by lia. destruct (fe_is_odd x); change (Z.shiftl 1 7) with 128; change (Z.shiftl 0 7) with 0; ring.
  - rewrite (proj2 (Nat.eqb_neq _ _) F0), F1. replace (S lastk - 1)%nat with lastk by lia. pose proof (le_bytes_length (S lastk) (fv y)) as LL. pose proof (le_split _ _ LL) as SP. pose proof (le_val_le_bytes (S lastk) (fv y)) as VV. pose proof (le_bytes_bytes (S lastk) (fv y)) as BB.
    set (raw := le_bytes (S lastk) (fv y)) in *. set (u := firstn lastk raw) in *. set (v := nth lastk raw 0) in *. assert (Lu : length u = lastk) by (unfold u; rewrite firstn_length; lia). rewrite SP in BB. apply bytes_app in BB. destruct BB as (Bu & Bv). apply bytes_cons in Bv. destruct Bv as (Bv & _). unfold byte in Bv.
    rewrite Z.mod_small in VV by (rewrite Nat2Z.inj_succ, Z.pow_succ_r by lia; lia). rewrite SP, le_val_snoc, Lu in VV. pose proof (le_val_range u Bu) as Ru. rewrite Lu in Ru. set (H := 256 ^ Z.of_nat lastk) in *. assert (v < 128) by (clear - VV Ru Ry F2 Bv; nia).
    rewrite byte_top by lia. apply enc_iff.
    + rewrite app_length, Lu, octs_last. cbn [length]. lia.
    + apply bytes_app. split; [exact Bu|]. apply bytes_cons. split; [destruct (fe_is_odd x); unfold byte; lia|apply bytes_nil].
    + rewrite le_val_snoc, Lu. fold H. rewrite OM. destruct (fe_is_odd x); lia.
Qed.
End P.
