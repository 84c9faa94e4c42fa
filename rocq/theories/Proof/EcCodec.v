(* Square roots, scalars and points as octets. *)
From Verif.Base Require Import Prelude.
From Coq Require Import Znumtheory.
From Verif.Model Require Import Encoding Bio Asn1 Hash NumTheory Rsa Dsa Field EcScalar Wei Ecdsa.
From Verif.Spec Require Import EcSpec DsaSpec EcdsaSpec.
From Verif.Proof Require Import Cong Fermat RsaPrim Rfc6979 NumInv FieldProof EcGroup EcScalarProof WeiProof.
Lemma sc_bitlen_blen q : 0 < q -> Z.of_nat (sc_bitlen q) = blen q.
Proof. intros H. unfold sc_bitlen, bitlen, blen. destruct (Z.eqb_spec q 0); [lia|]. rewrite Z.abs_eq by lia. pose proof (Z.log2_nonneg q). lia. Qed.
Lemma size_octs q : 0 < q -> ((sc_bitlen q + 7) / 8)%nat = octs q.
Proof. intros H. unfold octs. rewrite <- sc_bitlen_blen by exact H. change 7 with (Z.of_nat 7). change 8 with (Z.of_nat 8). rewrite <- Nat2Z.inj_add, <- Nat2Z.inj_div, Nat2Z.id. reflexivity. Qed.
Lemma i2o_val q x : 0 < q -> 0 <= x < q -> be_val (i2o q x) = x.
Proof. intros Q X. unfold i2o. rewrite be_val_be_bytes. apply Z.mod_small. pose proof (q_octs q Q). lia. Qed.
Lemma i2o_len q x : length (i2o q x) = octs q. Proof. apply be_bytes_length. Qed.
Lemma i2o_bytes q x : bytes (i2o q x). Proof. apply be_bytes_bytes. Qed.
Lemma i2o_back q l : bytes l -> length l = octs q -> i2o q (be_val l) = l.
Proof. intros B L. unfold i2o. rewrite <- L. apply be_bytes_be_val. exact B. Qed.
Lemma i2o_inj q x y : 0 < q -> 0 <= x < q -> 0 <= y < q -> i2o q x = i2o q y -> x = y.
Proof. intros Q X Y E. rewrite <- (i2o_val q x), <- (i2o_val q y), E by assumption. reflexivity. Qed.
Lemma octs_pos q : 0 < q -> (0 < octs q)%nat.
Proof. intros H. pose proof (octs_ge q H). pose proof (blen_pos q H). lia. Qed.
Section P.
Variable p : positive.
Local Notation P := (Zpos p).
Local Notation fe := (Field.fe p).
Hypothesis Pp : prime P.
Hypothesis P3 : 2 < P.
Add Ring fring : (FieldProof.ring_th p).
Lemma p_odd : Z.odd P = true.
Proof.
  rewrite <- Z.negb_even. destruct (Z.even P) eqn:E; [|reflexivity]. apply Z.even_spec in E. destruct E as [k E].
  assert (D : (2 | P)) by (exists k; lia). destruct (prime_divisors P Pp 2 D) as [|[|[|]]]; lia.
Qed.
(* ---- roots ---- *)
Lemma sqrt_sound (x y : fe) : fe_sqrt x = Some (y, true) -> fe_mul y y = x.
Proof.
  unfold fe_sqrt. destruct (P mod 4 =? 3); [|destruct (P mod 8 =? 5); [|discriminate]]; intros E; apply (f_equal (fun o => match o with Some v => v | None => (y, true) end)) in E; cbv beta iota in E;
  apply pair_equal_spec in E; destruct E as [E1 E2]; apply equal_iff in E2; subst y; exact E2.
Qed.
Lemma sqrt_total (x : fe) : P mod 4 = 3 -> exists y ok, fe_sqrt x = Some (y, ok).
Proof. intros E. unfold fe_sqrt. rewrite E. eexists _, _. reflexivity. Qed.
Lemma sqrt_complete (y : fe) : P mod 4 = 3 -> exists r, fe_sqrt (fe_mul y y) = Some (r, true).
Proof.
  intros E. unfold fe_sqrt. rewrite E. change (3 =? 3) with true. cbv iota. eexists. f_equal. f_equal. apply equal_iff. rewrite fe_pow_eq by exact Pp. unfold fe_sqr.
  destruct (is_zero_spec p y) as [-> |NZ].
  - replace (fe_mul f0 f0) with (@f0 p) by ring. rewrite (fv_f0 p). rewrite Z.pow_0_l; [unfold f0; rewrite <- of_mul; reflexivity|].
    assert (4 <= P + 1) by lia. pose proof (Z.div_le_mono 4 (P + 1) 4 eq_refl H). change (4 / 4) with 1 in H0. lia.
  - rewrite <- of_mul. apply fe_eq. rewrite fv_of. unfold fe_mul at 3. rewrite fv_of. set (e := (P + 1) / 4).
    assert (Ee : P + 1 = 4 * e). { unfold e. pose proof (Z.div_mod P 4 ltac:(lia)). rewrite E in H. replace (P + 1) with ((P / 4 + 1) * 4) by lia. rewrite Z.div_mul by lia. lia. }
    rewrite <- Z.pow_add_r by lia. replace (fv (fe_mul y y)) with ((fv y * fv y) mod P) by reflexivity. rewrite <- Zpow_facts.Zpower_mod by lia.
    replace (fv y * fv y) with (fv y ^ 2) at 1 by ring. rewrite <- Z.pow_mul_r by lia. replace (2 * (e + e)) with (2 + (P - 1)) by lia. rewrite Z.pow_add_r by lia.
    rewrite Z.mul_mod, fermat by (try assumption; try lia; apply fv_nz; assumption). rewrite Z.mul_1_r, Z.mod_mod by lia. f_equal. ring.
Qed.
(* ---- parity ---- *)
Lemma fv_neg (y : fe) : fv (fe_neg y) = if fv y =? 0 then 0 else P - fv y.
Proof.
  unfold fe_neg. rewrite fv_of. pose proof (fv_range p y). destruct (Z.eqb_spec (fv y) 0) as [->|]; [reflexivity|].
  symmetry. apply Z.mod_unique_pos with (-1); lia.
Qed.
Lemma odd_neg (y : fe) : y <> f0 -> fe_is_odd (fe_neg y) = negb (fe_is_odd y).
Proof.
  intros NZ. unfold fe_is_odd. rewrite fv_neg. destruct (Z.eqb_spec (fv y) 0) as [E|]; [exfalso; apply NZ; apply fe_eq; rewrite fv_f0; exact E|].
  rewrite Z.odd_sub, p_odd. destruct (Z.odd (fv y)); reflexivity.
Qed.
Lemma set_odd_sq (y : fe) s : fe_mul (fe_set_odd y s) (fe_set_odd y s) = fe_mul y y.
Proof. unfold fe_set_odd, fe_neg_cond, fe_select. destruct (xorb _ _); ring. Qed.
Lemma set_odd_parity (y : fe) s : y <> f0 -> fe_is_odd (fe_set_odd y s) = s.
Proof.
  intros NZ. unfold fe_set_odd, fe_neg_cond, fe_select. destruct (fe_is_odd y) eqn:O, s; cbn [xorb]; rewrite ?odd_neg, ?O by exact NZ; reflexivity.
Qed.
Lemma set_odd_zero s : fe_set_odd (@f0 p) s = f0.
Proof. unfold fe_set_odd, fe_neg_cond, fe_select. destruct (xorb _ _); [ring|reflexivity]. Qed.
Lemma sq_roots (x y : fe) : fe_mul x x = fe_mul y y -> x = y \/ x = fe_neg y.
Proof.
  intros E. destruct (fe_eq_dec p x y) as [|N]; [left; assumption|right]. destruct (fe_eq_dec p (fe_add x y) f0) as [Z|N'].
  - replace x with (fe_sub (fe_add x y) y) by ring. rewrite Z. ring.
  - exfalso. apply (FieldProof.mul_nz p Pp (fe_sub x y) (fe_add x y)); [|exact N'|].
    + intros H. apply N. replace x with (fe_add (fe_sub x y) y) by ring. rewrite H. ring.
    + replace (fe_mul (fe_sub x y) (fe_add x y)) with (fe_sub (fe_mul x x) (fe_mul y y)) by ring. rewrite E. ring.
Qed.
Lemma root_parity (x y : fe) : fe_mul x x = fe_mul y y -> fe_is_odd x = fe_is_odd y -> x = y.
Proof.
  intros E O. destruct (sq_roots x y E) as [H|H]; [exact H|]. destruct (fe_eq_dec p y f0) as [-> |N]; [rewrite H; ring|].
  exfalso. rewrite H, odd_neg in O by exact N. destruct (fe_is_odd y); discriminate.
Qed.
(* ---- coordinates ---- *)
Lemma fsize_octs : fsize p = octs P. Proof. unfold fsize, fbits. apply size_octs. reflexivity. Qed.
Lemma fe_export_eq (x : fe) : fe_export p x = i2o P (fv x). Proof. unfold fe_export, i2o. rewrite fsize_octs. reflexivity. Qed.
Lemma fe_import_spec raw : bytes raw -> length raw = octs P ->
  let '(x, ok) := fe_import p raw in (ok = true <-> exists x', raw = i2o P (fv (x' : fe))) /\ (ok = true -> raw = i2o P (fv x)).
Proof.
  intros B L. unfold fe_import. pose proof (be_val_range raw B) as R. destruct (Z.ltb_spec (be_val raw) P) as [H|H].
  - assert (E : raw = i2o P (fv (fe_of p (be_val raw mod 2 ^ Z.of_nat (fbits p))))).
    { rewrite fv_of. rewrite (Z.mod_small (be_val raw)). 2:{ unfold fbits. rewrite sc_bitlen_blen by reflexivity. pose proof (blen_range P eq_refl). lia. } rewrite Z.mod_small by lia. symmetry. apply i2o_back; assumption. }
    split; [split; [intros _; eexists; exact E|reflexivity]|intros _; exact E].
  - split; [split; [discriminate|]|discriminate]. intros (x' & E). pose proof (fv_range p x'). apply (f_equal be_val) in E. rewrite i2o_val in E by lia. lia.
Qed.
Lemma fe_import_export (x : fe) : fe_import p (i2o P (fv x)) = (x, true).
Proof.
  pose proof (fe_import_spec (i2o P (fv x)) (i2o_bytes _ _) (i2o_len _ _)) as H. destruct (fe_import p (i2o P (fv x))) as [y ok]. destruct H as [[_ H] H'].
  assert (O : ok = true) by (apply H; exists x; reflexivity). rewrite O in *. f_equal. specialize (H' eq_refl). apply i2o_inj in H'; try apply fv_range; [|reflexivity]. apply fe_eq. congruence.
Qed.
Lemma odd_mod (y : fe) : fv y mod 2 = if fe_is_odd y then 1 else 0.
Proof. unfold fe_is_odd. rewrite Zmod_odd. reflexivity. Qed.
(* ---- points ---- *)
Variables a b : fe.
Variable h : Z.
Local Notation on := (on' p a b).
Local Notation wrep := (wrep p a b).
Hypothesis ns : nonsingular fe f0 f1 fe_add fe_mul a b.
Hypothesis no2 : h <= 1 -> forall x, ~ on (Aff x f0).
Lemma on_iff x y : on (Aff x y) <-> fe_mul y y = wei_solve_y2 p a b x.
Proof. rewrite (solve_y2_eq p Pp a b ns). reflexivity. Qed.
Lemma set_xy_ok x y : let '(q, ok) := wge_set_xy p a b x y in (ok = true <-> on (Aff x y)) /\ (ok = true -> q = MkW x y false) /\ (ok = false -> q = wge_zero p).
Proof.
  unfold wge_set_xy. pose proof (validate_iff p Pp a b ns x y) as V. destruct (wei_validate_xy p a b x y); cbn [negb fe_select]; (split; [exact V|]); (split; [intros; try discriminate; reflexivity|intros; try discriminate; reflexivity]).
Qed.
(* sign 0 or 1: the point with that x and parity *)
Lemma set_x_ok x s : P mod 4 = 3 -> s = 0 \/ s = 1 -> exists q ok, wge_set_x p a b h x s = Some (q, ok) /\
  (ok = true <-> exists y, on (Aff x y) /\ fe_is_odd y = (s =? 1)) /\ (forall y, on (Aff x y) -> fe_is_odd y = (s =? 1) -> ok = true /\ q = MkW x y false) /\ (ok = false -> q = wge_zero p).
Proof.
  intros E4 S. unfold wge_set_x. rewrite (proj2 (Z.eqb_neq s (-1))) by lia. destruct (sqrt_total (wei_solve_y2 p a b x) E4) as (r & okr & E). rewrite E. cbv zeta.
  set (y := fe_set_odd r (s =? 1)). set (ok := if 1 <? h then okr && negb (fe_is_zero y && negb (s =? 0)) else okr).
  eexists _, ok. split; [reflexivity|].
  assert (H : forall y', on (Aff x y') -> fe_is_odd y' = (s =? 1) -> ok = true /\ y = y').
  { intros y' O Od. apply on_iff in O. rewrite <- O in E. destruct (sqrt_complete y' E4) as (r' & E'). rewrite E in E'. apply (f_equal (fun o => match o with Some v => v | None => (r, okr) end)) in E'. cbv beta iota in E'. apply pair_equal_spec in E'. destruct E' as [_ ->].
    pose proof (sqrt_sound _ _ E) as Sq. assert (Y : y = y').
    { destruct (fe_eq_dec p r f0) as [-> |NZ].
      - unfold y. rewrite set_odd_zero. destruct (fe_eq_dec p y' f0) as [-> |N']; [reflexivity|]. exfalso. apply (FieldProof.mul_nz p Pp y' y' N' N'). rewrite <- Sq. ring.
      - apply root_parity; unfold y; [rewrite set_odd_sq; exact Sq|rewrite set_odd_parity by exact NZ; symmetry; exact Od]. }
    split; [|exact Y]. unfold ok. destruct (1 <? h); [|reflexivity]. cbn [andb]. rewrite Y. destruct (is_zero_spec p y') as [-> |]; [|reflexivity].
    unfold fe_is_odd in Od. rewrite fv_f0 in Od. cbn in Od. destruct S as [-> | ->]; [reflexivity|discriminate]. }
  assert (K : ok = true -> on (Aff x y) /\ fe_is_odd y = (s =? 1)).
  { intros Ok. assert (okr = true) by (unfold ok in Ok; destruct (1 <? h); [apply andb_prop in Ok; apply Ok|exact Ok]). subst okr. pose proof (sqrt_sound _ _ E) as Sq.
    assert (O : on (Aff x y)) by (apply on_iff; unfold y; rewrite set_odd_sq; exact Sq). split; [exact O|]. destruct (fe_eq_dec p r f0) as [-> |NZ]; [|apply set_odd_parity; exact NZ].
    assert (Y0 : y = f0) by apply set_odd_zero. rewrite Y0. unfold fe_is_odd. rewrite fv_f0. unfold ok in Ok. rewrite Y0 in Ok, O. destruct (Z.ltb_spec 1 h).
    - cbn [andb] in Ok. replace (fe_is_zero (@f0 p)) with true in Ok by (destruct (is_zero_spec p (@f0 p)); congruence). cbn [andb] in Ok. destruct S as [-> | ->]; [reflexivity|discriminate Ok].
    - exfalso. exact (no2 H0 x O). }
  split; [split; [intros Ok; exists y; apply K; exact Ok|intros (y' & O & Od); exact (proj1 (H y' O Od))]|].
  split; [intros y' O Od; destruct (H y' O Od) as [-> <-]; split; reflexivity|intros ->; reflexivity].
Qed.
(* sign -1: some point with that x *)
Lemma set_x_any x : P mod 4 = 3 -> exists q ok, wge_set_x p a b h x (-1) = Some (q, ok) /\ (ok = true <-> exists y, on (Aff x y)) /\
  (ok = true -> exists y, q = MkW x y false /\ on (Aff x y) /\ y = fe_pow (wei_solve_y2 p a b x) ((P + 1) / 4)) /\ (ok = false -> q = wge_zero p).
Proof.
  intros E4. unfold wge_set_x. change (-1 =? -1) with true. cbv iota. destruct (sqrt_total (wei_solve_y2 p a b x) E4) as (r & ok & E). rewrite E. eexists _, ok. split; [reflexivity|].
  split; [split|split].
  - intros ->. exists r. apply on_iff. exact (sqrt_sound _ _ E).
  - intros (y & O). apply on_iff in O. rewrite <- O in E. destruct (sqrt_complete y E4) as (r' & E'). congruence.
  - intros ->. exists r. split; [reflexivity|]. split; [apply on_iff; exact (sqrt_sound _ _ E)|]. unfold fe_sqrt in E. rewrite E4 in E. change (3 =? 3) with true in E. cbv iota in E.
    apply (f_equal (fun o => match o with Some v => v | None => (r, true) end)) in E. cbv beta iota in E. apply pair_equal_spec in E. symmetry. apply E.
  - intros ->. reflexivity.
Qed.
End P.
