(* Keys: the checks are what RFC 8017 asks for; encodings round-trip; recovered and generated keys pass the checks. *)
From Coq Require Import Znumtheory.
From Verif.Base Require Import Prelude.
From Verif.Model Require Import Encoding Bio Asn1 NumTheory Rsa.
From Verif.Spec Require Import RsaSpec.
From Verif.Proof Require Import Asn1Proof NumGcd NumInv.

Lemma bitlen_le x b : 0 <= b -> 0 <= x -> (mpz_bitlen x <=? b) = (x <? 2 ^ b).
Proof.
  intros Hb Hx. unfold mpz_bitlen. destruct (Z.eqb_spec x 0) as [->|N].
  - assert (0 < 2 ^ b) by (apply Z.pow_pos_nonneg; lia). destruct (Z.leb_spec 0 b), (Z.ltb_spec 0 (2 ^ b)); lia.
  - rewrite Z.abs_eq by lia. pose proof (Z.log2_lt_pow2 x b ltac:(lia)) as P.
    destruct (Z.leb_spec (Z.log2 x + 1) b), (Z.ltb_spec x (2 ^ b)); try reflexivity; exfalso; [apply P in H0 || idtac|].
    + assert (x < 2 ^ b) by (apply P; lia). lia.
    + assert (Z.log2 x < b) by (apply P; lia). lia.
Qed.
Lemma bitlen_gt x b : 0 <= b -> 0 <= x -> (b <? mpz_bitlen x) = (2 ^ b <=? x).
Proof. intros Hb Hx. rewrite Z.ltb_antisym, bitlen_le by assumption. rewrite (Z.leb_antisym x). reflexivity. Qed.
Lemma bitlen_lt x b : 1 <= b -> 0 <= x -> (mpz_bitlen x <? b) = (x <? 2 ^ (b - 1)).
Proof.
  intros Hb Hx. replace (mpz_bitlen x <? b) with (mpz_bitlen x <=? b - 1); [apply bitlen_le; lia|].
  destruct (Z.leb_spec (mpz_bitlen x) (b - 1)), (Z.ltb_spec (mpz_bitlen x) b); lia.
Qed.
Lemma some_inj {A} (a b : A) : Some a = Some b -> a = b. Proof. congruence. Qed.
Lemma gcdz_eq x y : gcdz x y = Z.gcd x y. Proof. unfold gcdz. rewrite mpz_gcd_spec. reflexivity. Qed.
Lemma lcmz_eq x y : lcmz x y = Z.lcm x y. Proof. unfold lcmz. rewrite mpz_lcm_spec. reflexivity. Qed.
Lemma invert_spec x y : 1 < y ->
  match invert x y with Some z => Z.gcd x y = 1 /\ 0 <= z < y /\ (x * z) mod y = 1 | None => Z.gcd x y <> 1 end.
Proof.
  intros Hy. unfold invert. destruct (mpz_invert_spec x y ltac:(lia)) as (r & -> & R). unfold inverse_of in R. rewrite Z.abs_eq in R by lia.
  destruct r; [|exact R]. rewrite (Z.mod_small 1 y) in R by lia. exact R.
Qed.
Lemma quot_lcm a b : 0 < a -> 0 < b -> Z.quot (a * b) (Z.gcd a b) = Z.lcm a b.
Proof.
  intros Ha Hb. assert (G : Z.gcd a b <> 0) by (intro E; apply Z.gcd_eq_0_l in E; lia). pose proof (Z.gcd_nonneg a b).
  assert (0 < a * b) by nia. rewrite Z.quot_div_nonneg by lia. unfold Z.lcm.
  rewrite (Z.divide_div_mul_exact b (Z.gcd a b) a) by (try assumption; apply Z.gcd_divide_r).
  rewrite Z.abs_eq; [reflexivity|]. apply Z.mul_nonneg_nonneg; [lia|]. apply Z.div_pos; lia.
Qed.
Lemma lcm_ge2 a b : 2 <= a -> 0 < b -> a <= Z.lcm a b.
Proof.
  intros Ha Hb. apply Z.divide_pos_le; [|apply Z.divide_lcm_l]. pose proof (Z.lcm_nonneg a b).
  assert (Z.lcm a b <> 0) by (intro E; apply Z.lcm_eq_0 in E; lia). lia.
Qed.
Lemma mod1_iff x m : 1 < m -> (x mod m = 1 <-> (m | x - 1)).
Proof.
  intros Hm. split; intros E.
  - apply Z.mod_divide; [lia|]. rewrite Zminus_mod, E, (Z.mod_small 1) by lia. rewrite Z.sub_diag, Z.mod_0_l by lia. reflexivity.
  - destruct E as (c & E). replace x with (1 + c * m) by lia. rewrite Z.mod_add by lia. apply Z.mod_small. lia.
Qed.

Lemma odd_mul_odd p q : Z.odd p = true -> Z.odd q = true -> Z.odd (p * q) = true.
Proof. intros H1 H2. rewrite Z.odd_mul, H1, H2. reflexivity. Qed.

Definition valid (k : rsa_priv) : Prop := valid_priv (kn k) (ke k) (kd k) (kp k) (kq k) (kdp k) (kdq k) (kqi k).

Ltac bsplit H := repeat (apply andb_true_iff in H; let H' := fresh H in destruct H as [H H']).

Lemma priv_verify_spec k : rsa_priv_verify k = true <-> valid k.
Proof.
  destruct k as [n e d p q dp dq qi]. unfold valid, rsa_priv_verify, rsa_priv_is_sane, priv_fields, MAX_MOD_BITS, MAX_EXP_BITS, MIN_MOD_BITS, MIN_EXP.
  cbn [kn ke kd kp kq kdp kdq kqi forallb]. rewrite gcdz_eq.
  split.
  - intros V.
    match type of V with (if negb ?c then _ else _) = _ => destruct c eqn:C0; [|discriminate V] end. cbn [negb] in V.
    rewrite !andb_true_r, !andb_true_iff, !Z.ltb_lt in C0.
    destruct C0 as ((P & B) & Be). destruct P as (Pn & Pe & Pd & Pp & Pq & Pdp & Pdq & Pqi). destruct B as (Bn & _).
    rewrite bitlen_le in Bn by (clear - Pn; lia). rewrite bitlen_le in Be by (clear - Pe; lia). apply Z.ltb_lt in Bn, Be.
    rewrite bitlen_lt in V by (clear - Pn; lia). change (512 - 1) with 511 in V.     repeat match type of V with (if ?c then _ else _) = _ => let C := fresh "C" in destruct c eqn:C; [discriminate V|] end. clear V.
    repeat match goal with H : (_ || _) = false |- _ => apply orb_false_iff in H; destruct H | H : negb _ = false |- _ => apply negb_false_iff in H
      | H : (_ <? _) = false |- _ => apply Z.ltb_ge in H | H : (_ <=? _) = false |- _ => apply Z.leb_gt in H | H : (_ =? _) = false |- _ => apply Z.eqb_neq in H
      | H : (_ =? _) = true |- _ => apply Z.eqb_eq in H end.
    match goal with H : 2 ^ 511 <= n |- _ => rename H into HN end.
    assert (Hsz : 2 ^ 511 <= n < 2 ^ 16384) by (split; assumption). assert (He : 3 <= e < 2 ^ 33) by (split; assumption).
    assert (V : 2 ^ 511 <= n < 2 ^ 16384 -> 3 <= e < 2 ^ 33 -> valid_priv n e d p q dp dq qi); [|apply V; assumption]. clear HN Bn Be Hsz He.
    rewrite quot_lcm in * by lia. assert (L := lcm_ge2 (p - 1) (q - 1) ltac:(lia) ltac:(lia)).
    assert (X1 : (Z.lcm (p - 1) (q - 1) | e * d - 1)) by (apply mod1_iff; [lia|assumption]).
    assert (X2 : (p | q * qi - 1)) by (apply mod1_iff; [lia|assumption]).
    assert (X3 : dp = d mod (p - 1) /\ 0 < dp) by lia. assert (X4 : dq = d mod (q - 1) /\ 0 < dq) by lia.
    assert (X5 : 2 <= d < (p - 1) * (q - 1)) by lia. assert (X6 : 2 <= qi < p) by lia.
    intros Hsz He. constructor; try assumption; try (split; assumption). symmetry; assumption.
  - intros V. destruct V as [En [N1 N2] [[E1 E2] E3] [P1 P2] [Q1 Q2] PQ [D1 D2] ED [DP1 DP2] [DQ1 DQ2] [[QI1 QI2] QI3]].
    rewrite !bitlen_le, bitlen_lt by (clear - En E1 P1 Q1 D1 DP2 DQ2 QI1; nia). change (512 - 1) with 511.
    assert (HM : 0 < 2 ^ 511) by (apply Z.pow_pos_nonneg; clear; lia).
    set (M1' := 2 ^ 16384) in *. clearbody M1'. set (M0 := 2 ^ 511) in *. clearbody M0. set (M2' := 2 ^ 33) in *. clearbody M2'.
    assert (Hphi : (p - 1) * (q - 1) < n) by (clear - En P1 Q1; nia).
    assert (L := lcm_ge2 (p - 1) (q - 1) ltac:(lia) ltac:(lia)).
    assert (Bdp : 0 < dp < p - 1) by (pose proof (Z.mod_pos_bound d (p - 1) ltac:(lia)); clear - H DP1 DP2; lia).
    assert (Bdq : 0 < dq < q - 1) by (pose proof (Z.mod_pos_bound d (q - 1) ltac:(lia)); clear - H DQ1 DQ2; lia).
    assert (Bp : p < n) by (clear - En P1 Q1; nia). assert (Bq : q < n) by (clear - En P1 Q1; nia).
    rewrite quot_lcm by lia.
    assert (T : forall a b, a < b -> (a <? b) = true) by (intros; apply Z.ltb_lt; assumption).
    assert (F : forall a b, b <= a -> (a <? b) = false) by (intros; apply Z.ltb_ge; assumption).
    assert (G : forall a b, b < a -> (a <=? b) = false) by (intros; apply Z.leb_gt; assumption).
    assert (NE : forall a b, a <> b -> (a =? b) = false) by (intros; apply Z.eqb_neq; assumption).
    assert (On : Z.odd n = true) by (rewrite En; apply odd_mul_odd; assumption).
    assert (EQ : forall a b, a = b -> (a =? b) = true) by (intros; apply Z.eqb_eq; assumption).
    assert (M1 : (e * d) mod Z.lcm (p - 1) (q - 1) = 1) by (apply mod1_iff; [lia|assumption]).
    assert (M2 : (q * qi) mod p = 1) by (apply mod1_iff; [lia|assumption]).
    rewrite M1, M2. rewrite <- DP1, <- DQ1, <- En. rewrite !Z.eqb_refl, On, E3, P2, Q2.
    clear - HM T F G NE N1 N2 E1 E2 P1 Q1 PQ D1 D2 QI1 QI2 Hphi Bdp Bdq Bp Bq.
    rewrite (T 0 n), (T 0 e), (T 0 d), (T 0 p), (T 0 q), (T 0 dp), (T 0 dq), (T 0 qi), (T n), (T e), (T d), (T p), (T q), (T dp), (T dq), (T qi) by lia.
    rewrite (F n), (F e), (F p), (F q), (F d), (G _ d), (NE dp), (NE dq), (G _ dp), (G _ dq), (F qi), (G _ qi), (NE p) by lia. reflexivity.
Qed.

Lemma pub_verify_spec n e : rsa_pub_verify (MkPub n e) = true <-> valid_pub n e.
Proof.
  unfold rsa_pub_verify, valid_pub, MIN_MOD_BITS, MAX_MOD_BITS, MIN_EXP, MAX_EXP_BITS. cbn [un ue].
  destruct (Z.ltb_spec n 0) as [l|Hn].
  { split; [discriminate|]. intros ((A & _) & _). assert (P : 0 < 2 ^ 511) by (apply Z.pow_pos_nonneg; clear; lia). clear - A P l. lia. }
  rewrite bitlen_lt, bitlen_gt by lia. change (512 - 1) with 511. set (M1' := 2 ^ 16384) in *. clearbody M1'. set (M0 := 2 ^ 511) in *. clearbody M0.
  destruct (Z.ltb_spec n M0) as [|A]; cbn [orb]; [split; [discriminate|lia]|].
  destruct (Z.leb_spec M1' n) as [|B]; [split; [discriminate|lia]|].
  destruct (Z.ltb_spec e 3) as [|C]; [split; [discriminate|lia]|].
  rewrite bitlen_gt by lia. destruct (Z.leb_spec (2 ^ 33) e) as [|D]; [split; [discriminate|lia]|].
  destruct (Z.odd n); cbn [negb]; [|split; [discriminate|intros (_ & _ & ? & _); discriminate]].
  destruct (Z.odd e); cbn [negb]; [|split; [discriminate|intros (_ & _ & _ & ?); discriminate]].
  split; [|reflexivity]. intros _. repeat split; lia.
Qed.

Lemma valid_pub_of k : valid k -> valid_pub (kn k) (ke k).
Proof.
  intros [En N E [_ P] [_ Q] _ _ _ _ _ _]. repeat split; try (apply N || apply E). rewrite En. apply odd_mul_odd; assumption.
Qed.

(* ---- recovered and generated keys pass the checks ---- *)
Lemma inverse_pos e d m : 1 < m -> (e * d) mod m = 1 -> 0 <= d -> 0 < d.
Proof. intros Hm E Hd. destruct (Z.eq_dec d 0) as [->|N]; [|lia]. rewrite Z.mul_0_r, Z.mod_0_l in E by lia. discriminate. Qed.

Lemma mod_pos_of_inv e d a m : 2 <= a -> (a | m) -> (m | e * d - 1) -> 0 < d mod a.
Proof.
  intros Ha D E. pose proof (Z.mod_pos_bound d a ltac:(lia)). destruct (Z.eq_dec (d mod a) 0) as [Z0|N]; [|lia]. exfalso.
  apply Z.mod_divide in Z0; [|lia]. assert (A1 : (a | e * d - 1)) by exact (Z.divide_trans _ _ _ D E).
  assert (A2 : (a | 1)). { replace 1 with (e * d - (e * d - 1)) by lia. apply Z.divide_sub_r; [apply Z.divide_mul_r; assumption|assumption]. }
  apply Z.divide_1_r_nonneg in A2; lia.
Qed.

(* from primes-like p > q and an inverse d of e *)
Lemma make_valid p q e d qi : q < p -> 3 <= q -> Z.odd p = true -> Z.odd q = true -> 3 <= e < 2 ^ 33 -> Z.odd e = true ->
  2 ^ 511 <= p * q < 2 ^ 16384 -> 0 <= d < Z.lcm (p - 1) (q - 1) -> (e * d) mod Z.lcm (p - 1) (q - 1) = 1 ->
  0 <= qi < p -> (q * qi) mod p = 1 -> valid (MkPriv (p * q) e d p q (d mod (p - 1)) (d mod (q - 1)) qi).
Proof.
  intros Hpq Hq Op Oq He Oe Hn Hd Ed Hqi Eq.
  assert (L := lcm_ge2 (p - 1) (q - 1) ltac:(clear - Hpq Hq; lia) ltac:(clear - Hq; lia)).
  assert (Big : e < p - 1).
  { assert (A : 2 ^ 511 < p * p) by (apply Z.le_lt_trans with (p * q); [apply Hn|clear - Hpq Hq; nia]). destruct (Z.lt_ge_cases e (p - 1)) as [|G]; [assumption|exfalso].
    assert (B : p <= 2 ^ 33) by (clear - G He; lia). assert (C : p * p <= 2 ^ 33 * 2 ^ 33) by (apply Z.mul_le_mono_nonneg; clear - B Hq Hpq; lia).
    assert (D : 2 ^ 33 * 2 ^ 33 < 2 ^ 511) by (vm_compute; reflexivity). clear - A C D. lia. }
  assert (X : (Z.lcm (p - 1) (q - 1) | e * d - 1)) by (apply mod1_iff; [clear - L Hpq Hq; lia|assumption]).
  assert (Dp : 0 < d) by (eapply inverse_pos; [|exact Ed|]; [clear - L Hpq Hq|clear - Hd]; lia).
  assert (D2 : 2 <= d).
  { destruct (Z.eq_dec d 1) as [->|N]; [|clear - Dp N; lia]. exfalso. rewrite Z.mul_1_r in Ed.
    rewrite Z.mod_small in Ed by (clear - He L Big; lia). clear - Ed He. lia. }
  assert (Even : 2 <= Z.gcd (p - 1) (q - 1)).
  { assert (G2 : (2 | Z.gcd (p - 1) (q - 1))).
    { apply Z.gcd_greatest.
      - exists ((p - 1) / 2). rewrite (Zodd_bool_iff p) in Op. destruct (Zodd_ex p Op) as (m & ->). clear. replace (2 * m + 1 - 1) with (m * 2) by lia. rewrite Z.div_mul by lia. reflexivity.
      - exists ((q - 1) / 2). rewrite (Zodd_bool_iff q) in Oq. destruct (Zodd_ex q Oq) as (m & ->). clear. replace (2 * m + 1 - 1) with (m * 2) by lia. rewrite Z.div_mul by lia. reflexivity. }
    apply Z.divide_pos_le; [|assumption]. pose proof (Z.gcd_nonneg (p - 1) (q - 1)) as G0.
    assert (G1 : Z.gcd (p - 1) (q - 1) <> 0) by (intro E0; apply Z.gcd_eq_0_l in E0; clear - E0 Hpq Hq; lia). clear - G0 G1. lia. }
  assert (LP : Z.lcm (p - 1) (q - 1) * Z.gcd (p - 1) (q - 1) = (p - 1) * (q - 1)).
  { rewrite <- (quot_lcm (p - 1) (q - 1)) by (clear - Hpq Hq; lia).
    destruct (Z.gcd_divide_l (p - 1) (q - 1)) as (u & Eu). set (g := Z.gcd (p - 1) (q - 1)) in *.
    replace ((p - 1) * (q - 1)) with (u * (q - 1) * g) by (rewrite Eu; ring). rewrite Z.quot_mul by (clear - Even; lia). reflexivity. }
  unfold valid. cbn [kn ke kd kp kq kdp kdq kqi]. constructor; try assumption; try (split; assumption); try (clear - Hpq Hq; lia).
  - split; [clear - Hpq Hq; lia|assumption].
  - split; [assumption|]. clear - Hd LP Even. nia.
  - split; [reflexivity|]. eapply mod_pos_of_inv; [|apply Z.divide_lcm_l|exact X]. clear - Hpq Hq. lia.
  - split; [reflexivity|]. eapply mod_pos_of_inv; [|apply Z.divide_lcm_r|exact X]. clear - Hq. lia.
  - split; [|apply mod1_iff; [clear - Hpq Hq; lia|assumption]]. split; [|apply Hqi].
    assert (Q0 : 0 < qi) by (eapply inverse_pos; [|exact Eq|]; [clear - Hpq Hq|clear - Hqi]; lia).
    destruct (Z.eq_dec qi 1) as [->|N]; [|clear - Q0 N; lia]. exfalso. rewrite Z.mul_1_r, Z.mod_small in Eq by (clear - Hpq Hq; lia). clear - Eq Hq. lia.
Qed.



Lemma set_pqe_valid p q e k : rsa_priv_set_pqe p q e = Some k -> valid k /\ kn k = p * q /\ ke k = e /\ (kp k = Z.max p q /\ kq k = Z.min p q).
Proof.
  unfold rsa_priv_set_pqe.
  assert (HX : forall p' q', q' <= p' -> p' = Z.max p q -> q' = Z.min p q -> p' * q' = p * q ->
    (if p' =? q' then None else
     if (p' <? 3) || (MAX_MOD_BITS <? mpz_bitlen p') then None else
     if (q' <? 3) || (MAX_MOD_BITS <? mpz_bitlen q') then None else
     if (e <? MIN_EXP) || (MAX_EXP_BITS <? mpz_bitlen e) then None else
     if negb (Z.odd p') || negb (Z.odd q') || negb (Z.odd e) then None else
     let n := p' * q' in
     if (mpz_bitlen n <? MIN_MOD_BITS) || (MAX_MOD_BITS <? mpz_bitlen n) then None else
     let pm1 := p' - 1 in let qm1 := q' - 1 in
     obind (invert e (lcmz pm1 qm1)) (fun d => obind (invert q' p') (fun qi => Some (MkPriv n e d p' q' (d mod pm1) (d mod qm1) qi)))) = Some k ->
    valid k /\ kn k = p * q /\ ke k = e /\ (kp k = Z.max p q /\ kq k = Z.min p q)).
  { intros p' q' Hle Ep' Eq' Epq. unfold MAX_MOD_BITS, MAX_EXP_BITS, MIN_MOD_BITS, MIN_EXP. rewrite lcmz_eq. cbv zeta.
    destruct (Z.eqb_spec p' q') as [|N1]; [discriminate|].
    destruct (Z.ltb_spec p' 3) as [|N2]; [discriminate|]. destruct (16384 <? mpz_bitlen p'); [discriminate|]. cbn [orb].
    destruct (Z.ltb_spec q' 3) as [|N3]; [discriminate|]. destruct (16384 <? mpz_bitlen q'); [discriminate|]. cbn [orb].
    destruct (Z.ltb_spec e 3) as [|N4]; [discriminate|]. rewrite (bitlen_gt e) by lia. destruct (Z.leb_spec (2 ^ 33) e) as [|N5]; [discriminate|]. cbn [orb].
    destruct (Z.odd p') eqn:O1; [|discriminate]. destruct (Z.odd q') eqn:O2; [|discriminate]. destruct (Z.odd e) eqn:O3; [|discriminate]. cbn [negb orb].
    assert (Pn : 0 <= p' * q') by (clear - N2 N3; nia). rewrite bitlen_lt by (clear - Pn; lia). rewrite bitlen_gt by (clear - Pn; lia). change (512 - 1) with 511.
    destruct (Z.ltb_spec (p' * q') (2 ^ 511)) as [|N6]; [discriminate|]. destruct (Z.leb_spec (2 ^ 16384) (p' * q')) as [|N7]; [discriminate|]. cbn [orb].
    pose proof (lcm_ge2 (p' - 1) (q' - 1) ltac:(clear - N2; lia) ltac:(clear - N3; lia)) as L.
    pose proof (invert_spec e (Z.lcm (p' - 1) (q' - 1)) ltac:(clear - L N2; lia)) as I1. destruct (invert e (Z.lcm (p' - 1) (q' - 1))) as [d|]; [|discriminate].
    pose proof (invert_spec q' p' ltac:(clear - N2; lia)) as I2. destruct (invert q' p') as [qi|]; [|discriminate]. cbn [obind].
    intros E. apply some_inj in E. subst k. destruct I1 as (_ & I1a & I1b). destruct I2 as (_ & I2a & I2b).
    split; [|cbn [kn ke kp kq]; repeat split; assumption].
    apply make_valid; try assumption; try (split; assumption). clear - Hle N1. lia. }
  destruct (Z.ltb_spec p q); apply HX; try lia.
Qed.
