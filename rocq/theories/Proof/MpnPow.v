(* Windowed exponentiation on limb arrays. *)
From Coq Require Import Zpow_facts Znumtheory.
From Verif.Base Require Import Prelude.
From Verif.Model Require Import Encoding Hash Mpn Mpz MpnMod.
From Verif.Proof Require Import MpnProof MpnShift MpnDiv MpzProof MpzOps MpzBits MpzLogic MpnModProof.

Section Bits.
Variable w : Z.
Hypothesis Hw : 4 < w.
Notation B := (LB w).
Notation limb := (below (LB w)).
Notation limbs := (Forall (below (LB w))).
Notation val := (dval (LB w)).

Lemma tstbit_n : forall ys p, limbs ys -> 0 <= p -> mpn_tstbit w ys p = Z.testbit (val ys) p.
Proof. intros ys p Hy Hp. unfold mpn_tstbit. rewrite val_bit, Z.testbit_odd by (lia || assumption). reflexivity. Qed.
Lemma getbits_spec : forall ys p, limbs ys -> 0 <= p -> mpn_getbits w ys p 4 = (val ys / 2 ^ p) mod 16.
Proof.
  intros ys p Hy Hp. unfold mpn_getbits. cbv zeta. set (s := Z.to_nat (p / w)). assert (W0 : 0 < w) by lia.
  pose proof (Z.mod_pos_bound p w W0) as Rr. set (r := p mod w) in *. assert (D0 : 0 <= p / w) by (apply Z.div_pos; lia).
  assert (Ep : p = w * (p / w) + r) by (apply Z.div_mod; lia).
  assert (VB : forall n, 0 <= n < 4 -> Z.testbit (val ys) (p + n) = if r + n <? w then Z.testbit (nth s ys 0) (r + n) else Z.testbit (nth (s + 1) ys 0) (r + n - w)).
  { intros n Hn. rewrite val_bit by (lia || assumption). destruct (Z.ltb_spec (r + n) w) as [L|L].
    - rewrite <- (Z.div_unique (p + n) w (p / w) (r + n)) by lia. rewrite <- (Z.mod_unique (p + n) w (p / w) (r + n)) by lia. reflexivity.
    - rewrite <- (Z.div_unique (p + n) w (p / w + 1) (r + n - w)) by lia. rewrite <- (Z.mod_unique (p + n) w (p / w + 1) (r + n - w)) by lia.
      rewrite Z2Nat.inj_add by lia. reflexivity. }
  assert (RB : forall n, 0 <= n -> Z.testbit ((val ys / 2 ^ p) mod 16) n = if n <? 4 then Z.testbit (val ys) (p + n) else false).
  { intros n Hn. change 16 with (2 ^ 4). destruct (Z.ltb_spec n 4) as [L|L].
    - rewrite Z.mod_pow2_bits_low, Z.div_pow2_bits by lia. f_equal. lia.
    - apply Z.mod_pow2_bits_high. lia. }
  assert (M4 : forall a n, 0 <= n -> Z.testbit (Z.land (Z.shiftr a r) (2 ^ 4 - 1)) n = if n <? 4 then Z.testbit a (r + n) else false).
  { intros a n Hn. rewrite Z.land_spec, Z.shiftr_spec by lia. change (2 ^ 4 - 1) with (Z.ones 4). destruct (Z.ltb_spec n 4) as [L|L].
    - rewrite Z.ones_spec_low, andb_true_r by lia. f_equal. lia.
    - rewrite Z.ones_spec_high, andb_false_r by lia. reflexivity. }
  apply Z.bits_inj'. intros n Hn. rewrite RB by exact Hn. destruct (Nat.leb_spec (length ys) s) as [L|L].
  - rewrite Z.bits_0. destruct (Z.ltb_spec n 4) as [L4|L4]; [|reflexivity]. rewrite VB by lia. rewrite !nth_overflow by lia. rewrite !Z.bits_0. destruct (r + n <? w); reflexivity.
  - pose proof (nth_limb w W0 ys s Hy) as Ln. destruct (Z.ltb_spec w (r + 4)) as [C|C]; cbn [andb].
    + destruct (Nat.ltb_spec (s + 1) (length ys)) as [C2|C2].
      * rewrite Z.lor_spec, M4 by exact Hn. unfold tr, LB. set (b := Z.land (nth (s + 1) ys 0) (2 ^ (r + 4 - w) - 1)).
        assert (TB : Z.testbit (Z.shiftl b (w - r) mod 2 ^ w) n = if (n <? 4) && (w <=? r + n) then Z.testbit (nth (s + 1) ys 0) (r + n - w) else false).
        { destruct (Z_lt_dec n w) as [Nw|Nw].
          - rewrite Z.mod_pow2_bits_low, Z.shiftl_spec by lia. destruct (Z.leb_spec w (r + n)) as [G|G].
            + unfold b. rewrite Z.land_spec. replace (2 ^ (r + 4 - w) - 1) with (Z.ones (r + 4 - w)) by (rewrite Z.ones_equiv; lia). destruct (Z.ltb_spec n 4) as [L4|L4]; cbn [andb].
              * rewrite Z.ones_spec_low, andb_true_r by lia. f_equal. lia.
              * rewrite Z.ones_spec_high, andb_false_r by lia. reflexivity.
            + rewrite andb_false_r. apply Z.testbit_neg_r. lia.
          - rewrite Z.mod_pow2_bits_high by lia. destruct (Z.ltb_spec n 4) as [L4|L4]; [lia|reflexivity]. }
        rewrite TB. destruct (Z.ltb_spec n 4) as [L4|L4]; cbn [andb]; [|reflexivity]. rewrite VB by lia. destruct (Z.leb_spec w (r + n)) as [G|G]; destruct (Z.ltb_spec (r + n) w) as [G2|G2]; try lia.
        -- rewrite (below_high w (nth s ys 0) (r + n)) by (lia || exact Ln). reflexivity.
        -- apply orb_false_r.
      * rewrite M4 by exact Hn. destruct (Z.ltb_spec n 4) as [L4|L4]; [|reflexivity]. rewrite VB by lia. destruct (Z.ltb_spec (r + n) w) as [G2|G2]; [reflexivity|].
        rewrite (below_high w (nth s ys 0) (r + n)) by (lia || exact Ln). rewrite nth_overflow, Z.bits_0 by lia. reflexivity.
    + rewrite M4 by exact Hn. destruct (Z.ltb_spec n 4) as [L4|L4]; [|reflexivity]. rewrite VB by lia. destruct (Z.ltb_spec (r + n) w) as [G2|G2]; [reflexivity|lia].
Qed.

Lemma bit_low : forall Y i, 0 <= i -> Y / 2 ^ i = 2 * (Y / 2 ^ (i + 1)) + Z.b2z (Z.testbit Y i).
Proof.
  intros Y i Hi. rewrite Z.pow_add_r, Z.pow_1_r by lia. rewrite <- Z.div_div by (try lia; apply Z.pow_nonzero; lia).
  rewrite Z.testbit_odd, Z.shiftr_div_pow2 by exact Hi. set (a := Y / 2 ^ i). pose proof (Z.div_mod a 2 ltac:(lia)) as D. rewrite Zmod_odd in D. destruct (Z.odd a); cbn [Z.b2z]; lia.
Qed.
Lemma bits_low : forall Y i k, 0 <= i -> 0 <= k -> Y / 2 ^ i = 2 ^ k * (Y / 2 ^ (i + k)) + (Y / 2 ^ i) mod 2 ^ k.
Proof. intros Y i k Hi Hk. rewrite Z.pow_add_r by lia. rewrite <- Z.div_div by (try apply Z.pow_nonzero; try apply Z.pow_pos_nonneg; lia). apply Z.div_mod. apply Z.pow_nonzero; lia. Qed.
Lemma nib_split : forall A b s, 0 <= s <= 3 -> A mod 16 = b -> (A / 2 ^ s) mod 2 ^ (4 - s) = Z.shiftr b s.
Proof.
  intros A b s Hs Hb. subst b. rewrite Z.shiftr_div_pow2 by lia. assert (P1 : 0 < 2 ^ s) by (apply Z.pow_pos_nonneg; lia). assert (P2 : 0 < 2 ^ (4 - s)) by (apply Z.pow_pos_nonneg; lia).
  replace 16 with (2 ^ s * 2 ^ (4 - s)) by (rewrite <- Z.pow_add_r by lia; replace (s + (4 - s)) with 4 by lia; reflexivity).
  rewrite Z.rem_mul_r by lia. rewrite (Z.mul_comm (2 ^ s)), Z.div_add by lia. rewrite (Z.div_small (A mod 2 ^ s)) by (apply Z.mod_pos_bound; lia). reflexivity.
Qed.

Section Window.
Variable mul : list Z -> list Z -> outcome (list Z).
Variable sqr : list Z -> outcome (list Z).
Variable P : list Z -> Z -> Prop.
Hypothesis Hmul : forall a b e f, 0 <= e -> 0 <= f -> P a e -> P b f -> exists c, mul a b = Ok c /\ P c (e + f).
Hypothesis Hsqr : forall a e, 0 <= e -> P a e -> exists c, sqr a = Ok c /\ P c (2 * e).

Lemma wnd_fill_spec : forall n a r e f, 0 <= e -> 0 <= f -> P a e -> P r f ->
  exists t, wnd_fill mul n a r = Ok t /\ length t = n /\ forall i, (i < n)%nat -> P (nth i t []) (e + Z.of_nat (S i) * f).
Proof.
  induction n as [|n IH]; intros a r e f He Hf Pa Pr; [exists []; split; [reflexivity|]; split; [reflexivity|intros i Hi; lia]|].
  cbn [wnd_fill]. destruct (Hmul a r e f He Hf Pa Pr) as (x & E & Px). rewrite E. cbn [bind]. destruct (IH x r (e + f) f ltac:(lia) Hf Px Pr) as (t & Et & Lt & Ht). rewrite Et. cbn [bind].
  exists (x :: t). split; [reflexivity|]. split; [cbn [length]; lia|]. intros [|i] Hi; cbn [nth]; [replace (e + Z.of_nat 1 * f) with (e + f) by lia; exact Px|].
  replace (e + Z.of_nat (S (S i)) * f) with (e + f + Z.of_nat (S i) * f) by lia. apply Ht. lia.
Qed.
Lemma sqrs_spec : forall n a e, 0 <= e -> P a e -> exists c, sqrs sqr n a = Ok c /\ P c (2 ^ Z.of_nat n * e).
Proof.
  induction n as [|n IH]; intros a e He Pa; [exists a; split; [reflexivity|]; replace (2 ^ Z.of_nat 0 * e) with e by (cbn [Z.of_nat]; lia); exact Pa|].
  cbn [sqrs]. destruct (Hsqr a e He Pa) as (x & E & Px). rewrite E. cbn [bind]. destruct (IH x (2 * e) ltac:(lia) Px) as (c & Ec & Pc). exists c. split; [exact Ec|].
  replace (2 ^ Z.of_nat (S n) * e) with (2 ^ Z.of_nat n * (2 * e)); [exact Pc|]. rewrite Nat2Z.inj_succ, Z.pow_succ_r by lia. ring.
Qed.
Lemma ladder_spec : forall ys a i r, limbs ys -> P a 1 -> P r (val ys / 2 ^ Z.of_nat i) -> exists c, ladder w mul sqr i ys a r = Ok c /\ P c (val ys).
Proof.
  intros ys a i r Hy Pa. pose proof (val_range w ltac:(lia) ys Hy) as Ry. revert r. induction i as [|i IH]; intros r Pr.
  - cbn [Z.of_nat] in Pr. change (2 ^ 0) with 1 in Pr. rewrite Z.div_1_r in Pr. exists r. split; [reflexivity|exact Pr].
  - cbn [ladder]. assert (D : 0 <= val ys / 2 ^ Z.of_nat (S i)) by (apply Z.div_pos; [lia|apply Z.pow_pos_nonneg; lia]). destruct (Hsqr r _ D Pr) as (x & E & Px). rewrite E. cbn [bind].
    pose proof (bit_low (val ys) (Z.of_nat i) ltac:(lia)) as BL. replace (Z.of_nat i + 1) with (Z.of_nat (S i)) in BL by lia. rewrite tstbit_n by (lia || assumption). destruct (Z.testbit (val ys) (Z.of_nat i)); cbn [Z.b2z] in BL.
    + destruct (Hmul x a (2 * (val ys / 2 ^ Z.of_nat (S i))) 1 ltac:(lia) ltac:(lia) Px Pa) as (z & Ez & Pz). rewrite Ez. cbn [bind]. apply IH. rewrite BL. exact Pz.
    + cbn [bind]. apply IH. rewrite BL, Z.add_0_r. exact Px.
Qed.
Lemma slide_spec : forall ys wnd len, limbs ys -> (forall j, (j < 8)%nat -> P (nth j wnd []) (1 + 2 * Z.of_nat j)) -> 2 ^ (len - 1) <= val ys < 2 ^ len -> 4 <= len ->
  forall fuel i r, i <= len -> i <= Z.of_nat fuel -> (i < len -> P r (val ys / 2 ^ i)) -> 0 <= i ->
  exists r' i', slide w mul sqr fuel wnd ys len i r = Ok (r', i') /\ 0 <= i' < 4 /\ P r' (val ys / 2 ^ i').
Proof.
  intros ys wnd len Hy Hwnd Hlen Hl4. set (Y := val ys) in *. assert (Y0 : 0 <= Y) by (pose proof (Z.pow_pos_nonneg 2 (len - 1)); lia).
  induction fuel as [|fuel IH]; intros i r Hi Hf Pr Hi0.
  - cbn [slide]. destruct (Z.ltb_spec i 4) as [L|L]; [|lia]. exists r, i. split; [reflexivity|]. split; [lia|]. apply Pr. lia.
  - cbn [slide]. destruct (Z.ltb_spec i 4) as [L|L]; [exists r, i; split; [reflexivity|]; split; [lia|]; apply Pr; lia|].
    cbv zeta. rewrite getbits_spec by (lia || assumption). fold Y. set (A := Y / 2 ^ (i - 4)). set (bits := A mod 16). pose proof (Z.mod_pos_bound A 16 ltac:(lia)) as Rb. fold bits in Rb.
    assert (DY : forall k, 0 <= Y / 2 ^ k) by (intros k; destruct (Z_lt_dec k 0) as [K|K]; [rewrite Z.pow_neg_r, Zdiv_0_r by lia; lia|apply Z.div_pos; [exact Y0|apply Z.pow_pos_nonneg; lia]]).
    pose proof (bits_low Y (i - 4) 4 ltac:(lia) ltac:(lia)) as BL. replace (i - 4 + 4) with i in BL by lia. fold A in BL. change (2 ^ 4) with 16 in BL. fold bits in BL.
    assert (ET : forall k, 0 <= k <= 4 -> Y / 2 ^ (i - 4 + k) = A / 2 ^ k). { intros k Hk. unfold A. rewrite Z.pow_add_r by lia. symmetry. apply Z.div_div; [apply Z.pow_nonzero; lia|apply Z.pow_pos_nonneg; lia]. }
    destruct (Z.ltb_spec bits 8) as [L8|L8].
    + assert (Hne : i < len).
      { destruct (Z.eq_dec i len) as [E|E]; [|lia]. exfalso. subst i. assert (YL : Y / 2 ^ len = 0) by (apply Z.div_small; lia). rewrite YL in BL.
        assert (A8 : 8 <= A). { unfold A. apply Z.div_le_lower_bound; [apply Z.pow_pos_nonneg; lia|]. replace 8 with (2 ^ 3) by reflexivity. rewrite <- Z.pow_add_r by lia. replace (len - 4 + 3) with (len - 1) by lia. lia. }
        clearbody bits A. clear - BL A8 L8. lia. }
      destruct (Hsqr r _ (DY i) (Pr Hne)) as (x & E & Px). rewrite E. cbn [bind]. apply IH; [clear - Hi Hf L; lia|clear - Hi Hf L; lia|intros _|clear - Hi Hf L; lia]. replace (Y / 2 ^ (i - 1)) with (2 * (Y / 2 ^ i)); [exact Px|].
      replace (i - 1) with (i - 4 + 3) by lia. rewrite ET by lia. change (2 ^ 3) with 8. rewrite BL. replace (16 * (Y / 2 ^ i) + bits) with (bits + (2 * (Y / 2 ^ i)) * 8) by ring. rewrite Z.div_add by discriminate. rewrite (Z.div_small bits 8) by (clear - Rb L8; clearbody bits; lia). reflexivity.
    + assert (Cz : let s := ctz bits in 0 <= s <= 3 /\ 1 <= Z.shiftr bits s < 16 /\ Z.shiftr bits s = 1 + 2 * Z.shiftr (Z.shiftr bits s) 1 /\ Z.shiftr (Z.shiftr bits s) 1 < 8).
      { clear - Rb L8. clearbody bits. assert (C : bits = 8 \/ bits = 9 \/ bits = 10 \/ bits = 11 \/ bits = 12 \/ bits = 13 \/ bits = 14 \/ bits = 15) by lia.
        destruct C as [C|[C|[C|[C|[C|[C|[C|C]]]]]]]; rewrite C; cbn; lia. }
      cbv zeta in Cz. set (s := ctz bits) in *. destruct Cz as (C1 & C2 & C3 & C4). set (b := Z.shiftr bits s) in *. set (h := Z.shiftr b 1) in *.
      assert (h0 : 0 <= h) by (clear - C2 C3; lia). assert (h8 : (Z.to_nat h < 8)%nat) by (clear - h0 C4; clearbody h; lia). pose proof (Hwnd (Z.to_nat h) h8) as Pe. rewrite Z2Nat.id in Pe by exact h0. rewrite <- C3 in Pe.
      assert (NX : Y / 2 ^ (i - (4 - s)) = 2 ^ (4 - s) * (Y / 2 ^ i) + b).
      { replace (i - (4 - s)) with (i - 4 + s) by (clear; lia). rewrite (bits_low Y (i - 4 + s) (4 - s)) by (clear - L C1; lia). replace (i - 4 + s + (4 - s)) with i by (clear; lia). f_equal. rewrite ET by (clear - C1; lia). apply nib_split; [clear - C1; lia|reflexivity]. }
      destruct (Z.eqb_spec i len) as [E|E].
      * clearbody s. apply IH; [clear - C1 Hi Hf L; lia|clear - C1 Hi Hf L; lia|intros _|clear - C1 Hi Hf L; lia]. rewrite NX. subst i. rewrite (Z.div_small Y (2 ^ len)) by (clear - Y0 Hlen; lia). rewrite Z.mul_0_r, Z.add_0_l. exact Pe.
      * destruct (sqrs_spec (Z.to_nat (4 - s)) r _ (DY i) (Pr ltac:(clear - E Hi; lia))) as (x & Ex & Px). rewrite Ex. cbn [bind]. rewrite Z2Nat.id in Px by (clear - C1; lia).
        assert (D2 : 0 <= 2 ^ (4 - s) * (Y / 2 ^ i)) by (apply Z.mul_nonneg_nonneg; [apply Z.pow_nonneg; clear; lia|apply DY]).
        assert (b0 : 0 <= b) by (clear - C2; lia). destruct (Hmul x _ _ _ D2 b0 Px Pe) as (z & Ez & Pz). rewrite Ez. cbn [bind]. clearbody s. apply IH; [clear - C1 Hi Hf L; lia|clear - C1 Hi Hf L; lia|intros _|clear - C1 Hi Hf L; lia]. rewrite NX. exact Pz.
Qed.
Lemma slide_pow_spec : forall ys a, normal w ys -> ys <> [] -> P a 1 -> exists r, slide_pow w mul sqr ys a = Ok r /\ P r (val ys).
Proof.
  intros ys a Ny Hn Pa. unfold slide_pow. cbv zeta. assert (W0 : 0 < w) by lia. set (len := Z.of_nat (length ys) * w - mp_clz w (nth (length ys - 1) ys 0)).
  pose proof (normal_pos w W0 ys Ny Hn) as Pv. pose proof (val_range w W0 ys (proj1 Ny)) as Rv.
  assert (EL : len = Z.log2 (val ys) + 1).
  { pose proof (bitlen_spec w W0 (mkz false ys) (val ys) (isz_mkz w false ys (val ys) Ny eq_refl)) as BL. unfold mpz_bitlen in BL. rewrite lm_mkz in BL.
    destruct (Nat.eqb_spec (length ys) 0) as [E|E]; [destruct ys; [contradiction|discriminate]|]. fold len in BL. destruct (Z.eqb_spec (val ys) 0) as [E0|E0]; [lia|]. rewrite Z.abs_eq in BL by lia. exact BL. }
  pose proof (Z.log2_spec (val ys) ltac:(lia)) as LS. pose proof (Z.log2_nonneg (val ys)) as L0. assert (HL : 2 ^ (len - 1) <= val ys < 2 ^ len).
  { rewrite EL. replace (Z.log2 (val ys) + 1 - 1) with (Z.log2 (val ys)) by lia. replace (Z.log2 (val ys) + 1) with (Z.succ (Z.log2 (val ys))) by lia. exact LS. }
  destruct (Nat.ltb_spec 2 (length ys)) as [L|L].
  - destruct (Hsqr a 1 ltac:(lia) Pa) as (r & Er & Pr). rewrite Er. cbn [bind]. destruct (wnd_fill_spec 7 a r 1 (2 * 1) ltac:(lia) ltac:(lia) Pa Pr) as (t & Et & Lt & Ht). rewrite Et. cbn [bind].
    assert (L4 : 4 <= len).
    { assert (2 ^ 4 <= val ys). { pose proof (Bpow_le w W0 1 (length ys - 1) ltac:(lia)) as BB. change (Z.of_nat 1) with 1 in BB. rewrite Z.pow_1_r in BB. unfold LB in BB at 1. pose proof (Z.pow_le_mono_r 2 4 w ltac:(lia) ltac:(lia)). lia. }
      destruct (Z_lt_dec len 4) as [Q|Q]; [|lia]. pose proof (Z.pow_le_mono_r 2 len 4 ltac:(lia) ltac:(lia)). lia. }
    destruct (slide_spec ys (a :: t) len (proj1 Ny)) with (fuel := Z.to_nat len) (i := len) (r := r) as (r' & i' & Es & Hi' & Pr'); try lia.
    { intros [|j] Hj; cbn [nth]; [exact Pa|]. replace (1 + 2 * Z.of_nat (S j)) with (1 + Z.of_nat (S j) * (2 * 1)) by lia. apply Ht. lia. }
    rewrite Es. cbn [bind fst snd]. apply ladder_spec; [exact (proj1 Ny)|exact Pa|]. rewrite Z2Nat.id by lia. exact Pr'.
  - apply ladder_spec; [exact (proj1 Ny)|exact Pa|]. rewrite Z2Nat.id by lia. replace (val ys / 2 ^ (len - 1)) with 1; [exact Pa|].
    apply (Z.div_unique _ _ 1 (val ys - 2 ^ (len - 1))); [|lia]. left. replace len with (len - 1 + 1) in HL at 2 by lia. rewrite Z.pow_add_r, Z.pow_1_r in HL by lia. lia.
Qed.
End Window.
End Bits.
