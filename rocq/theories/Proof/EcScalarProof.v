(* The signed digit recodings evaluate to the scalar, with digits in range. *)
From Verif.Base Require Import Prelude.
From Verif.Model Require Import NumTheory EcScalar.
Lemma dval_upd B l i v : (i < length l)%nat -> nth i l 0 = 0 -> dval B (upd l i v) = dval B l + v * B ^ Z.of_nat i.
Proof.
  revert i. induction l as [|x t IH]; intros [|i] L N; cbn [length nth] in *; try lia; cbn [upd dval].
  - subst x. change (Z.of_nat 0) with 0. rewrite Z.pow_0_r. lia.
  - rewrite IH by (try assumption; lia). replace (Z.of_nat (S i)) with (1 + Z.of_nat i) by lia. rewrite Z.pow_add_r, Z.pow_1_r by lia. lia.
Qed.
Lemma bitlen_bound k : 0 <= k -> k < 2 ^ Z.of_nat (sc_bitlen k).
Proof.
  intros H. unfold sc_bitlen, bitlen. destruct (Z.eqb_spec k 0) as [->|N]; [reflexivity|].
  rewrite Z2Nat.id by (pose proof (Z.log2_nonneg (Z.abs k)); lia). rewrite Z.abs_eq by lia. pose proof (Z.log2_spec k ltac:(lia)). rewrite Z.add_1_r. lia.
Qed.
Lemma bitlen_le k m : 0 <= k < 2 ^ Z.of_nat m -> (sc_bitlen k <= m)%nat.
Proof.
  intros H. unfold sc_bitlen, bitlen. destruct (Z.eqb_spec k 0) as [->|N]; [cbn; lia|].
  rewrite Z.abs_eq by lia. assert (Z.log2 k < Z.of_nat m) by (apply Z.log2_lt_pow2; lia). lia.
Qed.
Lemma mod_split k i w : 0 <= w -> k mod 2 ^ (Z.of_nat i + w) = k mod 2 ^ Z.of_nat i + (k / 2 ^ Z.of_nat i) mod 2 ^ w * 2 ^ Z.of_nat i.
Proof.
  intros Hw. rewrite Z.pow_add_r by lia. rewrite Z.rem_mul_r; [ring|apply Z.pow_nonzero; lia|apply Z.pow_pos_nonneg; lia].
Qed.
Definition digit_ok (w : nat) (d : Z) : Prop := d = 0 \/ (Z.odd d = true /\ Z.abs d < 2 ^ (Z.of_nat w - 1)).
Definition sparse (w : nat) (l : list Z) : Prop := forall i j, (i < j)%nat -> nth i l 0 <> 0 -> nth j l 0 <> 0 -> (i + w <= j)%nat.
Definition tight (l : list Z) (len : nat) : Prop :=
  (forall j, (len <= j)%nat -> nth j l 0 = 0) /\ ((0 < len)%nat -> nth (len - 1) l 0 <> 0).
Section Naf.
Variables (k sign : Z) (w max : nat).
Hypothesis K : 0 <= k.
Hypothesis W : (2 <= w)%nat.
Hypothesis S1 : sign = 1 \/ sign = -1.
Let bits := S (sc_bitlen k).
Hypothesis MX : (bits <= max)%nat.
Record ninv (naf : list Z) (len i : nat) (carry : Z) : Prop := {
  ni_len : length naf = max;
  ni_c : carry = 0 \/ carry = 1;
  ni_end : (bits <= i)%nat -> carry = 0;
  ni_val : dval 2 naf = sign * (k mod 2 ^ Z.of_nat i - carry * 2 ^ Z.of_nat i);
  ni_dig : Forall (digit_ok w) naf;
  ni_top : len = O \/ (len + w <= S i)%nat;
  ni_tight : tight naf len;
  ni_sparse : sparse w naf }.
Lemma bit_val i : sc_get_bits k i 1 = 0 \/ sc_get_bits k i 1 = 1.
Proof. unfold sc_get_bits. pose proof (Z.mod_pos_bound (k / 2 ^ Z.of_nat i) 2 ltac:(lia)). change (2 ^ 1) with 2. lia. Qed.
Lemma high_small i : (sc_bitlen k <= i)%nat -> k / 2 ^ Z.of_nat i = 0.
Proof. intros H. apply Z.div_small. split; [exact K|]. eapply Z.lt_le_trans; [apply bitlen_bound; exact K|]. apply Z.pow_le_mono_r; lia. Qed.
Lemma step_skip naf len i carry : ninv naf len i carry -> (i < bits)%nat -> sc_get_bits k i 1 = carry -> ninv naf len (S i) carry.
Proof.
  intros [L C E V D T TI SP] LT B. constructor; try assumption.
  - intros H. assert (i = sc_bitlen k) by (unfold bits in *; lia). subst carry. unfold sc_get_bits. rewrite high_small by lia. reflexivity.
  - rewrite V. f_equal. replace (Z.of_nat (S i)) with (Z.of_nat i + 1) by lia. rewrite mod_split by lia. unfold sc_get_bits in B. rewrite B. rewrite Z.pow_add_r by lia. change (2 ^ 1) with 2. ring.
  - destruct T as [T|T]; [left; exact T|right; lia].
Qed.
Lemma word_odd i carry : sc_get_bits k i 1 <> carry -> carry = 0 \/ carry = 1 ->
  let word := sc_get_bits k i (Z.of_nat w) + carry in Z.odd word = true /\ 0 < word < 2 ^ Z.of_nat w.
Proof.
  intros N C word. unfold word. set (raw := sc_get_bits k i (Z.of_nat w)). assert (R : 0 <= raw < 2 ^ Z.of_nat w) by (apply Z.mod_pos_bound; apply Z.pow_pos_nonneg; lia).
  assert (O : raw mod 2 = sc_get_bits k i 1). { unfold raw, sc_get_bits. replace (Z.of_nat w) with (1 + (Z.of_nat w - 1)) by lia. rewrite Z.pow_add_r by lia. change (2 ^ 1) with 2.
    rewrite Z.rem_mul_r by (try lia; apply Z.pow_pos_nonneg; lia). rewrite Z.mul_comm, Z_mod_plus_full, Zmod_mod. reflexivity. }
  assert (EV : exists h, 2 ^ Z.of_nat w = 2 * h). { exists (2 ^ (Z.of_nat w - 1)). rewrite <- (Z.pow_succ_r 2) by lia. f_equal. lia. }
  destruct EV as [h EV]. destruct (bit_val i) as [B|B]; rewrite B in *; clearbody raw; clear B;
    assert (OD : Z.odd (raw + carry) = true) by (rewrite Zodd_mod; apply Zeq_is_eq_bool; destruct C as [-> | ->]; [rewrite ?Z.add_0_r; lia || (exfalso; lia)|rewrite Z.add_mod by lia; rewrite O; reflexivity || (exfalso; lia)]);
    split; try exact OD; apply Z.odd_spec in OD; destruct OD as [q OD]; pose proof (Z.div_mod raw 2 ltac:(lia)); destruct C as [-> | ->]; lia.
Qed.
Lemma step_word naf len i carry : ninv naf len i carry -> (i < bits)%nat -> sc_get_bits k i 1 <> carry ->
  let word := sc_get_bits k i (Z.of_nat w) + carry in
  let c := (word / 2 ^ (Z.of_nat w - 1)) mod 2 in
  ninv (upd naf i (sign * (word - c * 2 ^ Z.of_nat w))) (S i) (i + w) c.
Proof.
  intros [L C E V D T TI SP] LT N word c. destruct (word_odd i carry N C) as [OD R]. fold word in OD, R.
  assert (PW : 2 ^ Z.of_nat w = 2 * 2 ^ (Z.of_nat w - 1)). { rewrite <- (Z.pow_succ_r 2) by lia. f_equal. lia. }
  assert (PH : 2 ^ (Z.of_nat w - 1) = 2 * 2 ^ (Z.of_nat w - 2)). { rewrite <- (Z.pow_succ_r 2) by lia. f_equal. lia. }
  assert (HP : 0 < 2 ^ (Z.of_nat w - 2)) by (apply Z.pow_pos_nonneg; lia).
  assert (Ec : c = (word / 2 ^ (Z.of_nat w - 1)) mod 2) by reflexivity. assert (Ew : word = sc_get_bits k i (Z.of_nat w) + carry) by reflexivity. clearbody c. clearbody word.
  remember (2 ^ (Z.of_nat w - 1)) as h eqn:Eh.
  assert (CC : (word < h /\ c = 0) \/ (h < word /\ c = 1)).
  { assert (NE : word <> h). { intros X. rewrite X, PH, Z.odd_mul in OD. discriminate. }
    destruct (Z_lt_le_dec word h) as [Y|Y]; [left|right]; (split; [lia|]); rewrite Ec.
    - rewrite Z.div_small by lia. reflexivity.
    - assert (word / h = 1) as ->; [|reflexivity]. symmetry. apply (Z.div_unique word h 1 (word - h)); clear - Y R PW NE; lia. }
  assert (OD' : Z.odd (word - c * 2 ^ Z.of_nat w) = true). { rewrite Z.odd_sub, OD, PW, !Z.odd_mul. cbn. rewrite andb_false_r. reflexivity. }
  assert (NZ : sign * (word - c * 2 ^ Z.of_nat w) <> 0). { destruct S1 as [-> | ->]; intros X; assert (X' : word - c * 2 ^ Z.of_nat w = 0) by (clear - X; lia); rewrite X' in OD'; discriminate. }
  assert (Z0 : forall j, (i <= j)%nat -> nth j naf 0 = 0). { intros j Hj. apply (proj1 TI). clear - Hj T W. destruct T as [T|T]; lia. }
  assert (IL : (i < length naf)%nat) by (clear - L LT MX; lia).
  constructor.
  - rewrite upd_length. exact L.
  - destruct CC as [[_ ->]|[_ ->]]; [left|right]; reflexivity.
  - intros H. destruct CC as [[_ ->]|[G _]]; [reflexivity|exfalso].
    assert (RAW : sc_get_bits k i (Z.of_nat w) < h).
    { unfold sc_get_bits. eapply Z.le_lt_trans; [apply Z.mod_le; [apply Z.div_pos; [exact K|apply Z.pow_pos_nonneg; lia]|apply Z.pow_pos_nonneg; lia]|].
      apply Z.div_lt_upper_bound; [apply Z.pow_pos_nonneg; lia|]. rewrite Eh. rewrite <- Z.pow_add_r by lia. eapply Z.lt_le_trans; [apply bitlen_bound; exact K|]. apply Z.pow_le_mono_r; unfold bits in *; lia. }
    rewrite Ew in G. destruct C as [-> | ->]; lia.
  - rewrite dval_upd by (try apply Z0; lia). rewrite V. rewrite Nat2Z.inj_add. rewrite mod_split by lia. fold (sc_get_bits k i (Z.of_nat w)). rewrite Z.pow_add_r by lia. rewrite Ew. ring.
  - apply Forall_upd; [exact D|]. right. split.
    + destruct S1 as [-> | ->]; [rewrite Z.mul_1_l; exact OD'|]. replace (-1 * (word - c * 2 ^ Z.of_nat w)) with (- (word - c * 2 ^ Z.of_nat w)) by ring. rewrite Z.odd_opp. exact OD'.
    + rewrite <- Eh. rewrite PW. clear - CC S1 R PW. destruct CC as [[G ->]|[G ->]]; destruct S1 as [-> | ->]; lia.
  - right. clear - W. lia.
  - split.
    + intros j Hj. rewrite nth_upd_other by (clear - Hj; lia). apply Z0. clear - Hj. lia.
    + intros _. replace (S i - 1)%nat with i by (clear; lia). rewrite nth_upd_same by exact IL. exact NZ.
  - intros a b Hab Ha Hb. destruct (Nat.eq_dec i b) as [<-|Nb].
    + rewrite nth_upd_other in Ha by (clear - Hab; lia). destruct T as [->|T]; [exfalso; apply Ha; apply (proj1 TI); clear; lia|].
      destruct (le_lt_dec len a) as [Y|Y]; [exfalso; apply Ha; apply (proj1 TI); exact Y|]. clear - Y T. lia.
    + rewrite nth_upd_other in Hb by exact Nb. destruct (le_lt_dec i b) as [Y|Y]; [exfalso; apply Hb; apply Z0; exact Y|].
      rewrite nth_upd_other in Ha by (clear - Y Hab; lia). apply SP; assumption.
Qed.
Lemma loop_spec fuel : forall naf len i carry, ninv naf len i carry -> (bits <= fuel + i)%nat ->
  exists naf' len', naf_loop fuel k sign w bits naf len i carry = Some (naf', len') /\
    length naf' = max /\ dval 2 naf' = sign * k /\ Forall (digit_ok w) naf' /\ tight naf' len' /\ sparse w naf'.
Proof.
  induction fuel as [|fuel IH]; intros naf len i carry I F; cbn [naf_loop]; destruct (Nat.ltb_spec i bits) as [LT|GE]; try lia.
  2: { destruct (Z.eqb_spec (sc_get_bits k i 1) carry) as [B|B].
    - apply IH; [exact (step_skip naf len i carry I LT B)|lia].
    - apply IH; [exact (step_word naf len i carry I LT B)|lia]. }
  all: assert (carry = 0) as -> by (destruct I; auto); cbn [Z.eqb]; exists naf, len; destruct I as [L C E V D T TI SP]; split; [reflexivity|];
    split; [exact L|]; split; [|split; [exact D|split; [exact TI|exact SP]]]; rewrite V, Z.mul_0_l, Z.sub_0_r; f_equal; apply Z.mod_small; split; [exact K|];
    eapply Z.lt_le_trans; [apply bitlen_bound; exact K|]; apply Z.pow_le_mono_r; unfold bits in *; lia.
Qed.
Lemma naf_spec : exists naf len, sc_naf_var0 k sign w max = Some (naf, len) /\
    length naf = max /\ dval 2 naf = sign * k /\ Forall (digit_ok w) naf /\ tight naf len /\ sparse w naf.
Proof.
  unfold sc_naf_var0. fold bits. destruct (Nat.leb_spec bits max); [|lia]. apply loop_spec; [|lia].
  constructor; try (left; reflexivity); try reflexivity.
  - apply repeat_length.
  - rewrite dval_repeat0. change (Z.of_nat 0) with 0. rewrite Z.pow_0_r, Zmod_1_r. lia.
  - apply Forall_forall. intros x Hx. apply repeat_spec in Hx. left. exact Hx.
  - split; [|lia]. intros j _. apply nth_repeat.
  - intros a b _ Ha. rewrite nth_repeat in Ha. lia.
Qed.
End Naf.
(* ---- joint sparse form ---- *)
Definition jsf_of (z : Z) : Z * Z :=
  if z =? 1 then (1, 0) else if z =? 3 then (1, 1) else if z =? 5 then (1, -1) else if z =? 7 then (0, 1)
  else if z =? -1 then (-1, 0) else if z =? -3 then (-1, -1) else if z =? -5 then (-1, 1) else if z =? -7 then (0, -1) else (0, 0).
Definition jdigits : list Z := [0; 1; 3; 5; 7; -1; -3; -5; -7].
Definition unit3 (u : Z) := u = -1 \/ u = 0 \/ u = 1.
Lemma table_ok u1 u2 : unit3 u1 -> unit3 u2 ->
  jsf_of (nth (Z.to_nat ((u1 + 1) * 3 + (u2 + 1))) jsf_table 0) = (u1, u2) /\ In (nth (Z.to_nat ((u1 + 1) * 3 + (u2 + 1))) jsf_table 0) jdigits.
Proof. intros [->|[->| ->]] [->|[->| ->]]; split; vm_compute; tauto. Qed.
Definition bits3 : list Z := [0; 1; 2; 3; 4; 5; 6; 7].
Lemma bits3_in b : 0 <= b < 8 -> In b bits3.
Proof. intros H. assert (b = 0 \/ b = 1 \/ b = 2 \/ b = 3 \/ b = 4 \/ b = 5 \/ b = 6 \/ b = 7) by lia. cbn. intuition. Qed.
Definition carry01 (d : Z) := d = 0 \/ d = 1.
Definition u_check (b d other : Z) : bool :=
  let u := jsf_u b d (jsf_m b d) other in
  let n := jsf_next d u in
  ((u =? -1) || (u =? 0) || (u =? 1)) && ((n =? 0) || (n =? 1)) && (b mod 2 + d - u =? 2 * n).
Lemma u_check_all : forallb (fun b => forallb (fun d => forallb (u_check b d) [-1; 0; 1; 2]) [0; 1]) bits3 = true.
Proof. vm_compute. reflexivity. Qed.
Lemma m_range b d : carry01 d -> In (jsf_m b d) [-1; 0; 1; 2].
Proof. intros _. unfold jsf_m. pose proof (Z.mod_pos_bound (b mod 4 + d) 4 ltac:(lia)). destruct (Z.eqb_spec ((b mod 4 + d) mod 4) 3); cbn; lia. Qed.
Lemma u_ok b d other : 0 <= b < 8 -> carry01 d -> In other [-1; 0; 1; 2] ->
  let u := jsf_u b d (jsf_m b d) other in unit3 u /\ carry01 (jsf_next d u) /\ b mod 2 + d - u = 2 * jsf_next d u.
Proof.
  intros B D O u. pose proof u_check_all as H. rewrite forallb_forall in H. specialize (H b (bits3_in b B)). rewrite forallb_forall in H.
  assert (In d [0; 1]) by (destruct D as [-> | ->]; cbn; tauto). specialize (H d ltac:(assumption)). rewrite forallb_forall in H. specialize (H other O).
  unfold u_check in H. fold u in H. apply andb_true_iff in H. destruct H as [H H3]. apply andb_true_iff in H. destruct H as [H1 H2]. apply Z.eqb_eq in H3.
  split; [|split; [|exact H3]].
  - apply orb_true_iff in H1. destruct H1 as [H1|H1]; [apply orb_true_iff in H1; destruct H1 as [H1|H1]|]; apply Z.eqb_eq in H1; unfold unit3; tauto.
  - apply orb_true_iff in H2. destruct H2 as [H2|H2]; apply Z.eqb_eq in H2; unfold carry01; tauto.
Qed.
Lemma unit_sign u s : unit3 u -> s = 1 \/ s = -1 -> unit3 (u * s).
Proof. unfold unit3. intros [->|[->| ->]] [-> | ->]; lia. Qed.
Section Jsf.
Variables k1 s1 k2 s2 : Z.
Hypothesis K1 : 0 <= k1.
Hypothesis K2 : 0 <= k2.
Hypothesis S1 : s1 = 1 \/ s1 = -1.
Hypothesis S2 : s2 = 1 \/ s2 = -1.
Lemma bits_step k i : 0 <= k -> k / 2 ^ Z.of_nat i = 2 * (k / 2 ^ Z.of_nat (S i)) + sc_get_bits k i 3 mod 2.
Proof.
  intros K. unfold sc_get_bits. replace (Z.of_nat (S i)) with (Z.of_nat i + 1) by lia. rewrite Z.pow_add_r by lia. change (2 ^ 1) with 2. change (2 ^ 3) with (2 * 4).
  rewrite <- Z.div_div by (try lia; apply Z.pow_pos_nonneg; lia). set (x := k / 2 ^ Z.of_nat i).
  rewrite Z.rem_mul_r by lia. rewrite (Z.mul_comm 2 ((x / 2) mod 4)), Z_mod_plus_full, Zmod_mod. pose proof (Z.div_mod x 2 ltac:(lia)). lia.
Qed.
Lemma bits_range k i : 0 <= sc_get_bits k i 3 < 8.
Proof. apply (Z.mod_pos_bound _ 8). lia. Qed.
Lemma jsf_end cnt i k d other e : carry01 d -> In other [-1;0;1;2] ->
  (cnt = O -> e = jsf_next d (jsf_u (sc_get_bits k i 3) d (jsf_m (sc_get_bits k i 3) d) other)) ->
  ((0 < cnt)%nat -> k / 2 ^ Z.of_nat (S i + cnt - 1) = 0 -> e = 0) -> k / 2 ^ Z.of_nat (i + S cnt - 1) = 0 -> e = 0.
Proof.
  intros D O H0 HS Q. destruct cnt as [|c].
  - rewrite H0 by reflexivity. replace (i + 1 - 1)%nat with i in Q by (clear; lia). unfold sc_get_bits. rewrite Q. destruct D as [-> | ->]; destruct O as [<-|[<-|[<-|[<-|[]]]]]; reflexivity.
  - apply HS; [clear; lia|]. replace (S i + S c - 1)%nat with (i + S (S c) - 1)%nat by (clear; lia). exact Q.
Qed.
Lemma jsf_loop_spec cnt : forall i d1 d2, carry01 d1 -> carry01 d2 ->
  let l := jsf_loop cnt k1 s1 k2 s2 i d1 d2 in
  length l = cnt /\ Forall (fun z => In z jdigits) l /\
  exists e1 e2, carry01 e1 /\ carry01 e2 /\
    ((0 < cnt)%nat -> k1 / 2 ^ Z.of_nat (i + cnt - 1) = 0 -> e1 = 0) /\
    ((0 < cnt)%nat -> k2 / 2 ^ Z.of_nat (i + cnt - 1) = 0 -> e2 = 0) /\
    dval 2 (map (fun z => fst (jsf_of z)) l) = s1 * (k1 / 2 ^ Z.of_nat i + d1 - 2 ^ Z.of_nat cnt * (k1 / 2 ^ Z.of_nat (i + cnt) + e1)) /\
    dval 2 (map (fun z => snd (jsf_of z)) l) = s2 * (k2 / 2 ^ Z.of_nat i + d2 - 2 ^ Z.of_nat cnt * (k2 / 2 ^ Z.of_nat (i + cnt) + e2)).
Proof.
  induction cnt as [|cnt IH]; intros i d1 d2 D1 D2; cbn [jsf_loop].
  - split; [reflexivity|]. split; [constructor|]. exists d1, d2. rewrite Nat.add_0_r. change (Z.of_nat 0) with 0. rewrite Z.pow_0_r. cbn [map dval].
    split; [exact D1|]. split; [exact D2|]. split; [lia|]. split; [lia|]. lia.
  - set (b1 := sc_get_bits k1 i 3). set (b2 := sc_get_bits k2 i 3).
    pose proof (u_ok b1 d1 (jsf_m b2 d2) (bits_range _ _) D1 (m_range _ _ D2)) as X1. pose proof (u_ok b2 d2 (jsf_m b1 d1) (bits_range _ _) D2 (m_range _ _ D1)) as X2. cbv zeta in X1, X2 |- *.
    set (u1 := jsf_u b1 d1 (jsf_m b1 d1) (jsf_m b2 d2)) in *. set (u2 := jsf_u b2 d2 (jsf_m b2 d2) (jsf_m b1 d1)) in *.
    destruct X1 as (U1 & C1 & V1). destruct X2 as (U2 & C2 & V2).
    destruct (IH (S i) (jsf_next d1 u1) (jsf_next d2 u2) C1 C2) as (L & FA & e1 & e2 & E1 & E2 & Z1 & Z2 & W1 & W2).
    destruct (table_ok (u1 * s1) (u2 * s2) (unit_sign _ _ U1 S1) (unit_sign _ _ U2 S2)) as [T TI].
    set (z := nth (Z.to_nat ((u1 * s1 + 1) * 3 + (u2 * s2 + 1))) jsf_table 0) in *.
    split; [cbn [length]; rewrite L; reflexivity|]. split; [constructor; assumption|].
    assert (Z0 : cnt = O -> e1 = jsf_next d1 u1 /\ e2 = jsf_next d2 u2).
    { intros Q0. rewrite Q0 in W1, W2. cbn [jsf_loop map dval] in W1, W2. rewrite Nat.add_0_r in W1, W2. change (Z.of_nat 0) with 0 in W1, W2. rewrite Z.pow_0_r in W1, W2.
      clear - W1 W2 S1 S2. destruct S1 as [-> | ->], S2 as [-> | ->]; lia. }
    exists e1, e2. split; [exact E1|]. split; [exact E2|].
    split. { intros _ Q. exact (jsf_end cnt i k1 d1 (jsf_m b2 d2) e1 D1 (m_range _ _ D2) (fun Q0 => proj1 (Z0 Q0)) Z1 Q). }
    split. { intros _ Q. exact (jsf_end cnt i k2 d2 (jsf_m b1 d1) e2 D2 (m_range _ _ D1) (fun Q0 => proj2 (Z0 Q0)) Z2 Q). }
    cbn [map dval]. rewrite W1, W2, T. cbn [fst snd]. replace (i + S cnt)%nat with (S i + cnt)%nat by (clear; lia).
    rewrite (bits_step k1 i K1), (bits_step k2 i K2). fold b1 b2. replace (Z.of_nat (S cnt)) with (1 + Z.of_nat cnt) by (clear; lia). rewrite Z.pow_add_r by (clear; lia). change (2 ^ 1) with 2.
    set (A1 := k1 / 2 ^ Z.of_nat (S i)) in *. set (A2 := k2 / 2 ^ Z.of_nat (S i)) in *. set (G := 2 ^ Z.of_nat cnt) in *. set (B1 := k1 / 2 ^ Z.of_nat (S i + cnt)) in *. set (B2 := k2 / 2 ^ Z.of_nat (S i + cnt)) in *.
    clearbody A1 A2 G B1 B2. clear - V1 V2. split.
    + replace (b1 mod 2) with (2 * jsf_next d1 u1 - d1 + u1) by (rewrite <- V1; ring). ring.
    + replace (b2 mod 2) with (2 * jsf_next d2 u2 - d2 + u2) by (rewrite <- V2; ring). ring.
Qed.
Lemma trim_le naf i : (jsf_trim naf i <= i)%nat.
Proof. induction i as [|i IH]; cbn [jsf_trim]; [lia|]. destruct (nth i naf 0 =? 0); lia. Qed.
Lemma trim_tight naf i : (forall j, (i <= j)%nat -> nth j naf 0 = 0) -> tight naf (jsf_trim naf i).
Proof.
  induction i as [|i IH]; intros H; cbn [jsf_trim]; [split; [exact H|lia]|].
  destruct (Z.eqb_spec (nth i naf 0) 0) as [E|N].
  - apply IH. intros j Hj. destruct (Nat.eq_dec j i) as [->|]; [exact E|apply H; lia].
  - split; [exact H|]. intros _. replace (S i - 1)%nat with i by lia. exact N.
Qed.
Lemma jsf_spec max : (Nat.max (S (sc_bitlen k1)) (S (sc_bitlen k2)) <= max)%nat ->
  exists naf len, sc_jsf_var0 k1 s1 k2 s2 max = Some (naf, len) /\ length naf = max /\
    dval 2 (map (fun z => fst (jsf_of z)) naf) = s1 * k1 /\ dval 2 (map (fun z => snd (jsf_of z)) naf) = s2 * k2 /\
    Forall (fun z => In z jdigits) naf /\ tight naf len.
Proof.
  intros M. unfold sc_jsf_var0. set (bits := Nat.max (S (sc_bitlen k1)) (S (sc_bitlen k2))) in *. destruct (Nat.leb_spec bits max) as [_|X]; [|clear - M X; lia].
  destruct (jsf_loop_spec bits 0 0 0 (or_introl eq_refl) (or_introl eq_refl)) as (L & FA & e1 & e2 & E1 & E2 & Z1 & Z2 & W1 & W2). cbn [Nat.add] in *.
  set (l := jsf_loop bits k1 s1 k2 s2 0 0 0) in *. exists (l ++ repeat 0 (max - bits)), (jsf_trim (l ++ repeat 0 (max - bits)) bits).
  assert (DZ : forall k, 0 <= k -> (S (sc_bitlen k) <= bits)%nat -> k / 2 ^ Z.of_nat (bits - 1) = 0 /\ k / 2 ^ Z.of_nat bits = 0).
  { intros k K H. pose proof (bitlen_bound k K). split; apply Z.div_small; (split; [exact K|]); (eapply Z.lt_le_trans; [eassumption|]); clear - H; apply Z.pow_le_mono_r; lia. }
  assert (BP : (0 < bits)%nat) by (unfold bits; clear; lia).
  destruct (DZ k1 K1 (Nat.le_max_l _ _)) as [Q1 R1]. destruct (DZ k2 K2 (Nat.le_max_r _ _)) as [Q2 R2].
  rewrite (Z1 BP Q1), R1 in W1. rewrite (Z2 BP Q2), R2 in W2. change (2 ^ Z.of_nat 0) with 1 in W1, W2. rewrite Z.div_1_r in W1, W2.
  assert (MR : forall f : Z -> Z, f 0 = 0 -> map f (repeat 0 (max - bits)) = repeat 0 (max - bits)). { intros f Hf. generalize (max - bits)%nat. clear - Hf. intros m. induction m as [|m IH]; [reflexivity|]. cbn [repeat map]. rewrite Hf, IH. reflexivity. }
  split; [reflexivity|]. split; [rewrite app_length, repeat_length, L; clear - M; lia|].
  split; [rewrite map_app, dval_app, MR, dval_repeat0, W1 by reflexivity; ring|].
  split; [rewrite map_app, dval_app, MR, dval_repeat0, W2 by reflexivity; ring|].
  split.
  - apply Forall_app. split; [exact FA|]. apply Forall_forall. intros x Hx. apply repeat_spec in Hx. subst x. left. reflexivity.
  - apply trim_tight. intros j Hj. rewrite app_nth2 by (rewrite L; exact Hj). apply nth_repeat.
Qed.
End Jsf.
(* minimising keeps the residue and halves the size *)
Lemma minimize_spec n x : 0 < n -> 0 <= x < n ->
  let '(c, h) := sc_minimize n x in 0 <= c <= n / 2 /\ (if h then -1 else 1) * c = (if h then x - n else x).
Proof.
  intros N X. unfold sc_minimize, sc_is_high, sc_neg. pose proof (Z.div_mod n 2 ltac:(lia)). pose proof (Z.mod_pos_bound n 2 ltac:(lia)).
  destruct (Z.ltb_spec (n / 2) x); [|lia]. destruct (Z.eqb_spec x 0); lia.
Qed.
