(* strings of integers (C56) *)
From Verif.Base Require Import Prelude.
From Verif.Spec Require Import StrSpec.
From Verif.Model Require Import Encoding Hash Mpn Mpz MpzStr.
From Verif.Proof Require Import MpnProof MpnShift MpnDiv MpzProof MpzImport.
(* the tables, by computation *)
Lemma isspace_ok c : byte c -> mp_isspace c = space c.
Proof. intros H. revert c H. assert (K : forallb (fun c => Bool.eqb (mp_isspace c) (space c)) (zseq 0 256) = true) by (vm_compute; reflexivity). intros c H. apply Bool.eqb_prop. exact (forall_byte _ K c H). Qed.
Definition table_of (base : Z) : list Z := if base <=? 36 then mp_table_36 else mp_table_62.
Lemma table_ok base c : 2 <= base <= 62 -> byte c -> let d := nth (Z.to_nat (Z.land c 255)) (table_of base) 0 in 0 <= d /\ digit_value base c = if base <=? d then None else Some d.
Proof.
  intros Hb Hc. assert (K : forallb (fun base => forallb (fun c => let d := nth (Z.to_nat (Z.land c 255)) (table_of base) 0 in (0 <=? d) && match digit_value base c with Some e => negb (base <=? d) && (e =? d) | None => base <=? d end) (zseq 0 256)) (zseq 2 61) = true) by (vm_compute; reflexivity).
  pose proof (forall_zseq _ _ _ K base ltac:(lia)) as K1. cbv beta in K1. pose proof (forall_byte _ K1 c Hc) as K2. cbv beta zeta in K2. apply andb_prop in K2. destruct K2 as (K2 & K3). cbv zeta. split; [apply Z.leb_le; exact K2|]. destruct (digit_value base c) as [e|].
  - apply andb_prop in K3. destruct K3 as (K3 & K4). apply negb_true_iff in K3. rewrite K3. apply Z.eqb_eq in K4. rewrite K4. reflexivity.
  - rewrite K3. reflexivity.
Qed.
Definition charset_of (base : Z) : list Z := if base <=? 36 then charset_36 else charset_62.
Lemma charset_ok base d : 2 <= base <= 62 -> 0 <= d < base -> nth (Z.to_nat d) (charset_of base) 0 = digit_char base d /\ digit_value base (digit_char base d) = Some d /\ space (digit_char base d) = false /\ digit_char base d <> 45 /\ digit_char base d <> 43 /\ byte (digit_char base d).
Proof.
  intros Hb Hd. assert (K : forallb (fun base => forallb (fun d => (base <=? d) || ((nth (Z.to_nat d) (charset_of base) 0 =? digit_char base d) && (match digit_value base (digit_char base d) with Some e => e =? d | None => false end) && negb (space (digit_char base d)) && negb (digit_char base d =? 45) && negb (digit_char base d =? 43) && (0 <=? digit_char base d) && (digit_char base d <? 256))) (zseq 0 62)) (zseq 2 61) = true) by (vm_compute; reflexivity).
  pose proof (forall_zseq _ _ _ K base ltac:(lia)) as K1. cbv beta in K1. pose proof (forall_zseq _ _ _ K1 d ltac:(lia)) as K2. cbv beta in K2. apply orb_prop in K2. destruct K2 as [K2|K2]; [apply Z.leb_le in K2; lia|]. repeat (apply andb_prop in K2; let K' := fresh "Q" in destruct K2 as (K2 & K')). apply Z.eqb_eq in K2.
  split; [exact K2|]. split; [destruct (digit_value base (digit_char base d)); [|discriminate]; apply Z.eqb_eq in Q4; rewrite Q4; reflexivity|]. split; [apply negb_true_iff; exact Q3|]. split; [apply negb_true_iff in Q2; apply Z.eqb_neq; exact Q2|]. split; [apply negb_true_iff in Q1; apply Z.eqb_neq; exact Q1|]. unfold byte. lia.
Qed.
Lemma pow2_bases base : 2 <= base <= 62 -> is_pow2 base = true -> 1 <= mp_bitlen (base - 1) <= 5 /\ base = 2 ^ mp_bitlen (base - 1).
Proof.
  intros Hb. assert (K : forallb (fun base => negb (is_pow2 base) || (1 <=? mp_bitlen (base - 1)) && (mp_bitlen (base - 1) <=? 5) && (base =? 2 ^ mp_bitlen (base - 1))) (zseq 2 61) = true) by (vm_compute; reflexivity). pose proof (forall_zseq _ _ _ K base ltac:(lia)) as K1. cbv beta in K1. intros P. rewrite P in K1. cbn [negb orb] in K1.
  apply andb_prop in K1. destruct K1 as (K1 & K2). apply andb_prop in K1. destruct K1 as (K0 & K1). apply Z.eqb_eq in K2. split; [lia|exact K2].
Qed.
Section Str.
Variable w : Z.
Variable k : nat.
Hypothesis Hk : (0 < k)%nat.
Hypothesis Wk : w = 8 * Z.of_nat k.
Local Notation Hw := (Hw w k Hk Wk).
Notation B := (LB w).
Notation limb := (below (LB w)).
Notation limbs := (Forall (below (LB w))).
Notation val := (dval (LB w)).
Lemma B_big : 256 <= B.
Proof. rewrite (B_256 w k Hk Wk). replace (Z.of_nat k) with (1 + Z.of_nat (k - 1)) by lia. rewrite Z.pow_add_r by lia. pose proof (Z.pow_pos_nonneg 256 (Z.of_nat (k - 1)) eq_refl). lia. Qed.
(* ---- reading ---- *)
Lemma limb_len_ok base max : 2 <= base <= 62 -> max = (B - 1) / base -> forall fuel pw n, pw = base ^ Z.of_nat n -> pw <= B - 1 -> (1 <= n)%nat ->
  let r := limb_len_loop w fuel base max pw n in (1 <= r)%nat /\ base ^ Z.of_nat r <= B - 1.
Proof.
  intros Hb Hm. induction fuel as [|f IH]; intros pw n E L N; cbn [limb_len_loop]; [subst pw; split; assumption|]. destruct (Z.leb_spec pw max) as [G|G]; [|subst pw; split; assumption].
  assert (PB : pw * base <= B - 1) by (subst max; pose proof (Z.mul_div_le (B - 1) base ltac:(lia)); nia). assert (P0 : 0 < pw) by (subst pw; apply Z.pow_pos_nonneg; lia). rewrite (tr_small w) by (unfold below; nia). apply IH; [subst pw; rewrite Nat2Z.inj_succ, Z.pow_succ_r by lia; ring|exact PB|lia].
Qed.
Definition nonspace (s : list Z) : nat := length (filter (fun c => negb (mp_isspace c)) s).
Lemma str_limbs_ok s base : 2 <= base <= 62 -> base ^ Z.of_nat (nonspace s) <= B ^ Z.of_nat (mp_str_limbs w s base).
Proof.
  intros Hb. unfold mp_str_limbs. fold (nonspace s). set (len := if (nonspace s =? 0)%nat then 1%nat else nonspace s). assert (L : (nonspace s <= len)%nat) by (subst len; destruct (Nat.eqb_spec (nonspace s) 0); lia). assert (L1 : (1 <= len)%nat) by (subst len; destruct (Nat.eqb_spec (nonspace s) 0); lia).
  clearbody len. destruct (Z.ltb_spec base 2); [lia|]. destruct (Z.ltb_spec 62 base); [lia|]. apply Z.le_trans with (base ^ Z.of_nat len); [apply Z.pow_le_mono_r; lia|]. pose proof B_big as BB. destruct (is_pow2 base) eqn:P2.
  - destruct (pow2_bases base Hb P2) as (S1 & S2). set (sh := mp_bitlen (base - 1)) in *. set (q := (Z.of_nat len * sh + w - 1) / w). pose proof (Z.div_mod (Z.of_nat len * sh + w - 1) w ltac:(lia)) as DM. pose proof (Z.mod_pos_bound (Z.of_nat len * sh + w - 1) w ltac:(lia)) as MB. fold q in DM.
    assert (Q0 : 0 <= q) by (apply Z.div_pos; nia). rewrite Z2Nat.id by exact Q0. rewrite S2. unfold LB. rewrite <- !Z.pow_mul_r by lia. apply Z.pow_le_mono_r; [lia|]. nia.
  - pose proof (limb_len_ok base ((B - 1) / base) Hb eq_refl (Z.to_nat w) base 1 ltac:(change (Z.of_nat 1) with 1; rewrite Z.pow_1_r; reflexivity) ltac:(lia) ltac:(lia)) as (R1 & R2). set (L0 := limb_len_loop w (Z.to_nat w) base ((B - 1) / base) base 1) in *. set (q := ((len + L0 - 1) / L0)%nat).
    assert (Q : (len <= L0 * q)%nat). { subst q. pose proof (Nat.div_mod (len + L0 - 1) L0 ltac:(lia)). pose proof (Nat.mod_upper_bound (len + L0 - 1) L0 ltac:(lia)). lia. }
    apply Z.le_trans with (base ^ Z.of_nat (L0 * q)); [apply Z.pow_le_mono_r; lia|]. rewrite Nat2Z.inj_mul, Z.pow_mul_r by lia. apply Z.pow_le_mono_l. split; [apply Z.pow_nonneg; lia|lia].
Qed.
Lemma snoc_normal z c : limbs z -> limb c -> c <> 0 -> normal w (z ++ [c]) /\ val (z ++ [c]) = val z + B ^ Z.of_nat (length z) * c.
Proof.
  intros Hz Hc N. assert (V : val (z ++ [c]) = val z + B ^ Z.of_nat (length z) * c) by (rewrite dval_app; cbn [dval]; ring). split; [|exact V]. split; [apply Forall_app; split; [exact Hz|constructor; [exact Hc|constructor]]|]. right. rewrite V, app_length. cbn [length]. replace (length z + 1 - 1)%nat with (length z) by lia.
  pose proof (val_range w Hw z Hz). unfold below in Hc. pose proof (Bpow_pos w Hw (length z)). nia.
Qed.
Definition step (base shift : Z) (z : list Z) (ch : Z) : list Z * Z :=
  if (length z =? 0)%nat then (z, ch)
  else if 0 <? shift then let '(z, c) := mpn_lshift w z shift in (Z.lor (nth 0 z 0) ch :: tl z, c)
  else let '(z, c1) := mpn_mul_1 w z base in let '(z, c2) := mpn_add_1 w z ch in (z, tr w (c1 + c2)).
Lemma step_ok base shift z ch : 2 <= base <= 62 -> shift = (if is_pow2 base then mp_bitlen (base - 1) else 0) -> limbs z -> 0 <= ch < base ->
  let '(z', c) := step base shift z ch in length z' = length z /\ limbs z' /\ limb c /\ val z' + B ^ Z.of_nat (length z) * c = val z * base + ch.
Proof.
  intros Hb Hs Hz Hc. pose proof B_big as BB. unfold step. destruct (Nat.eqb_spec (length z) 0) as [E|E].
  - destruct z; [|discriminate]. cbn [length dval]. change (Z.of_nat 0) with 0. rewrite Z.pow_0_r. repeat split; try assumption; unfold below; lia.
  - destruct (Z.ltb_spec 0 shift) as [S|S].
    + assert (P2 : is_pow2 base = true) by (destruct (is_pow2 base); [reflexivity|lia]). rewrite P2 in Hs. destruct (pow2_bases base Hb P2) as (S1 & S2). rewrite <- Hs in S1, S2. pose proof (mpn_lshift_spec w Hw shift ltac:(lia) z Hz) as LS. destruct (mpn_lshift w z shift) as [z1 c]. destruct LS as (L1 & L2 & L3 & L4). rewrite <- S2 in L3, L4.
      destruct z1 as [|a z1]; [cbn [length] in L1; lia|]. cbn [nth tl]. cbn [dval] in L4. pose proof (Forall_inv L2) as Ha. pose proof (Forall_inv_tail L2) as H1. unfold below in Ha.
      assert (DB : exists m, B = base * m) by (exists (2 ^ (w - shift)); unfold LB; rewrite S2, <- Z.pow_add_r by lia; f_equal; lia). destruct DB as (m & DB). assert (DBn : B ^ Z.of_nat (length z) = base * (m * B ^ Z.of_nat (length z - 1))) by (replace (Z.of_nat (length z)) with (1 + Z.of_nat (length z - 1)) by lia; rewrite Z.pow_add_r, Z.pow_1_r by lia; rewrite DB at 1; ring).
      set (V := val z1) in *. set (U := val z) in *. assert (QA : exists q, a = q * base). { exists (U - m * B ^ Z.of_nat (length z - 1) * c - m * V). rewrite DBn in L4. assert (a + base * m * V + base * (m * B ^ Z.of_nat (length z - 1)) * c = U * base) by (rewrite <- DB; exact L4). lia. }
      destruct QA as (q & QA). assert (LO : Z.lor a ch = a + ch) by (rewrite QA, S2; apply lor_add_low; [lia|rewrite <- S2; exact Hc]). rewrite LO. cbn [length] in L1 |- *. assert (AB : a + ch < B) by (clear - QA DB Ha Hc Hb; assert (q < m) by nia; assert ((q + 1) * base <= m * base) by (apply Z.mul_le_mono_nonneg_r; lia); lia). split; [exact L1|]. split; [constructor; [unfold below; lia|exact H1]|]. split; [unfold below; lia|]. cbn [dval]. fold V. lia.
    + pose proof (mul_1_loop_spec w Hw z 0 base Hz (limb0 w Hw) ltac:(unfold below; lia)) as MS. unfold mpn_mul_1. destruct (mul_1_loop w 0 z base) as [z1 c1]. destruct MS as (M1 & M2 & M3 & M4).
      assert (N1 : z1 <> []) by (intros ->; cbn [length] in M1; lia). pose proof (add_1_spec w Hw z1 ch M2 ltac:(unfold below; lia) ltac:(intros C; contradiction)) as AS. destruct (mpn_add_1 w z1 ch) as [z2 c2]. destruct AS as (A1 & A2 & A3 & A4). rewrite M1 in A1, A4. unfold below in M3. pose proof (val_range w Hw z Hz) as RZ. pose proof (val_range w Hw z2 A2) as R2. pose proof (Bpow_pos w Hw (length z)) as BP.
      set (BN := B ^ Z.of_nat (length z)) in *. assert (SUM : val z2 + BN * (c1 + c2) = val z * base + ch) by lia. assert (CR : 0 <= c1 + c2 < base). { unfold carry in A3. rewrite A1 in R2. fold BN in R2. split; [lia|]. nia. }
      rewrite (tr_small w) by (unfold below; lia). split; [exact A1|]. split; [exact A2|]. split; [unfold below; lia|exact SUM].
Qed.
Lemma set_loop_ok base shift : 2 <= base <= 62 -> shift = (if is_pow2 base then mp_bitlen (base - 1) else 0) -> forall s zn z m, bytes s -> normal w z -> val z < base ^ Z.of_nat m -> base ^ Z.of_nat (m + nonspace s) <= B ^ Z.of_nat zn ->
  match read_digits base (val z) s with
  | Some v => exists r, set_str_loop w zn base shift (table_of base) s z = Ok r /\ limbs r /\ val r = v
  | None => set_str_loop w zn base shift (table_of base) s z = Fail
  end.
Proof.
  intros Hb Hs. induction s as [|ch s IH]; intros zn z m Hby N V C; cbn [read_digits set_str_loop].
  - exists (z ++ repeat 0 (zn - length z)). split; [reflexivity|]. split; [apply Forall_app; split; [exact (proj1 N)|apply Forall_forall; intros y Hy; apply repeat_spec in Hy; subst y; exact (limb0 w Hw)]|]. rewrite dval_app, dval_repeat0. ring.
  - pose proof (Forall_inv Hby) as Hc. pose proof (Forall_inv_tail Hby) as Hby'. rewrite (isspace_ok ch Hc). unfold nonspace in C. cbn [filter] in C. rewrite (isspace_ok ch Hc) in C. destruct (space ch) eqn:SP; cbn [negb] in C.
    + apply (IH zn z m Hby' N V C).
    + cbn [length] in C. change (length (filter (fun c => negb (mp_isspace c)) s)) with (nonspace s) in C. destruct (table_ok base ch Hb Hc) as (D0 & DV). set (d := nth (Z.to_nat (Z.land ch 255)) (table_of base) 0) in *. rewrite DV. destruct (Z.leb_spec base d) as [G|G]; [reflexivity|]. fold (step base shift z d).
      pose proof (step_ok base shift z d Hb Hs (proj1 N) ltac:(lia)) as SK. destruct (step base shift z d) as [z' c]. destruct SK as (K1 & K2 & K3 & K4). pose proof (val_range w Hw z (proj1 N)) as RZ. assert (PM : base ^ Z.of_nat (S m) = base * base ^ Z.of_nat m) by (rewrite Nat2Z.inj_succ, Z.pow_succ_r by lia; reflexivity).
      assert (VN : val z * base + d < base ^ Z.of_nat (S m)) by (rewrite PM; nia). replace (m + S (nonspace s))%nat with (S m + nonspace s)%nat in C by lia. destruct (Z.eqb_spec c 0) as [C0|C0]; cbn [negb].
      * subst c. rewrite Z.mul_0_r, Z.add_0_r in K4. rewrite <- K4. apply (IH zn z' (S m) Hby'); [|lia|exact C]. split; [exact K2|]. destruct (proj2 N) as [->|L]; [left; destruct z'; [reflexivity|discriminate]|right]. rewrite K1, K4. nia.
      * destruct (Nat.eqb_spec (length z') zn) as [LZ|LZ].
        -- exfalso. rewrite K1 in LZ. unfold below in K3. pose proof (val_range w Hw z' K2) as R'. assert (base ^ Z.of_nat (S m) <= base ^ Z.of_nat (S m + nonspace s)) by (apply Z.pow_le_mono_r; lia). rewrite LZ in K4. pose proof (Bpow_pos w Hw zn). nia.
        -- destruct (snoc_normal z' c K2 K3 C0) as (N' & V'). rewrite K1 in V'. rewrite K4 in V'. rewrite <- V'. apply (IH zn (z' ++ [c]) (S m) Hby' N'); [lia|exact C].
Qed.
Lemma mpn_set_str_ok s base : bytes s ->
  match read_natural base s with
  | Some v => exists r, mpn_set_str w (mp_str_limbs w s base) s base = Ok r /\ limbs r /\ val r = v
  | None => mpn_set_str w (mp_str_limbs w s base) s base = Fail
  end.
Proof.
  intros Hs. unfold read_natural, mpn_set_str. destruct (Z.leb_spec 2 base) as [G1|G1]; cbn [andb]; [|destruct (Z.ltb_spec base 2); [reflexivity|lia]]. destruct (Z.leb_spec base 62) as [G2|G2]; [|destruct (Z.ltb_spec 62 base); [rewrite orb_true_r; reflexivity|lia]].
  destruct (Z.ltb_spec base 2); [lia|]. destruct (Z.ltb_spec 62 base); [lia|]. cbn [orb]. apply (set_loop_ok base _ (conj G1 G2) eq_refl s (mp_str_limbs w s base) [] 0 Hs).
  - apply normal_nil.
  - cbn. lia.
  - apply str_limbs_ok. lia.
Qed.
Lemma skip_trim s : bytes s -> skip_spaces s = trim s.
Proof. induction s as [|c s IH]; intros H; [reflexivity|]. cbn [skip_spaces trim]. rewrite (isspace_ok c (Forall_inv H)), (IH (Forall_inv_tail H)). reflexivity. Qed.
Lemma trim_bytes s : bytes s -> bytes (trim s).
Proof. induction s as [|c s IH]; intros H; [exact H|]. cbn [trim]. destruct (space c); [exact (IH (Forall_inv_tail H))|exact H]. Qed.
Definition unsigned_base (base : Z) (str : list Z) : Z * list Z :=
  if base =? 0 then
    if nth 0 str 0 =? 48 then
      let c := nth 1 str 0 in
      if (c =? 98) || (c =? 66) then (2, skipn 2 str)
      else if (c =? 111) || (c =? 79) then (8, skipn 2 str)
      else if (c =? 120) || (c =? 88) then (16, skipn 2 str)
      else (8, str)
    else (10, str)
  else (base, str).
Lemma unsigned_ok base s : bytes s -> read_unsigned base s = (let '(b, r) := unsigned_base base s in read_natural b r) /\ bytes (snd (unsigned_base base s)).
Proof.
  intros Hs. unfold read_unsigned, unsigned_base. destruct (base =? 0); cbn [negb]; [|split; [reflexivity|exact Hs]]. destruct s as [|a s]; [split; [reflexivity|exact Hs]|]. cbn [nth].
  assert (H2 : bytes (skipn 2 (a :: s))) by (apply Forall_skipn; exact Hs). destruct (Z.eqb_spec a 48) as [->|NA].
  - destruct s as [|c s]; [split; [reflexivity|exact Hs]|]. cbn [nth]. destruct ((c =? 98) || (c =? 66)); [split; [reflexivity|exact H2]|]. destruct ((c =? 111) || (c =? 79)); [split; [reflexivity|exact H2]|]. destruct ((c =? 120) || (c =? 88)); split; try reflexivity; [exact H2|exact Hs].
  - split; [|exact Hs]. destruct a as [|a|a]; try reflexivity. do 6 (destruct a as [a|a|]; try reflexivity). contradiction.
Qed.
Lemma set_str_ok s base : bytes s -> let '(z, ok) := mpz_set_str w s base in match read_integer base s with Some v => ok = true /\ isz w z v | None => ok = false /\ isz w z 0 end.
Proof.
  intros Hs. unfold mpz_set_str, read_integer. rewrite (skip_trim s Hs). pose proof (trim_bytes s Hs) as Ht. set (t := trim s) in *. clearbody t. clear s Hs.
  assert (U : forall (neg : bool) r, bytes r -> let '(z, ok) := (let '(base, str) := unsigned_base base r in match mpn_set_str w (mp_str_limbs w str base) str base with Ok z => (mkz neg (stripped z), true) | _ => (mkz false [], false) end) in
    match (if neg then option_map Z.opp (read_unsigned base r) else read_unsigned base r) with Some v => ok = true /\ isz w z v | None => ok = false /\ isz w z 0 end).
  { intros neg r Hr. destruct (unsigned_ok base r Hr) as (E & Hb). rewrite E. destruct (unsigned_base base r) as [b u]. cbn [snd] in Hb. pose proof (mpn_set_str_ok u b Hb) as M. destruct (read_natural b u) as [v|].
    - destruct M as (zl & Ez & Lz & Vz). rewrite Ez. destruct (stripped_spec w Hw zl Lz) as (N & V). destruct neg; cbn [option_map]; split; try reflexivity; apply isz_mkz; try exact N; unfold sg; rewrite V, Vz; reflexivity.
    - rewrite M. destruct neg; cbn [option_map]; split; try reflexivity; exact (isz_0 w). }
  fold (unsigned_base base (if (nth 0 t 0 =? 43) || (nth 0 t 0 =? 45) then tl t else t)). destruct t as [|a t]; [exact (U false [] Ht)|]. cbn [nth tl]. pose proof (Forall_inv_tail Ht) as Ht'. destruct (Z.eqb_spec a 45) as [->|N1].
  - exact (U true t Ht').
  - rewrite orb_false_r. destruct (Z.eqb_spec a 43) as [->|N2]; [exact (U false t Ht')|]. specialize (U false (a :: t) Ht). destruct a as [|a|a]; try exact U. do 6 (destruct a as [a|a|]; try exact U); contradiction.
Qed.
End Str.
