(* The Edwards context: what edwards_init builds and edwards_randomize keeps, the multiplications over it, scalars and clamping. *)
From Verif.Base Require Import Prelude.
From Coq Require Import Znumtheory Zpow_facts.
From Verif.Model Require Import Encoding Bio Hash NumTheory Field EcScalar Wei Ecdsa Edwards Eddsa.
From Verif.Spec Require Import HashSpec EcSpec DsaSpec EdSpec EddsaSpec.
From Verif.Proof Require Import Cong Rfc6979 FieldProof EcGroup GrpMul EcScalarProof EcCodec EdGroup EdProof EdMul EdCodec.
Section P.
Variable p : positive.
Local Notation fe := (Field.fe p).
Local Notation P := (Zpos p).
(* the constants of a curve: p and n prime, roots computable, the addition law complete, G on the curve and of order n, the
   cofactor a power of two, every point killed by h n, scalars and coordinates of as many octets, the hash wide enough *)
Record good_ed (d : edw_def p) : Prop := {
  ge_p : prime P;
  ge_r : P mod 4 = 3 \/ P mod 8 = 5;
  ge_c : complete fe f0 f1 fe_add fe_mul (k_a p d) (k_d p d);
  ge_n : prime (k_n p d);
  ge_n3 : 2 < k_n p d;
  ge_on : eon p (k_a p d) (k_d p d) (k_x p d, k_y p d);
  ge_ord : zm p (k_a p d) (k_d p d) (k_n p d) (k_x p d, k_y p d) = ezero p;
  ge_h : exists j, 0 <= j <= 7 /\ k_h p d = 2 ^ j /\ j < blen P;
  ge_all : forall Q, eon p (k_a p d) (k_d p d) Q -> zm p (k_a p d) (k_d p d) (k_h p d * k_n p d) Q = ezero p;
  ge_size : octs (k_n p d) = octs P;
  ge_prefix : bytes (k_prefix p d) /\ Z.of_nat (length (k_prefix p d)) < 2 ^ 64;
  ge_hash : (2 * ed_octs P <= size_of (k_hash p d) (2 * ed_octs P) <= rate_of (k_hash p d))%nat }.
(* a context in use *)
Inductive ed_context (d : edw_def p) : edw p -> Prop :=
| ectx_init c : edwards_init p d = Some c -> ed_context d c
| ectx_randomize c blind : ed_context d c -> 0 < blind < k_n p d -> ed_context d (edwards_randomize p c blind).
Section D.
Variable d : edw_def p.
Hypothesis D : good_ed d.
Local Notation a := (k_a p d).
Local Notation dd := (k_d p d).
Local Notation h := (k_h p d).
Local Notation n := (k_n p d).
Local Notation on := (eon p a dd).
Local Notation add := (eadd p a dd).
Local Notation neg := (eneg p).
Local Notation zero := (ezero p).
Local Notation xrep := (xrep p a dd).
Local Notation arep := (arep p a dd).
Local Notation zm := (zm p a dd).
Definition EG : fe * fe := (k_x p d, k_y p d).
Local Notation G := EG.
Local Notation Pp := (ge_p _ D).
Local Notation K := (ge_c _ D).
Add Ring fring : (FieldProof.ring_th p).
Lemma E3 : 2 < P. Proof. exact (P3 p Pp (ge_r _ D)). Qed.
Local Notation Mon := (m_on p Pp a dd K).
Local Notation Madd := (m_add p Pp a dd K).
Local Notation Mmul := (m_mul p Pp a dd K).
Local Notation Mop := (m_op p Pp a dd K).
Local Notation Me := (m_e p Pp a dd K).
Local Notation M1 := (m_1 p Pp a dd K).
Record ectx_ok (c : edw p) : Prop := {
  ex_a : x_a p c = a; ex_d : x_d p c = dd; ex_h : x_h p c = h; ex_n : x_n p c = n; ex_hash : x_hash p c = k_hash p d;
  ex_context : x_context p c = k_context p d; ex_prefix : x_prefix p c = k_prefix p d;
  ex_fixed : gtable p a dd (x_fixed p c) (xnsteps (sc_bitlen n)) G;
  ex_naf : naf_wtable p a dd (x_naf p c) XNAF_WIDTH_PRE G;
  ex_blind : xrep (x_unblind p c) (zm (- x_blind p c) G) }.
Lemma EG_on : on G. Proof. exact (ge_on _ D). Qed.
Lemma EG_ord : zm n G = zero. Proof. exact (ge_ord _ D). Qed.
Lemma en_pos : 1 < n. Proof. pose proof (prime_ge_2 _ (ge_n _ D)). lia. Qed.
Lemma en_fits : n < 2 ^ Z.of_nat (sc_bitlen n). Proof. apply bitlen_bound. pose proof en_pos. lia. Qed.
Lemma emod_zm k : zm (k mod n) G = zm k G.
Proof. apply (m_mod p Pp a dd K); [exact EG_on|exact EG_ord]. Qed.
Lemma eqm_ezm j k : j mod n = k mod n -> zm j G = zm k G.
Proof. intros E. rewrite <- (emod_zm j), <- (emod_zm k), E. reflexivity. Qed.
(* the points killed by n *)
Definition sub (Q : fe * fe) : Prop := on Q /\ zm n Q = zero.
Lemma sub_zm Q k : sub Q -> sub (zm k Q).
Proof. intros (O & E). split; [apply Mon; exact O|]. rewrite <- Mmul, Z.mul_comm, Mmul, E, Me by exact O. reflexivity. Qed.
Lemma sub_mod Q k : sub Q -> zm (k mod n) Q = zm k Q.
Proof. intros (O & E). apply (m_mod p Pp a dd K); assumption. Qed.
Lemma sub_G : sub G. Proof. split; [exact EG_on|exact EG_ord]. Qed.
Lemma sub_h Q : on Q -> sub (zm h Q).
Proof. intros O. split; [apply Mon; exact O|]. rewrite <- Mmul, Z.mul_comm by exact O. exact (ge_all _ D Q O). Qed.
Lemma sub_kill Q k : sub Q -> k mod n <> 0 -> zm k Q = zero -> Q = zero.
Proof.
  intros (O & OQ) NZ E. assert (R : rel_prime k n). { apply rel_prime_sym, prime_rel_prime; [exact (ge_n _ D)|]. intros W. apply NZ. apply Zdivide_mod. exact W. }
  destruct (rel_prime_bezout _ _ R) as [u v B]. rewrite <- (M1 Q O), <- B. rewrite Madd, !Mmul, E, OQ, !Me by exact O. apply (a_inf p Pp a dd K). exact (on_inf p a dd).
Qed.
Theorem einit_ok : exists c, edwards_init p d = Some c /\ ectx_ok c.
Proof.
  assert (W : xrep (MkX (k_x p d) (k_y p d) f1 (fe_mul (k_x p d) (k_y p d))) G).
  { refine (conj EG_on (conj (f1_nz p Pp) _)). cbn [xx xy xz xt fst snd EG]. refine (conj _ (conj _ _)); ring. }
  unfold edwards_init. destruct (xge_fixed_points_ok p Pp E3 a dd K (sc_bitlen n) _ _ W) as (fx & EF & TF). destruct (xge_fixed_naf_points_ok p Pp E3 a dd K _ _ XNAF_WIDTH_PRE W) as (nf & EN & TN).
  rewrite EF, EN. eexists. split; [reflexivity|]. constructor; cbn [x_a x_d x_h x_n x_hash x_context x_prefix x_g x_fixed x_naf x_blind x_unblind]; try reflexivity; try assumption. exact (zero_rep p Pp a dd).
Qed.
Lemma bits_field : Z.of_nat (fbits p) = blen P. Proof. exact (sc_bitlen_blen P eq_refl). Qed.
Lemma h_pow : exists j, 0 <= j <= 7 /\ h = 2 ^ j /\ j < blen P. Proof. exact (ge_h _ D). Qed.
Lemma h_pos : 0 < h. Proof. destruct h_pow as (j & J & -> & _). apply Z.pow_pos_nonneg; lia. Qed.
Lemma h_unit : h mod n <> 0.
Proof.
  intros E. apply Z.mod_divide in E; [|pose proof en_pos; lia]. destruct h_pow as (j & J & Eh & _). rewrite Eh in E. pose proof (Zpow_facts.prime_power_prime n 2 j (proj1 J) (ge_n _ D) prime_2 E) as C. pose proof (ge_n3 _ D). lia.
Qed.
Section C.
Variable c : edw p.
Hypothesis C : ectx_ok c.
Lemma xsbits_eq : xsbits p c = sc_bitlen n. Proof. unfold xsbits. rewrite (ex_n _ C). reflexivity. Qed.
Lemma xssize_eq : xssize p c = octs P.
Proof. unfold xssize. rewrite xsbits_eq, size_octs by (pose proof en_pos; lia). exact (ge_size _ D). Qed.
Lemma Xmul_g k : xrep (xmul_g p c k) (zm k G).
Proof.
  unfold xmul_g. rewrite (ex_a _ C), (ex_d _ C), (ex_n _ C), xsbits_eq. pose proof en_pos. pose proof en_fits.
  apply (edwards_mul_g_ok p Pp a dd K n); [lia|exact (ex_fixed _ C)|exact EG_on|exact EG_ord|exact (ex_blind _ C)].
Qed.
Lemma erandomize_ok blind : 0 < blind < n -> ectx_ok (edwards_randomize p c blind).
Proof.
  intros B. pose proof (Xmul_g blind) as XM. destruct C. constructor; cbn [edwards_randomize x_a x_d x_h x_n x_hash x_context x_prefix x_g x_fixed x_naf x_blind x_unblind]; try assumption.
  rewrite ex_n0. unfold sc_neg. rewrite (proj2 (Z.eqb_neq blind 0)) by lia. replace (zm (- (n - blind)) G) with (zm blind G); [exact XM|].
  apply eqm_ezm. replace (- (n - blind)) with (blind + (-1) * n) by ring. symmetry. apply Z.mod_add. lia.
Qed.
Lemma Xmul q Q k : 0 <= k < 2 ^ blen P -> xrep q Q -> xrep (xmul p c q k) (zm k Q).
Proof. intros B X. unfold xmul. rewrite (ex_a _ C), (ex_d _ C). apply (edwards_mul_ok p Pp a dd K); [rewrite bits_field; exact B|exact X]. Qed.
Lemma Xmul_any q Q k : xrep q Q -> xrep (xmul p c q k) (zm (k mod 16 ^ Z.of_nat (xnsteps (fbits p))) Q).
Proof. intros X. unfold xmul. rewrite (ex_a _ C), (ex_d _ C). apply (edwards_mul_any p Pp a dd K). exact X. Qed.
Lemma Xdouble k1 q Q k2 : 0 <= k1 < n -> 0 <= k2 < n -> xrep q Q -> exists r, xmul_double p c k1 q k2 = Some r /\ xrep r (add (zm k1 G) (zm k2 Q)).
Proof.
  intros K1 K2 X. pose proof en_fits. unfold xmul_double. rewrite (ex_a _ C), (ex_d _ C), xsbits_eq. apply (edwards_mul_double_ok p Pp a dd K); try lia; [exact (ex_naf _ C)|exact EG_on|exact X].
Qed.
Definition eterm (e : xge p * Z) (Q : (fe * fe) * Z) : Prop := xrep (fst e) (fst Q) /\ snd e = snd Q /\ 0 <= snd e < n.
Lemma Xmulti k0 l Ps : 0 <= k0 < n -> Forall2 eterm l Ps -> exists r, xmul_multi p c k0 l = Some r /\ xrep r (add (zm k0 G) (msum p a dd Ps)).
Proof.
  intros K0 F. pose proof en_fits. unfold xmul_multi. rewrite (ex_a _ C), (ex_d _ C), xsbits_eq. apply (edwards_mul_multi_ok p Pp a dd K); try lia; [exact (ex_naf _ C)|exact EG_on|].
  induction F as [|x y l l' (T1 & T2 & T3) F IH]; constructor; [|exact IH]. refine (conj T1 (conj T2 _)). lia.
Qed.
Lemma Xadd q r Q R : xrep q Q -> xrep r R -> xrep (xadd p c q r) (add Q R).
Proof. unfold xadd. rewrite (ex_a _ C), (ex_d _ C). apply (add_rep p Pp a dd K). Qed.
Lemma Xmadd q r Q R : xrep q Q -> arep r R -> xrep (xmadd p c q r) (add Q R).
Proof. unfold xmadd. rewrite (ex_a _ C), (ex_d _ C). apply (madd_rep p Pp a dd K). Qed.
Lemma iter_dbl q Q m : xrep q Q -> xrep (Nat.iter m (xge_dbl p a) q) (zm (2 ^ Z.of_nat m) Q).
Proof.
  intros X. pose proof (rep_on _ _ _ _ _ X) as O. induction m as [|m IH].
  - change (2 ^ Z.of_nat 0) with 1. rewrite M1 by exact O. exact X.
  - rewrite Nat2Z.inj_succ, Z.pow_succ_r, Mmul, (m_2 p Pp a dd K) by (try apply Mon; try exact O; lia). apply (dbl_rep p Pp a dd K). exact IH.
Qed.
Lemma Xmulh q Q : xrep q Q -> exists r, xmulh p c q = Some r /\ xrep r (zm h Q).
Proof.
  intros X. unfold xmulh, xge_mulh. rewrite (ex_a _ C), (ex_h _ C). destruct h_pow as (j & J & Eh & _). pose proof h_pos as HP. rewrite (proj2 (Z.eqb_neq h 0)) by lia.
  assert (L : Z.land h (h - 1) = 0). { rewrite Eh. replace (2 ^ j - 1) with (Z.ones j) by (rewrite Z.ones_equiv; lia). rewrite Z.land_ones by lia. apply Z.mod_same. lia. }
  rewrite L. cbn [negb andb Z.eqb]. eexists. split; [reflexivity|]. pose proof (iter_dbl q Q (Z.to_nat (Z.log2 h)) X) as I. rewrite Z2Nat.id in I by apply Z.log2_nonneg. rewrite Eh, Z.log2_pow2 in I by lia. rewrite Eh, Z.log2_pow2 by lia. exact I.
Qed.
(* ---- scalars ---- *)
Lemma raw_eq l : xsc_raw p c l = le_val (firstn (octs P) l). Proof. unfold xsc_raw. rewrite xssize_eq. reflexivity. Qed.
Lemma reduce_eq l : bytes l -> xsc_reduce p c l = le_val (firstn (octs P) l) mod n.
Proof.
  intros B. unfold xsc_reduce. rewrite (ex_n _ C), raw_eq, xsbits_eq. destruct (Nat.eqb_spec (sc_bitlen n mod 8) 0) as [E|E]; [|reflexivity]. pose proof en_pos as N1.
  pose proof (le_val_range _ (bytes_firstn (octs P) l B)) as R. set (v := le_val (firstn (octs P) l)) in *. pose proof (sc_bitlen_blen n ltac:(lia)) as SB. destruct (blen_range n ltac:(lia)) as (BR & _).
  assert (V : v < 2 * n). { eapply Z.lt_le_trans; [apply R|]. transitivity (256 ^ Z.of_nat (octs P)); [apply Z.pow_le_mono_r; [lia|]; rewrite firstn_length; lia|]. rewrite <- (ge_size _ D), <- size_octs by lia. change 256 with (2 ^ 8). rewrite <- Z.pow_mul_r by lia.
    replace (8 * Z.of_nat ((sc_bitlen n + 7) / 8)) with (Z.succ (blen n - 1)); [rewrite Z.pow_succ_r by (unfold blen; pose proof (Z.log2_nonneg n); lia); lia|].
    rewrite <- SB. clear - E. pose proof (Nat.div_mod_eq (sc_bitlen n) 8). pose proof (Nat.div_mod_eq (sc_bitlen n + 7) 8). pose proof (Nat.mod_upper_bound (sc_bitlen n + 7) 8 ltac:(lia)). lia. }
  unfold sc_weak. destruct (Z.leb_spec n v); cbn [fst]; [apply Z.mod_unique_pos with 1; lia|symmetry; apply Z.mod_small; lia].
Qed.
Lemma wide_eq l : length l = (adj_size p * 2)%nat -> xsc_wide p c l = Some (le_val l mod n).
Proof.
  intros L. unfold xsc_wide. rewrite (ex_n _ C). assert (W : (length l * 8 <= ((xsbits p c + 63) / 64 * 2 + 2) * 64)%nat).
  { rewrite L. pose proof xssize_eq as Sz. unfold xssize in Sz. pose proof (fsize_octs p) as F. assert (A : (adj_size p <= S (octs P))%nat) by (unfold adj_size; rewrite F; destruct (_ =? _)%nat; lia). rewrite <- Sz in A. revert A. generalize (xsbits p c) (adj_size p). clear. intros b z A.
    pose proof (Nat.div_mod_eq (b + 7) 8). pose proof (Nat.div_mod_eq (b + 63) 64). pose proof (Nat.mod_upper_bound (b + 63) 64 ltac:(lia)). lia. }
  rewrite (proj2 (Nat.leb_le _ _) W). reflexivity.
Qed.
End C.
Theorem ed_context_ok c : ed_context d c -> ectx_ok c.
Proof.
  induction 1 as [c E|c blind X IH B].
  - destruct einit_ok as (c' & E' & Kc). rewrite E in E'. replace c with c'; [exact Kc|congruence].
  - apply erandomize_ok; assumption.
Qed.
(* ---- clamping ---- *)
Lemma clamp_low x j : 0 <= j <= 7 -> 0 <= x < 256 -> Z.land x (256 - 2 ^ j) = x - x mod 2 ^ j.
Proof.
  intros J X. apply Z.eqb_eq. pose proof (forall_zseq (fun j => forallb (fun x => Z.land x (256 - 2 ^ j) =? x - x mod 2 ^ j) (zseq 0 256)) 0 8 ltac:(vm_compute; reflexivity) j ltac:(lia)) as F. cbv beta in F.
  exact (forall_zseq (fun x => Z.land x (256 - 2 ^ j) =? x - x mod 2 ^ j) 0 256 F x ltac:(lia)).
Qed.
Lemma clamp_top x t : 1 <= t <= 8 -> 0 <= x < 256 -> Z.lor (Z.land x (Z.shiftl 1 t - 1)) (Z.shiftl 1 (t - 1)) = 2 ^ (t - 1) + x mod 2 ^ (t - 1).
Proof.
  intros J X. apply Z.eqb_eq. pose proof (forall_zseq (fun t => forallb (fun x => Z.lor (Z.land x (Z.shiftl 1 t - 1)) (Z.shiftl 1 (t - 1)) =? 2 ^ (t - 1) + x mod 2 ^ (t - 1)) (zseq 0 256)) 1 8 ltac:(vm_compute; reflexivity) t ltac:(lia)) as F. cbv beta in F.
  exact (forall_zseq (fun x => Z.lor (Z.land x (Z.shiftl 1 t - 1)) (Z.shiftl 1 (t - 1)) =? 2 ^ (t - 1) + x mod 2 ^ (t - 1)) 0 256 F x ltac:(lia)).
Qed.
Lemma pow_split_mod u w H t : 0 <= u < H -> 0 <= t -> (u + H * w) mod (H * 2 ^ t) = u + H * (w mod 2 ^ t).
Proof.
  intros U T. pose proof (Z.pow_pos_nonneg 2 t eq_refl T). rewrite Z.rem_mul_r by lia. rewrite (Z.mul_comm H w), Z.mod_add, Z.div_add by lia. rewrite (Z.mod_small u), (Z.div_small u) by lia. reflexivity.
Qed.
Theorem clamp_ok c l : ectx_ok c -> bytes l -> (octs P <= length l)%nat ->
  exists out, edwards_clamp p c l = Some out /\ bytes out /\ length out = octs P /\ le_val out = ed_clamp (blen P) h (le_val (firstn (octs P) l)).
Proof.
  intros C B L. unfold edwards_clamp. rewrite (xssize_eq c C), (fsize_octs p), Nat.ltb_irrefl. cbn [orb]. rewrite (ex_h _ C). destruct h_pow as (j & J & Eh & Jb). rewrite Eh.
  pose proof (octs_pos P eq_refl) as OP. set (z := octs P) in *. set (m := firstn z l). assert (Lm : length m = z) by (unfold m; rewrite firstn_length; lia). assert (Bm : bytes m) by (apply bytes_firstn; exact B).
  set (t := if (fbits p mod 8 =? 0)%nat then 8 else Z.of_nat (fbits p mod 8)). destruct m as [|b0 m]; [cbn in Lm; lia|]. cbn [hd tl]. apply bytes_cons in Bm. destruct Bm as (B0 & Bm). unfold byte in B0. rewrite clamp_low by lia.
  assert (P2 : 0 < 2 ^ j) by (apply Z.pow_pos_nonneg; lia). pose proof (Z.mod_pos_bound b0 (2 ^ j) P2) as R0. pose proof (Z.mod_le b0 (2 ^ j) ltac:(lia) P2) as R1.
  set (o := (b0 - b0 mod 2 ^ j) :: m). assert (Bo : bytes o) by (apply bytes_cons; split; [unfold byte; lia|exact Bm]). assert (Lo : length o = z) by (cbn [length] in Lm |- *; exact Lm).
  assert (Vo : le_val o = le_val (b0 :: m) - le_val (b0 :: m) mod 2 ^ j).
  { unfold o, le_val. cbn [dval]. assert (E : (b0 + 256 * dval 256 m) mod 2 ^ j = b0 mod 2 ^ j). { replace 256 with (2 ^ (8 - j) * 2 ^ j) at 1 by (rewrite <- Z.pow_add_r by lia; replace (8 - j + j) with 8 by ring; reflexivity). replace (b0 + 2 ^ (8 - j) * 2 ^ j * dval 256 m) with (b0 + 2 ^ (8 - j) * dval 256 m * 2 ^ j) by ring. apply Z.mod_add. lia. }
    rewrite E. ring. }
  pose proof (le_split o (z - 1) ltac:(lia)) as SP. set (u := firstn (z - 1) o) in *. set (w := nth (z - 1) o 0) in *. assert (Lu : length u = (z - 1)%nat) by (unfold u; rewrite firstn_length; lia).
  rewrite SP in Bo. apply bytes_app in Bo. destruct Bo as (Bu & Bw). apply bytes_cons in Bw. destruct Bw as (Bw & _). unfold byte in Bw. rewrite SP, le_val_snoc, Lu in Vo.
  pose proof bits_field as BF. assert (T : 1 <= t <= 8 /\ blen P - 1 = 8 * Z.of_nat (z - 1) + (t - 1)).
  { unfold t, z. rewrite <- BF, <- (fsize_octs p). unfold fsize. clear - OP. assert (Q : (0 < fbits p)%nat). { destruct (fbits p) eqn:Ef; [|lia]. unfold z in OP. rewrite <- (fsize_octs p) in OP. unfold fsize in OP. rewrite Ef in OP. cbn in OP. lia. } revert Q. generalize (fbits p). intros b Q. clear OP.
    pose proof (Nat.div_mod_eq b 8). pose proof (Nat.div_mod_eq (b + 7) 8). pose proof (Nat.mod_upper_bound (b + 7) 8 ltac:(lia)). pose proof (Nat.mod_upper_bound b 8 ltac:(lia)). destruct (Nat.eqb_spec (b mod 8) 0); lia. }
  destruct T as (T1 & T2). rewrite clamp_top by lia. eexists. split; [reflexivity|]. assert (WT : 0 <= w mod 2 ^ (t - 1) < 2 ^ (t - 1)) by (apply Z.mod_pos_bound; apply Z.pow_pos_nonneg; lia). assert (TT : 2 ^ (t - 1) <= 128) by (change 128 with (2 ^ 7); apply Z.pow_le_mono_r; lia).
  split; [apply bytes_app; split; [exact Bu|apply bytes_cons; split; [unfold byte; lia|apply bytes_nil]]|]. split; [rewrite app_length, Lu; cbn [length]; lia|].
  rewrite le_val_snoc, Lu. unfold ed_clamp. rewrite <- Vo, T2. rewrite Z.pow_add_r, Z.pow_mul_r by lia. change (2 ^ 8) with 256. pose proof (le_val_range u Bu) as Ru. rewrite Lu in Ru. rewrite pow_split_mod by lia. ring.
Qed.
Lemma clamp_range v : 0 <= ed_clamp (blen P) h v < 2 ^ blen P.
Proof.
  unfold ed_clamp. assert (B : 0 <= blen P - 1) by (unfold blen; pose proof (Z.log2_nonneg P); lia). pose proof (Z.pow_pos_nonneg 2 (blen P - 1) eq_refl B) as PP. pose proof (Z.mod_pos_bound (v - v mod h) (2 ^ (blen P - 1)) PP).
  assert (E2 : 2 ^ blen P = 2 * 2 ^ (blen P - 1)) by (rewrite <- Z.pow_succ_r by exact B; f_equal; ring). rewrite E2. lia.
Qed.
Lemma clamp_h v : (h | ed_clamp (blen P) h v).
Proof.
  destruct h_pow as (j & J & Eh & Jb). pose proof h_pos as HP. assert (DP : (h | 2 ^ (blen P - 1))). { exists (2 ^ (blen P - 1 - j)). rewrite Eh, <- Z.pow_add_r by lia. f_equal. ring. }
  assert (PP : 0 < 2 ^ (blen P - 1)) by (apply Z.pow_pos_nonneg; lia).
  unfold ed_clamp. apply Z.divide_add_r; [exact DP|]. rewrite Z.mod_eq by lia. apply Z.divide_sub_r; [|apply Z.divide_mul_l; exact DP]. apply Z.mod_divide; [lia|]. rewrite Zminus_mod, Z.mod_mod, Z.sub_diag by lia. apply Z.mod_0_l. lia.
Qed.
End D.
End P.
