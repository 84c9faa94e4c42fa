(* ECDH on Montgomery curves: the context of mont_init, clamping, key creation, derivation and the checks on public keys. *)
From Verif.Base Require Import Prelude.
From Coq Require Import Znumtheory.
From Verif.Model Require Import Encoding Bio NumTheory Field EcScalar Wei Ecdsa Eddsa Mont.
From Verif.Spec Require Import EcSpec MontSpec DsaSpec.
From Verif.Proof Require Import Cong FieldProof EcCodec EdCodec EdCtx EcScalarProof Rfc6979 GrpMul MontProof.
Section D.
Variable p : positive.
Local Notation P := (Zpos p).
Local Notation fe := (Field.fe p).
Variable d : mont_def p.
Local Notation A := (w_a p d).
Local Notation B := (w_b p d).
Local Notation h := (w_h p d).
Local Notation n := (w_n p d).
Definition MG : point fe := Aff (w_x p d) (w_y p d).
Record good_mont : Prop := {
  gm_p : prime P;
  gm_5 : 3 < P;
  gm_r : P mod 4 = 3 \/ P mod 8 = 5;
  gm_n : prime n;
  gm_n3 : 2 < n;
  gm_k : mont_ok fe f0 f1 fe_add fe_mul A B;
  gm_on : mon p A B MG;
  gm_ord : zm p A B n MG = Inf;
  gm_h : exists j, 1 <= j <= 7 /\ h = 2 ^ j /\ j < blen P;
  gm_size : octs n = octs P;
  gm_nb : n < 2 ^ blen P }.
Hypothesis D : good_mont.
Let Pp := gm_p D.
Let P5 := gm_5 D.
Let K := gm_k D.
Let p3 : 2 < P := p3 p P5.
Add Ring fring : (ring_th p).
Record mctx_ok (c : mont p) : Prop := {
  mc_a : m_a p c = A; mc_b : m_b p c = B; mc_h : m_h p c = h; mc_n : m_n p c = n; mc_bi : m_bi p c = fe_inv B;
  mc_a24 : fe_mul (fe_mul (fe_add f1 f1) (fe_add f1 f1)) (m_a24 p c) = fe_add A (fe_add f1 f1); mc_g : m_g p c = MkM (w_x p d) (w_y p d) false }.
Lemma init_ok : exists c, mont_init p d = Some c /\ mctx_ok c.
Proof.
  unfold mont_init, mont_bi, mont_a24. rewrite !(invert_var_eq p Pp) by exact p3. unfold fe_invert. eexists. split; [reflexivity|]. constructor; cbn [m_a m_b m_h m_n m_bi m_a24 m_g]; try reflexivity.
  set (f4 := fe_add (fe_add f1 f1) (fe_add f1 f1) : fe). assert (N : f4 <> f0).
  { intros E. pose proof (two_nz p P5) as T. apply (mul_nz p Pp _ _ T T). rewrite <- E. unfold f4. ring. }
  transitivity (fe_mul (fe_add A (fe_add f1 f1)) (fe_mul (fe_inv f4) f4)); [unfold f4; ring|]. rewrite (inv_l p Pp f4 N). ring.
Qed.
Lemma mbits : Z.of_nat (fbits p) = blen P. Proof. exact (sc_bitlen_blen P eq_refl). Qed.
Lemma mh_pow : exists j, 1 <= j <= 7 /\ h = 2 ^ j /\ j < blen P. Proof. exact (gm_h D). Qed.
Lemma mh_pos : 0 < h. Proof. destruct mh_pow as (j & J & -> & _). apply Z.pow_pos_nonneg; lia. Qed.
Section C.
Variable c : mont p.
Hypothesis C : mctx_ok c.
Lemma mssize_eq : mssize p c = octs P.
Proof. unfold mssize. rewrite (mc_n _ C), size_octs by (pose proof (gm_n3 D); lia). exact (gm_size D). Qed.
Theorem mclamp_ok l : bytes l -> (octs P <= length l)%nat ->
  exists out, mont_clamp p c l = Some out /\ bytes out /\ length out = octs P /\ le_val out = mont_clamp_spec (blen P) h (le_val (firstn (octs P) l)).
Proof.
  intros Bl L. unfold mont_clamp. rewrite mssize_eq, (fsize_octs p), Nat.ltb_irrefl. cbn [orb]. rewrite (mc_h _ C). destruct mh_pow as (j & J & Eh & Jb). rewrite Eh.
  pose proof (octs_pos P eq_refl) as OP. set (z := octs P) in *. set (m := firstn z l). assert (Lm : length m = z) by (unfold m; rewrite firstn_length; lia). assert (Bm : bytes m) by (apply bytes_firstn; exact Bl).
  set (t := if (fbits p mod 8 =? 0)%nat then 8 else Z.of_nat (fbits p mod 8)). destruct m as [|b0 m]; [cbn in Lm; lia|]. cbn [hd tl]. apply bytes_cons in Bm. destruct Bm as (B0 & Bm). unfold byte in B0. rewrite clamp_low by lia.
  assert (P2 : 0 < 2 ^ j) by (apply Z.pow_pos_nonneg; lia). pose proof (Z.mod_pos_bound b0 (2 ^ j) P2) as R0. pose proof (Z.mod_le b0 (2 ^ j) ltac:(lia) P2) as R1.
  set (o := (b0 - b0 mod 2 ^ j) :: m). assert (Bo : bytes o) by (apply bytes_cons; split; [unfold byte; lia|exact Bm]). assert (Lo : length o = z) by (cbn [length] in Lm |- *; exact Lm).
  assert (Vo : le_val o = le_val (b0 :: m) - le_val (b0 :: m) mod 2 ^ j).
  { unfold o, le_val. cbn [dval]. assert (E : (b0 + 256 * dval 256 m) mod 2 ^ j = b0 mod 2 ^ j). { replace 256 with (2 ^ (8 - j) * 2 ^ j) at 1 by (rewrite <- Z.pow_add_r by lia; replace (8 - j + j) with 8 by ring; reflexivity). replace (b0 + 2 ^ (8 - j) * 2 ^ j * dval 256 m) with (b0 + 2 ^ (8 - j) * dval 256 m * 2 ^ j) by ring. apply Z.mod_add. lia. }
    rewrite E. ring. }
  pose proof (le_split o (z - 1) ltac:(lia)) as SP. set (u := firstn (z - 1) o) in *. set (w := nth (z - 1) o 0) in *. assert (Lu : length u = (z - 1)%nat) by (unfold u; rewrite firstn_length; lia).
  rewrite SP in Bo. apply bytes_app in Bo. destruct Bo as (Bu & Bw). apply bytes_cons in Bw. destruct Bw as (Bw & _). unfold byte in Bw. rewrite SP, le_val_snoc, Lu in Vo.
  pose proof mbits as BF. assert (T : 1 <= t <= 8 /\ blen P - 1 = 8 * Z.of_nat (z - 1) + (t - 1)).
  { unfold t, z. rewrite <- BF, <- (fsize_octs p). unfold fsize. clear - OP. assert (Q : (0 < fbits p)%nat). { destruct (fbits p) eqn:Ef; [|lia]. unfold z in OP. rewrite <- (fsize_octs p) in OP. unfold fsize in OP. rewrite Ef in OP. cbn in OP. lia. } revert Q. generalize (fbits p). intros b Q. clear OP.
    pose proof (Nat.div_mod_eq b 8). pose proof (Nat.div_mod_eq (b + 7) 8). pose proof (Nat.mod_upper_bound (b + 7) 8 ltac:(lia)). pose proof (Nat.mod_upper_bound b 8 ltac:(lia)). destruct (Nat.eqb_spec (b mod 8) 0); lia. }
  destruct T as (T1 & T2). rewrite clamp_top by lia. eexists. split; [reflexivity|]. assert (WT : 0 <= w mod 2 ^ (t - 1) < 2 ^ (t - 1)) by (apply Z.mod_pos_bound; apply Z.pow_pos_nonneg; lia). assert (TT : 2 ^ (t - 1) <= 128) by (change 128 with (2 ^ 7); apply Z.pow_le_mono_r; lia).
  split; [apply bytes_app; split; [exact Bu|apply bytes_cons; split; [unfold byte; lia|apply bytes_nil]]|]. split; [rewrite app_length, Lu; cbn [length]; lia|].
  rewrite le_val_snoc, Lu. unfold mont_clamp_spec. rewrite <- Vo, T2. rewrite Z.pow_add_r, Z.pow_mul_r by lia. change (2 ^ 8) with 256. pose proof (le_val_range u Bu) as Ru. rewrite Lu in Ru. rewrite pow_split_mod by lia. ring.
Qed.
Lemma mclamp_range v : 2 ^ (blen P - 1) <= mont_clamp_spec (blen P) h v < 2 ^ blen P.
Proof.
  unfold mont_clamp_spec. assert (Bn : 0 <= blen P - 1) by (unfold blen; pose proof (Z.log2_nonneg P); lia). pose proof (Z.pow_pos_nonneg 2 (blen P - 1) eq_refl Bn) as PP. pose proof (Z.mod_pos_bound (v - v mod h) (2 ^ (blen P - 1)) PP).
  assert (E2 : 2 ^ blen P = 2 * 2 ^ (blen P - 1)) by (rewrite <- Z.pow_succ_r by exact Bn; f_equal; ring). rewrite E2. lia.
Qed.
Lemma mclamp_h v : (h | mont_clamp_spec (blen P) h v).
Proof.
  destruct mh_pow as (j & J & Eh & Jb). pose proof mh_pos as HP. assert (DP : (h | 2 ^ (blen P - 1))). { exists (2 ^ (blen P - 1 - j)). rewrite Eh, <- Z.pow_add_r by lia. f_equal. ring. }
  assert (PP : 0 < 2 ^ (blen P - 1)) by (apply Z.pow_pos_nonneg; lia).
  unfold mont_clamp_spec. apply Z.divide_add_r; [exact DP|]. rewrite Z.mod_eq by lia. apply Z.divide_sub_r; [|apply Z.divide_mul_l; exact DP]. apply Z.mod_divide; [lia|]. rewrite Zminus_mod, Z.mod_mod, Z.sub_diag by lia. apply Z.mod_0_l. lia.
Qed.
(* what is clamped already is left alone *)
Lemma mclamp_fix k : (h | k) -> 2 ^ (blen P - 1) <= k < 2 ^ blen P -> mont_clamp_spec (blen P) h k = k.
Proof.
  intros Dk R. unfold mont_clamp_spec. pose proof mh_pos as HP. rewrite (proj2 (Z.mod_divide k h ltac:(lia)) Dk), Z.sub_0_r. assert (Bn : 0 <= blen P - 1) by (unfold blen; pose proof (Z.log2_nonneg P); lia).
  assert (E2 : 2 ^ blen P = 2 * 2 ^ (blen P - 1)) by (rewrite <- Z.pow_succ_r by exact Bn; f_equal; ring). replace (k mod 2 ^ (blen P - 1)) with (k - 2 ^ (blen P - 1)); [ring|]. apply Z.mod_unique_pos with 1; lia.
Qed.
Lemma mclamp_even v : Z.even (mont_clamp_spec (blen P) h v mod 2 ^ Z.of_nat (fbits p)) = true.
Proof.
  rewrite mbits, Z.mod_small by (pose proof (mclamp_range v); pose proof (Z.pow_nonneg 2 (blen P - 1)); lia). apply Z.even_spec. destruct (mclamp_h v) as (q & ->). destruct mh_pow as (j & J & -> & _). exists (q * 2 ^ (j - 1)). replace j with (Z.succ (j - 1)) at 1 by ring. rewrite Z.pow_succ_r by lia. ring.
Qed.
(* ---- encoding ---- *)
Definition xenc (x : fe) : list Z := le_bytes (octs P) (fv x).
Definition xdec (l : list Z) : fe := fe_of p (le_val (firstn (octs P) l) mod 2 ^ blen P).
Lemma xexport_eq x : xfe_export p x = xenc x. Proof. unfold xfe_export, xenc. rewrite (fsize_octs p). reflexivity. Qed.
Lemma ximport_eq l : fst (xfe_import p (firstn (fsize p) l)) = xdec l. Proof. unfold xfe_import, xdec. cbn [fst]. rewrite (fsize_octs p), mbits. reflexivity. Qed.
Lemma xenc_len x : length (xenc x) = octs P. Proof. apply le_bytes_length. Qed.
Lemma fv_pow (x : fe) : 0 <= fv x < 2 ^ blen P. Proof. pose proof (fv_range p x). destruct (blen_range P ltac:(lia)). lia. Qed.
Lemma octs_pow : 2 ^ blen P <= 256 ^ Z.of_nat (octs P).
Proof.
  change 256 with (2 ^ 8). rewrite <- Z.pow_mul_r by lia. apply Z.pow_le_mono_r; [lia|]. rewrite <- (fsize_octs p), <- mbits. unfold fsize. generalize (fbits p). clear. intros b. pose proof (Nat.div_mod_eq (b + 7) 8). pose proof (Nat.mod_upper_bound (b + 7) 8 ltac:(lia)). lia.
Qed.
Lemma xdec_enc x : xdec (xenc x) = x.
Proof.
  unfold xdec. rewrite firstn_all2 by (rewrite xenc_len; lia). unfold xenc. pose proof (fv_pow x) as R. pose proof octs_pow. rewrite le_val_le_bytes. rewrite (Z.mod_small (fv x) (256 ^ _)) by (clear - R H; lia). rewrite Z.mod_small by (clear - R; lia). apply fe_of_fv.
Qed.
Definition result (Q : point fe) : list Z * bool := match Q with Inf => (xenc f0, false) | Aff x _ => (xenc x, true) end.
Lemma export_ok B' q Q : prep p q Q -> mon p A B' Q -> pge_export p q = result Q.
Proof.
  intros X _. unfold pge_export. pose proof (invert_flag p Pp (pz p q) p3) as IF. destruct (fe_invert (pz p q)) as [i ok] eqn:EI. cbn [snd] in IF. unfold fe_invert in EI. injection EI as <- _. subst ok. destruct Q as [|x y]; destruct X as (Z & EX); cbn [result].
  - rewrite Z, (inv_0 p p3). destruct (is_zero_spec p (@f0 p)) as [_|N]; [|destruct (N eq_refl)]. rewrite xexport_eq. f_equal. f_equal. ring.
  - destruct (is_zero_spec p (pz p q)) as [E|_]; [contradiction|]. rewrite xexport_eq. f_equal. f_equal. rewrite EX. transitivity (fe_mul x (fe_mul (fe_inv (pz p q)) (pz p q))); [ring|]. rewrite (inv_l p Pp _ Z). ring.
Qed.
(* ---- keys ---- *)
Definition scal (priv : list Z) : Z := mont_clamp_spec (blen P) h (le_val (firstn (octs P) priv)).
Lemma raw_scal priv : bytes priv -> (octs P <= length priv)%nat -> exists k, mont_clamp p c priv = Some k /\ msc_raw p c k = scal priv.
Proof.
  intros Bl L. destruct (mclamp_ok priv Bl L) as (out & E & B' & Lo & V). exists out. split; [exact E|]. unfold msc_raw. rewrite mssize_eq, firstn_all2 by lia. exact V.
Qed.
Lemma scal_mod priv : scal priv mod 2 ^ Z.of_nat (fbits p) = scal priv.
Proof. rewrite mbits. apply Z.mod_small. pose proof (mclamp_range (le_val (firstn (octs P) priv))) as R. pose proof (Z.pow_nonneg 2 (blen P - 1)). fold (scal priv) in R. lia. Qed.
Lemma cmul_ok B' (K' : mont_ok fe f0 f1 fe_add fe_mul A B') q x y priv : mon p A B' (Aff x y) -> prep p q (Aff x y) -> pz p q = f1 ->
  prep p (cmul p c q (scal priv) true) (zm p A B' (scal priv) (Aff x y)).
Proof.
  intros H X Z. unfold cmul. pose proof (mul_even p Pp P5 A B' K' (m_a24 p c) (mc_a24 _ C) q x y (scal priv) true H X (fun _ => Z) (mclamp_even _)) as M. rewrite scal_mod in M. exact M.
Qed.
Theorem create_ok priv : bytes priv -> (octs P <= length priv)%nat ->
  ecdh_pubkey_create p c priv = match zm p A B (scal priv) MG with Inf => Abort | Aff x _ => Ok (xenc x) end.
Proof.
  intros Bl L. unfold ecdh_pubkey_create. destruct (raw_scal priv Bl L) as (k & -> & ->). unfold cmul_g. rewrite (mc_g _ C).
  pose proof (cmul_ok B K (pge_set_mge p (MkM (w_x p d) (w_y p d) false)) (w_x p d) (w_y p d) priv (gm_on D) (prep_mge p Pp _ _ (mr_aff p _ _)) eq_refl) as X. fold MG in X.
  rewrite (export_ok B _ _ X (zmon p Pp P5 A B K _ _ (gm_on D))). destruct (zm p A B (scal priv) MG); reflexivity.
Qed.
Theorem derive_ok pub priv B' y : bytes priv -> (octs P <= length priv)%nat -> mont_ok fe f0 f1 fe_add fe_mul A B' -> mon p A B' (Aff (xdec pub) y) ->
  ecdh_derive p c pub priv = Ok (result (zm p A B' (scal priv) (Aff (xdec pub) y))).
Proof.
  intros Bl L K' H. unfold ecdh_derive. destruct (raw_scal priv Bl L) as (k & -> & ->). f_equal. unfold pge_import_unsafe. rewrite ximport_eq.
  apply (export_ok B'); [apply (cmul_ok B' K'); [exact H|apply prep_aff; exact Pp|reflexivity]|]. apply (zmon p Pp P5 A B' K'). exact H.
Qed.
(* every x coordinate lies on the curve or on a twist of it *)
Lemma twist_exists x : exists B' y, mont_ok fe f0 f1 fe_add fe_mul A B' /\ mon p A B' (Aff x y).
Proof.
  set (v := fe_add (fe_add (fe_mul (fe_mul x x) x) (fe_mul A (fe_mul x x))) x). destruct (fe_eq_dec p v f0) as [E|N].
  - exists f1, f0. split; [split; [exact (f1_nz p Pp)|exact (proj2 K)]|]. unfold mon, on_mont. fold v. rewrite E. ring.
  - exists v, f1. split; [split; [exact N|exact (proj2 K)]|]. unfold mon, on_mont. fold v. ring.
Qed.
Lemma G_zm_inf k : zm p A B k MG = Inf <-> (n | k).
Proof.
  pose proof (mlaw p Pp P5 A B K) as ML. split.
  - intros E. destruct (Zdivide_dec n k) as [|N]; [assumption|]. exfalso. assert (R : rel_prime n k) by (apply prime_rel_prime; [exact (gm_n D)|exact N]).
    destruct (rel_prime_bezout _ _ R) as [u v Hb]. assert (G1 : zm p A B 1 MG = Inf).
    { rewrite <- Hb. unfold zm. rewrite (zm_add _ _ _ _ _ ML), !(zm_mul _ _ _ _ _ ML) by exact (gm_on D). pose proof (gm_ord D) as O. unfold zm in O, E. rewrite O, E, !(zm_e _ _ _ _ _ ML). reflexivity. }
    unfold zm in G1. rewrite (zm_1 _ _ _ _ _ ML) in G1 by exact (gm_on D). discriminate.
  - intros (q & ->). unfold zm. rewrite (zm_mul _ _ _ _ _ ML) by exact (gm_on D). pose proof (gm_ord D) as O. unfold zm in O. rewrite O. apply (zm_e _ _ _ _ _ ML).
Qed.
Theorem create_abort priv : bytes priv -> (octs P <= length priv)%nat -> ecdh_pubkey_create p c priv = Abort <-> (n | scal priv).
Proof. intros Bl L. rewrite (create_ok priv Bl L), <- G_zm_inf. destruct (zm p A B (scal priv) MG); split; intros E; congruence. Qed.
(* both sides compute the same secret, and it is not zero *)
Theorem agree pa pb qa qb : bytes pa -> bytes pb -> (octs P <= length pa)%nat -> (octs P <= length pb)%nat -> ecdh_pubkey_create p c pa = Ok qa -> ecdh_pubkey_create p c pb = Ok qb ->
  exists x y, zm p A B (scal pa * scal pb) MG = Aff x y /\ ecdh_derive p c qb pa = Ok (xenc x, true) /\ ecdh_derive p c qa pb = Ok (xenc x, true).
Proof.
  intros Ba Bb La Lb Ea Eb. pose proof (mlaw p Pp P5 A B K) as ML. pose proof (zmon p Pp P5 A B K (scal pa) MG (gm_on D)) as Oa. pose proof (zmon p Pp P5 A B K (scal pb) MG (gm_on D)) as Ob.
  assert (Na : ~ (n | scal pa)) by (intros N; apply (create_abort pa Ba La) in N; congruence). assert (Nb : ~ (n | scal pb)) by (intros N; apply (create_abort pb Bb Lb) in N; congruence).
  rewrite (create_ok pa Ba La) in Ea. rewrite (create_ok pb Bb Lb) in Eb. destruct (zm p A B (scal pa) MG) as [|xa ya] eqn:Za; [discriminate|]. destruct (zm p A B (scal pb) MG) as [|xb yb] eqn:Zb; [discriminate|]. injection Ea as <-. injection Eb as <-.
  assert (NN : zm p A B (scal pa * scal pb) MG <> Inf). { intros E. apply G_zm_inf in E. apply prime_mult in E; [|exact (gm_n D)]. tauto. }
  destruct (zm p A B (scal pa * scal pb) MG) as [|x y] eqn:Z; [destruct (NN eq_refl)|]. exists x, y. split; [reflexivity|]. split.
  - rewrite (derive_ok (xenc xb) pa B yb Ba La K); rewrite xdec_enc; [|exact Ob]. rewrite <- Zb. unfold zm in *. rewrite <- (zm_mul _ _ _ _ _ ML) by exact (gm_on D). rewrite Z. reflexivity.
  - rewrite (derive_ok (xenc xa) pb B ya Bb Lb K); rewrite xdec_enc; [|exact Oa]. rewrite <- Za. unfold zm in *. rewrite <- (zm_mul _ _ _ _ _ ML) by exact (gm_on D). rewrite Z.mul_comm, Z. reflexivity.
Qed.
(* a point of small order gives the zero secret, and it is reported *)
Theorem derive_small pub priv B' y : bytes priv -> (octs P <= length priv)%nat -> mont_ok fe f0 f1 fe_add fe_mul A B' -> mon p A B' (Aff (xdec pub) y) ->
  zm p A B' h (Aff (xdec pub) y) = Inf -> ecdh_derive p c pub priv = Ok (xenc f0, false).
Proof.
  intros Bl L K' H S. rewrite (derive_ok pub priv B' y Bl L K' H). destruct (mclamp_h (le_val (firstn (octs P) priv))) as (q & E). fold (scal priv) in E. rewrite E. pose proof (mlaw p Pp P5 A B' K') as ML. unfold zm in *. rewrite (zm_mul _ _ _ _ _ ML) by exact H. rewrite S, (zm_e _ _ _ _ _ ML). reflexivity.
Qed.
(* ---- public key checks ---- *)
Lemma import_ok pub : (snd (pge_import p c pub) = true <-> exists y, mon p A B (Aff (xdec pub) y)) /\
  (snd (pge_import p c pub) = true -> fst (pge_import p c pub) = MkP (xdec pub) f1) /\ (snd (pge_import p c pub) = false -> fst (pge_import p c pub) = pge_zero p).
Proof.
  unfold pge_import, pge_set_x. rewrite ximport_eq, (mc_a _ C), (mc_b _ C), (mc_bi _ C). cbn [fst snd]. split; [exact (validate_x_iff p Pp P5 A B K _ eq_refl (xdec pub))|]. split; intros ->; reflexivity.
Qed.
Theorem verify_ok pub : ecdh_pubkey_verify p c pub = true <-> exists y, mon p A B (Aff (xdec pub) y).
Proof. exact (proj1 (import_ok pub)). Qed.
Theorem is_small_ok pub : exists b, ecdh_pubkey_is_small p c pub = Some b /\ (b = true <-> exists y, mon p A B (Aff (xdec pub) y) /\ zm p A B h (Aff (xdec pub) y) = Inf).
Proof.
  unfold ecdh_pubkey_is_small. destruct (import_ok pub) as (I1 & I2 & I3). destruct (pge_import p c pub) as [q ok]. cbn [fst snd] in *. rewrite (mc_h _ C). destruct mh_pow as (j & J & Eh & _). destruct ok.
  - rewrite (I2 eq_refl). destruct (proj1 I1 eq_refl) as (y & M). rewrite Eh. destruct (MontProof.is_small_ok p Pp P5 A B K (m_a24 p c) (mc_a24 _ C) (MkP (xdec pub) f1) (Aff (xdec pub) y) j M (prep_aff p Pp _ _) ltac:(lia)) as (b & E & S). rewrite E. exists b. split; [reflexivity|]. rewrite S. split.
    + intros (_ & Z). exists y. split; assumption.
    + intros (y' & M' & Z). split; [discriminate|]. pose proof (mlaw p Pp P5 A B K) as ML.
      destruct (MontGroup.msame_x fe f0 f1 fe_add fe_mul fe_sub (fe_div p) fe_neg fe_inv (field_th p Pp) (fe_eq_dec p) A B K _ y y' M M') as [-> | ->]; [exact Z|].
      change (Aff (xdec pub) (fe_neg y')) with (mneg' p (Aff (xdec pub) y')). rewrite <- (zm_m1 _ _ _ _ _ ML) by exact M'. unfold zm in *. rewrite <- (zm_mul _ _ _ _ _ ML), Z.mul_comm, (zm_mul _ _ _ _ _ ML), Z by exact M'. apply (zm_e _ _ _ _ _ ML).
  - rewrite (I3 eq_refl), Eh. destruct (MontProof.is_small_ok p Pp P5 A B K (m_a24 p c) (mc_a24 _ C) (pge_zero p) Inf j Logic.I (prep_zero p Pp) ltac:(lia)) as (b & E & S). rewrite E. eexists. split; [reflexivity|]. split; [discriminate|]. intros (y & M & _). assert (Q : false = true) by (apply I1; exists y; exact M). discriminate Q.
Qed.
Theorem has_torsion_ok pub : ecdh_pubkey_has_torsion p c pub = true <-> exists y, mon p A B (Aff (xdec pub) y) /\ zm p A B n (Aff (xdec pub) y) <> Inf.
Proof.
  unfold ecdh_pubkey_has_torsion. destruct (import_ok pub) as (I1 & I2 & I3). destruct (pge_import p c pub) as [q ok]. cbn [fst snd] in *. destruct ok; cbn [andb].
  - rewrite (I2 eq_refl), (mc_n _ C). assert (ON : Z.odd n = true). { pose proof (gm_n3 D) as N3. destruct (Z.odd n) eqn:O; [reflexivity|]. exfalso. rewrite <- Z.negb_even in O. apply Bool.negb_false_iff, Z.even_spec in O. destruct O as (u & Eu). assert (D2 : (2 | n)) by (exists u; lia). destruct (prime_divisors n (gm_n D) 2 D2); lia. }
    assert (BN : 0 < n < 2 ^ Z.of_nat (fbits p)) by (rewrite mbits; pose proof (gm_nb D); pose proof (gm_n3 D); lia). split.
    + intros T. destruct (proj1 I1 eq_refl) as (y & M). exists y. split; [exact M|]. apply (MontProof.has_torsion_ok p Pp P5 A B K (m_a24 p c) (mc_a24 _ C) n (MkP (xdec pub) f1) _ _ M (prep_aff p Pp _ _) ON BN). exact T.
    + intros (y & M & Z). apply (MontProof.has_torsion_ok p Pp P5 A B K (m_a24 p c) (mc_a24 _ C) n (MkP (xdec pub) f1) _ y M (prep_aff p Pp _ _) ON BN). exact Z.
  - split; [discriminate|]. intros (y & M & _). assert (Q : false = true) by (apply I1; exists y; exact M). discriminate Q.
Qed.
Theorem pub_export_ok pub s : s = -1 \/ s = 0 \/ s = 1 -> exists xr yr ok, ecdh_pubkey_export p c pub s = Some (xr, yr, ok) /\
  (ok = true -> exists y, mon p A B (Aff (xdec pub) y) /\ xr = xenc (xdec pub) /\ yr = xenc y /\ (s = -1 \/ fv y mod 2 = s)) /\
  (ok = false -> xr = xenc f0 /\ yr = xenc f0 /\ forall y, mon p A B (Aff (xdec pub) y) -> s = 1 /\ y = f0).
Proof.
  intros S. unfold ecdh_pubkey_export, mge_import. rewrite ximport_eq, (mc_a _ C), (mc_b _ C), (mc_bi _ C).
  destruct (set_x_ok p Pp P5 A B K _ eq_refl (xdec pub) s (gm_r D) S) as (q & ok & E & S1 & S2). rewrite E. rewrite !xexport_eq. eexists _, _, _. split; [reflexivity|]. split; intros Q.
  - destruct (S1 Q) as (y & M & R & SG). exists y. inversion R; subst. refine (conj M (conj eq_refl (conj eq_refl SG))).
  - destruct (S2 Q) as (R & SG). inversion R; subst. refine (conj eq_refl (conj eq_refl SG)).
Qed.
End C.
End D.
