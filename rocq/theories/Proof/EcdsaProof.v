(* ECDSA over a context: encodings, reduction, verification, signing, recovery, key agreement and tweaks. *)
From Verif.Base Require Import Prelude.
From Coq Require Import Znumtheory.
From Verif.Model Require Import Encoding Bio Asn1 Hash Drbg NumTheory Rsa Dsa Field EcScalar Wei Ecdsa.
From Verif.Spec Require Import HashSpec KdfSpec DrbgSpec EcSpec DsaSpec EcdsaSpec.
From Verif.Proof Require Import Cong Fermat RsaKey RsaPrim HmacProof KdfProof DrbgProof Rfc6979 DsaProof NumInv FieldProof EcGroup GrpMul EcScalarProof WeiProof WeiMul WeiCtx EcCodec.
#[local] Opaque hmac_drbg_generate hmac_drbg_init rfc2104 rfc_round.
Lemma reduce_of_dsa n msg v : 0 < n -> dsa_reduce msg n = Ok v ->
  sc_weak n (let m := if (octs n <? length msg)%nat then firstn (octs n) msg else msg in if blen n <? Z.of_nat (length m) * 8 then Z.shiftr (be_val m) (Z.of_nat (length m) * 8 - blen n) else be_val m) = v.
Proof.
  intros N. unfold dsa_reduce. cbv zeta. rewrite bitlen_blen by exact N. pose proof (octs_ge n N) as (O1 & _). unfold octs at 1 2.
  rewrite <- O1, Nat2Z.id. replace (Z.of_nat (octs n) <? Z.of_nat (length msg)) with (octs n <? length msg)%nat.
  2:{ destruct (Nat.ltb_spec (octs n) (length msg)), (Z.ltb_spec (Z.of_nat (octs n)) (Z.of_nat (length msg))); try reflexivity; lia. }
  unfold sc_weak. match goal with |- context [let '(_, _) := ?X in _] => destruct X as [m r] end. destruct (n <=? m); [discriminate|]. intros E. injection E as <-. reflexivity.
Qed.
Lemma inv_unique n s w v : 1 < n -> (s * w) mod n = 1 -> (s * v) mod n = 1 -> w ≡ v ⟦ n ⟧.
Proof.
  intros N W V. apply eqm_trans with (v * s * w). - replace w with (1 * w) at 1 by ring. apply eqm_mul; [|apply eqm_refl]. rewrite Z.mul_comm. unfold eqm. rewrite V, Z.mod_1_l by lia. reflexivity.
  - replace (v * s * w) with (v * (s * w)) by ring. replace v with (v * 1) at 2 by ring. apply eqm_mul; [apply eqm_refl|]. unfold eqm. rewrite W, Z.mod_1_l by lia. reflexivity.
Qed.
Lemma prime_gcd n x : prime n -> 0 < x < n -> Z.gcd x n = 1.
Proof. intros N X. apply Zgcd_1_rel_prime. apply rel_prime_sym. apply prime_rel_prime; [exact N|]. intros D. apply Z.divide_pos_le in D; lia. Qed.
Section P.
Variable p : positive.
Local Notation fe := (Field.fe p).
Variable d : wei_def p.
Hypothesis D : good_def p d.
Variable c : wei p.
Hypothesis C : ctx_ok p d c.
Local Notation P := (Zpos p).
Local Notation a := (d_a p d).
Local Notation b := (d_b p d).
Local Notation h := (d_h p d).
Local Notation n := (d_n p d).
Local Notation on := (on' p a b).
Local Notation add := (padd' p a).
Local Notation neg := (pneg' p).
Local Notation jrep := (jrep p a b).
Local Notation wrep := (wrep p a b).
Local Notation zm := (zm p a).
Local Notation G := (G p d).
Local Notation Pp := (gd_p _ _ D).
Local Notation P3 := (gd_3 _ _ D).
Local Notation ns := (gd_ns _ _ D).
Local Notation no2 := (gd_no2 _ _ D).
Lemma N1 : 1 < n. Proof. exact (n_pos p d D). Qed.
Lemma n_odd : Z.odd n = true.
Proof.
  destruct (Z.odd n) eqn:O; [reflexivity|exfalso]. rewrite <- Z.negb_even in O. apply negb_false_iff, Z.even_spec in O. destruct O as [k O].
  assert (Dv : (2 | n)) by (exists k; lia). pose proof (gd_n3 _ _ D). destruct (prime_divisors n (gd_n _ _ D) 2 Dv) as [|[|[|]]]; lia.
Qed.
Lemma ssize_octs : ssize p c = octs n. Proof. unfold ssize. rewrite (sbits_eq p d c C). apply size_octs. pose proof N1. lia. Qed.
Lemma sc_export_eq x : sc_export p c x = i2o n x. Proof. unfold sc_export, i2o. rewrite ssize_octs. reflexivity. Qed.
Lemma sc_import_eq raw : sc_import p c raw = if be_val raw <? n then (be_val raw, true) else (0, false).
Proof. unfold sc_import. rewrite (cx_n _ _ _ C). reflexivity. Qed.
Lemma sc_import_i2o x : 0 <= x < n -> sc_import p c (i2o n x) = (x, true).
Proof. intros X. rewrite sc_import_eq, i2o_val by (pose proof N1; lia). rewrite (proj2 (Z.ltb_lt _ _)) by lia. reflexivity. Qed.
Lemma reduce_dsa msg v : dsa_reduce msg n = Ok v -> ecdsa_reduce p c msg = v.
Proof.
  intros E. pose proof N1. apply reduce_of_dsa in E; [|lia]. rewrite <- E. unfold ecdsa_reduce. cbv zeta.
  rewrite ssize_octs, (sbits_eq p d c C), sc_bitlen_blen, (cx_n _ _ _ C) by lia. reflexivity.
Qed.
Theorem reduce_eq msg : bytes msg -> ecdsa_reduce p c msg = (bits2int n msg mod n, bits2int n msg <? n).
Proof. intros B. pose proof N1. apply reduce_dsa, dsa_reduce_spec; [lia|exact B]. Qed.
(* ---- points ---- *)
Theorem export_eq q Q compact : wrep q Q -> wge_export p q compact =
  match Q with Aff x y => (sec1_enc P compact (fv x) (fv y), true) | Inf => (sec1_enc P compact 0 0, false) end.
Proof.
  intros [|x y O]; unfold wge_export, sec1_enc; cbn [wx wy winf wge_zero negb].
  - unfold fe_is_odd. rewrite !(fe_export_eq p), (fv_f0 p). reflexivity.
  - rewrite !(fe_export_eq p), (odd_mod p y). destruct (fe_is_odd y); reflexivity.
Qed.
Lemma enc_sec1 compact x y : sec1 P x y (sec1_enc P compact x y).
Proof. destruct compact; [left|right; left]; reflexivity. Qed.
Lemma firstn_i2o x l : firstn (octs P) (i2o P x ++ l) = i2o P x. Proof. apply firstn_app_exact. apply i2o_len. Qed.
Lemma skipn_i2o x l : skipn (octs P) (i2o P x ++ l) = l. Proof. apply skipn_app_exact. apply i2o_len. Qed.
Lemma sec1_bytes x y raw : sec1 P x y raw -> bytes raw.
Proof.
  pose proof (Z.mod_pos_bound y 2 eq_refl). intros [-> |[-> | ->]]; apply bytes_cons; (split; [unfold byte; lia|]); [apply i2o_bytes| |]; apply bytes_app; split; apply i2o_bytes.
Qed.
Definition compressed (raw : list Z) : Prop := hd 0 raw = 2 \/ hd 0 raw = 3.
Theorem import_complete x y raw : (compressed raw -> P mod 4 = 3) -> on (Aff x y) -> sec1 P (fv x) (fv y) raw -> wge_import p c raw = Some (MkW x y false, true).
Proof.
  intros M O S. unfold wge_import. rewrite (cx_a _ _ _ C), (cx_b _ _ _ C), (cx_h _ _ _ C), (fsize_octs p). pose proof (odd_mod p y) as OM.
  destruct S as [-> |[-> | ->]]; cbn [hd] in M.
  - rewrite OM in *. assert (M' : P mod 4 = 3) by (apply M; unfold compressed; cbn [hd]; destruct (fe_is_odd y); [right|left]; reflexivity).
    destruct (set_x_ok p Pp P3 a b h ns no2 x (if fe_is_odd y then 1 else 0) M' ltac:(destruct (fe_is_odd y); auto)) as (q & ok & E & _ & H & _).
    destruct (H y O ltac:(destruct (fe_is_odd y); reflexivity)) as [-> ->].
    replace ((2 + (if fe_is_odd y then 1 else 0) =? 2) || (2 + (if fe_is_odd y then 1 else 0) =? 3)) with true by (destruct (fe_is_odd y); reflexivity).
    cbn [length]. rewrite i2o_len, Nat.eqb_refl. cbn [negb]. rewrite (fe_import_export p P3). replace ((2 + (if fe_is_odd y then 1 else 0)) mod 2) with (if fe_is_odd y then 1 else 0) by (destruct (fe_is_odd y); reflexivity).
    rewrite E. reflexivity.
  - change ((4 =? 2) || (4 =? 3)) with false. change ((4 =? 4) || (4 =? 6) || (4 =? 7)) with true. cbv iota. cbn [length]. rewrite app_length, !i2o_len. rewrite (proj2 (Nat.eqb_eq _ _)) by lia. cbn [negb].
    rewrite firstn_i2o, skipn_i2o, !(fe_import_export p P3). pose proof (set_xy_ok p Pp a b ns x y) as K. destruct (wge_set_xy p a b x y) as [q ok]. destruct K as (K1 & K2 & _). rewrite (proj2 K1 O), (K2 (proj2 K1 O)). reflexivity.
  - rewrite OM. replace ((6 + (if fe_is_odd y then 1 else 0) =? 2) || (6 + (if fe_is_odd y then 1 else 0) =? 3)) with false by (destruct (fe_is_odd y); reflexivity).
    replace ((6 + (if fe_is_odd y then 1 else 0) =? 4) || (6 + (if fe_is_odd y then 1 else 0) =? 6) || (6 + (if fe_is_odd y then 1 else 0) =? 7)) with true by (destruct (fe_is_odd y); reflexivity).
    cbn [length]. rewrite app_length, !i2o_len. rewrite (proj2 (Nat.eqb_eq _ _)) by lia. cbn [negb].
    rewrite firstn_i2o, skipn_i2o, !(fe_import_export p P3). pose proof (set_xy_ok p Pp a b ns x y) as K. destruct (wge_set_xy p a b x y) as [q ok]. destruct K as (K1 & K2 & _). rewrite (proj2 K1 O), (K2 (proj2 K1 O)).
    destruct (fe_is_odd y); reflexivity.
Qed.
Theorem import_sound raw : bytes raw -> (compressed raw -> P mod 4 = 3) -> exists q ok, wge_import p c raw = Some (q, ok) /\ (exists Q, wrep q Q) /\
  (ok = true -> exists x y, on (Aff x y) /\ sec1 P (fv x) (fv y) raw /\ q = MkW x y false).
Proof.
  intros B M. unfold wge_import. rewrite (cx_a _ _ _ C), (cx_b _ _ _ C), (cx_h _ _ _ C), (fsize_octs p).
  assert (Z0 : exists Q, wrep (wge_zero p) Q) by (exists Inf; constructor).
  destruct raw as [|form t]; [solve [exists (wge_zero p), false; split; [reflexivity|split; [exact Z0|discriminate]]]|]. apply bytes_cons in B. destruct B as [_ B]. unfold compressed in M. cbn [hd] in M.
  destruct (Z.eqb_spec form 2) as [F2|F2]; destruct (Z.eqb_spec form 3) as [F3|F3]; cbn [orb]; try lia.
  3:{ destruct (Z.eqb_spec form 4) as [F4|F4]; destruct (Z.eqb_spec form 6) as [F6|F6]; destruct (Z.eqb_spec form 7) as [F7|F7]; cbn [orb]; try lia.
    4:{ solve [exists (wge_zero p), false; split; [reflexivity|split; [exact Z0|discriminate]]]. }
    all: cbn [length]; destruct (Nat.eqb_spec (S (length t)) (1 + octs P * 2)) as [Lt|]; cbn [negb]; [|solve [exists (wge_zero p), false; split; [reflexivity|split; [exact Z0|discriminate]]]].
    all: pose proof (fe_import_spec p P3 (firstn (octs P) t) (bytes_firstn _ _ B) ltac:(apply firstn_length_le; lia)) as Fx; destruct (fe_import p (firstn (octs P) t)) as [x okx].
    all: pose proof (fe_import_spec p P3 (skipn (octs P) t) (bytes_skipn _ _ B) ltac:(rewrite skipn_length; lia)) as Fy; destruct (fe_import p (skipn (octs P) t)) as [y oky].
    all: pose proof (set_xy_ok p Pp a b ns x y) as K; destruct (wge_set_xy p a b x y) as [q ok]; destruct K as (K1 & K2 & K3).
    all: eexists _, _; split; [reflexivity|]; split; [destruct ok; [exists (Aff x y); rewrite (K2 eq_refl); constructor; apply K1; reflexivity|exists Inf; rewrite (K3 eq_refl); constructor]|].
    all: intros H; apply andb_prop in H; destruct H as [H Hk]; apply andb_prop in H; destruct H as [H Hf]; apply andb_prop in H; destruct H as [Hx Hy]; subst okx oky ok.
    all: exists x, y; split; [apply K1; reflexivity|]; split; [|apply K2; reflexivity].
    all: assert (T : t = i2o P (fv x) ++ i2o P (fv y)) by (rewrite <- (firstn_skipn (octs P) t); f_equal; [apply Fx; reflexivity|apply Fy; reflexivity]).
    - right; left. rewrite F4, T. reflexivity.
    - right; right. rewrite (odd_mod p y), T, F6. destruct (fe_is_odd y); [rewrite F6 in Hf; discriminate Hf|reflexivity].
    - right; right. rewrite (odd_mod p y), T, F7. destruct (fe_is_odd y); [reflexivity|rewrite F7 in Hf; discriminate Hf]. }
  all: cbn [length]; destruct (Nat.eqb_spec (S (length t)) (1 + octs P)) as [Lt|]; cbn [negb]; [|solve [exists (wge_zero p), false; split; [reflexivity|split; [exact Z0|discriminate]]]].
  all: pose proof (fe_import_spec p P3 t B ltac:(lia)) as Fx; destruct (fe_import p t) as [x okx].
  all: destruct (set_x_ok p Pp P3 a b h ns no2 x (form mod 2) ltac:(apply M; auto) ltac:(subst form; auto)) as (q & ok & E & H1 & H2 & H3); rewrite E.
  all: eexists _, _; split; [reflexivity|]; split.
  1,3: destruct ok; [destruct (proj1 H1 eq_refl) as (y & O & Od); exists (Aff x y); rewrite (proj2 (H2 y O Od)); constructor; exact O|exists Inf; rewrite (H3 eq_refl); constructor].
  all: intros H; apply andb_prop in H; destruct H as [Hx Hk]; subst okx ok; destruct (proj1 H1 eq_refl) as (y & O & Od); exists x, y; split; [exact O|]; split; [|apply (H2 y O Od)].
  all: left; rewrite (odd_mod p y), Od; f_equal; [subst form; reflexivity|apply Fx; reflexivity].
Qed.
(* ---- scalar inverses ---- *)
Lemma invert_var_ok s : 0 < s < n -> exists w, sc_invert_var n s = Some w /\ 0 <= w < n /\ (s * w) mod n = 1.
Proof.
  intros S. unfold sc_invert_var. pose proof N1. destruct (mpn_invert_spec s n ltac:(lia) ltac:(lia) n_odd) as (r & E & I). rewrite E. unfold inverse_of in I. rewrite Z.abs_eq in I by lia.
  destruct r as [w|].
  - exists w. rewrite (Z.mod_small 1 n) in I by lia. split; [reflexivity|]. tauto.
  - exfalso. apply I. apply prime_gcd; [exact (gd_n _ _ D)|exact S].
Qed.
Lemma invert_ok s : 0 < s < n -> exists w, sc_invert n s = (w, true) /\ 0 <= w < n /\ (s * w) mod n = 1.
Proof.
  intros S. unfold sc_invert. pose proof N1. rewrite powm_eq by lia. cbv zeta. pose proof (gd_n3 _ _ D) as N3.
  assert (F : (s * (s ^ (n - 2) mod n)) mod n = 1).
  { rewrite Z.mul_mod_idemp_r by lia. replace (s * s ^ (n - 2)) with (s ^ (n - 1)). - apply fermat; [exact (gd_n _ _ D)|]. rewrite Z.mod_small; lia. - replace (n - 1) with (Z.succ (n - 2)) by lia. rewrite Z.pow_succ_r by lia. reflexivity. }
  eexists. split; [f_equal|split; [apply Z.mod_pos_bound; lia|exact F]].
  apply negb_true_iff. apply Z.eqb_neq. intros E. rewrite E, Z.mul_0_r, Z.mod_0_l in F by lia. discriminate.
Qed.
Lemma zm_mod_pt k Q : on Q -> zm n Q = Inf -> zm (k mod n) Q = zm k Q.
Proof. intros O E. apply (m_mod p Pp P3 a b h ns no2); assumption. Qed.
(* ---- verification ---- *)
Definition low (s : Z) : Prop := s <= n / 2.
Lemma high_iff s : sc_is_high n s = false <-> low s.
Proof. unfold sc_is_high, low. apply Z.ltb_ge. Qed.
(* the equation on x(R), through either branch *)
Lemma check_ok u1 u2 A Q r : 0 <= u1 < n -> 0 <= u2 < n -> wrep A Q -> 0 <= r < n ->
  exists res, (if wei_has_small_gap p n then match jmul_double p c u1 A u2 with None => None | Some J => jge_equal_r_var p n J r end
    else match mul_double p c u1 A u2 with None => None | Some R => if winf R then Some false else Some (fst (sc_set_fe p c (wx R)) =? r) end) = Some res /\
    (res = true <-> exists X Y, add (zm u1 G) (zm u2 Q) = Aff X Y /\ fv X mod n = r).
Proof.
  intros U1 U2 W R. pose proof N1. destruct (wei_has_small_gap p n) eqn:SG.
  - destruct (Jdouble p d D c C u1 A Q u2 U1 U2 W) as (J & E & HJ). rewrite E. eapply jge_equal_r_var_ok; try eassumption; first [exact Pp|exact P3|exact ns|exact no2].
  - destruct (Mdouble p d D c C u1 A Q u2 U1 U2 W) as (J & E & HJ). rewrite E. destruct HJ as [|X Y O]; cbn [winf wge_zero wx].
    + eexists. split; [reflexivity|]. split; [discriminate|]. intros (X & Y & E' & _). discriminate.
    + eexists. split; [reflexivity|]. unfold sc_set_fe. cbn [fst]. rewrite (cx_n _ _ _ C), Z.eqb_eq. split; [intros K; exists X, Y; auto|intros (X' & Y' & E' & K)]. congruence.
Qed.
Lemma sig_split r s : length r = octs n -> length s = octs n -> sig_r p c (r ++ s) = r /\ sig_s p c (r ++ s) = s.
Proof.
  intros L1 L2. unfold sig_r, sig_s. rewrite ssize_octs. rewrite (firstn_app_exact r s _ L1), (skipn_app_exact r s _ L1). split; [reflexivity|]. rewrite <- L2. apply firstn_all.
Qed.
Theorem verify_ok msg rb sb pub : bytes msg -> bytes rb -> bytes sb -> bytes pub -> length rb = octs n -> length sb = octs n -> (compressed pub -> P mod 4 = 3) ->
  exists res, ecdsa_verify p c msg (rb ++ sb) pub = Some res /\
  (res = true <-> exists x y, on (Aff x y) /\ sec1 P (fv x) (fv y) pub /\ low (be_val sb) /\
    ecdsa_accepts fe (@fv p) add zm G n (Aff x y) (bits2int n msg mod n) (be_val rb) (be_val sb)).
Proof.
  intros Bm Br Bs Bp Lr Ls M. unfold ecdsa_verify. cbv zeta. destruct (sig_split rb sb Lr Ls) as [-> ->]. rewrite !sc_import_eq, (cx_n _ _ _ C). pose proof N1 as N1.
  pose proof (be_val_range rb Br) as [R0 _]. pose proof (be_val_range sb Bs) as [S0 _]. set (r := be_val rb) in *. set (s := be_val sb) in *.
  assert (No : forall A : Prop, (A -> False) -> exists res, Some false = Some res /\ (res = true <-> A)) by (intros A F; exists false; split; [reflexivity|split; [discriminate|intros X; destruct (F X)]]).
  destruct (Z.ltb_spec r n) as [R1|R1]; cbn [negb]; [|destruct (s <? n); apply No; intros (x & y & _ & _ & _ & H & _); lia].
  destruct (Z.ltb_spec s n) as [S1|S1]; cbn [negb]; [|apply No; intros (x & y & _ & _ & _ & _ & H & _); lia].
  destruct (Z.eqb_spec r 0) as [|R2]; cbn [orb]; [apply No; intros (x & y & _ & _ & _ & H & _); lia|].
  destruct (Z.eqb_spec s 0) as [|S2]; [apply No; intros (x & y & _ & _ & _ & _ & H & _); lia|].
  destruct (sc_is_high n s) eqn:Hi. { apply No. intros (x & y & _ & _ & H & _). apply high_iff in H. congruence. } apply high_iff in Hi.
  destruct (import_sound pub Bp M) as (q & ok & E & (Q & W) & Hs). rewrite E.
  destruct ok; cbn [negb]. 2:{ apply No. intros (x & y & O & S & _). rewrite (import_complete x y pub M O S) in E. discriminate. }
  destruct (Hs eq_refl) as (x & y & O & Sc & ->). clear Hs. assert (Q = Aff x y) by (inversion W; reflexivity). subst Q.
  rewrite (reduce_eq msg Bm). cbn [fst]. set (m := bits2int n msg mod n). assert (Hs : 0 < s < n) by (clear - S0 S1 S2; lia). assert (Hr : 0 < r < n) by (clear - R0 R1 R2; lia).
  destruct (invert_var_ok s Hs) as (w & Ew & W1 & W2). rewrite Ew. unfold sc_mul.
  assert (Np : 0 < n) by (clear - N1; lia).
  destruct (check_ok ((m * w) mod n) ((r * w) mod n) (MkW x y false) (Aff x y) r (Z.mod_pos_bound _ _ Np) (Z.mod_pos_bound _ _ Np) W ltac:(clear - Hr; lia)) as (res & Er & Hres).
  exists res. split; [exact Er|]. rewrite Hres. split.
  - intros (X & Y & EX & EY). exists x, y. split; [exact O|]. split; [exact Sc|]. split; [exact Hi|]. split; [exact Hr|]. split; [exact Hs|]. exists w, X, Y. auto.
  - intros (x' & y' & O' & Sc' & _ & (_ & _ & w' & X & Y & Ew' & EX & EY)).
    assert (EE : Some (MkW x y false, true) = Some (MkW x' y' false, true)) by (rewrite <- (import_complete x y pub M O Sc); exact (import_complete x' y' pub M O' Sc')).
    assert (x = x' /\ y = y') as [<- <-] by (split; congruence). exists X, Y. split; [|exact EY]. rewrite <- EX. pose proof (inv_unique n s w w' N1 W2 Ew') as U.
    f_equal; f_equal; apply eqm_mul; try apply eqm_refl; exact U.
Qed.
(* ---- signing ---- *)
Local Notation id := (d_hash p d).
Definition usable (k : Z) : Prop := 0 < k < n /\ exists X Y, zm k G = Aff X Y /\ fv X mod n <> 0.
Lemma loop_step fuel dr st : hd_inv id st dr -> exists dr', hd_inv id (snd (rfc_round id n st)) dr' /\
  ((~ usable (fst (rfc_round id n st)) /\ Ecdsa.sign_loop p (S fuel) c dr = Ecdsa.sign_loop p fuel c dr') \/
   (usable (fst (rfc_round id n st)) /\ exists X Y, zm (fst (rfc_round id n st)) G = Aff X Y /\ Ecdsa.sign_loop p (S fuel) c dr = Ok (fst (rfc_round id n st), MkW X Y false))).
Proof.
  intros HI. pose proof N1 as N1. assert (Np : 0 < n) by lia. destruct (draw id st dr n Np HI) as (o & dr' & D1 & D2 & D3). exists dr'. split; [exact D3|].
  destruct (round_range id n st Np (proj1 HI)) as (C0 & _). set (k := fst (rfc_round id n st)) in *. cbn [Ecdsa.sign_loop]. rewrite ssize_octs, D1. apply reduce_dsa in D2. rewrite D2.
  destruct (Z.ltb_spec k n) as [K|K]. 2:{ left. split; [intros ((_ & X) & _); clear - X K; lia|reflexivity]. }
  rewrite Z.mod_small by (clear - C0 K; lia). cbn [andb]. destruct (Z.eqb_spec k 0) as [|K0]; cbn [negb andb]. { left. split; [intros ((X & _) & _); clear - X e; lia|reflexivity]. }
  pose proof (Mul_g p d D c C k) as W. set (R := mul_g p c k) in *. clearbody R. remember (zm k G) as T eqn:ET. destruct W as [|X Y O]; cbn [winf wge_zero negb andb].
  { left. split; [intros (_ & X & Y & E & _); congruence|reflexivity]. }
  cbn [wx]. change (fst (sc_set_fe p c X)) with (fv X mod e_n p c). rewrite (cx_n _ _ _ C). destruct (Z.eqb_spec (fv X mod n) 0) as [E|E]; cbn [negb].
  { left. split; [intros (_ & X' & Y' & E' & NE); congruence|reflexivity]. }
  right. split; [split; [clear - C0 K K0; lia|exists X, Y; split; [symmetry; exact ET|exact E]]|]. exists X, Y. split; [reflexivity|reflexivity].
Qed.
Lemma sign_loop_sound fuel : forall dr st k R, hd_inv id st dr -> Ecdsa.sign_loop p fuel c dr = Ok (k, R) ->
  exists i X Y, k = rfc_candidate id n i st /\ usable k /\ zm k G = Aff X Y /\ R = MkW X Y false /\ forall j, (j < i)%nat -> ~ usable (rfc_candidate id n j st).
Proof.
  induction fuel as [|fuel IH]; intros dr st k R HI E; [discriminate|]. destruct (loop_step fuel dr st HI) as (dr' & HI' & [[NU E']|[U (X & Y & EX & E')]]); rewrite E' in E.
  - destruct (IH dr' _ k R HI' E) as (i & X & Y & K1 & K2 & K3 & K4 & K5). exists (S i), X, Y. split; [exact K1|]. split; [exact K2|]. split; [exact K3|]. split; [exact K4|]. intros [|j] Hj; [exact NU|]. apply (K5 j). clear - Hj. lia.
  - assert (k = fst (rfc_round id n st) /\ R = MkW X Y false) as [-> ->] by (split; congruence). exists 0%nat, X, Y. split; [reflexivity|]. split; [exact U|]. split; [exact EX|]. split; [reflexivity|]. intros j Hj. clear - Hj. lia.
Qed.
Lemma sign_loop_complete i : forall fuel dr st, hd_inv id st dr -> usable (rfc_candidate id n i st) -> (i < fuel)%nat -> exists k R, Ecdsa.sign_loop p fuel c dr = Ok (k, R).
Proof.
  induction i as [|i IH]; intros fuel dr st HI U L; (destruct fuel as [|fuel]; [clear - L; lia|]); destruct (loop_step fuel dr st HI) as (dr' & HI' & [[NU E']|[U' (X & Y & EX & E')]]); rewrite E'; try (eexists _, _; reflexivity).
  - contradiction (NU U).
  - apply (IH fuel dr' _ HI' U). clear - L. lia.
Qed.
Definition nonces (x m : Z) : list Z * list Z := rfc_init id (i2o n x) (i2o n m).
Hypothesis small_n : n < 2 ^ 1024.
Lemma octs_small : (octs n <= 128)%nat.
Proof.
  pose proof N1. pose proof (octs_ge n ltac:(lia)) as (_ & O). unfold blen in O. assert (Z.log2 n < 1024) by (apply Z.log2_lt_pow2; [lia|exact small_n]). clear - O H0. lia.
Qed.
Lemma nonce_init x m : exists dr, hmac_drbg_init id (i2o n x ++ i2o n m) = Ok dr /\ hd_inv id (nonces x m) dr.
Proof.
  destruct (hd_init id (i2o n x ++ i2o n m)) as (dr & D1 & D2).
  { split; [apply bytes_app; split; apply i2o_bytes|]. rewrite app_length, !i2o_len. unfold M64. pose proof octs_small. lia. }
  exists dr. split; [exact D1|]. unfold nonces. rewrite <- rfc_init_eq; [exact D2|]. intros E. apply (f_equal (@length Z)) in E. rewrite app_length, !i2o_len in E. cbn in E. pose proof N1. pose proof (octs_pos n ltac:(lia)). lia.
Qed.
Definition flip (neg : bool) (s : Z) : Z := if neg then n - s else s.
Theorem sign_spec fuel msg priv sig param : bytes msg -> bytes priv -> ecdsa_sign p fuel c msg priv = Ok (sig, param, true) ->
  let x := be_val priv in let m := bits2int n msg mod n in
  0 < x < n /\ exists i X Y r s neg, let k := rfc_candidate id n i (nonces x m) in
    0 < k < n /\ ecdsa_signs fe (@fv p) zm G n x m k r s X Y /\ 0 < r < n /\ (forall j, (j < i)%nat -> ~ usable (rfc_candidate id n j (nonces x m))) /\
    0 <= flip neg s <= n / 2 /\ (neg = true -> 0 < s) /\ sig = i2o n r ++ i2o n (flip neg s) /\
    param = (if fv X <? n then 0 else 2) + (if xorb (fe_is_odd Y) neg then 1 else 0).
Proof.
  intros Bm Bp. cbv zeta. pose proof N1 as N1. unfold ecdsa_sign, priv_read. rewrite sc_import_eq, (reduce_eq msg Bm). cbn [fst]. pose proof (be_val_range priv Bp) as [X0 _].
  set (x := be_val priv) in *. set (m := bits2int n msg mod n).
  destruct (Z.ltb_spec x n) as [X1|X1].
  2:{ cbn [andb]. destruct (hmac_drbg_init _ _) as [dr| |]; try discriminate. destruct (Ecdsa.sign_loop p fuel c dr) as [[k R]| |]; try discriminate. destruct (sc_set_fe p c (wx R)) as [r lw]. destruct (sc_invert _ k) as [ki []]; cbn [negb]; try discriminate. }
  cbn [andb]. rewrite !sc_export_eq, (cx_hash _ _ _ C), (cx_n _ _ _ C). destruct (nonce_init x m) as (dr & Ei & HI). rewrite Ei.
  destruct (Ecdsa.sign_loop p fuel c dr) as [[k R]| |] eqn:EL; try discriminate. destruct (sign_loop_sound fuel dr _ k R HI EL) as (i & X & Y & Ek & (Hk & X' & Y' & EX' & NZ) & EX & -> & Hb).
  assert (X' = X) by congruence. subst X'. clear Y' EX'. unfold sc_set_fe. cbn [wx wy]. rewrite (cx_n _ _ _ C). destruct (invert_ok k Hk) as (ki & EI & I1 & I2). rewrite EI. cbn [negb].
  assert (Np : 0 < n) by (clear - N1; lia). set (r := fv X mod n) in *. pose proof (Z.mod_pos_bound (fv X) n Np) as Hr. fold r in Hr.
  unfold sc_mul, sc_add. set (s := (((((r * x) mod n + m) mod n) * ki) mod n)). pose proof (Z.mod_pos_bound ((((r * x) mod n + m) mod n) * ki) n Np) as Hs. fold s in Hs.
  pose proof (minimize_spec n s Np Hs) as Mi. unfold sc_minimize in *. set (ng := sc_is_high n s) in *. destruct (Z.eqb_spec x 0) as [Ex|Nx]; cbn [negb].
  { discriminate. } rewrite !sc_export_eq. intros E.
  assert (E' : (sig, param) = (i2o n r ++ i2o n (if ng then sc_neg n s else s), (if fv X <? n then 0 else 2) + (if xorb (fe_is_odd Y) ng then 1 else 0))) by congruence. apply pair_equal_spec in E'. destruct E' as [-> ->].
  assert (Fl : (if ng then sc_neg n s else s) = flip ng s /\ (ng = true -> 0 < s)).
  { unfold flip, sc_neg. unfold ng, sc_is_high. pose proof (Z.div_pos n 2 ltac:(lia) eq_refl) as Dp. destruct (Z.ltb_spec (n / 2) s) as [Hh|Hh]; [|split; [reflexivity|discriminate]]. rewrite (proj2 (Z.eqb_neq s 0)) by (clear - Hh Dp; lia). split; [reflexivity|intros _; clear - Hh Dp; lia]. }
  destruct Fl as [Fl Fp]. rewrite Fl in *.
  split; [clear - X0 X1 Nx; lia|]. exists i, X, Y, r, s, ng. rewrite <- Ek. split; [exact Hk|]. split.
  { split; [exact EX|]. split; [reflexivity|]. split; [exact Hs|]. change (s * k ≡ m + r * x ⟦ n ⟧). unfold s. apply eqm_trans with ((r * x + m) * ki * k).
    - apply eqm_mul; [|apply eqm_refl]. apply eqm_trans with ((((r * x) mod n + m) mod n) * ki); [apply eqm_mod|]. apply eqm_mul; [|apply eqm_refl]. apply eqm_trans with ((r * x) mod n + m); [apply eqm_mod|]. apply eqm_add; [apply eqm_mod|apply eqm_refl].
    - replace ((r * x + m) * ki * k) with ((m + r * x) * (k * ki)) by ring. replace (m + r * x) with ((m + r * x) * 1) at 2 by ring. apply eqm_mul; [apply eqm_refl|]. unfold eqm. rewrite I2, Z.mod_1_l by exact N1. reflexivity. }
  split; [clear - Hr NZ; lia|]. split; [exact Hb|]. split; [exact (proj1 Mi)|]. split; [exact Fp|]. split; reflexivity.
Qed.
Theorem sign_total fuel msg priv i : bytes msg -> bytes priv -> 
  let x := if be_val priv <? n then be_val priv else 0 in let m := bits2int n msg mod n in
  usable (rfc_candidate id n i (nonces x m)) -> (i < fuel)%nat -> exists sig param, ecdsa_sign p fuel c msg priv = Ok (sig, param, (be_val priv <? n) && negb (be_val priv =? 0)).
Proof.
  intros Bm Bp. cbv zeta. intros U L. unfold ecdsa_sign, priv_read. rewrite sc_import_eq, (reduce_eq msg Bm). cbn [fst]. set (m := bits2int n msg mod n) in *.
  replace (if be_val priv <? n then (be_val priv, true) else (0, false)) with (if be_val priv <? n then be_val priv else 0, be_val priv <? n) by (destruct (be_val priv <? n); reflexivity).
  set (x := if be_val priv <? n then be_val priv else 0) in *. rewrite !sc_export_eq, (cx_hash _ _ _ C), (cx_n _ _ _ C). destruct (nonce_init x m) as (dr & Ei & HI). rewrite Ei.
  destruct (sign_loop_complete i fuel dr _ HI U L) as (k & R & EL). rewrite EL. destruct (sign_loop_sound fuel dr _ k R HI EL) as (i' & X & Y & Ek & (Hk & _) & _).
  destruct (sc_set_fe p c (wx R)) as [r lw]. destruct (invert_ok k Hk) as (ki & -> & _). cbn [negb]. destruct (sc_minimize _ _) as [s ng]. eexists _, _. f_equal. f_equal.
  unfold x. destruct (be_val priv <? n); reflexivity.
Qed.
(* ---- keys ---- *)
Lemma mulG x : 0 < x < n -> exists X Y, zm x G = Aff X Y /\ on (Aff X Y).
Proof.
  intros X. pose proof (m_on p Pp P3 a b h ns no2 x G (G_on p d D)) as O. destruct (zm x G) as [|u v] eqn:E; [|exists u, v; split; [reflexivity|exact O]].
  apply (zm_inf p d D) in E. rewrite Z.mod_small in E; lia.
Qed.
Lemma wrep_aff q x y : wrep q (Aff x y) -> q = MkW x y false. Proof. intros W. inversion W. reflexivity. Qed.
Lemma priv_read_eq priv : bytes priv -> priv_read p c priv = (if be_val priv <? n then be_val priv else 0, (0 <? be_val priv) && (be_val priv <? n)).
Proof.
  intros B. pose proof (be_val_range priv B). unfold priv_read. rewrite sc_import_eq. destruct (be_val priv <? n); [|rewrite !andb_false_r; reflexivity]. rewrite andb_true_r. cbn [andb]. f_equal.
  destruct (Z.eqb_spec (be_val priv) 0), (Z.ltb_spec 0 (be_val priv)); try reflexivity; lia.
Qed.
Lemma priv_read_i2o x : 0 < x < n -> priv_read p c (i2o n x) = (x, true).
Proof. intros X. unfold priv_read. rewrite sc_import_i2o by lia. cbn [andb]. rewrite (proj2 (Z.eqb_neq x 0)) by lia. reflexivity. Qed.
Theorem create_eq x compact : 0 < x < n -> exists X Y, zm x G = Aff X Y /\ on (Aff X Y) /\ ecdsa_pubkey_create p c (i2o n x) compact = (sec1_enc P compact (fv X) (fv Y), true).
Proof.
  intros Hx. destruct (mulG x Hx) as (X & Y & E & O). exists X, Y. split; [exact E|]. split; [exact O|]. unfold ecdsa_pubkey_create. rewrite priv_read_i2o by exact Hx.
  pose proof (Mul_g p d D c C x) as W. rewrite E in W. rewrite (export_eq _ _ compact W). reflexivity.
Qed.
(* ---- signatures verify ---- *)
Lemma flip_eqm ng s : flip ng s ≡ (if ng then -1 else 1) * s ⟦ n ⟧.
Proof. unfold flip. destruct ng; [|rewrite Z.mul_1_l; apply eqm_refl]. unfold eqm. replace (n - s) with (-1 * s + 1 * n) by ring. apply Z.mod_add. pose proof N1. lia. Qed.
Lemma comb u v x : add (zm u G) (zm v (zm x G)) = zm (u + v * x) G.
Proof. rewrite (m_add p Pp P3 a b h ns no2), (m_mul p Pp P3 a b h ns no2) by exact (G_on p d D). reflexivity. Qed.
Lemma verify_core x m k r s ng w : s * k ≡ m + r * x ⟦ n ⟧ -> flip ng s * w ≡ 1 ⟦ n ⟧ ->
  add (zm ((m * w) mod n) G) (zm ((r * w) mod n) (zm x G)) = zm ((if ng then -1 else 1) * k) G.
Proof.
  intros E W. pose proof N1. rewrite comb. apply (eqm_zm p d D). set (e := if ng then -1 else 1). change ((m * w) mod n + (r * w) mod n * x ≡ e * k ⟦ n ⟧).
  apply eqm_trans with (w * (m + r * x)).
  { replace (w * (m + r * x)) with (m * w + r * w * x) by ring. apply eqm_add; [apply eqm_mod|]. apply eqm_mul; [apply eqm_mod|apply eqm_refl]. }
  apply eqm_trans with (w * (s * k)); [apply eqm_mul; [apply eqm_refl|apply eqm_sym; exact E]|].
  apply eqm_trans with (e * (flip ng s * w) * k).
  { apply eqm_trans with (e * (e * s * w) * k). - replace (e * (e * s * w) * k) with ((e * e) * (w * (s * k))) by ring. replace (e * e) with 1 by (unfold e; destruct ng; reflexivity). rewrite Z.mul_1_l. apply eqm_refl.
    - apply eqm_mul; [|apply eqm_refl]. apply eqm_mul; [apply eqm_refl|]. apply eqm_mul; [|apply eqm_refl]. apply eqm_sym. apply flip_eqm. }
  replace (e * k) with (e * 1 * k) by ring. apply eqm_mul; [|apply eqm_refl]. apply eqm_mul; [apply eqm_refl|exact W].
Qed.
Lemma zm_flip k X Y (ng : bool) : zm k G = Aff X Y -> exists Y', zm ((if ng then -1 else 1) * k) G = Aff X Y' /\ Y' = if ng then fe_neg Y else Y.
Proof.
  intros E. destruct ng.
  - replace (-1 * k) with (- k) by ring. rewrite (m_neg p Pp P3 a b h ns no2) by exact (G_on p d D). rewrite E. eexists. split; reflexivity.
  - rewrite Z.mul_1_l, E. eexists. split; reflexivity.
Qed.
Lemma eqm_1 v : v mod n = 1 -> v ≡ 1 ⟦ n ⟧. Proof. intros E. unfold eqm. rewrite E, Z.mod_1_l by exact N1. reflexivity. Qed.
Theorem sign_verify fuel msg priv sig param X Y pub : bytes msg -> bytes priv -> ecdsa_sign p fuel c msg priv = Ok (sig, param, true) -> be_val (skipn (octs n) sig) <> 0 ->
  zm (be_val priv) G = Aff X Y -> sec1 P (fv X) (fv Y) pub -> (compressed pub -> P mod 4 = 3) -> ecdsa_verify p c msg sig pub = Some true.
Proof.
  intros Bm Bp E NZ EA Sc M. destruct (sign_spec fuel msg priv sig param Bm Bp E) as (Hx & i & XR & YR & r & s & ng & Hk & (S1 & S2 & S3 & S4) & Hr & _ & Fl & Fp & -> & _).
  set (k := rfc_candidate id n i _) in *. set (m := bits2int n msg mod n) in *. set (x := be_val priv) in *. pose proof N1 as N1.
  assert (Fr : 0 <= flip ng s < n). { pose proof (Z.div_lt n 2 ltac:(lia) ltac:(lia)). clear - Fl H. lia. }
  rewrite (skipn_app_exact (i2o n r) _ _ (i2o_len n r)), i2o_val in NZ by (try exact Fr; clear - N1; lia).
  destruct (verify_ok msg (i2o n r) (i2o n (flip ng s)) pub Bm (i2o_bytes _ _) (i2o_bytes _ _) (sec1_bytes _ _ _ Sc) (i2o_len _ _) (i2o_len _ _) M) as (res & Er & H). rewrite Er. f_equal. apply H. clear H Er.
  exists X, Y. split; [rewrite <- EA; exact (m_on p Pp P3 a b h ns no2 x G (G_on p d D))|]. split; [exact Sc|]. rewrite !i2o_val by (try exact Fr; clear - N1 Hr; lia).
  split; [apply Fl|]. split; [exact Hr|]. assert (F0 : 0 < flip ng s < n) by (clear - Fr NZ; lia). split; [exact F0|].
  destruct (invert_ok _ F0) as (w & _ & _ & W). destruct (zm_flip k XR YR ng S1) as (Y' & EF & _). exists w, XR, Y'. split; [exact W|]. split; [|symmetry; exact S2].
  rewrite <- EA, <- EF. apply (verify_core x m k r s ng w); [exact S4|apply eqm_1; exact W].
Qed.
(* ---- recovery ---- *)
Lemma sc_neg_eqm v : 0 <= v < n -> 0 <= sc_neg n v < n /\ sc_neg n v ≡ - v ⟦ n ⟧.
Proof.
  intros V. pose proof N1. unfold sc_neg. destruct (Z.eqb_spec v 0) as [-> |NV]; [split; [lia|apply eqm_refl]|]. split; [lia|]. unfold eqm. replace (n - v) with (- v + 1 * n) by ring. apply Z.mod_add. lia.
Qed.
Lemma fe_set_sc_ok x X : 0 <= x -> fv X = x -> fe_set_sc p x = (X, true).
Proof. intros X0 E. pose proof (fv_range p X). unfold fe_set_sc. rewrite (proj2 (Z.ltb_lt x P)) by lia. f_equal. rewrite <- E. apply fe_of_fv. Qed.
Theorem sign_recover fuel msg priv sig param compact : bytes msg -> bytes priv -> P mod 4 = 3 -> wei_has_small_gap p n = true ->
  ecdsa_sign p fuel c msg priv = Ok (sig, param, true) -> be_val (skipn (octs n) sig) <> 0 ->
  exists X Y, zm (be_val priv) G = Aff X Y /\ ecdsa_recover p c msg sig param compact = Some (sec1_enc P compact (fv X) (fv Y), true).
Proof.
  intros Bm Bp M SG E NZ. destruct (sign_spec fuel msg priv sig param Bm Bp E) as (Hx & i & XR & YR & r & s & ng & Hk & (S1 & S2 & S3 & S4) & Hr & _ & Fl & Fp & -> & ->).
  set (k := rfc_candidate id n i _) in *. set (m := bits2int n msg mod n) in *. set (x := be_val priv) in *. pose proof N1 as N1. assert (Np : 0 < n) by (clear - N1; lia).
  assert (Fr : 0 <= flip ng s < n). { pose proof (Z.div_lt n 2 ltac:(lia) ltac:(lia)). clear - Fl H. lia. }
  rewrite (skipn_app_exact (i2o n r) _ _ (i2o_len n r)), i2o_val in NZ by (try exact Fr; clear - N1; lia).
  destruct (mulG x Hx) as (X & Y & EA & O). exists X, Y. split; [exact EA|]. unfold ecdsa_recover, recover_point. cbv zeta.
  destruct (sig_split (i2o n r) (i2o n (flip ng s)) (i2o_len _ _) (i2o_len _ _)) as [-> ->]. rewrite !sc_import_i2o by (try exact Fr; clear - Hr; lia). cbn [negb]. rewrite (cx_n _ _ _ C).
  rewrite (proj2 (Z.eqb_neq r 0)) by (clear - Hr; lia). rewrite (proj2 (Z.eqb_neq (flip ng s) 0)) by exact NZ. cbn [orb]. rewrite (proj2 (high_iff (flip ng s))) by apply Fl.
  destruct (zm_flip k XR YR ng S1) as (Y' & EF & EY). set (par := if xorb (fe_is_odd YR) ng then 1 else 0). pose proof (fv_range p XR) as RX.
  assert (OF : on (Aff XR Y')) by (rewrite <- EF; apply (m_on p Pp P3 a b h ns no2); exact (G_on p d D)).
  assert (Par : par = 0 \/ par = 1) by (unfold par; destruct (xorb _ _); auto).
  assert (YZ : YR <> f0 \/ ng = false \/ par = 0 \/ True) by auto. clear YZ.
  (* the x coordinate *)
  set (lo := fv XR <? n). assert (PQ : ((if lo then 0 else 2) + par) / 2 = (if lo then 0 else 1) /\ ((if lo then 0 else 2) + par) mod 2 = par) by (destruct Par as [-> | ->]; destruct lo; split; reflexivity).
  destruct PQ as [PQ PM]. rewrite PQ, PM.
  assert (XE : exists x0, fe_set_sc p r = (x0, true) /\ (negb ((if lo then 0 else 1) =? 0) && (wei_has_high_order p n || (P mod n <=? r))) = false /\
    (if negb ((if lo then 0 else 1) =? 0) then fe_add x0 (fe_of p n) else x0) = XR).
  { unfold lo. destruct (Z.ltb_spec (fv XR) n) as [L|L].
    - exists XR. split; [apply fe_set_sc_ok; [clear - Hr; lia|rewrite S2, Z.mod_small by (clear - L RX; lia); reflexivity]|]. split; reflexivity.
    - unfold wei_has_small_gap in SG. rewrite (proj2 (Z.leb_gt P n)) in SG by (clear - L RX; lia). cbn [orb] in SG. apply Z.eqb_eq in SG.
      assert (PN : P = n + P mod n) by (pose proof (Z.div_mod P n ltac:(clear - Np; lia)) as DM; rewrite SG in DM; clear - DM; lia). pose proof (Z.mod_pos_bound P n Np) as PB.
      assert (RR : r = fv XR - n). { rewrite S2. symmetry. apply Z.mod_unique_pos with 1; clear - L RX PN PB; lia. }
      exists (fe_of p r). split; [unfold fe_set_sc; rewrite (proj2 (Z.ltb_lt r P)) by (clear - RR RX Np; lia); reflexivity|]. change (1 =? 0) with false. cbn [negb andb].
      split; [unfold wei_has_high_order; apply orb_false_iff; split; [apply Z.leb_gt; clear - L RX; lia|apply Z.leb_gt; clear - RR RX PN; lia]|].
      rewrite <- of_add. replace (r + n) with (fv XR) by (clear - RR; lia). apply fe_of_fv. }
  destruct XE as (x0 & E1 & E2 & E3). rewrite E1. cbn [negb]. rewrite E2, E3. rewrite (cx_a _ _ _ C), (cx_b _ _ _ C), (cx_h _ _ _ C).
  destruct (set_x_ok p Pp P3 a b h ns no2 XR par M Par) as (q & ok & Eq & _ & Hq & _).
  assert (Nz : Y' <> f0 \/ fe_is_odd Y' = (par =? 1)).
  { destruct (fe_eq_dec p Y' f0) as [E0|]; [right|left; assumption].
    assert (YR = f0) as ->. { subst Y'. destruct ng; [|exact E0]. apply (f_equal (@fv p)) in E0. rewrite (fv_neg p), fv_f0 in E0. apply fe_eq. rewrite fv_f0. pose proof (fv_range p YR) as RY. destruct (Z.eqb_spec (fv YR) 0) as [K|K]; [exact K|clear - E0 RY; lia]. }
    exfalso. assert (Z2 : zm (2 * k) G = Inf).
    { rewrite (m_mul p Pp P3 a b h ns no2) by exact (G_on p d D). rewrite S1. rewrite (m_2 p Pp P3 a b h ns no2) by (rewrite <- S1; apply (m_on p Pp P3 a b h ns no2); exact (G_on p d D)).
      unfold padd', padd. destruct (fe_eq_dec p XR XR); [|congruence]. destruct (fe_eq_dec p (@f0 p) f0); [|congruence]. reflexivity. }
    apply (zm_inf p d D) in Z2. apply Z.mod_divide in Z2; [|clear - N1; lia]. apply prime_mult in Z2; [|exact (gd_n _ _ D)]. pose proof (gd_n3 _ _ D) as N3. destruct Z2 as [Z2|Z2]; apply Z.divide_pos_le in Z2; clear - Z2 N3 Hk; lia. }
  assert (Od : fe_is_odd Y' = (par =? 1)).
  { destruct Nz as [Nz|Nz]; [|exact Nz]. unfold par. rewrite EY in *. destruct ng.
    - rewrite (odd_neg p Pp P3); [rewrite xorb_true_r; destruct (fe_is_odd YR); reflexivity|]. intros Z. apply Nz. rewrite Z. apply fe_eq. rewrite (fv_neg p), fv_f0. reflexivity.
    - rewrite xorb_false_r. destruct (fe_is_odd YR); reflexivity. }
  destruct (Hq Y' OF Od) as [-> ->]. rewrite Eq. cbn [negb]. rewrite (reduce_eq msg Bm). cbn [fst]. fold m. destruct (invert_var_ok r Hr) as (w & Ew & W1 & W2). rewrite Ew.
  destruct (sc_neg_eqm ((m * w) mod n) (Z.mod_pos_bound _ _ Np)) as [U1 U2]. unfold sc_mul.
  destruct (Mdouble p d D c C _ (MkW XR Y' false) (Aff XR Y') ((flip ng s * w) mod n) U1 (Z.mod_pos_bound _ _ Np) ltac:(constructor; exact OF)) as (A & EM & WA). rewrite EM.
  replace (add _ _) with (Aff X Y) in WA; [rewrite (export_eq _ _ compact WA); reflexivity|].
  rewrite <- EA, <- EF, comb. apply (eqm_zm p d D). apply eqm_sym. set (e := if ng then -1 else 1) in *.
  change (sc_neg n ((m * w) mod n) + (flip ng s * w) mod n * (e * k) ≡ x ⟦ n ⟧). apply eqm_trans with (- (m * w) + (e * s * w) * (e * k)).
  { apply eqm_add.
    - apply eqm_trans with (- ((m * w) mod n)); [exact U2|]. replace (- ((m * w) mod n)) with (-1 * ((m * w) mod n)) by ring. replace (- (m * w)) with (-1 * (m * w)) by ring. apply eqm_mul; [apply eqm_refl|apply eqm_mod].
    - apply eqm_mul; [|apply eqm_refl]. apply eqm_trans with (flip ng s * w); [apply eqm_mod|]. apply eqm_mul; [apply flip_eqm|apply eqm_refl]. }
  replace (- (m * w) + e * s * w * (e * k)) with (w * (e * e * (s * k) + -1 * m)) by ring. replace (e * e) with 1 by (unfold e; destruct ng; reflexivity). rewrite Z.mul_1_l.
  apply eqm_trans with (w * (m + r * x + -1 * m)); [apply eqm_mul; [apply eqm_refl|apply eqm_add; [exact S4|apply eqm_refl]]|].
  replace (w * (m + r * x + -1 * m)) with (r * w * x) by ring. replace x with (1 * x) at 2 by ring. apply eqm_mul; [apply eqm_1; exact W2|apply eqm_refl].
Qed.
End P.
