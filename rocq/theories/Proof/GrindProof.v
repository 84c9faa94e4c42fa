(* Key generation and grinding: the first candidate that passes, and the key it belongs to. *)
From Verif.Base Require Import Prelude.
From Coq Require Import Znumtheory.
From Verif.Model Require Import Encoding Bio Hash Drbg Field EcScalar Wei Ecdsa Schnorr Grind.
From Verif.Spec Require Import DrbgSpec HashSpec EcSpec DsaSpec EcdsaSpec SchnorrSpec.
From Verif.Proof Require Import Cong FieldProof FieldSquare EcGroup GrpMul EcScalarProof WeiProof WeiMul WeiCtx EcCodec Rfc6979 EcdsaProof EcdsaKeys SchnorrProof SchnorrSig SchnorrBatch SchnorrTweak DrbgProof.
#[local] Opaque hmac_drbg_generate hmac_drbg_init HMAC_Generate HMAC_Instantiate.
Section P.
Variable p : positive.
Local Notation fe := (Field.fe p).
Variable d : wei_def p.
Hypothesis D : good_def p d.
Variable c : wei p.
Hypothesis C : ctx_ok p d c.
Variable w : Z.
Local Notation P := (Zpos p).
Local Notation a := (d_a p d).
Local Notation b := (d_b p d).
Local Notation h := (d_h p d).
Local Notation n := (d_n p d).
Local Notation on := (on' p a b).
Local Notation add := (padd' p a).
Local Notation wrep := (wrep p a b).
Local Notation zm := (zm p a).
Local Notation G := (G p d).
Local Notation Pp := (gd_p _ _ D).
Local Notation P3 := (gd_3 _ _ D).
Local Notation ns := (gd_ns _ _ D).
Local Notation no2 := (gd_no2 _ _ D).
Local Notation N1 := (N1 p d D).
Local Notation Mon := (m_on p Pp P3 a b h ns no2).
Local Notation Madd := (m_add p Pp P3 a b h ns no2).
Local Notation Gon := (G_on p d D).
Local Notation LAW := (laws p Pp P3 a b h ns no2).
(* the draws *)
Fixpoint gstate (len i : nat) (st : list Z * list Z) : list Z * list Z := match i with O => st | S i => gstate len i (snd (HMAC_Generate SHA256 st len [])) end.
Definition gdraw (len i : nat) (st : list Z * list Z) : list Z := fst (HMAC_Generate SHA256 (gstate len i st) len []).
Lemma random_exact bits m : let len := ((bits + 63) / 64 * 8)%nat in let val st i := le_val (gdraw len i st) mod 2 ^ Z.of_nat bits in forall rf st dr, hd_inv SHA256 st dr ->
  match sc_random rf m bits dr with
  | Some (z, _) => exists k, (k < rf)%nat /\ z = val st k /\ 0 < z < m /\ forall j, (j < k)%nat -> ~ 0 < val st j < m
  | None => forall j, (j < rf)%nat -> ~ 0 < val st j < m
  end.
Proof.
  intros len val. induction rf as [|rf IH]; intros st dr HI; cbn [sc_random]; [intros; lia|]. fold len. pose proof (hd_generate SHA256 st dr len [] len HI ltac:(split; [constructor|reflexivity]) (le_n _)) as HG.
  assert (V0 : val st 0%nat = le_val (fst (HMAC_Generate SHA256 st len [])) mod 2 ^ Z.of_nat bits) by reflexivity. assert (VS : forall i, val st (S i) = val (snd (HMAC_Generate SHA256 st len [])) i) by reflexivity.
  destruct (HMAC_Generate SHA256 st len []) as [o st']. cbn [fst snd] in *. destruct HG as (d' & -> & HI'). rewrite <- V0. pose proof (Z.mod_pos_bound (le_val o) (2 ^ Z.of_nat bits) ltac:(lia)) as R. rewrite <- V0 in R.
  destruct (Z.ltb_spec (val st 0%nat) m) as [L|L]; [destruct (Z.eqb_spec (val st 0%nat) 0) as [Z0|NZ]|]; cbn [andb negb].
  2:{ exists 0%nat. split; [lia|]. split; [reflexivity|]. split; [lia|]. intros j J. lia. }
  all: assert (NG : ~ 0 < val st 0%nat < m) by lia; specialize (IH st' d' HI'); destruct (sc_random rf m bits d') as [[z r]|];
    [destruct IH as (k & K & -> & Rk & F); exists (S k); split; [lia|]; split; [symmetry; apply VS|]; split; [exact Rk|]; intros [|j] J; [exact NG|rewrite VS; apply F; lia]|intros [|j] J; [exact NG|rewrite VS; apply IH; lia]].
Qed.
Lemma sbits_eq : Z.of_nat (sbits p c) = blen n.
Proof. unfold sbits. rewrite (cx_n _ _ _ C). apply sc_bitlen_blen. pose proof N1. lia. Qed.
Definition glen : nat := ((Z.to_nat (blen n) + 63) / 64 * 8)%nat.
Theorem generate_exact rf entropy : bytes entropy -> let val i := le_val (gdraw glen i (HMAC_Instantiate SHA256 (firstn 32 entropy))) mod 2 ^ blen n in
  match ecdsa_privkey_generate p rf c entropy with
  | Ok out => exists k, (k < rf)%nat /\ 0 < val k < n /\ out = i2o n (val k) /\ forall j, (j < k)%nat -> ~ 0 < val j < n
  | Fail => forall j, (j < rf)%nat -> ~ 0 < val j < n
  | Abort => False
  end.
Proof.
  intros B val. unfold ecdsa_privkey_generate. assert (SM : small (firstn 32 entropy)) by (split; [apply bytes_firstn; exact B|rewrite firstn_length; unfold M64; lia]).
  destruct (hd_init SHA256 _ SM) as (dr & -> & HI). cbn [bind]. rewrite (cx_n _ _ _ C). pose proof (random_exact (sbits p c) n rf _ dr HI) as H. cbv zeta in H. rewrite sbits_eq in H. replace (sbits p c) with (Z.to_nat (blen n)) in * by (rewrite <- sbits_eq; apply Nat2Z.id). fold glen in H.
  destruct (sc_random rf n _ dr) as [[z r]|]; [|exact H]. destruct H as (k & K & -> & R & F). exists k. split; [exact K|]. split; [exact R|]. split; [apply (sc_export_eq p d D c C)|exact F].
Qed.
Lemma generate_ok rf entropy priv : ecdsa_privkey_generate p rf c entropy = Ok priv -> exists x, 0 < x < n /\ priv = i2o n x.
Proof.
  unfold ecdsa_privkey_generate. destruct (hmac_drbg_init _ _) as [rng| |]; cbn [bind]; try discriminate. destruct (sc_random _ _ _ _) as [[x r']|] eqn:E; [|discriminate]. intros H. assert (HP : priv = sc_export p c x) by congruence. apply random_range in E. rewrite (cx_n _ _ _ C) in E.
  exists x. split; [exact E|]. rewrite HP. apply (sc_export_eq p d D c C).
Qed.
(* ---- the loop ---- *)
Section L.
Variable ex : wge p -> list Z * bool.
Variable enc : point fe -> list Z * bool.
Hypothesis EX : forall q Q, wrep q Q -> ex q = enc Q.
Variable check : list Z -> bool.
Variable Q : point fe.
Hypothesis OQ : on Q.
Definition cand (k : Z) : point fe := add Q (zm k G).
Definition good (k : Z) : Prop := snd (enc (cand k)) = true /\ check (fst (enc (cand k))) = true.
Lemma cand_succ i q : wrep q (cand i) -> exists q', wge_add_var p (e_a p c) (e_h p c) q (e_g p c) = Some q' /\ wrep q' (cand (i + 1)).
Proof.
  intros W. rewrite (cx_a _ _ _ C), (cx_h _ _ _ C). destruct (wge_add_var_ok p Pp P3 a b h no2 _ _ _ _ W (cx_g _ _ _ C)) as (r & E & R). exists r. split; [exact E|]. replace (cand (i + 1)) with (add (cand i) G); [exact R|].
  unfold cand. rewrite Madd by exact Gon. replace (zm 1 G) with G by (symmetry; apply (m_1 p Pp P3 a b h ns no2); exact Gon). apply (gl_assoc _ _ _ _ _ LAW); [exact OQ|apply Mon; exact Gon|exact Gon].
Qed.
Lemma loop_ok : forall fuel i q t counter, wrep q (cand i) -> (t + counter) mod n = i mod n ->
  match grind_loop p w fuel c ex check q t counter with
  | Ok r => exists k, i < k <= i + Z.of_nat fuel /\ good k /\ (forall j, i < j < k -> ~ good j) /\ r = k mod n
  | Fail => forall j, i < j <= i + Z.of_nat fuel -> ~ good j
  | Abort => False
  end.
Proof.
  induction fuel as [|fuel IH]; intros i q t counter W I; cbn [grind_loop]; [intros j J; lia|]. destruct (cand_succ i q W) as (q' & -> & W'). rewrite (cx_n _ _ _ C), (EX _ _ W'). pose proof N1 as N1'. set (tc := if counter + 1 =? 2 ^ w - 1 then _ else _).
  assert (I' : (fst tc + snd tc) mod n = (i + 1) mod n). { assert (E : (t + (counter + 1)) mod n = (i + 1) mod n) by (rewrite Z.add_assoc, Z.add_mod, I, <- Z.add_mod by lia; reflexivity). unfold tc. destruct (counter + 1 =? 2 ^ w - 1); cbn [fst snd]; [unfold sc_add; rewrite Z.add_0_r, Z.mod_mod by lia|]; exact E. }
  destruct tc as [t' counter']. cbn [fst snd] in I'. destruct (enc (cand (i + 1))) as [out ok] eqn:EN. destruct (ok && check out) eqn:T.
  - apply andb_prop in T. exists (i + 1). split; [lia|]. split; [unfold good; rewrite EN; exact T|]. split; [intros j J; lia|]. exact I'.
  - assert (NG : ~ good (i + 1)) by (unfold good; rewrite EN; cbn [fst snd]; intros [-> K]; rewrite K in T; discriminate).
    specialize (IH (i + 1) q' t' counter' W' I'). destruct (grind_loop p w fuel c ex check q' t' counter') as [r| |]; [|intros j J|exact IH].
    + destruct IH as (k & K & Gk & F & ->). exists k. split; [lia|]. split; [exact Gk|]. split; [|reflexivity]. intros j J. destruct (Z.eq_dec j (i + 1)) as [-> |]; [exact NG|apply F; lia].
    + destruct (Z.eq_dec j (i + 1)) as [-> |]; [exact NG|apply IH; lia].
Qed.
Definition firstk (k : Z) : Prop := 1 <= k /\ good k /\ forall j, 1 <= j < k -> ~ good j.
Lemma grind_ok fuel q : wrep q Q -> match bind (grind_loop p w fuel c ex check q 0 0) (fun t => Ok (Some (sc_export p c t))) with
  | Ok r => exists k, k <= Z.of_nat fuel /\ firstk k /\ r = Some (i2o n (k mod n))
  | Fail => forall j, 1 <= j <= Z.of_nat fuel -> ~ good j
  | Abort => False
  end.
Proof.
  intros W. assert (W0 : wrep q (cand 0)). { unfold cand. replace (add Q (zm 0 G)) with Q; [exact W|]. change (zm 0 G) with (Inf : point fe). rewrite (add_comm' p Pp a). reflexivity. }
  pose proof (loop_ok fuel 0 q 0 0 W0 eq_refl) as H. destruct (grind_loop p w fuel c ex check q 0 0) as [r| |]; cbn [bind]; [|intros j J; apply H; lia|exact H].
  destruct H as (k & K & Gk & F & ->). exists k. split; [lia|]. split; [split; [lia|]; split; [exact Gk|intros j J; apply F; lia]|]. rewrite (sc_export_eq p d D c C). reflexivity.
Qed.
End L.
Lemma enc_len compact x y : (length (sec1_enc P compact x y) =? 1 + fsize p)%nat = compact.
Proof.
  rewrite (fsize_octs p). pose proof (octs_pos P eq_refl). unfold sec1_enc. destruct compact; cbn [length]; rewrite ?app_length, !i2o_len; [apply Nat.eqb_eq; lia|apply Nat.eqb_neq; lia].
Qed.
Theorem pubkey_grind_ok fuel X Y pub check : on (Aff X Y) -> sec1 P (fv X) (fv Y) pub -> (compressed pub -> P mod 4 = 3) ->
  let enc := penc p (length pub =? 1 + octs P)%nat in
  match ecdsa_pubkey_grind p w fuel c pub check with
  | Ok r => exists k, k <= Z.of_nat fuel /\ firstk enc check (Aff X Y) k /\ r = Some (i2o n (k mod n))
  | Fail => forall j, 1 <= j <= Z.of_nat fuel -> ~ good enc check (Aff X Y) j
  | Abort => False
  end.
Proof.
  intros O S M enc. unfold ecdsa_pubkey_grind. rewrite (import_complete p d D c C X Y pub M O S). rewrite (fsize_octs p). apply (grind_ok _ enc); [|exact O|constructor; exact O].
  intros q Q W. rewrite (export_eq p d q Q _ W). unfold enc, penc. destruct Q; reflexivity.
Qed.
Theorem pubkey_grind_bad fuel pub check : bytes pub -> (compressed pub -> P mod 4 = 3) -> (forall X Y, on (Aff X Y) -> ~ sec1 P (fv X) (fv Y) pub) -> ecdsa_pubkey_grind p w fuel c pub check = Ok None.
Proof.
  intros B M N. unfold ecdsa_pubkey_grind. destruct (import_sound p d D c C pub B M) as (q & ok & -> & _ & I). destruct ok; [|reflexivity]. destruct (I eq_refl) as (X & Y & O & S & _). destruct (N X Y O S).
Qed.
Theorem privkey_grind_ok rf fuel entropy compact check : (compact = true -> P mod 4 = 3) -> ecdsa_privkey_generate p rf c entropy <> Abort ->
  match ecdsa_privkey_grind p w rf fuel c entropy compact check with
  | Ok out => exists x pub, 0 < x < n /\ out = i2o n x /\ ecdsa_pubkey_create p c out compact = (pub, true) /\ check pub = true
  | Fail => True
  | Abort => False
  end.
Proof.
  intros M NA. unfold ecdsa_privkey_grind. destruct (ecdsa_privkey_generate p rf c entropy) as [priv| |] eqn:EG; cbn [bind]; [|exact I|apply NA; reflexivity]. destruct (generate_ok _ _ _ EG) as (x & Hx & ->).
  destruct (create_eq p d D c C x compact Hx) as (X & Y & E & O & ->). cbn [negb]. pose proof (pubkey_grind_ok fuel X Y (sec1_enc P compact (fv X) (fv Y)) check O (sec1_enc_ok p _ _ _) ltac:(intros K; apply M; exact (enc_compressed p _ _ _ K))) as H. cbv zeta in H.
  pose proof (enc_len compact (fv X) (fv Y)) as EL. rewrite (fsize_octs p) in EL. rewrite EL in H. destruct (ecdsa_pubkey_grind p w fuel c _ check) as [r| |]; cbn [bind]; [|exact I|exact H].
  destruct H as (k & _ & (_ & (Ga & Gc) & _) & ->). pose proof N1 as N1'. pose proof (Z.mod_pos_bound k n ltac:(lia)) as KB. rewrite (priv_tweak_add p d D c C x (k mod n) Hx KB). rewrite Zplus_mod_idemp_r.
  assert (CE : cand (Aff X Y) k = zm (x + k) G) by (unfold cand; rewrite <- E; symmetry; apply Madd; exact Gon). rewrite CE in Ga, Gc. pose proof (zm_inf p d D (x + k)) as ZI. pose proof (mod_zm p d D (x + k)) as MZ. pose proof (Z.mod_pos_bound (x + k) n ltac:(lia)) as YB.
  destruct (Z.eqb_spec ((x + k) mod n) 0) as [Z0|NZ]; cbn [negb].
  - rewrite Z0 in MZ. rewrite <- MZ in Ga. discriminate Ga.
  - exists ((x + k) mod n). destruct (create_eq p d D c C ((x + k) mod n) compact ltac:(lia)) as (X' & Y' & E' & _ & EC). exists (sec1_enc P compact (fv X') (fv Y')). split; [lia|]. split; [reflexivity|]. split; [exact EC|]. rewrite MZ in E'. rewrite E' in Gc. exact Gc.
Qed.
(* ---- x-only keys ---- *)
Hypothesis fits : (octs n <= size_of (d_xof p d) (octs n) <= rate_of (d_xof p d))%nat.
Hypothesis PO : forall Q, on Q -> zm n Q = Inf.
Hypothesis P34 : P mod 4 = 3.
Local Notation lift := (lift p d).
Local Notation even := (even p).
Definition xenc' (Q : point fe) : list Z * bool := (xbytes p Q, match Q with Inf => false | _ => true end).
Theorem pubkey340_grind_ok fuel X Y check : on (Aff X Y) -> even Y = true -> 
  match bip340_pubkey_grind p w fuel c (i2o P (fv X)) check with
  | Ok r => exists k, k <= Z.of_nat fuel /\ firstk xenc' check (Aff X Y) k /\ r = Some (i2o n (k mod n))
  | Fail => forall j, 1 <= j <= Z.of_nat fuel -> ~ good xenc' check (Aff X Y) j
  | Abort => False
  end.
Proof.
  intros O E. unfold bip340_pubkey_grind. rewrite (import_lift p d D c C P34 X Y O E). apply (grind_ok _ xenc'); [|exact O|constructor; exact O]. intros q Q W. exact (export_x_ok p d q Q W).
Qed.
Theorem pubkey340_grind_bad fuel pub check : bytes pub -> length pub = octs P -> (forall X Y, ~ lift even pub X Y) -> bip340_pubkey_grind p w fuel c pub check = Ok None.
Proof.
  intros B L N. unfold bip340_pubkey_grind. destruct (import_even_ok p d D c C P34 pub B L) as (q & ok & -> & _ & I & _). destruct ok; [|reflexivity]. destruct (I eq_refl) as (X & Y & K & _). destruct (N X Y K).
Qed.
Theorem privkey340_grind_ok rf fuel entropy check : ecdsa_privkey_generate p rf c entropy <> Abort ->
  match bip340_privkey_grind p w rf fuel c entropy check with
  | Ok out => exists x pub, 0 < x < n /\ out = i2o n x /\ bip340_pubkey_create p c out = (pub, true) /\ check pub = true
  | Fail => True
  | Abort => False
  end.
Proof.
  intros NA. unfold bip340_privkey_grind, bip340_privkey_generate. destruct (ecdsa_privkey_generate p rf c entropy) as [priv| |] eqn:EG; cbn [bind]; [|exact I|apply NA; reflexivity]. destruct (generate_ok _ _ _ EG) as (x & Hx & ->).
  destruct (import_key p d D c C fits PO P34 x Hx) as (X & Y & E & O & EY & Hx' & EX & EC & _). rewrite EC. cbn [negb]. pose proof (pubkey340_grind_ok fuel X Y check O EY) as H. destruct (bip340_pubkey_grind p w fuel c _ check) as [r| |]; cbn [bind]; [|exact I|exact H].
  destruct H as (k & _ & (_ & (Ga & Gc) & _) & ->). pose proof N1 as N1'. pose proof (Z.mod_pos_bound k n ltac:(lia)) as KB. destruct (tweak_add_ok p d D c C fits PO P34 x (k mod n) Hx KB) as [T _]. cbv zeta in T. rewrite T. rewrite !Zplus_mod_idemp_r. set (e := evenk p d x) in *.
  assert (CE : cand (Aff X Y) k = zm (e + k) G) by (unfold cand; rewrite <- E; symmetry; apply Madd; exact Gon). rewrite CE in Ga, Gc. pose proof (mod_zm p d D (e + k)) as MZ. pose proof (Z.mod_pos_bound (e + k) n ltac:(lia)) as YB.
  destruct (Z.eqb_spec ((e + k) mod n) 0) as [Z0|NZ]; cbn [negb].
  - rewrite Z0 in MZ. rewrite <- MZ in Ga. discriminate Ga.
  - exists ((e + k) mod n). destruct (create340_ok p d D c C ((e + k) mod n) ltac:(lia)) as (X' & Y' & E' & _ & EC'). exists (i2o P (fv X')). split; [lia|]. split; [reflexivity|]. split; [exact EC'|]. rewrite MZ in E'. rewrite E' in Gc. exact Gc.
Qed.
End P.
