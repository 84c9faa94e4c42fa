(* EdDSA: keys, signing and the two verifiers compute what RFC 8032 describes. *)
From Verif.Base Require Import Prelude.
From Coq Require Import Znumtheory.
From Verif.Model Require Import Encoding Bio Hash Drbg NumTheory Field EcScalar Wei Ecdsa Schnorr Edwards Eddsa.
From Verif.Spec Require Import HashSpec KdfSpec EcSpec DsaSpec EdSpec EddsaSpec.
From Verif.Proof Require Import HashProof HmacProof DrbgProof Cong Rfc6979 FieldProof EcGroup GrpMul EcScalarProof EcCodec EdGroup EdProof EdMul EdCodec EdCtx SchnorrProof.
Lemma rate_small id : Z.of_nat (rate_of id) < 2 ^ 20. Proof. destruct id; vm_compute; reflexivity. Qed.
Lemma le_bytes_snoc0 k x : 0 <= x < 256 ^ Z.of_nat k -> le_bytes (S k) x = le_bytes k x ++ [0].
Proof.
  intros X. rewrite <- (le_bytes_le_val (le_bytes k x ++ [0])).
  - rewrite le_val_snoc, le_val_le_bytes, app_length, le_bytes_length, Z.mod_small, Z.mul_0_r, Z.add_0_r by exact X. cbn [length]. rewrite Nat.add_1_r. reflexivity.
  - apply bytes_app. split; [apply le_bytes_bytes|apply bytes_cons; split; [unfold byte; lia|apply bytes_nil]].
Qed.
Lemma app_eq_app_len {A} (u v u' v' : list A) : length u = length u' -> u ++ v = u' ++ v' -> u = u' /\ v = v'.
Proof. revert u'. induction u as [|x u IH]; intros [|y u'] L E; cbn in *; try discriminate; [auto|]. injection E as -> E. destruct (IH u' ltac:(lia) E) as (-> & ->). auto. Qed.
Section P.
Variable p : positive.
Local Notation fe := (Field.fe p).
Local Notation P := (Zpos p).
Variable d : edw_def p.
Hypothesis D : good_ed p d.
Variable c : edw p.
Hypothesis C : ectx_ok p d c.
Local Notation a := (k_a p d).
Local Notation dd := (k_d p d).
Local Notation h := (k_h p d).
Local Notation n := (k_n p d).
Local Notation hid := (k_hash p d).
Local Notation on := (eon p a dd).
Local Notation add := (eadd p a dd).
Local Notation neg := (eneg p).
Local Notation zero := (ezero p).
Local Notation xrep := (xrep p a dd).
Local Notation arep := (arep p a dd).
Local Notation zm := (zm p a dd).
Local Notation G := (EG p d).
Local Notation Pp := (ge_p _ _ D).
Local Notation PR := (ge_r _ _ D).
Local Notation K := (ge_c _ _ D).
Local Notation Mon := (m_on p Pp a dd K).
Local Notation Madd := (m_add p Pp a dd K).
Local Notation Mmul := (m_mul p Pp a dd K).
Local Notation Mop := (m_op p Pp a dd K).
Local Notation Mneg := (m_neg p Pp a dd K).
Local Notation Me := (m_e p Pp a dd K).
Local Notation M1 := (m_1 p Pp a dd K).
Local Notation Gon := (EG_on p d D).
Local Notation N1 := (en_pos p d D).
Local Notation adj := (ed_octs P).
(* ---- the objects of RFC 8032 ---- *)
Definition penc (Q : fe * fe) : list Z := ed_enc P (fv (fst Q)) (fv (snd Q)).
Definition pdigest (priv : list Z) : list Z := hash_value hid priv (2 * adj).
Definition secret (priv : list Z) : Z := ed_clamp (blen P) h (le_val (firstn adj (pdigest priv))).
Definition prefix (priv : list Z) : list Z := firstn adj (skipn adj (pdigest priv)).
Definition dom (ph : Z) (ctx : list Z) : list Z := ed_dom (k_context p d) (k_prefix p d) ph ctx.
Definition eint (m : list Z) : Z := ed_int hid P n m.
Definition flag (ph : Z) (ctx : list Z) : Prop := (ph = -1 \/ ph = 0 \/ ph = 1) /\ bytes ctx /\ (length ctx <= 255)%nat.
Definition esign (scalar : Z) (pre msg : list Z) (ph : Z) (ctx : list Z) : list Z :=
  let r := eint (dom ph ctx ++ pre ++ msg) in
  let R := penc (zm r G) in
  let e := eint (dom ph ctx ++ R ++ penc (zm scalar G) ++ msg) in
  R ++ le_bytes adj ((r + e * scalar) mod n).
(* a signature that parses, and the challenge it answers *)
Definition reads (msg sig pub : list Z) (ph : Z) (ctx : list Z) (R A : fe * fe) (s e : Z) : Prop :=
  on R /\ on A /\ 0 <= s < n /\ sig = penc R ++ le_bytes adj s /\ pub = penc A /\ e = eint (dom ph ctx ++ penc R ++ penc A ++ msg).
Definition evalid (msg sig pub : list Z) (ph : Z) (ctx : list Z) : Prop :=
  exists R A s e, reads msg sig pub ph ctx R A s e /\ ed_equation _ add zm G R A s e.
Definition evalid_h (msg sig pub : list Z) (ph : Z) (ctx : list Z) : Prop :=
  exists R A s e, reads msg sig pub ph ctx R A s e /\ ed_cofactored _ add zm G h R A s e.
(* ---- sizes ---- *)
Lemma adj_eq : adj_size p = adj. Proof. apply adj_octs. Qed.
Lemma adj_small : Z.of_nat adj < 2 ^ 20. Proof. pose proof (ge_hash _ _ D). pose proof (rate_small hid). lia. Qed.
Lemma adj_ge : (octs P <= adj)%nat. Proof. rewrite <- adj_eq, <- (fsize_octs p). unfold adj_size. destruct (_ =? _)%nat; lia. Qed.
Lemma penc_length Q : length (penc Q) = adj. Proof. apply enc_length. Qed.
Lemma penc_bytes Q : bytes (penc Q). Proof. apply enc_bytes. Qed.
Lemma okb_short l : bytes l -> (length l <= 2 * adj)%nat -> okb l.
Proof. intros B L. split; [exact B|]. pose proof adj_small. assert (2 ^ 20 * 2 < 2 ^ 64) by reflexivity. lia. Qed.
Lemma penc_okb Q : okb (penc Q). Proof. apply okb_short; [apply penc_bytes|rewrite penc_length; lia]. Qed.
Lemma n_lt : n < 256 ^ Z.of_nat (octs P).
Proof. rewrite <- (ge_size _ _ D), <- size_octs by (pose proof N1; lia). pose proof (en_fits p d D) as F. eapply Z.lt_le_trans; [exact F|]. change 256 with (2 ^ 8). rewrite <- Z.pow_mul_r by lia. apply Z.pow_le_mono_r; [lia|]. generalize (sc_bitlen n). clear. intros b. pose proof (Nat.div_mod_eq (b + 7) 8). pose proof (Nat.mod_upper_bound (b + 7) 8 ltac:(lia)). lia. Qed.
Lemma export_s s : 0 <= s < n -> xsc_export p c s ++ (if (fbits p mod 8 =? 0)%nat then [0] else []) = le_bytes adj s.
Proof.
  intros S. unfold xsc_export. rewrite (xssize_eq p d D c C). rewrite <- adj_eq. unfold adj_size. rewrite (fsize_octs p). pose proof n_lt. destruct (_ =? _)%nat; [|apply app_nil_r]. symmetry. apply le_bytes_snoc0. lia.
Qed.
(* ---- hashing ---- *)
Lemma dom_ok ph ctx : flag ph ctx -> concat (eddsa_dom p c ph ctx) = dom ph ctx /\ Forall okb (eddsa_dom p c ph ctx).
Proof.
  intros (F & B & L). unfold eddsa_dom, dom, ed_dom. rewrite (ex_context _ _ _ C), (ex_prefix _ _ _ C). rewrite firstn_all2 by exact L.
  assert (FP : (if 0 <? ph then 1 else 0) = (if ph =? 1 then 1 else 0)) by (destruct F as [-> |[-> | ->]]; reflexivity). rewrite FP.
  assert (Q : k_context p d || negb (ph =? -1) || (0 <? length ctx)%nat = negb (negb (k_context p d) && (ph =? -1) && match ctx with [] => true | _ => false end)) by (destruct (k_context p d), (ph =? -1), ctx; reflexivity).
  rewrite Q. destruct (negb (k_context p d) && (ph =? -1) && match ctx with [] => true | _ => false end); cbn [negb]; [split; [reflexivity|constructor]|]. split; [cbn [concat]; rewrite app_nil_r; reflexivity|].
  constructor; [exact (ge_prefix _ _ D)|]. constructor; [split; [apply bytes_cons; split; [destruct (ph =? 1); unfold byte; lia|apply bytes_nil]|reflexivity]|].
  constructor; [split; [apply bytes_cons; split; [unfold byte; lia|apply bytes_nil]|reflexivity]|]. constructor; [|constructor]. split; [exact B|]. assert (255 < 2 ^ 64) by reflexivity. lia.
Qed.
Lemma hash_ok ph ctx chunks : flag ph ctx -> Forall okb chunks -> eddsa_hash p c ph ctx chunks = Ok (eint (dom ph ctx ++ concat chunks)).
Proof.
  intros F O. destruct (dom_ok ph ctx F) as (E & FD). unfold eddsa_hash. rewrite (ex_hash _ _ _ C), adj_eq. assert (FA : Forall okb (eddsa_dom p c ph ctx ++ chunks)) by (apply Forall_app; split; assumption).
  rewrite (Nat.mul_comm adj 2). pose proof (ge_hash _ _ D) as (H1 & H2). rewrite (init_val hid _ _ FA H2). cbn [bind]. rewrite concat_app, E. unfold eint, ed_int.
  assert (BA : bytes (dom ph ctx ++ concat chunks)). { rewrite <- E, <- concat_app. apply okb_bytes. exact FA. }
  destruct (hash_value_ok hid _ (2 * adj) BA) as (L & _). rewrite (wide_eq p d D c C); [reflexivity|]. rewrite firstn_length, adj_eq, L. lia.
Qed.
Lemma eint_range m : 0 <= eint m < n. Proof. apply Z.mod_pos_bound. pose proof N1. lia. Qed.
(* ---- keys ---- *)
Lemma clamp_cut v : ed_clamp (blen P) h (v mod 256 ^ Z.of_nat (octs P)) = ed_clamp (blen P) h v.
Proof.
  unfold ed_clamp. f_equal. destruct (h_pow p d D) as (j & J & Eh & Jb). pose proof (h_pos p d D) as HP. set (B := 2 ^ (blen P - 1)). assert (PB : 0 < B) by (apply Z.pow_pos_nonneg; lia).
  assert (DB : exists q, 256 ^ Z.of_nat (octs P) = q * B). { exists (2 ^ (8 * Z.of_nat (octs P) - (blen P - 1))). unfold B. rewrite <- Z.pow_add_r; [|unfold octs; pose proof (Z.div_mod (blen P + 7) 8 ltac:(lia)); pose proof (Z.mod_pos_bound (blen P + 7) 8 eq_refl); lia|lia]. change 256 with (2 ^ 8). rewrite <- Z.pow_mul_r by lia. f_equal. ring. }
  assert (DH : exists q, B = q * h). { exists (2 ^ (blen P - 1 - j)). unfold B. rewrite Eh, <- Z.pow_add_r by lia. f_equal. ring. }
  destruct DB as (q & EM). destruct DH as (q' & EB). set (M := 256 ^ Z.of_nat (octs P)) in *. assert (PM : 0 < M) by (apply Z.pow_pos_nonneg; lia).
  assert (E1 : (v mod M) mod h = v mod h). { rewrite (Z.mod_eq v M) by lia. rewrite EM, EB. replace (v - q * (q' * h) * (v / (q * (q' * h)))) with (v + (- (q * q' * (v / (q * (q' * h))))) * h) by ring. apply Z.mod_add. lia. }
  rewrite E1. rewrite (Z.mod_eq v M) by lia. rewrite EM. replace (v - q * B * (v / (q * B)) - v mod h) with (v - v mod h + (- (q * (v / (q * B)))) * B) by ring. apply Z.mod_add. lia.
Qed.
Definition okpriv (priv : list Z) : Prop := bytes priv /\ length priv = adj.
Lemma digest_ok priv : okpriv priv -> privkey_digest p c priv = Ok (pdigest priv) /\ bytes (pdigest priv) /\ (2 * adj <= length (pdigest priv))%nat.
Proof.
  intros (B & L). unfold privkey_digest. rewrite (ex_hash _ _ _ C), adj_eq, (Nat.mul_comm adj 2), firstn_all2 by lia. pose proof (ge_hash _ _ D) as (H1 & H2).
  rewrite (init_val hid [priv]); [|constructor; [apply okb_short; [exact B|lia]|constructor]|exact H2]. cbn [concat]. rewrite app_nil_r. destruct (hash_value_ok hid priv (2 * adj) B) as (L' & B'). unfold pdigest. rewrite L'. split; [reflexivity|]. split; [exact B'|lia].
Qed.
Lemma secret_cut priv : okpriv priv -> ed_clamp (blen P) h (le_val (firstn (octs P) (pdigest priv))) = secret priv.
Proof.
  intros O. unfold secret. destruct (digest_ok priv O) as (_ & B & L). pose proof adj_ge as A. set (m := firstn adj (pdigest priv)). assert (E : firstn (octs P) (pdigest priv) = firstn (octs P) m) by (unfold m; rewrite firstn_firstn; f_equal; lia).
  rewrite E, <- (clamp_cut (le_val m)). f_equal. assert (Bm : bytes m) by (apply bytes_firstn; exact B). assert (Lm : length m = adj) by (unfold m; rewrite firstn_length; lia). rewrite <- (firstn_skipn (octs P) m) at 2. unfold le_val. rewrite dval_app, firstn_length, Nat.min_l by lia.
  fold (le_val (firstn (octs P) m)). rewrite Z.mul_comm, Z.mod_add by (apply Z.pow_nonzero; lia). symmetry. apply Z.mod_small. pose proof (le_val_range _ (bytes_firstn (octs P) m Bm)) as R. rewrite firstn_length, Nat.min_l in R by lia. exact R.
Qed.
Theorem expand_ok priv : okpriv priv -> exists scalar, eddsa_privkey_expand p c priv = Ok (scalar, prefix priv) /\ bytes scalar /\ length scalar = octs P /\ le_val scalar = secret priv.
Proof.
  intros O. destruct (digest_ok priv O) as (E & B & L). pose proof adj_ge as A. unfold eddsa_privkey_expand. rewrite (xssize_eq p d D c C), adj_eq, (proj2 (Nat.ltb_ge _ _) A), E. cbn [bind].
  destruct (clamp_ok p d D c (pdigest priv) C B ltac:(lia)) as (out & -> & Bo & Lo & Vo). cbn [of_opt bind]. exists out. split; [reflexivity|]. split; [exact Bo|]. split; [exact Lo|]. rewrite Vo. apply secret_cut. exact O.
Qed.
Lemma convert_ok priv : okpriv priv -> exists scalar, eddsa_privkey_convert p c priv = Ok scalar /\ bytes scalar /\ length scalar = octs P /\ le_val scalar = secret priv.
Proof.
  intros O. destruct (expand_ok priv O) as (s & E & B & L & V). unfold eddsa_privkey_expand, eddsa_privkey_convert in *. destruct (adj_size p <? xssize p c)%nat; [discriminate|]. destruct (digest_ok priv O) as (Ed & _). rewrite Ed in *. cbn [bind] in *.
  destruct (edwards_clamp p c (pdigest priv)) as [o|]; cbn [of_opt bind] in *; [|discriminate]. exists s. split; [congruence|]. split; [exact B|split; [exact L|exact V]].
Qed.
Lemma rep_export q Q : xrep q Q -> xge_export p q = Some (penc Q).
Proof. destruct Q as [x y]. intros X. exact (export_ok p Pp PR a dd q x y X). Qed.
Theorem from_scalar_ok s : bytes s -> length s = octs P -> eddsa_pubkey_from_scalar p c s = Some (penc (zm (le_val s) G)).
Proof.
  intros B L. unfold eddsa_pubkey_from_scalar. rewrite (reduce_eq p d D c C s B), firstn_all2 by lia. rewrite (rep_export _ _ (Xmul_g p d D c C _)). rewrite (emod_zm p d D). reflexivity.
Qed.
Theorem create_ok priv : okpriv priv -> eddsa_pubkey_create p c priv = Ok (penc (zm (secret priv) G)).
Proof. intros O. destruct (convert_ok priv O) as (s & E & B & L & V). unfold eddsa_pubkey_create. rewrite E. cbn [bind]. rewrite from_scalar_ok by assumption. rewrite V. reflexivity. Qed.
(* ---- signing ---- *)
Theorem sign_scalar_ok msg s pre ph ctx : okb msg -> flag ph ctx -> bytes s -> length s = octs P -> bytes pre ->
  eddsa_sign_with_scalar p c msg s pre ph ctx = Ok (esign (le_val s) (firstn adj pre) msg ph ctx).
Proof.
  intros OM F B L BP. unfold eddsa_sign_with_scalar, eddsa_nonce, eddsa_challenge. rewrite adj_eq. assert (OP : okb (firstn adj pre)) by (apply okb_short; [apply bytes_firstn; exact BP|rewrite firstn_length; lia]).
  rewrite hash_ok; [|exact F|repeat (constructor; try assumption)]. cbn [concat bind]. rewrite app_nil_r. unfold esign. cbv zeta. set (r := eint (dom ph ctx ++ firstn adj pre ++ msg)). rewrite (rep_export _ _ (Xmul_g p d D c C _)). cbn [of_opt bind].
  rewrite (reduce_eq p d D c C s B), (firstn_all2 s) by lia. rewrite (rep_export _ _ (Xmul_g p d D c C _)), (emod_zm p d D). cbn [of_opt bind]. rewrite !firstn_all2 by (rewrite penc_length; lia).
  rewrite hash_ok; [|exact F|repeat (constructor; try apply penc_okb; try assumption)]. cbn [concat bind]. rewrite app_nil_r. set (e := eint _). rewrite (ex_n _ _ _ C). unfold sc_add, sc_mul. rewrite export_s by (apply Z.mod_pos_bound; pose proof N1; lia). do 3 f_equal.
  pose proof N1. rewrite Z.add_mod_idemp_l by lia. rewrite <- (Z.add_mod_idemp_l (e * _)), Z.mul_mod_idemp_r, Z.add_mod_idemp_l by lia. f_equal. ring.
Qed.
Theorem sign_ok msg priv ph ctx : okb msg -> flag ph ctx -> okpriv priv -> eddsa_sign p c msg priv ph ctx = Ok (esign (secret priv) (prefix priv) msg ph ctx).
Proof.
  intros OM F O. destruct (expand_ok priv O) as (s & E & B & L & V). unfold eddsa_sign. rewrite E. cbn [bind fst snd]. destruct (digest_ok priv O) as (_ & Bd & Ld).
  assert (Lp : length (prefix priv) = adj) by (unfold prefix; rewrite firstn_length, skipn_length; lia). assert (Bp : bytes (prefix priv)) by (apply bytes_firstn, bytes_skipn; exact Bd).
  rewrite sign_scalar_ok; try assumption. rewrite V, firstn_all2 by lia. reflexivity.
Qed.
Lemma esign_reads x pre msg ph ctx : exists e r, reads msg (esign x pre msg ph ctx) (penc (zm x G)) ph ctx (zm r G) (zm x G) ((r + e * x) mod n) e.
Proof.
  unfold esign. set (r := eint (dom ph ctx ++ pre ++ msg)). set (e := eint _). exists e, r. pose proof N1. refine (conj _ (conj _ (conj _ (conj eq_refl (conj eq_refl eq_refl))))); [apply Mon; exact Gon|apply Mon; exact Gon|apply Z.mod_pos_bound; lia].
Qed.
Theorem esign_valid x pre msg ph ctx : evalid msg (esign x pre msg ph ctx) (penc (zm x G)) ph ctx.
Proof.
  destruct (esign_reads x pre msg ph ctx) as (e & r & R). eexists _, _, _, _. split; [exact R|]. unfold ed_equation. rewrite (emod_zm p d D). rewrite Madd, Mmul by exact Gon. reflexivity.
Qed.
Theorem valid_cofactored msg sig pub ph ctx : evalid msg sig pub ph ctx -> evalid_h msg sig pub ph ctx.
Proof. intros (R & A & s & e & H & E). exists R, A, s, e. split; [exact H|]. unfold ed_cofactored. unfold ed_equation in E. rewrite E. reflexivity. Qed.
(* ---- reading ---- *)
Lemma import_s l : bytes l -> length l = adj -> (le_val l < n -> (fbits p mod 8 =? 0)%nat && negb (nth (fsize p) l 0 =? 0) = false /\ xsc_import p c l = (le_val l, true)) /\
  (n <= le_val l -> snd (xsc_import p c l) = true -> (fbits p mod 8 =? 0)%nat && negb (nth (fsize p) l 0 =? 0) = true).
Proof.
  intros B L. unfold xsc_import. rewrite (raw_eq p d D c C), (ex_n _ _ _ C). rewrite <- adj_eq in L. unfold adj_size in L. rewrite (fsize_octs p) in *. destruct (fbits p mod 8 =? 0)%nat; cbn [andb].
  - pose proof (le_split l _ L) as SP. set (u := firstn (octs P) l) in *. set (v := nth (octs P) l 0) in *. assert (Lu : length u = octs P) by (unfold u; rewrite firstn_length; lia).
    assert (V : le_val l = le_val u + 256 ^ Z.of_nat (octs P) * v) by (rewrite SP at 1; rewrite le_val_snoc, Lu; reflexivity). assert (Bu : bytes u) by (apply bytes_firstn; exact B). pose proof (le_val_range u Bu) as Ru. rewrite Lu in Ru. pose proof n_lt as NL.
    assert (Bv : 0 <= v < 256). { rewrite SP in B. apply bytes_app in B. destruct B as (_ & B). apply bytes_cons in B. exact (proj1 B). } split.
    + intros H. assert (v = 0) by (clear - H V NL Ru Bv; nia). assert (E : le_val u = le_val l) by lia. rewrite E, (proj2 (Z.ltb_lt _ _) H). split; [|reflexivity]. replace v with 0 by lia. reflexivity.
    + intros H. destruct (Z.ltb_spec (le_val u) n) as [H2|]; cbn [snd]; [|discriminate]. intros _. destruct (Z.eqb_spec v 0); [|reflexivity]. clear - V e H H2. lia.
  - rewrite firstn_all2 by lia. split.
    + intros H. rewrite (proj2 (Z.ltb_lt _ _) H). split; reflexivity.
    + intros H. rewrite (proj2 (Z.ltb_ge _ _) H). discriminate.
Qed.
Theorem read_ok msg sig pub ph ctx : okb msg -> flag ph ctx -> bytes sig -> length sig = (2 * adj)%nat -> bytes pub -> length pub = adj ->
  (eddsa_read p c msg sig pub ph ctx = Ok None /\ forall R A s e, ~ reads msg sig pub ph ctx R A s e) \/
  exists s r q e R A, eddsa_read p c msg sig pub ph ctx = Ok (Some (s, r, q, e)) /\ arep r R /\ arep q A /\ reads msg sig pub ph ctx R A s e.
Proof.
  intros OM F BS LS BP LP. unfold eddsa_read. rewrite adj_eq. cbv zeta. set (Rr := firstn adj sig). set (sr := skipn adj sig). assert (ES : sig = Rr ++ sr) by (symmetry; apply firstn_skipn).
  assert (LR : length Rr = adj) by (unfold Rr; rewrite firstn_length; lia). assert (Ls : length sr = adj) by (unfold sr; rewrite skipn_length; lia). assert (BR : bytes Rr) by (apply bytes_firstn; exact BS). assert (Bs : bytes sr) by (apply bytes_skipn; exact BS).
  assert (RD : forall R A s e, reads msg sig pub ph ctx R A s e -> Rr = penc R /\ pub = penc A /\ le_val sr = s /\ on R /\ on A /\ s < n).
  { intros R A s e (OR & OA & S & E & E2 & _). rewrite ES in E. assert (EQ : Rr = penc R /\ sr = le_bytes adj s). { apply app_eq_app_len; [rewrite LR, penc_length; reflexivity|exact E]. } destruct EQ as (E3 & E4). refine (conj E3 (conj E2 (conj _ (conj OR (conj OA (proj2 S)))))). rewrite E4, le_val_le_bytes. apply Z.mod_small. pose proof n_lt. pose proof adj_ge. split; [lia|]. eapply Z.lt_le_trans; [|apply Z.pow_le_mono_r; [lia|apply Nat2Z.inj_le; exact H0]]. lia. }
  destruct (import_ok p Pp PR a dd K c (ex_a _ _ _ C) (ex_d _ _ _ C) Rr LR BR) as (r & okr & -> & R1 & _ & R3). cbn [of_opt bind]. destruct okr; cbn [negb].
  2:{ left. split; [reflexivity|]. intros R A s e H. destruct (RD _ _ _ _ H) as (E1 & _ & _ & O & _). destruct R as [x y]. destruct (R3 x y O E1). discriminate. }
  destruct (import_ok p Pp PR a dd K c (ex_a _ _ _ C) (ex_d _ _ _ C) pub LP BP) as (q & okq & -> & Q1 & _ & Q3). cbn [of_opt bind]. destruct okq; cbn [negb].
  2:{ left. split; [reflexivity|]. intros R A s e H. destruct (RD _ _ _ _ H) as (_ & E1 & _ & _ & O & _). destruct A as [x y]. destruct (Q3 x y O E1). discriminate. }
  destruct (R1 eq_refl) as (x & y & RA & RE). destruct (Q1 eq_refl) as (x' & y' & QA & QE). destruct (import_s sr Bs Ls) as (S1 & S2). destruct (Z.lt_ge_cases (le_val sr) n) as [LT|GE].
  - destruct (S1 LT) as (E0 & E1). rewrite E1. cbn [negb]. rewrite E0. unfold eddsa_challenge. rewrite adj_eq, !firstn_all2 by lia. right.
    rewrite hash_ok; [|exact F|repeat (constructor; try (apply okb_short; [assumption|lia]); try assumption)]. cbn [concat bind]. rewrite app_nil_r. eexists _, _, _, _, (x, y), (x', y'). split; [reflexivity|]. split; [exact RA|]. split; [exact QA|].
    refine (conj (proj1 (proj1 RA)) (conj (proj1 (proj1 QA)) (conj _ (conj _ (conj QE _))))).
    + split; [apply (le_val_range sr Bs)|exact LT].
    + rewrite ES. unfold penc. cbn [fst snd]. rewrite <- RE. f_equal. rewrite <- Ls. symmetry. apply le_bytes_le_val. exact Bs.
    + unfold penc. cbn [fst snd]. rewrite <- RE, <- QE. reflexivity.
  - left. split; [|intros R A s e H; destruct (RD _ _ _ _ H) as (_ & _ & E & _ & _ & L); lia]. specialize (S2 GE). destruct (xsc_import p c sr) as [s oks]. cbn [snd] in S2. destruct oks; cbn [negb]; [|reflexivity]. rewrite (S2 eq_refl). reflexivity.
Qed.
Lemma penc_inj Q R : on Q -> on R -> penc Q = penc R -> Q = R.
Proof. destruct Q as [x y], R as [x' y']. intros O O' E. exact (enc_inj p Pp PR a dd K x y x' y' O O' E). Qed.
Lemma reads_det msg sig pub ph ctx R A s e R' A' s' e' : reads msg sig pub ph ctx R A s e -> reads msg sig pub ph ctx R' A' s' e' -> R = R' /\ A = A' /\ s = s' /\ e = e'.
Proof.
  intros (O1 & O2 & S & E1 & E2 & E3) (O1' & O2' & S' & E1' & E2' & E3'). rewrite E1 in E1'. apply app_eq_app_len in E1'; [|rewrite !penc_length; reflexivity]. destruct E1' as (ER & Es). apply penc_inj in ER; [|assumption..]. rewrite E2 in E2'. apply penc_inj in E2'; [|assumption..]. subst R' A'. refine (conj eq_refl (conj eq_refl (conj _ _))); [|congruence].
  pose proof n_lt. pose proof adj_ge. assert (n < 256 ^ Z.of_nat adj) by (eapply Z.lt_le_trans; [|apply Z.pow_le_mono_r; [lia|apply Nat2Z.inj_le; eassumption]]; lia). apply (f_equal le_val) in Es. rewrite !le_val_le_bytes, !Z.mod_small in Es by lia. exact Es.
Qed.
End P.
