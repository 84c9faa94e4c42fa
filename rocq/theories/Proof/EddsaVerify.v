(* EdDSA verification, single and batched; derived secrets and tweaked keys. *)
From Verif.Base Require Import Prelude.
From Coq Require Import Znumtheory.
From Verif.Model Require Import Encoding Bio Hash Drbg NumTheory Field EcScalar Wei Ecdsa Schnorr Edwards Eddsa.
From Verif.Spec Require Import HashSpec KdfSpec DrbgSpec EcSpec DsaSpec EdSpec EddsaSpec.
From Verif.Proof Require Import HashProof HmacProof DrbgProof Cong Rfc6979 FieldProof EcGroup GrpMul EcScalarProof EcCodec EdGroup EdProof EdMul EdCodec EdCtx SchnorrProof SchnorrBatch EddsaProof.
Section P.
Variable p : positive.
Local Notation fe := (Field.fe p).
Local Notation P := (Zpos p).
Variable d : edw_def p.
Hypothesis D : good_ed p d.
Variable c : edw p.
Hypothesis C : ectx_ok p d c.
Local Notation a := (k_a p d).
Local Notation dd := (k_d p d).
Local Notation h := (k_h p d).
Local Notation n := (k_n p d).
Local Notation hid := (k_hash p d).
Local Notation on := (eon p a dd).
Local Notation add := (eadd p a dd).
Local Notation neg := (eneg p).
Local Notation zero := (ezero p).
Local Notation xrep := (xrep p a dd).
Local Notation arep := (arep p a dd).
Local Notation zm := (zm p a dd).
Local Notation G := (EG p d).
Local Notation Pp := (ge_p _ _ D).
Local Notation PR := (ge_r _ _ D).
Local Notation K := (ge_c _ _ D).
Local Notation LL := (L p Pp a dd K).
Local Notation Mon := (m_on p Pp a dd K).
Local Notation Madd := (m_add p Pp a dd K).
Local Notation Mmul := (m_mul p Pp a dd K).
Local Notation Mop := (m_op p Pp a dd K).
Local Notation Mneg := (m_neg p Pp a dd K).
Local Notation Me := (m_e p Pp a dd K).
Local Notation M1 := (m_1 p Pp a dd K).
Local Notation Aon := (a_on p Pp a dd K).
Local Notation Non := (n_on p Pp a dd K).
Local Notation Acomm := (a_comm p Pp a dd K).
Local Notation Aassoc := (a_assoc p Pp a dd K).
Local Notation Aswap := (a_swap p Pp a dd K).
Local Notation Ainf := (a_inf p Pp a dd K).
Local Notation Gon := (EG_on p d D).
Local Notation N1 := (en_pos p d D).
Local Notation adj := (ed_octs P).
Local Notation penc := (penc p).
Local Notation reads := (reads p d).
Local Notation evalid := (evalid p d).
Local Notation evalid_h := (evalid_h p d).
Local Notation flag := (flag).
(* ---- group facts ---- *)
Lemma a_neg X : on X -> add X (neg X) = zero. Proof. exact (gl_neg _ _ _ _ _ LL X). Qed.
Lemma sub_0 X Y : on X -> on Y -> add X (neg Y) = zero <-> X = Y.
Proof.
  intros OX OY. split; intros E; [|subst Y; exact (a_neg X OX)].
  rewrite <- (Ainf X OX). rewrite <- (a_neg Y OY). rewrite (Acomm Y (neg Y) OY (Non Y OY)). rewrite <- Aassoc by (try apply Non; assumption). rewrite E. apply (a_zl p Pp a dd K). exact OY.
Qed.
Lemma move X W U : on X -> on W -> on U -> add X W = U <-> add U (neg W) = X.
Proof.
  intros OX OW OU. pose proof (Non W OW) as ON. split; intros <-.
  - rewrite Aassoc by assumption. rewrite (a_neg W OW). apply Ainf. exact OX.
  - rewrite Aassoc by assumption. rewrite (Acomm (neg W) W) by assumption. rewrite (a_neg W OW). apply Ainf. exact OU.
Qed.
Lemma move' X W U : on X -> on W -> on U -> U = add X W <-> X = add U (neg W).
Proof. intros OX OW OU. pose proof (move X W U OX OW OU) as (M & N). split; intros E; symmetry; [apply M|apply N]; symmetry; exact E. Qed.
Lemma neg_zm k X : on X -> zm k (neg X) = neg (zm k X).
Proof. intros O. rewrite <- Mneg by exact O. replace (neg X) with (zm (-1) X) by (change (-1) with (- (1)); rewrite Mneg, M1 by exact O; reflexivity). rewrite <- Mmul by exact O. f_equal. ring. Qed.
(* ---- the two verifiers ---- *)
Definition wf (msg sig pub : list Z) (ph : Z) (ctx : list Z) : Prop :=
  okb msg /\ EddsaProof.flag ph ctx /\ bytes sig /\ length sig = (2 * adj)%nat /\ bytes pub /\ length pub = adj.
Theorem verify_ok msg sig pub ph ctx : wf msg sig pub ph ctx -> exists b, eddsa_verify p c msg sig pub ph ctx = Ok b /\ (b = true <-> evalid msg sig pub ph ctx).
Proof.
  intros (W1 & W2 & W3 & W4 & W5 & W6). unfold eddsa_verify. destruct (read_ok p d D c C msg sig pub ph ctx W1 W2 W3 W4 W5 W6) as [(-> & NR)|(s & r & q & e & R & A & -> & AR & AA & RD)]; cbn [bind].
  - exists false. split; [reflexivity|]. split; [discriminate|]. intros (R & A & s & e & H & _). destruct (NR _ _ _ _ H).
  - pose proof RD as (OR & OA & S & _ & _ & EE). assert (E : 0 <= e < n) by (rewrite EE; apply (eint_range p d D)). destruct (Xdouble p d D c C s (xge_neg p q) (neg A) e S E (neg_rep p a dd q A (proj1 AA))) as (x & -> & X). cbn [of_opt bind].
    eexists. split; [reflexivity|]. rewrite (equal_rep p Pp a dd _ _ _ _ (proj1 AR) X). rewrite neg_zm by exact OA. pose proof (Mon s G Gon) as OS. pose proof (Mon e A OA) as OE. split.
    + intros H. exists R, A, s, e. split; [exact RD|]. unfold ed_equation. apply (proj2 (move' R (zm e A) (zm s G) OR OE OS)). exact H.
    + intros (R' & A' & s' & e' & H & Q). destruct (reads_det p d D _ _ _ _ _ _ _ _ _ _ _ _ _ RD H) as (<- & <- & <- & <-). unfold ed_equation in Q. apply (proj1 (move' R (zm e A) (zm s G) OR OE OS)). exact Q.
Qed.
Theorem single_ok msg sig pub ph ctx : wf msg sig pub ph ctx -> exists b, eddsa_verify_single p c msg sig pub ph ctx = Ok b /\ (b = true <-> evalid_h msg sig pub ph ctx).
Proof.
  intros (W1 & W2 & W3 & W4 & W5 & W6). unfold eddsa_verify_single. destruct (read_ok p d D c C msg sig pub ph ctx W1 W2 W3 W4 W5 W6) as [(-> & NR)|(s & r & q & e & R & A & -> & AR & AA & RD)]; cbn [bind].
  - exists false. split; [reflexivity|]. split; [discriminate|]. intros (R & A & s & e & H & _). destruct (NR _ _ _ _ H).
  - pose proof RD as (OR & OA & S & _ & _ & EE). assert (E : 0 <= e < n) by (rewrite EE; apply (eint_range p d D)). cbv zeta. destruct (Xmulh p d D c C q A (proj1 AA)) as (q' & -> & Q'). cbn [of_opt bind]. destruct (Xmulh p d D c C r R (proj1 AR)) as (r' & -> & R'). cbn [of_opt bind].
    rewrite (ex_n _ _ _ C), (ex_h _ _ _ C). unfold sc_mul. assert (S' : 0 <= (s * h) mod n < n) by (apply Z.mod_pos_bound; pose proof N1; lia).
    destruct (Xdouble p d D c C _ (xge_neg p q') (neg (zm h A)) e S' E (neg_rep p a dd q' _ Q')) as (x & -> & X). cbn [of_opt bind]. pose proof (Mon h A OA) as OHA. pose proof (Mon h R OR) as OHR.
    eexists. split; [reflexivity|]. rewrite (equal_rep p Pp a dd _ _ _ _ R' X). rewrite neg_zm by exact OHA. rewrite (emod_zm p d D). pose proof (Mon (s * h) G Gon) as OS. pose proof (Mon e _ OHA) as OE.
    assert (EQ : ed_cofactored _ add zm G h R A s e <-> add (zm h R) (zm e (zm h A)) = zm (s * h) G).
    { unfold ed_cofactored. rewrite Mop by (try apply Mon; assumption). rewrite <- !Mmul by (exact OA || exact Gon). rewrite (Z.mul_comm h s), (Z.mul_comm h e). split; intros ->; reflexivity. }
    split.
    + intros H. exists R, A, s, e. split; [exact RD|]. apply EQ. symmetry. apply (proj2 (move' (zm h R) (zm e (zm h A)) (zm (s * h) G) OHR OE OS)). exact H.
    + intros (R0 & A0 & s0 & e0 & H & Q). destruct (reads_det p d D _ _ _ _ _ _ _ _ _ _ _ _ _ RD H) as (<- & <- & <- & <-). apply EQ in Q. apply (proj1 (move' (zm h R) (zm e (zm h A)) (zm (s * h) G) OHR OE OS)). symmetry. exact Q.
Qed.
(* for points of the prime order subgroup the two agree *)
Theorem cofactored_sub msg sig pub ph ctx R A s e : reads msg sig pub ph ctx R A s e -> sub p d R -> sub p d A -> evalid_h msg sig pub ph ctx -> evalid msg sig pub ph ctx.
Proof.
  intros RD SR SA (R0 & A0 & s0 & e0 & H & Q). destruct (reads_det p d D _ _ _ _ _ _ _ _ _ _ _ _ _ RD H) as (<- & <- & <- & <-). exists R, A, s, e. split; [exact RD|]. unfold ed_equation, ed_cofactored in *.
  set (X := zm s G) in *. set (Y := add R (zm e A)) in *. assert (SX : sub p d X) by (apply (sub_zm p d D); apply (sub_G p d D)).
  assert (SY : sub p d Y). { pose proof (sub_zm p d D A e SA) as (O1 & E1). destruct SR as (O2 & E2). split; [apply Aon; assumption|]. unfold Y. rewrite Mop, E1, E2 by assumption. apply Ainf. exact (on_inf p a dd). }
  apply sub_0; [apply SX|apply SY|]. apply (sub_kill p d D _ h).
  - destruct SX as (O1 & E1), SY as (O2 & E2). pose proof (Non Y O2). split; [apply Aon; assumption|]. rewrite Mop, neg_zm, E1, E2 by assumption. apply a_neg. exact (on_inf p a dd).
  - exact (h_unit p d D).
  - destruct SX as (O1 & _), SY as (O2 & _). pose proof (Non Y O2). rewrite Mop, neg_zm, Q by assumption. apply a_neg. apply Mon. exact O2.
Qed.
(* ---- batches ---- *)
Definition hdef (s e : Z) (R A : fe * fe) : fe * fe := add (add (zm h R) (zm e (zm h A))) (zm (- s) (zm h G)).
Lemma hdef_sub s e R A : on R -> on A -> sub p d (hdef s e R A).
Proof.
  intros OR OA. unfold hdef. pose proof (sub_h p d D R OR) as (O1 & E1). pose proof (sub_zm p d D _ e (sub_h p d D A OA)) as (O2 & E2). pose proof (sub_zm p d D _ (- s) (sub_h p d D G Gon)) as (O3 & E3).
  pose proof (Aon _ _ O1 O2) as O4. split; [apply Aon; assumption|]. rewrite !Mop, E1, E2, E3 by assumption. pose proof (on_inf p a dd) as OI. rewrite (Ainf zero OI), (Ainf zero OI). reflexivity.
Qed.
Lemma hdef_iff s e R A : on R -> on A -> hdef s e R A = zero <-> ed_cofactored _ add zm G h R A s e.
Proof.
  intros OR OA. unfold hdef, ed_cofactored. rewrite Mneg by (apply Mon; exact Gon). pose proof (Mon h R OR). pose proof (Mon e _ (Mon h A OA)). pose proof (Mon s _ (Mon h G Gon)). rewrite sub_0 by (try apply Aon; assumption).
  rewrite Mop by (try apply Mon; assumption). rewrite <- !Mmul by (exact OA || exact Gon). rewrite (Z.mul_comm h s), (Z.mul_comm h e). split; intros ->; reflexivity.
Qed.
Lemma msum_app l1 l2 : Forall (fun t => on (fst t)) l1 -> Forall (fun t => on (fst t)) l2 -> on (msum p a dd l1) /\ msum p a dd (l1 ++ l2) = add (msum p a dd l1) (msum p a dd l2).
Proof.
  intros F1 F2. pose proof (on_inf p a dd) as OI. assert (S2 : on (msum p a dd l2)). { clear F1. induction F2 as [|[Q k] l O F IH]; cbn [msum]; [exact OI|]. apply Aon; [apply Mon; exact O|exact IH]. }
  induction F1 as [|[Q k] l O F IH]; cbn [msum app]; [split; [exact OI|symmetry; apply (a_zl p Pp a dd K); exact S2]|]. destruct IH as [IH1 IH2]. cbn [fst] in O. pose proof (Mon k Q O) as OK. split; [apply Aon; assumption|]. rewrite IH2. symmetry. apply Aassoc; assumption.
Qed.
Local Notation term := (eterm p d).
Local Notation item := (list Z * list Z * list Z)%type.
Variables (ph : Z) (ctx : list Z).
Hypothesis F0 : EddsaProof.flag ph ctx.
Definition wfi (t : item) : Prop := let '(msg, sig, pub) := t in wf msg sig pub ph ctx.
Definition valid (t : item) : Prop := let '(msg, sig, pub) := t in evalid_h msg sig pub ph ctx.
Definition inv (sum : Z) (pts : list (xge p * Z)) (V : fe * fe) : Prop := 0 <= sum < n /\ sub p d V /\ exists Ps, Forall2 term pts Ps /\ add (zm (- sum) (zm h G)) (msum p a dd Ps) = V.
Lemma term_on pts Ps : Forall2 term pts Ps -> Forall (fun t => on (fst t)) Ps.
Proof. induction 1 as [|x y l l' (W & _) F IH]; constructor; [exact (rep_on _ _ _ _ _ W)|exact IH]. Qed.
Lemma sub_zero : sub p d zero. Proof. split; [exact (on_inf p a dd)|apply Me]. Qed.
Lemma inv_nil : inv 0 [] zero.
Proof. pose proof N1. split; [lia|]. split; [exact sub_zero|]. exists []. split; [constructor|]. change (- 0) with 0. cbn [msum]. rewrite (m_0 p a dd). apply Ainf. exact (on_inf p a dd). Qed.
Lemma flush_ok sum pts V : inv sum pts V -> exists z, ed_flush p c sum pts = Ok z /\ (z = true <-> V = zero).
Proof.
  intros (S & OV & Ps & F & E). unfold ed_flush. rewrite (ex_n _ _ _ C), (ex_h _ _ _ C). pose proof N1 as N1. set (k0 := sc_neg n (sc_mul n sum h)). assert (R : 0 <= k0 < n /\ k0 mod n = (- (sum * h)) mod n).
  { unfold k0, sc_neg, sc_mul. pose proof (Z.mod_pos_bound (sum * h) n ltac:(lia)) as B. destruct (Z.eqb_spec ((sum * h) mod n) 0) as [Z0|NZ].
    - split; [lia|]. rewrite Z.mod_opp_l_z by lia. apply Z.mod_0_l. lia.
    - split; [lia|]. rewrite Z.mod_opp_l_nz by lia. apply Z.mod_small. lia. }
  destruct R as (R & RE). destruct (Xmulti p d D c C k0 pts Ps R F) as (r & -> & J). cbn [of_opt bind].
  assert (EG0 : zm k0 G = zm (- sum) (zm h G)) by (rewrite <- Mmul by exact Gon; apply (eqm_ezm p d D); rewrite RE; f_equal; ring).
  rewrite EG0, E in J. exists (xge_is_zero p r). split; [reflexivity|]. exact (is_zero_rep p Pp a dd r V J).
Qed.
Lemma step_ok sum pts V s r q e R A k : inv sum pts V -> 0 <= s < n -> 0 <= e < n -> on R -> on A -> xrep r (zm h R) -> xrep q (zm h A) -> 0 < k < n ->
  inv (sc_add n sum (sc_mul n s k)) (pts ++ [(r, k); (q, sc_mul n e k)]) (add V (zm k (hdef s e R A))).
Proof.
  intros (Sr & SV & Ps & F & E) Hs He OR OA WR WA Hk. pose proof N1 as N1. assert (NP : 0 < n) by (clear - N1; lia).
  split; [apply Z.mod_pos_bound; exact NP|]. pose proof (hdef_sub s e R A OR OA) as SD. pose proof (sub_zm p d D _ k SD) as (OKD & EKD). destruct SV as (OV & EV). split; [split; [apply Aon; assumption|rewrite Mop, EV, EKD by assumption; apply Ainf; exact (on_inf p a dd)]|].
  exists (Ps ++ [(zm h R, k); (zm h A, sc_mul n e k)]). split.
  { apply Forall2_app; [exact F|]. constructor; [refine (conj WR (conj eq_refl _)); cbn [snd]; lia|]. constructor; [|constructor]. refine (conj WA (conj eq_refl _)). cbn [snd]. apply Z.mod_pos_bound. exact NP. }
  pose proof (sub_h p d D R OR) as SHR. pose proof (sub_h p d D A OA) as SHA. pose proof (sub_h p d D G Gon) as SHG. set (R' := zm h R) in *. set (A' := zm h A) in *. set (G' := zm h G) in *.
  destruct (msum_app Ps [(R', k); (A', sc_mul n e k)] (term_on _ _ F)) as [OM EM]; [constructor; [apply SHR|constructor; [apply SHA|constructor]]|].
  match goal with |- add _ ?y = _ => replace y with (add (msum p a dd Ps) (msum p a dd [(R', k); (A', sc_mul n e k)])) by (symmetry; exact EM) end. clear EM. cbn [msum]. rewrite Ainf by (apply Mon; apply SHA).
  assert (E1 : zm (- sc_add n sum (sc_mul n s k)) G' = add (zm (- sum) G') (zm k (zm (- s) G'))).
  { rewrite <- Mmul, <- Madd by apply SHG. rewrite <- (sub_mod p d D G' (- sc_add n _ _) SHG), <- (sub_mod p d D G' (- sum + _) SHG). f_equal. unfold sc_add, sc_mul. rewrite Z.add_mod_idemp_r by lia. change (- ((sum + s * k) mod n) ≡ - sum + k * - s ⟦ n ⟧).
    replace (- ((sum + s * k) mod n)) with (0 - (sum + s * k) mod n) by ring. replace (- sum + k * - s) with (0 - (sum + s * k)) by ring. apply eqm_sub; [apply eqm_refl|apply eqm_mod]. }
  assert (E2 : zm (sc_mul n e k) A' = zm k (zm e A')) by (unfold sc_mul; rewrite (sub_mod p d D A' _ SHA); rewrite Z.mul_comm; apply Mmul; apply SHA).
  rewrite E1, E2, <- E. unfold hdef. fold R' A' G'. destruct SHR as (OR' & _), SHA as (OA' & _), SHG as (OG' & _). rewrite !Mop by (try apply Aon; try apply Mon; assumption).
  set (g1 := zm (- sum) G'). set (g2 := zm k (zm (- s) G')). set (u := zm k R'). set (v := zm k (zm e A')). set (m := msum p a dd Ps) in *.
  assert (Og1 : on g1) by (apply Mon; assumption). assert (Og2 : on g2) by (apply Mon, Mon; assumption). assert (Ou : on u) by (apply Mon; assumption). assert (Ov : on v) by (apply Mon, Mon; assumption).
  rewrite Aswap by (try apply Aon; assumption). f_equal. apply Acomm; [exact Og2|apply Aon; assumption].
Qed.
Lemma dec_spec t : wfi t -> let '(msg, sig, pub) := t in (eddsa_read p c msg sig pub ph ctx = Ok None /\ ~ valid t) \/
  exists s r q e R A r' q', eddsa_read p c msg sig pub ph ctx = Ok (Some (s, r, q, e)) /\ 0 <= s < n /\ 0 <= e < n /\ on R /\ on A /\ xmulh p c r = Some r' /\ xmulh p c q = Some q' /\ xrep r' (zm h R) /\ xrep q' (zm h A) /\ (valid t <-> hdef s e R A = zero).
Proof.
  destruct t as [[msg sig] pub]. intros (W1 & W2 & W3 & W4 & W5 & W6). destruct (read_ok p d D c C msg sig pub ph ctx W1 W2 W3 W4 W5 W6) as [(E & NR)|(s & r & q & e & R & A & E & AR & AA & RD)].
  - left. split; [exact E|]. intros (R & A & s & e & H & _). destruct (NR _ _ _ _ H).
  - right. pose proof RD as (OR & OA & S & _ & _ & EE). assert (He : 0 <= e < n) by (rewrite EE; apply (eint_range p d D)). destruct (Xmulh p d D c C q A (proj1 AA)) as (q' & EQ & Q'). destruct (Xmulh p d D c C r R (proj1 AR)) as (r' & ER & R').
    exists s, r, q, e, R, A, r', q'. refine (conj E (conj S (conj He (conj OR (conj OA (conj ER (conj EQ (conj R' (conj Q' _))))))))). rewrite hdef_iff by assumption. split.
    + intros (R0 & A0 & s0 & e0 & H & Q). destruct (reads_det p d D _ _ _ _ _ _ _ _ _ _ _ _ _ RD H) as (<- & <- & <- & <-). exact Q.
    + intros Q. exists R, A, s, e. split; [exact RD|exact Q].
Qed.
Variables (rf limit : nat).
Local Notation loop := (ed_batch_loop p rf c ph ctx limit).
Definition coeff (pts : list (xge p * Z)) (rng : hmac_drbg_t) : outcome (Z * hmac_drbg_t) :=
  if (length pts =? 0)%nat then Ok (1, rng) else match sc_random rf n (xsbits p c) rng with Some x => Ok x | None => Fail end.
Lemma coeff_range pts rng k rng' : coeff pts rng = Ok (k, rng') -> 0 < k < n.
Proof.
  unfold coeff. pose proof N1. destruct (length pts =? 0)%nat; [intros E; assert (k = 1) by congruence; lia|]. destruct (sc_random rf n (xsbits p c) rng) as [[z r']|] eqn:E; [|discriminate].
  intros E'. assert (z = k) by congruence. subst z. exact (random_range _ _ _ _ _ _ E).
Qed.
Lemma coeff_out pts rng : (exists k rng', coeff pts rng = Ok (k, rng')) \/ coeff pts rng = Fail.
Proof. unfold coeff. destruct (length pts =? 0)%nat; [left; eexists _, _; reflexivity|]. destruct (sc_random rf n (xsbits p c) rng) as [[z r']|]; [left; eexists _, _; reflexivity|right; reflexivity]. Qed.
Lemma turn msg sig pub items rng sum pts s r q e r' q' : eddsa_read p c msg sig pub ph ctx = Ok (Some (s, r, q, e)) -> xmulh p c r = Some r' -> xmulh p c q = Some q' ->
  loop ((msg, sig, pub) :: items) rng sum pts =
  bind (coeff pts rng) (fun ar => let '(k, rng) := ar in
    let sum := sc_add n sum (sc_mul n s k) in let pts := pts ++ [(r', k); (q', sc_mul n e k)] in
    if (length pts =? limit)%nat then bind (ed_flush p c sum pts) (fun z => if negb z then Ok false else loop items rng 0 []) else loop items rng sum pts).
Proof.
  intros E ER EQ. cbn [ed_batch_loop]. rewrite E. cbn [bind]. rewrite (ex_n _ _ _ C). unfold coeff. destruct (length pts =? 0)%nat; cbn [bind]; rewrite ?ER, ?EQ; cbn [of_opt bind]; [reflexivity|].
  destruct (sc_random rf n (xsbits p c) rng) as [[z rng']|]; reflexivity.
Qed.
Definition finishes (x : outcome bool) (Q : Prop) : Prop := (exists r, x = Ok r /\ (r = true <-> Q)) \/ x = Fail.
Lemma loop_valid items : Forall wfi items -> Forall valid items -> forall rng sum pts V, inv sum pts V -> (pts = [] -> V = zero) -> finishes (loop items rng sum pts) (V = zero).
Proof.
  intros DS VS. induction items as [|t items IH]; intros rng sum pts V I HV.
  - cbn [ed_batch_loop]. left. destruct (Nat.ltb_spec 0 (length pts)) as [L|L].
    + exact (flush_ok sum pts V I).
    + exists true. split; [reflexivity|]. split; [intros _|reflexivity]. apply HV. destruct pts; [reflexivity|cbn in L; lia].
  - apply Forall_cons_iff in DS. destruct DS as [D1 DS]. apply Forall_cons_iff in VS. destruct VS as [V1 VS]. pose proof (dec_spec t D1) as SP. destruct t as [[msg sig] pub]. destruct SP as [[_ NV]|(s & r & q & e & R & A & r' & q' & E & Hs & He & OR & OA & ER & EQ & WR & WA & HV1)]; [contradiction|].
    rewrite (turn _ _ _ items rng sum pts s r q e r' q' E ER EQ). destruct (coeff_out pts rng) as [(k & rng' & EC)|EC]; rewrite EC; cbn [bind]; [|right; reflexivity]. pose proof (coeff_range _ _ _ _ EC) as Hk. cbv zeta.
    pose proof (step_ok sum pts V s r' q' e R A k I Hs He OR OA WR WA Hk) as I'. rewrite (proj1 HV1 V1) in I'. rewrite Me, Ainf in I' by apply I.
    destruct (Nat.eqb_spec (length (pts ++ [(r', k); (q', sc_mul n e k)])) limit) as [_|_].
    + destruct (flush_ok _ _ V I') as (z & -> & HZ). cbn [bind]. destruct z; cbn [negb].
      * assert (V = zero) by (apply HZ; reflexivity). subst V. exact (IH DS VS rng' 0 [] zero inv_nil (fun _ => eq_refl)).
      * left. exists false. split; [reflexivity|]. exact HZ.
    + apply (IH DS VS rng' _ _ V I'). intros H. apply app_eq_nil in H. destruct H. discriminate.
Qed.
Lemma loop_invalid l1 t l2 : Forall wfi (l1 ++ t :: l2) -> Forall valid l1 -> ~ valid t -> Forall valid l2 -> forall rng sum pts, inv sum pts zero -> finishes (loop (l1 ++ t :: l2) rng sum pts) False.
Proof.
  intros DS V1 NV V2. induction l1 as [|u l1 IH]; intros rng sum pts I; cbn [app] in *; apply Forall_cons_iff in DS; destruct DS as [D1 DS].
  - pose proof (dec_spec t D1) as SP. destruct t as [[msg sig] pub]. destruct SP as [[E _]|(s & r & q & e & R & A & r' & q' & E & Hs & He & OR & OA & ER & EQ & WR & WA & HV1)].
    + left. exists false. cbn [ed_batch_loop]. rewrite E. cbn [bind]. split; [reflexivity|]. split; [discriminate|contradiction].
    + rewrite (turn _ _ _ l2 rng sum pts s r q e r' q' E ER EQ). destruct (coeff_out pts rng) as [(k & rng' & EC)|EC]; rewrite EC; cbn [bind]; [|right; reflexivity]. pose proof (coeff_range _ _ _ _ EC) as Hk. cbv zeta.
      pose proof (hdef_sub s e R A OR OA) as SD. pose proof (step_ok sum pts zero s r' q' e R A k I Hs He OR OA WR WA Hk) as I'. rewrite (a_zl p Pp a dd K) in I' by (apply Mon; apply SD). set (V := zm k (hdef s e R A)) in *.
      assert (NI : V <> zero). { intros H. apply NV. apply HV1. apply (sub_kill p d D _ k SD); [rewrite Z.mod_small by lia; lia|exact H]. }
      destruct (Nat.eqb_spec (length (pts ++ [(r', k); (q', sc_mul n e k)])) limit) as [_|_].
      * destruct (flush_ok _ _ V I') as (z & -> & HZ). cbn [bind]. destruct z; cbn [negb]; [exfalso; apply NI; apply HZ; reflexivity|]. left. exists false. split; [reflexivity|]. split; [discriminate|contradiction].
      * destruct (loop_valid l2 DS V2 rng' _ _ V I') as [(b & E' & HR)|E']; [intros H; apply app_eq_nil in H; destruct H; discriminate| |right; exact E'].
        left. exists b. split; [exact E'|]. split; [intros H; apply NI; apply HR; exact H|contradiction].
  - apply Forall_cons_iff in V1. destruct V1 as [Vu V1]. pose proof (dec_spec u D1) as SP. destruct u as [[msg sig] pub]. destruct SP as [[_ NU]|(s & r & q & e & R & A & r' & q' & E & Hs & He & OR & OA & ER & EQ & WR & WA & HV1)]; [contradiction|].
    rewrite (turn _ _ _ _ rng sum pts s r q e r' q' E ER EQ). destruct (coeff_out pts rng) as [(k & rng' & EC)|EC]; rewrite EC; cbn [bind]; [|right; reflexivity]. pose proof (coeff_range _ _ _ _ EC) as Hk. cbv zeta.
    pose proof (step_ok sum pts zero s r' q' e R A k I Hs He OR OA WR WA Hk) as I'. rewrite (proj1 HV1 Vu) in I'. rewrite Me, Ainf in I' by exact (on_inf p a dd).
    destruct (Nat.eqb_spec (length (pts ++ [(r', k); (q', sc_mul n e k)])) limit) as [_|_].
    + destruct (flush_ok _ _ zero I') as (z & -> & HZ). cbn [bind]. rewrite (proj2 HZ eq_refl). cbn [negb]. exact (IH DS V1 rng' 0 [] inv_nil).
    + exact (IH DS V1 rng' _ _ I').
Qed.
Lemma loop_small items : limit = 2%nat -> Forall wfi items -> forall rng, exists r, loop items rng 0 [] = Ok r /\ (r = true <-> Forall valid items).
Proof.
  intros L DS. induction DS as [|t items D1 DS IH]; intros rng; [exists true; split; [reflexivity|split; constructor]|].
  pose proof (dec_spec t D1) as SP. destruct t as [[msg sig] pub]. destruct SP as [[E NV]|(s & r & q & e & R & A & r' & q' & E & Hs & He & OR & OA & ER & EQ & WR & WA & HV1)].
  - exists false. cbn [ed_batch_loop]. rewrite E. cbn [bind]. split; [reflexivity|]. split; [discriminate|]. intros F. apply Forall_cons_iff in F. destruct F. contradiction.
  - rewrite (turn _ _ _ items rng 0 [] s r q e r' q' E ER EQ). unfold coeff. cbn [length Nat.eqb bind app]. rewrite L. cbn [Nat.eqb]. cbv zeta. pose proof N1 as N1.
    pose proof (hdef_sub s e R A OR OA) as SD. pose proof (step_ok 0 [] zero s r' q' e R A 1 inv_nil Hs He OR OA WR WA ltac:(lia)) as I'. cbn [app] in I'. rewrite (a_zl p Pp a dd K), M1 in I' by (try apply Mon; apply SD).
    destruct (flush_ok _ _ _ I') as (z & -> & HZ). cbn [bind]. rewrite <- HV1 in HZ. destruct z; cbn [negb].
    + rewrite <- L. destruct (IH rng) as (b & -> & HR). exists b. split; [reflexivity|]. rewrite HR, Forall_cons_iff. split; [intros H; split; [apply HZ; reflexivity|exact H]|tauto].
    + exists false. split; [reflexivity|]. split; [discriminate|]. intros F. apply Forall_cons_iff in F. apply HZ. apply F.
Qed.
Lemma loop_one t : wfi t -> forall rng, exists r, loop [t] rng 0 [] = Ok r /\ (r = true <-> valid t).
Proof.
  intros D1 rng. pose proof (dec_spec t D1) as SP. destruct t as [[msg sig] pub]. destruct SP as [[E NV]|(s & r & q & e & R & A & r' & q' & E & Hs & He & OR & OA & ER & EQ & WR & WA & HV1)].
  - exists false. cbn [ed_batch_loop]. rewrite E. cbn [bind]. split; [reflexivity|]. split; [discriminate|contradiction].
  - rewrite (turn _ _ _ [] rng 0 [] s r q e r' q' E ER EQ). unfold coeff. cbn [length Nat.eqb bind app]. cbv zeta. pose proof N1 as N1.
    pose proof (hdef_sub s e R A OR OA) as SD. pose proof (step_ok 0 [] zero s r' q' e R A 1 inv_nil Hs He OR OA WR WA ltac:(lia)) as I'. cbn [app] in I'. rewrite (a_zl p Pp a dd K), M1 in I' by (try apply Mon; apply SD).
    destruct (flush_ok _ _ _ I') as (z & EF & HZ). rewrite <- HV1 in HZ. exists z. split; [|exact HZ]. cbn [ed_batch_loop length]. rewrite EF. destruct limit as [|[|[|l]]]; cbn [Nat.ltb Nat.leb bind]; try reflexivity. destruct z; reflexivity.
Qed.
End P.
Section Q.
Variable p : positive.
Variable d : edw_def p.
Hypothesis D : good_ed p d.
Variable c : edw p.
Hypothesis C : ectx_ok p d c.
Theorem ed_batch_ok rf size items ph ctx : (2 <= size)%nat -> Forall (wfi p ph ctx) items ->
  (Forall (valid p d ph ctx) items -> eddsa_verify_batch p rf c size items ph ctx = Ok true \/ eddsa_verify_batch p rf c size items ph ctx = Fail) /\
  (forall l1 t l2, items = l1 ++ t :: l2 -> Forall (valid p d ph ctx) l1 -> ~ valid p d ph ctx t -> Forall (valid p d ph ctx) l2 -> eddsa_verify_batch p rf c size items ph ctx = Ok false \/ eddsa_verify_batch p rf c size items ph ctx = Fail) /\
  ((size <= 3)%nat \/ (length items <= 1)%nat -> exists r, eddsa_verify_batch p rf c size items ph ctx = Ok r /\ (r = true <-> Forall (valid p d ph ctx) items)).
Proof.
  intros S DS. unfold eddsa_verify_batch. rewrite (proj2 (Nat.ltb_ge size 2) S). assert (OK : Forall okitem (map (eddsa_key p) items)).
  { apply Forall_map. eapply Forall_impl; [|exact DS]. intros [[msg sig] pub] (W1 & W2 & W3 & W4 & W5 & W6). unfold eddsa_key. rewrite (adj_eq p), !firstn_all2 by lia. refine (conj W1 (conj _ _)); cbn [fst snd]; apply (okb_short p d D); (assumption || lia). }
  destruct (batch_rng_ok _ OK) as (rng & ->). cbn [bind]. split; [|split].
  - intros V. destruct (loop_valid p d D c C ph ctx rf (size - size mod 2) items DS V rng 0 [] _ (inv_nil p d D) (fun _ => eq_refl)) as [(r & -> & HR)| ->]; [left|right; reflexivity]. rewrite (proj2 HR eq_refl). reflexivity.
  - intros l1 t l2 -> V1 NV V2. destruct (loop_invalid p d D c C ph ctx rf (size - size mod 2) l1 t l2 DS V1 NV V2 rng 0 [] (inv_nil p d D)) as [(r & -> & HR)| ->]; [left|right; reflexivity]. destruct r; [exfalso; apply HR; reflexivity|reflexivity].
  - intros [S3|L1].
    + apply (loop_small p d D c C); [|exact DS]. destruct (Nat.eq_dec size 2) as [-> |]; [reflexivity|]. replace size with 3%nat by lia. reflexivity.
    + destruct items as [|t [|? ?]]; [exists true; split; [reflexivity|split; constructor]| |cbn in L1; lia]. apply Forall_cons_iff in DS. destruct (loop_one p d D c C ph ctx rf (size - size mod 2) t (proj1 DS) rng) as (r & -> & HR).
      exists r. split; [reflexivity|]. rewrite HR. split; [intros V; constructor; [exact V|constructor]|intros V; apply Forall_cons_iff in V; apply V].
Qed.
End Q.
