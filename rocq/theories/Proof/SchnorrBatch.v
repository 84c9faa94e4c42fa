(* Batch verification of Schnorr signatures, and BIP-Schnorr signing and verification. *)
From Verif.Base Require Import Prelude.
From Coq Require Import Znumtheory.
From Verif.Model Require Import Encoding Bio Hash Drbg NumTheory Rsa Field EcScalar Wei Ecdsa Schnorr.
From Verif.Spec Require Import HashSpec KdfSpec DrbgSpec EcSpec DsaSpec EcdsaSpec SchnorrSpec.
From Verif.Proof Require Import HashProof HmacProof DrbgProof Cong FieldProof FieldSquare EcGroup GrpMul EcScalarProof WeiProof WeiMul WeiCtx EcCodec Rfc6979 EcdsaProof EcdsaKeys SchnorrProof SchnorrSig.
(* ---- the generator of the coefficients can always be seeded ---- *)
Lemma sha256_of_ok m : okb m -> exists h, sha256_of [m] = Ok h /\ okb h.
Proof.
  intros B. unfold sha256_of. rewrite init_val; [|constructor; [exact B|constructor]|cbn; lia]. eexists. split; [reflexivity|]. cbn [concat]. rewrite app_nil_r.
  destruct (hash_value_ok SHA256 m 32 (proj1 B)) as [L Bh]. split; [exact Bh|]. rewrite L. vm_compute. reflexivity.
Qed.
Definition okitem (t : list Z * list Z * list Z) : Prop := okb (fst (fst t)) /\ okb (snd (fst t)) /\ okb (snd t).
Lemma batch_seed_ok items : Forall okitem items -> forall ctx m, hrep SHA256 m ctx -> bytes m -> exists ctx' m', batch_seed items (Ok ctx) = Ok ctx' /\ hrep SHA256 m' ctx' /\ bytes m'.
Proof.
  induction 1 as [|[[msg sig] key] t (H1 & H2 & H3) F IH]; intros ctx m HR Bm; cbn [batch_seed]; [exists ctx, m; repeat split; assumption|]. cbn [fst snd] in *.
  destruct (sha256_of_ok msg H1) as (h & -> & Bh). cbn [bind]. assert (FC : Forall okb [h; sig; key]) by (repeat (apply Forall_cons; [assumption|]); apply Forall_nil).
  destruct (hrep_chunks SHA256 [h; sig; key] FC m ctx HR) as (c' & E & HR'). unfold feed. rewrite E. apply (IH c' _ HR'). apply bytes_app. split; [exact Bm|exact (okb_bytes _ FC)].
Qed.
Lemma batch_rng_ok items : Forall okitem items -> exists rng, batch_rng items = Ok rng.
Proof.
  intros F. unfold batch_rng. destruct (hrep_init SHA256) as (c0 & E0 & H0). rewrite E0. destruct (batch_seed_ok items F c0 [] H0 (Forall_nil _)) as (c' & m' & -> & HR & Bm). cbn [bind].
  rewrite (hrep_final SHA256 m' c' 32 Bm HR) by (cbn; lia). cbn [bind]. destruct (hash_value_ok SHA256 m' 32 Bm) as [L Bh]. destruct (hd_init SHA256 (hash_value SHA256 m' 32)) as (dr & E & _); [split; [exact Bh|rewrite L; vm_compute; reflexivity]|].
  exists dr. exact E.
Qed.
Lemma random_range fuel n bits : forall dr z dr', sc_random fuel n bits dr = Some (z, dr') -> 0 < z < n.
Proof.
  induction fuel as [|fuel IH]; intros dr z dr'; cbn [sc_random]; [discriminate|]. destruct (hmac_drbg_generate _ _ _ _) as [[[raw d2]| |]|]; try discriminate.
  set (v := le_val raw mod 2 ^ Z.of_nat bits). assert (V : 0 <= v) by (apply Z.mod_pos_bound; apply Z.pow_pos_nonneg; lia). clearbody v. destruct (Z.ltb_spec v n) as [L|L]; cbn [andb]; [|apply IH].
  destruct (Z.eqb_spec v 0) as [E|N]; cbn [negb]; [apply IH|]. intros H. assert (v = z) by congruence. lia.
Qed.
Section P.
Variable p : positive.
Local Notation fe := (Field.fe p).
Variable d : wei_def p.
Hypothesis D : good_def p d.
Variable c : wei p.
Hypothesis C : ctx_ok p d c.
Local Notation P := (Zpos p).
Local Notation a := (d_a p d).
Local Notation b := (d_b p d).
Local Notation h := (d_h p d).
Local Notation n := (d_n p d).
Local Notation on := (on' p a b).
Local Notation add := (padd' p a).
Local Notation neg := (pneg' p).
Local Notation jrep := (jrep p a b).
Local Notation wrep := (wrep p a b).
Local Notation zm := (zm p a).
Local Notation G := (G p d).
Local Notation Pp := (gd_p _ _ D).
Local Notation P3 := (gd_3 _ _ D).
Local Notation ns := (gd_ns _ _ D).
Local Notation no2 := (gd_no2 _ _ D).
Local Notation N1 := (N1 p d D).
Local Notation xof := (d_xof p d).
Local Notation Mon := (m_on p Pp P3 a b h ns no2).
Local Notation Madd := (m_add p Pp P3 a b h ns no2).
Local Notation Mmul := (m_mul p Pp P3 a b h ns no2).
Local Notation Mneg := (m_neg p Pp P3 a b h ns no2).
Local Notation Mop := (m_op p Pp P3 a b h ns no2).
Local Notation Aon := (a_on p Pp P3 a b h ns no2).
Local Notation Non := (n_on p Pp P3 a b h ns no2).
Local Notation Acomm := (a_comm p Pp P3 a b h ns no2).
Local Notation Aassoc := (a_assoc p Pp P3 a b h ns no2).
Local Notation Aswap := (a_swap p Pp P3 a b h ns no2).
Local Notation LL := (L p Pp P3 a b h ns no2).
Local Notation Gon := (G_on p d D).
Add Ring fring : (FieldProof.ring_th p).
Hypothesis PO : forall Q, on Q -> zm n Q = Inf.
(* ---- group facts ---- *)
Lemma id_l Q : add Inf Q = Q. Proof. reflexivity. Qed.
Lemma id_r' Q : on Q -> add Q Inf = Q. Proof. exact (id_r _ _ _ _ _ LL Q). Qed.
Lemma sub_0 X Y : on X -> on Y -> add X (neg Y) = Inf <-> X = Y.
Proof.
  intros OX OY. split; intros E; [|subst Y; exact (gl_neg _ _ _ _ _ LL X OX)].
  rewrite <- (id_r' X OX). rewrite <- (gl_neg _ _ _ _ _ LL Y OY). rewrite (Acomm Y (neg Y) OY (Non Y OY)). rewrite <- Aassoc by (try apply Non; assumption). rewrite E. reflexivity.
Qed.
Lemma move X W U : on X -> on W -> on U -> add X W = U <-> add U (neg W) = X.
Proof.
  intros OX OW OU. pose proof (Non W OW) as ON. split; intros <-.
  - rewrite Aassoc by assumption. rewrite (gl_neg _ _ _ _ _ LL W OW). apply id_r'. exact OX.
  - rewrite Aassoc by assumption. rewrite (Acomm (neg W) W) by assumption. rewrite (gl_neg _ _ _ _ _ LL W OW). apply id_r'. exact OU.
Qed.
(* the defect of an item: R + e A - s G *)
Definition defect (s e : Z) (R A : point fe) : point fe := add (add R (zm e A)) (zm (- s) G).
Lemma defect_on s e R A : on R -> on A -> on (defect s e R A).
Proof. intros OR OA. unfold defect. apply Aon; [apply Aon; [exact OR|apply Mon; exact OA]|apply Mon; exact Gon]. Qed.
Lemma defect_iff s e R A : on R -> on A -> defect s e R A = Inf <-> add (zm s G) (zm (- e) A) = R.
Proof.
  intros OR OA. unfold defect. rewrite !Mneg by (exact Gon || exact OA). pose proof (Mon s G Gon) as OG. pose proof (Mon e A OA) as OE.
  rewrite sub_0 by (try apply Aon; assumption). apply move; assumption.
Qed.
Lemma mult_inf k Q : 0 < k < n -> on Q -> zm k Q = Inf -> Q = Inf.
Proof.
  intros K O E. assert (RP : rel_prime k n). { apply rel_prime_sym. apply prime_rel_prime; [exact (gd_n _ _ D)|]. intros DV. apply Z.divide_pos_le in DV; lia. }
  apply rel_prime_bezout in RP. destruct RP as [u v B]. rewrite <- (m_1 p Pp P3 a b h ns no2 Q O), <- B. rewrite Madd, !Mmul, E, (PO Q O) by exact O. rewrite !(m_e p Pp P3 a b h ns no2). reflexivity.
Qed.
Lemma zm_modn k Q : on Q -> zm (k mod n) Q = zm k Q. Proof. intros O. exact (zm_mod_pt p d D k Q O (PO Q O)). Qed.
Lemma msum_app l1 l2 : Forall (fun t => on (fst t)) l1 -> Forall (fun t => on (fst t)) l2 -> on (msum p a l1) /\ msum p a (l1 ++ l2) = add (msum p a l1) (msum p a l2).
Proof.
  intros F1 F2. assert (S2 : on (msum p a l2)). { clear F1. induction F2 as [|[Q k] l O F IH]; cbn [msum]; [exact Logic.I|]. apply Aon; [apply Mon; exact O|exact IH]. }
  induction F1 as [|[Q k] l O F IH]; cbn [msum app]; [split; [exact Logic.I|reflexivity]|]. destruct IH as [IH1 IH2]. cbn [fst] in O. pose proof (Mon k Q O) as OK. split; [apply Aon; assumption|]. rewrite IH2. symmetry. apply Aassoc; assumption.
Qed.
(* ---- the loop, for any decoder of items ---- *)
Section Loop.
Variable T : Type.
Variable dec : T -> outcome (option (Z * wge p * wge p * Z)).
Variable valid : T -> Prop.
Definition dec_spec (t : T) : Prop := (dec t = Ok None /\ ~ valid t) \/
  exists s R A e RQ AQ, dec t = Ok (Some (s, R, A, e)) /\ 0 <= s < n /\ 0 <= e < n /\ wrep R RQ /\ wrep A AQ /\ (valid t <-> defect s e RQ AQ = Inf).
Local Notation term := (term p d).
Definition inv (sum : Z) (pts : list (wge p * Z)) (V : point fe) : Prop := 0 <= sum < n /\ on V /\ exists Ps, Forall2 term pts Ps /\ add (zm (- sum) G) (msum p a Ps) = V.
Lemma term_on pts Ps : Forall2 term pts Ps -> Forall (fun t => on (fst t)) Ps.
Proof. induction 1 as [|x y l l' (W & _) F IH]; constructor; [exact (wrep_on _ _ _ _ _ W)|exact IH]. Qed.
Lemma inv_nil : inv 0 [] Inf.
Proof. pose proof N1. split; [lia|]. split; [exact Logic.I|]. exists []. split; [constructor|reflexivity]. Qed.
Lemma flush_ok sum pts V : inv sum pts V -> exists z, batch_flush p c sum pts = Ok z /\ (z = true <-> V = Inf).
Proof.
  intros (S & OV & Ps & F & E). unfold batch_flush. rewrite (cx_n _ _ _ C). destruct (sc_neg_eqm p d D sum S) as [R _].
  destruct (Jmulti p d D c C (sc_neg n sum) pts Ps R F) as (r & -> & J). cbn [of_opt bind]. rewrite (neg_mult p d D PO sum G S Gon), E in J. exists (jinf r). split; [reflexivity|].
  inversion J; cbn [jinf jge_zero]; split; congruence.
Qed.
Lemma step_ok sum pts V s R A e RQ AQ k : inv sum pts V -> 0 <= s < n -> 0 <= e < n -> wrep R RQ -> wrep A AQ -> 0 < k < n ->
  inv (sc_add n sum (sc_mul n s k)) (pts ++ [(R, k); (A, sc_mul n e k)]) (add V (zm k (defect s e RQ AQ))).
Proof.
  intros (Sr & OV & Ps & F & E) Hs He WR WA K. pose proof N1 as N1. assert (NP : 0 < n) by (clear - N1; lia). pose proof (wrep_on _ _ _ _ _ WR) as OR. pose proof (wrep_on _ _ _ _ _ WA) as OA.
  split; [apply Z.mod_pos_bound; exact NP|]. pose proof (defect_on s e RQ AQ OR OA) as OD. split; [apply Aon; [exact OV|apply Mon; exact OD]|]. exists (Ps ++ [(RQ, k); (AQ, sc_mul n e k)]). split.
  { apply Forall2_app; [exact F|]. constructor; [repeat split; cbn [fst snd]; try assumption; lia|]. constructor; [|constructor]. split; [exact WA|]. split; [reflexivity|]. cbn [snd]. apply Z.mod_pos_bound. exact NP. }
  destruct (msum_app Ps [(RQ, k); (AQ, sc_mul n e k)] (term_on _ _ F)) as [OM ->]; [repeat constructor; assumption|]. cbn [msum]. rewrite id_r' by (apply Mon; exact OA).
  assert (E1 : zm (- sc_add n sum (sc_mul n s k)) G = add (zm (- sum) G) (zm k (zm (- s) G))).
  { rewrite <- Mmul, <- Madd by exact Gon. apply (eqm_zm p d D). unfold sc_add, sc_mul. rewrite Z.add_mod_idemp_r by lia. change (- ((sum + s * k) mod n) ≡ - sum + k * - s ⟦ n ⟧).
    replace (- ((sum + s * k) mod n)) with (0 - (sum + s * k) mod n) by ring. replace (- sum + k * - s) with (0 - (sum + s * k)) by ring. apply eqm_sub; [apply eqm_refl|apply eqm_mod]. }
  assert (E2 : zm (sc_mul n e k) AQ = zm k (zm e AQ)) by (unfold sc_mul; rewrite zm_modn by exact OA; rewrite Z.mul_comm; apply Mmul; exact OA).
  rewrite E1, E2, <- E. unfold defect. rewrite !Mop by (try apply Aon; try apply Mon; try exact Gon; assumption).
  set (g1 := zm (- sum) G). set (g2 := zm k (zm (- s) G)). set (u := zm k RQ). set (v := zm k (zm e AQ)). set (m := msum p a Ps) in *.
  assert (Og1 : on g1) by (apply Mon; exact Gon). assert (Og2 : on g2) by (apply Mon, Mon; exact Gon). assert (Ou : on u) by (apply Mon; exact OR). assert (Ov : on v) by (apply Mon, Mon; exact OA).
  rewrite Aswap by (try apply Aon; assumption). f_equal. apply Acomm; [exact Og2|apply Aon; assumption].
Qed.
Variables (rf limit : nat).
Definition coeff (pts : list (wge p * Z)) (rng : hmac_drbg_t) : outcome (Z * hmac_drbg_t) :=
  if (length pts =? 0)%nat then Ok (1, rng) else match sc_random rf n (sbits p c) rng with Some x => Ok x | None => Fail end.
Lemma coeff_range pts rng k rng' : coeff pts rng = Ok (k, rng') -> 0 < k < n.
Proof.
  unfold coeff. pose proof N1. destruct (length pts =? 0)%nat; [intros E; assert (k = 1) by congruence; lia|]. destruct (sc_random rf n (sbits p c) rng) as [[z r']|] eqn:E; [|discriminate].
  intros E'. assert (z = k) by congruence. subst z. exact (random_range _ _ _ _ _ _ E).
Qed.
Lemma coeff_out pts rng : (exists k rng', coeff pts rng = Ok (k, rng')) \/ coeff pts rng = Fail.
Proof. unfold coeff. destruct (length pts =? 0)%nat; [left; eexists _, _; reflexivity|]. destruct (sc_random rf n (sbits p c) rng) as [[z r']|]; [left; eexists _, _; reflexivity|right; reflexivity]. Qed.
(* one turn of the loop on an item that decodes *)
Lemma turn t items rng sum pts s R A e : dec t = Ok (Some (s, R, A, e)) ->
  batch_loop p rf c dec limit (t :: items) rng sum pts =
  bind (coeff pts rng) (fun ar => let '(k, rng) := ar in
    let sum := sc_add n sum (sc_mul n s k) in let pts := pts ++ [(R, k); (A, sc_mul n e k)] in
    if (length pts =? limit)%nat then bind (batch_flush p c sum pts) (fun z => if negb z then Ok false else batch_loop p rf c dec limit items rng 0 []) else batch_loop p rf c dec limit items rng sum pts).
Proof. intros E. cbn [batch_loop]. rewrite E. cbn [bind]. rewrite (cx_n _ _ _ C). reflexivity. Qed.
Definition finishes (x : outcome bool) (Q : Prop) : Prop := (exists r, x = Ok r /\ (r = true <-> Q)) \/ x = Fail.
(* valid items leave the partial combination as it is *)
Lemma loop_valid items : Forall dec_spec items -> Forall valid items -> forall rng sum pts V, inv sum pts V -> (pts = [] -> V = Inf) ->
  finishes (batch_loop p rf c dec limit items rng sum pts) (V = Inf).
Proof.
  intros DS VS. induction items as [|t items IH]; intros rng sum pts V I HV.
  - cbn [batch_loop]. left. destruct (Nat.ltb_spec 0 (length pts)) as [L|L].
    + exact (flush_ok sum pts V I).
    + exists true. split; [reflexivity|]. split; [intros _|reflexivity]. apply HV. destruct pts; [reflexivity|cbn in L; lia].
  - apply Forall_cons_iff in DS. destruct DS as [D1 DS]. apply Forall_cons_iff in VS. destruct VS as [V1 VS]. destruct D1 as [[_ NV]|(s & R & A & e & RQ & AQ & E & Hs & He & WR & WA & HV1)]; [contradiction|].
    rewrite (turn t items rng sum pts s R A e E). destruct (coeff_out pts rng) as [(k & rng' & EC)|EC]; rewrite EC; cbn [bind]; [|right; reflexivity]. pose proof (coeff_range _ _ _ _ EC) as K. cbv zeta.
    pose proof (step_ok sum pts V s R A e RQ AQ k I Hs He WR WA K) as I'. rewrite (proj1 HV1 V1) in I'. rewrite (m_e p Pp P3 a b h ns no2), id_r' in I' by apply I.
    destruct (Nat.eqb_spec (length (pts ++ [(R, k); (A, sc_mul n e k)])) limit) as [_|_].
    + destruct (flush_ok _ _ V I') as (z & -> & HZ). cbn [bind]. destruct z; cbn [negb].
      * assert (V = Inf) by (apply HZ; reflexivity). subst V. exact (IH DS VS rng' 0 [] Inf inv_nil (fun _ => eq_refl)).
      * left. exists false. split; [reflexivity|]. exact HZ.
    + apply (IH DS VS rng' _ _ V I'). intros H. apply app_eq_nil in H. destruct H. discriminate.
Qed.
(* one invalid item among valid ones *)
Lemma loop_invalid l1 t l2 : Forall dec_spec (l1 ++ t :: l2) -> Forall valid l1 -> ~ valid t -> Forall valid l2 -> forall rng sum pts, inv sum pts Inf ->
  finishes (batch_loop p rf c dec limit (l1 ++ t :: l2) rng sum pts) False.
Proof.
  intros DS V1 NV V2. induction l1 as [|u l1 IH]; intros rng sum pts I; cbn [app] in *; apply Forall_cons_iff in DS; destruct DS as [D1 DS].
  - destruct D1 as [[E _]|(s & R & A & e & RQ & AQ & E & Hs & He & WR & WA & HV1)].
    + left. exists false. cbn [batch_loop]. rewrite E. cbn [bind]. split; [reflexivity|]. split; [discriminate|contradiction].
    + rewrite (turn t l2 rng sum pts s R A e E). destruct (coeff_out pts rng) as [(k & rng' & EC)|EC]; rewrite EC; cbn [bind]; [|right; reflexivity]. pose proof (coeff_range _ _ _ _ EC) as K. cbv zeta.
      pose proof (step_ok sum pts Inf s R A e RQ AQ k I Hs He WR WA K) as I'. rewrite id_l in I'. set (V := zm k (defect s e RQ AQ)) in *.
      assert (NI : V <> Inf). { intros H. apply NV. apply HV1. apply (mult_inf k); [exact K|apply defect_on; [exact (wrep_on _ _ _ _ _ WR)|exact (wrep_on _ _ _ _ _ WA)]|exact H]. }
      destruct (Nat.eqb_spec (length (pts ++ [(R, k); (A, sc_mul n e k)])) limit) as [_|_].
      * destruct (flush_ok _ _ V I') as (z & -> & HZ). cbn [bind]. destruct z; cbn [negb]; [exfalso; apply NI; apply HZ; reflexivity|]. left. exists false. split; [reflexivity|]. split; [discriminate|contradiction].
      * destruct (loop_valid l2 DS V2 rng' _ _ V I') as [(r & E' & HR)|E']; [intros H; apply app_eq_nil in H; destruct H; discriminate| |right; exact E'].
        left. exists r. split; [exact E'|]. split; [intros H; apply NI; apply HR; exact H|contradiction].
  - apply Forall_cons_iff in V1. destruct V1 as [Vu V1]. destruct D1 as [[_ NU]|(s & R & A & e & RQ & AQ & E & Hs & He & WR & WA & HV1)]; [contradiction|].
    rewrite (turn u _ rng sum pts s R A e E). destruct (coeff_out pts rng) as [(k & rng' & EC)|EC]; rewrite EC; cbn [bind]; [|right; reflexivity]. pose proof (coeff_range _ _ _ _ EC) as K. cbv zeta.
    pose proof (step_ok sum pts Inf s R A e RQ AQ k I Hs He WR WA K) as I'. rewrite (proj1 HV1 Vu) in I'. rewrite (m_e p Pp P3 a b h ns no2), id_l in I'.
    destruct (Nat.eqb_spec (length (pts ++ [(R, k); (A, sc_mul n e k)])) limit) as [_|_].
    + destruct (flush_ok _ _ Inf I') as (z & -> & HZ). cbn [bind]. rewrite (proj2 HZ eq_refl). cbn [negb]. exact (IH DS V1 rng' 0 [] inv_nil).
    + exact (IH DS V1 rng' _ _ I').
Qed.
(* scratch space for one item at a time: no coefficient is ever drawn and the answer is exact *)
Lemma loop_small items : limit = 2%nat -> Forall dec_spec items -> forall rng, exists r, batch_loop p rf c dec limit items rng 0 [] = Ok r /\ (r = true <-> Forall valid items).
Proof.
  intros L DS. induction DS as [|t items D1 DS IH]; intros rng; [exists true; split; [reflexivity|split; constructor]|].
  destruct D1 as [[E NV]|(s & R & A & e & RQ & AQ & E & Hs & He & WR & WA & HV1)].
  - exists false. cbn [batch_loop]. rewrite E. cbn [bind]. split; [reflexivity|]. split; [discriminate|]. intros F. apply Forall_cons_iff in F. destruct F. contradiction.
  - rewrite (turn t items rng 0 [] s R A e E). unfold coeff. cbn [length Nat.eqb bind app]. rewrite L. cbn [Nat.eqb]. cbv zeta. pose proof N1 as N1.
    pose proof (step_ok 0 [] Inf s R A e RQ AQ 1 inv_nil Hs He WR WA ltac:(lia)) as I'. cbn [app] in I'. rewrite id_l, (m_1 p Pp P3 a b h ns no2) in I' by (apply defect_on; [exact (wrep_on _ _ _ _ _ WR)|exact (wrep_on _ _ _ _ _ WA)]).
    destruct (flush_ok _ _ _ I') as (z & -> & HZ). cbn [bind]. rewrite <- HV1 in HZ. destruct z; cbn [negb].
    + rewrite <- L. destruct (IH rng) as (r & -> & HR). exists r. split; [reflexivity|]. rewrite HR, Forall_cons_iff. split; [intros H; split; [apply HZ; reflexivity|exact H]|tauto].
    + exists false. split; [reflexivity|]. split; [discriminate|]. intros F. apply Forall_cons_iff in F. apply HZ. apply F.
Qed.
(* one item *)
Lemma loop_one t : dec_spec t -> forall rng, exists r, batch_loop p rf c dec limit [t] rng 0 [] = Ok r /\ (r = true <-> valid t).
Proof.
  intros D1 rng. destruct D1 as [[E NV]|(s & R & A & e & RQ & AQ & E & Hs & He & WR & WA & HV1)].
  - exists false. cbn [batch_loop]. rewrite E. cbn [bind]. split; [reflexivity|]. split; [discriminate|contradiction].
  - rewrite (turn t [] rng 0 [] s R A e E). unfold coeff. cbn [length Nat.eqb bind app]. cbv zeta. pose proof N1 as N1.
    pose proof (step_ok 0 [] Inf s R A e RQ AQ 1 inv_nil Hs He WR WA ltac:(lia)) as I'. cbn [app] in I'. rewrite id_l, (m_1 p Pp P3 a b h ns no2) in I' by (apply defect_on; [exact (wrep_on _ _ _ _ _ WR)|exact (wrep_on _ _ _ _ _ WA)]).
    destruct (flush_ok _ _ _ I') as (z & EF & HZ). rewrite <- HV1 in HZ. exists z. split; [|exact HZ]. cbn [batch_loop length]. rewrite EF. destruct limit as [|[|[|l]]]; cbn [Nat.ltb Nat.leb bind]; try reflexivity. destruct z; reflexivity.
Qed.
End Loop.
Theorem batch_ok {T} (dec : T -> outcome (option (Z * wge p * wge p * Z))) (valid : T -> Prop) key rf size items : (2 <= size)%nat -> Forall (dec_spec T dec valid) items -> Forall okitem (map key items) ->
  (Forall valid items -> verify_batch p rf c dec key size items = Ok true \/ verify_batch p rf c dec key size items = Fail) /\
  (forall l1 t l2, items = l1 ++ t :: l2 -> Forall valid l1 -> ~ valid t -> Forall valid l2 -> verify_batch p rf c dec key size items = Ok false \/ verify_batch p rf c dec key size items = Fail) /\
  ((size <= 3)%nat \/ (length items <= 1)%nat -> exists r, verify_batch p rf c dec key size items = Ok r /\ (r = true <-> Forall valid items)).
Proof.
  intros S DS OK. unfold verify_batch. rewrite (proj2 (Nat.ltb_ge size 2) S). destruct (batch_rng_ok _ OK) as (rng & ->). cbn [bind]. split; [|split].
  - intros V. destruct (loop_valid T dec valid rf (size - size mod 2) items DS V rng 0 [] Inf inv_nil (fun _ => eq_refl)) as [(r & -> & HR)| ->]; [left|right; reflexivity]. rewrite (proj2 HR eq_refl). reflexivity.
  - intros l1 t l2 -> V1 NV V2. destruct (loop_invalid T dec valid rf (size - size mod 2) l1 t l2 DS V1 NV V2 rng 0 [] inv_nil) as [(r & -> & HR)| ->]; [left|right; reflexivity]. destruct r; [exfalso; apply HR; reflexivity|reflexivity].
  - intros [S3|L1].
    + apply loop_small; [|exact DS]. destruct (Nat.eq_dec size 2) as [-> |]; [reflexivity|]. replace size with 3%nat by lia. reflexivity.
    + destruct items as [|t [|? ?]]; [exists true; split; [reflexivity|split; constructor]| |cbn in L1; lia]. apply Forall_cons_iff in DS. destruct (loop_one T dec valid rf (size - size mod 2) t (proj1 DS) rng) as (r & -> & HR).
      exists r. split; [reflexivity|]. rewrite HR. split; [intros V; constructor; [exact V|constructor]|intros V; apply Forall_cons_iff in V; apply V].
Qed.
End P.
