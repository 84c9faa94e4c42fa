(* C87 key generation and grinding of ECDSA and BIP340 keys. *)
From Coq Require Import Znumtheory.
From Verif.Base Require Import Prelude.
From Verif.Spec Require Import DrbgSpec HashSpec EcSpec DsaSpec EcdsaSpec SchnorrSpec.
From Verif.Model Require Import Encoding Bio Hash Drbg Field EcScalar Wei Ecdsa Schnorr Grind.
From Verif.Proof Require Import FieldProof GrpMul WeiProof WeiMul WeiCtx EcCodec EcdsaProof EcdsaKeys SchnorrSig SchnorrTweak GrindProof.
From Verif.Props Require Import WeiProps EcdsaProps SchnorrProps.
Section C.
Variable p : positive.
Local Notation fe := (fe p).
Local Notation P := (Zpos p).
(* any curve satisfying good_def, and any context made by wei_init and any number of wei_randomize calls; w bits in a limb *)
Variable d : wei_def p.
Hypothesis D : good_def p d.
Variable c : wei p.
Hypothesis C : context p d c.
Variable w : Z.
Local Notation n := (d_n p d).
Local Notation a := (d_a p d).
Local Notation b := (d_b p d).
Local Notation on := (on p a b).
Local Notation add := (add p a).
Local Notation zm := (zm p a).
Local Notation G := (Aff (d_x p d) (d_y p d)).
Local Notation CO := (context_ok p d D c C).
Local Notation lift_x := (lift_x p d).
Local Notation x_of := (x_of p).
(* ---- generation: HMAC-DRBG with SHA-256 over the entropy, whole limbs of 64 bits, cut to the bits of n ---- *)
Definition draw_len : nat := ((Z.to_nat (blen n) + 63) / 64 * 8)%nat.
Fixpoint drbg_after (i : nat) (st : list Z * list Z) : list Z * list Z := match i with O => st | S i => drbg_after i (snd (HMAC_Generate SHA256 st draw_len [])) end.
Definition draw (entropy : list Z) (i : nat) : Z :=
  le_val (fst (HMAC_Generate SHA256 (drbg_after i (HMAC_Instantiate SHA256 (firstn 32 entropy))) draw_len [])) mod 2 ^ blen n.
Definition usable (x : Z) : Prop := 0 < x < n.
(* C87: the secret is the first draw in range *)
Theorem C87_generate rf entropy : bytes entropy ->
  match ecdsa_privkey_generate p rf c entropy with
  | Ok out => exists k, (k < rf)%nat /\ usable (draw entropy k) /\ out = i2o n (draw entropy k) /\ forall j, (j < k)%nat -> ~ usable (draw entropy j)
  | Fail => forall j, (j < rf)%nat -> ~ usable (draw entropy j)
  | Abort => False
  end.
Proof.
  intros B. assert (E : forall i st, drbg_after i st = gstate draw_len i st) by (induction i as [|i IH]; intros st; [reflexivity|]; cbn [drbg_after gstate]; apply IH).
  assert (V : forall i, draw entropy i = le_val (gdraw (glen p d) i (HMAC_Instantiate SHA256 (firstn 32 entropy))) mod 2 ^ blen n) by (intros i; unfold draw; rewrite E; reflexivity).
  pose proof (generate_exact p d D c CO rf entropy B) as H. cbv zeta in H. unfold usable. destruct (ecdsa_privkey_generate p rf c entropy); [|intros j J; rewrite V; exact (H j J)|exact H].
  destruct H as (k & K & R & O & F). exists k. rewrite !V. split; [exact K|]. split; [exact R|]. split; [exact O|]. intros j J. rewrite V. exact (F j J).
Qed.
Lemma no_abort rf entropy : bytes entropy -> ecdsa_privkey_generate p rf c entropy <> Abort.
Proof. intros B E. pose proof (C87_generate rf entropy B) as H. rewrite E in H. exact H. Qed.
(* ---- grinding: the first of Q + G, Q + 2G, ... that is a key whose octets pass ---- *)
Definition passes (enc : fe -> fe -> list Z) (check : list Z -> bool) (Q : point fe) : Prop := exists x y, Q = Aff x y /\ check (enc x y) = true.
Definition first_pass (enc : fe -> fe -> list Z) (check : list Z -> bool) (Q : point fe) (k : Z) : Prop :=
  1 <= k /\ passes enc check (add Q (zm k G)) /\ forall j, 1 <= j < k -> ~ passes enc check (add Q (zm j G)).
Lemma good_iff (e : point fe -> list Z * bool) enc check Q k : (forall x y, e (Aff x y) = (enc x y, true)) -> snd (e Inf) = false -> (good p d e check Q k <-> passes enc check (add Q (zm k G))).
Proof.
  intros EA EI. unfold good, cand, passes. change (padd' p a) with add. change (WeiCtx.G p d) with G. destruct (add Q (zm k G)) as [|x y]; [rewrite EI|rewrite EA; cbn [fst snd]].
  - split; [intros [? _]; discriminate|intros (x & y & E & _); discriminate].
  - split; [intros [_ H]; exists x, y; auto|]. intros (x' & y' & E & H). assert (x' = x /\ y' = y) as [-> ->] by (split; congruence). auto.
Qed.
Lemma first_iff (e : point fe -> list Z * bool) enc check Q k : (forall x y, e (Aff x y) = (enc x y, true)) -> snd (e Inf) = false -> (firstk p d e check Q k <-> first_pass enc check Q k).
Proof.
  intros EA EI. pose proof (fun k => good_iff e enc check Q k EA EI) as GI. unfold firstk, first_pass. split; intros (H1 & H2 & H3); (split; [exact H1|]; split; [apply GI; exact H2|]); intros j J K; apply (H3 j J), GI, K.
Qed.
Definition sec1_of (compact : bool) (x y : fe) : list Z := sec1_enc P compact (fv x) (fv y).
(* C87: the tweak is the number of steps to the first key that passes, with candidates in the form of the key that was given *)
Theorem C87_pubkey_grind fuel X Y pub check : on (Aff X Y) -> sec1 P (fv X) (fv Y) pub -> (compressed pub -> P mod 4 = 3) ->
  let enc := sec1_of (length pub =? 1 + octs P)%nat in
  match ecdsa_pubkey_grind p w fuel c pub check with
  | Ok r => exists k, k <= Z.of_nat fuel /\ first_pass enc check (Aff X Y) k /\ r = Some (i2o n (k mod n))
  | Fail => forall k, 1 <= k <= Z.of_nat fuel -> ~ passes enc check (add (Aff X Y) (zm k G))
  | Abort => False
  end.
Proof.
  intros O S M enc. pose proof (pubkey_grind_ok p d D c CO w fuel X Y pub check O S M) as H. cbv zeta in H. destruct (ecdsa_pubkey_grind p w fuel c pub check); [|intros k K L; apply (H k K); apply (good_iff _ enc); auto|exact H].
  destruct H as (k & K & F & R). exists k. split; [exact K|]. split; [|exact R]. eapply first_iff; [| |exact F]; reflexivity.
Qed.
Theorem C87_pubkey_grind_bad fuel pub check : bytes pub -> (compressed pub -> P mod 4 = 3) -> (forall X Y, on (Aff X Y) -> ~ sec1 P (fv X) (fv Y) pub) -> ecdsa_pubkey_grind p w fuel c pub check = Ok None.
Proof. exact (pubkey_grind_bad p d D c CO w fuel pub check). Qed.
(* C87: so tweaking the key gives a key that passes *)
Theorem C87_pubkey_grind_tweak fuel X Y pub check tweak : on (Aff X Y) -> sec1 P (fv X) (fv Y) pub -> (compressed pub -> P mod 4 = 3) -> ecdsa_pubkey_grind p w fuel c pub check = Ok (Some tweak) ->
  exists pub', ecdsa_pubkey_tweak_add p c pub tweak (length pub =? 1 + octs P)%nat = Some (pub', true) /\ check pub' = true.
Proof.
  intros O S M E. pose proof (C87_pubkey_grind fuel X Y pub check O S M) as H. cbv zeta in H. rewrite E in H. destruct H as (k & _ & (_ & (x & y & EQ & K) & _) & T). assert (tweak = i2o n (k mod n)) as -> by congruence. pose proof (prime_ge_2 _ (gd_n _ _ D)) as N2.
  rewrite (pub_tweak_add p d D c CO X Y pub (k mod n) _ O S M) by (apply Z.mod_pos_bound; lia). rewrite (mod_zm p d D). change (padd' p a) with add. change (WeiCtx.G p d) with G. rewrite EQ. eexists. split; [reflexivity|]. exact K.
Qed.
(* C87: no check fails, and a secret that comes out is valid and its public key passes *)
Theorem C87_privkey_grind rf fuel entropy compact check : bytes entropy -> (compact = true -> P mod 4 = 3) ->
  match ecdsa_privkey_grind p w rf fuel c entropy compact check with
  | Ok out => exists x pub, 0 < x < n /\ out = i2o n x /\ ecdsa_pubkey_create p c out compact = (pub, true) /\ check pub = true
  | Fail => True
  | Abort => False
  end.
Proof. intros B M. exact (privkey_grind_ok p d D c CO w rf fuel entropy compact check M (no_abort rf entropy B)). Qed.
(* C87: it ends when a draw is in range and one of the first fuel candidates passes *)
Theorem C87_privkey_grind_ends rf fuel entropy compact check i : bytes entropy -> (compact = true -> P mod 4 = 3) -> (i < rf)%nat -> usable (draw entropy i) ->
  (forall x, usable x -> exists k, 1 <= k <= Z.of_nat fuel /\ passes (sec1_of compact) check (zm (x + k) G)) -> exists out, ecdsa_privkey_grind p w rf fuel c entropy compact check = Ok out.
Proof.
  intros B M I U H. pose proof (C87_privkey_grind rf fuel entropy compact check B M) as R. destruct (ecdsa_privkey_grind p w rf fuel c entropy compact check) as [out| |] eqn:E; [exists out; reflexivity| |destruct R]. exfalso.
  unfold ecdsa_privkey_grind in E. pose proof (C87_generate rf entropy B) as GE. destruct (ecdsa_privkey_generate p rf c entropy) as [priv| |]; cbn [bind] in E; [|exact (GE i I U)|exact GE]. destruct GE as (k & _ & Uk & -> & _). set (x := draw entropy k) in *.
  destruct (create_eq p d D c CO x compact Uk) as (X & Y & EX & O & EC). rewrite EC in E. cbn [negb] in E. pose proof (C87_pubkey_grind fuel X Y (sec1_enc P compact (fv X) (fv Y)) check O (sec1_enc_ok p _ _ _) ltac:(intros K; apply M; exact (enc_compressed p _ _ _ K))) as PG. cbv zeta in PG.
  pose proof (enc_len p compact (fv X) (fv Y)) as EL. rewrite (fsize_octs p) in EL. rewrite EL in PG. destruct (ecdsa_pubkey_grind p w fuel c _ check) as [r| |]; cbn [bind] in E.
  - destruct r as [tw|]; [|discriminate]. destruct (ecdsa_privkey_tweak_add p c _ tw) as [? []]; discriminate.
  - destruct (H x Uk) as (j & J & K). apply (PG j J). change add with (padd' p a). rewrite <- EX. change G with (WeiCtx.G p d) in *. rewrite <- (m_add p (gd_p _ _ D) (gd_3 _ _ D) a b (d_h p d) (gd_ns _ _ D) (gd_no2 _ _ D)) by exact (G_on p d D). exact K.
  - exact PG.
Qed.
(* ---- x-only keys ---- *)
Hypothesis fits : (octs n <= size_of (d_xof p d) (octs n) <= rate_of (d_xof p d))%nat.
Hypothesis PO : forall Q, on Q -> zm n Q = Inf.
Hypothesis P34 : P mod 4 = 3.
Definition x_only (x y : fe) : list Z := i2o P (fv x).
Theorem C87_bip340_pubkey_grind fuel pub Q check : lift_x pub Q ->
  match bip340_pubkey_grind p w fuel c pub check with
  | Ok r => exists k, k <= Z.of_nat fuel /\ first_pass x_only check Q k /\ r = Some (i2o n (k mod n))
  | Fail => forall k, 1 <= k <= Z.of_nat fuel -> ~ passes x_only check (add Q (zm k G))
  | Abort => False
  end.
Proof.
  intros (O & X & Y & -> & E & ->). rewrite <- (even_spec p) in E. pose proof (pubkey340_grind_ok p d D c CO w P34 fuel X Y check O E) as H. destruct (bip340_pubkey_grind p w fuel c _ check); [|intros k K L; apply (H k K); apply (good_iff _ x_only); auto|exact H].
  destruct H as (k & K & F & R). exists k. split; [exact K|]. split; [|exact R]. eapply first_iff; [| |exact F]; reflexivity.
Qed.
Theorem C87_bip340_pubkey_grind_bad fuel pub check : bytes pub -> length pub = octs P -> (forall Q, ~ lift_x pub Q) -> bip340_pubkey_grind p w fuel c pub check = Ok None.
Proof. intros B L N. apply (pubkey340_grind_bad p d D c CO w P34 fuel pub check B L). intros X Y K. apply (N (Aff X Y)). apply lift_iff. exact K. Qed.
Theorem C87_bip340_privkey_grind rf fuel entropy check : bytes entropy ->
  match bip340_privkey_grind p w rf fuel c entropy check with
  | Ok out => exists x pub, 0 < x < n /\ out = i2o n x /\ bip340_pubkey_create p c out = (pub, true) /\ check pub = true
  | Fail => True
  | Abort => False
  end.
Proof. intros B. exact (privkey340_grind_ok p d D c CO w fits PO P34 rf fuel entropy check (no_abort rf entropy B)). Qed.
End C.
Example C87_ex naf : map (fun k => ecdsa_pubkey_grind c43 2 40 (e43 naf) [3; 20] (fun l => nth 1 l 0 =? k)) [20; 32; 34; 12; 2; 5] = [Ok (Some [18]); Ok (Some [1]); Ok (Some [23]); Ok (Some [4]); Ok (Some [8]); Fail] /\
  ecdsa_pubkey_grind c43 64 40 (e43 naf) [4; 20; 3] (fun l => (nth 0 l 0 =? 4) && (nth 1 l 0 =? 12)) = Ok (Some [4]) /\ ecdsa_pubkey_grind c43 64 40 (e43 naf) [2; 5] (fun _ => true) = Ok None /\
  map (fun k => bip340_pubkey_grind c43 2 40 (e43 naf) [20] (fun l => nth 0 l 0 =? k)) [20; 32; 34; 5] = [Ok (Some [13]); Ok (Some [14]); Ok (Some [5]); Fail] /\ bip340_pubkey_grind c43 2 40 (e43 naf) [5] (fun _ => true) = Ok None.
Proof. vm_compute. repeat split; reflexivity. Qed.
Succeed Definition C87_privkey_vector : (ecdsa_privkey_generate c43 10 (e43 []) (repeat 7 32), ecdsa_privkey_grind c43 64 10 40 (e43 []) (repeat 7 32) true (fun l => nth 1 l 0 =? 12), ecdsa_pubkey_create c43 (e43 []) [26] true,
  bip340_privkey_grind c43 64 10 40 (e43 []) (repeat 7 32) (fun l => nth 0 l 0 =? 12)) = (Ok [12], Ok [26], ([3; 12], true), Ok [26]) := ltac:(vm_compute; reflexivity).

(* the axioms of every theorem above, listed at once *)
Definition GrindProps_all := (@C87_generate, @C87_pubkey_grind, @C87_pubkey_grind_bad, @C87_pubkey_grind_tweak, @C87_privkey_grind, @C87_privkey_grind_ends,
  @C87_bip340_pubkey_grind, @C87_bip340_pubkey_grind_bad, @C87_bip340_privkey_grind).
Print Assumptions GrindProps_all.
