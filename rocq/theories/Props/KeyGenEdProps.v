(* C91 key generation and grinding on Edwards curves. *)
From Coq Require Import Znumtheory.
From Verif.Base Require Import Prelude.
From Verif.Spec Require Import DrbgSpec HashSpec EcSpec EdSpec DsaSpec EddsaSpec.
From Verif.Model Require Import Encoding Bio Hash Drbg NumTheory Field EcScalar Wei Ecdsa Schnorr Edwards Eddsa KeyGenEd.
From Verif.Proof Require Import FieldProof EcCodec Rfc6979 DrbgProof EdCodec EdCtx EddsaProof.
From Verif.Props Require Import EdwardsProps EddsaProps.
Section C.
Variable p : positive.
Variable d : edw_def p.
Hypothesis D : good_ed p d.
(* edwards_init, then any number of edwards_randomize *)
Variable c : edw p.
Hypothesis X : ed_context p d c.
Local Notation P := (Zpos p).
Local Notation h := (k_h p d).
Local Notation C := (ed_context_ok p d D c X).
Local Notation b := (ed_octs P).
(* the i-th output of len octets of the HMAC-DRBG of SP 800-90A with SHA-256 over the entropy *)
Fixpoint state (len i : nat) (st : list Z * list Z) : list Z * list Z := match i with O => st | S i => state len i (snd (HMAC_Generate SHA256 st len [])) end.
Definition drawn (len : nat) (st : list Z * list Z) (i : nat) : list Z := fst (HMAC_Generate SHA256 (state len i st) len []).
Definition seeded (entropy : list Z) : list Z * list Z := HMAC_Instantiate SHA256 (firstn 32 entropy).
Definition seed_key (entropy : list Z) (i : nat) : list Z := drawn b (seeded entropy) i.
(* the public key of RFC 8032 *)
Definition public (priv : list Z) : list Z := enc p (nmul p (k_a p d) (k_d p d) (scalar p d priv) (base p d)).
Lemma draw_ok len st rng : hd_inv SHA256 st rng -> exists rng', ed_draw rng len = Ok (drawn len st 0, rng') /\ hd_inv SHA256 (state len 1 st) rng' /\ bytes (drawn len st 0) /\ length (drawn len st 0) = len.
Proof.
  intros I. unfold ed_draw. pose proof (hd_generate SHA256 st rng len [] len I) as H. pose proof (HMAC_Generate_ok SHA256 st len (proj1 I)) as K.
  unfold drawn. cbn [state]. destruct (HMAC_Generate SHA256 st len []) as [o st']. cbn [fst snd]. destruct H as (r & E & I'); [split; [constructor|reflexivity]|lia|]. rewrite E. destruct K as (L & B & _). exists r. auto.
Qed.
Lemma seed_ok entropy : bytes entropy -> exists rng, hmac_drbg_init SHA256 (firstn 32 entropy) = Ok rng /\ hd_inv SHA256 (seeded entropy) rng.
Proof. intros B. apply hd_init. split; [apply bytes_firstn; exact B|rewrite firstn_length; unfold M64; lia]. Qed.
(* C91: a private key is the first output, of as many octets as RFC 8032 wants *)
Theorem C91_generate entropy : bytes entropy -> eddsa_privkey_generate p entropy = Ok (seed_key entropy 0) /\ key p (seed_key entropy 0).
Proof.
  intros B. unfold eddsa_privkey_generate. destruct (seed_ok entropy B) as (rng & -> & I). cbn [bind]. rewrite adj_octs. destruct (draw_ok b _ _ I) as (r & -> & _ & Bk & Lk). split; [reflexivity|split; assumption].
Qed.
(* C91: a scalar is the first output of the octets of the order, clamped; clamping again changes nothing *)
Theorem C91_scalar entropy : bytes entropy -> let v := ed_clamp (blen P) h (le_val (drawn (octs P) (seeded entropy) 0)) in
  exists s, eddsa_scalar_generate p c entropy = Ok s /\ bytes s /\ length s = octs P /\ le_val s = v /\ (h | v) /\ 2 ^ (blen P - 1) <= v < 2 ^ blen P /\ edwards_clamp p c s = Some s.
Proof.
  intros B v. unfold eddsa_scalar_generate. destruct (seed_ok entropy B) as (rng & -> & I). cbn [bind]. rewrite (xssize_eq p d D c C). destruct (draw_ok (octs P) _ _ I) as (r & -> & _ & Bk & Lk). cbn [bind].
  destruct (clamp_ok p d D c _ C Bk ltac:(lia)) as (s & -> & Bs & Ls & Vs). rewrite firstn_all2 in Vs by lia. exists s. cbn [of_opt]. split; [reflexivity|]. split; [exact Bs|]. split; [exact Ls|]. split; [exact Vs|]. split; [apply (clamp_h p d D)|]. split.
  - split; [|apply (clamp_range p d)]. unfold v, ed_clamp. assert (N : 0 <= blen P - 1) by (unfold blen; pose proof (Z.log2_nonneg P); lia). pose proof (Z.mod_pos_bound (le_val (drawn (octs P) (seeded entropy) 0) - le_val (drawn (octs P) (seeded entropy) 0) mod h) (2 ^ (blen P - 1)) (Z.pow_pos_nonneg 2 _ eq_refl N)). lia.
  - destruct (clamp_ok p d D c s C Bs ltac:(lia)) as (s' & E & Bs' & Ls' & Vs'). rewrite E. f_equal. rewrite firstn_all2, Vs, (EddsaKeys.clamp_idem p d D) in Vs' by lia. rewrite <- Vs in Vs'.
    rewrite <- (le_bytes_le_val s' Bs'), <- (le_bytes_le_val s Bs), Vs', Ls, Ls'. reflexivity.
Qed.
Lemma loop_ok check : forall fuel st rng, hd_inv SHA256 st rng ->
  match eddsa_grind_loop p fuel c check rng with
  | Ok priv => exists k, (k < fuel)%nat /\ priv = drawn b st k /\ key p priv /\ check (public priv) = true /\ forall j, (j < k)%nat -> check (public (drawn b st j)) = false
  | Fail => forall j, (j < fuel)%nat -> check (public (drawn b st j)) = false
  | Abort => False
  end.
Proof.
  induction fuel as [|fuel IH]; intros st rng I; cbn [eddsa_grind_loop]; [intros j J; lia|]. rewrite adj_octs. destruct (draw_ok b st rng I) as (r & -> & I' & Bk & Lk). cbn [bind].
  assert (Sh : forall j, drawn b st (S j) = drawn b (state b 1 st) j) by reflexivity. assert (KP : key p (drawn b st 0)) by (split; assumption).
  pose proof (C68_eddsa_create p d D c X _ KP) as E. fold (public (drawn b st 0)) in E. unfold eddsa_pubkey_create, eddsa_pubkey_from_scalar in E. destruct (eddsa_privkey_convert p c (drawn b st 0)) as [s| |]; cbn [bind] in *; try discriminate E.
  destruct (of_opt (xge_export p (xmul_g p c (xsc_reduce p c s)))) as [pub| |]; cbn [bind]; try discriminate E. assert (pub = public (drawn b st 0)) as -> by congruence. destruct (check (public (drawn b st 0))) eqn:Ch.
  - exists O. split; [lia|]. split; [reflexivity|]. split; [exact KP|]. split; [exact Ch|]. intros j J. lia.
  - specialize (IH (state b 1 st) r I'). destruct (eddsa_grind_loop p fuel c check r) as [priv| |].
    + destruct IH as (k & K & Ep & Kp & T & F). exists (S k). rewrite Sh. split; [lia|]. split; [exact Ep|]. split; [exact Kp|]. split; [exact T|]. intros [|j] J; [exact Ch|]. rewrite Sh. apply F. lia.
    + intros [|j] J; [exact Ch|]. rewrite Sh. apply IH. lia.
    + exact IH.
Qed.
(* C91: grinding gives the first output whose public key is taken, and never fails an assertion *)
Theorem C91_grind fuel check entropy : bytes entropy ->
  match eddsa_privkey_grind p fuel c check entropy with
  | Ok priv => exists k, (k < fuel)%nat /\ priv = seed_key entropy k /\ key p priv /\ check (public priv) = true /\ forall j, (j < k)%nat -> check (public (seed_key entropy j)) = false
  | Fail => forall j, (j < fuel)%nat -> check (public (seed_key entropy j)) = false
  | Abort => False
  end.
Proof. intros B. unfold eddsa_privkey_grind. destruct (seed_ok entropy B) as (rng & -> & I). cbn [bind]. exact (loop_ok check fuel _ _ I). Qed.
(* C91: what grinding gives has the public key that the callback took *)
Theorem C91_grind_create fuel check entropy priv : bytes entropy -> eddsa_privkey_grind p fuel c check entropy = Ok priv -> exists pub, eddsa_pubkey_create p c priv = Ok pub /\ check pub = true.
Proof.
  intros B E. pose proof (C91_grind fuel check entropy B) as H. rewrite E in H. destruct H as (k & _ & _ & KP & Ch & _). exists (public priv). split; [exact (C68_eddsa_create p d D c X priv KP)|exact Ch].
Qed.
End C.
(* the curve over 29 elements of C68: the first key 202 has the public key 150, which is refused; 193 is taken *)
Succeed Definition C91_vector : match edwards_init p29 d29 with
  | Some c => let e := 2 :: repeat 0 31 in (eddsa_privkey_generate p29 e, eddsa_scalar_generate p29 c e, bind (eddsa_privkey_generate p29 e) (eddsa_pubkey_create p29 c), eddsa_privkey_grind p29 4 c (fun pub => nth 0 pub 0 <? 64) e)
  | None => (Fail, Fail, Fail, Fail) end = (Ok [202], Ok [24], Ok [150], Ok [193]) := ltac:(vm_compute; reflexivity).

(* the axioms of every theorem above, listed at once *)
Definition KeyGenEdProps_all := (@C91_generate, @C91_scalar, @C91_grind, @C91_grind_create).
Print Assumptions KeyGenEdProps_all.
