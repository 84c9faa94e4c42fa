(* C90 key generation and grinding on Montgomery curves. *)
From Coq Require Import Znumtheory.
From Verif.Base Require Import Prelude.
From Verif.Spec Require Import DrbgSpec HashSpec EcSpec MontSpec DsaSpec.
From Verif.Model Require Import Encoding Bio Hash Drbg NumTheory Field EcScalar Wei Ecdsa Eddsa Mont KeyGen.
From Verif.Proof Require Import FieldProof EcCodec Rfc6979 DrbgProof MontProof EcdhProof.
From Verif.Props Require Import EdwardsProps MontProps.
Section C.
Variable p : positive.
Variable d : mont_def p.
Hypothesis D : good_mont p d.
Variable c : mont p.
Hypothesis X : mont_init p d = Some c.
Local Notation P := (Zpos p).
Local Notation h := (w_h p d).
Local Notation n := (w_n p d).
Local Notation G := (Aff (w_x p d) (w_y p d)).
Local Notation mul := (m_nmul p (w_a p d) (w_b p d)).
Local Notation Cx := (Cx p d D c X).
(* the i-th output of the HMAC-DRBG of SP 800-90A with SHA-256 over the entropy, clamped as in RFC 7748 *)
Fixpoint state (i : nat) (st : list Z * list Z) : list Z * list Z := match i with O => st | S i => state i (snd (HMAC_Generate SHA256 st (octs P) [])) end.
Definition drawn (st : list Z * list Z) (i : nat) : Z := mont_clamp_spec (blen P) h (le_val (fst (HMAC_Generate SHA256 (state i st) (octs P) []))).
Definition seeded (entropy : list Z) : list Z * list Z := HMAC_Instantiate SHA256 (firstn 32 entropy).
Definition secret (entropy : list Z) (i : nat) : Z := drawn (seeded entropy) i.
Definition octets_of (k : Z) : list Z := le_bytes (octs P) k.
(* whether the callback takes the public key of a secret *)
Definition taken (check : list Z -> bool) (k : Z) (r : bool) : Prop := exists x y, mul k G = Aff x y /\ check (dh_enc p x) = r.
Lemma draw_ok st rng : hd_inv SHA256 st rng -> exists rng', ecdh_draw p c rng = Ok (octets_of (drawn st 0), rng') /\ hd_inv SHA256 (state 1 st) rng'.
Proof.
  intros I. unfold ecdh_draw. rewrite (mssize_eq p d D c Cx). pose proof (hd_generate SHA256 st rng (octs P) [] (octs P) I) as H. pose proof (HMAC_Generate_ok SHA256 st (octs P) (proj1 I)) as K.
  unfold drawn. cbn [state]. destruct (HMAC_Generate SHA256 st (octs P) []) as [o st']. cbn [fst snd]. destruct H as (r & E & I'); [split; [constructor|reflexivity]|lia|]. rewrite E. destruct K as (L & B & _).
  destruct (mclamp_ok p d D c Cx o B ltac:(lia)) as (k & Ek & Bk & Lk & V). rewrite Ek. exists r. split; [|exact I']. rewrite firstn_all2 in V by lia. unfold octets_of. rewrite <- V, <- Lk, le_bytes_le_val by exact Bk. reflexivity.
Qed.
Lemma octets_val v : let k := mont_clamp_spec (blen P) h v in bytes (octets_of k) /\ length (octets_of k) = octs P /\ le_val (octets_of k) = k.
Proof.
  intros k. unfold octets_of. pose proof (mclamp_range p d v) as R. fold k in R. pose proof (octs_pow p) as OP. pose proof (Z.pow_nonneg 2 (blen P - 1)).
  rewrite le_val_le_bytes, le_bytes_length, Z.mod_small by (clear - OP R H; lia). split; [apply le_bytes_bytes|auto].
Qed.
Lemma export_ok v : let k := mont_clamp_spec (blen P) h v in
  (let '(pub, ok) := pge_export p (cmul_g p c (msc_raw p c (octets_of k))) in if ok then Ok pub else Abort) = match mul k G with Inf => Abort | Aff x _ => Ok (dh_enc p x) end.
Proof.
  intros k. destruct (octets_val v) as (B & L & V). fold k in B, L, V. assert (DK : dh_key p (octets_of k)) by (split; [exact B|lia]).
  assert (S : dh_scalar p d (octets_of k) = k) by (unfold dh_scalar; rewrite firstn_all2, V by lia; apply (mclamp_fix p d D); [apply (mclamp_h p d D)|apply mclamp_range]).
  pose proof (C81_create p d D c X _ DK) as E. rewrite S in E. rewrite <- E. unfold ecdh_pubkey_create.
  destruct (mclamp_ok p d D c Cx (octets_of k) B ltac:(lia)) as (k' & Ek & Bk & Lk & Vk). rewrite Ek. change (mont_clamp_spec (blen P) h (le_val (firstn (octs P) (octets_of k)))) with (dh_scalar p d (octets_of k)) in Vk. rewrite S in Vk.
  unfold msc_raw. rewrite (mssize_eq p d D c Cx), !firstn_all2 by lia. rewrite V, Vk. reflexivity.
Qed.
Lemma seed_ok entropy : bytes entropy -> exists rng, hmac_drbg_init SHA256 (firstn 32 entropy) = Ok rng /\ hd_inv SHA256 (seeded entropy) rng.
Proof. intros B. apply hd_init. split; [apply bytes_firstn; exact B|rewrite firstn_length; unfold M64; lia]. Qed.
(* C90: the key is the first secret *)
Theorem C90_generate entropy : bytes entropy -> ecdh_privkey_generate p c entropy = Ok (octets_of (secret entropy 0)).
Proof.
  intros B. unfold ecdh_privkey_generate. destruct (seed_ok entropy B) as (rng & E & I). rewrite E. cbn [bind]. destruct (draw_ok _ _ I) as (r & -> & _). reflexivity.
Qed.
(* C90: every secret is stored in full, is a multiple of the cofactor with the top bit set, and is the scalar that ECDH uses *)
Theorem C90_clamped entropy i : let k := secret entropy i in dh_key p (octets_of k) /\ length (octets_of k) = octs P /\ le_val (octets_of k) = k /\ dh_scalar p d (octets_of k) = k /\
  (h | k) /\ 2 ^ (blen P - 1) <= k < 2 ^ blen P.
Proof.
  intros k. unfold k, secret, drawn. set (v := le_val _). destruct (octets_val v) as (B & L & V). pose proof (mclamp_h p d D v) as H. pose proof (mclamp_range p d v) as R.
  split; [split; [exact B|lia]|]. split; [exact L|]. split; [exact V|]. split; [|auto]. unfold dh_scalar. rewrite firstn_all2, V by lia. apply (mclamp_fix p d D); assumption.
Qed.
Lemma loop_ok check : forall fuel st rng, hd_inv SHA256 st rng ->
  match ecdh_grind_loop p fuel c check rng with
  | Ok priv => exists k, (k < fuel)%nat /\ priv = octets_of (drawn st k) /\ taken check (drawn st k) true /\ forall j, (j < k)%nat -> taken check (drawn st j) false
  | Fail => forall j, (j < fuel)%nat -> taken check (drawn st j) false
  | Abort => exists k, (k < fuel)%nat /\ mul (drawn st k) G = Inf /\ forall j, (j < k)%nat -> taken check (drawn st j) false
  end.
Proof.
  induction fuel as [|fuel IH]; intros st rng I; cbn [ecdh_grind_loop]; [intros j J; lia|]. destruct (draw_ok st rng I) as (r & -> & I'). cbn [bind].
  assert (Sh : forall j, drawn st (S j) = drawn (state 1 st) j) by reflexivity.
  pose proof (export_ok (le_val (fst (HMAC_Generate SHA256 (state 0 st) (octs P) [])))) as E. cbv zeta in E. change (mont_clamp_spec (blen P) h (le_val (fst (HMAC_Generate SHA256 (state 0 st) (octs P) [])))) with (drawn st 0) in E.
  destruct (pge_export p (cmul_g p c (msc_raw p c (octets_of (drawn st 0))))) as [pub ok]. destruct (mul (drawn st 0) G) as [|x y] eqn:M; destruct ok; cbn [negb]; try discriminate E.
  - exists O. split; [lia|]. split; [exact M|]. intros j J. lia.
  - assert (pub = dh_enc p x) as -> by congruence. destruct (check (dh_enc p x)) eqn:Ch.
    + exists O. split; [lia|]. split; [reflexivity|]. split; [exists x, y; auto|]. intros j J. lia.
    + assert (T0 : taken check (drawn st 0) false) by (exists x, y; auto). specialize (IH (state 1 st) r I'). destruct (ecdh_grind_loop p fuel c check r) as [priv| |].
      * destruct IH as (k & K & Ep & T & F). exists (S k). rewrite Sh. split; [lia|]. split; [exact Ep|]. split; [exact T|]. intros [|j] J; [exact T0|]. rewrite Sh. apply F. lia.
      * intros [|j] J; [exact T0|]. rewrite Sh. apply IH. lia.
      * destruct IH as (k & K & Z & F). exists (S k). rewrite Sh. split; [lia|]. split; [exact Z|]. intros [|j] J; [exact T0|]. rewrite Sh. apply F. lia.
Qed.
(* C90: grinding gives the first secret whose public key is taken; the assertion fails exactly at a secret without a public key *)
Theorem C90_grind fuel check entropy : bytes entropy ->
  match ecdh_privkey_grind p fuel c check entropy with
  | Ok priv => exists k, (k < fuel)%nat /\ priv = octets_of (secret entropy k) /\ taken check (secret entropy k) true /\ forall j, (j < k)%nat -> taken check (secret entropy j) false
  | Fail => forall j, (j < fuel)%nat -> taken check (secret entropy j) false
  | Abort => exists k, (k < fuel)%nat /\ mul (secret entropy k) G = Inf /\ forall j, (j < k)%nat -> taken check (secret entropy j) false
  end.
Proof. intros B. unfold ecdh_privkey_grind. destruct (seed_ok entropy B) as (rng & -> & I). cbn [bind]. exact (loop_ok check fuel _ _ I). Qed.
(* C90: what grinding gives has the public key that the callback took *)
Theorem C90_grind_create fuel check entropy priv : bytes entropy -> ecdh_privkey_grind p fuel c check entropy = Ok priv -> exists pub, ecdh_pubkey_create p c priv = Ok pub /\ check pub = true.
Proof.
  intros B E. pose proof (C90_grind fuel check entropy B) as H. rewrite E in H. destruct H as (k & _ & -> & (x & y & M & Ch) & _). destruct (C90_clamped entropy k) as (DK & _ & _ & S & _).
  exists (dh_enc p x). split; [|exact Ch]. rewrite (C81_create p d D c X _ DK), S, M. reflexivity.
Qed.
(* C90: no assertion fails when h n has too many bits, as for X25519 *)
Theorem C90_grind_total fuel check entropy : bytes entropy -> 2 ^ blen P <= h * n -> ecdh_privkey_grind p fuel c check entropy <> Abort.
Proof.
  intros B Big E. pose proof (C90_grind fuel check entropy B) as H. rewrite E in H. destruct H as (k & _ & M & _). destruct (C90_clamped entropy k) as (DK & _ & _ & S & _).
  assert (A : ecdh_pubkey_create p c (octets_of (secret entropy k)) = Abort) by (rewrite (C81_create p d D c X _ DK), S, M; reflexivity).
  destruct (C81_create_total p d D c X _ DK Big) as (pub & Q). congruence.
Qed.
End C.
(* the curve over 29 elements of C81, with h n = 28 a clamped scalar: from one entropy the first secret 28 has no public key, so grinding
   fails its assertion; from another the key 16, with public key 21, is refused and 24, with public key 10, is taken *)
Succeed Definition C90_vector : map (fun x => m29 (fun c => (ecdh_privkey_generate p29 c (x :: repeat 0 31), ecdh_privkey_grind p29 4 c (fun pub => nth 0 pub 0 =? 10) (x :: repeat 0 31)))) [1; 3] =
  [Some (Ok [28], Abort); Some (Ok [16], Ok [24])] := ltac:(vm_compute; reflexivity).

(* the axioms of every theorem above, listed at once *)
Definition KeyGenProps_all := (@C90_generate, @C90_clamped, @C90_grind, @C90_grind_create, @C90_grind_total).
Print Assumptions KeyGenProps_all.
