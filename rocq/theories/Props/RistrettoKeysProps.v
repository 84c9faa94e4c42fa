(* C92 private keys of the ristretto group, and the search of ristretto_pubkey_grind. *)
From Coq Require Import Znumtheory.
From Verif.Base Require Import Prelude.
From Verif.Spec Require Import DrbgSpec HashSpec EcSpec EdSpec DsaSpec EddsaSpec.
From Verif.Model Require Import Encoding Bio Hash Drbg NumTheory Field EcScalar Wei Ecdsa Schnorr Edwards Eddsa RistrettoKeys.
From Verif.Proof Require Import Fermat RsaPrim FieldProof EcCodec Rfc6979 DrbgProof GrpMul EdGroup EdProof EdMul EdCodec EdCtx EddsaProof EddsaKeys PubKeysProof.
From Verif.Proof Require GrindProof.
From Verif.Props Require Import EdwardsProps EddsaProps.
Section C.
Variable p : positive.
Variable d : edw_def p.
Hypothesis D : good_ed p d.
(* any number of randomizations *)
Variable c : edw p.
Hypothesis X : ed_context p d c.
Local Notation P := (Zpos p).
Local Notation n := (k_n p d).
Local Notation on := (on p (k_a p d) (k_d p d)).
Local Notation add := (add p (k_a p d) (k_d p d)).
Local Notation nmul := (nmul p (k_a p d) (k_d p d)).
Local Notation point := (xpoint p (k_a p d) (k_d p d)).
Local Notation G := (base p d).
Local Notation C := (ed_context_ok p d D c X).
(* strings of the size of a key, keys, and the key of a scalar *)
Definition sized (s : list Z) : Prop := bytes s /\ length s = octs P.
Definition rkey (s : list Z) : Prop := sized s /\ le_val s < n.
Definition of_scalar (x : Z) : list Z := le_bytes (octs P) x.
Lemma n_big : 2 < n. Proof. exact (ge_n3 _ _ D). Qed.
Lemma export_eq x : xsc_export p c x = of_scalar x. Proof. unfold xsc_export. rewrite (xssize_eq p d D c C). reflexivity. Qed.
Lemma import_eq s : sized s -> xsc_import p c s = if le_val s <? n then (le_val s, true) else (0, false).
Proof. intros (B & L). unfold xsc_import. rewrite (raw_eq p d D c C), firstn_all2, (ex_n _ _ _ C) by lia. reflexivity. Qed.
Lemma import_key s : rkey s -> xsc_import p c s = (le_val s, true).
Proof. intros (S & R). rewrite (import_eq s S), (proj2 (Z.ltb_lt _ _) R). reflexivity. Qed.
(* C92: scalars below n and keys are the same thing *)
Theorem C92_keys : (forall x, 0 <= x < n -> rkey (of_scalar x) /\ le_val (of_scalar x) = x) /\ (forall s, rkey s -> 0 <= le_val s < n /\ of_scalar (le_val s) = s).
Proof.
  split.
  - intros x R. pose proof (val_export p d D c C x R) as V. rewrite export_eq in V. unfold rkey, sized. rewrite V. unfold of_scalar at 1 2. rewrite le_bytes_length. pose proof (le_bytes_bytes (octs P) x). repeat split; [assumption|lia].
  - intros s ((B & L) & R). pose proof (le_val_range s B). unfold of_scalar. rewrite <- L, le_bytes_le_val by exact B. split; [lia|reflexivity].
Qed.
(* C92: verify, is_zero and export *)
Theorem C92_verify s : sized s -> (ristretto_privkey_verify p c s = true <-> le_val s < n) /\ (ristretto_privkey_is_zero p c s = true <-> le_val s = 0) /\
  ristretto_privkey_export p c s = (if le_val s <? n then s else of_scalar 0, le_val s <? n).
Proof.
  intros S. pose proof S as (B & L). unfold ristretto_privkey_verify, ristretto_privkey_is_zero, ristretto_privkey_export. rewrite (import_eq s S), (xssize_eq p d D c C), firstn_all2 by lia. split; [|split].
  - destruct (Z.ltb_spec (le_val s) n); cbn [snd]; split; intros; try reflexivity; try discriminate; lia.
  - clear S L. induction s as [|x s IH]; [split; reflexivity|]. apply bytes_cons in B. destruct B as (Bx & B). specialize (IH B). pose proof (le_val_range s B) as R. unfold byte in Bx. cbn [forallb]. rewrite andb_true_iff, Z.eqb_eq, IH, le_val_cons. lia.
  - destruct (Z.ltb_spec (le_val s) n) as [R|R]; rewrite export_eq; [|reflexivity]. rewrite (proj2 (proj2 C92_keys s (conj S R))). reflexivity.
Qed.
(* C92: sums, products, negation and inverses modulo n; products are refused exactly when they are zero, so when a factor is *)
Theorem C92_arith s t : rkey s -> rkey t ->
  ristretto_privkey_tweak_add p c s t = (of_scalar ((le_val s + le_val t) mod n), true) /\
  ristretto_privkey_tweak_mul p c s t = (of_scalar ((le_val s * le_val t) mod n), negb ((le_val s =? 0) || (le_val t =? 0))) /\
  ristretto_privkey_negate p c s = (of_scalar ((- le_val s) mod n), true) /\
  exists i, ristretto_privkey_invert p c s = (of_scalar i, true) /\ 0 <= i < n /\ (le_val s = 0 -> i = 0) /\ (le_val s <> 0 -> (le_val s * i) mod n = 1).
Proof.
  intros S T. pose proof n_big as N. destruct (proj2 C92_keys s S) as (Rs & _). destruct (proj2 C92_keys t T) as (Rt & _).
  unfold ristretto_privkey_tweak_add, ristretto_privkey_tweak_mul, ristretto_privkey_negate, ristretto_privkey_invert. rewrite (import_key s S), (import_key t T), !export_eq, (ex_n _ _ _ C). cbv zeta. split; [reflexivity|]. split; [|split].
  - unfold sc_mul. f_equal. cbn [andb]. f_equal. destruct (Z.eqb_spec (le_val s) 0) as [->|Zs]; [rewrite Z.mul_0_l, Z.mod_0_l by lia; reflexivity|]. destruct (Z.eqb_spec (le_val t) 0) as [->|Zt]; [rewrite Z.mul_0_r, Z.mod_0_l by lia; reflexivity|].
    cbn [orb]. apply Z.eqb_neq. intros E. apply Z.mod_divide in E; [|lia]. apply prime_mult in E; [|exact (ge_n _ _ D)]. destruct E as [E|E]; apply Z.divide_pos_le in E; lia.
  - f_equal. f_equal. unfold sc_neg. destruct (Z.eqb_spec (le_val s) 0) as [->|Zs]; [rewrite Z.mod_0_l by lia; reflexivity|]. rewrite Z.mod_opp_l_nz, Z.mod_small by (try rewrite Z.mod_small; lia). reflexivity.
  - unfold sc_invert. cbn [fst]. rewrite powm_eq by lia. exists (le_val s ^ (n - 2) mod n). split; [reflexivity|]. split; [apply Z.mod_pos_bound; lia|]. split.
    + intros ->. rewrite Z.pow_0_l by lia. apply Z.mod_0_l. lia.
    + intros Zs. rewrite Z.mul_mod_idemp_r by lia. replace (le_val s * le_val s ^ (n - 2)) with (le_val s ^ (n - 1)); [apply fermat; [exact (ge_n _ _ D)|]; rewrite Z.mod_small; lia|]. replace (n - 1) with (Z.succ (n - 2)) by lia. rewrite Z.pow_succ_r by lia. reflexivity.
Qed.
(* C92: what is not below n is refused everywhere *)
Theorem C92_refused s t : sized s -> sized t -> n <= le_val s \/ n <= le_val t -> snd (ristretto_privkey_tweak_add p c s t) = false /\ snd (ristretto_privkey_tweak_mul p c s t) = false /\
  (n <= le_val s -> snd (ristretto_privkey_negate p c s) = false /\ snd (ristretto_privkey_invert p c s) = false).
Proof.
  intros S T H. unfold ristretto_privkey_tweak_add, ristretto_privkey_tweak_mul, ristretto_privkey_negate, ristretto_privkey_invert. rewrite (import_eq s S), (import_eq t T).
  destruct (Z.ltb_spec (le_val s) n), (Z.ltb_spec (le_val t) n); cbn [snd andb]; try (exfalso; lia); repeat split; intros; lia.
Qed.
(* C92: octets of any length are read as a little endian number, and refused exactly when it is not below n *)
Theorem C92_import raw : bytes raw -> ristretto_privkey_import p c raw = (of_scalar (if le_val raw <? n then le_val raw else 0), le_val raw <? n).
Proof.
  intros B. unfold ristretto_privkey_import, xsc_import_pad. rewrite (xssize_eq p d D c C). assert (Br : bytes (rev raw)) by (apply Forall_rev; exact B). destruct (drop_pad_ok (octs P) (rev raw) Br) as (B1 & V & L).
  set (r := drop_pad (octs P) (rev raw)) in *. unfold be_val in V, L. rewrite rev_involutive in V, L. change (dval 256) with le_val in V, L. rewrite rev_length. pose proof (n_lt p d D) as NL.
  destruct (Nat.ltb_spec (octs P) (length r)) as [H|H]; [specialize (L H); rewrite (proj2 (Z.ltb_ge (le_val raw) n)) by lia; rewrite export_eq; reflexivity|].
  unfold xsc_import. rewrite (raw_eq p d D c C), firstn_all2, V, (ex_n _ _ _ C) by (rewrite rev_length; lia). destruct (le_val raw <? n); rewrite export_eq; reflexivity.
Qed.
(* C92: twice as many octets are reduced modulo n *)
Theorem C92_from_uniform raw : length raw = (2 * octs P)%nat -> ristretto_privkey_from_uniform p c raw = Ok (of_scalar (le_val raw mod n)).
Proof.
  intros L. unfold ristretto_privkey_from_uniform, xsc_wide. pose proof (xssize_eq p d D c C) as E. rewrite E, firstn_all2 by lia. unfold xssize in E. pose proof (Nat.mul_div_le (xsbits p c + 7) 8 ltac:(lia)) as M1. pose proof (Nat.mul_succ_div_gt (xsbits p c + 63) 64 ltac:(lia)) as M2.
  rewrite (proj2 (Nat.leb_le _ _)), (ex_n _ _ _ C) by (rewrite E in M1; lia). cbn [of_opt bind]. rewrite export_eq. reflexivity.
Qed.
(* C92: generation gives the first draw in range *)
Definition draw_len : nat := ((sc_bitlen n + 63) / 64 * 8)%nat.
Fixpoint state (i : nat) (st : list Z * list Z) : list Z * list Z := match i with O => st | S i => state i (snd (HMAC_Generate SHA256 st draw_len [])) end.
Definition draw (entropy : list Z) (i : nat) : Z := le_val (fst (HMAC_Generate SHA256 (state i (HMAC_Instantiate SHA256 (firstn 32 entropy))) draw_len [])) mod 2 ^ blen n.
Theorem C92_generate rf entropy : bytes entropy ->
  match ristretto_privkey_generate p rf c entropy with
  | Ok out => exists k, (k < rf)%nat /\ 0 < draw entropy k < n /\ out = of_scalar (draw entropy k) /\ forall j, (j < k)%nat -> ~ 0 < draw entropy j < n
  | Fail => forall j, (j < rf)%nat -> ~ 0 < draw entropy j < n
  | Abort => False
  end.
Proof.
  intros B. unfold ristretto_privkey_generate. destruct (hd_init SHA256 (firstn 32 entropy)) as (rng & -> & I); [split; [apply bytes_firstn; exact B|rewrite firstn_length; unfold M64; lia]|]. cbn [bind].
  assert (E : forall i st, state i st = GrindProof.gstate draw_len i st) by (induction i as [|i IH]; intros st; [reflexivity|apply IH]).
  assert (V : forall i, draw entropy i = le_val (GrindProof.gdraw draw_len i (HMAC_Instantiate SHA256 (firstn 32 entropy))) mod 2 ^ blen n) by (intros i; unfold draw; rewrite E; reflexivity).
  pose proof (GrindProof.random_exact (xsbits p c) (x_n p c) rf _ rng I) as H. cbv zeta in H. rewrite (xsbits_eq p d c C), (ex_n _ _ _ C) in *. fold draw_len in H. rewrite (sc_bitlen_blen n) in H by (pose proof n_big; lia).
  destruct (sc_random rf n (sc_bitlen n) rng) as [[z r]|].
  - destruct H as (k & K & -> & R & F). exists k. rewrite export_eq, V. split; [exact K|]. split; [exact R|]. split; [reflexivity|]. intros j J. rewrite V. exact (F j J).
  - intros j J. rewrite V. exact (H j J).
Qed.
(* ---- the search: e is the encoding of points that ex computes ---- *)
Variable w : Z.
Variable ex : xge p -> list Z.
Variable e : fe p * fe p -> list Z.
Hypothesis EX : forall q Q, point q Q -> ex q = e Q.
Lemma base_rep : xaffine p (k_a p d) (k_d p d) (x_g p c) G.
Proof.
  assert (EG : x_g p c = MkX (k_x p d) (k_y p d) f1 (fe_mul (k_x p d) (k_y p d))).
  { clear EX. induction X as [c0 E|c0 b X0 IH R]; [|exact (IH X0)]. unfold edwards_init in E. destruct (xge_fixed_points _ _ _ _ _); [|discriminate E]. destruct (xge_fixed_naf_points _ _ _ _ _); [|discriminate E].
    assert (EE : forall u v : edw p, Some u = Some v -> u = v) by congruence. apply EE in E. subst c0. reflexivity. }
  rewrite EG. assert (M : forall x : fe p, fe_mul x f1 = x) by (intros x; apply fe_eq; apply (f_equal fv); pose proof (ring_th p) as T; destruct T as [_ _ _ M1 MC _ _ _ _]; rewrite MC; apply M1).
  split; [|reflexivity]. split; [exact (ge_on _ _ D)|]. cbn [xx xy xz xt fst snd base]. rewrite !M. repeat split. exact (f1_nz p (ge_p _ _ D)).
Qed.
(* the first candidate that is taken *)
Definition first_taken (check : list Z -> bool) (A : fe p * fe p) (k : Z) : Prop := 1 <= k /\ check (e (add A (nmul k G))) = true /\ forall j, 1 <= j < k -> check (e (add A (nmul j G))) = false.
Lemma loop_ok check : forall fuel A Q t counter, point A Q ->
  match ristretto_grind_loop p w fuel c ex check A t counter with
  | Ok r => exists k, k <= Z.of_nat fuel /\ first_taken check Q k /\ r = (t + counter + k) mod n
  | Fail => forall j, 1 <= j <= Z.of_nat fuel -> check (e (add Q (nmul j G))) = false
  | Abort => False
  end.
Proof.
  pose proof (laws p (ge_p _ _ D) (k_a p d) (k_d p d) (ge_c _ _ D)) as L. pose proof (ge_on _ _ D : on G) as OG. pose proof n_big as N.
  induction fuel as [|fuel IH]; intros A Q t counter PA; cbn [ristretto_grind_loop]; [intros j J; lia|]. cbv zeta. pose proof (Xmadd p d D c C A (x_g p c) Q G PA base_rep) as PB. pose proof (proj1 PA) as OQ.
  change (point (xmadd p c A (x_g p c)) (add Q G)) in PB. set (B := xmadd p c A (x_g p c)) in *. rewrite (ex_n _ _ _ C).
  assert (N1 : nmul 1 G = G) by exact (zm_1 _ _ _ _ _ L G OG). assert (Sh : forall j, add (add Q G) (nmul j G) = add Q (nmul (j + 1) G)).
  { intros j. rewrite Z.add_comm. rewrite (zm_add _ _ _ _ _ L 1 j G OG : nmul (1 + j) G = add (nmul 1 G) (nmul j G)), N1. exact (gl_assoc _ _ _ _ _ L Q G (nmul j G) OQ OG (zm_on _ _ _ _ _ L j G OG)). }
  set (tc := if counter + 1 =? 2 ^ w - 1 then (sc_add n t (counter + 1), 0) else (t, counter + 1)).
  assert (T : (fst tc + snd tc) mod n = (t + counter + 1) mod n) by (unfold tc, sc_add; destruct (counter + 1 =? 2 ^ w - 1); cbn [fst snd]; [rewrite Z.add_0_r, Z.mod_mod by lia|]; f_equal; lia).
  destruct tc as [t' counter']. cbn [fst snd] in T. rewrite (EX _ _ PB). destruct (check (e (add Q G))) eqn:Ch.
  - exists 1. split; [lia|]. split; [|unfold sc_add; rewrite T; f_equal; lia]. split; [lia|]. split; [rewrite N1; exact Ch|]. intros j J. lia.
  - specialize (IH B (add Q G) t' counter' PB). destruct (ristretto_grind_loop p w fuel c ex check B t' counter') as [r| |].
    + destruct IH as (k & K & (K1 & Tk & F) & ->). exists (k + 1). split; [lia|]. split.
      * split; [lia|]. split; [rewrite <- Sh; exact Tk|]. intros j J. destruct (Z.eq_dec j 1) as [->|J1]; [rewrite N1; exact Ch|]. replace j with (j - 1 + 1) by lia. rewrite <- Sh. apply F. lia.
      * rewrite Z.add_mod, T, <- Z.add_mod by lia. f_equal. lia.
    + intros j J. destruct (Z.eq_dec j 1) as [->|J1]; [rewrite N1; exact Ch|]. replace j with (j - 1 + 1) by lia. rewrite <- Sh. apply IH. lia.
    + exact IH.
Qed.
(* C92: the search stops at the first candidate that is taken, but its result is off by what was in memory *)
Theorem C92_grind_partial fuel check A Q t0 : point A Q ->
  match ristretto_point_grind p w fuel c ex check A t0 with
  | Ok tweak => exists k, k <= Z.of_nat fuel /\ first_taken check Q k /\ tweak = of_scalar ((t0 + k) mod n)
  | Fail => forall j, 1 <= j <= Z.of_nat fuel -> check (e (add Q (nmul j G))) = false
  | Abort => False
  end.
Proof.
  intros PA. unfold ristretto_point_grind. pose proof (loop_ok check fuel A Q t0 0 PA) as H. destruct (ristretto_grind_loop p w fuel c ex check A t0 0) as [r| |]; cbn [bind]; try exact H.
  destruct H as (k & K & F & ->). exists k. split; [exact K|]. split; [exact F|]. rewrite export_eq. f_equal. f_equal. lia.
Qed.
(* C92: only with zeros in memory is the tweak the one of a key that is taken *)
Theorem C92_grind_zero_partial fuel check A Q tweak : point A Q -> ristretto_point_grind p w fuel c ex check A 0 = Ok tweak -> rkey tweak /\ check (e (add Q (nmul (le_val tweak) G))) = true.
Proof.
  intros PA E. pose proof (C92_grind_partial fuel check A Q 0 PA) as H. rewrite E in H. destruct H as (k & _ & (_ & Tk & _) & ->). rewrite Z.add_0_l. pose proof n_big. destruct (proj1 C92_keys (k mod n)) as (RK & V); [apply Z.mod_pos_bound; lia|]. split; [exact RK|]. rewrite V.
  replace (nmul (k mod n) G) with (nmul k G); [exact Tk|]. symmetry. exact (zm_mod _ _ _ _ _ (laws p (ge_p _ _ D) (k_a p d) (k_d p d) (ge_c _ _ D)) k n G (ge_on _ _ D) (ge_ord _ _ D)).
Qed.
End C.
(* ---- on the curve of C68, with the octets of EdDSA as the encoding ---- *)
Definition ex29 (q : xge p29) : list Z := match xge_export p29 q with Some o => o | None => [] end.
Definition grind29 (check : list Z -> bool) (t0 : Z) (c : edw p29) : outcome (list Z) := ristretto_point_grind p29 64 10 c ex29 check (x_g p29 c) t0.
Definition take3 (o : list Z) : bool := nth 0 o 0 =? 3.
Lemma ex29_ok q Q : xpoint p29 (e29 28) (e29 2) q Q -> ex29 q = enc p29 Q.
Proof. intros H. unfold ex29. rewrite (rep_export p29 d29 d29_good q Q H). reflexivity. Qed.
(* the octets of 3 G are [3]: from G the search stops at 2, and gives 2 with zeros in memory, 3 with a one *)
Example C92_grind_ex : exists c, ed_context p29 d29 c /\ map (fun t0 => grind29 take3 t0 c) [0; 1; 6] = [Ok [2]; Ok [3]; Ok [1]] /\ map (fun k => ex29 (xmul_g p29 c k)) [1; 2; 3; 4] = [[22]; [19]; [3]; [131]].
Proof. destruct init29 as (naf & E). exists (c29 naf). split; [constructor; exact E|]. vm_compute. split; reflexivity. Qed.
(* keys are one octet below 7 *)
Example C92_keys_ex : exists c, ed_context p29 d29 c /\ map (ristretto_privkey_verify p29 c) [[0]; [6]; [7]; [255]] = [true; true; false; false] /\
  (ristretto_privkey_tweak_add p29 c [5] [4], ristretto_privkey_tweak_mul p29 c [5] [4], ristretto_privkey_tweak_mul p29 c [0] [4], ristretto_privkey_negate p29 c [5], ristretto_privkey_invert p29 c [5], ristretto_privkey_tweak_add p29 c [7] [4]) =
  (([2], true), ([6], true), ([0], false), ([2], true), ([3], true), ([4], false)) /\
  map (ristretto_privkey_import p29 c) [[]; [6; 0; 0]; [6; 1]; [7]] = [([0], true); ([6], true); ([0], false); ([0], false)] /\ ristretto_privkey_from_uniform p29 c [10; 1] = Ok [0] /\ ristretto_privkey_is_zero p29 c [0] = true.
Proof. destruct init29 as (naf & E). exists (c29 naf). split; [constructor; exact E|]. vm_compute. repeat split; reflexivity. Qed.
(* C92: ristretto_pubkey_grind does not set t before it adds to it (14614-14636, unlike 10759 and 12119): what it returns need not give a key
   that the callback takes *)
Theorem C92_grind_refuted : exists p d c w ex check A Q t0 tweak, good_ed p d /\ ed_context p d c /\ (forall q R, xpoint p (k_a p d) (k_d p d) q R -> ex q = enc p R) /\ xpoint p (k_a p d) (k_d p d) A Q /\ 0 <= t0 < k_n p d /\
  ristretto_point_grind p w 10 c ex check A t0 = Ok tweak /\ check (enc p (add p (k_a p d) (k_d p d) Q (nmul p (k_a p d) (k_d p d) (le_val tweak) (base p d)))) = false.
Proof.
  destruct init29 as (naf & E). assert (Xc : ed_context p29 d29 (c29 naf)) by (constructor; exact E).
  exists p29, d29, (c29 naf), 64, ex29, take3, (x_g p29 (c29 naf)), (base p29 d29), 1, [3].
  split; [exact d29_good|]. split; [exact Xc|]. split; [exact ex29_ok|]. split; [exact (proj1 (base_rep p29 d29 d29_good (c29 naf) Xc))|]. split; [vm_compute; split; [discriminate|reflexivity]|]. split; vm_compute; reflexivity.
Qed.

(* the axioms of every theorem above, listed at once *)
Definition RistrettoKeysProps_all := (@C92_keys, @C92_verify, @C92_arith, @C92_refused, @C92_import, @C92_from_uniform, @C92_generate, @C92_grind_partial,
  @C92_grind_zero_partial, @C92_grind_refuted).
Print Assumptions RistrettoKeysProps_all.
