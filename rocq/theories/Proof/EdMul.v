(* Edwards scalar multiplication: the window, NAF, joint sparse form and fixed base algorithms all compute multiples. *)
From Verif.Base Require Import Prelude.
From Coq Require Import Znumtheory.
From Verif.Model Require Import NumTheory Field EcScalar Edwards.
From Verif.Spec Require Import EcSpec EdSpec.
From Verif.Proof Require Import Cong FieldProof GrpMul EcScalarProof EdGroup EdProof.
From Verif.Proof Require WeiMul.
Local Notation bitlen_fits := WeiMul.bitlen_fits.
Local Notation get4 := WeiMul.get4.
Lemma nsteps_cover bits k : 0 <= k < 2 ^ Z.of_nat bits -> k / 16 ^ Z.of_nat (xnsteps bits) = 0.
Proof. exact (WeiMul.nsteps_cover bits k). Qed.
Section P.
Variable p : positive.
Hypothesis Pp : prime (Zpos p).
Hypothesis P3 : 2 < Zpos p.
Local Notation fe := (Field.fe p).
Variables a dd : fe.
Hypothesis KC : complete fe f0 f1 fe_add fe_mul a dd.
Local Notation on := (eon p a dd).
Local Notation add := (eadd p a dd).
Local Notation neg := (eneg p).
Local Notation zero := (ezero p).
Local Notation xrep := (xrep p a dd).
Local Notation arep := (arep p a dd).
Local Notation pt := (fe * fe)%type.
Definition zm : Z -> pt -> pt := zmul pt add zero neg.
Definition L : group_laws pt on add zero neg := laws p Pp a dd KC.
Lemma a_zl P : on P -> add zero P = P. Proof. exact (gl_id _ _ _ _ _ L P). Qed.
Lemma m_on k P : on P -> on (zm k P). Proof. exact (zm_on _ _ _ _ _ L k P). Qed.
Lemma m_add i j P : on P -> zm (i + j) P = add (zm i P) (zm j P). Proof. exact (zm_add _ _ _ _ _ L i j P). Qed.
Lemma m_mul i j P : on P -> zm (i * j) P = zm i (zm j P). Proof. exact (zm_mul _ _ _ _ _ L i j P). Qed.
Lemma m_op k P Q : on P -> on Q -> zm k (add P Q) = add (zm k P) (zm k Q). Proof. exact (zm_op _ _ _ _ _ L k P Q). Qed.
Lemma m_neg k P : on P -> zm (- k) P = neg (zm k P). Proof. exact (zm_neg _ _ _ _ _ L k P). Qed.
Lemma m_1 P : on P -> zm 1 P = P. Proof. exact (zm_1 _ _ _ _ _ L P). Qed.
Lemma m_0 P : zm 0 P = zero. Proof. reflexivity. Qed.
Lemma m_e k : zm k zero = zero. Proof. exact (zm_e _ _ _ _ _ L k). Qed.
Lemma m_mod k n P : on P -> zm n P = zero -> zm (k mod n) P = zm k P. Proof. exact (zm_mod _ _ _ _ _ L k n P). Qed.
Lemma a_on P Q : on P -> on Q -> on (add P Q). Proof. exact (gl_op _ _ _ _ _ L P Q). Qed.
Lemma a_inf P : on P -> add P zero = P. Proof. exact (id_r _ _ _ _ _ L P). Qed.
Lemma a_comm P Q : on P -> on Q -> add P Q = add Q P. Proof. exact (gl_comm _ _ _ _ _ L P Q). Qed.
Lemma a_assoc P Q R : on P -> on Q -> on R -> add (add P Q) R = add P (add Q R). Proof. exact (gl_assoc _ _ _ _ _ L P Q R). Qed.
Lemma a_swap P Q R S : on P -> on Q -> on R -> on S -> add (add P Q) (add R S) = add (add P R) (add Q S). Proof. exact (swap4 _ _ _ _ _ L P Q R S). Qed.
Lemma n_on P : on P -> on (neg P). Proof. exact (gl_inv _ _ _ _ _ L P). Qed.
Lemma on_inf : on zero. Proof. exact (on_zero p a dd). Qed.
Lemma m_2 P : on P -> zm 2 P = add P P. Proof. intros H. change 2 with (1 + 1). rewrite m_add, m_1 by exact H. reflexivity. Qed.
Local Hint Resolve on_inf m_on a_on n_on rep_on : ec.
(* the formulas, in this section's terms *)
Lemma Jdbl q P : xrep q P -> xrep (xge_dbl p a q) (add P P). Proof. exact (dbl_rep p Pp a dd KC q P). Qed.
Lemma Jadd q r P Q : xrep q P -> xrep r Q -> xrep (xge_add p a dd q r) (add P Q). Proof. exact (add_rep p Pp a dd KC q r P Q). Qed.
Lemma Jsub q r P Q : xrep q P -> xrep r Q -> xrep (xge_sub p a dd q r) (add P (neg Q)). Proof. exact (sub_rep p Pp a dd KC q r P Q). Qed.
Lemma Jmadd q r P Q : xrep q P -> arep r Q -> xrep (xge_mixed_add p a dd q r) (add P Q). Proof. exact (madd_rep p Pp a dd KC q r P Q). Qed.
Lemma Jmsub q r P Q : xrep q P -> arep r Q -> xrep (xge_mixed_sub p a dd q r) (add P (neg Q)). Proof. exact (msub_rep p Pp a dd KC q r P Q). Qed.
(* ---- lookups ---- *)
Lemma jsel t q f : xge_select p t q f = if f then q else t.
Proof. destruct t, q, f; reflexivity. Qed.
Lemma xge_lookup_ok d wnd : forall t j i, j <= i < j + Z.of_nat (length wnd) -> xge_lookup p t wnd j i = nth (Z.to_nat (i - j)) wnd d.
Proof.
  assert (K : forall wnd t j i, i < j -> xge_lookup p t wnd j i = t).
  { induction wnd0 as [|q w IH]; intros t j i H; cbn [xge_lookup]; [reflexivity|]. rewrite jsel. destruct (Z.eqb_spec j i); [lia|]. apply IH. lia. }
  induction wnd as [|q w IH]; intros t j i H; cbn [length xge_lookup] in *; [lia|]. rewrite jsel. destruct (Z.eqb_spec j i) as [->|N].
  - rewrite K by lia. rewrite Z.sub_diag. reflexivity.
  - rewrite IH by lia. replace (Z.to_nat (i - j)) with (S (Z.to_nat (i - (j + 1)))) by lia. reflexivity.
Qed.
Lemma dbl4 q P : xrep q P -> on P -> xrep (Nat.iter 4 (xge_dbl p a) q) (zm 16 P).
Proof.
  intros H O. cbn [Nat.iter]. change 16 with (2 * (2 * (2 * 2))). rewrite !m_mul, !m_2 by (auto 10 with ec). repeat apply Jdbl. exact H.
Qed.
(* ---- the constant time window ---- *)
Definition jtable (wnd : list (xge p)) (P : pt) : Prop := forall j, (j < length wnd)%nat -> xrep (nth j wnd (xge_zero p)) (zm (Z.of_nat j) P).
Lemma wnd_pairs_ok q P cnt : xrep q P -> on P -> forall i wnd, length wnd = i -> Nat.even i = true -> (2 <= i)%nat -> jtable wnd P ->
  length (xwnd_pairs p a dd wnd q i cnt) = (i + 2 * cnt)%nat /\ jtable (xwnd_pairs p a dd wnd q i cnt) P.
Proof.
  intros W O. induction cnt as [|c IH]; intros i wnd Li Ev Hi T; cbn [xwnd_pairs]; [split; [lia|exact T]|].
  set (d := xge_dbl p a (nth (i / 2) wnd (xge_zero p))). apply Nat.even_spec in Ev. destruct Ev as [e Ev].
  assert (I2 : (i / 2 = e)%nat) by (rewrite Ev, Nat.mul_comm; apply Nat.div_mul; lia).
  assert (D : xrep d (zm (Z.of_nat i) P)).
  { unfold d. replace (Z.of_nat i) with (Z.of_nat e + Z.of_nat e) by lia. rewrite m_add by exact O. apply Jdbl. rewrite I2. apply T. lia. }
  edestruct (IH (i + 2)%nat (wnd ++ [d; xge_add p a dd d q])) as [IL IT].
  - rewrite app_length. cbn [length]. lia.
  - apply Nat.even_spec. exists (S e). lia.
  - lia.
  - intros j Hj. rewrite app_length in Hj. cbn [length] in Hj. destruct (lt_dec j i) as [J|J].
    + rewrite app_nth1 by lia. apply T. lia.
    + rewrite app_nth2 by lia. assert (j = i \/ j = S i) as [-> | ->] by lia.
      * rewrite Li, Nat.sub_diag. exact D.
      * replace (S i - length wnd)%nat with 1%nat by lia. cbn [nth]. replace (Z.of_nat (S i)) with (Z.of_nat i + 1) by lia. rewrite m_add, m_1 by exact O. apply Jadd; assumption.
  - split; [lia|exact IT].
Qed.
Lemma window_ok q P : xrep q P -> length (edwards_window p a dd q) = 16%nat /\ jtable (edwards_window p a dd q) P.
Proof.
  intros W. pose proof (rep_on _ _ _ _ _ W) as O. unfold edwards_window. apply (wnd_pairs_ok q P 7 W O 2); try reflexivity; try lia.
  intros j Hj. cbn [length] in Hj. assert (j = 0%nat \/ j = 1%nat) as [-> | ->] by lia; cbn [nth].
  - exact (zero_rep p Pp a dd).
  - change (Z.of_nat 1) with 1. rewrite m_1 by exact O. exact W.
Qed.
Lemma jmul_loop_ok wnd P k i : length wnd = 16%nat -> jtable wnd P -> on P -> forall r t first, xrep r (zm (k / 16 ^ Z.of_nat i) P) -> (first = true -> k / 16 ^ Z.of_nat i = 0) ->
  xrep (edwards_mul_loop p a dd wnd k r t first i) (zm k P).
Proof.
  intros Lw T O. induction i as [|i IH]; intros r t first R F; cbn [edwards_mul_loop].
  - change (16 ^ Z.of_nat 0) with 1 in R. rewrite Z.div_1_r in R. exact R.
  - destruct (get4 k i) as [B E]. set (d := sc_get_bits k (i * 4) 4) in *. clearbody d.
    rewrite (xge_lookup_ok (xge_zero p)) by (rewrite Lw; lia). rewrite Z.sub_0_r.
    assert (TD : xrep (nth (Z.to_nat d) wnd (xge_zero p)) (zm d P)). { rewrite <- (Z2Nat.id d) at 2 by lia. apply T. rewrite Lw. lia. }
    apply IH; [|discriminate]. rewrite E. destruct first.
    + rewrite (F eq_refl). exact TD.
    + rewrite m_add, m_mul by exact O. apply Jadd; [|exact TD]. apply dbl4; [exact R|]. apply m_on. exact O.
Qed.
Theorem edwards_mul_ok sbits q P k : 0 <= k < 2 ^ Z.of_nat sbits -> xrep q P -> xrep (edwards_mul p a dd sbits q k) (zm k P).
Proof.
  intros K W. destruct (window_ok q P W) as [Lw T]. pose proof (rep_on _ _ _ _ _ W) as O. pose proof (nsteps_cover sbits k K) as Z. unfold edwards_mul. apply jmul_loop_ok; try assumption.
  - rewrite Z. exact (zero_rep p Pp a dd).
  - intros _. exact Z.
Qed.
(* the digits above the walked ones are not seen *)
Lemma get4_mod k s i : (i < s)%nat -> sc_get_bits (k mod 16 ^ Z.of_nat s) (i * 4) 4 = sc_get_bits k (i * 4) 4.
Proof.
  intros L. unfold sc_get_bits. replace (2 ^ Z.of_nat (i * 4)) with (16 ^ Z.of_nat i). 2:{ replace (Z.of_nat (i * 4)) with (4 * Z.of_nat i) by lia. rewrite Z.pow_mul_r by lia. reflexivity. }
  change (2 ^ 4) with 16. pose proof (Z.pow_pos_nonneg 16 (Z.of_nat i) eq_refl ltac:(lia)) as A. pose proof (Z.pow_pos_nonneg 16 (Z.of_nat (s - S i)) eq_refl ltac:(lia)) as B.
  replace (Z.of_nat s) with (Z.of_nat i + (1 + Z.of_nat (s - S i))) by lia. rewrite !Z.pow_add_r, Z.pow_1_r by lia. set (u := 16 ^ Z.of_nat i) in *. set (w := 16 ^ Z.of_nat (s - S i)) in *. clearbody u w.
  rewrite Z.rem_mul_r by lia. rewrite (Z.mul_comm u), Z.div_add by lia. rewrite (Z.div_small (k mod u)) by (apply Z.mod_pos_bound; exact A). rewrite Z.add_0_l. rewrite Z.rem_mul_r by lia. rewrite (Z.mul_comm 16), Z.mod_add by lia. apply Z.mod_mod. lia.
Qed.
Lemma mul_loop_mod wnd k s i : (i <= s)%nat -> forall r t first, edwards_mul_loop p a dd wnd (k mod 16 ^ Z.of_nat s) r t first i = edwards_mul_loop p a dd wnd k r t first i.
Proof.
  induction i as [|i IH]; intros L r t first; cbn [edwards_mul_loop]; [reflexivity|]. rewrite get4_mod by lia. apply IH. lia.
Qed.
Theorem edwards_mul_any sbits q P k : xrep q P -> xrep (edwards_mul p a dd sbits q k) (zm (k mod 16 ^ Z.of_nat (xnsteps sbits)) P).
Proof.
  intros W. destruct (window_ok q P W) as [Lw T]. pose proof (rep_on _ _ _ _ _ W) as O. unfold edwards_mul. rewrite <- (mul_loop_mod _ k (xnsteps sbits)) by lia.
  assert (Z : (k mod 16 ^ Z.of_nat (xnsteps sbits)) / 16 ^ Z.of_nat (xnsteps sbits) = 0) by (apply Z.div_small; apply Z.mod_pos_bound; apply Z.pow_pos_nonneg; lia). apply jmul_loop_ok; try assumption.
  - rewrite Z. exact (zero_rep p Pp a dd).
  - intros _. exact Z.
Qed.
(* ---- fixed base windows ---- *)
Definition gtable (wnds : list (xge p)) (steps : nat) (P : pt) : Prop :=
  length wnds = (16 * steps)%nat /\ forall i j, (i < steps)%nat -> (j < 16)%nat -> arep (nth (i * 16 + j) wnds (xge_zero p)) (zm (16 ^ Z.of_nat i * Z.of_nat j) P).
Lemma nth_firstn {A} (l : list A) d n i : (i < n)%nat -> nth i (firstn n l) d = nth i l d.
Proof. revert l i. induction n as [|n IH]; intros [|x l] [|i] H; try reflexivity; try lia. cbn. apply IH. lia. Qed.
Lemma nth_skipn {A} (l : list A) d n i : nth i (skipn n l) d = nth (n + i) l d.
Proof. revert l. induction n as [|n IH]; intros [|x l]; cbn; try reflexivity; [destruct i; reflexivity|apply IH]. Qed.
Lemma jmul_g_loop_ok wnds steps P k0 cnt : gtable wnds steps P -> on P -> 0 <= k0 -> forall i r t R, (i + cnt = steps)%nat -> xrep r R -> on R ->
  xrep (edwards_mul_g_loop p a dd wnds k0 r t i cnt) (add R (zm (16 ^ Z.of_nat i * ((k0 / 16 ^ Z.of_nat i) mod 16 ^ Z.of_nat cnt)) P)).
Proof.
  intros [Lw T] O K. induction cnt as [|c IH]; intros i r t R Hi HR OR; cbn [edwards_mul_g_loop].
  - change (16 ^ Z.of_nat 0) with 1. rewrite Z.mod_1_r, Z.mul_0_r, m_0, a_inf by exact OR. exact HR.
  - destruct (get4 k0 i) as [B E]. set (d := sc_get_bits k0 (i * 4) 4) in *. clearbody d.
    rewrite (xge_lookup_ok (xge_zero p)). 2:{ rewrite firstn_length, skipn_length, Lw. lia. }
    rewrite Z.sub_0_r, nth_firstn, nth_skipn by lia.
    assert (TD : arep (nth (i * 16 + Z.to_nat d) wnds (xge_zero p)) (zm (16 ^ Z.of_nat i * d) P)). { rewrite <- (Z2Nat.id d) at 2 by lia. apply T; lia. }
    set (t' := nth _ _ _) in *. clearbody t'. pose proof (IH (S i) (xge_mixed_add p a dd r t') t' (add R (zm (16 ^ Z.of_nat i * d) P)) ltac:(lia) (Jmadd _ _ _ _ HR TD) ltac:(auto with ec)) as H.
    rewrite a_assoc in H by auto with ec. rewrite <- m_add in H by exact O. replace (16 ^ Z.of_nat i * (k0 / 16 ^ Z.of_nat i mod 16 ^ Z.of_nat (S c))) with (16 ^ Z.of_nat i * d + 16 ^ Z.of_nat (S i) * (k0 / 16 ^ Z.of_nat (S i) mod 16 ^ Z.of_nat c)); [exact H|].
    rewrite E. set (y := k0 / 16 ^ Z.of_nat (S i)). replace (Z.of_nat (S i)) with (Z.of_nat i + 1) by lia. replace (Z.of_nat (S c)) with (Z.of_nat c + 1) by lia. rewrite !Z.pow_add_r, Z.pow_1_r by lia.
    assert (M : (16 * y + d) mod (16 ^ Z.of_nat c * 16) = d + 16 * (y mod 16 ^ Z.of_nat c)).
    { assert (0 < 16 ^ Z.of_nat c) by (apply Z.pow_pos_nonneg; lia). rewrite (Z.mul_comm _ 16), Z.rem_mul_r by lia. f_equal.
      - rewrite Z.add_comm, Z.mul_comm, Z.mod_add by lia. apply Z.mod_small. exact B.
      - f_equal. f_equal. rewrite Z.add_comm, Z.mul_comm, Z.div_add by lia. rewrite (Z.div_small d) by exact B. lia. }
    rewrite M. ring.
Qed.
Theorem edwards_mul_g_ok n sbits wnds blind unblind G k : 0 < n <= 2 ^ Z.of_nat sbits -> gtable wnds (xnsteps sbits) G -> on G -> zm n G = zero -> xrep unblind (zm (- blind) G) ->
  xrep (edwards_mul_g p a dd n sbits wnds blind unblind k) (zm k G).
Proof.
  intros N T O ZG U. unfold edwards_mul_g. pose proof (Z.mod_pos_bound (k + blind) n ltac:(lia)) as B. set (k0 := (k + blind) mod n) in *.
  pose proof (jmul_g_loop_ok wnds (xnsteps sbits) G k0 (xnsteps sbits) T O ltac:(lia) 0 unblind (xge_zero p) _ ltac:(lia) U ltac:(auto with ec)) as H.
  change (16 ^ Z.of_nat 0) with 1 in H. rewrite Z.div_1_r, Z.mul_1_l in H. rewrite Z.mod_small in H.
  2:{ split; [lia|]. assert (C : k0 / 16 ^ Z.of_nat (xnsteps sbits) = 0) by (apply nsteps_cover; lia). apply Z.div_small_iff in C; [|apply Z.pow_nonzero; lia]. assert (0 < 16 ^ Z.of_nat (xnsteps sbits)) by (apply Z.pow_pos_nonneg; lia). lia. }
  unfold k0 in H at 2. rewrite m_mod, <- m_add in H by assumption. replace (- blind + (k + blind)) with k in H by ring. exact H.
Qed.
(* how the table is built *)
Lemma steps_from_ok d D cnt : xrep d D -> on D -> forall x X, xrep x X -> on X -> Forall2 xrep (xsteps_from p a dd x d cnt) (map (fun j => add X (zm (Z.of_nat j) D)) (seq 0 cnt)).
Proof.
  intros HD OD. induction cnt as [|c IH]; intros x X HX OX; cbn [xsteps_from seq map]; constructor.
  - change (Z.of_nat 0) with 0. rewrite m_0, a_inf by exact OX. exact HX.
  - rewrite <- seq_shift, map_map. replace (map _ (seq 0 c)) with (map (fun j => add (add X D) (zm (Z.of_nat j) D)) (seq 0 c)). 2:{ apply map_ext. intros j. rewrite a_assoc by auto with ec. f_equal. rewrite <- (m_1 D) at 1 by exact OD. rewrite <- m_add by exact OD. f_equal. lia. }
    apply IH; auto using Jadd with ec.
Qed.
Fixpoint win_pts (P : pt) (steps : nat) : list pt :=
  match steps with O => [] | S s => map (fun j => zm (Z.of_nat j) P) (seq 0 16) ++ win_pts (zm 16 P) s end.
Lemma fixed_windows_ok steps : forall g P, xrep g P -> on P -> Forall2 xrep (xfixed_windows p a dd g steps) (win_pts P steps).
Proof.
  induction steps as [|s IH]; intros g P H O; cbn [xfixed_windows win_pts]; [constructor|]. apply Forall2_app.
  - pose proof (steps_from_ok g P 16 H O (xge_zero p) zero (zero_rep p Pp a dd) on_inf) as F. erewrite map_ext in F; [exact F|]. intros j. apply a_zl. auto with ec.
  - apply IH; [apply dbl4; assumption|auto with ec].
Qed.
Lemma win_pts_nth steps : forall P i j, on P -> (i < steps)%nat -> (j < 16)%nat -> nth (i * 16 + j) (win_pts P steps) zero = zm (16 ^ Z.of_nat i * Z.of_nat j) P.
Proof.
  induction steps as [|s IH]; intros P i j O Hi Hj; [lia|]. cbn [win_pts]. destruct i as [|i].
  - rewrite app_nth1 by (rewrite map_length, seq_length; lia). change (16 ^ Z.of_nat 0) with 1. rewrite Z.mul_1_l. rewrite (nth_indep _ _ (zm (Z.of_nat 0) P)) by (rewrite map_length, seq_length; lia).
    rewrite (map_nth (fun j => zm (Z.of_nat j) P)), seq_nth by lia. reflexivity.
  - rewrite app_nth2 by (rewrite map_length, seq_length; lia). rewrite map_length, seq_length. replace (S i * 16 + j - 16)%nat with (i * 16 + j)%nat by lia. rewrite IH by (auto with ec; lia). rewrite <- m_mul by exact O. f_equal.
    replace (Z.of_nat (S i)) with (Z.of_nat i + 1) by lia. rewrite Z.pow_add_r, Z.pow_1_r by lia. ring.
Qed.
Lemma win_pts_length steps P : length (win_pts P steps) = (16 * steps)%nat.
Proof. revert P. induction steps as [|s IH]; intros P; cbn [win_pts]; [reflexivity|]. rewrite app_length, map_length, seq_length, IH. lia. Qed.
Lemma Forall2_nth {A B} (R : A -> B -> Prop) l l' d d' : Forall2 R l l' -> forall i, (i < length l)%nat -> R (nth i l d) (nth i l' d').
Proof. induction 1; intros [|i] H'; cbn [length nth] in *; try lia; [assumption|apply IHForall2; lia]. Qed.
Lemma Forall2_len {A B} (R : A -> B -> Prop) l l' : Forall2 R l l' -> length l = length l'.
Proof. induction 1; cbn [length]; congruence. Qed.
Theorem xge_fixed_points_ok sbits q P : xrep q P -> exists wnds, xge_fixed_points p a dd sbits q = Some wnds /\ gtable wnds (xnsteps sbits) P.
Proof.
  intros W. pose proof (rep_on _ _ _ _ _ W) as O. unfold xge_fixed_points. pose proof (fixed_windows_ok (xnsteps sbits) _ _ W O) as F.
  destruct (normalize_ok p Pp P3 a dd _ _ F) as (ws & E & G). exists ws. split; [exact E|]. pose proof (Forall2_len _ _ _ G) as LG. rewrite win_pts_length in LG. split; [exact LG|].
  intros i j Hi Hj. rewrite <- (win_pts_nth (xnsteps sbits)) by assumption. apply Forall2_nth; [exact G|]. rewrite LG. lia.
Qed.
(* ---- signed digit loops ---- *)
Fixpoint hsum (f : Z -> pt) (l : list Z) : pt := match l with [] => zero | z :: t => add (f z) (zm 2 (hsum f t)) end.
Definition digit_fn (f : Z -> pt) : Prop := f 0 = zero /\ forall z, on (f z).
Lemma hsum_on f l : digit_fn f -> on (hsum f l).
Proof. intros [_ F]. induction l as [|z t IH]; cbn [hsum]; auto with ec. Qed.
Lemma hsum_zero f l : digit_fn f -> (forall i, nth i l 0 = 0) -> hsum f l = zero.
Proof. intros [F0 _]. induction l as [|z t IH]; intros H; cbn [hsum]; [reflexivity|]. rewrite IH by (intros i; exact (H (S i))). pose proof (H O) as Z. cbn [nth] in Z. rewrite Z, F0, m_e. apply a_zl. exact on_inf. Qed.
Lemma hsum_skip f l i : digit_fn f -> hsum f (skipn i l) = add (f (nth i l 0)) (zm 2 (hsum f (skipn (S i) l))).
Proof.
  intros [F0 F]. revert l. induction i as [|i IH]; intros [|z t]; cbn [skipn hsum nth]; try reflexivity; try (rewrite F0, m_e; symmetry; apply a_zl; exact on_inf). rewrite IH. destruct t; reflexivity.
Qed.
Lemma hsum_mul P l : on P -> hsum (fun z => zm z P) l = zm (dval 2 l) P.
Proof. intros O. induction l as [|z t IH]; cbn [hsum]; [reflexivity|]. rewrite IH, <- m_mul, <- m_add by exact O. f_equal. Qed.
Lemma hsum_two (g1 g2 : Z -> Z) P Q l : on P -> on Q -> hsum (fun z => add (zm (g1 z) P) (zm (g2 z) Q)) l = add (zm (dval 2 (map g1 l)) P) (zm (dval 2 (map g2 l)) Q).
Proof.
  intros OP OQ. induction l as [|z t IH]; cbn [hsum map]; [symmetry; apply a_zl; exact on_inf|]. rewrite IH, m_op, a_swap by auto with ec. rewrite <- !m_mul, <- !m_add by assumption. reflexivity.
Qed.
Definition entry := ((Z -> pt) * list Z)%type.
Fixpoint tot (es : list entry) (g : (Z -> pt) -> list Z -> pt) : pt := match es with [] => zero | e :: t => add (g (fst e) (snd e)) (tot t g) end.
Definition ent_ok (e : entry) := digit_fn (fst e).
Definition wtab (wn : list (xge p) * list Z) (e : entry) : Prop :=
  snd wn = snd e /\ digit_fn (fst e) /\ forall r R z, In z (snd wn) \/ z = 0 -> xrep r R -> on R -> xrep (xnaf_mixed p a dd r (fst wn) z) (add R (fst e z)).
Definition jtab (wn : list (xge p) * list Z) (e : entry) : Prop :=
  snd wn = snd e /\ digit_fn (fst e) /\ forall r R z, In z (snd wn) \/ z = 0 -> xrep r R -> on R -> xrep (xnaf_full p a dd r (fst wn) z) (add R (fst e z)).
Lemma tot_on es g : Forall ent_ok es -> (forall f l, digit_fn f -> on (g f l)) -> on (tot es g).
Proof. intros F G. induction F as [|e t H _ IH]; cbn [tot]; [exact on_inf|]. apply a_on; [apply G; exact H|exact IH]. Qed.
Lemma nth_In_or i l : In (nth i l 0) l \/ nth i l 0 = 0.
Proof. destruct (nth_in_or_default i l 0); tauto. Qed.
Lemma fold_w i ws es : Forall2 wtab ws es -> forall r R, xrep r R -> on R ->
  xrep (fold_left (fun r wn => xnaf_mixed p a dd r (fst wn) (nth i (snd wn) 0)) ws r) (add R (tot es (fun f l => f (nth i l 0)))).
Proof.
  induction 1 as [|wn e ws es [E [D H]] F IH]; intros r R HR OR; cbn [fold_left tot]; [rewrite a_inf by exact OR; exact HR|].
  assert (OT : on (tot es (fun f l => f (nth i l 0)))). { apply tot_on; [|intros f l [_ G]; apply G]. clear - F. induction F as [|? ? ? ? [_ [D _]] _ IH]; constructor; assumption. }
  rewrite <- E. rewrite <- a_assoc by (try apply D; assumption). apply IH; [apply H; try assumption; apply nth_In_or|apply a_on; [exact OR|apply D]].
Qed.
Lemma fold_j i ws es : Forall2 jtab ws es -> forall r R, xrep r R -> on R ->
  xrep (fold_left (fun r wn => xnaf_full p a dd r (fst wn) (nth i (snd wn) 0)) ws r) (add R (tot es (fun f l => f (nth i l 0)))).
Proof.
  induction 1 as [|wn e ws es [E [D H]] F IH]; intros r R HR OR; cbn [fold_left tot]; [rewrite a_inf by exact OR; exact HR|].
  assert (OT : on (tot es (fun f l => f (nth i l 0)))). { apply tot_on; [|intros f l [_ G]; apply G]. clear - F. induction F as [|? ? ? ? [_ [D _]] _ IH]; constructor; assumption. }
  rewrite <- E. rewrite <- a_assoc by (try apply D; assumption). apply IH; [apply H; try assumption; apply nth_In_or|apply a_on; [exact OR|apply D]].
Qed.
Lemma tot_app e1 e2 g : Forall ent_ok e1 -> Forall ent_ok e2 -> (forall f l, digit_fn f -> on (g f l)) -> tot (e1 ++ e2) g = add (tot e1 g) (tot e2 g).
Proof.
  intros F1 F2 G. induction F1 as [|e t H F IH]; cbn [tot app]; [symmetry; apply a_zl; apply tot_on; assumption|]. rewrite IH, a_assoc; try (apply G; exact H); try (apply tot_on; assumption). reflexivity.
Qed.
Lemma tot_step es i : Forall ent_ok es ->
  tot es (fun f l => hsum f (skipn i l)) = add (zm 2 (tot es (fun f l => hsum f (skipn (S i) l)))) (tot es (fun f l => f (nth i l 0))).
Proof.
  intros F. induction F as [|e t H F IH]; cbn [tot]; [rewrite m_e; symmetry; apply a_zl; exact on_inf|].
  assert (O1 : on (tot t (fun f l => hsum f (skipn (S i) l)))) by (apply tot_on; [exact F|intros f l D; apply hsum_on; exact D]).
  assert (O2 : on (tot t (fun f l => f (nth i l 0)))) by (apply tot_on; [exact F|intros f l [_ D]; apply D]).
  assert (O3 : on (hsum (fst e) (skipn (S i) (snd e)))) by (apply hsum_on; exact H). assert (O4 : on (fst e (nth i (snd e) 0))) by apply H.
  rewrite IH, hsum_skip, m_op by assumption. rewrite (a_comm (fst e _)) by auto with ec. apply a_swap; auto with ec.
Qed.
Lemma wtab_ent ws es : Forall2 wtab ws es -> Forall ent_ok es.
Proof. induction 1 as [|? ? ? ? [_ [D _]] _ IH]; constructor; assumption. Qed.
Lemma jtab_ent ws es : Forall2 jtab ws es -> Forall ent_ok es.
Proof. induction 1 as [|? ? ? ? [_ [D _]] _ IH]; constructor; assumption. Qed.
Lemma shamir_loop ws js e1 e2 i : Forall2 wtab ws e1 -> Forall2 jtab js e2 -> forall r first,
  xrep r (tot (e1 ++ e2) (fun f l => hsum f (skipn i l))) -> (first = true -> tot (e1 ++ e2) (fun f l => hsum f (skipn i l)) = zero) ->
  xrep (xshamir p a dd ws js r first i) (tot (e1 ++ e2) hsum).
Proof.
  intros F1 F2. pose proof (wtab_ent _ _ F1) as E1. pose proof (jtab_ent _ _ F2) as E2. assert (E12 : Forall ent_ok (e1 ++ e2)) by (apply Forall_app; split; assumption).
  induction i as [|i IH]; intros r first R Z; cbn [xshamir]; [exact R|]. apply IH; [|discriminate]. rewrite tot_step by exact E12.
  set (T := tot (e1 ++ e2) (fun f l => hsum f (skipn (S i) l))) in *. assert (OT : on T) by (apply tot_on; [exact E12|intros; apply hsum_on; assumption]).
  rewrite tot_app by (try assumption; intros f l [_ D]; apply D).
  assert (O1 : on (tot e1 (fun f l => f (nth i l 0)))) by (apply tot_on; [exact E1|intros f l [_ D]; apply D]). assert (O2 : on (tot e2 (fun f l => f (nth i l 0)))) by (apply tot_on; [exact E2|intros f l [_ D]; apply D]).
  rewrite <- a_assoc by auto with ec. apply fold_j; [exact F2| |auto with ec]. apply fold_w; [exact F1| |auto with ec].
  destruct first; [rewrite (Z eq_refl), m_e in *; exact R|]. rewrite m_2 by exact OT. apply Jdbl. exact R.
Qed.
Theorem shamir_ok ws js e1 e2 max : Forall2 wtab ws e1 -> Forall2 jtab js e2 -> (forall e, In e (e1 ++ e2) -> forall i, (max <= i)%nat -> nth i (snd e) 0 = 0) ->
  xrep (xshamir p a dd ws js (xge_zero p) true max) (tot (e1 ++ e2) hsum).
Proof.
  intros F1 F2 Z. pose proof (wtab_ent _ _ F1) as E1. pose proof (jtab_ent _ _ F2) as E2. assert (E12 : Forall ent_ok (e1 ++ e2)) by (apply Forall_app; split; assumption).
  assert (T : tot (e1 ++ e2) (fun f l => hsum f (skipn max l)) = zero).
  { revert Z. induction E12 as [|e t D F IH]; intros Z; cbn [tot]; [reflexivity|]. rewrite IH by (intros e' I; apply Z; right; exact I). rewrite hsum_zero; [apply a_zl; exact on_inf|exact D|].
    intros i. rewrite nth_skipn. apply Z; [left; reflexivity|lia]. }
  apply shamir_loop; try assumption; [rewrite T; exact (zero_rep p Pp a dd)|intros _; exact T].
Qed.
(* ---- tables for the recodings ---- *)
Definition naf_jtable (wnd : list (xge p)) (w : nat) (P : pt) : Prop := forall j, (j < 2 ^ (w - 2))%nat -> xrep (nth j wnd (xge_zero p)) (zm (2 * Z.of_nat j + 1) P).
Definition naf_wtable (wnd : list (xge p)) (w : nat) (P : pt) : Prop := forall j, (j < 2 ^ (w - 2))%nat -> arep (nth j wnd (xge_zero p)) (zm (2 * Z.of_nat j + 1) P).
Lemma digit_index w z : (2 <= w)%nat -> digit_ok w z -> z <> 0 -> (Z.to_nat ((Z.abs z - 1) / 2) < 2 ^ (w - 2))%nat /\ 2 * Z.of_nat (Z.to_nat ((Z.abs z - 1) / 2)) + 1 = Z.abs z.
Proof.
  intros W [->|[D B]] N; [contradiction|]. assert (E : exists y, Z.abs z = 2 * y + 1). { apply Z.odd_spec. destruct (Z.abs_spec z) as [[_ ->]|[_ ->]]; rewrite ?Z.odd_opp; exact D. } destruct E as [y E]. rewrite E in *. clear D.
  replace (2 * y + 1 - 1) with (y * 2) by ring. rewrite Z.div_mul by lia. assert (0 <= y) by lia. split; [|lia].
  apply Nat2Z.inj_lt. rewrite Nat2Z.inj_pow, Z2Nat.id by lia. replace (Z.of_nat w - 1) with (Z.of_nat (w - 2) + 1) in B by lia. rewrite Z.pow_add_r, Z.pow_1_r in B by lia. change (Z.of_nat 2) with 2. lia.
Qed.
Lemma mul_digit_fn P : on P -> digit_fn (fun z => zm z P).
Proof. intros O. split; [reflexivity|]. intros z. auto with ec. Qed.
Lemma naf_mixed_ok w wnd P r R z : (2 <= w)%nat -> naf_wtable wnd w P -> on P -> digit_ok w z -> xrep r R -> on R -> xrep (xnaf_mixed p a dd r wnd z) (add R (zm z P)).
Proof.
  intros W T O D HR OR. unfold xnaf_mixed. destruct (Z.ltb_spec 0 z) as [H|H].
  - destruct (digit_index w z W D ltac:(lia)) as [I E]. rewrite Z.abs_eq in * by lia. specialize (T _ I). rewrite E in T. apply Jmadd; assumption.
  - destruct (Z.ltb_spec z 0) as [H'|H'].
    + destruct (digit_index w z W D ltac:(lia)) as [I E]. rewrite Z.abs_neq in * by lia. specialize (T _ I). rewrite E in T. replace (zm z P) with (neg (zm (- z) P)); [apply Jmsub; assumption|]. rewrite <- m_neg, Z.opp_involutive by exact O. reflexivity.
    + assert (z = 0) as -> by lia. rewrite m_0, a_inf by exact OR. exact HR.
Qed.
Lemma naf_full_ok w wnd P r R z : (2 <= w)%nat -> naf_jtable wnd w P -> on P -> digit_ok w z -> xrep r R -> on R -> xrep (xnaf_full p a dd r wnd z) (add R (zm z P)).
Proof.
  intros W T O D HR OR. unfold xnaf_full. destruct (Z.ltb_spec 0 z) as [H|H].
  - destruct (digit_index w z W D ltac:(lia)) as [I E]. rewrite Z.abs_eq in * by lia. specialize (T _ I). rewrite E in T. apply Jadd; assumption.
  - destruct (Z.ltb_spec z 0) as [H'|H'].
    + destruct (digit_index w z W D ltac:(lia)) as [I E]. rewrite Z.abs_neq in * by lia. specialize (T _ I). rewrite E in T. replace (zm z P) with (neg (zm (- z) P)); [apply Jsub; assumption|]. rewrite <- m_neg, Z.opp_involutive by exact O. reflexivity.
    + assert (z = 0) as -> by lia. rewrite m_0, a_inf by exact OR. exact HR.
Qed.
Lemma naf_points_list q P w : xrep q P -> Forall2 xrep (xge_naf_points p a dd q w) (map (fun j => zm (2 * Z.of_nat j + 1) P) (seq 0 (2 ^ (w - 2)))).
Proof.
  intros W. pose proof (rep_on _ _ _ _ _ W) as O. unfold xge_naf_points. pose proof (steps_from_ok _ _ (2 ^ (w - 2)) (Jdbl _ _ W) (a_on _ _ O O) _ _ W O) as F.
  replace (map (fun j => zm (2 * Z.of_nat j + 1) P) (seq 0 (2 ^ (w - 2)))) with (map (fun j => add P (zm (Z.of_nat j) (add P P))) (seq 0 (2 ^ (w - 2)))); [exact F|].
  apply map_ext. intros j. rewrite <- m_2, <- m_mul by exact O. rewrite <- (m_1 P) at 1 by exact O. rewrite <- m_add by exact O. f_equal. lia.
Qed.
Lemma nth_map_seq (g : nat -> pt) n j : (j < n)%nat -> nth j (map g (seq 0 n)) zero = g j.
Proof. intros H. rewrite (nth_indep _ _ (g O)) by (rewrite map_length, seq_length; exact H). rewrite map_nth, seq_nth by exact H. reflexivity. Qed.
Theorem xge_naf_points_ok q P w : xrep q P -> naf_jtable (xge_naf_points p a dd q w) w P.
Proof.
  intros W j Hj. pose proof (naf_points_list q P w W) as F. rewrite <- (nth_map_seq (fun j => zm (2 * Z.of_nat j + 1) P) (2 ^ (w - 2))) by exact Hj. apply Forall2_nth; [exact F|]. rewrite (Forall2_len _ _ _ F), map_length, seq_length. exact Hj.
Qed.
Theorem xge_fixed_naf_points_ok q P w : xrep q P -> exists wnd, xge_fixed_naf_points p a dd q w = Some wnd /\ naf_wtable wnd w P.
Proof.
  intros W. pose proof (naf_points_list q P w W) as F. destruct (normalize_ok p Pp P3 a dd _ _ F) as (ws & E & G). exists ws. split; [exact E|].
  intros j Hj. rewrite <- (nth_map_seq (fun j => zm (2 * Z.of_nat j + 1) P) (2 ^ (w - 2))) by exact Hj. apply Forall2_nth; [exact G|]. rewrite (Forall2_len _ _ _ G), map_length, seq_length. exact Hj.
Qed.
Definition jsf_fn (P Q : pt) (z : Z) : pt := add (zm (fst (jsf_of z)) P) (zm (snd (jsf_of z)) Q).
Lemma jsf_digit_fn P Q : on P -> on Q -> digit_fn (jsf_fn P Q).
Proof. intros OP OQ. split; [apply a_zl; exact on_inf|]. intros z. unfold jsf_fn. auto with ec. Qed.
Lemma jsf_full_ok wnd P Q r R z : on P -> on Q -> Forall2 xrep wnd [P; add P Q; add P (neg Q); Q] -> In z jdigits -> xrep r R -> on R -> xrep (xnaf_full p a dd r wnd z) (add R (jsf_fn P Q z)).
Proof.
  intros OP OQ F I HR OR. inversion F as [|w0 ? r0 ? H0 F0]; subst. inversion F0 as [|w1 ? r1 ? H1 F1]; subst. inversion F1 as [|w2 ? r2 ? H2 F2]; subst. inversion F2 as [|w3 ? r3 ? H3 F3]; subst. inversion F3; subst.
  assert (M1 : zm (-1) P = neg P) by (change (-1) with (- (1)); rewrite m_neg, m_1 by exact OP; reflexivity). assert (M1' : zm (-1) Q = neg Q) by (change (-1) with (- (1)); rewrite m_neg, m_1 by exact OQ; reflexivity).
  assert (N2 : neg (add P (neg Q)) = add (neg P) Q). { rewrite (inv_op _ _ _ _ _ L) by auto with ec. rewrite (inv_inv _ _ _ _ _ L) by exact OQ. reflexivity. }
  assert (N1 : neg (add P Q) = add (neg P) (neg Q)) by (rewrite (inv_op _ _ _ _ _ L) by auto with ec; reflexivity).
  cbn [In jdigits] in I. unfold jsf_fn. destruct I as [<-|[<-|[<-|[<-|[<-|[<-|[<-|[<-|[<-|[]]]]]]]]]].
  - change (jsf_of 0) with (0, 0). cbn [fst snd]. change (xnaf_full p a dd r [w0; w1; w2; w3] 0) with r. change (zm 0 P) with zero. change (zm 0 Q) with zero. rewrite a_zl, a_inf by (exact on_inf || exact OR). exact HR.
  - change (jsf_of 1) with (1, 0). cbn [fst snd]. change (xnaf_full p a dd r [w0; w1; w2; w3] 1) with (xge_add p a dd r w0). rewrite m_1, m_0, a_inf by assumption. apply Jadd; assumption.
  - change (jsf_of 3) with (1, 1). cbn [fst snd]. change (xnaf_full p a dd r [w0; w1; w2; w3] 3) with (xge_add p a dd r w1). rewrite !m_1 by assumption. apply Jadd; assumption.
  - change (jsf_of 5) with (1, -1). cbn [fst snd]. change (xnaf_full p a dd r [w0; w1; w2; w3] 5) with (xge_add p a dd r w2). rewrite m_1, M1' by assumption. apply Jadd; assumption.
  - change (jsf_of 7) with (0, 1). cbn [fst snd]. change (xnaf_full p a dd r [w0; w1; w2; w3] 7) with (xge_add p a dd r w3). rewrite m_1, m_0, a_zl by assumption. apply Jadd; assumption.
  - change (jsf_of (-1)) with (-1, 0). cbn [fst snd]. change (xnaf_full p a dd r [w0; w1; w2; w3] (-1)) with (xge_sub p a dd r w0). rewrite M1, m_0, a_inf by auto with ec. apply Jsub; assumption.
  - change (jsf_of (-3)) with (-1, -1). cbn [fst snd]. change (xnaf_full p a dd r [w0; w1; w2; w3] (-3)) with (xge_sub p a dd r w1). rewrite M1, M1', <- N1. apply Jsub; assumption.
  - change (jsf_of (-5)) with (-1, 1). cbn [fst snd]. change (xnaf_full p a dd r [w0; w1; w2; w3] (-5)) with (xge_sub p a dd r w2). rewrite M1, m_1, <- N2 by assumption. apply Jsub; assumption.
  - change (jsf_of (-7)) with (0, -1). cbn [fst snd]. change (xnaf_full p a dd r [w0; w1; w2; w3] (-7)) with (xge_sub p a dd r w3). rewrite M1', m_0, a_zl by auto with ec. apply Jsub; assumption.
Qed.
Lemma jsf_points_ok q1 q2 P Q : xrep q1 P -> xrep q2 Q -> Forall2 xrep (xge_jsf_points p a dd q1 q2) [P; add P Q; add P (neg Q); Q].
Proof. intros W1 W2. unfold xge_jsf_points. constructor; [exact W1|constructor; [apply Jadd; assumption|constructor; [apply Jsub; assumption|constructor; [exact W2|constructor]]]]. Qed.
(* ---- the double and multi multiplications without endomorphism ---- *)
Definition naf_fn (P : pt) := fun z => zm z P.
Lemma jtab_naf wnd naf w P : (2 <= w)%nat -> naf_jtable wnd w P -> on P -> Forall (digit_ok w) naf -> jtab (wnd, naf) (naf_fn P, naf).
Proof.
  intros W T O D. split; [reflexivity|]. split; [apply mul_digit_fn; exact O|]. cbn [fst snd]. intros r R z I HR OR. apply (naf_full_ok w); try assumption. destruct I as [I| ->]; [|left; reflexivity]. rewrite Forall_forall in D. apply D. exact I.
Qed.
Lemma wtab_naf wnd naf w P : (2 <= w)%nat -> naf_wtable wnd w P -> on P -> Forall (digit_ok w) naf -> wtab (wnd, naf) (naf_fn P, naf).
Proof.
  intros W T O D. split; [reflexivity|]. split; [apply mul_digit_fn; exact O|]. cbn [fst snd]. intros r R z I HR OR. apply (naf_mixed_ok w); try assumption. destruct I as [I| ->]; [|left; reflexivity]. rewrite Forall_forall in D. apply D. exact I.
Qed.
Lemma jtab_jsf wnd naf P Q : on P -> on Q -> Forall2 xrep wnd [P; add P Q; add P (neg Q); Q] -> Forall (fun z => In z jdigits) naf -> jtab (wnd, naf) (jsf_fn P Q, naf).
Proof.
  intros OP OQ T D. split; [reflexivity|]. split; [apply jsf_digit_fn; assumption|]. cbn [fst snd]. intros r R z I HR OR. apply jsf_full_ok; try assumption. destruct I as [I| ->]; [|left; reflexivity]. rewrite Forall_forall in D. apply D. exact I.
Qed.
Theorem edwards_mul_double_ok sbits wnd G k1 q2 Q k2 : 0 <= k1 < 2 ^ Z.of_nat sbits -> 0 <= k2 < 2 ^ Z.of_nat sbits -> naf_wtable wnd XNAF_WIDTH_PRE G -> on G -> xrep q2 Q ->
  exists r, edwards_mul_double_var p a dd sbits wnd k1 q2 k2 = Some r /\ xrep r (add (zm k1 G) (zm k2 Q)).
Proof.
  intros K1 K2 T OG W. pose proof (rep_on _ _ _ _ _ W) as OQ. unfold edwards_mul_double_var, sc_naf_var.
  destruct (naf_spec k1 1 XNAF_WIDTH_PRE (S sbits)) as (n1 & l1 & E1 & _ & V1 & D1 & T1 & _); try (unfold XNAF_WIDTH_PRE; lia); [apply bitlen_fits; exact K1|].
  destruct (naf_spec k2 1 XNAF_WIDTH (S sbits)) as (n2 & l2 & E2 & _ & V2 & D2 & T2 & _); try (unfold XNAF_WIDTH; lia); [apply bitlen_fits; exact K2|].
  rewrite E1, E2. eexists. split; [reflexivity|].
  pose proof (shamir_ok [(wnd, n1)] [(xge_naf_points p a dd q2 XNAF_WIDTH, n2)] [(naf_fn G, n1)] [(naf_fn Q, n2)] (Nat.max l1 l2)) as S.
  cbn [app tot fst snd] in S. unfold naf_fn in S at 5 6. rewrite !hsum_mul, V1, V2, !Z.mul_1_l, a_inf in S by auto with ec. apply S.
  - constructor; [|constructor]. apply (wtab_naf wnd n1 XNAF_WIDTH_PRE G); try assumption. unfold XNAF_WIDTH_PRE; lia.
  - constructor; [|constructor]. apply (jtab_naf _ n2 XNAF_WIDTH Q); try assumption; [unfold XNAF_WIDTH; lia|apply xge_naf_points_ok; exact W].
  - intros e [<-|[<-|[]]] i Hi; cbn [snd]; [apply (proj1 T1)|apply (proj1 T2)]; lia.
Qed.
Fixpoint msum (l : list (pt * Z)) : pt := match l with [] => zero | (P, c) :: t => add (zm c P) (msum t) end.
Definition mrep (sbits : nat) (e : xge p * Z) (P : pt * Z) : Prop := xrep (fst e) (fst P) /\ snd e = snd P /\ 0 <= snd e < 2 ^ Z.of_nat sbits.
Lemma list_ind2 {A} (Q : list A -> Prop) : Q [] -> (forall x, Q [x]) -> (forall x y l, Q l -> Q (x :: y :: l)) -> forall l, Q l.
Proof. intros Q0 Q1 Q2. fix f 1. intros [|x [|y l]]; [exact Q0|exact (Q1 x)|exact (Q2 x y l (f l))]. Qed.
Lemma msum_on sbits l Ps : Forall2 (mrep sbits) l Ps -> on (msum Ps).
Proof. induction 1 as [|[q c] [P c'] ? ? [W _] F IH]; cbn [msum]; auto with ec. apply a_on; [apply m_on; exact (rep_on _ _ _ _ _ W)|exact IH]. Qed.
Lemma multi_pairs_ok sbits l : forall Ps, Forall2 (mrep sbits) l Ps -> exists js max es, xmulti_pairs p a dd sbits l = Some (js, max) /\ Forall2 jtab js es /\
  (forall e, In e es -> forall i, (max <= i)%nat -> nth i (snd e) 0 = 0) /\ tot es hsum = msum Ps.
Proof.
  induction l as [| [q c] |[q1 c1] [q2 c2] t IH] using list_ind2; intros Ps F.
  - inversion F; subst. exists [], O, []. repeat split; try constructor. intros e [].
  - inversion F as [|? [P c'] ? Ps' [W [E K]] F']; subst. inversion F'; subst. cbn [fst snd] in *. subst c'. pose proof (rep_on _ _ _ _ _ W) as O. cbn [xmulti_pairs]. unfold sc_naf_var.
    destruct (naf_spec c 1 XNAF_WIDTH (S sbits)) as (n1 & l1 & E1 & _ & V1 & D1 & T1 & _); try (unfold XNAF_WIDTH; lia); [apply bitlen_fits; exact K|]. rewrite E1.
    eexists _, _, [(naf_fn P, n1)]. split; [reflexivity|]. split; [|split].
    + constructor; [|constructor]. apply (jtab_naf _ n1 XNAF_WIDTH P); try assumption; [unfold XNAF_WIDTH; lia|apply xge_naf_points_ok; exact W].
    + intros e [<-|[]] i Hi. apply (proj1 T1). exact Hi.
    + cbn [tot fst snd msum]. unfold naf_fn. rewrite hsum_mul, V1, Z.mul_1_l by exact O. reflexivity.
  - inversion F as [|? [P1 c1'] ? Ps1 [W1 [E1 K1]] F1]; subst. inversion F1 as [|? [P2 c2'] ? Ps2 [W2 [E2 K2]] F2]; subst. cbn [fst snd] in *. subst c1' c2'. pose proof (rep_on _ _ _ _ _ W1) as O1. pose proof (rep_on _ _ _ _ _ W2) as O2.
    destruct (IH Ps2 F2) as (js & max & es & EM & FJ & Z & TT). cbn [xmulti_pairs]. rewrite EM. unfold sc_jsf_var.
    destruct (jsf_spec c1 1 c2 1 ltac:(lia) ltac:(lia) ltac:(tauto) ltac:(tauto) (S sbits)) as (n1 & l1 & EJ & _ & V1 & V2 & D & T); [pose proof (bitlen_fits sbits c1 K1); pose proof (bitlen_fits sbits c2 K2); lia|]. rewrite EJ.
    eexists _, _, ((jsf_fn P1 P2, n1) :: es). split; [reflexivity|]. split; [|split].
    + constructor; [|exact FJ]. apply jtab_jsf; try assumption. apply jsf_points_ok; assumption.
    + intros e [<-|I] i Hi; [apply (proj1 T); lia|apply (Z e I); lia].
    + cbn [tot fst snd msum]. rewrite TT. unfold jsf_fn. rewrite (hsum_two (fun z => fst (jsf_of z)) (fun z => snd (jsf_of z))), V1, V2, !Z.mul_1_l by assumption. apply a_assoc; auto with ec. apply (msum_on _ _ _ F2).
Qed.
Theorem edwards_mul_multi_ok sbits wnd G k0 l Ps : 0 <= k0 < 2 ^ Z.of_nat sbits -> naf_wtable wnd XNAF_WIDTH_PRE G -> on G -> Forall2 (mrep sbits) l Ps ->
  exists r, edwards_mul_multi_var p a dd sbits wnd k0 l = Some r /\ xrep r (add (zm k0 G) (msum Ps)).
Proof.
  intros K T OG F. unfold edwards_mul_multi_var, sc_naf_var.
  destruct (naf_spec k0 1 XNAF_WIDTH_PRE (S sbits)) as (n1 & l1 & E1 & _ & V1 & D1 & T1 & _); try (unfold XNAF_WIDTH_PRE; lia); [apply bitlen_fits; exact K|].
  destruct (multi_pairs_ok sbits l Ps F) as (js & max & es & EM & FJ & Z & TT). rewrite E1, EM. eexists. split; [reflexivity|].
  pose proof (shamir_ok [(wnd, n1)] js [(naf_fn G, n1)] es (Nat.max l1 max)) as S. cbn [app tot fst snd] in S. rewrite TT in S. unfold naf_fn in S at 3. rewrite hsum_mul, V1, Z.mul_1_l in S by exact OG. apply S.
  - constructor; [|constructor]. apply (wtab_naf wnd n1 XNAF_WIDTH_PRE G); try assumption. unfold XNAF_WIDTH_PRE; lia.
  - exact FJ.
  - intros e [<-|I] i Hi; [apply (proj1 T1); lia|apply (Z e I); lia].
Qed.
End P.
