(* Scalar multiplication: the window, NAF, joint sparse form and fixed base algorithms all compute multiples. *)
From Verif.Base Require Import Prelude.
From Coq Require Import Znumtheory.
From Verif.Model Require Import NumTheory Field EcScalar Wei.
From Verif.Spec Require Import EcSpec.
From Verif.Proof Require Import Cong FieldProof EcGroup GrpMul EcScalarProof WeiProof.
Lemma bitlen_fits sbits k : 0 <= k < 2 ^ Z.of_nat sbits -> (S (sc_bitlen k) <= S sbits)%nat.
Proof. intros H. apply le_n_S. apply EcScalarProof.bitlen_le; lia. Qed.
Lemma get4 k i : 0 <= sc_get_bits k (i * 4) 4 < 16 /\ k / 16 ^ Z.of_nat i = 16 * (k / 16 ^ Z.of_nat (S i)) + sc_get_bits k (i * 4) 4.
Proof.
  unfold sc_get_bits. replace (2 ^ Z.of_nat (i * 4)) with (16 ^ Z.of_nat i). 2:{ replace (Z.of_nat (i * 4)) with (4 * Z.of_nat i) by lia. rewrite Z.pow_mul_r by lia. reflexivity. }
  change (2 ^ 4) with 16. split; [apply Z.mod_pos_bound; lia|]. replace (Z.of_nat (S i)) with (Z.of_nat i + 1) by lia. rewrite Z.pow_add_r, Z.pow_1_r by lia.
  rewrite <- Z.div_div by (try apply Z.pow_pos_nonneg; lia). apply Z.div_mod. lia.
Qed.
Lemma nsteps_cover bits k : 0 <= k < 2 ^ Z.of_nat bits -> k / 16 ^ Z.of_nat (nsteps bits) = 0.
Proof.
  intros H. apply Z.div_small. split; [lia|]. apply Z.lt_le_trans with (2 ^ Z.of_nat bits); [lia|]. change 16 with (2 ^ 4). rewrite <- Z.pow_mul_r by lia. apply Z.pow_le_mono_r; [lia|].
  unfold nsteps. pose proof (Nat.div_mod (bits + 3) 4 ltac:(lia)). pose proof (Nat.mod_upper_bound (bits + 3) 4 ltac:(lia)). lia.
Qed.
Section P.
Variable p : positive.
Hypothesis Pp : prime (Zpos p).
Hypothesis P3 : 2 < Zpos p.
Local Notation fe := (Field.fe p).
Variables a b : fe.
Variable h : Z.
Hypothesis ns : nonsingular fe f0 f1 fe_add fe_mul a b.
Local Notation on := (on' p a b).
Hypothesis no2 : h <= 1 -> forall x, ~ on (Aff x f0).
Local Notation add := (padd' p a).
Local Notation neg := (pneg' p).
Local Notation jrep := (jrep p a b).
Local Notation wrep := (wrep p a b).
Local Notation pt := (point fe).
Definition zm : Z -> pt -> pt := zmul pt add Inf neg.
Definition L : group_laws pt on add Inf neg := laws p Pp P3 a b h ns no2.
Lemma m_on k P : on P -> on (zm k P). Proof. exact (zm_on _ _ _ _ _ L k P). Qed.
Lemma m_add i j P : on P -> zm (i + j) P = add (zm i P) (zm j P). Proof. exact (zm_add _ _ _ _ _ L i j P). Qed.
Lemma m_mul i j P : on P -> zm (i * j) P = zm i (zm j P). Proof. exact (zm_mul _ _ _ _ _ L i j P). Qed.
Lemma m_op k P Q : on P -> on Q -> zm k (add P Q) = add (zm k P) (zm k Q). Proof. exact (zm_op _ _ _ _ _ L k P Q). Qed.
Lemma m_neg k P : on P -> zm (- k) P = neg (zm k P). Proof. exact (zm_neg _ _ _ _ _ L k P). Qed.
Lemma m_1 P : on P -> zm 1 P = P. Proof. exact (zm_1 _ _ _ _ _ L P). Qed.
Lemma m_0 P : zm 0 P = Inf. Proof. reflexivity. Qed.
Lemma m_e k : zm k Inf = Inf. Proof. exact (zm_e _ _ _ _ _ L k). Qed.
Lemma m_mod k n P : on P -> zm n P = Inf -> zm (k mod n) P = zm k P. Proof. exact (zm_mod _ _ _ _ _ L k n P). Qed.
Lemma a_on P Q : on P -> on Q -> on (add P Q). Proof. exact (gl_op _ _ _ _ _ L P Q). Qed.
Lemma a_inf P : on P -> add P Inf = P. Proof. exact (id_r _ _ _ _ _ L P). Qed.
Lemma a_comm P Q : on P -> on Q -> add P Q = add Q P. Proof. exact (gl_comm _ _ _ _ _ L P Q). Qed.
Lemma a_assoc P Q R : on P -> on Q -> on R -> add (add P Q) R = add P (add Q R). Proof. exact (gl_assoc _ _ _ _ _ L P Q R). Qed.
Lemma a_swap P Q R S : on P -> on Q -> on R -> on S -> add (add P Q) (add R S) = add (add P R) (add Q S). Proof. exact (swap4 _ _ _ _ _ L P Q R S). Qed.
Lemma n_on P : on P -> on (neg P). Proof. exact (gl_inv _ _ _ _ _ L P). Qed.
Lemma on_inf : on Inf. Proof. exact Logic.I. Qed.
Lemma m_2 P : on P -> zm 2 P = add P P. Proof. intros H. change 2 with (1 + 1). rewrite m_add, m_1 by exact H. reflexivity. Qed.
Local Hint Resolve on_inf m_on a_on n_on wrep_on jrep_on : ec.
(* the formulas, in this section's terms *)
Lemma Jdbl q P : jrep q P -> jrep (jge_dbl p a h q) (add P P). Proof. intros; eapply jge_dbl_ok; eassumption. Qed.
Lemma Jdblv q P : jrep q P -> jrep (jge_dbl_var p a h q) (add P P). Proof. intros; eapply jge_dbl_var_ok; eassumption. Qed.
Lemma Jadd q r P Q : jrep q P -> jrep r Q -> jrep (jge_add p a q r) (add P Q). Proof. intros; eapply jge_add_ok; eassumption. Qed.
Lemma Jaddv q r P Q : jrep q P -> jrep r Q -> jrep (jge_add_var p a h q r) (add P Q). Proof. intros; eapply jge_add_var_ok; eassumption. Qed.
Lemma Jsubv q r P Q : jrep q P -> jrep r Q -> jrep (jge_sub_var p a h q r) (add P (neg Q)). Proof. intros; eapply jge_sub_var_ok; eassumption. Qed.
Lemma Jmadd q r P Q : jrep q P -> wrep r Q -> jrep (jge_mixed_add p a q r) (add P Q). Proof. intros; eapply jge_mixed_add_ok; eassumption. Qed.
Lemma Jmaddv q r P Q : jrep q P -> wrep r Q -> jrep (jge_mixed_add_var p a h q r) (add P Q). Proof. intros; eapply jge_mixed_add_var_ok; eassumption. Qed.
Lemma Jmsubv q r P Q : jrep q P -> wrep r Q -> jrep (jge_mixed_sub_var p a h q r) (add P (neg Q)). Proof. intros; eapply jge_mixed_sub_var_ok; eassumption. Qed.
Lemma Jset q P : wrep q P -> jrep (jge_set_wge p q) P. Proof. intros; eapply jge_set_wge_ok; eassumption. Qed.
(* ---- lookups ---- *)
Lemma jsel t q f : jge_select p t q f = if f then q else t.
Proof. destruct t, q, f; reflexivity. Qed.
Lemma wsel t q f : wge_select p t q f = if f then q else t.
Proof. destruct t, q, f; reflexivity. Qed.
Lemma jge_lookup_ok d wnd : forall t j i, j <= i < j + Z.of_nat (length wnd) -> jge_lookup p t wnd j i = nth (Z.to_nat (i - j)) wnd d.
Proof.
  assert (K : forall wnd t j i, i < j -> jge_lookup p t wnd j i = t).
  { induction wnd0 as [|q w IH]; intros t j i H; cbn [jge_lookup]; [reflexivity|]. rewrite jsel. destruct (Z.eqb_spec j i); [lia|]. apply IH. lia. }
  induction wnd as [|q w IH]; intros t j i H; cbn [length jge_lookup] in *; [lia|]. rewrite jsel. destruct (Z.eqb_spec j i) as [->|N].
  - rewrite K by lia. rewrite Z.sub_diag. reflexivity.
  - rewrite IH by lia. replace (Z.to_nat (i - j)) with (S (Z.to_nat (i - (j + 1)))) by lia. reflexivity.
Qed.
Lemma wge_lookup_ok d wnd : forall t j i, j <= i < j + Z.of_nat (length wnd) -> wge_lookup p t wnd j i = nth (Z.to_nat (i - j)) wnd d.
Proof.
  assert (K : forall wnd t j i, i < j -> wge_lookup p t wnd j i = t).
  { induction wnd0 as [|q w IH]; intros t j i H; cbn [wge_lookup]; [reflexivity|]. rewrite wsel. destruct (Z.eqb_spec j i); [lia|]. apply IH. lia. }
  induction wnd as [|q w IH]; intros t j i H; cbn [length wge_lookup] in *; [lia|]. rewrite wsel. destruct (Z.eqb_spec j i) as [->|N].
  - rewrite K by lia. rewrite Z.sub_diag. reflexivity.
  - rewrite IH by lia. replace (Z.to_nat (i - j)) with (S (Z.to_nat (i - (j + 1)))) by lia. reflexivity.
Qed.
Lemma dbl4 q P : jrep q P -> on P -> jrep (Nat.iter 4 (jge_dbl p a h) q) (zm 16 P).
Proof.
  intros H O. cbn [Nat.iter]. change 16 with (2 * (2 * (2 * 2))). rewrite !m_mul, !m_2 by (auto 10 with ec). repeat apply Jdbl. exact H.
Qed.
Lemma dbl4v q P : jrep q P -> on P -> jrep (Nat.iter 4 (jge_dbl_var p a h) q) (zm 16 P).
Proof.
  intros H O. cbn [Nat.iter]. change 16 with (2 * (2 * (2 * 2))). rewrite !m_mul, !m_2 by (auto 10 with ec). repeat apply Jdblv. exact H.
Qed.
(* ---- the constant time window ---- *)
Definition jtable (wnd : list (jge p)) (P : pt) : Prop := forall j, (j < length wnd)%nat -> jrep (nth j wnd (jge_zero p)) (zm (Z.of_nat j) P).
Lemma wnd_pairs_ok q P cnt : wrep q P -> on P -> forall i wnd, length wnd = i -> Nat.even i = true -> (2 <= i)%nat -> jtable wnd P ->
  length (wnd_pairs p a h wnd q i cnt) = (i + 2 * cnt)%nat /\ jtable (wnd_pairs p a h wnd q i cnt) P.
Proof.
  intros W O. induction cnt as [|c IH]; intros i wnd Li Ev Hi T; cbn [wnd_pairs]; [split; [lia|exact T]|].
  set (d := jge_dbl p a h (nth (i / 2) wnd (jge_zero p))). apply Nat.even_spec in Ev. destruct Ev as [e Ev].
  assert (I2 : (i / 2 = e)%nat) by (rewrite Ev, Nat.mul_comm; apply Nat.div_mul; lia).
  assert (D : jrep d (zm (Z.of_nat i) P)).
  { unfold d. replace (Z.of_nat i) with (Z.of_nat e + Z.of_nat e) by lia. rewrite m_add by exact O. apply Jdbl. rewrite I2. apply T. lia. }
  edestruct (IH (i + 2)%nat (wnd ++ [d; jge_mixed_add p a d q])) as [IL IT].
  - rewrite app_length. cbn [length]. lia.
  - apply Nat.even_spec. exists (S e). lia.
  - lia.
  - intros j Hj. rewrite app_length in Hj. cbn [length] in Hj. destruct (lt_dec j i) as [J|J].
    + rewrite app_nth1 by lia. apply T. lia.
    + rewrite app_nth2 by lia. assert (j = i \/ j = S i) as [-> | ->] by lia.
      * rewrite Li, Nat.sub_diag. exact D.
      * replace (S i - length wnd)%nat with 1%nat by lia. cbn [nth]. replace (Z.of_nat (S i)) with (Z.of_nat i + 1) by lia. rewrite m_add, m_1 by exact O. apply Jmadd; assumption.
  - split; [lia|exact IT].
Qed.
Lemma window_ok q P : wrep q P -> length (wei_window p a h q) = 16%nat /\ jtable (wei_window p a h q) P.
Proof.
  intros W. pose proof (wrep_on _ _ _ _ _ W) as O. unfold wei_window. apply (wnd_pairs_ok q P 7 W O 2); try reflexivity; try lia.
  intros j Hj. cbn [length] in Hj. assert (j = 0%nat \/ j = 1%nat) as [-> | ->] by lia; cbn [nth].
  - constructor.
  - change (Z.of_nat 1) with 1. rewrite m_1 by exact O. apply Jset. exact W.
Qed.
Lemma jmul_loop_ok wnd P k i : length wnd = 16%nat -> jtable wnd P -> on P -> forall r t first, jrep r (zm (k / 16 ^ Z.of_nat i) P) -> (first = true -> k / 16 ^ Z.of_nat i = 0) ->
  jrep (jmul_loop p a h wnd k r t first i) (zm k P).
Proof.
  intros Lw T O. induction i as [|i IH]; intros r t first R F; cbn [jmul_loop].
  - change (16 ^ Z.of_nat 0) with 1 in R. rewrite Z.div_1_r in R. exact R.
  - destruct (get4 k i) as [B E]. set (d := sc_get_bits k (i * 4) 4) in *. clearbody d.
    rewrite (jge_lookup_ok (jge_zero p)) by (rewrite Lw; lia). rewrite Z.sub_0_r.
    assert (TD : jrep (nth (Z.to_nat d) wnd (jge_zero p)) (zm d P)). { rewrite <- (Z2Nat.id d) at 2 by lia. apply T. rewrite Lw. lia. }
    apply IH; [|discriminate]. rewrite E. destruct first.
    + rewrite (F eq_refl). exact TD.
    + rewrite m_add, m_mul by exact O. apply Jadd; [|exact TD]. apply dbl4; [exact R|]. apply m_on. exact O.
Qed.
Theorem wei_jmul_normal_ok sbits q P k : 0 <= k < 2 ^ Z.of_nat sbits -> wrep q P -> jrep (wei_jmul_normal p a h sbits q k) (zm k P).
Proof.
  intros K W. destruct (window_ok q P W) as [Lw T]. pose proof (wrep_on _ _ _ _ _ W) as O. pose proof (nsteps_cover sbits k K) as Z. unfold wei_jmul_normal. apply jmul_loop_ok; try assumption.
  - rewrite Z. constructor.
  - intros _. exact Z.
Qed.
(* ---- fixed base windows ---- *)
Definition gtable (wnds : list (wge p)) (steps : nat) (P : pt) : Prop :=
  length wnds = (16 * steps)%nat /\ forall i j, (i < steps)%nat -> (j < 16)%nat -> wrep (nth (i * 16 + j) wnds (wge_zero p)) (zm (16 ^ Z.of_nat i * Z.of_nat j) P).
Lemma nth_firstn {A} (l : list A) d n i : (i < n)%nat -> nth i (firstn n l) d = nth i l d.
Proof. revert l i. induction n as [|n IH]; intros [|x l] [|i] H; try reflexivity; try lia. cbn. apply IH. lia. Qed.
Lemma nth_skipn {A} (l : list A) d n i : nth i (skipn n l) d = nth (n + i) l d.
Proof. revert l. induction n as [|n IH]; intros [|x l]; cbn; try reflexivity; [destruct i; reflexivity|apply IH]. Qed.
Lemma jmul_g_loop_ok wnds steps P k0 cnt : gtable wnds steps P -> on P -> 0 <= k0 -> forall i r t R, (i + cnt = steps)%nat -> jrep r R -> on R ->
  jrep (jmul_g_loop p a wnds k0 r t i cnt) (add R (zm (16 ^ Z.of_nat i * ((k0 / 16 ^ Z.of_nat i) mod 16 ^ Z.of_nat cnt)) P)).
Proof.
  intros [Lw T] O K. induction cnt as [|c IH]; intros i r t R Hi HR OR; cbn [jmul_g_loop].
  - change (16 ^ Z.of_nat 0) with 1. rewrite Z.mod_1_r, Z.mul_0_r, m_0, a_inf by exact OR. exact HR.
  - destruct (get4 k0 i) as [B E]. set (d := sc_get_bits k0 (i * 4) 4) in *. clearbody d.
    rewrite (wge_lookup_ok (wge_zero p)). 2:{ rewrite firstn_length, skipn_length, Lw. lia. }
    rewrite Z.sub_0_r, nth_firstn, nth_skipn by lia.
    assert (TD : wrep (nth (i * 16 + Z.to_nat d) wnds (wge_zero p)) (zm (16 ^ Z.of_nat i * d) P)). { rewrite <- (Z2Nat.id d) at 2 by lia. apply T; lia. }
    set (t' := nth _ _ _) in *. clearbody t'. pose proof (IH (S i) (jge_mixed_add p a r t') t' (add R (zm (16 ^ Z.of_nat i * d) P)) ltac:(lia) (Jmadd _ _ _ _ HR TD) ltac:(auto with ec)) as H.
    rewrite a_assoc in H by auto with ec. rewrite <- m_add in H by exact O. replace (16 ^ Z.of_nat i * (k0 / 16 ^ Z.of_nat i mod 16 ^ Z.of_nat (S c))) with (16 ^ Z.of_nat i * d + 16 ^ Z.of_nat (S i) * (k0 / 16 ^ Z.of_nat (S i) mod 16 ^ Z.of_nat c)); [exact H|].
    rewrite E. set (y := k0 / 16 ^ Z.of_nat (S i)). replace (Z.of_nat (S i)) with (Z.of_nat i + 1) by lia. replace (Z.of_nat (S c)) with (Z.of_nat c + 1) by lia. rewrite !Z.pow_add_r, Z.pow_1_r by lia.
    assert (M : (16 * y + d) mod (16 ^ Z.of_nat c * 16) = d + 16 * (y mod 16 ^ Z.of_nat c)).
    { assert (0 < 16 ^ Z.of_nat c) by (apply Z.pow_pos_nonneg; lia). rewrite (Z.mul_comm _ 16), Z.rem_mul_r by lia. f_equal.
      - rewrite Z.add_comm, Z.mul_comm, Z.mod_add by lia. apply Z.mod_small. exact B.
      - f_equal. f_equal. rewrite Z.add_comm, Z.mul_comm, Z.div_add by lia. rewrite (Z.div_small d) by exact B. lia. }
    rewrite M. ring.
Qed.
Theorem wei_jmul_g_ok n sbits wnds blind unblind G k : 0 < n <= 2 ^ Z.of_nat sbits -> gtable wnds (nsteps sbits) G -> on G -> zm n G = Inf -> jrep unblind (zm (- blind) G) ->
  jrep (wei_jmul_g p a n sbits wnds blind unblind k) (zm k G).
Proof.
  intros N T O ZG U. unfold wei_jmul_g. pose proof (Z.mod_pos_bound (k + blind) n ltac:(lia)) as B. set (k0 := (k + blind) mod n) in *.
  pose proof (jmul_g_loop_ok wnds (nsteps sbits) G k0 (nsteps sbits) T O ltac:(lia) 0 unblind (wge_zero p) _ ltac:(lia) U ltac:(auto with ec)) as H.
  change (16 ^ Z.of_nat 0) with 1 in H. rewrite Z.div_1_r, Z.mul_1_l in H. rewrite Z.mod_small in H.
  2:{ split; [lia|]. assert (C : k0 / 16 ^ Z.of_nat (nsteps sbits) = 0) by (apply nsteps_cover; lia). apply Z.div_small_iff in C; [|apply Z.pow_nonzero; lia]. assert (0 < 16 ^ Z.of_nat (nsteps sbits)) by (apply Z.pow_pos_nonneg; lia). lia. }
  unfold k0 in H at 2. rewrite m_mod, <- m_add in H by assumption. replace (- blind + (k + blind)) with k in H by ring. exact H.
Qed.
(* how the table is built *)
Lemma steps_from_ok d D cnt : jrep d D -> on D -> forall x X, jrep x X -> on X -> Forall2 jrep (steps_from p a h x d cnt) (map (fun j => add X (zm (Z.of_nat j) D)) (seq 0 cnt)).
Proof.
  intros HD OD. induction cnt as [|c IH]; intros x X HX OX; cbn [steps_from seq map]; constructor.
  - change (Z.of_nat 0) with 0. rewrite m_0, a_inf by exact OX. exact HX.
  - rewrite <- seq_shift, map_map. replace (map _ (seq 0 c)) with (map (fun j => add (add X D) (zm (Z.of_nat j) D)) (seq 0 c)). 2:{ apply map_ext. intros j. rewrite a_assoc by auto with ec. f_equal. rewrite <- (m_1 D) at 1 by exact OD. rewrite <- m_add by exact OD. f_equal. lia. }
    apply IH; auto using Jaddv with ec.
Qed.
Fixpoint win_pts (P : pt) (steps : nat) : list pt :=
  match steps with O => [] | S s => map (fun j => zm (Z.of_nat j) P) (seq 0 16) ++ win_pts (zm 16 P) s end.
Lemma fixed_windows_ok steps : forall g P, jrep g P -> on P -> Forall2 jrep (fixed_windows p a h g steps) (win_pts P steps).
Proof.
  induction steps as [|s IH]; intros g P H O; cbn [fixed_windows win_pts]; [constructor|]. apply Forall2_app.
  - pose proof (steps_from_ok g P 16 H O (jge_zero p) Inf (jr_inf p a b) on_inf) as F. exact F.
  - apply IH; [apply dbl4v; assumption|auto with ec].
Qed.
Lemma win_pts_nth steps : forall P i j, on P -> (i < steps)%nat -> (j < 16)%nat -> nth (i * 16 + j) (win_pts P steps) Inf = zm (16 ^ Z.of_nat i * Z.of_nat j) P.
Proof.
  induction steps as [|s IH]; intros P i j O Hi Hj; [lia|]. cbn [win_pts]. destruct i as [|i].
  - rewrite app_nth1 by (rewrite map_length, seq_length; lia). change (16 ^ Z.of_nat 0) with 1. rewrite Z.mul_1_l. rewrite (nth_indep _ _ (zm (Z.of_nat 0) P)) by (rewrite map_length, seq_length; lia).
    rewrite (map_nth (fun j => zm (Z.of_nat j) P)), seq_nth by lia. reflexivity.
  - rewrite app_nth2 by (rewrite map_length, seq_length; lia). rewrite map_length, seq_length. replace (S i * 16 + j - 16)%nat with (i * 16 + j)%nat by lia. rewrite IH by (auto with ec; lia). rewrite <- m_mul by exact O. f_equal.
    replace (Z.of_nat (S i)) with (Z.of_nat i + 1) by lia. rewrite Z.pow_add_r, Z.pow_1_r by lia. ring.
Qed.
Lemma win_pts_length steps P : length (win_pts P steps) = (16 * steps)%nat.
Proof. revert P. induction steps as [|s IH]; intros P; cbn [win_pts]; [reflexivity|]. rewrite app_length, map_length, seq_length, IH. lia. Qed.
Lemma Forall2_nth {A B} (R : A -> B -> Prop) l l' d d' : Forall2 R l l' -> forall i, (i < length l)%nat -> R (nth i l d) (nth i l' d').
Proof. induction 1; intros [|i] H'; cbn [length nth] in *; try lia; [assumption|apply IHForall2; lia]. Qed.
Lemma Forall2_len {A B} (R : A -> B -> Prop) l l' : Forall2 R l l' -> length l = length l'.
Proof. induction 1; cbn [length]; congruence. Qed.
Theorem wge_fixed_points_ok sbits q P : wrep q P -> exists wnds, wge_fixed_points_var p a h sbits q = Some wnds /\ gtable wnds (nsteps sbits) P.
Proof.
  intros W. pose proof (wrep_on _ _ _ _ _ W) as O. unfold wge_fixed_points_var. pose proof (fixed_windows_ok (nsteps sbits) _ _ (Jset q P W) O) as F.
  destruct (wge_set_jge_all_var_ok p Pp P3 a b _ _ F) as (ws & E & G). exists ws. split; [exact E|]. pose proof (Forall2_len _ _ _ G) as LG. rewrite win_pts_length in LG. split; [exact LG|].
  intros i j Hi Hj. rewrite <- (win_pts_nth (nsteps sbits)) by assumption. apply Forall2_nth; [exact G|]. rewrite LG. lia.
Qed.
(* ---- signed digit loops ---- *)
Fixpoint hsum (f : Z -> pt) (l : list Z) : pt := match l with [] => Inf | z :: t => add (f z) (zm 2 (hsum f t)) end.
Definition digit_fn (f : Z -> pt) : Prop := f 0 = Inf /\ forall z, on (f z).
Lemma hsum_on f l : digit_fn f -> on (hsum f l).
Proof. intros [_ F]. induction l as [|z t IH]; cbn [hsum]; auto with ec. Qed.
Lemma hsum_zero f l : digit_fn f -> (forall i, nth i l 0 = 0) -> hsum f l = Inf.
Proof. intros [F0 _]. induction l as [|z t IH]; intros H; cbn [hsum]; [reflexivity|]. rewrite IH by (intros i; exact (H (S i))). pose proof (H O) as Z. cbn [nth] in Z. rewrite Z, F0, m_e. reflexivity. Qed.
Lemma hsum_skip f l i : digit_fn f -> hsum f (skipn i l) = add (f (nth i l 0)) (zm 2 (hsum f (skipn (S i) l))).
Proof.
  intros [F0 F]. revert l. induction i as [|i IH]; intros [|z t]; cbn [skipn hsum nth]; try reflexivity; try (rewrite F0, m_e; reflexivity). rewrite IH. destruct t; reflexivity.
Qed.
Lemma hsum_mul P l : on P -> hsum (fun z => zm z P) l = zm (dval 2 l) P.
Proof. intros O. induction l as [|z t IH]; cbn [hsum]; [reflexivity|]. rewrite IH, <- m_mul, <- m_add by exact O. f_equal. Qed.
Lemma hsum_two (g1 g2 : Z -> Z) P Q l : on P -> on Q -> hsum (fun z => add (zm (g1 z) P) (zm (g2 z) Q)) l = add (zm (dval 2 (map g1 l)) P) (zm (dval 2 (map g2 l)) Q).
Proof.
  intros OP OQ. induction l as [|z t IH]; cbn [hsum map]; [reflexivity|]. rewrite IH, m_op, a_swap by auto with ec. rewrite <- !m_mul, <- !m_add by assumption. reflexivity.
Qed.
Definition entry := ((Z -> pt) * list Z)%type.
Fixpoint tot (es : list entry) (g : (Z -> pt) -> list Z -> pt) : pt := match es with [] => Inf | e :: t => add (g (fst e) (snd e)) (tot t g) end.
Definition ent_ok (e : entry) := digit_fn (fst e).
Definition wtab (wn : list (wge p) * list Z) (e : entry) : Prop :=
  snd wn = snd e /\ digit_fn (fst e) /\ forall r R z, In z (snd wn) \/ z = 0 -> jrep r R -> on R -> jrep (naf_mixed p a h r (fst wn) z) (add R (fst e z)).
Definition jtab (wn : list (jge p) * list Z) (e : entry) : Prop :=
  snd wn = snd e /\ digit_fn (fst e) /\ forall r R z, In z (snd wn) \/ z = 0 -> jrep r R -> on R -> jrep (naf_full p a h r (fst wn) z) (add R (fst e z)).
Lemma tot_on es g : Forall ent_ok es -> (forall f l, digit_fn f -> on (g f l)) -> on (tot es g).
Proof. intros F G. induction F as [|e t H _ IH]; cbn [tot]; [exact on_inf|]. apply a_on; [apply G; exact H|exact IH]. Qed.
Lemma nth_In_or i l : In (nth i l 0) l \/ nth i l 0 = 0.
Proof. destruct (nth_in_or_default i l 0); tauto. Qed.
Lemma fold_w i ws es : Forall2 wtab ws es -> forall r R, jrep r R -> on R ->
  jrep (fold_left (fun r wn => naf_mixed p a h r (fst wn) (nth i (snd wn) 0)) ws r) (add R (tot es (fun f l => f (nth i l 0)))).
Proof.
  induction 1 as [|wn e ws es [E [D H]] F IH]; intros r R HR OR; cbn [fold_left tot]; [rewrite a_inf by exact OR; exact HR|].
  assert (OT : on (tot es (fun f l => f (nth i l 0)))). { apply tot_on; [|intros f l [_ G]; apply G]. clear - F. induction F as [|? ? ? ? [_ [D _]] _ IH]; constructor; assumption. }
  rewrite <- E. rewrite <- a_assoc by (try apply D; assumption). apply IH; [apply H; try assumption; apply nth_In_or|apply a_on; [exact OR|apply D]].
Qed.
Lemma fold_j i ws es : Forall2 jtab ws es -> forall r R, jrep r R -> on R ->
  jrep (fold_left (fun r wn => naf_full p a h r (fst wn) (nth i (snd wn) 0)) ws r) (add R (tot es (fun f l => f (nth i l 0)))).
Proof.
  induction 1 as [|wn e ws es [E [D H]] F IH]; intros r R HR OR; cbn [fold_left tot]; [rewrite a_inf by exact OR; exact HR|].
  assert (OT : on (tot es (fun f l => f (nth i l 0)))). { apply tot_on; [|intros f l [_ G]; apply G]. clear - F. induction F as [|? ? ? ? [_ [D _]] _ IH]; constructor; assumption. }
  rewrite <- E. rewrite <- a_assoc by (try apply D; assumption). apply IH; [apply H; try assumption; apply nth_In_or|apply a_on; [exact OR|apply D]].
Qed.
Lemma tot_app e1 e2 g : Forall ent_ok e1 -> Forall ent_ok e2 -> (forall f l, digit_fn f -> on (g f l)) -> tot (e1 ++ e2) g = add (tot e1 g) (tot e2 g).
Proof.
  intros F1 F2 G. induction F1 as [|e t H F IH]; cbn [tot app]; [reflexivity|]. rewrite IH, a_assoc; try (apply G; exact H); try (apply tot_on; assumption). reflexivity.
Qed.
Lemma tot_step es i : Forall ent_ok es ->
  tot es (fun f l => hsum f (skipn i l)) = add (zm 2 (tot es (fun f l => hsum f (skipn (S i) l)))) (tot es (fun f l => f (nth i l 0))).
Proof.
  intros F. induction F as [|e t H F IH]; cbn [tot]; [reflexivity|].
  assert (O1 : on (tot t (fun f l => hsum f (skipn (S i) l)))) by (apply tot_on; [exact F|intros f l D; apply hsum_on; exact D]).
  assert (O2 : on (tot t (fun f l => f (nth i l 0)))) by (apply tot_on; [exact F|intros f l [_ D]; apply D]).
  assert (O3 : on (hsum (fst e) (skipn (S i) (snd e)))) by (apply hsum_on; exact H). assert (O4 : on (fst e (nth i (snd e) 0))) by apply H.
  rewrite IH, hsum_skip, m_op by assumption. rewrite (a_comm (fst e _)) by auto with ec. apply a_swap; auto with ec.
Qed.
Lemma wtab_ent ws es : Forall2 wtab ws es -> Forall ent_ok es.
Proof. induction 1 as [|? ? ? ? [_ [D _]] _ IH]; constructor; assumption. Qed.
Lemma jtab_ent ws es : Forall2 jtab ws es -> Forall ent_ok es.
Proof. induction 1 as [|? ? ? ? [_ [D _]] _ IH]; constructor; assumption. Qed.
Lemma shamir_loop ws js e1 e2 i : Forall2 wtab ws e1 -> Forall2 jtab js e2 -> forall r first,
  jrep r (tot (e1 ++ e2) (fun f l => hsum f (skipn i l))) -> (first = true -> tot (e1 ++ e2) (fun f l => hsum f (skipn i l)) = Inf) ->
  jrep (shamir p a h ws js r first i) (tot (e1 ++ e2) hsum).
Proof.
  intros F1 F2. pose proof (wtab_ent _ _ F1) as E1. pose proof (jtab_ent _ _ F2) as E2. assert (E12 : Forall ent_ok (e1 ++ e2)) by (apply Forall_app; split; assumption).
  induction i as [|i IH]; intros r first R Z; cbn [shamir]; [exact R|]. apply IH; [|discriminate]. rewrite tot_step by exact E12.
  set (T := tot (e1 ++ e2) (fun f l => hsum f (skipn (S i) l))) in *. assert (OT : on T) by (apply tot_on; [exact E12|intros; apply hsum_on; assumption]).
  rewrite tot_app by (try assumption; intros f l [_ D]; apply D).
  assert (O1 : on (tot e1 (fun f l => f (nth i l 0)))) by (apply tot_on; [exact E1|intros f l [_ D]; apply D]). assert (O2 : on (tot e2 (fun f l => f (nth i l 0)))) by (apply tot_on; [exact E2|intros f l [_ D]; apply D]).
  rewrite <- a_assoc by auto with ec. apply fold_j; [exact F2| |auto with ec]. apply fold_w; [exact F1| |auto with ec].
  destruct first; [rewrite (Z eq_refl), m_e in *; exact R|]. rewrite m_2 by exact OT. apply Jdblv. exact R.
Qed.
Theorem shamir_ok ws js e1 e2 max : Forall2 wtab ws e1 -> Forall2 jtab js e2 -> (forall e, In e (e1 ++ e2) -> forall i, (max <= i)%nat -> nth i (snd e) 0 = 0) ->
  jrep (shamir p a h ws js (jge_zero p) true max) (tot (e1 ++ e2) hsum).
Proof.
  intros F1 F2 Z. pose proof (wtab_ent _ _ F1) as E1. pose proof (jtab_ent _ _ F2) as E2. assert (E12 : Forall ent_ok (e1 ++ e2)) by (apply Forall_app; split; assumption).
  assert (T : tot (e1 ++ e2) (fun f l => hsum f (skipn max l)) = Inf).
  { revert Z. induction E12 as [|e t D F IH]; intros Z; cbn [tot]; [reflexivity|]. rewrite IH by (intros e' I; apply Z; right; exact I). rewrite hsum_zero; [reflexivity|exact D|].
    intros i. rewrite nth_skipn. apply Z; [left; reflexivity|lia]. }
  apply shamir_loop; try assumption; [rewrite T; constructor|intros _; exact T].
Qed.
(* ---- tables for the recodings ---- *)
Definition naf_jtable (wnd : list (jge p)) (w : nat) (P : pt) : Prop := forall j, (j < 2 ^ (w - 2))%nat -> jrep (nth j wnd (jge_zero p)) (zm (2 * Z.of_nat j + 1) P).
Definition naf_wtable (wnd : list (wge p)) (w : nat) (P : pt) : Prop := forall j, (j < 2 ^ (w - 2))%nat -> wrep (nth j wnd (wge_zero p)) (zm (2 * Z.of_nat j + 1) P).
Lemma digit_index w z : (2 <= w)%nat -> digit_ok w z -> z <> 0 -> (Z.to_nat ((Z.abs z - 1) / 2) < 2 ^ (w - 2))%nat /\ 2 * Z.of_nat (Z.to_nat ((Z.abs z - 1) / 2)) + 1 = Z.abs z.
Proof.
  intros W [->|[D B]] N; [contradiction|]. assert (E : exists y, Z.abs z = 2 * y + 1). { apply Z.odd_spec. destruct (Z.abs_spec z) as [[_ ->]|[_ ->]]; rewrite ?Z.odd_opp; exact D. } destruct E as [y E]. rewrite E in *. clear D.
  replace (2 * y + 1 - 1) with (y * 2) by ring. rewrite Z.div_mul by lia. assert (0 <= y) by lia. split; [|lia].
  apply Nat2Z.inj_lt. rewrite Nat2Z.inj_pow, Z2Nat.id by lia. replace (Z.of_nat w - 1) with (Z.of_nat (w - 2) + 1) in B by lia. rewrite Z.pow_add_r, Z.pow_1_r in B by lia. change (Z.of_nat 2) with 2. lia.
Qed.
Lemma mul_digit_fn P : on P -> digit_fn (fun z => zm z P).
Proof. intros O. split; [reflexivity|]. intros z. auto with ec. Qed.
Lemma naf_mixed_ok w wnd P r R z : (2 <= w)%nat -> naf_wtable wnd w P -> on P -> digit_ok w z -> jrep r R -> on R -> jrep (naf_mixed p a h r wnd z) (add R (zm z P)).
Proof.
  intros W T O D HR OR. unfold naf_mixed. destruct (Z.ltb_spec 0 z) as [H|H].
  - destruct (digit_index w z W D ltac:(lia)) as [I E]. rewrite Z.abs_eq in * by lia. specialize (T _ I). rewrite E in T. apply Jmaddv; assumption.
  - destruct (Z.ltb_spec z 0) as [H'|H'].
    + destruct (digit_index w z W D ltac:(lia)) as [I E]. rewrite Z.abs_neq in * by lia. specialize (T _ I). rewrite E in T. replace (zm z P) with (neg (zm (- z) P)); [apply Jmsubv; assumption|]. rewrite <- m_neg, Z.opp_involutive by exact O. reflexivity.
    + assert (z = 0) as -> by lia. rewrite m_0, a_inf by exact OR. exact HR.
Qed.
Lemma naf_full_ok w wnd P r R z : (2 <= w)%nat -> naf_jtable wnd w P -> on P -> digit_ok w z -> jrep r R -> on R -> jrep (naf_full p a h r wnd z) (add R (zm z P)).
Proof.
  intros W T O D HR OR. unfold naf_full. destruct (Z.ltb_spec 0 z) as [H|H].
  - destruct (digit_index w z W D ltac:(lia)) as [I E]. rewrite Z.abs_eq in * by lia. specialize (T _ I). rewrite E in T. apply Jaddv; assumption.
  - destruct (Z.ltb_spec z 0) as [H'|H'].
    + destruct (digit_index w z W D ltac:(lia)) as [I E]. rewrite Z.abs_neq in * by lia. specialize (T _ I). rewrite E in T. replace (zm z P) with (neg (zm (- z) P)); [apply Jsubv; assumption|]. rewrite <- m_neg, Z.opp_involutive by exact O. reflexivity.
    + assert (z = 0) as -> by lia. rewrite m_0, a_inf by exact OR. exact HR.
Qed.
Lemma naf_points_list q P w : wrep q P -> Forall2 jrep (jge_naf_points_var p a h q w) (map (fun j => zm (2 * Z.of_nat j + 1) P) (seq 0 (2 ^ (w - 2)))).
Proof.
  intros W. pose proof (wrep_on _ _ _ _ _ W) as O. unfold jge_naf_points_var. pose proof (steps_from_ok _ _ (2 ^ (w - 2)) (Jdblv _ _ (Jset q P W)) (a_on _ _ O O) _ _ (Jset q P W) O) as F.
  replace (map (fun j => zm (2 * Z.of_nat j + 1) P) (seq 0 (2 ^ (w - 2)))) with (map (fun j => add P (zm (Z.of_nat j) (add P P))) (seq 0 (2 ^ (w - 2)))); [exact F|].
  apply map_ext. intros j. rewrite <- m_2, <- m_mul by exact O. rewrite <- (m_1 P) at 1 by exact O. rewrite <- m_add by exact O. f_equal. lia.
Qed.
Lemma nth_map_seq (g : nat -> pt) n j : (j < n)%nat -> nth j (map g (seq 0 n)) Inf = g j.
Proof. intros H. rewrite (nth_indep _ _ (g O)) by (rewrite map_length, seq_length; exact H). rewrite map_nth, seq_nth by exact H. reflexivity. Qed.
Theorem jge_naf_points_ok q P w : wrep q P -> naf_jtable (jge_naf_points_var p a h q w) w P.
Proof.
  intros W j Hj. pose proof (naf_points_list q P w W) as F. rewrite <- (nth_map_seq (fun j => zm (2 * Z.of_nat j + 1) P) (2 ^ (w - 2))) by exact Hj. apply Forall2_nth; [exact F|]. rewrite (Forall2_len _ _ _ F), map_length, seq_length. exact Hj.
Qed.
Theorem wge_naf_points_ok q P w : wrep q P -> exists wnd, wge_naf_points_var p a h q w = Some wnd /\ naf_wtable wnd w P.
Proof.
  intros W. pose proof (naf_points_list q P w W) as F. destruct (wge_set_jge_all_var_ok p Pp P3 a b _ _ F) as (ws & E & G). exists ws. split; [exact E|].
  intros j Hj. rewrite <- (nth_map_seq (fun j => zm (2 * Z.of_nat j + 1) P) (2 ^ (w - 2))) by exact Hj. apply Forall2_nth; [exact G|]. rewrite (Forall2_len _ _ _ G), map_length, seq_length. exact Hj.
Qed.
Definition jsf_fn (P Q : pt) (z : Z) : pt := add (zm (fst (jsf_of z)) P) (zm (snd (jsf_of z)) Q).
Lemma jsf_digit_fn P Q : on P -> on Q -> digit_fn (jsf_fn P Q).
Proof. intros OP OQ. split; [reflexivity|]. intros z. unfold jsf_fn. auto with ec. Qed.
Lemma jsf_full_ok wnd P Q r R z : on P -> on Q -> Forall2 jrep wnd [P; add P Q; add P (neg Q); Q] -> In z jdigits -> jrep r R -> on R -> jrep (naf_full p a h r wnd z) (add R (jsf_fn P Q z)).
Proof.
  intros OP OQ F I HR OR. inversion F as [|w0 ? r0 ? H0 F0]; subst. inversion F0 as [|w1 ? r1 ? H1 F1]; subst. inversion F1 as [|w2 ? r2 ? H2 F2]; subst. inversion F2 as [|w3 ? r3 ? H3 F3]; subst. inversion F3; subst.
  assert (M1 : zm (-1) P = neg P) by (change (-1) with (- (1)); rewrite m_neg, m_1 by exact OP; reflexivity). assert (M1' : zm (-1) Q = neg Q) by (change (-1) with (- (1)); rewrite m_neg, m_1 by exact OQ; reflexivity).
  assert (N2 : neg (add P (neg Q)) = add (neg P) Q). { rewrite (inv_op _ _ _ _ _ L) by auto with ec. rewrite (inv_inv _ _ _ _ _ L) by exact OQ. reflexivity. }
  assert (N1 : neg (add P Q) = add (neg P) (neg Q)) by (rewrite (inv_op _ _ _ _ _ L) by auto with ec; reflexivity).
  cbn [In jdigits] in I. unfold jsf_fn. destruct I as [<-|[<-|[<-|[<-|[<-|[<-|[<-|[<-|[<-|[]]]]]]]]]].
  - change (jsf_of 0) with (0, 0). cbn [fst snd]. change (naf_full p a h r [w0; w1; w2; w3] 0) with r. change (add (zm 0 P) (zm 0 Q)) with (@Inf fe). rewrite a_inf by exact OR. exact HR.
  - change (jsf_of 1) with (1, 0). cbn [fst snd]. change (naf_full p a h r [w0; w1; w2; w3] 1) with (jge_add_var p a h r w0). rewrite m_1, m_0, a_inf by assumption. apply Jaddv; assumption.
  - change (jsf_of 3) with (1, 1). cbn [fst snd]. change (naf_full p a h r [w0; w1; w2; w3] 3) with (jge_add_var p a h r w1). rewrite !m_1 by assumption. apply Jaddv; assumption.
  - change (jsf_of 5) with (1, -1). cbn [fst snd]. change (naf_full p a h r [w0; w1; w2; w3] 5) with (jge_add_var p a h r w2). rewrite m_1, M1' by assumption. apply Jaddv; assumption.
  - change (jsf_of 7) with (0, 1). cbn [fst snd]. change (naf_full p a h r [w0; w1; w2; w3] 7) with (jge_add_var p a h r w3). rewrite m_1 by assumption. apply Jaddv; assumption.
  - change (jsf_of (-1)) with (-1, 0). cbn [fst snd]. change (naf_full p a h r [w0; w1; w2; w3] (-1)) with (jge_sub_var p a h r w0). rewrite M1, m_0, a_inf by auto with ec. apply Jsubv; assumption.
  - change (jsf_of (-3)) with (-1, -1). cbn [fst snd]. change (naf_full p a h r [w0; w1; w2; w3] (-3)) with (jge_sub_var p a h r w1). rewrite M1, M1', <- N1. apply Jsubv; assumption.
  - change (jsf_of (-5)) with (-1, 1). cbn [fst snd]. change (naf_full p a h r [w0; w1; w2; w3] (-5)) with (jge_sub_var p a h r w2). rewrite M1, m_1, <- N2 by assumption. apply Jsubv; assumption.
  - change (jsf_of (-7)) with (0, -1). cbn [fst snd]. change (naf_full p a h r [w0; w1; w2; w3] (-7)) with (jge_sub_var p a h r w3). rewrite M1'. apply Jsubv; assumption.
Qed.
Lemma jsf_points_ok q1 q2 P Q : wrep q1 P -> wrep q2 Q -> Forall2 jrep (jge_jsf_points_var p a h q1 q2) [P; add P Q; add P (neg Q); Q].
Proof. intros W1 W2. unfold jge_jsf_points_var. repeat constructor; auto using Jset, Jmaddv, Jmsubv. Qed.
(* ---- the double and multi multiplications without endomorphism ---- *)
Definition naf_fn (P : pt) := fun z => zm z P.
Lemma jtab_naf wnd naf w P : (2 <= w)%nat -> naf_jtable wnd w P -> on P -> Forall (digit_ok w) naf -> jtab (wnd, naf) (naf_fn P, naf).
Proof.
  intros W T O D. split; [reflexivity|]. split; [apply mul_digit_fn; exact O|]. cbn [fst snd]. intros r R z I HR OR. apply (naf_full_ok w); try assumption. destruct I as [I| ->]; [|left; reflexivity]. rewrite Forall_forall in D. apply D. exact I.
Qed.
Lemma wtab_naf wnd naf w P : (2 <= w)%nat -> naf_wtable wnd w P -> on P -> Forall (digit_ok w) naf -> wtab (wnd, naf) (naf_fn P, naf).
Proof.
  intros W T O D. split; [reflexivity|]. split; [apply mul_digit_fn; exact O|]. cbn [fst snd]. intros r R z I HR OR. apply (naf_mixed_ok w); try assumption. destruct I as [I| ->]; [|left; reflexivity]. rewrite Forall_forall in D. apply D. exact I.
Qed.
Lemma jtab_jsf wnd naf P Q : on P -> on Q -> Forall2 jrep wnd [P; add P Q; add P (neg Q); Q] -> Forall (fun z => In z jdigits) naf -> jtab (wnd, naf) (jsf_fn P Q, naf).
Proof.
  intros OP OQ T D. split; [reflexivity|]. split; [apply jsf_digit_fn; assumption|]. cbn [fst snd]. intros r R z I HR OR. apply jsf_full_ok; try assumption. destruct I as [I| ->]; [|left; reflexivity]. rewrite Forall_forall in D. apply D. exact I.
Qed.
Theorem wei_jmul_double_normal_ok sbits wnd G k1 q2 Q k2 : 0 <= k1 < 2 ^ Z.of_nat sbits -> 0 <= k2 < 2 ^ Z.of_nat sbits -> naf_wtable wnd NAF_WIDTH_PRE G -> on G -> wrep q2 Q ->
  exists r, wei_jmul_double_normal_var p a h sbits wnd k1 q2 k2 = Some r /\ jrep r (add (zm k1 G) (zm k2 Q)).
Proof.
  intros K1 K2 T OG W. pose proof (wrep_on _ _ _ _ _ W) as OQ. unfold wei_jmul_double_normal_var, sc_naf_var.
  destruct (naf_spec k1 1 NAF_WIDTH_PRE (S sbits)) as (n1 & l1 & E1 & _ & V1 & D1 & T1 & _); try (unfold NAF_WIDTH_PRE; lia); [apply bitlen_fits; exact K1|].
  destruct (naf_spec k2 1 NAF_WIDTH (S sbits)) as (n2 & l2 & E2 & _ & V2 & D2 & T2 & _); try (unfold NAF_WIDTH; lia); [apply bitlen_fits; exact K2|].
  rewrite E1, E2. eexists. split; [reflexivity|].
  pose proof (shamir_ok [(wnd, n1)] [(jge_naf_points_var p a h q2 NAF_WIDTH, n2)] [(naf_fn G, n1)] [(naf_fn Q, n2)] (Nat.max l1 l2)) as S.
  cbn [app tot fst snd] in S. unfold naf_fn in S at 5 6. rewrite !hsum_mul, V1, V2, !Z.mul_1_l, a_inf in S by auto with ec. apply S.
  - repeat constructor; try (apply mul_digit_fn; exact OG). apply (wtab_naf wnd n1 NAF_WIDTH_PRE G); try assumption. unfold NAF_WIDTH_PRE; lia.
  - repeat constructor; try (apply mul_digit_fn; exact OQ). apply (jtab_naf _ n2 NAF_WIDTH Q); try assumption; [unfold NAF_WIDTH; lia|apply jge_naf_points_ok; exact W].
  - intros e [<-|[<-|[]]] i Hi; cbn [snd]; [apply (proj1 T1)|apply (proj1 T2)]; lia.
Qed.
Fixpoint msum (l : list (pt * Z)) : pt := match l with [] => Inf | (P, c) :: t => add (zm c P) (msum t) end.
Definition mrep (sbits : nat) (e : wge p * Z) (P : pt * Z) : Prop := wrep (fst e) (fst P) /\ snd e = snd P /\ 0 <= snd e < 2 ^ Z.of_nat sbits.
Lemma list_ind2 {A} (Q : list A -> Prop) : Q [] -> (forall x, Q [x]) -> (forall x y l, Q l -> Q (x :: y :: l)) -> forall l, Q l.
Proof. intros Q0 Q1 Q2. fix f 1. intros [|x [|y l]]; [exact Q0|exact (Q1 x)|exact (Q2 x y l (f l))]. Qed.
Lemma msum_on sbits l Ps : Forall2 (mrep sbits) l Ps -> on (msum Ps).
Proof. induction 1 as [|[q c] [P c'] ? ? [W _] F IH]; cbn [msum]; auto with ec. apply a_on; [apply m_on; exact (wrep_on _ _ _ _ _ W)|exact IH]. Qed.
Lemma multi_pairs_ok sbits l : forall Ps, Forall2 (mrep sbits) l Ps -> exists js max es, multi_pairs p a h sbits l = Some (js, max) /\ Forall2 jtab js es /\
  (forall e, In e es -> forall i, (max <= i)%nat -> nth i (snd e) 0 = 0) /\ tot es hsum = msum Ps.
Proof.
  induction l as [| [q c] |[q1 c1] [q2 c2] t IH] using list_ind2; intros Ps F.
  - inversion F; subst. exists [], O, []. repeat split; try constructor. intros e [].
  - inversion F as [|? [P c'] ? Ps' [W [E K]] F']; subst. inversion F'; subst. cbn [fst snd] in *. subst c'. pose proof (wrep_on _ _ _ _ _ W) as O. cbn [multi_pairs]. unfold sc_naf_var.
    destruct (naf_spec c 1 NAF_WIDTH (S sbits)) as (n1 & l1 & E1 & _ & V1 & D1 & T1 & _); try (unfold NAF_WIDTH; lia); [apply bitlen_fits; exact K|]. rewrite E1.
    eexists _, _, [(naf_fn P, n1)]. split; [reflexivity|]. split; [|split].
    + constructor; [|constructor]. apply (jtab_naf _ n1 NAF_WIDTH P); try assumption; [unfold NAF_WIDTH; lia|apply jge_naf_points_ok; exact W].
    + intros e [<-|[]] i Hi. apply (proj1 T1). exact Hi.
    + cbn [tot fst snd msum]. unfold naf_fn. rewrite hsum_mul, V1, Z.mul_1_l by exact O. reflexivity.
  - inversion F as [|? [P1 c1'] ? Ps1 [W1 [E1 K1]] F1]; subst. inversion F1 as [|? [P2 c2'] ? Ps2 [W2 [E2 K2]] F2]; subst. cbn [fst snd] in *. subst c1' c2'. pose proof (wrep_on _ _ _ _ _ W1) as O1. pose proof (wrep_on _ _ _ _ _ W2) as O2.
    destruct (IH Ps2 F2) as (js & max & es & EM & FJ & Z & TT). cbn [multi_pairs]. rewrite EM. unfold sc_jsf_var.
    destruct (jsf_spec c1 1 c2 1 ltac:(lia) ltac:(lia) ltac:(tauto) ltac:(tauto) (S sbits)) as (n1 & l1 & EJ & _ & V1 & V2 & D & T); [pose proof (bitlen_fits sbits c1 K1); pose proof (bitlen_fits sbits c2 K2); lia|]. rewrite EJ.
    eexists _, _, ((jsf_fn P1 P2, n1) :: es). split; [reflexivity|]. split; [|split].
    + constructor; [|exact FJ]. apply jtab_jsf; try assumption. apply jsf_points_ok; assumption.
    + intros e [<-|I] i Hi; [apply (proj1 T); lia|apply (Z e I); lia].
    + cbn [tot fst snd msum]. rewrite TT. unfold jsf_fn. rewrite (hsum_two (fun z => fst (jsf_of z)) (fun z => snd (jsf_of z))), V1, V2, !Z.mul_1_l by assumption. apply a_assoc; auto with ec. apply (msum_on _ _ _ F2).
Qed.
Theorem wei_jmul_multi_normal_ok sbits wnd G k0 l Ps : 0 <= k0 < 2 ^ Z.of_nat sbits -> naf_wtable wnd NAF_WIDTH_PRE G -> on G -> Forall2 (mrep sbits) l Ps ->
  exists r, wei_jmul_multi_normal_var p a h sbits wnd k0 l = Some r /\ jrep r (add (zm k0 G) (msum Ps)).
Proof.
  intros K T OG F. unfold wei_jmul_multi_normal_var, sc_naf_var.
  destruct (naf_spec k0 1 NAF_WIDTH_PRE (S sbits)) as (n1 & l1 & E1 & _ & V1 & D1 & T1 & _); try (unfold NAF_WIDTH_PRE; lia); [apply bitlen_fits; exact K|].
  destruct (multi_pairs_ok sbits l Ps F) as (js & max & es & EM & FJ & Z & TT). rewrite E1, EM. eexists. split; [reflexivity|].
  pose proof (shamir_ok [(wnd, n1)] js [(naf_fn G, n1)] es (Nat.max l1 max)) as S. cbn [app tot fst snd] in S. rewrite TT in S. unfold naf_fn in S at 3. rewrite hsum_mul, V1, Z.mul_1_l in S by exact OG. apply S.
  - constructor; [|constructor]. apply (wtab_naf wnd n1 NAF_WIDTH_PRE G); try assumption. unfold NAF_WIDTH_PRE; lia.
  - exact FJ.
  - intros e [<-|I] i Hi; [apply (proj1 T1); lia|apply (Z e I); lia].
Qed.
(* ---- with the endomorphism ---- *)
Section Endo.
Variables (n lambda : Z) (beta : fe) (endo_bits : nat) (split : Z -> Z * Z).
Hypothesis N : 1 < n.
Hypothesis A0 : a = f0.
Hypothesis B3 : fe_mul (fe_mul beta beta) beta = f1.
Hypothesis ord : forall P, on P -> zm n P = Inf.
Hypothesis endo : forall P, on P -> pendo p beta P = zm lambda P.
Definition split_ok (k : Z) : Prop := let '(k1, k2) := split k in
  0 <= k1 < n /\ 0 <= k2 < n /\ (k1 + lambda * k2) mod n = k mod n /\ fst (sc_minimize n k1) < 2 ^ Z.of_nat endo_bits /\ fst (sc_minimize n k2) < 2 ^ Z.of_nat endo_bits.
Lemma Wendo q P : wrep q P -> wrep (wge_endo_beta p beta q) (zm lambda P).
Proof. intros W. rewrite <- endo by (eapply wrep_on; exact W). apply wge_endo_ok; assumption. Qed.
Lemma Jendo q P : jrep q P -> jrep (jge_endo_beta p beta q) (zm lambda P).
Proof. intros W. rewrite <- endo by (eapply jrep_on; exact W). apply jge_endo_ok; assumption. Qed.
Lemma m_eqm i j P : on P -> i mod n = j mod n -> zm i P = zm j P.
Proof. intros O E. exact (zm_eqm _ _ _ _ _ L i j n P O (ord P O) E). Qed.
Definition sg (s : bool) : Z := if s then -1 else 1.
Lemma min_mul k c s P : 0 <= k < n -> sc_minimize n k = (c, s) -> on P -> 0 <= c /\ zm (sg s * c) P = zm k P.
Proof.
  intros K E O. pose proof (minimize_spec n k ltac:(clear - N; lia) K) as H. rewrite E in H. destruct H as [B H]. split; [exact (proj1 B)|]. unfold sg. rewrite H. destruct s; [|reflexivity].
  apply m_eqm; [exact O|]. replace (k - n) with (k + (-1) * n) by ring. apply Z.mod_add. clear - N. lia.
Qed.
Lemma join k k1 k2 P : (k1 + lambda * k2) mod n = k mod n -> on P -> add (zm k1 P) (zm k2 (zm lambda P)) = zm k P.
Proof. intros E O. rewrite <- m_mul, <- m_add by exact O. apply m_eqm; [exact O|]. rewrite <- E. f_equal. ring. Qed.
Lemma tab_map (f : jge p -> jge p) wnd P P' : length wnd = 16%nat -> jtable wnd P -> (forall q j, jrep q (zm j P) -> jrep (f q) (zm j P')) ->
  length (jge_zero p :: map f (tl wnd)) = 16%nat /\ jtable (jge_zero p :: map f (tl wnd)) P'.
Proof.
  intros Lw T F. destruct wnd as [|w0 wnd]; [discriminate|]. cbn [tl length] in *. rewrite map_length. split; [exact Lw|]. intros [|j] Hj; [constructor|]. cbn [nth length] in *. rewrite map_length in Hj.
  rewrite (nth_indep _ _ (f (jge_zero p))) by (rewrite map_length; lia). rewrite map_nth. apply F. apply (T (S j)). cbn [length]. lia.
Qed.
Lemma jmul_endo_loop_ok w1 w2 P Q k1 k2 i : length w1 = 16%nat -> length w2 = 16%nat -> jtable w1 P -> jtable w2 Q -> on P -> on Q -> forall r t1 t2 first,
  jrep r (add (zm (k1 / 16 ^ Z.of_nat i) P) (zm (k2 / 16 ^ Z.of_nat i) Q)) -> (first = true -> k1 / 16 ^ Z.of_nat i = 0 /\ k2 / 16 ^ Z.of_nat i = 0) ->
  jrep (jmul_endo_loop p a h w1 w2 k1 k2 r t1 t2 first i) (add (zm k1 P) (zm k2 Q)).
Proof.
  intros L1 L2 T1 T2 OP OQ. induction i as [|i IH]; intros r t1 t2 first R F; cbn [jmul_endo_loop].
  - change (16 ^ Z.of_nat 0) with 1 in R. rewrite !Z.div_1_r in R. exact R.
  - destruct (get4 k1 i) as [Ba Ea]. destruct (get4 k2 i) as [Bb Eb]. set (da := sc_get_bits k1 (i * 4) 4) in *. set (db := sc_get_bits k2 (i * 4) 4) in *. clearbody da db.
    rewrite !(jge_lookup_ok (jge_zero p)) by (rewrite ?L1, ?L2; clear - Ba Bb; lia). rewrite !Z.sub_0_r.
    assert (TA : jrep (nth (Z.to_nat da) w1 (jge_zero p)) (zm da P)). { rewrite <- (Z2Nat.id da) at 2 by exact (proj1 Ba). apply T1. rewrite L1. clear - Ba; lia. }
    assert (TB : jrep (nth (Z.to_nat db) w2 (jge_zero p)) (zm db Q)). { rewrite <- (Z2Nat.id db) at 2 by exact (proj1 Bb). apply T2. rewrite L2. clear - Bb; lia. }
    apply IH; [|discriminate]. rewrite Ea, Eb. destruct first.
    + destruct (F eq_refl) as [-> ->]. apply Jadd; assumption.
    + rewrite !m_add, !m_mul, a_swap by auto with ec. rewrite <- m_op, <- a_assoc by auto with ec. apply Jadd; [|exact TB]. apply Jadd; [|exact TA]. apply dbl4; auto with ec.
Qed.
Theorem wei_jmul_endo_ok q P k : split_ok k -> wrep q P -> jrep (wei_jmul_endo p a h n endo_bits beta split q k) (zm k P).
Proof.
  intros SK W. unfold split_ok in SK. unfold wei_jmul_endo. destruct (split k) as [k1 k2]. destruct SK as (K1 & K2 & E & B1 & B2). pose proof (wrep_on _ _ _ _ _ W) as O.
  destruct (sc_minimize n k1) as [c1 s1] eqn:M1. destruct (sc_minimize n k2) as [c2 s2] eqn:M2. cbn [fst] in B1, B2.
  destruct (min_mul k1 c1 s1 P K1 M1 O) as [P1 V1]. destruct (min_mul k2 c2 s2 (zm lambda P) K2 M2 (m_on lambda P O)) as [P2 V2].
  destruct (window_ok q P W) as [Lw T]. cbn [tl].
  destruct (tab_map (jge_endo_beta p beta) _ P (zm lambda P) Lw T) as [Lb Tb]. { intros j i H. apply Jendo in H. rewrite <- m_mul in H |- * by exact O. rewrite Z.mul_comm. exact H. }
  assert (NC : forall s X, on X -> forall j i, jrep j (zm i X) -> jrep (jge_neg_cond p j s) (zm i (zm (sg s) X))).
  { intros s X OX j i H. apply (jge_neg_cond_ok p Pp a b _ _ s) in H. unfold sg. destruct s; rewrite <- m_mul by exact OX.
    - replace (i * -1) with (- i) by ring. rewrite m_neg by exact OX. exact H.
    - rewrite Z.mul_1_r. exact H. }
  destruct (tab_map (fun j => jge_neg_cond p j s1) _ P (zm (sg s1) P) Lw T (NC s1 P O)) as [L1 T1].
  destruct (tab_map (fun j => jge_neg_cond p j s2) _ (zm lambda P) (zm (sg s2) (zm lambda P)) Lb Tb (NC s2 _ (m_on lambda P O))) as [L2 T2].
  rewrite <- (join k k1 k2 P E O), <- V1, <- V2. rewrite (Z.mul_comm (sg s1)), (Z.mul_comm (sg s2)), (m_mul c1), (m_mul c2) by auto with ec.
  pose proof (nsteps_cover endo_bits c1 (conj P1 B1)) as Z1. pose proof (nsteps_cover endo_bits c2 (conj P2 B2)) as Z2.
  apply jmul_endo_loop_ok; try assumption; auto with ec.
  rewrite Z1, Z2. constructor.
Qed.
Lemma naf_endo_ok k1 k2 w : (2 <= w)%nat -> 0 <= k1 < n -> 0 <= k2 < n -> fst (sc_minimize n k1) < 2 ^ Z.of_nat endo_bits -> fst (sc_minimize n k2) < 2 ^ Z.of_nat endo_bits ->
  exists n1 n2 len, sc_naf_endo_var n endo_bits k1 k2 w = Some (n1, n2, len) /\ Forall (digit_ok w) n1 /\ Forall (digit_ok w) n2 /\
    (forall i, (len <= i)%nat -> nth i n1 0 = 0 /\ nth i n2 0 = 0) /\ (forall P, on P -> zm (dval 2 n1) P = zm k1 P) /\ (forall P, on P -> zm (dval 2 n2) P = zm k2 P).
Proof.
  intros Hw K1 K2 B1 B2. unfold sc_naf_endo_var. destruct (sc_minimize n k1) as [c1 s1] eqn:M1. destruct (sc_minimize n k2) as [c2 s2] eqn:M2. cbn [fst] in B1, B2.
  destruct (min_mul k1 c1 s1 Inf K1 M1 on_inf) as [P1 _]. destruct (min_mul k2 c2 s2 Inf K2 M2 on_inf) as [P2 _].
  destruct (naf_spec c1 (if s1 then -1 else 1) w (S endo_bits)) as (n1 & l1 & E1 & _ & V1 & D1 & T1 & _); try assumption; [destruct s1; tauto|exact (bitlen_fits endo_bits c1 (conj P1 B1))|].
  destruct (naf_spec c2 (if s2 then -1 else 1) w (S endo_bits)) as (n2 & l2 & E2 & _ & V2 & D2 & T2 & _); try assumption; [destruct s2; tauto|exact (bitlen_fits endo_bits c2 (conj P2 B2))|].
  rewrite E1, E2. exists n1, n2, (Nat.max l1 l2). split; [reflexivity|]. split; [exact D1|]. split; [exact D2|]. split.
  { intros i Hi. split; [apply (proj1 T1)|apply (proj1 T2)]; clear - Hi; lia. }
  split; intros P O; [rewrite V1|rewrite V2].
  - exact (proj2 (min_mul k1 c1 s1 P K1 M1 O)).
  - exact (proj2 (min_mul k2 c2 s2 P K2 M2 O)).
Qed.
Lemma jsf_endo_ok k1 k2 : 0 <= k1 < n -> 0 <= k2 < n -> fst (sc_minimize n k1) < 2 ^ Z.of_nat endo_bits -> fst (sc_minimize n k2) < 2 ^ Z.of_nat endo_bits ->
  exists naf len, sc_jsf_endo_var n endo_bits k1 k2 = Some (naf, len) /\ Forall (fun z => In z jdigits) naf /\ (forall i, (len <= i)%nat -> nth i naf 0 = 0) /\
    (forall P, on P -> zm (dval 2 (map (fun z => fst (jsf_of z)) naf)) P = zm k1 P) /\ (forall P, on P -> zm (dval 2 (map (fun z => snd (jsf_of z)) naf)) P = zm k2 P).
Proof.
  intros K1 K2 B1 B2. unfold sc_jsf_endo_var. destruct (sc_minimize n k1) as [c1 s1] eqn:M1. destruct (sc_minimize n k2) as [c2 s2] eqn:M2. cbn [fst] in B1, B2.
  destruct (min_mul k1 c1 s1 Inf K1 M1 on_inf) as [P1 _]. destruct (min_mul k2 c2 s2 Inf K2 M2 on_inf) as [P2 _].
  destruct (jsf_spec c1 (if s1 then -1 else 1) c2 (if s2 then -1 else 1) P1 P2 ltac:(destruct s1; tauto) ltac:(destruct s2; tauto) (S endo_bits)) as (naf & len & E & _ & V1 & V2 & D & T).
  { pose proof (bitlen_fits endo_bits c1 (conj P1 B1)). pose proof (bitlen_fits endo_bits c2 (conj P2 B2)). apply Nat.max_lub; assumption. }
  exists naf, len. split; [exact E|]. split; [exact D|]. split; [exact (proj1 T)|]. split; intros P O; [rewrite V1|rewrite V2].
  - exact (proj2 (min_mul k1 c1 s1 P K1 M1 O)).
  - exact (proj2 (min_mul k2 c2 s2 P K2 M2 O)).
Qed.
Lemma jsf_points_endo_ok q P : wrep q P -> exists l, jge_jsf_points_endo_var p a h beta q = Some l /\ Forall2 jrep l [P; add P (zm lambda P); add P (neg (zm lambda P)); zm lambda P].
Proof.
  intros W. unfold jge_jsf_points_endo_var. pose proof (Wendo q P W) as W2. destruct (wge_add_var_ok p Pp P3 a b h no2 _ _ _ _ W W2) as (w3 & E & W3). rewrite E. eexists. split; [reflexivity|].
  repeat constructor; auto using Jset, Jmsubv.
Qed.
Lemma jtab_jsf_endo k k1 k2 naf wnd P : on P -> Forall2 jrep wnd [P; add P (zm lambda P); add P (neg (zm lambda P)); zm lambda P] -> Forall (fun z => In z jdigits) naf ->
  (k1 + lambda * k2) mod n = k mod n ->
  (forall P, on P -> zm (dval 2 (map (fun z => fst (jsf_of z)) naf)) P = zm k1 P) -> (forall P, on P -> zm (dval 2 (map (fun z => snd (jsf_of z)) naf)) P = zm k2 P) ->
  jtab (wnd, naf) (jsf_fn P (zm lambda P), naf) /\ hsum (jsf_fn P (zm lambda P)) naf = zm k P.
Proof.
  intros O T D E V1 V2. split; [apply jtab_jsf; auto with ec|]. unfold jsf_fn. rewrite (hsum_two (fun z => fst (jsf_of z)) (fun z => snd (jsf_of z))) by auto with ec. rewrite V1, V2 by auto with ec. apply join; assumption.
Qed.
Theorem wei_jmul_double_endo_ok wnd wndb G k1 q2 Q k2 : split_ok k1 -> split_ok k2 -> naf_wtable wnd NAF_WIDTH_PRE G -> naf_wtable wndb NAF_WIDTH_PRE (zm lambda G) -> on G -> wrep q2 Q ->
  exists r, wei_jmul_double_endo_var p a h n endo_bits beta split wnd wndb k1 q2 k2 = Some r /\ jrep r (add (zm k1 G) (zm k2 Q)).
Proof.
  intros S1 S2 T Tb OG W. pose proof (wrep_on _ _ _ _ _ W) as OQ. unfold wei_jmul_double_endo_var. unfold split_ok in *. destruct (split k1) as [c1 c2]. destruct (split k2) as [c3 c4].
  destruct S1 as (C1 & C2 & E1 & B1 & B2). destruct S2 as (C3 & C4 & E2 & B3' & B4).
  destruct (naf_endo_ok c1 c2 NAF_WIDTH_PRE ltac:(unfold NAF_WIDTH_PRE; lia) C1 C2 B1 B2) as (n1 & n2 & len & EN & D1 & D2 & Z & V1 & V2).
  destruct (jsf_endo_ok c3 c4 C3 C4 B3' B4) as (n3 & len3 & EJ & D3 & Z3 & V3 & V4). destruct (jsf_points_endo_ok q2 Q W) as (w3 & EP & T3). rewrite EN, EJ, EP. eexists. split; [reflexivity|].
  destruct (jtab_jsf_endo k2 c3 c4 n3 w3 Q OQ T3 D3 E2 V3 V4) as [J3 H3].
  pose proof (shamir_ok [(wnd, n1); (wndb, n2)] [(w3, n3)] [(naf_fn G, n1); (naf_fn (zm lambda G), n2)] [(jsf_fn Q (zm lambda Q), n3)] (Nat.max len len3)) as S.
  cbn [app tot fst snd] in S. rewrite H3 in S.
  assert (H1 : hsum (naf_fn G) n1 = zm c1 G) by (unfold naf_fn; rewrite hsum_mul by exact OG; apply V1; exact OG).
  assert (H2 : hsum (naf_fn (zm lambda G)) n2 = zm c2 (zm lambda G)) by (unfold naf_fn; rewrite hsum_mul by auto with ec; apply V2; auto with ec).
  rewrite H1, H2, a_inf, <- a_assoc, (join k1 c1 c2 G E1 OG) in S by auto with ec. apply S.
  - constructor; [|constructor; [|constructor]]; apply (wtab_naf _ _ NAF_WIDTH_PRE); try assumption; auto with ec; unfold NAF_WIDTH_PRE; lia.
  - constructor; [exact J3|constructor].
  - intros e [<-|[<-|[<-|[]]]] i Hi; cbn [snd]; [apply Z|apply Z|apply Z3]; clear - Hi; lia.
Qed.
Definition mrep_endo (e : wge p * Z) (P : pt * Z) : Prop := wrep (fst e) (fst P) /\ snd e = snd P /\ split_ok (snd e).
Lemma multi_endo_ok l : forall Ps, Forall2 mrep_endo l Ps -> exists js max es, multi_endo p a h n endo_bits beta split l = Some (js, max) /\ Forall2 jtab js es /\
  (forall e, In e es -> forall i, (max <= i)%nat -> nth i (snd e) 0 = 0) /\ tot es hsum = msum Ps.
Proof.
  induction l as [|[q c] t IH]; intros Ps F; inversion F as [|? [P c'] ? Ps' [W [E K]] F']; subst.
  - exists [], O, []. repeat split; try constructor. intros e [].
  - cbn [fst snd] in *. subst c'. pose proof (wrep_on _ _ _ _ _ W) as O. destruct (IH Ps' F') as (js & max & es & EM & FJ & Z & TT). cbn [multi_endo]. unfold split_ok in K. destruct (split c) as [c1 c2]. destruct K as (C1 & C2 & E1 & B1 & B2).
    destruct (jsf_endo_ok c1 c2 C1 C2 B1 B2) as (n3 & len3 & EJ & D3 & Z3 & V3 & V4). destruct (jsf_points_endo_ok q P W) as (w3 & EP & T3). rewrite EJ, EP, EM.
    destruct (jtab_jsf_endo c c1 c2 n3 w3 P O T3 D3 E1 V3 V4) as [J3 H3].
    eexists _, _, ((jsf_fn P (zm lambda P), n3) :: es). split; [reflexivity|]. split; [constructor; assumption|]. split.
    + intros e [<-|I] i Hi; [apply Z3; clear - Hi; lia|apply (Z e I); clear - Hi; lia].
    + cbn [tot fst snd msum]. rewrite H3, TT. reflexivity.
Qed.
Theorem wei_jmul_multi_endo_ok wnd wndb G k0 l Ps : split_ok k0 -> naf_wtable wnd NAF_WIDTH_PRE G -> naf_wtable wndb NAF_WIDTH_PRE (zm lambda G) -> on G -> Forall2 mrep_endo l Ps ->
  exists r, wei_jmul_multi_endo_var p a h n endo_bits beta split wnd wndb k0 l = Some r /\ jrep r (add (zm k0 G) (msum Ps)).
Proof.
  intros S1 T Tb OG F. unfold wei_jmul_multi_endo_var. unfold split_ok in S1. destruct (split k0) as [c1 c2]. destruct S1 as (C1 & C2 & E1 & B1 & B2).
  destruct (naf_endo_ok c1 c2 NAF_WIDTH_PRE ltac:(unfold NAF_WIDTH_PRE; lia) C1 C2 B1 B2) as (n1 & n2 & len & EN & D1 & D2 & Z & V1 & V2).
  destruct (multi_endo_ok l Ps F) as (js & max & es & EM & FJ & ZE & TT). rewrite EN, EM. eexists. split; [reflexivity|].
  pose proof (shamir_ok [(wnd, n1); (wndb, n2)] js [(naf_fn G, n1); (naf_fn (zm lambda G), n2)] es (Nat.max len max)) as S.
  cbn [app tot fst snd] in S. rewrite TT in S.
  assert (OM : on (msum Ps)). { clear - F Pp P3 ns no2. induction F as [|[q c] [P c'] ? ? [W _] F IH]; cbn [msum]; [exact on_inf|]. apply a_on; [apply m_on; exact (wrep_on _ _ _ _ _ W)|exact IH]. }
  assert (H1 : hsum (naf_fn G) n1 = zm c1 G) by (unfold naf_fn; rewrite hsum_mul by exact OG; apply V1; exact OG).
  assert (H2 : hsum (naf_fn (zm lambda G)) n2 = zm c2 (zm lambda G)) by (unfold naf_fn; rewrite hsum_mul by auto with ec; apply V2; auto with ec).
  rewrite H1, H2, <- a_assoc, (join k0 c1 c2 G E1 OG) in S by auto with ec. apply S.
  - constructor; [|constructor; [|constructor]]; apply (wtab_naf _ _ NAF_WIDTH_PRE); try assumption; auto with ec; unfold NAF_WIDTH_PRE; lia.
  - exact FJ.
  - intros e [<-|[<-|I]] i Hi; cbn [snd]; [apply Z|apply Z|apply (ZE e I)]; clear - Hi; lia.
Qed.
End Endo.
End P.
