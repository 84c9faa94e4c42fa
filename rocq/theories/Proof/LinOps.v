(* Linear maps over xor given by tables, and checksum runs as power sums. *)
From Verif.Base Require Import Prelude.
From Verif.Spec Require Import EncodingSpec Bech32Spec.
From Verif.Proof Require Import PolymodProof.

(* xor of the table entries selected by the bits of x *)
Fixpoint tlin (tbl : list Z) (x : Z) : Z :=
  match tbl with
  | [] => 0
  | g :: r => Z.lxor (if Z.odd x then g else 0) (tlin r (Z.div2 x))
  end.

Definition linear (f : Z -> Z) : Prop := forall x y, f (Z.lxor x y) = Z.lxor (f x) (f y).

Lemma odd_lxor x y : Z.odd (Z.lxor x y) = xorb (Z.odd x) (Z.odd y).
Proof. rewrite <- !Z.bit0_odd. apply Z.lxor_spec. Qed.
Lemma div2_lxor x y : Z.div2 (Z.lxor x y) = Z.lxor (Z.div2 x) (Z.div2 y).
Proof. rewrite !Z.div2_spec. apply Z.shiftr_lxor. Qed.

Lemma tlin_lin tbl : linear (tlin tbl).
Proof.
  induction tbl as [|g r IH]; intros x y; cbn [tlin]; [reflexivity|].
  rewrite div2_lxor, IH, odd_lxor.
  set (A := tlin r _). set (B := tlin r _).
  destruct (Z.odd x), (Z.odd y); cbn [xorb]; xor_solve.
Qed.
Lemma linear_0 f : linear f -> f 0 = 0.
Proof. intros H. pose proof (H 0 0) as Q. rewrite Z.lxor_nilpotent in Q. rewrite Q. apply Z.lxor_nilpotent. Qed.
Lemma tlin_0 tbl : tlin tbl 0 = 0.
Proof. apply linear_0, tlin_lin. Qed.

(* composition is computed on tables *)
Lemma tlin_map f tbl x : linear f -> f (tlin tbl x) = tlin (map f tbl) x.
Proof.
  intros Hf. revert x. induction tbl as [|g r IH]; intros x; cbn [tlin map]; [apply linear_0; auto|].
  rewrite Hf, IH. f_equal. destruct (Z.odd x); [reflexivity|apply linear_0; auto].
Qed.
Lemma tlin_comp A B x : tlin A (tlin B x) = tlin (map (tlin A) B) x.
Proof. apply tlin_map, tlin_lin. Qed.

Lemma tlin_add A : forall B x, length A = length B ->
  Z.lxor (tlin A x) (tlin B x) = tlin (map2 Z.lxor A B) x.
Proof.
  induction A as [|g r IH]; intros [|h B] x E; cbn [length] in E; try discriminate; [reflexivity|].
  cbn [map2 tlin]. rewrite <- IH by congruence.
  set (P := tlin r _). set (Q := tlin B _). destruct (Z.odd x); xor_solve.
Qed.

Definition basis (n : nat) : list Z := map (fun i => 2 ^ Z.of_nat i) (seq 0 n).

Lemma basis_S n : basis (S n) = 1 :: map (fun b => 2 * b) (basis n).
Proof.
  unfold basis. cbn [seq map]. f_equal. rewrite <- seq_shift, !map_map. apply map_ext.
  intros i. rewrite Nat2Z.inj_succ, Z.pow_succ_r by lia. reflexivity.
Qed.

(* a linear map agrees with its table on the range of the basis *)
Lemma linear_table f n : linear f -> forall x, 0 <= x < 2 ^ Z.of_nat n -> f x = tlin (map f (basis n)) x.
Proof.
  intros Hf. revert f Hf. induction n as [|n IH]; intros f Hf x Hx.
  - assert (x = 0) by (cbn in Hx; lia). subst. cbn. apply linear_0; auto.
  - rewrite basis_S. cbn [map tlin]. rewrite map_map.
    assert (Hf2 : linear (fun b => f (2 * b))).
    { intros a b. rewrite <- Hf. f_equal. rewrite !(Z.mul_comm 2). change 2 with (2 ^ 1).
      rewrite <- !Z.shiftl_mul_pow2 by lia. apply Z.shiftl_lxor. }
    rewrite <- (IH (fun b => f (2 * b)) Hf2).
    2:{ rewrite Nat2Z.inj_succ, Z.pow_succ_r in Hx by lia. rewrite Z.div2_div. lia. }
    rewrite <- (linear_0 f Hf) at 1. pose proof (Z.div2_odd x) as E.
    rewrite E at 1.
    replace (2 * Z.div2 x + Z.b2z (Z.odd x)) with (Z.lxor (Z.b2z (Z.odd x)) (2 * Z.div2 x)).
    + rewrite Hf. f_equal. destruct (Z.odd x); reflexivity.
    + rewrite Z.lxor_comm. apply Z.bits_inj'. intros m Hm. rewrite Z.lxor_spec.
      destruct (Z.odd x); cbn [Z.b2z].
      * destruct (Z.eq_dec m 0) as [->|].
        { rewrite Z.testbit_even_0, Z.testbit_odd_0. reflexivity. }
        replace m with (Z.succ (m - 1)) by lia. rewrite Z.testbit_even_succ, Z.testbit_odd_succ by lia.
        change 1 with (2 ^ 0) at 2. rewrite Z.pow2_bits_false by lia. apply xorb_false_r.
      * rewrite Z.bits_0, xorb_false_r, Z.add_0_r. reflexivity.
Qed.
Lemma tlin_basis n x : 0 <= x < 2 ^ Z.of_nat n -> tlin (basis n) x = x.
Proof.
  intros H. rewrite <- (map_id (basis n)). symmetry. apply (linear_table (fun x => x) n); auto.
  intros a b. reflexivity.
Qed.
Lemma tlin_range tbl n x : 0 <= n -> Forall (below (2 ^ n)) tbl -> 0 <= tlin tbl x < 2 ^ n.
Proof.
  intros Hn H. revert x. induction H as [|g r Hg Hr IH]; intros x; cbn [tlin].
  - pose proof (Z.pow_pos_nonneg 2 n). lia.
  - apply lxor_range; auto. destruct (Z.odd x); auto. pose proof (Z.pow_pos_nonneg 2 n). lia.
Qed.

(* powers of a table *)
Fixpoint tpow (G : list Z) (p : positive) : list Z :=
  match p with
  | xH => G
  | xO q => let A := tpow G q in map (tlin A) A
  | xI q => let A := tpow G q in map (tlin G) (map (tlin A) A)
  end.
Definition opow (G : list Z) (n : nat) (x : Z) : Z := Nat.iter n (tlin G) x.
Lemma opow_S G n x : opow G (S n) x = tlin G (opow G n x).
Proof. reflexivity. Qed.
Lemma opow_add G a b x : opow G (a + b) x = opow G a (opow G b x).
Proof. induction a as [|a IH]; [reflexivity|]. cbn [Nat.add]. rewrite !opow_S, IH. reflexivity. Qed.
Lemma opow_lin G n : linear (opow G n).
Proof.
  induction n as [|n IH]; intros x y; [reflexivity|]. rewrite !opow_S, IH. apply tlin_lin.
Qed.
Lemma opow_comm G a b x : opow G a (opow G b x) = opow G b (opow G a x).
Proof. rewrite <- !opow_add, Nat.add_comm. reflexivity. Qed.
Lemma opow_mul G t n x : opow G (t * n) x = Nat.iter n (opow G t) x.
Proof.
  induction n as [|n IH]; [rewrite Nat.mul_0_r; reflexivity|].
  rewrite Nat.mul_succ_r, Nat.add_comm, opow_add, IH. reflexivity.
Qed.
Lemma tpow_ok G p x : tlin (tpow G p) x = opow G (Pos.to_nat p) x.
Proof.
  revert x. induction p as [p IH|p IH|]; intros x; cbn [tpow]; [| |reflexivity].
  - rewrite <- !tlin_comp. rewrite !IH, Pos2Nat.inj_xI, opow_S.
    replace (2 * Pos.to_nat p)%nat with (Pos.to_nat p + Pos.to_nat p)%nat by lia.
    rewrite opow_add. reflexivity.
  - rewrite <- !tlin_comp, !IH, Pos2Nat.inj_xO.
    replace (2 * Pos.to_nat p)%nat with (Pos.to_nat p + Pos.to_nat p)%nat by lia.
    rewrite opow_add. reflexivity.
Qed.

(* xor of a list *)
Definition xs (l : list Z) : Z := fold_right Z.lxor 0 l.
Lemma xs_lin f l : linear f -> f (xs l) = xs (map f l).
Proof.
  intros Hf. induction l as [|x l IH]; [apply linear_0; auto|]. cbn [map xs fold_right].
  rewrite Hf. f_equal. exact IH.
Qed.

(* the non-zero symbols with their degree *)
Fixpoint terms (e : list Z) : list (nat * Z) :=
  match e with
  | [] => []
  | v :: r => if v =? 0 then terms r else (length r, v) :: terms r
  end.
Definition nonzeros (e : list Z) : nat := length (filter (fun v => negb (v =? 0)) e).
Lemma terms_length e : length (terms e) = nonzeros e.
Proof.
  unfold nonzeros. induction e as [|v r IH]; [reflexivity|]. cbn [terms filter].
  destruct (v =? 0); cbn [negb length]; congruence.
Qed.
Lemma terms_lt e p v : In (p, v) (terms e) -> (p < length e)%nat /\ v <> 0 /\ In v e.
Proof.
  induction e as [|x r IH]; cbn [terms]; [intros []|].
  destruct (Z.eqb_spec x 0); [intros Q|intros [Q|Q]]; try apply IH in Q; cbn [length]; try (split; [lia|]; split; [tauto|right; tauto]).
  injection Q as <- <-. split; [lia|]. split; [auto|left; auto].
Qed.
Inductive decr : list (nat * Z) -> Prop :=
| decr_nil : decr []
| decr_cons p v l : (forall q w, In (q, w) l -> (q < p)%nat) -> decr l -> decr ((p, v) :: l).
Lemma terms_decr e : decr (terms e).
Proof.
  induction e as [|x r IH]; cbn [terms]; [constructor|].
  destruct (x =? 0); [auto|]. constructor; [|auto]. intros q w Q. apply terms_lt in Q. tauto.
Qed.
Lemma terms_nil e : terms e = [] -> Forall (fun v => v = 0) e.
Proof.
  induction e as [|x r IH]; cbn [terms]; [constructor|]. destruct (Z.eqb_spec x 0); [|discriminate]. auto.
Qed.

Section Syndrome.
  Variables (n : Z) (gen : list Z) (k : nat).
  Hypothesis Hn : 0 <= n.
  Hypothesis Hk : n + 5 = Z.of_nat k.
  Hypothesis Hg : Forall (below (2 ^ (n + 5))) gen.
  (* G: multiplication by the chosen field element; E: the symbols in the
     field; EV: evaluation at its t-th power *)
  Variables (G E EV : list Z) (t : positive).
  Hypothesis Hev : map (tlin EV) (map (pmz n gen) (basis k)) = map (tlin (tpow G t)) EV.
  Hypothesis Hemb : forall v, below 32 v -> tlin EV v = tlin E v.

  Lemma ev_step c v : 0 <= c < 2 ^ (n + 5) -> below 32 v ->
    tlin EV (pm_step n gen c v) = Z.lxor (opow G (Pos.to_nat t) (tlin EV c)) (tlin E v).
  Proof.
    intros Hc Hv. rewrite pm_step_split, tlin_lin, (Hemb v Hv). f_equal.
    rewrite <- tpow_ok, tlin_comp. rewrite (linear_table (pmz n gen) k).
    - rewrite tlin_comp, Hev. reflexivity.
    - intros x y. apply pmz_lin. auto.
    - rewrite <- Hk. auto.
  Qed.

  Lemma ev_fold e : Forall (below 32) e -> forall c, 0 <= c < 2 ^ (n + 5) ->
    tlin EV (fold_left (pm_step n gen) e c) =
    Z.lxor (opow G (Pos.to_nat t * length e) (tlin EV c))
           (xs (map (fun '(p, v) => opow G (Pos.to_nat t * p) (tlin E v)) (terms e))).
  Proof.
    induction 1 as [|v e Hv He IH]; intros c Hc; cbn [fold_left terms length].
    - rewrite Nat.mul_0_r. cbn. rewrite Z.lxor_0_r. reflexivity.
    - rewrite IH by (apply pm_step_range; auto; apply below32_range; auto).
      rewrite ev_step by auto. rewrite opow_lin, <- opow_add, Z.lxor_assoc.
      replace (Pos.to_nat t * length e + Pos.to_nat t)%nat with (Pos.to_nat t * S (length e))%nat by lia.
      f_equal. destruct (Z.eqb_spec v 0) as [->|].
      + rewrite tlin_0. rewrite (linear_0 _ (opow_lin G _)). apply Z.lxor_0_l.
      + reflexivity.
  Qed.

  Lemma syndrome e : Forall (below 32) e -> fold_left (pm_step n gen) e 0 = 0 ->
    xs (map (fun '(p, v) => opow G (Pos.to_nat t * p) (tlin E v)) (terms e)) = 0.
  Proof.
    intros He H0. pose proof (ev_fold e He 0 ltac:(pose proof (Z.pow_pos_nonneg 2 (n + 5)); lia)) as Q.
    rewrite H0, tlin_0, (linear_0 _ (opow_lin G _)), Z.lxor_0_l in Q. congruence.
  Qed.
End Syndrome.
