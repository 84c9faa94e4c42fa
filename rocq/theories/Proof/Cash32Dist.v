(* The CashAddr checksum detects up to four symbol errors over 112 symbols. *)
From Verif.Base Require Import Prelude.
From Verif.Spec Require Import EncodingSpec Bech32Spec.
From Verif.Proof Require Import PolymodProof LinOps.
#[local] Ltac Zify.zify_post_hook ::= idtac.

(* GF(2^20) = GF(2)[x]/(x^20 + x^3 + 1) *)
Definition cdbl (x : Z) : Z := let y := 2 * x in if y <? 2 ^ 20 then y else Z.lxor y 0x100009.
Definition cmul_tbl (y : Z) : list Z := map (fun i => Nat.iter i cdbl y) (seq 0 20).
Definition CG : list Z := Eval vm_compute in cmul_tbl 667781.
Definition CE : list Z := Eval vm_compute in
  map (fun i => Nat.iter i (tlin (cmul_tbl 333766)) 1) (seq 0 5).
Definition cev (t : positive) : list Z :=
  let A := tpow CG t in flat_map (fun j => map (Nat.iter j (tlin A)) CE) (seq 0 8).
Definition cinv205 : list Z := Eval vm_compute in cmul_tbl 544808.
Definition cinv25 : list Z := Eval vm_compute in cmul_tbl 21386.

Definition fld (y : Z) : Prop := 0 <= y < 2 ^ 20.

Lemma CG_range : Forall (below (2 ^ 20)) CG.
Proof. repeat constructor; vm_compute; congruence. Qed.
Lemma fld_opow n y : fld y -> fld (opow CG n y).
Proof. intros Hy. destruct n as [|n]; [exact Hy|]. rewrite opow_S. apply tlin_range; [lia|apply CG_range]. Qed.
Lemma fld_lxor x y : fld x -> fld y -> fld (Z.lxor x y).
Proof. unfold fld. intros. apply lxor_range; auto. lia. Qed.

Lemma order_tbl : tpow CG 1025 = basis 20.
Proof. vm_compute. reflexivity. Qed.
Lemma inv205_tbl : map (tlin cinv205) (map2 Z.lxor (tpow CG 205) (basis 20)) = basis 20.
Proof. vm_compute. reflexivity. Qed.
Lemma inv25_tbl : map (tlin cinv25) (map2 Z.lxor (tpow CG 25) (basis 20)) = basis 20.
Proof. vm_compute. reflexivity. Qed.

Lemma order1 y : fld y -> opow CG (Pos.to_nat 1025) y = y.
Proof. intros Hy. rewrite <- tpow_ok, order_tbl. apply (tlin_basis 20). exact Hy. Qed.
Lemma orderk k y : fld y -> opow CG (Pos.to_nat 1025 * k) y = y.
Proof.
  intros Hy. rewrite opow_mul. induction k as [|k IH]; [reflexivity|]. cbn [Nat.iter nat_rect].
  change (nat_rect _ _ _ k) with (Nat.iter k (opow CG (Pos.to_nat 1025)) y). rewrite IH. apply order1. exact Hy.
Qed.
Lemma unit_fix p inv y : map (tlin inv) (map2 Z.lxor (tpow CG p) (basis 20)) = basis 20 ->
  length (tpow CG p) = 20%nat -> fld y -> opow CG (Pos.to_nat p) y = y -> y = 0.
Proof.
  intros T L Hy H. rewrite <- tpow_ok in H.
  rewrite <- (tlin_basis 20 y Hy), <- T, <- tlin_comp.
  rewrite <- tlin_add by (rewrite L; reflexivity).
  rewrite (tlin_basis 20 y Hy), H, Z.lxor_nilpotent. apply tlin_0.
Qed.

Lemma fix_mul d c y : opow CG d y = y -> opow CG (d * c) y = y.
Proof.
  intros H. rewrite opow_mul. induction c as [|c IH]; [reflexivity|]. cbn [Nat.iter nat_rect].
  change (nat_rect _ _ _ c) with (Nat.iter c (opow CG d) y). rewrite IH. exact H.
Qed.

(* c with s * d * c = 205 or 25 mod 1025, for d = 1, 2, ... *)
Definition cs36 : list Z := [
    200; 100; 410; 50; 40; 205; 175; 25; 250; 20; 205; 615; 410; 600; 82; 205; 615; 125; 550;
    10; 205; 475; 410; 350; 8; 205; 425; 300; 325; 41; 205; 615; 410; 820; 35; 205; 615; 275;
    820; 5; 5; 200; 100; 750; 50; 205; 375; 175; 25; 4; 205; 615; 410; 725; 41; 150; 525; 410;
    125; 123; 205; 400; 410; 820; 82; 205; 615; 410; 300; 120; 75; 615; 410; 820; 30; 205; 575;
    410; 275; 41; 205; 15; 200; 100; 123; 50; 450; 375; 175; 25; 205; 225; 410; 700; 110; 205;
    150; 410; 675; 2; 205; 615; 400; 475; 41; 205; 500; 410; 425; 95; 205].
Definition cs163 : list Z := [
    410; 205; 675; 250; 82; 410; 205; 125; 225; 41; 410; 205; 550; 615; 135; 410; 205; 625;
    615; 50; 410; 205; 400; 615; 40; 275; 75; 475; 600; 82; 410; 205; 820; 150; 41; 410; 205;
    350; 525; 25; 10; 205; 500; 615; 45; 200; 205; 820; 125; 20; 100; 205; 425; 550; 82; 410;
    205; 300; 615; 41; 50; 205; 325; 400; 110; 410; 205; 75; 475; 123; 375; 205; 800; 615; 27;
    175; 205; 775; 350; 82; 25; 5; 820; 500; 41; 250; 200; 820; 615; 125; 225; 100; 650; 425;
    123; 410; 205; 575; 300; 10; 410; 50; 820; 325; 82; 410; 205; 275; 75; 41; 410].
Definition hits (s d c : Z) : bool := let r := (s * d * c) mod 1025 in ((r =? 205) || (r =? 25)) && (0 <=? c).
Lemma hits_check : forallb (fun i => hits 36 (Z.of_nat i) (nth (i - 1) cs36 0) && hits 163 (Z.of_nat i) (nth (i - 1) cs163 0)) (seq 1 111) = true.
Proof. vm_compute. reflexivity. Qed.
Lemma hits_ok s d : s = 36%nat \/ s = 163%nat -> (1 <= d <= 111)%nat ->
  exists c q, (s * d * c = Pos.to_nat 1025 * q + Pos.to_nat 205 \/ s * d * c = Pos.to_nat 1025 * q + Pos.to_nat 25)%nat.
Proof.
  intros Hs Hd. pose proof hits_check as C. rewrite forallb_forall in C.
  specialize (C d ltac:(apply in_seq; lia)). apply andb_true_iff in C.
  assert (C' : exists c, hits (Z.of_nat s) (Z.of_nat d) c = true).
  { destruct C as (C1 & C2). destruct Hs as [Hs|Hs]; subst s; eexists; [exact C1|exact C2]. }
  clear C. destruct C' as (c0 & C). unfold hits in C. cbn zeta in C. rewrite andb_true_iff in C.
  destruct C as (C & C0). apply orb_true_iff in C. apply Z.leb_le in C0.
  set (c := Z.to_nat c0). replace c0 with (Z.of_nat c) in C by lia.
  rewrite !Z.eqb_eq in C.
  exists c, (Z.to_nat ((Z.of_nat s * Z.of_nat d * Z.of_nat c) / 1025)).
  pose proof (Z.div_mod (Z.of_nat s * Z.of_nat d * Z.of_nat c) 1025 ltac:(lia)) as E.
  assert (0 <= (Z.of_nat s * Z.of_nat d * Z.of_nat c) / 1025) by (apply Z.div_pos; lia).
  rewrite <- !Nat2Z.inj_mul in *.
  set (q := Z.of_nat (s * d * c) / 1025) in *. set (r := Z.of_nat (s * d * c) mod 1025) in *.
  set (m := (s * d * c)%nat) in *.
  destruct C as [C|C]; [left|right]; lia.
Qed.

Lemma fix_zero s d y : s = 36%nat \/ s = 163%nat -> (1 <= d <= 111)%nat -> fld y ->
  opow CG (s * d) y = y -> y = 0.
Proof.
  intros Hs Hd Hy H. destruct (hits_ok s d Hs Hd) as (c & q & Q).
  apply (fix_mul _ c) in H.
  destruct Q as [Q|Q]; rewrite Q, Nat.add_comm, opow_add, (orderk q y Hy) in H.
  - apply (unit_fix 205 cinv205); auto using inv205_tbl.
  - apply (unit_fix 25 cinv25); auto using inv25_tbl.
Qed.

(* elimination of one term *)
Definition S (t : nat) (L : list (nat * Z)) : Z := xs (map (fun '(p, y) => opow CG (t * p) y) L).
Definition dif (s p0 : nat) (L : list (nat * Z)) : list (nat * Z) :=
  map (fun '(p, y) => (p, Z.lxor (opow CG (s * p) y) (opow CG (s * p0) y))) L.

Lemma xs_lxor {A} (f g : A -> Z) l :
  Z.lxor (xs (map f l)) (xs (map g l)) = xs (map (fun a => Z.lxor (f a) (g a)) l).
Proof.
  induction l as [|a l IH]; [reflexivity|]. cbn [map xs fold_right]. fold (xs (map f l)). fold (xs (map g l)).
  fold (xs (map (fun a => Z.lxor (f a) (g a)) l)). rewrite <- IH.
  set (u := xs _). set (v := xs _). set (w := f a). set (z := g a). xor_solve.
Qed.

Lemma elim t s p0 y0 L : S t ((p0, y0) :: L) = 0 -> S (t + s) ((p0, y0) :: L) = 0 -> S t (dif s p0 L) = 0.
Proof.
  intros H1 H2. apply (f_equal (opow CG (s * p0))) in H1. rewrite (linear_0 _ (opow_lin CG _)) in H1.
  unfold S in H1. rewrite (xs_lin _ _ (opow_lin CG _)), map_map in H1.
  assert (E : Z.lxor (S (t + s) ((p0, y0) :: L)) (xs (map (fun x => opow CG (s * p0) (let '(p, y) := x in opow CG (t * p) y)) ((p0, y0) :: L))) = 0)
    by (rewrite H1, H2; reflexivity).
  unfold S in E. rewrite xs_lxor in E. cbn [map xs fold_right] in E.
  rewrite <- opow_add, Nat.mul_add_distr_r, (Nat.add_comm (t * p0)), Z.lxor_nilpotent, Z.lxor_0_l in E.
  rewrite <- E. unfold S, dif, xs. rewrite map_map. f_equal. apply map_ext. intros (p & y).
  rewrite opow_lin, <- !opow_add, Nat.mul_add_distr_r, (Nat.add_comm (t * p) (s * p0)). reflexivity.
Qed.

Lemma dif_zero s p0 p y : s = 36%nat \/ s = 163%nat -> (p < p0 < 112)%nat -> fld y ->
  Z.lxor (opow CG (s * p) y) (opow CG (s * p0) y) = 0 -> y = 0.
Proof.
  intros Hs Hp Hy H. apply Z.lxor_eq in H. apply (fix_zero s (p0 - p) y Hs ltac:(lia) Hy).
  apply (f_equal (opow CG (1024 * (s * p)))) in H. rewrite <- !opow_add in H.
  replace (1024 * (s * p) + s * p)%nat with (Pos.to_nat 1025 * (s * p))%nat in H by lia.
  rewrite orderk in H by auto.
  replace (1024 * (s * p) + s * p0)%nat with (s * (p0 - p) + Pos.to_nat 1025 * (s * p))%nat in H.
  - rewrite opow_add, orderk in H by auto. congruence.
  - replace p0 with ((p0 - p) + p)%nat at 2 by lia. rewrite Nat.mul_add_distr_l. lia.
Qed.
Lemma opow_zero n y : fld y -> opow CG n y = 0 -> y = 0.
Proof.
  intros Hy H. apply (f_equal (opow CG (1024 * n))) in H. rewrite <- opow_add, (linear_0 _ (opow_lin CG _)) in H.
  replace (1024 * n + n)%nat with (Pos.to_nat 1025 * n)%nat in H by lia. rewrite orderk in H; auto.
Qed.

Definition good (L : list (nat * Z)) : Prop := decr L /\ forall p y, In (p, y) L -> (p < 112)%nat /\ fld y.
Lemma good_tail p y L : good ((p, y) :: L) ->
  good L /\ (p < 112)%nat /\ fld y /\ (forall q w, In (q, w) L -> (q < p)%nat).
Proof.
  intros (D & F). inversion D as [|a b c D1 D2]; subst. destruct (F p y ltac:(left; auto)).
  split; [split; [auto|]|auto]. intros q w I. apply F. right. auto.
Qed.
Lemma good_dif s p0 L : good L -> good (dif s p0 L).
Proof.
  intros (D & F). split.
  - clear F. induction D as [|p v l D1 D2 IH]; cbn; constructor; auto.
    intros q w I. apply in_map_iff in I. destruct I as ((q' & w') & E & I). injection E as <- _. eapply D1; eauto.
  - intros p y I. apply in_map_iff in I. destruct I as ((q' & w') & E & I). injection E as <- <-.
    destruct (F _ _ I). split; auto. apply fld_lxor; apply fld_opow; auto.
Qed.

Definition allz (L : list (nat * Z)) : Prop := forall p y, In (p, y) L -> y = 0.
Lemma S_allz t L : allz L -> S t L = 0.
Proof.
  intros H. unfold S. induction L as [|[p y] L IH]; [reflexivity|]. cbn [map xs fold_right].
  fold (xs (map (fun '(p, y) => opow CG (t * p) y) L)). rewrite IH.
  - rewrite (H p y ltac:(left; auto)). rewrite (linear_0 _ (opow_lin CG _)). reflexivity.
  - intros q w I. apply (H q). right. exact I.
Qed.
Lemma step_back s t p0 y0 L : s = 36%nat \/ s = 163%nat -> good ((p0, y0) :: L) -> allz (dif s p0 L) ->
  S t ((p0, y0) :: L) = 0 -> allz ((p0, y0) :: L).
Proof.
  intros Hs G A H. destruct (good_tail _ _ _ G) as (GL & P0 & Y0 & LT).
  assert (AL : allz L).
  { intros p y I. destruct GL as (_ & F). destruct (F _ _ I).
    apply (dif_zero s p0 p); auto. { split; eauto. }
    apply (A p). unfold dif. apply in_map_iff. exists (p, y). auto. }
  intros p y [E|I]; [|eapply AL; eauto]. injection E as <- <-.
  apply (opow_zero (t * p0)); auto.
  unfold S in H. cbn [map xs fold_right] in H. fold (xs (map (fun '(p, y) => opow CG (t * p) y) L)) in H.
  pose proof (S_allz t L AL) as Z0. unfold S in Z0. rewrite Z0, Z.lxor_0_r in H. exact H.
Qed.

Lemma elim_run k : forall L t, (length L <= k)%nat -> good L ->
  (forall i, (i < k)%nat -> S (t + 36 * i) L = 0) -> allz L.
Proof.
  induction k as [|k IH]; intros L t Lk G H; destruct L as [|[p0 y0] L]; cbn [length] in Lk; try lia; try (intros p y []; fail).
  apply (step_back 36 t); auto.
  - apply (IH _ t).
    + unfold dif. rewrite map_length. lia.
    + apply good_dif. eapply good_tail. exact G.
    + intros i Hi. apply (elim _ _ _ y0). { apply H. lia. }
      replace (t + 36 * i + 36)%nat with (t + 36 * (Datatypes.S i))%nat by lia. apply H. lia.
  - specialize (H 0%nat ltac:(lia)). rewrite Nat.mul_0_r, Nat.add_0_r in H. exact H.
Qed.
Lemma elim_run4 L t : (length L <= 4)%nat -> good L ->
  (forall i, (i < 3)%nat -> S (t + 36 * i) L = 0 /\ S (t + 163 + 36 * i) L = 0) -> allz L.
Proof.
  intros Lk G H. destruct L as [|[p0 y0] L]; cbn [length] in Lk; [intros p y []|].
  apply (step_back 163 t); auto.
  - apply (elim_run 3 _ t).
    + unfold dif. rewrite map_length. lia.
    + apply good_dif. eapply good_tail. exact G.
    + intros i Hi. destruct (H i Hi) as (H1 & H2). apply (elim _ _ _ y0); [exact H1|].
      replace (t + 36 * i + 163)%nat with (t + 163 + 36 * i)%nat by lia. exact H2.
  - destruct (H 0%nat ltac:(lia)) as (H1 & _). rewrite Nat.mul_0_r, Nat.add_0_r in H1. exact H1.
Qed.

(* the checksum as syndromes *)
Definition croots : list positive := [395; 431; 467; 558; 594; 630]%positive.
Lemma cev_check : forallb (fun t => let EV := cev t in
    forallb (fun '(a, b) => a =? b) (combine (map (tlin EV) (map (pmz 35 cash_gen) (basis 40))) (map (tlin (tpow CG t)) EV)) &&
    (length EV =? 40)%nat &&
    forallb (fun v => tlin EV (Z.of_nat v) =? tlin CE (Z.of_nat v)) (seq 0 32)) croots = true.
Proof. vm_compute. reflexivity. Qed.
Lemma combine_eq a : forall b, length a = length b -> forallb (fun '(x, y) => x =? y) (combine a b) = true -> a = b.
Proof.
  induction a as [|x a IH]; intros [|y b] L H; cbn [length] in L; try discriminate; [reflexivity|].
  cbn [combine forallb] in H. apply andb_true_iff in H. destruct H as (H1 & H2). f_equal; [lia|]. apply IH; auto.
Qed.
Lemma CE_nonzero : forallb (fun v => negb (tlin CE (Z.of_nat v) =? 0)) (seq 1 31) = true.
Proof. vm_compute. reflexivity. Qed.
Lemma CE_range : Forall (below (2 ^ 20)) CE.
Proof. repeat constructor; vm_compute; congruence. Qed.

Theorem cash32_distance e : Forall (below 32) e -> (length e <= 112)%nat -> (nonzeros e <= 4)%nat ->
  fold_left (pm_step 35 cash_gen) e 0 = 0 -> Forall (fun v => v = 0) e.
Proof.
  intros He Le Ne H. apply terms_nil. rewrite <- terms_length in Ne.
  assert (R : forall t, In t croots -> S (Pos.to_nat t) (map (fun '(p, v) => (p, tlin CE v)) (terms e)) = 0).
  { intros t It. pose proof cev_check as C. rewrite forallb_forall in C. specialize (C t It).
    cbn zeta in C. rewrite !andb_true_iff in C. destruct C as ((C1 & C2) & C3).
    apply combine_eq in C1. 2:{ rewrite !map_length. apply Nat.eqb_eq in C2. rewrite C2. reflexivity. }
    assert (CC : forall v, below 32 v -> tlin (cev t) v = tlin CE v).
    { intros v Hv. unfold below in Hv. rewrite forallb_forall in C3. specialize (C3 (Z.to_nat v) ltac:(apply in_seq; lia)).
      rewrite Z2Nat.id in C3 by lia. lia. }
    pose proof (syndrome 35 cash_gen 40 ltac:(lia) ltac:(reflexivity) cash_gen_ok CG CE (cev t) t C1 CC e He H) as Q.
    unfold S. rewrite map_map. rewrite <- Q. f_equal. apply map_ext. intros (p & v). reflexivity. }
  assert (A : allz (map (fun '(p, v) => (p, tlin CE v)) (terms e))).
  { apply (elim_run4 _ (Pos.to_nat 395)).
    - rewrite map_length. exact Ne.
    - split.
      + clear - He. pose proof (terms_decr e) as D. induction D as [|p v l D1 D2 IH]; cbn; constructor; auto.
        intros q w I. apply in_map_iff in I. destruct I as ((q' & w') & E & I). injection E as <- _. eapply D1; eauto.
      + intros p y I. apply in_map_iff in I. destruct I as ((q' & w') & E & I). apply (f_equal fst) in E as E1. apply (f_equal snd) in E as E2. cbn [fst snd] in E1, E2. subst q' y.
        apply terms_lt in I. split; [lia|]. change (fld (tlin CE w')). apply tlin_range; [lia|apply CE_range].
    - intros i Hi. assert (C : (i = 0 \/ i = 1 \/ i = 2)%nat) by lia.
      destruct C as [C|[C|C] ]; subst i; split.
      + apply (R 395%positive). cbn. auto.
      + apply (R 558%positive). cbn. auto.
      + apply (R 431%positive). cbn. auto.
      + apply (R 594%positive). cbn. auto 10.
      + apply (R 467%positive). cbn. auto 10.
      + apply (R 630%positive). cbn. auto 10. }
  destruct (terms e) as [|[p v] l] eqn:ET; [reflexivity|]. exfalso.
  assert (I : In (p, v) (terms e)) by (rewrite ET; left; auto).
  apply terms_lt in I. destruct I as (_ & V0 & Iv). rewrite Forall_forall in He. specialize (He v Iv).
  specialize (A p (tlin CE v) ltac:(left; reflexivity)).
  pose proof CE_nonzero as C. rewrite forallb_forall in C. unfold below in He.
  specialize (C (Z.to_nat v) ltac:(apply in_seq; lia)). rewrite Z2Nat.id, A in C by lia. discriminate.
Qed.
