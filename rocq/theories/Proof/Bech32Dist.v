(* The BIP 173 checksum detects up to four symbol errors over 88 symbols. *)
From Coq Require Import FSets.FMapPositive.
From Verif.Base Require Import Prelude.
From Verif.Spec Require Import EncodingSpec Bech32Spec.
From Verif.Proof Require Import PolymodProof LinOps.
#[local] Ltac Zify.zify_post_hook ::= idtac.

(* GF(1024) = GF(2)[x]/(x^10 + x^3 + 1) *)
Definition dbl (x : Z) : Z := let y := 2 * x in if y <? 1024 then y else Z.lxor y 0x409.
Definition gmul_tbl (y : Z) : list Z :=       (* table of multiplication by y *)
  map (fun i => Nat.iter i dbl y) (seq 0 10).
Definition xpow (i : nat) : Z := Nat.iter i dbl 1.
Definition Gam : list Z := Eval vm_compute in gmul_tbl (xpow 50).
Definition beta : Z := Eval vm_compute in xpow 165.
Definition Emb : list Z := Eval vm_compute in
  map (fun i => Nat.iter i (tlin (gmul_tbl beta)) 1) (seq 0 5).
Definition ev_tbl (t : positive) : list Z :=
  let A := tpow Gam t in flat_map (fun j => map (Nat.iter j (tlin A)) Emb) (seq 0 6).

(* powers of the field element and logarithms *)
Definition PM := PositiveMap.t Z.
Definition pget (m : PM) (i d : Z) : Z :=
  match i with Zpos p => match PositiveMap.find p m with Some v => v | None => d end | _ => d end.
Definition pset (m : PM) (i v : Z) : PM :=
  match i with Zpos p => PositiveMap.add p v m | _ => m end.
Fixpoint pw_loop (n : nat) (a x : Z) (m d : PM) : PM * PM :=
  match n with
  | O => (m, d)
  | S n => pw_loop n (a + 1) (tlin Gam x) (pset m (a + 1) x) (pset d x a)
  end.
Definition pw_maps : PM * PM := Eval vm_compute in pw_loop 1023 0 1 (PositiveMap.empty Z) (PositiveMap.empty Z).
Definition Gp (a : Z) : Z := pget (fst pw_maps) (a mod 1023 + 1) 0.
Definition dlog (x : Z) : Z := pget (snd pw_maps) x (-1).

Definition range (n : nat) : list Z := map Z.of_nat (seq 0 n).
Lemma in_range n x : 0 <= x < Z.of_nat n -> In x (range n).
Proof.
  intros H. unfold range. apply in_map_iff. exists (Z.to_nat x). split; [lia|]. apply in_seq. lia.
Qed.

Definition pw_ok (a : Z) : bool :=
  (Gp (a + 1) =? tlin Gam (Gp a)) && (dlog (Gp a) =? a) && (Gp a <? 1024) && (0 <? Gp a).
Definition dl_ok (x : Z) : bool := (Gp (dlog (x + 1)) =? x + 1) && (0 <=? dlog (x + 1)).
Lemma pw_check : forallb pw_ok (range 1023) = true.
Proof. vm_compute. reflexivity. Qed.
Lemma dl_check : forallb dl_ok (range 1023) = true.
Proof. vm_compute. reflexivity. Qed.

Lemma Gp_mod a : Gp (a mod 1023) = Gp a.
Proof. unfold Gp. rewrite Z.mod_mod by lia. reflexivity. Qed.
Lemma pw_facts a : Gp (a + 1) = tlin Gam (Gp a) /\ dlog (Gp a) = a mod 1023 /\ 0 < Gp a < 1024.
Proof.
  assert (R : 0 <= a mod 1023 < 1023) by (apply Z.mod_pos_bound; lia).
  pose proof pw_check as C. rewrite forallb_forall in C.
  specialize (C (a mod 1023) (in_range 1023 _ R)). unfold pw_ok in C. rewrite Gp_mod in C.
  replace (Gp (a mod 1023 + 1)) with (Gp (a + 1)) in C.
  { rewrite !andb_true_iff, !Z.eqb_eq, !Z.ltb_lt in C. tauto. }
  rewrite <- (Gp_mod (a + 1)), <- (Gp_mod (a mod 1023 + 1)), Z.add_mod_idemp_l by lia. reflexivity.
Qed.
Lemma Gp_inj a b : Gp a = Gp b -> a mod 1023 = b mod 1023.
Proof. intros E. destruct (pw_facts a) as (_ & A & _), (pw_facts b) as (_ & B & _). congruence. Qed.
Lemma Gp_opow n a : opow Gam n (Gp a) = Gp (a + Z.of_nat n).
Proof.
  induction n as [|n IH].
  { change (Z.of_nat 0) with 0. rewrite Z.add_0_r. reflexivity. }
  rewrite opow_S, IH.
  destruct (pw_facts (a + Z.of_nat n)) as (<- & _). f_equal. lia.
Qed.
Lemma Gp_dlog x : 0 < x < 1024 -> Gp (dlog x) = x /\ 0 <= dlog x.
Proof.
  intros H. pose proof dl_check as C. rewrite forallb_forall in C.
  assert (R : 0 <= x - 1 < 1023) by lia.
  specialize (C (x - 1) (in_range 1023 _ R)). unfold dl_ok in C.
  replace (x - 1 + 1) with x in C by lia.
  rewrite andb_true_iff, Z.eqb_eq, Z.leb_le in C. tauto.
Qed.

(* Zech logarithm: 1 + G^u = G^(zech u), or -1 when the sum is 0 *)
Definition zech (u : Z) : Z := dlog (Z.lxor 1 (Gp u)).
Lemma zech_mod u : zech (u mod 1023) = zech u.
Proof. unfold zech. rewrite Gp_mod. reflexivity. Qed.
Lemma zech_0 u : u mod 1023 = 0 -> Z.lxor 1 (Gp u) = 0 /\ zech u = -1.
Proof.
  intros H. unfold zech. rewrite <- Gp_mod, H. change (Gp 0) with 1. split; reflexivity.
Qed.
Lemma zech_pos u : u mod 1023 <> 0 -> Z.lxor 1 (Gp u) = Gp (zech u) /\ 0 <= zech u.
Proof.
  intros H. destruct (pw_facts u) as (_ & D & R).
  assert (B : 0 <= Z.lxor 1 (Gp u) < 2 ^ 10) by (apply lxor_range; lia).
  assert (N : Z.lxor 1 (Gp u) <> 0).
  { intros E. apply Z.lxor_eq in E. rewrite <- E in D. change (dlog 1) with 0 in D. lia. }
  unfold zech. destruct (Gp_dlog (Z.lxor 1 (Gp u)) ltac:(lia)) as (-> & P). auto.
Qed.

(* shifting every exponent *)
Lemma shift_xs l c : xs (map Gp l) = 0 -> xs (map (fun a => Gp (a + c)) l) = 0.
Proof.
  intros H. set (n := Z.to_nat (c mod 1023)).
  assert (R : 0 <= c mod 1023 < 1023) by (apply Z.mod_pos_bound; lia).
  assert (Q : opow Gam n (xs (map Gp l)) = 0) by (rewrite H; apply linear_0, opow_lin).
  rewrite (xs_lin _ _ (opow_lin Gam n)), map_map in Q. rewrite <- Q. f_equal. apply map_ext.
  intros a. rewrite Gp_opow. unfold n. rewrite Z2Nat.id by lia.
  rewrite <- (Gp_mod (a + c)), <- (Gp_mod (a + c mod 1023)), Z.add_mod_idemp_r by lia. reflexivity.
Qed.

Lemma two_terms a b : xs (map Gp [a; b]) = 0 -> (b - a) mod 1023 = 0.
Proof.
  cbn [map xs fold_right]. rewrite Z.lxor_0_r. intros E. apply Z.lxor_eq in E. apply Gp_inj in E.
  rewrite Zminus_mod, E, Z.sub_diag. reflexivity.
Qed.
Lemma three_terms a b c : xs (map Gp [a; b; c]) = 0 ->
  0 <= zech (b - a) /\ (c - a - zech (b - a)) mod 1023 = 0.
Proof.
  intros H. apply (shift_xs _ (- a)) in H. cbn [map xs fold_right] in H. rewrite Z.lxor_0_r in H.
  replace (a + - a) with 0 in H by lia. change (Gp 0) with 1 in H.
  replace (b + - a) with (b - a) in H by lia. replace (c + - a) with (c - a) in H by lia.
  rewrite <- Z.lxor_assoc in H. apply Z.lxor_eq in H.
  destruct (Z.eq_dec ((b - a) mod 1023) 0) as [E|E].
  - apply zech_0 in E. destruct (pw_facts (c - a)) as (_ & _ & P). lia.
  - apply zech_pos in E. destruct E as (E & P). rewrite E in H. apply Gp_inj in H.
    split; [exact P|]. rewrite Zminus_mod, <- H, Z.sub_diag. reflexivity.
Qed.
Lemma four_terms a b c d : xs (map Gp [a; b; c; d]) = 0 ->
  (zech (b - a) = -1 /\ zech (d - c) = -1) \/
  (0 <= zech (b - a) /\ 0 <= zech (d - c) /\ (zech (b - a) - zech (d - c) - (c - a)) mod 1023 = 0).
Proof.
  intros H. apply (shift_xs _ (- a)) in H. cbn [map xs fold_right] in H. rewrite Z.lxor_0_r in H.
  replace (a + - a) with 0 in H by lia. change (Gp 0) with 1 in H.
  replace (b + - a) with (b - a) in H by lia. replace (c + - a) with (c - a) in H by lia.
  rewrite <- Z.lxor_assoc in H. apply Z.lxor_eq in H.
  (* the right pair, shifted down by c *)
  set (n := Z.to_nat ((c - a) mod 1023)).
  assert (R : 0 <= (c - a) mod 1023 < 1023) by (apply Z.mod_pos_bound; lia).
  assert (K : forall x, opow Gam n (Gp x) = Gp (x + (c - a))).
  { intros x. rewrite Gp_opow. unfold n. rewrite Z2Nat.id by lia.
    rewrite <- (Gp_mod (x + (c - a))), <- (Gp_mod (x + (c - a) mod 1023)), Z.add_mod_idemp_r by lia. reflexivity. }
  assert (Q : Z.lxor (Gp (c - a)) (Gp (d + - a)) = opow Gam n (Z.lxor 1 (Gp (d - c)))).
  { rewrite opow_lin. change 1 with (Gp 0) at 1. rewrite !K. f_equal; f_equal; lia. }
  rewrite Q in H. clear Q.
  destruct (Z.eq_dec ((b - a) mod 1023) 0) as [E|E]; destruct (Z.eq_dec ((d - c) mod 1023) 0) as [F|F].
  - apply zech_0 in E, F. left. tauto.
  - apply zech_0 in E. apply zech_pos in F. destruct E as (E & _), F as (F & _). rewrite E, F, K in H.
    destruct (pw_facts (zech (d - c) + (c - a))) as (_ & _ & P). lia.
  - apply zech_pos in E. apply zech_0 in F. destruct E as (E & _), F as (F & _).
    rewrite E, F, (linear_0 _ (opow_lin Gam n)) in H. destruct (pw_facts (zech (b - a))) as (_ & _ & P). lia.
  - apply zech_pos in E, F. right. destruct E as (E & Pe), F as (F & Pf). rewrite E, F, K in H.
    apply Gp_inj in H. split; [auto|]. split; [auto|].
    replace (zech (b - a) - zech (d - c) - (c - a)) with (zech (b - a) - (zech (d - c) + (c - a))) by lia.
    rewrite Zminus_mod, H, Z.sub_diag. reflexivity.
Qed.

(* candidates: two adjacent error terms, distance n and symbol ratio G^(33 L) *)
Definition zz (m L n : Z) : Z := zech (33 * L + (24 + m) * n).
Definition cand : Type := Z * (Z * Z * Z).
Definition mkcand (L n : Z) : cand := (n, (zz 0 L n, zz 1 L n, zz 2 L n)).
Definition cands : list cand := Eval vm_compute in
  flat_map (fun n => map (fun L => mkcand L (n + 1)) (range 31)) (range 87).
Definition ckey (c : cand) : Z :=
  let '(_, (z0, z1, z2)) := c in
  if (z0 <? 0) || (z1 <? 0) || (z2 <? 0) then 1024 else (z0 - 2 * z1 + z2) mod 1023 + 1.
Definition bucket_add (m : PositiveMap.t (list cand)) (c : cand) : PositiveMap.t (list cand) :=
  let k := Z.to_pos (ckey c) in
  PositiveMap.add k (c :: match PositiveMap.find k m with Some l => l | None => [] end) m.
Definition buckets : PositiveMap.t (list cand) := Eval vm_compute in
  fold_left bucket_add cands (PositiveMap.empty (list cand)).
Definition bucket (k : Z) : list cand :=
  match PositiveMap.find (Z.to_pos k) buckets with Some l => l | None => [] end.

Definition cand_eqb (c d : cand) : bool :=
  let '(n, (a0, a1, a2)) := c in let '(m, (b0, b1, b2)) := d in
  (n =? m) && (a0 =? b0) && (a1 =? b1) && (a2 =? b2).
Lemma cand_eqb_eq c d : cand_eqb c d = true -> c = d.
Proof. destruct c as (n & (a0 & a1) & a2), d as (m & (b0 & b1) & b2). cbn. intros. repeat f_equal; lia. Qed.

(* three errors *)
Definition ok3 (c : cand) : bool :=
  let '(n, (z0, z1, z2)) := c in
  let n3 := (z1 - z0) mod 1023 in
  negb ((n <? n3) && (n3 <=? 87) && ((z2 - z1 - n3) mod 1023 =? 0)).
(* four errors *)
Definition dd (x y : Z) : Z := (x - y) mod 1023.
Definition okn (c d : cand) (n3 : Z) : bool :=
  let '(n, (a0, a1, a2)) := c in let '(m, (b0, b1, b2)) := d in
  negb ((n <? n3) && (n3 + m <=? 87) &&
        (if a0 <? 0 then b0 <? 0 else (0 <=? b0) && ((dd a0 b0 - 24 * n3) mod 33 =? 0)) &&
        (if a1 <? 0 then b1 <? 0 else (0 <=? b1) && ((dd a1 b1 - 25 * n3) mod 33 =? 0)) &&
        (if a2 <? 0 then b2 <? 0 else (0 <=? b2) && ((dd a2 b2 - 26 * n3) mod 33 =? 0)) &&
        (if (a0 <? 0) || (a1 <? 0) then true else (dd a1 b1 - dd a0 b0 - n3) mod 1023 =? 0) &&
        (if (a1 <? 0) || (a2 <? 0) then true else (dd a2 b2 - dd a1 b1 - n3) mod 1023 =? 0) &&
        (if (a0 <? 0) || (a2 <? 0) then true else (dd a2 b2 - dd a0 b0 - 2 * n3) mod 1023 =? 0)).
Definition ok4 (c d : cand) : bool :=
  if ckey c =? 1024 then forallb (fun n => okn c d (n + 1)) (range 87)
  else let '(n, (a0, a1, _)) := c in let '(m, (b0, b1, _)) := d in okn c d ((a1 - b1 - (a0 - b0)) mod 1023).


(* every candidate is in its bucket, and passes *)
Definition cand_ok (c : cand) : bool :=
  let b := bucket (ckey c) in existsb (cand_eqb c) b && ok3 c && forallb (ok4 c) b.
Lemma cand_check : forallb (fun n => forallb (fun L => cand_ok (mkcand L (n + 1))) (range 31)) (range 87) = true.
Proof. vm_compute. reflexivity. Qed.
Lemma cand_facts L n : 0 <= L < 31 -> 1 <= n <= 87 ->
  let c := mkcand L n in
  In c (bucket (ckey c)) /\ ok3 c = true /\ forall d, In d (bucket (ckey c)) -> ok4 c d = true.
Proof.
  intros HL Hn c. pose proof cand_check as C. rewrite forallb_forall in C.
  assert (R : 0 <= n - 1 < 87) by lia.
  specialize (C (n - 1) (in_range 87 _ R)). rewrite forallb_forall in C.
  specialize (C L (in_range 31 _ HL)). replace (n - 1 + 1) with n in C by lia. fold c in C.
  unfold cand_ok in C. rewrite !andb_true_iff in C. destruct C as ((C1 & C2) & C3).
  split; [|split; [exact C2|]].
  - apply existsb_exists in C1. destruct C1 as (x & Hx & E). apply cand_eqb_eq in E. rewrite E at 1. exact Hx.
  - rewrite forallb_forall in C3. exact C3.
Qed.

(* the symbols in the field *)
Definition lv (v : Z) : Z := dlog (tlin Emb v) / 33.
Lemma lv_check : forallb (fun v => Gp (33 * lv (v + 1)) =? tlin Emb (v + 1)) (range 31) = true.
Proof. vm_compute. reflexivity. Qed.
Lemma lv_ok v : below 32 v -> v <> 0 -> tlin Emb v = Gp (33 * lv v).
Proof.
  intros Hv Hv0. unfold below in Hv. pose proof lv_check as C. rewrite forallb_forall in C.
  assert (R : 0 <= v - 1 < 31) by lia. specialize (C (v - 1) (in_range 31 _ R)).
  replace (v - 1 + 1) with v in C by lia. lia.
Qed.

Definition mod0 (x : Z) : Prop := exists q, x = 1023 * q.
Lemma mod0_iff x : x mod 1023 = 0 -> mod0 x.
Proof. intros H. exists (x / 1023). pose proof (Z.div_mod x 1023). lia. Qed.
Lemma dd_q x y : exists q, dd x y = x - y + 1023 * q.
Proof. exists (- ((x - y) / 1023)). unfold dd. pose proof (Z.div_mod (x - y) 1023). lia. Qed.
Lemma mod_0 x m q : 0 < m -> x = m * q -> x mod m = 0.
Proof. intros Hm ->. rewrite Z.mul_comm. apply Z.mod_mul. lia. Qed.

Lemma dd_33 x y l t n : mod0 (x - y - (33 * l + t * n)) -> (dd x y - t * n) mod 33 = 0.
Proof.
  intros (q & E). destruct (dd_q x y) as (q' & ->). apply (mod_0 _ _ (31 * q + l + 31 * q')); lia.
Qed.
Lemma dd_diff x y x' y' l t t' n : mod0 (x - y - (33 * l + t * n)) -> mod0 (x' - y' - (33 * l + t' * n)) ->
  (dd x' y' - dd x y - (t' - t) * n) mod 1023 = 0.
Proof.
  intros (q & E) (q' & E'). destruct (dd_q x y) as (a & ->), (dd_q x' y') as (b & ->).
  apply (mod_0 _ _ (q' - q + b - a)); lia.
Qed.

(* one syndrome relates the two candidates *)
Definition rel (a b x : Z) : Prop := (a = -1 /\ b = -1) \/ (0 <= a /\ 0 <= b /\ mod0 (a - b - x)).

Lemma okn_false n a0 a1 a2 m b0 b1 b2 l n3 : n < n3 -> n3 + m <= 87 ->
  rel a0 b0 (33 * l + 24 * n3) -> rel a1 b1 (33 * l + 25 * n3) -> rel a2 b2 (33 * l + 26 * n3) ->
  okn (n, (a0, a1, a2)) (m, (b0, b1, b2)) n3 = false.
Proof.
  intros L1 L2 R0 R1 R2. unfold okn. apply negb_false_iff. rewrite !andb_true_iff.
  repeat match goal with |- _ /\ _ => split end.
  - lia.
  - lia.
  - destruct R0 as [(-> & ->)|(P & P' & Q)]; [reflexivity|].
    replace (a0 <? 0) with false by lia. apply dd_33 in Q. rewrite Q. lia.
  - destruct R1 as [(-> & ->)|(P & P' & Q)]; [reflexivity|].
    replace (a1 <? 0) with false by lia. apply dd_33 in Q. rewrite Q. lia.
  - destruct R2 as [(-> & ->)|(P & P' & Q)]; [reflexivity|].
    replace (a2 <? 0) with false by lia. apply dd_33 in Q. rewrite Q. lia.
  - destruct R0 as [(-> & ->)|(P & P' & Q)]; [reflexivity|].
    destruct R1 as [(-> & ->)|(P1 & P1' & Q1)]; [rewrite orb_true_r; reflexivity|].
    destruct ((a0 <? 0) || (a1 <? 0)); [reflexivity|].
    pose proof (dd_diff _ _ _ _ _ _ _ _ Q Q1) as D. change (25 - 24) with 1 in D. rewrite Z.mul_1_l in D. rewrite D. reflexivity.
  - destruct R1 as [(-> & ->)|(P & P' & Q)]; [reflexivity|].
    destruct R2 as [(-> & ->)|(P1 & P1' & Q1)]; [rewrite orb_true_r; reflexivity|].
    destruct ((a1 <? 0) || (a2 <? 0)); [reflexivity|].
    pose proof (dd_diff _ _ _ _ _ _ _ _ Q Q1) as D. change (26 - 25) with 1 in D. rewrite Z.mul_1_l in D. rewrite D. reflexivity.
  - destruct R0 as [(-> & ->)|(P & P' & Q)]; [reflexivity|].
    destruct R2 as [(-> & ->)|(P1 & P1' & Q1)]; [rewrite orb_true_r; reflexivity|].
    destruct ((a0 <? 0) || (a2 <? 0)); [reflexivity|].
    pose proof (dd_diff _ _ _ _ _ _ _ _ Q Q1) as D. change (26 - 24) with 2 in D. rewrite D. reflexivity.
Qed.

Lemma rel_key n a0 a1 a2 m b0 b1 b2 l n3 :
  rel a0 b0 (33 * l + 24 * n3) -> rel a1 b1 (33 * l + 25 * n3) -> rel a2 b2 (33 * l + 26 * n3) ->
  ckey (n, (a0, a1, a2)) = ckey (m, (b0, b1, b2)).
Proof.
  intros R0 R1 R2. unfold ckey.
  destruct R0 as [(-> & ->)|(P0 & P0' & (q0 & Q0))]; [reflexivity|].
  destruct R1 as [(-> & ->)|(P1 & P1' & (q1 & Q1))]; [rewrite !orb_true_r; reflexivity|].
  destruct R2 as [(-> & ->)|(P2 & P2' & (q2 & Q2))]; [rewrite !orb_true_r; reflexivity|].
  replace ((a0 <? 0) || (a1 <? 0) || (a2 <? 0)) with false by lia.
  replace ((b0 <? 0) || (b1 <? 0) || (b2 <? 0)) with false by lia.
  f_equal. replace (a0 - 2 * a1 + a2) with (b0 - 2 * b1 + b2 + (q0 - 2 * q1 + q2) * 1023) by lia.
  apply Z_mod_plus_full.
Qed.

Lemma zz_eq m l n : zz m (l mod 31) n = zech (33 * l + (24 + m) * n).
Proof.
  unfold zz. rewrite <- (zech_mod (33 * l + _)), <- (zech_mod (33 * (l mod 31) + _)). f_equal.
  pose proof (Z.div_mod l 31 ltac:(lia)) as E. rewrite E at 2.
  replace (33 * (31 * (l / 31) + l mod 31) + (24 + m) * n) with (33 * (l mod 31) + (24 + m) * n + (l / 31) * 1023) by lia.
  rewrite Z_mod_plus_full. reflexivity.
Qed.

Definition synd (m : Z) (l : list (Z * Z)) : Z := xs (map (fun '(n, k) => Gp (33 * k + (24 + m) * n)) l).

Lemma no_four n1 n2 n3 n4 l1 l2 l3 l4 : n1 < n2 -> n2 < n3 -> n3 < n4 -> n4 - n1 <= 87 ->
  (forall m, 0 <= m <= 2 -> synd m [(n1, l1); (n2, l2); (n3, l3); (n4, l4)] = 0) -> False.
Proof.
  intros H12 H23 H34 H14 S.
  assert (R : forall m, 0 <= m <= 2 ->
    rel (zz m ((l2 - l1) mod 31) (n2 - n1)) (zz m ((l4 - l3) mod 31) (n4 - n3)) (33 * (l3 - l1) + (24 + m) * (n3 - n1))).
  { intros m Hm. specialize (S m Hm). unfold synd in S. cbn [map] in S.
    apply (four_terms (33 * l1 + (24 + m) * n1) (33 * l2 + (24 + m) * n2) (33 * l3 + (24 + m) * n3)) in S.
    rewrite !zz_eq.
    replace (33 * (l2 - l1) + (24 + m) * (n2 - n1)) with (33 * l2 + (24 + m) * n2 - (33 * l1 + (24 + m) * n1)) by ring.
    replace (33 * (l4 - l3) + (24 + m) * (n4 - n3)) with (33 * l4 + (24 + m) * n4 - (33 * l3 + (24 + m) * n3)) by ring.
    replace (33 * (l3 - l1) + (24 + m) * (n3 - n1)) with (33 * l3 + (24 + m) * n3 - (33 * l1 + (24 + m) * n1)) by ring.
    destruct S as [S|(P & P' & S)]; [left; exact S|right; split; [exact P|split; [exact P'|apply mod0_iff; exact S]]]. }
  pose proof (R 0 ltac:(lia)) as R0. pose proof (R 1 ltac:(lia)) as R1. pose proof (R 2 ltac:(lia)) as R2. clear R S.
  change (24 + 0) with 24 in R0. change (24 + 1) with 25 in R1. change (24 + 2) with 26 in R2.
  assert (B1 : 0 <= (l2 - l1) mod 31 < 31) by (apply Z.mod_pos_bound; lia).
  assert (B2 : 0 <= (l4 - l3) mod 31 < 31) by (apply Z.mod_pos_bound; lia).
  destruct (cand_facts _ (n2 - n1) B1 ltac:(lia)) as (_ & _ & F).
  destruct (cand_facts _ (n4 - n3) B2 ltac:(lia)) as (I & _ & _).
  pose proof (rel_key (n2 - n1) _ _ _ (n4 - n3) _ _ _ _ _ R0 R1 R2) as K.
  change (ckey (mkcand ((l2 - l1) mod 31) (n2 - n1)) = ckey (mkcand ((l4 - l3) mod 31) (n4 - n3))) in K.
  rewrite <- K in I. specialize (F _ I).
  assert (L1 : n2 - n1 < n3 - n1) by lia. assert (L2 : n3 - n1 + (n4 - n3) <= 87) by lia.
  pose proof (okn_false (n2 - n1) _ _ _ (n4 - n3) _ _ _ _ _ L1 L2 R0 R1 R2) as O.
  unfold ok4 in F. destruct (ckey (mkcand ((l2 - l1) mod 31) (n2 - n1)) =? 1024) eqn:E.
  - rewrite forallb_forall in F. assert (RR : 0 <= n3 - n1 - 1 < 87) by lia.
    specialize (F _ (in_range 87 _ RR)). cbn beta in F. replace (n3 - n1 - 1 + 1) with (n3 - n1) in F by lia.
    unfold mkcand in F. congruence.
  - unfold mkcand in F. 
    destruct R0 as [(E0 & _)|(_ & _ & (q0 & Q0))].
    { unfold ckey, mkcand in E. rewrite E0 in E. cbn in E. lia. }
    destruct R1 as [(E1 & _)|(_ & _ & (q1 & Q1))].
    { unfold ckey, mkcand in E. rewrite E1 in E. rewrite !orb_true_r in E. cbn in E. lia. }
    match type of F with okn _ _ ?x = true => replace x with (n3 - n1) in F; [congruence|] end.
    set (A := zz 1 _ (n2 - n1) - zz 1 _ (n4 - n3)) in *.
    set (B := zz 0 _ (n2 - n1) - zz 0 _ (n4 - n3)) in *.
    replace (A - B) with (n3 - n1 + (q1 - q0) * 1023) by lia.
    rewrite Z_mod_plus_full, Z.mod_small by lia. reflexivity.
Qed.

Lemma no_three n1 n2 n3 l1 l2 l3 : n1 < n2 -> n2 < n3 -> n3 - n1 <= 87 ->
  (forall m, 0 <= m <= 2 -> synd m [(n1, l1); (n2, l2); (n3, l3)] = 0) -> False.
Proof.
  intros H12 H23 H13 S.
  assert (R : forall m, 0 <= m <= 2 -> mod0 (33 * (l3 - l1) + (24 + m) * (n3 - n1) - zz m ((l2 - l1) mod 31) (n2 - n1))).
  { intros m Hm. specialize (S m Hm). unfold synd in S. cbn [map] in S.
    apply (three_terms (33 * l1 + (24 + m) * n1) (33 * l2 + (24 + m) * n2)) in S. rewrite zz_eq.
    replace (33 * (l2 - l1) + (24 + m) * (n2 - n1)) with (33 * l2 + (24 + m) * n2 - (33 * l1 + (24 + m) * n1)) by ring.
    replace (33 * (l3 - l1) + (24 + m) * (n3 - n1)) with (33 * l3 + (24 + m) * n3 - (33 * l1 + (24 + m) * n1)) by ring.
    apply mod0_iff. tauto. }
  destruct (R 0 ltac:(lia)) as (q0 & Q0), (R 1 ltac:(lia)) as (q1 & Q1), (R 2 ltac:(lia)) as (q2 & Q2).
  assert (B1 : 0 <= (l2 - l1) mod 31 < 31) by (apply Z.mod_pos_bound; lia).
  destruct (cand_facts _ (n2 - n1) B1 ltac:(lia)) as (_ & F & _).
  unfold ok3, mkcand in F.
  set (z0 := zz 0 _ _) in *. set (z1 := zz 1 _ _) in *. set (z2 := zz 2 _ _) in *.
  replace ((z1 - z0) mod 1023) with (n3 - n1) in F.
  2:{ replace (z1 - z0) with (n3 - n1 + (q0 - q1) * 1023) by lia. rewrite Z_mod_plus_full, Z.mod_small by lia. reflexivity. }
  replace ((z2 - z1 - (n3 - n1)) mod 1023) with 0 in F.
  2:{ symmetry. apply (mod_0 _ _ (q1 - q2)); lia. }
  apply negb_true_iff in F. change (0 =? 0) with true in F. lia.
Qed.

Lemma no_two n1 n2 l1 l2 : n1 < n2 -> n2 - n1 <= 87 ->
  (forall m, 0 <= m <= 2 -> synd m [(n1, l1); (n2, l2)] = 0) -> False.
Proof.
  intros H12 H S. pose proof (S 0 ltac:(lia)) as S0. pose proof (S 1 ltac:(lia)) as S1.
  apply (two_terms (33 * l1 + (24 + 0) * n1)) in S0. apply (two_terms (33 * l1 + (24 + 1) * n1)) in S1.
  apply mod0_iff in S0, S1. destruct S0 as (q0 & Q0), S1 as (q1 & Q1). lia.
Qed.
Lemma no_one n1 l1 : synd 0 [(n1, l1)] = 0 -> False.
Proof.
  unfold synd. cbn [map xs fold_right]. rewrite Z.lxor_0_r. intros S.
  destruct (pw_facts (33 * l1 + (24 + 0) * n1)) as (_ & _ & P). lia.
Qed.

(* the checksum as syndromes *)
Lemma ev_check t : In t [24; 25; 26]%positive ->
  map (tlin (ev_tbl t)) (map (pmz 25 bip173_gen) (basis 30)) = map (tlin (tpow Gam t)) (ev_tbl t) /\
  forallb (fun v => tlin (ev_tbl t) v =? tlin Emb v) (range 32) = true.
Proof. intros [<-|[<-|[<-|[]]]]; vm_compute; auto. Qed.

Lemma synd_ok e m : Forall (below 32) e -> fold_left (pm_step 25 bip173_gen) e 0 = 0 -> 0 <= m <= 2 ->
  synd m (map (fun '(p, v) => (Z.of_nat p, lv v)) (terms e)) = 0.
Proof.
  intros He H Hm. set (t := Z.to_pos (24 + m)).
  assert (It : In t [24; 25; 26]%positive).
  { assert (C : m = 0 \/ m = 1 \/ m = 2) by lia. destruct C as [C|[C|C] ]; subst m; cbn; auto. }
  destruct (ev_check t It) as (C1 & C2).
  pose proof (syndrome 25 bip173_gen 30 ltac:(lia) ltac:(reflexivity) bip173_gen_ok Gam Emb (ev_tbl t) t C1) as Q.
  assert (CE : forall v, below 32 v -> tlin (ev_tbl t) v = tlin Emb v).
  { intros v Hv. rewrite forallb_forall in C2. specialize (C2 v (in_range 32 _ Hv)). lia. }
  specialize (Q CE e He H). unfold synd. rewrite map_map. rewrite <- Q. f_equal. apply map_ext_in.
  intros (p & v) I. apply terms_lt in I. destruct I as (_ & V0 & Iv).
  rewrite Forall_forall in He. rewrite (lv_ok v (He v Iv) V0), Gp_opow. f_equal.
  assert (Z.of_nat (Pos.to_nat t) = 24 + m) by (unfold t; lia). rewrite Nat2Z.inj_mul, H0. reflexivity.
Qed.

Theorem bech32_distance e : Forall (below 32) e -> (length e <= 88)%nat -> (nonzeros e <= 4)%nat ->
  fold_left (pm_step 25 bip173_gen) e 0 = 0 -> Forall (fun v => v = 0) e.
Proof.
  intros He Le Ne H. apply terms_nil. rewrite <- terms_length in Ne.
  pose proof (fun m => synd_ok e m He H) as S. pose proof (terms_decr e) as D.
  assert (T : forall p v, In (p, v) (terms e) -> (p < 88)%nat) by (intros p v I; apply terms_lt in I; lia).
  destruct (terms e) as [|[p1 v1] [|[p2 v2] [|[p3 v3] [|[p4 v4] [|x l]]]]]; cbn [length] in Ne; [reflexivity| | | | |lia]; exfalso; cbn [map] in S.
  - apply (no_one (Z.of_nat p1) (lv v1)). apply S. lia.
  - inversion D as [|a b c D1 D2]; subst. pose proof (D1 p2 v2 ltac:(cbn; auto)). pose proof (T p1 v1 ltac:(cbn; auto)).
    apply (no_two (Z.of_nat p2) (Z.of_nat p1) (lv v2) (lv v1)); [lia|lia|]. intros m Hm. rewrite <- (S m Hm).
    unfold synd. cbn [map xs fold_right]. set (A := Gp _). set (B := Gp _). xor_solve.
  - inversion D as [|a b c D1 D2]; subst. inversion D2 as [|a b c D3 D4]; subst.
    pose proof (D1 p2 v2 ltac:(cbn; auto)). pose proof (D3 p3 v3 ltac:(cbn; auto)). pose proof (T p1 v1 ltac:(cbn; auto)).
    apply (no_three (Z.of_nat p3) (Z.of_nat p2) (Z.of_nat p1) (lv v3) (lv v2) (lv v1)); [lia|lia|lia|].
    intros m Hm. rewrite <- (S m Hm).
    unfold synd. cbn [map xs fold_right]. set (A := Gp _). set (B := Gp _). set (C := Gp _). xor_solve.
  - inversion D as [|a b c D1 D2]; subst. inversion D2 as [|a b c D3 D4]; subst. inversion D4 as [|a b c D5 D6]; subst.
    pose proof (D1 p2 v2 ltac:(cbn; auto)). pose proof (D3 p3 v3 ltac:(cbn; auto)). pose proof (D5 p4 v4 ltac:(cbn; auto)).
    pose proof (T p1 v1 ltac:(cbn; auto)).
    apply (no_four (Z.of_nat p4) (Z.of_nat p3) (Z.of_nat p2) (Z.of_nat p1) (lv v4) (lv v3) (lv v2) (lv v1)); [lia|lia|lia|lia|].
    intros m Hm. rewrite <- (S m Hm).
    unfold synd. cbn [map xs fold_right]. set (A := Gp _). set (B := Gp _). set (C := Gp _). set (K := Gp _). xor_solve.
Qed.
