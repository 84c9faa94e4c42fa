(* The unrolled SHA-1, SHA-256 and SHA-512 transforms are the FIPS 180-4 recurrences *)
From Verif.Base Require Import Prelude.
From Verif.Model Require Import Bio Sha.
From Verif.Spec Require Import BlockSpec ShaSpec.
From Verif.Proof Require Import BioProof BufCrypt.

(* ---- words ---- *)
Lemma rot_lor w x n : 0 <= x < 2 ^ w -> 0 < n < w ->
  Z.lor (Z.shiftr x n) ((Z.shiftl x (w - n)) mod 2 ^ w) = rotr w x n.
Proof.
  intros Hx Hn. unfold rotr. rewrite Z.shiftr_div_pow2, Z.shiftl_mul_pow2 by lia.
  assert (E : (x * 2 ^ (w - n)) mod 2 ^ w = (x mod 2 ^ n) * 2 ^ (w - n)).
  { replace (2 ^ w) with (2 ^ n * 2 ^ (w - n)) by (rewrite <- Z.pow_add_r by lia; f_equal; lia).
    rewrite Z.mul_mod_distr_r by lia. reflexivity. }
  rewrite E. rewrite Z.lor_comm, Z.add_comm. apply lor_add_low; [lia|].
  split; [apply Z.div_pos; lia|]. apply Z.div_lt_upper_bound; [lia|].
  rewrite <- Z.pow_add_r by lia. replace (n + (w - n)) with w by lia. lia.
Qed.
Lemma rotr_range w x n : 0 <= x < 2 ^ w -> 0 < n < w -> 0 <= rotr w x n < 2 ^ w.
Proof.
  intros Hx Hn. unfold rotr. pose proof (Z.mod_pos_bound x (2 ^ n) ltac:(lia)) as H1.
  assert (H2 : 0 <= x / 2 ^ n < 2 ^ (w - n)).
  { split; [apply Z.div_pos; lia|]. apply Z.div_lt_upper_bound; [lia|].
    rewrite <- Z.pow_add_r by lia. replace (n + (w - n)) with w by lia. lia. }
  assert (H3 : 2 ^ w = 2 ^ n * 2 ^ (w - n)) by (rewrite <- Z.pow_add_r by lia; f_equal; lia). nia.
Qed.
Lemma rotr32_spec x n : 0 <= x < 2 ^ 32 -> 0 < n < 32 -> rotr32 x n = rotr 32 x n.
Proof. intros Hx Hn. rewrite <- rot_lor by lia. reflexivity. Qed.
Lemma rotr64_spec x n : 0 <= x < 2 ^ 64 -> 0 < n < 64 -> rotr64 x n = rotr 64 x n.
Proof. intros Hx Hn. rewrite <- rot_lor by lia. reflexivity. Qed.
Lemma rotl32_spec x n : 0 <= x < 2 ^ 32 -> 0 < n < 32 -> rotl32 x n = rotl 32 x n.
Proof.
  intros Hx Hn. unfold rotl. rewrite <- rot_lor by lia. replace (32 - (32 - n)) with n by lia. rewrite Z.lor_comm. reflexivity.
Qed.
Lemma shr_sh x n : 0 <= n -> shr x n = sh x n.
Proof. intros H. unfold shr, sh. apply Z.shiftr_div_pow2; auto. Qed.

Lemma ch_eq x y z : Ch x y z = fch x y z.
Proof.
  unfold Ch, fch. apply Z.bits_inj'. intros n Hn.
  rewrite ?Z.lxor_spec, ?Z.land_spec, ?Z.lxor_spec, Z.lnot_spec by lia.
  destruct (Z.testbit x n), (Z.testbit y n), (Z.testbit z n); reflexivity.
Qed.
Lemma maj_eq x y z : Maj x y z = fmaj x y z.
Proof.
  unfold Maj, fmaj. apply Z.bits_inj'. intros n Hn.
  rewrite ?Z.lxor_spec, ?Z.lor_spec, ?Z.land_spec, ?Z.lor_spec by lia.
  destruct (Z.testbit x n), (Z.testbit y n), (Z.testbit z n); reflexivity.
Qed.

(* ---- the circular schedule ---- *)
Definition circ (t : nat) (W s : list Z) : Prop :=
  length W = 16%nat /\ length s = t /\ forall j, (j < 16)%nat -> (j < t)%nat -> nth ((t - 1 - j) mod 16) W 0 = nth j s 0.
Lemma circ_init : circ 0 (repeat 0 16) [].
Proof. split; [reflexivity|]. split; [reflexivity|]. intros; lia. Qed.
Lemma land15 (n : nat) : Z.to_nat (Z.land (Z.of_nat n) 15) = (n mod 16)%nat.
Proof.
  change 15 with (2 ^ 4 - 1). rewrite land_mask by lia. change (2 ^ 4) with (Z.of_nat 16).
  rewrite <- Nat2Z.inj_mod, Nat2Z.id. reflexivity.
Qed.
Lemma circ_step t W s w : circ t W s -> circ (S t) (wset W (Z.of_nat t) w) (w :: s).
Proof.
  intros [H1 [H2 H3]]. unfold wset. rewrite land15. split; [rewrite upd_length; auto|].
  split; [cbn; lia|]. intros j J1 J2. destruct j as [|j].
  - replace (S t - 1 - 0)%nat with t by lia. rewrite nth_upd_same; [reflexivity|]. rewrite H1. apply Nat.mod_upper_bound. lia.
  - replace (S t - 1 - S j)%nat with (t - 1 - j)%nat by lia. rewrite nth_upd_other.
    + cbn [nth]. apply H3; lia.
    + intros E. pose proof (Nat.div_mod_eq t 16) as D1. pose proof (Nat.div_mod_eq (t - 1 - j) 16) as D2. lia.
Qed.
Lemma circ_ref t W s k : circ t W s -> (16 <= t)%nat -> (1 <= k <= 16)%nat ->
  wref W (Z.of_nat t) (Z.of_nat k) = nth (k - 1) s 0.
Proof.
  intros [H1 [H2 H3]] Ht Hk. unfold wref. replace (Z.of_nat t - Z.of_nat k) with (Z.of_nat (t - k)) by lia.
  rewrite land15. rewrite <- H3 by lia. f_equal. f_equal. lia.
Qed.

(* ---- SHA-2 ---- *)
Definition rotate {A} (l : list A) : list A := match rev l with [] => [] | x :: r => x :: rev r end.
Definition regs8 (t : nat) : list nat := Nat.iter (t mod 8) rotate [0; 1; 2; 3; 4; 5; 6; 7]%nat.
Lemma rows256 : sha256_rows = map (fun t => (regs8 t, Z.of_nat t, s2_K fips256 t)) (seq 0 64).
Proof. vm_compute. reflexivity. Qed.
Lemma rows512 : sha512_rows = map (fun t => (regs8 t, Z.of_nat t, s2_K fips512 t)) (seq 0 80).
Proof. vm_compute. reflexivity. Qed.

Section Sha2.
  Variable F : sha2.
  Variable P : Z.                    (* 2 ^ word size *)
  Variable add : Z -> Z -> Z.
  Variables mS0 mS1 ms0 ms1 : Z -> Z.
  Variable rdw : nat -> Z.           (* word i of the chunk *)
  Variable M : list Z.
  Let in_w (x : Z) := 0 <= x < P.
  Hypothesis HP : P = 2 ^ s2_w F.
  Hypothesis HP0 : 0 < P.
  Hypothesis Hadd : forall x y, add x y = (x + y) mod P.
  Hypothesis HS0 : forall x, in_w x -> mS0 x = s2_S0 F x.
  Hypothesis HS1 : forall x, in_w x -> mS1 x = s2_S1 F x.
  Hypothesis Hs0 : forall x, in_w x -> ms0 x = s2_s0 F x.
  Hypothesis Hs1 : forall x, in_w x -> ms1 x = s2_s1 F x.
  Hypothesis Hrd : forall i, (i < 16)%nat -> rdw i = bword (Z.to_nat (s2_w F / 8)) M i /\ in_w (rdw i).

  Definition R2 (row : list nat * Z * Z) (s : list Z * list Z) : list Z * list Z :=
    let '(regs, i, k) := row in
    let '(r, W) := s in
    let a := nth 0 regs 0%nat in let b := nth 1 regs 0%nat in let c := nth 2 regs 0%nat in let d := nth 3 regs 0%nat in
    let e := nth 4 regs 0%nat in let f := nth 5 regs 0%nat in let g := nth 6 regs 0%nat in let h := nth 7 regs 0%nat in
    let w := if i <? 16 then rdw (Z.to_nat i)
             else add (add (add (ms1 (wref W i 2)) (wref W i 7)) (ms0 (wref W i 15))) (wref W i 16) in
    let W := wset W i w in
    let r := upd r h (add (get r h) (add (add (add (mS1 (get r e)) (Ch (get r e) (get r f) (get r g))) k) w)) in
    let r := upd r d (add (get r d) (get r h)) in
    let r := upd r h (add (get r h) (add (mS0 (get r a)) (Maj (get r a) (get r b) (get r c)))) in
    (r, W).

  Definition view (regs : list nat) (r : list Z) : vars2 :=
    (get r (nth 0 regs 0%nat), get r (nth 1 regs 0%nat), get r (nth 2 regs 0%nat), get r (nth 3 regs 0%nat),
     get r (nth 4 regs 0%nat), get r (nth 5 regs 0%nat), get r (nth 6 regs 0%nat), get r (nth 7 regs 0%nat)).

  Lemma add4 h a b k w : add h (add (add (add a b) k) w) = (h + a + b + k + w) mod P.
  Proof.
    rewrite !Hadd. rewrite Zplus_mod_idemp_r. rewrite (Z.add_comm h), <- Z.add_assoc, Zplus_mod_idemp_l.
    rewrite <- Z.add_assoc, Zplus_mod_idemp_l. f_equal. lia.
  Qed.
  Lemma add_range x y : in_w (add x y).
  Proof. rewrite Hadd. apply Z.mod_pos_bound. auto. Qed.

  (* registers: one row on any rotation of the register file *)
  Lemma regs8_cases t : In (regs8 t) (map (fun k => Nat.iter k rotate [0; 1; 2; 3; 4; 5; 6; 7]%nat) (seq 0 8)).
  Proof. apply in_map_iff. exists (t mod 8)%nat. split; [reflexivity|]. apply in_seq. pose proof (Nat.mod_upper_bound t 8). lia. Qed.
  Lemma regs8_next t : regs8 (S t) = rotate (regs8 t).
  Proof.
    unfold regs8. pose proof (Nat.mod_upper_bound t 8 ltac:(lia)) as Hu.
    assert (E : (S t mod 8 = (S (t mod 8)) mod 8)%nat).
    { change (S t) with (1 + t)%nat. rewrite Nat.add_mod by lia. reflexivity. }
    rewrite E. clear E. revert Hu. generalize (t mod 8)%nat. intros k Hk.
    do 8 (destruct k as [|k]; [reflexivity|]). lia.
  Qed.

  Definition words (r : list Z) : Prop := Forall in_w r.

  Lemma R2_step regs i k r W w : In regs (map (fun k => Nat.iter k rotate [0; 1; 2; 3; 4; 5; 6; 7]%nat) (seq 0 8)) ->
    length r = 8%nat -> words r ->
    w = (if i <? 16 then rdw (Z.to_nat i)
             else add (add (add (ms1 (wref W i 2)) (wref W i 7)) (ms0 (wref W i 15))) (wref W i 16)) ->
    exists r', R2 (regs, i, k) (r, W) = (r', wset W i w) /\ length r' = 8%nat /\ words r' /\
      view (rotate regs) r' = round2 F k w (view regs r).
  Proof.
    intros Hregs HL Hr Hw.
    destruct r as [|x0 [|x1 [|x2 [|x3 [|x4 [|x5 [|x6 [|x7 [|]]]]]]]]]; try discriminate HL.
    assert (Hin : Forall in_w [x0; x1; x2; x3; x4; x5; x6; x7]) by exact Hr.
    rewrite Forall_forall in Hin.
    unfold R2. cbv zeta. rewrite <- Hw. clear Hw.
    eexists. split; [reflexivity|].
    assert (T : forall h e f g d a b c, in_w e -> in_w a ->
      add h (add (add (add (mS1 e) (Ch e f g)) k) w) = (h + s2_S1 F e + fch e f g + k + w) mod P /\
      add d (add h (add (add (add (mS1 e) (Ch e f g)) k) w)) = (d + (h + s2_S1 F e + fch e f g + k + w)) mod P /\
      add (add h (add (add (add (mS1 e) (Ch e f g)) k) w)) (add (mS0 a) (Maj a b c)) =
        ((h + s2_S1 F e + fch e f g + k + w) + (s2_S0 F a + fmaj a b c)) mod P).
    { intros h e f g d a b c He Ha. rewrite add4, HS1, HS0, ch_eq, maj_eq by auto. rewrite !Hadd.
      split; [reflexivity|]. split; [apply Zplus_mod_idemp_r|]. rewrite Zplus_mod_idemp_l, Zplus_mod_idemp_r. reflexivity. }
    cbn in Hregs.
    assert (RR : forall l, Forall in_w l -> forall j x, in_w x -> Forall in_w (upd l j x)).
    { intros l Hl. induction Hl as [|y l Hy Hl IH]; intros j x Hx; destruct j; cbn [upd]; constructor; auto. }
    assert (G : forall h d a e f g b c r1,
       length r1 = 8%nat -> Forall in_w r1 ->
       let r2 := upd r1 h (add (get r1 h) (add (add (add (mS1 (get r1 e)) (Ch (get r1 e) (get r1 f) (get r1 g))) k) w)) in
       let r3 := upd r2 d (add (get r2 d) (get r2 h)) in
       let r4 := upd r3 h (add (get r3 h) (add (mS0 (get r3 a)) (Maj (get r3 a) (get r3 b) (get r3 c)))) in
       length r4 = 8%nat /\ Forall in_w r4).
    { intros h d a e f g b c r1 L1 W1. cbv zeta. rewrite !upd_length. split; [auto|].
      apply RR; [|apply add_range]. apply RR; [|apply add_range]. apply RR; [auto|apply add_range]. }
    split; [apply (G (nth 7 regs 0%nat) (nth 3 regs 0%nat) (nth 0 regs 0%nat) (nth 4 regs 0%nat) (nth 5 regs 0%nat) (nth 6 regs 0%nat) (nth 1 regs 0%nat) (nth 2 regs 0%nat) [x0; x1; x2; x3; x4; x5; x6; x7]); auto|].
    split; [apply (G (nth 7 regs 0%nat) (nth 3 regs 0%nat) (nth 0 regs 0%nat) (nth 4 regs 0%nat) (nth 5 regs 0%nat) (nth 6 regs 0%nat) (nth 1 regs 0%nat) (nth 2 regs 0%nat) [x0; x1; x2; x3; x4; x5; x6; x7]); auto|].
    assert (I : forall x, In x [x0; x1; x2; x3; x4; x5; x6; x7] -> in_w x) by exact Hin.
    clear G RR Hr Hin HL. rewrite HP in *.
    destruct Hregs as [<-|[<-|[<-|[<-|[<-|[<-|[<-|[<-|[]]]]]]]]];
      cbv [view round2 rotate rev app nth get upd];
      match goal with |- context [mS1 ?e] => match goal with |- context [mS0 ?a] => 
        match goal with |- context [Ch e ?f ?g] => match goal with |- context [Maj a ?b ?c] =>
        match goal with |- context [add ?h (add (add (add (mS1 e) (Ch e f g)) k) w)] =>
        match goal with |- context [add ?d (add h (add (add (add (mS1 e) (Ch e f g)) k) w))] =>
          destruct (T h e f g d a b c ltac:(apply I; cbn; tauto) ltac:(apply I; cbn; tauto)) as [T1 [T2 T3]]; rewrite T3, T2; reflexivity
        end end end end end end.
  Qed.

  Lemma sched2_length t : length (sched2 F M t) = t.
  Proof. induction t; cbn; [auto|]. f_equal. auto. Qed.
  Lemma sched2_words t : Forall in_w (sched2 F M t).
  Proof.
    induction t as [|t IH]; [constructor|]. cbn [sched2]. cbv zeta. constructor; [|exact IH].
    destruct (Nat.ltb_spec t 16) as [H|H].
    - destruct (Hrd t H) as [E R]. rewrite <- E. exact R.
    - unfold in_w. rewrite HP. apply Z.mod_pos_bound. lia.
  Qed.
  Lemma nth_words l j : Forall in_w l -> in_w (nth j l 0).
  Proof.
    intros H. destruct (Nat.ltb_spec j (length l)) as [L|L].
    - rewrite Forall_forall in H. apply H. apply nth_In. auto.
    - rewrite nth_overflow by lia. unfold in_w. lia.
  Qed.

  Lemma rounds_ok (Krow : nat -> Z) (st : list Z) (n : nat) : (forall t, (t < n)%nat -> Krow t = s2_K F t) ->
    length st = 8%nat -> words st ->
    forall t, (t <= n)%nat -> exists r W,
      fold_left (fun s row => R2 row s) (map (fun t => (regs8 t, Z.of_nat t, Krow t)) (seq 0 t)) (st, repeat 0 16) = (r, W) /\
      circ t W (sched2 F M t) /\ length r = 8%nat /\ words r /\ view (regs8 t) r = rounds2 F M (vars_of st) t.
  Proof.
    intros HK Lst Wst. induction t as [|t IH]; intros Ht.
    { exists st, (repeat 0 16). split; [reflexivity|]. split; [apply circ_init|]. split; [auto|]. split; [auto|]. reflexivity. }
    destruct (IH ltac:(lia)) as [r [W [E [C [Lr [Wr V]]]]]].
    rewrite seq_S, map_app, fold_left_app, E. cbn [map fold_left Nat.add].
    assert (Ew : (if Z.of_nat t <? 16 then rdw (Z.to_nat (Z.of_nat t))
             else add (add (add (ms1 (wref W (Z.of_nat t) 2)) (wref W (Z.of_nat t) 7)) (ms0 (wref W (Z.of_nat t) 15))) (wref W (Z.of_nat t) 16))
             = hd 0 (sched2 F M (S t))).
    { cbn [sched2]. cbv zeta. cbn [hd]. rewrite Nat2Z.id. destruct (Nat.ltb_spec t 16) as [H|H].
      - rewrite (proj2 (Z.ltb_lt (Z.of_nat t) 16)) by lia. apply Hrd; auto.
      - rewrite (proj2 (Z.ltb_ge (Z.of_nat t) 16)) by lia.
        change 2 with (Z.of_nat 2) at 1. change 7 with (Z.of_nat 7). change 15 with (Z.of_nat 15). change 16 with (Z.of_nat 16).
        rewrite !(circ_ref t W _ _ C H) by lia. cbn [Nat.sub].
        rewrite Hs0, Hs1 by (apply nth_words, sched2_words).
        rewrite !Hadd, <- HP. rewrite (Z.add_mod_idemp_l _ (nth 15 _ 0)) by lia.
        rewrite <- (Z.add_assoc _ (s2_s0 F _)), Zplus_mod_idemp_l. f_equal. lia. }
    destruct (R2_step (regs8 t) (Z.of_nat t) (Krow t) r W _ (regs8_cases t) Lr Wr eq_refl) as [r' [E' [L' [W' V']]]].
    rewrite Ew in E', V'. rewrite E'. exists r', (wset W (Z.of_nat t) (hd 0 (sched2 F M (S t)))).
    split; [reflexivity|]. split.
    - cbn [sched2]. cbv zeta. cbn [hd]. apply circ_step. exact C.
    - split; [auto|]. split; [auto|]. rewrite regs8_next, V', V, HK by lia. reflexivity.
  Qed.
End Sha2.

Lemma map2_8 (f : Z -> Z -> Z) r st : length r = 8%nat -> (forall x y, f x y = f y x) ->
  map2 f st r = let '(a, b, c, d, e, ff, g, h) := view (regs8 0) r in map2 f [a; b; c; d; e; ff; g; h] st.
Proof.
  intros L Hc. destruct r as [|x0 [|x1 [|x2 [|x3 [|x4 [|x5 [|x6 [|x7 [|]]]]]]]]]; try discriminate L.
  change (view (regs8 0) [x0; x1; x2; x3; x4; x5; x6; x7]) with (x0, x1, x2, x3, x4, x5, x6, x7). cbv iota beta.
  generalize [x0; x1; x2; x3; x4; x5; x6; x7]. clear - Hc. induction st as [|y st IH]; intros [|x l]; cbn [map2]; try reflexivity.
  rewrite Hc, IH. reflexivity.
Qed.

Lemma rd_firstn4 s : (4 <= length s)%nat -> [rd s 0; rd s 1; rd s 2; rd s 3] = firstn 4 s.
Proof. intros L. destruct s as [|a [|b [|c [|d s]]]]; cbn in L; try lia. reflexivity. Qed.
Lemma rd_firstn8 s : (8 <= length s)%nat -> [rd s 0; rd s 1; rd s 2; rd s 3; rd s 4; rd s 5; rd s 6; rd s 7] = firstn 8 s.
Proof. intros L. destruct s as [|a [|b [|c [|d [|e [|f [|g [|h s]]]]]]]]; cbn in L; try lia. reflexivity. Qed.

Lemma word32 M i : bytes M -> (64 <= length M)%nat -> (i < 16)%nat ->
  read32be (skipn (Z.to_nat (Z.of_nat i * 4)) M) = bword 4 M i /\ 0 <= read32be (skipn (Z.to_nat (Z.of_nat i * 4)) M) < 2 ^ 32.
Proof.
  intros HM HL Hi. split; [|apply read32be_range; apply bytes_skipn; auto].
  rewrite read32be_spec by (apply bytes_skipn; auto). replace (Z.to_nat (Z.of_nat i * 4)) with (i * 4)%nat by lia.
  rewrite rd_firstn4 by (rewrite skipn_length; lia). reflexivity.
Qed.
Lemma word64 M i : bytes M -> (128 <= length M)%nat -> (i < 16)%nat ->
  read64be (skipn (Z.to_nat (Z.of_nat i * 8)) M) = bword 8 M i /\ 0 <= read64be (skipn (Z.to_nat (Z.of_nat i * 8)) M) < 2 ^ 64.
Proof.
  intros HM HL Hi. split; [|apply read64be_range; apply bytes_skipn; auto].
  rewrite read64be_spec by (apply bytes_skipn; auto). replace (Z.to_nat (Z.of_nat i * 8)) with (i * 8)%nat by lia.
  rewrite rd_firstn8 by (rewrite skipn_length; lia). reflexivity.
Qed.

Theorem sha256_transform_spec st M : length st = 8%nat -> Forall (fun x => 0 <= x < 2 ^ 32) st ->
  bytes M -> length M = 64%nat -> sha256_transform st M = compress2 fips256 st M.
Proof.
  intros Ls Ws HM HL.
  destruct (rounds_ok fips256 (2 ^ 32) add32 Sigma0_32 Sigma1_32 sigma0_32 sigma1_32
    (fun i => read32be (skipn (Z.to_nat (Z.of_nat i * 4)) M)) M eq_refl ltac:(lia) (fun x y => eq_refl)
    ltac:(intros x Hx; unfold Sigma0_32; rewrite !rotr32_spec by (auto; lia); reflexivity)
    ltac:(intros x Hx; unfold Sigma1_32; rewrite !rotr32_spec by (auto; lia); reflexivity)
    ltac:(intros x Hx; unfold sigma0_32; rewrite !rotr32_spec, shr_sh by (auto; lia); reflexivity)
    ltac:(intros x Hx; unfold sigma1_32; rewrite !rotr32_spec, shr_sh by (auto; lia); reflexivity)
    (fun i Hi => word32 M i HM ltac:(lia) Hi)
    (s2_K fips256) st 64 (fun t _ => eq_refl) Ls Ws 64 ltac:(lia)) as [r [W [E [_ [Lr [_ V]]]]]].
  unfold sha256_transform, compress2. rewrite rows256.
  change (s2_rounds fips256) with 64%nat. rewrite <- V.
  match type of E with fold_left ?ff _ _ = _ => assert (EE : forall l s, (forall row, In row l -> 0 <= snd (fst row)) -> fold_left (fun s row => sha256_R M row s) l s = fold_left ff l s) end.
  { induction l as [|row l IH]; intros s Hp; [reflexivity|]. cbn [fold_left]. rewrite <- IH by (intros; apply Hp; right; auto).
    f_equal. destruct row as [[regs i] k], s as [r0 W0]. unfold sha256_R, R2. 
    specialize (Hp (regs, i, k) (or_introl eq_refl)). cbn [fst snd] in Hp. rewrite Z2Nat.id by lia. reflexivity. }
  rewrite EE, E. 2:{ intros row Hin. apply in_map_iff in Hin. destruct Hin as [t [<- _]]. cbn. lia. }
  rewrite (map2_8 add32 r st Lr) by (intros; unfold add32, w32; rewrite Z.add_comm; reflexivity). reflexivity.
Qed.

Theorem sha512_transform_spec st M : length st = 8%nat -> Forall (fun x => 0 <= x < 2 ^ 64) st ->
  bytes M -> length M = 128%nat -> sha512_transform st M = compress2 fips512 st M.
Proof.
  intros Ls Ws HM HL.
  destruct (rounds_ok fips512 (2 ^ 64) add64 Sigma0_64 Sigma1_64 sigma0_64 sigma1_64
    (fun i => read64be (skipn (Z.to_nat (Z.of_nat i * 8)) M)) M eq_refl ltac:(lia) (fun x y => eq_refl)
    ltac:(intros x Hx; unfold Sigma0_64; rewrite !rotr64_spec by (auto; lia); reflexivity)
    ltac:(intros x Hx; unfold Sigma1_64; rewrite !rotr64_spec by (auto; lia); reflexivity)
    ltac:(intros x Hx; unfold sigma0_64; rewrite !rotr64_spec, shr_sh by (auto; lia); reflexivity)
    ltac:(intros x Hx; unfold sigma1_64; rewrite !rotr64_spec, shr_sh by (auto; lia); reflexivity)
    (fun i Hi => word64 M i HM ltac:(lia) Hi)
    (s2_K fips512) st 80 (fun t _ => eq_refl) Ls Ws 80 ltac:(lia)) as [r [W [E [_ [Lr [_ V]]]]]].
  unfold sha512_transform, compress2. rewrite rows512.
  change (s2_rounds fips512) with 80%nat. rewrite <- V.
  match type of E with fold_left ?ff _ _ = _ => assert (EE : forall l s, (forall row, In row l -> 0 <= snd (fst row)) -> fold_left (fun s row => sha512_R M row s) l s = fold_left ff l s) end.
  { induction l as [|row l IH]; intros s Hp; [reflexivity|]. cbn [fold_left]. rewrite <- IH by (intros; apply Hp; right; auto).
    f_equal. destruct row as [[regs i] k], s as [r0 W0]. unfold sha512_R, R2.
    specialize (Hp (regs, i, k) (or_introl eq_refl)). cbn [fst snd] in Hp. rewrite Z2Nat.id by lia. reflexivity. }
  rewrite EE, E. 2:{ intros row Hin. apply in_map_iff in Hin. destruct Hin as [t [<- _]]. cbn. lia. }
  rewrite (map2_8 add64 r st Lr) by (intros; unfold add64, w64; rewrite Z.add_comm; reflexivity). reflexivity.
Qed.

(* ---- SHA-1 ---- *)
Definition regs5 (t : nat) : list nat := Nat.iter (t mod 5) rotate [0; 1; 2; 3; 4]%nat.
Definition mF (t : nat) : Z -> Z -> Z -> Z :=
  if (t <? 20)%nat then F1 else if (t <? 40)%nat then F2 else if (t <? 60)%nat then F3 else F4.
Lemma rows1 : sha1_rows = map (fun t => (mF t, regs5 t, Z.of_nat t, k1 t)) (seq 0 80).
Proof. vm_compute. reflexivity. Qed.
Lemma mF_eq t x y z : mF t x y z = f1 t x y z.
Proof.
  unfold mF, f1. destruct (t <? 20)%nat; [apply ch_eq|]. destruct (t <? 40)%nat; [reflexivity|].
  destruct (t <? 60)%nat; [apply maj_eq|reflexivity].
Qed.
Lemma regs5_cases t : In (regs5 t) (map (fun k => Nat.iter k rotate [0; 1; 2; 3; 4]%nat) (seq 0 5)).
Proof. apply in_map_iff. exists (t mod 5)%nat. split; [reflexivity|]. apply in_seq. pose proof (Nat.mod_upper_bound t 5). lia. Qed.
Lemma regs5_next t : regs5 (S t) = rotate (regs5 t).
Proof.
  unfold regs5. pose proof (Nat.mod_upper_bound t 5 ltac:(lia)) as Hu.
  assert (E : (S t mod 5 = (S (t mod 5)) mod 5)%nat).
  { change (S t) with (1 + t)%nat. rewrite Nat.add_mod by lia. reflexivity. }
  rewrite E. clear E. revert Hu. generalize (t mod 5)%nat. intros k Hk.
  do 5 (destruct k as [|k]; [reflexivity|]). lia.
Qed.
Definition in32 (x : Z) : Prop := 0 <= x < 2 ^ 32.
Definition view1 (regs : list nat) (r : list Z) : vars1 :=
  (get r (nth 0 regs 0%nat), get r (nth 1 regs 0%nat), get r (nth 2 regs 0%nat), get r (nth 3 regs 0%nat), get r (nth 4 regs 0%nat)).
Lemma rotl32_in x n : in32 x -> 0 < n < 32 -> in32 (rotl32 x n).
Proof. intros Hx Hn. rewrite rotl32_spec by auto. apply rotr_range; auto. lia. Qed.
Lemma add32_in x y : in32 (add32 x y).
Proof. apply Z.mod_pos_bound. reflexivity. Qed.
Lemma Forall_upd (P : Z -> Prop) l : Forall P l -> forall j x, P x -> Forall P (upd l j x).
Proof. intros Hl. induction Hl as [|y l Hy Hl IH]; intros j x Hx; destruct j; cbn [upd]; constructor; auto. Qed.
Lemma Forall_get (P : Z -> Prop) l j : Forall P l -> P 0 -> P (get l j).
Proof.
  intros H H0. unfold get. destruct (Nat.ltb_spec j (length l)) as [L|L].
  - rewrite Forall_forall in H. apply H. apply nth_In. auto.
  - rewrite nth_overflow by lia. auto.
Qed.

Lemma add4_32 h a b k w : add32 h (add32 (add32 (add32 a b) k) w) = (h + a + b + k + w) mod 2 ^ 32.
Proof.
  unfold add32, w32. change M32 with (2 ^ 32). rewrite Zplus_mod_idemp_r. rewrite (Z.add_comm h), <- Z.add_assoc, Zplus_mod_idemp_l.
  rewrite <- Z.add_assoc, Zplus_mod_idemp_l. f_equal. lia.
Qed.
Lemma R1_step M t regs k r W w : In regs (map (fun k => Nat.iter k rotate [0; 1; 2; 3; 4]%nat) (seq 0 5)) ->
  length r = 5%nat -> Forall in32 r -> k = k1 t ->
  w = (if Z.of_nat t <? 16 then read32be (skipn (Z.to_nat (Z.of_nat t * 4)) M) else rotl32 (sha1_WORD W (Z.of_nat t)) 1) ->
  exists r', sha1_R M (mF t, regs, Z.of_nat t, k) (r, W) = (r', wset W (Z.of_nat t) w) /\ length r' = 5%nat /\ Forall in32 r' /\
    view1 (rotate regs) r' = round1 t w (view1 regs r).
Proof.
  intros Hregs HL Hr -> Hw. unfold sha1_R. cbv zeta. rewrite <- Hw. clear Hw.
  eexists. split; [reflexivity|]. rewrite !upd_length. split; [auto|]. split.
  - apply Forall_upd; [apply Forall_upd; [auto|apply add32_in]|]. apply rotl32_in; [|lia].
    apply Forall_get; [|unfold in32; lia]. apply Forall_upd; [auto|apply add32_in].
  - destruct r as [|x0 [|x1 [|x2 [|x3 [|x4 [|]]]]]]; try discriminate HL.
    assert (T : forall a b c d e, in32 a -> in32 b ->
      add32 e (add32 (add32 (add32 (rotl32 a 5) (mF t b c d)) w) (k1 t)) = (rotl 32 a 5 + f1 t b c d + e + k1 t + w) mod 2 ^ 32 /\
      rotl32 b 30 = rotl 32 b 30).
    { intros a b c d e Ha Hb. rewrite add4_32. rewrite mF_eq, !rotl32_spec by (auto; lia).
      split; [|reflexivity]. f_equal. lia. }
    rewrite Forall_forall in Hr. cbn in Hregs.
    destruct Hregs as [<-|[<-|[<-|[<-|[<-|[]]]]]]; cbv [view1 round1 rotate rev app nth get upd];
    match goal with |- context [add32 ?e (add32 (add32 (add32 (rotl32 ?a 5) (mF t ?b ?c ?d)) w) (k1 t))] =>
      destruct (T a b c d e ltac:(apply Hr; cbn; tauto) ltac:(apply Hr; cbn; tauto)) as [T1 T2]; rewrite T1, T2; reflexivity end.
Qed.

Lemma lxor_in32 x y : in32 x -> in32 y -> in32 (Z.lxor x y).
Proof. intros Hx Hy. apply (lxor_range x y 32); [lia|exact Hx|exact Hy]. Qed.
Lemma sched1_in M t : bytes M -> length M = 64%nat -> Forall in32 (sched1 M t).
Proof.
  intros HM HL. induction t as [|t IH]; [constructor|]. cbn [sched1]. cbv zeta. constructor; [|exact IH].
  destruct (Nat.ltb_spec t 16) as [H|H].
  - destruct (word32 M t HM ltac:(lia) H) as [E R]. rewrite <- E. exact R.
  - unfold rotl. apply rotr_range; [|lia].
    repeat apply lxor_in32; apply (Forall_get in32 (sched1 M t) _ IH); unfold in32; lia.
Qed.
Lemma rounds1_ok M st : bytes M -> length M = 64%nat -> length st = 5%nat -> Forall in32 st ->
  forall t, exists r W,
    fold_left (fun s row => sha1_R M row s) (map (fun t => (mF t, regs5 t, Z.of_nat t, k1 t)) (seq 0 t)) (st, repeat 0 16) = (r, W) /\
    circ t W (sched1 M t) /\ length r = 5%nat /\ Forall in32 r /\
    view1 (regs5 t) r = rounds1 M (nth 0 st 0, nth 1 st 0, nth 2 st 0, nth 3 st 0, nth 4 st 0) t.
Proof.
  intros HM HL Ls Ws. induction t as [|t IH].
  { exists st, (repeat 0 16). split; [reflexivity|]. split; [apply circ_init|]. split; [auto|]. split; [auto|]. reflexivity. }
  destruct IH as [r [W [E [C [Lr [Wr V]]]]]].
  rewrite seq_S, map_app, fold_left_app, E. cbn [map fold_left Nat.add].
  assert (Ew : (if Z.of_nat t <? 16 then read32be (skipn (Z.to_nat (Z.of_nat t * 4)) M) else rotl32 (sha1_WORD W (Z.of_nat t)) 1)
      = hd 0 (sched1 M (S t))).
  { cbn [sched1]. cbv zeta. cbn [hd]. destruct (Nat.ltb_spec t 16) as [H|H].
    - rewrite (proj2 (Z.ltb_lt (Z.of_nat t) 16)) by lia. apply word32; auto. lia.
    - rewrite (proj2 (Z.ltb_ge (Z.of_nat t) 16)) by lia. unfold sha1_WORD.
      change 3 with (Z.of_nat 3) at 1. change 8 with (Z.of_nat 8). change 14 with (Z.of_nat 14). change 16 with (Z.of_nat 16).
      rewrite !(circ_ref t W _ _ C H) by lia. cbn [Nat.sub]. apply rotl32_spec; [|lia].
      repeat apply lxor_in32; apply (Forall_get in32 (sched1 M t) _ (sched1_in M t HM HL)); unfold in32; lia. }
  destruct (R1_step M t (regs5 t) (k1 t) r W _ (regs5_cases t) Lr Wr eq_refl eq_refl) as [r' [E' [L' [W' V']]]].
  rewrite Ew in E', V'. rewrite E'. exists r', (wset W (Z.of_nat t) (hd 0 (sched1 M (S t)))).
  split; [reflexivity|]. split.
  - cbn [sched1]. cbv zeta. cbn [hd]. apply circ_step. exact C.
  - split; [auto|]. split; [auto|]. rewrite regs5_next, V', V. reflexivity.
Qed.
Theorem sha1_transform_spec st M : length st = 5%nat -> Forall (fun x => 0 <= x < 2 ^ 32) st ->
  bytes M -> length M = 64%nat -> sha1_transform st M = compress1 st M.
Proof.
  intros Ls Ws HM HL. destruct (rounds1_ok M st HM HL Ls Ws 80) as [r [W [E [_ [Lr [_ V]]]]]].
  unfold sha1_transform, compress1. rewrite rows1, E. rewrite <- V. clear - Lr.
  destruct r as [|x0 [|x1 [|x2 [|x3 [|x4 [|]]]]]]; try discriminate Lr.
  change (view1 (regs5 80) [x0; x1; x2; x3; x4]) with (x0, x1, x2, x3, x4). cbv iota beta.
  generalize [x0; x1; x2; x3; x4]. clear. induction st as [|y st IH]; intros [|x l]; cbn [map2]; try reflexivity.
  rewrite <- IH. f_equal. unfold add32, w32, M32. rewrite Z.add_comm. reflexivity.
Qed.

(* the results are words again *)
Lemma map2_mod_ok P (x y : list Z) n : 0 < P -> length x = n -> length y = n ->
  length (map2 (fun a b => (a + b) mod P) x y) = n /\ Forall (fun a => 0 <= a < P) (map2 (fun a b => (a + b) mod P) x y).
Proof.
  intros HP L1 L2. split; [rewrite map2_length; lia|]. clear L1 L2 n. revert y.
  induction x as [|a x IH]; intros [|b y]; cbn [map2]; constructor; auto. apply Z.mod_pos_bound. auto.
Qed.
Lemma compress2_ok F st M : 0 < 2 ^ s2_w F -> length st = 8%nat ->
  length (compress2 F st M) = 8%nat /\ Forall (fun x => 0 <= x < 2 ^ s2_w F) (compress2 F st M).
Proof.
  intros HP L. unfold compress2. destruct (rounds2 F M (vars_of st) (s2_rounds F)) as [[[[[[[a b] c] d] e] f] g] h].
  apply map2_mod_ok; auto.
Qed.
Lemma compress1_ok st M : length st = 5%nat ->
  length (compress1 st M) = 5%nat /\ Forall (fun x => 0 <= x < 2 ^ 32) (compress1 st M).
Proof.
  intros L. unfold compress1. destruct (rounds1 M _ 80) as [[[[a b] c] d] e]. apply map2_mod_ok; auto. lia.
Qed.
