(* ARC2, CAST5 and DES: decryption inverts encryption *)
From Verif.Base Require Import Prelude.
From Verif.Model Require Import Encoding Bio Util Hash Blowfish Ciphers64 Ciphers128.
From Verif.Proof Require Import BioProof BlowfishProof FinInv CipherGen.

(* ---- ARC2 ---- *)
Lemma hword_bits x : (forall i, 16 <= i -> Z.testbit x i = false) -> hword x.
Proof.
  intros H. assert (E : x = x mod 2 ^ 16).
  { apply Z.bits_inj'. intros m Hm. rewrite testbit_w by lia. destruct (m <? 16) eqn:E; [reflexivity|]. apply H. lia. }
  rewrite E. unfold hword. apply Z.mod_pos_bound. reflexivity.
Qed.
Lemma hword_high x i : hword x -> 16 <= i -> Z.testbit x i = false.
Proof. intros H Hi. apply (testbit_high x 16); [exact H|exact Hi]. Qed.
Lemma hword_mod x : hword (w16 x).
Proof. unfold hword, w16. apply Z.mod_pos_bound. reflexivity. Qed.
Lemma testbit_w16 m x : 0 <= m -> Z.testbit (w16 x) m = (m <? 16) && Z.testbit x m.
Proof. intros H. unfold w16. change M16 with (2 ^ 16). rewrite testbit_w by lia. destruct (m <? 16); reflexivity. Qed.
Lemma rotl16_bit x n i : hword x -> 0 < n < 16 -> 0 <= i -> Z.testbit (rotl16 x n) i = if i <? 16 then Z.testbit x ((i - n) mod 16) else false.
Proof.
  intros Hx Hn Hi. unfold rotl16, shr. rewrite Z.lor_spec, testbit_w16, Z.shiftl_spec, Z.shiftr_spec by lia.
  destruct (Z.ltb_spec i 16) as [L|L].
  - rewrite andb_true_l. destruct (Z.lt_ge_cases i n) as [C|C].
    + rewrite (Z.testbit_neg_r x (i - n)) by lia. rewrite orb_false_r. f_equal. apply (Z.mod_unique_pos _ _ (-1)); lia.
    + rewrite (hword_high x (i + (16 - n))) by (auto; lia). cbn [orb]. f_equal. symmetry. apply Z.mod_small. lia.
  - cbn [andb]. rewrite orb_false_r. apply hword_high; [exact Hx|lia].
Qed.
Lemma rotl16_hword x n : hword x -> 0 < n < 16 -> hword (rotl16 x n).
Proof. intros Hx Hn. apply hword_bits. intros i Hi. rewrite rotl16_bit by (auto; lia). replace (i <? 16) with false by lia. reflexivity. Qed.
Lemma rotl16_inv x n : hword x -> 0 < n < 16 -> rotl16 (rotl16 x n) (16 - n) = x.
Proof.
  intros Hx Hn. apply Z.bits_inj'. intros i Hi. rewrite rotl16_bit by (try apply rotl16_hword; auto; lia).
  destruct (Z.ltb_spec i 16) as [L|L]; [|symmetry; apply hword_high; assumption].
  pose proof (Z.mod_pos_bound (i - (16 - n)) 16 eq_refl). rewrite rotl16_bit by (auto; lia). replace ((i - (16 - n)) mod 16 <? 16) with true by lia.
  f_equal. rewrite Zminus_mod_idemp_l. replace (i - (16 - n) - n) with (i + -1 * 16) by lia. rewrite Z_mod_plus_full. apply Z.mod_small. lia.
Qed.
Lemma mix1_inv r a b c k n : hword r -> 0 < n < 16 -> hword (arc2_mix1 r a b c k n) /\ arc2_unmix1 (arc2_mix1 r a b c k n) a b c k n = r.
Proof.
  intros Hr Hn. unfold arc2_mix1, arc2_unmix1. split; [apply rotl16_hword; [apply hword_mod|exact Hn]|]. rewrite rotl16_inv by (try apply hword_mod; exact Hn).
  generalize (Z.land a b) (Z.land (Z.lnot a) c). intros u v.
  assert (X : forall x, exists q, w16 x = x + q * M16) by (intros x; exists (- (x / M16)); unfold w16; pose proof (Z.div_mod x M16); unfold M16 in *; lia).
  pose proof (hword_mod (w16 (w16 (w16 (w16 (w16 (r + k) + u) + v) - k) - u) - v)) as R. unfold hword in *.
  destruct (X (w16 (w16 (w16 (w16 (w16 (r + k) + u) + v) - k) - u) - v)) as [q1 E1]. rewrite E1 in *. clear E1.
  destruct (X (w16 (w16 (w16 (w16 (r + k) + u) + v) - k) - u)) as [q2 E2]. rewrite E2 in *. clear E2. destruct (X (w16 (w16 (w16 (r + k) + u) + v) - k)) as [q3 E3]. rewrite E3 in *. clear E3.
  destruct (X (w16 (w16 (r + k) + u) + v)) as [q4 E4]. rewrite E4 in *. clear E4. destruct (X (w16 (r + k) + u)) as [q5 E5]. rewrite E5 in *. clear E5.
  destruct (X (r + k)) as [q6 E6]. rewrite E6 in *. clear E6 X. unfold M16 in *. lia.
Qed.
Lemma mix_inv k i j x : j = (i + 3)%nat -> hquad x -> hquad (arc2_mix k x i) /\ arc2_unmix k (arc2_mix k x i) j = x.
Proof.
  intros ->. destruct x as [[[r0 r1] r2] r3]. intros (A & B & C & D). unfold arc2_mix. cbv zeta.
  destruct (mix1_inv r0 r3 r2 r1 (rd k i) 1 A ltac:(lia)) as [A' EA]. set (s0 := arc2_mix1 r0 r3 r2 r1 (rd k i) 1) in *.
  destruct (mix1_inv r1 s0 r3 r2 (rd k (i + 1)) 2 B ltac:(lia)) as [B' EB]. set (s1 := arc2_mix1 r1 s0 r3 r2 (rd k (i + 1)) 2) in *.
  destruct (mix1_inv r2 s1 s0 r3 (rd k (i + 2)) 3 C ltac:(lia)) as [C' EC]. set (s2 := arc2_mix1 r2 s1 s0 r3 (rd k (i + 2)) 3) in *.
  destruct (mix1_inv r3 s2 s1 s0 (rd k (i + 3)) 5 D ltac:(lia)) as [D' ED]. set (s3 := arc2_mix1 r3 s2 s1 s0 (rd k (i + 3)) 5) in *.
  split; [exact (conj A' (conj B' (conj C' D')))|]. unfold arc2_unmix. cbv zeta. rewrite ED.
  replace (i + 3 - 1)%nat with (i + 2)%nat by lia. rewrite EC. replace (i + 3 - 2)%nat with (i + 1)%nat by lia. rewrite EB. replace (i + 3 - 3)%nat with i by lia. rewrite EA. reflexivity.
Qed.
Lemma addsub16 r k : hword r -> w16 (w16 (r + k) - k) = r.
Proof. intros H. unfold w16. rewrite Zminus_mod_idemp_l. replace (r + k - k) with r by lia. apply Z.mod_small. exact H. Qed.
Lemma mash_inv k x : hquad x -> hquad (arc2_mash k x) /\ arc2_unmash k (arc2_mash k x) = x.
Proof.
  destruct x as [[[r0 r1] r2] r3]. intros (A & B & C & D). unfold arc2_mash. cbv zeta.
  set (s0 := w16 (r0 + rd k (Z.to_nat (Z.land r3 63)))). set (s1 := w16 (r1 + rd k (Z.to_nat (Z.land s0 63)))).
  set (s2 := w16 (r2 + rd k (Z.to_nat (Z.land s1 63)))). set (s3 := w16 (r3 + rd k (Z.to_nat (Z.land s2 63)))).
  split; [exact (conj (hword_mod _) (conj (hword_mod _) (conj (hword_mod _) (hword_mod _))))|].
  pose proof (addsub16 r3 (rd k (Z.to_nat (Z.land s2 63))) D) as E3. fold s3 in E3. pose proof (addsub16 r2 (rd k (Z.to_nat (Z.land s1 63))) C) as E2. fold s2 in E2.
  pose proof (addsub16 r1 (rd k (Z.to_nat (Z.land s0 63))) B) as E1. fold s1 in E1. pose proof (addsub16 r0 (rd k (Z.to_nat (Z.land r3 63))) A) as E0. fold s0 in E0.
  unfold arc2_unmash. cbv zeta. rewrite E3, E2, E1, E0. reflexivity.
Qed.
Lemma arc2_words k x : hquad x -> hquad (arc2_encipher k x) /\ arc2_decipher k (arc2_encipher k x) = x.
Proof.
  intros W. unfold arc2_encipher. cbv zeta.
  assert (G : forall is js, Forall2 (fun i j => j = (i + 3)%nat) is js -> forall y, hquad y -> hquad (fold_left (arc2_mix k) is y) /\ fold_left (arc2_unmix k) (rev js) (fold_left (arc2_mix k) is y) = y).
  { intros is js H. apply fold_inverse. induction H as [|i j is js E _ IH]; constructor; [|exact IH]. intros y Hy. apply mix_inv; assumption. }
  destruct (G [0; 4; 8; 12; 16]%nat [3; 7; 11; 15; 19]%nat ltac:(repeat constructor) x W) as [W1 E1].
  set (y1 := fold_left (arc2_mix k) [0; 4; 8; 12; 16]%nat x) in *. destruct (mash_inv k y1 W1) as [W2 E2]. set (y2 := arc2_mash k y1) in *.
  destruct (G [20; 24; 28; 32; 36; 40]%nat [23; 27; 31; 35; 39; 43]%nat ltac:(repeat constructor) y2 W2) as [W3 E3].
  set (y3 := fold_left (arc2_mix k) [20; 24; 28; 32; 36; 40]%nat y2) in *. destruct (mash_inv k y3 W3) as [W4 E4]. set (y4 := arc2_mash k y3) in *.
  destruct (G [44; 48; 52; 56; 60]%nat [47; 51; 55; 59; 63]%nat ltac:(repeat constructor) y4 W4) as [W5 E5].
  split; [exact W5|]. unfold arc2_decipher. cbv zeta. cbn [rev app] in E1, E3, E5. rewrite E5, E4, E3, E2. exact E1.
Qed.
Theorem arc2_roundtrip k src : bytes src -> length src = 8%nat -> arc2_decrypt k (arc2_encrypt k src) = src /\ arc2_encrypt k (arc2_decrypt k src) = src.
Proof. apply (block_inverse 8 hquad (ld4h read16le) (st4h write16le) (arc2_encipher k) (arc2_decipher k) (fmt_ld4h _ _ fmt16le)). apply arc2_words. Qed.

(* ---- CAST5 ---- *)
Lemma cast5_tables : Forall (Forall word) cast5_S.
Proof. repeat (apply Forall_cons; [apply words_check; vm_compute; reflexivity|]). apply Forall_nil. Qed.
Lemma cS_word i b : word (cS i b).
Proof. unfold cS. apply (rd_all word); [|apply word_0]. apply (Forall_nth_d (Forall word)); [exact cast5_tables|constructor]. Qed.
(* a Feistel network undoes itself with the rounds reversed and the halves exchanged *)
Lemma feistel {I} (f : I -> Z -> Z) (step : Z * Z -> I -> Z * Z) : (forall l r i, step (l, r) i = (r, Z.lxor l (f i r))) -> (forall i r, word (f i r)) ->
  forall is x, wpair x -> let y := fold_left step is x in wpair y /\ fold_left step (rev is) (snd y, fst y) = (snd x, fst x).
Proof.
  intros Hs Hf. induction is as [|i is IH]; intros x W; [split; [exact W|reflexivity]|]. cbn [fold_left rev]. destruct x as [l r]. destruct W as [Wl Wr]. cbn [fst snd] in *.
  rewrite (Hs l r i). destruct (IH (r, Z.lxor l (f i r))) as [O E]; [split; [exact Wr|apply word_xor; [exact Wl|apply Hf]]|]. cbv zeta in *. split; [exact O|].
  rewrite fold_left_app, E. cbn [fold_left fst snd]. rewrite Hs, xx. reflexivity.
Qed.
Definition cast5_f (c : list Z * list Z) (fi : nat * nat) (r : Z) : Z :=
  let '(f, i) := fi in let m := rd (fst c) i in let n := rd (snd c) i in
  if (f =? 1)%nat then cast5_f1 r m n else if (f =? 2)%nat then cast5_f2 r m n else cast5_f3 r m n.
Lemma cast5_f_word c fi r : word (cast5_f c fi r).
Proof.
  destruct fi as [f i]. unfold cast5_f. cbv zeta. destruct (f =? 1)%nat; [apply word_add|]. destruct (f =? 2)%nat; [|apply word_sub].
  unfold cast5_f2. cbv zeta. apply word_xor; [apply word_add|apply cS_word].
Qed.
Lemma cast5_words c x : wpair x ->
  let e x := let '(l, r) := fold_left (cast5_R c) cast5_enc_rounds x in (r, l) in
  let d x := let '(l, r) := fold_left (cast5_R c) cast5_dec_rounds x in (r, l) in wpair (e x) /\ d (e x) = x.
Proof.
  intros W. cbv zeta. destruct (feistel (cast5_f c) (cast5_R c) ltac:(intros l r [f i]; reflexivity) (cast5_f_word c) cast5_enc_rounds x W) as [O E]. cbv zeta in *.
  destruct (fold_left (cast5_R c) cast5_enc_rounds x) as [l r]. cbn [fst snd] in *. split; [split; apply O|].
  change cast5_dec_rounds with (rev cast5_enc_rounds). rewrite E. destruct x. reflexivity.
Qed.
Theorem cast5_roundtrip c src : bytes src -> length src = 8%nat -> cast5_decrypt c (cast5_encrypt c src) = src /\ cast5_encrypt c (cast5_decrypt c src) = src.
Proof.
  intros Hs L. pose proof (block_inverse 8 wpair ld2 st2 (fun x => let '(l, r) := fold_left (cast5_R c) cast5_enc_rounds x in (r, l))
    (fun x => let '(l, r) := fold_left (cast5_R c) cast5_dec_rounds x in (r, l)) fmt_ld2 (cast5_words c) src Hs L) as H.
  assert (Ee : forall s, cast5_encrypt c s = st2 (let '(l, r) := fold_left (cast5_R c) cast5_enc_rounds (ld2 s) in (r, l))).
  { intros s. unfold cast5_encrypt. destruct (fold_left _ _ _). reflexivity. }
  assert (Ed : forall s, cast5_decrypt c s = st2 (let '(l, r) := fold_left (cast5_R c) cast5_dec_rounds (ld2 s) in (r, l))).
  { intros s. unfold cast5_decrypt. destruct (fold_left _ _ _). reflexivity. }
  rewrite (Ed (cast5_encrypt c src)), (Ee src), (Ee (cast5_decrypt c src)), (Ed src). exact H.
Qed.

(* ---- DES ---- *)
Definition gbit (l r : Z) (p : bool * Z) : bool := Z.testbit (if fst p then l else r) (snd p).
Lemma land1_bit x p i : 0 <= p -> 0 <= i -> Z.testbit (Z.land (shr x p) 1) i = if i =? 0 then Z.testbit x p else false.
Proof.
  intros Hp Hi. rewrite Z.land_spec. unfold shr. rewrite Z.shiftr_spec by lia. destruct (Z.eqb_spec i 0) as [->|N].
  - rewrite Z.add_0_l. apply andb_true_r.
  - change 1 with (Z.ones 1). rewrite Z.ones_spec_high by lia. apply andb_false_r.
Qed.
Lemma gather_bits l r ps : (length ps <= 32)%nat -> Forall (fun p => 0 <= snd p) ps -> forall u i, 0 <= i ->
  Z.testbit (fold_left (fun u p => Z.lor (shl32 u 1) (Z.land (shr (if fst p : bool then l else r) (snd p)) 1)) ps u) i =
  if i <? Z.of_nat (length ps) then gbit l r (nth (length ps - 1 - Z.to_nat i) ps (true, 0)) else if (i <? 32) || (length ps =? 0)%nat then Z.testbit u (i - Z.of_nat (length ps)) else false.
Proof.
  induction ps as [|p ps IH]; intros L F u i Hi.
  - cbn [fold_left length]. replace (i <? Z.of_nat 0) with false by lia. rewrite orb_true_r, Z.sub_0_r. reflexivity.
  - cbn [fold_left]. cbn [length] in L. inversion F as [|? ? Fp Fps]; subst. rewrite IH by (try assumption; lia). clear IH. cbn [length].
    destruct (Z.ltb_spec i (Z.of_nat (length ps))) as [C|C].
    + replace (i <? Z.of_nat (S (length ps))) with true by lia.
      replace (S (length ps) - 1 - Z.to_nat i)%nat with (S (length ps - 1 - Z.to_nat i)) by lia. reflexivity.
    + assert (B : Z.testbit (Z.lor (shl32 u 1) (Z.land (shr (if fst p then l else r) (snd p)) 1)) (i - Z.of_nat (length ps)) =
        if i =? Z.of_nat (length ps) then gbit l r p else (i - Z.of_nat (length ps) <? 32) && Z.testbit u (i - Z.of_nat (S (length ps)))).
      { rewrite Z.lor_spec, land1_bit by lia. unfold shl32. rewrite testbit_w32, Z.shiftl_spec by lia.
        destruct (Z.eqb_spec i (Z.of_nat (length ps))) as [E|E].
        - replace (i - Z.of_nat (length ps)) with 0 by lia. rewrite (Z.testbit_neg_r u) by lia. rewrite andb_false_r. reflexivity.
        - replace (i - Z.of_nat (length ps) =? 0) with false by lia. rewrite orb_false_r. f_equal. f_equal. lia. }
      rewrite B. clear B. cbn [Nat.eqb]. rewrite orb_false_r.
      destruct (Z.eqb_spec i (Z.of_nat (length ps))) as [E|E].
      * replace (i <? Z.of_nat (S (length ps))) with true by lia. replace (i <? 32) with true by lia. cbn [orb].
        replace (S (length ps) - 1 - Z.to_nat i)%nat with 0%nat by lia. reflexivity.
      * replace (i <? Z.of_nat (S (length ps))) with false by lia. destruct (i <? 32) eqn:E32.
        -- cbn [orb]. replace (i - Z.of_nat (length ps) <? 32) with true by lia. reflexivity.
        -- cbn [orb]. destruct (length ps =? 0)%nat eqn:E0; [|reflexivity]. apply Nat.eqb_eq in E0. rewrite E0. replace (i - Z.of_nat 0 <? 32) with false by lia. reflexivity.
Qed.
Definition posok (ps : list (bool * Z)) : bool := (length ps =? 32)%nat && forallb (fun p : bool * Z => (0 <=? snd p) && (snd p <? 32)) ps.
Lemma gather_bit l r ps i : posok ps = true -> 0 <= i -> Z.testbit (des_gather l r ps) i = if i <? 32 then gbit l r (nth (31 - Z.to_nat i) ps (true, 0)) else false.
Proof.
  intros P Hi. unfold posok in P. apply andb_true_iff in P. destruct P as [L P]. apply Nat.eqb_eq in L. rewrite forallb_forall in P.
  unfold des_gather. rewrite gather_bits; [|lia|apply Forall_forall; intros p Hp; specialize (P p Hp); lia|exact Hi].
  rewrite L. change (Z.of_nat 32) with 32. change (32 - 1)%nat with 31%nat. destruct (i <? 32); reflexivity.
Qed.
Lemma gather_word l r ps : posok ps = true -> word (des_gather l r ps).
Proof. intros P. apply word_bits. intros i Hi. rewrite gather_bit by (auto; lia). replace (i <? 32) with false by lia. reflexivity. Qed.
(* gathering the positions ps from two gathered words gives back the word of side s *)
Definition undoes (s : bool) (u v ps : list (bool * Z)) : bool :=
  forallb (fun i => let p := nth (31 - Z.to_nat i) ps (true, 0) in let q := nth (31 - Z.to_nat (snd p)) (if fst p then u else v) (true, 0) in
    (0 <=? snd p) && (snd p <? 32) && Bool.eqb (fst q) s && (snd q =? i)) (zseq 0 32).
Lemma gather_undo s u v ps l r : posok u = true -> posok v = true -> posok ps = true -> undoes s u v ps = true -> word l -> word r ->
  des_gather (des_gather l r u) (des_gather l r v) ps = if s then l else r.
Proof.
  intros Pu Pv Pp U Wl Wr. apply word_eq; [apply gather_word, Pp|destruct s; assumption|]. intros i Hi.
  rewrite gather_bit by (auto; lia). replace (i <? 32) with true by lia. pose proof (forall_zseq _ 0 32 U i ltac:(lia)) as C. cbv beta zeta in C.
  destruct (nth (31 - Z.to_nat i) ps (true, 0)) as [b p]. cbn [fst snd] in C. unfold gbit at 1. cbn [fst snd].
  assert (E : Z.testbit (if b then des_gather l r u else des_gather l r v) p = gbit l r (nth (31 - Z.to_nat p) (if b then u else v) (true, 0))).
  { destruct b; rewrite gather_bit by (auto; lia); replace (p <? 32) with true by lia; reflexivity. }
  rewrite E. destruct (nth (31 - Z.to_nat p) (if b then u else v) (true, 0)) as [b' p']. cbn [fst snd] in C. unfold gbit. cbn [fst snd].
  apply andb_true_iff in C. destruct C as [C E2]. apply andb_true_iff in C. destruct C as [_ E1]. apply eqb_prop in E1. apply Z.eqb_eq in E2. subst. reflexivity.
Qed.
Lemma ip_ok x : wpair (des_ip x).
Proof. destruct x as [l r]. split; apply gather_word; vm_compute; reflexivity. Qed.
Lemma rip_ok x : wpair (des_rip x).
Proof. destruct x as [l r]. split; apply gather_word; vm_compute; reflexivity. Qed.
Lemma rip_ip x : wpair x -> des_rip (des_ip x) = x.
Proof.
  destruct x as [l r]. intros [Wl Wr]. cbn [fst snd] in *. unfold des_ip, des_rip.
  rewrite (gather_undo true _ _ des_rip_u) by (try assumption; vm_compute; reflexivity). rewrite (gather_undo false _ _ des_rip_v) by (try assumption; vm_compute; reflexivity). reflexivity.
Qed.
Lemma ip_rip x : wpair x -> des_ip (des_rip x) = x.
Proof.
  destruct x as [l r]. intros [Wl Wr]. cbn [fst snd] in *. unfold des_ip, des_rip.
  rewrite (gather_undo true _ _ des_ip_u) by (try assumption; vm_compute; reflexivity). rewrite (gather_undo false _ _ des_ip_v) by (try assumption; vm_compute; reflexivity). reflexivity.
Qed.
Lemma des_f_word k i r : word (des_f k i r).
Proof. unfold des_f. destruct (des_expand r) as [b1 b2]. unfold des_permute. apply gather_word. vm_compute. reflexivity. Qed.
Theorem des_words k x : wpair x -> wpair (des_encipher k x) /\ des_decipher k (des_encipher k x) = x.
Proof.
  intros W. unfold des_encipher. set (st := fun (x : Z * Z) i => let '(l, r) := x in (r, Z.lxor l (des_f k i r))).
  set (un := fun (x : Z * Z) i => let '(l, r) := x in (Z.lxor r (des_f k i l), l)).
  set (is := [0; 2; 4; 6; 8; 10; 12; 14; 16; 18; 20; 22; 24; 26; 28; 30]%nat).
  destruct (fold_inverse wpair st un is is) with (x := des_ip x) as [O E].
  { assert (G : forall i y, wpair y -> wpair (st y i) /\ un (st y i) i = y).
    { intros i [l r] [Wl Wr]. unfold st, un. cbn [fst snd] in *. rewrite xx. split; [split; [exact Wr|apply word_xor; [exact Wl|apply des_f_word]]|reflexivity]. }
    generalize is. clear - G. intros is. induction is; constructor; auto. }
  { apply ip_ok. }
  destruct (fold_left st is (des_ip x)) as [l r] eqn:EF. destruct O as [Ol Or]. cbn [fst snd] in *.
  split; [apply rip_ok|]. unfold des_decipher. destruct (des_rip (r, l)) as [xl xr] eqn:ER. rewrite <- ER. rewrite ip_rip by (split; assumption).
  change [30; 28; 26; 24; 22; 20; 18; 16; 14; 12; 10; 8; 6; 4; 2; 0]%nat with (rev is). fold un. rewrite E.
  pose proof (rip_ip x W) as Q. destruct (des_ip x) as [l' r']. exact Q.
Qed.
Theorem des_roundtrip k src : bytes src -> length src = 8%nat -> des_decrypt k (des_encrypt k src) = src /\ des_encrypt k (des_decrypt k src) = src.
Proof. apply (block_inverse 8 wpair ld2 st2 (des_encipher k) (des_decipher k) fmt_ld2). apply des_words. Qed.
Lemma des_decipher_ok k x : wpair (des_decipher k x).
Proof. unfold des_decipher. destruct x as [xl xr]. destruct (des_ip (xl, xr)) as [r l]. destruct (fold_left _ _ _) as [l' r']. apply rip_ok. Qed.
Lemma des_encipher_ok k x : wpair (des_encipher k x).
Proof. unfold des_encipher. destruct (fold_left _ _ _) as [l' r']. apply rip_ok. Qed.
Lemma des_encrypt_block k s : bytes (des_encrypt k s) /\ length (des_encrypt k s) = 8%nat.
Proof. apply (b_block _ _ _ _ fmt_ld2), des_encipher_ok. Qed.
Lemma des_decrypt_block k s : bytes (des_decrypt k s) /\ length (des_decrypt k s) = 8%nat.
Proof. apply (b_block _ _ _ _ fmt_ld2), des_decipher_ok. Qed.
Definition codec (E D : list Z -> list Z) : Prop := forall s, bytes s /\ length s = 8%nat -> D (E s) = s /\ E (D s) = s.
Lemma three (E1 D1 E2 D2 E3 D3 : list Z -> list Z) :
  (forall s, bytes (E1 s) /\ length (E1 s) = 8%nat) -> (forall s, bytes (D1 s) /\ length (D1 s) = 8%nat) ->
  (forall s, bytes (E2 s) /\ length (E2 s) = 8%nat) -> (forall s, bytes (D2 s) /\ length (D2 s) = 8%nat) ->
  (forall s, bytes (E3 s) /\ length (E3 s) = 8%nat) -> (forall s, bytes (D3 s) /\ length (D3 s) = 8%nat) ->
  codec E1 D1 -> codec E2 D2 -> codec E3 D3 -> codec (fun s => E3 (D2 (E1 s))) (fun s => D1 (E2 (D3 s))).
Proof.
  intros BE1 BD1 BE2 BD2 BE3 BD3 C1 C2 C3 s Hs. split.
  - rewrite (proj1 (C3 (D2 (E1 s)) (BD2 _))). rewrite (proj2 (C2 (E1 s) (BE1 _))). apply C1, Hs.
  - rewrite (proj2 (C1 (E2 (D3 s)) (BE2 _))). rewrite (proj1 (C2 (D3 s) (BD3 _))). apply C3, Hs.
Qed.
Lemma des_codec k : codec (des_encrypt k) (des_decrypt k).
Proof. intros s [Hs L]. apply des_roundtrip; assumption. Qed.
Theorem des_ede_roundtrip c src : bytes src -> length src = 8%nat -> des_ede_decrypt c (des_ede_encrypt c src) = src /\ des_ede_encrypt c (des_ede_decrypt c src) = src.
Proof.
  intros Hs L. destruct c as [x y]. pose proof (three _ _ _ _ _ _ (des_encrypt_block x) (des_decrypt_block x) (des_encrypt_block y) (des_decrypt_block y) (des_encrypt_block x) (des_decrypt_block x) (des_codec x) (des_codec y) (des_codec x) src (conj Hs L)) as H. cbv beta in H. unfold des_ede_encrypt, des_ede_decrypt. cbn [fst snd]. exact H.
Qed.
Theorem des_ede3_roundtrip c src : bytes src -> length src = 8%nat -> des_ede3_decrypt c (des_ede3_encrypt c src) = src /\ des_ede3_encrypt c (des_ede3_decrypt c src) = src.
Proof.
  intros Hs L. destruct c as [[x y] z]. pose proof (three _ _ _ _ _ _ (des_encrypt_block x) (des_decrypt_block x) (des_encrypt_block y) (des_decrypt_block y) (des_encrypt_block z) (des_decrypt_block z) (des_codec x) (des_codec y) (des_codec z) src (conj Hs L)) as H. cbv beta in H. unfold des_ede3_encrypt, des_ede3_decrypt. exact H.
Qed.
