(* The buffering, counters and finalisation of MD2, GOST94 and BLAKE2 *)
From Verif.Base Require Import Prelude.
From Verif.Model Require Import Bio Block Encoding HashPrims Hash.
From Verif.Spec Require Import BlockSpec ShaSpec HashSpec.
From Verif.Proof Require Import BioProof BlockProof MdProof WordsOut.

#[local] Opaque md2_rounds md2_sum gost94_compress.
(* ---- MD2 ---- *)
Definition md2_X (X blk : list Z) : list Z := md2_rounds (firstn 16 X ++ blk ++ map2 Z.lxor blk (firstn 16 X)).
Definition md2_C (C blk : list Z) : list Z := md2_sum C blk (nth 15 C 0).
Lemma fold_pair {A B C} (f : A * B -> C -> A * B) (g : A -> C -> A) (h : B -> C -> B) (Q : C -> Prop) :
  (forall x y b, Q b -> f (x, y) b = (g x b, h y b)) ->
  forall l x y, Forall Q l -> fold_left f l (x, y) = (fold_left g l x, fold_left h l y).
Proof.
  intros H l. induction l as [|b l IH]; intros x y HF; [reflexivity|]. inversion HF as [|? ? Hb HF']; subst.
  cbn [fold_left]. rewrite H by auto. apply IH. auto.
Qed.
Lemma md2_step X C b : length b = 16%nat -> md2_transform (X, C) b = (md2_X X b, md2_C C b).
Proof.
  intros Hb.
  assert (E : md2_transform (X, C) b = (md2_X X (firstn 16 b), md2_C C (firstn 16 b))) by reflexivity.
  rewrite E, firstn_all2 by lia. reflexivity.
Qed.
Lemma md2_fold bl X C : Forall (fun b => length b = 16%nat) bl ->
  fold_left md2_transform bl (X, C) = (fold_left md2_X bl X, fold_left md2_C bl C).
Proof. apply (fold_pair md2_transform md2_X md2_C (fun b => length b = 16%nat)). intros; apply md2_step; auto. Qed.
#[local] Transparent md2_sum.
Lemma md2_sum_length C : forall W l, length (md2_sum C W l) = Nat.min (length C) (length W).
Proof. induction C as [|c C IH]; intros [|w W] l; cbn [md2_sum length Nat.min]; auto. Qed.
#[local] Opaque md2_sum.
Lemma md2_C_length bl : forall C, length C = 16%nat -> Forall (fun b => length b = 16%nat) bl -> length (fold_left md2_C bl C) = 16%nat.
Proof.
  induction bl as [|b bl IH]; intros C HC HF; cbn [fold_left]; [auto|]. inversion HF as [|? ? Hb HF']; subst.
  apply IH; auto. unfold md2_C. rewrite md2_sum_length. lia.
Qed.
Lemma blocks_lengths B m : (0 < B)%nat -> Forall (fun b => length b = B) (blocks B m).
Proof.
  intros HB. apply Forall_forall. intros b Hb. apply in_map_iff in Hb. destruct Hb as [i [<- Hi]].
  apply in_seq in Hi. pose proof (Nat.mul_div_le (length m) B ltac:(lia)).
  rewrite firstn_length, skipn_length. nia.
Qed.
Definition md2rep (m : list Z) (c : md2_t) : Prop := rep 16 md2_transform false (repeat 0 48, repeat 0 16) m (md2_state c, md2_block c, md2_pos c).
Lemma md2rep_init : md2rep [] md2_init.
Proof. apply rep_init; reflexivity || lia. Qed.
Lemma md2rep_update m c raw : md2rep m c -> md2rep (m ++ raw) (md2_update c raw).
Proof.
  intros HR. unfold md2_update. pose proof (update_rep 16 md2_transform ltac:(lia) false _ m _ _ _ raw HR) as U.
  destruct (buf_update 16 false md2_transform (md2_state c) (md2_block c) (md2_pos c) raw) as [[st' bl'] pos']. exact U.
Qed.
Lemma md2_final_spec m c : md2rep m c -> md2_final c = md2_value m.
Proof.
  intros HR. destruct (rep_eager 16 _ ltac:(lia) _ _ _ _ _ HR) as [K1 [K2 [K3 K4]]].
  pose proof (Nat.mod_upper_bound (length m) 16 ltac:(lia)) as MU.
  unfold md2_final. cbv zeta.
  pose proof (fill_full (md2_block c) (md2_pos c) (Z.of_nat (16 - md2_pos c)) ltac:(lia)) as F. rewrite K3 in F. rewrite F, K4. clear F.
  set (P := repeat (Z.of_nat (16 - md2_pos c)) (16 - md2_pos c)).
  assert (EP : md2_padded m = m ++ P) by (unfold md2_padded, P; rewrite K2; reflexivity).
  assert (LP : length (leftover 16 m ++ P) = 16%nat) by (unfold P; rewrite app_length, leftover_length, repeat_length by lia; lia).
  assert (ER : md2_transform (md2_state c) (leftover 16 m ++ P) = fold_left md2_transform (blocks 16 (m ++ P)) (repeat 0 48, repeat 0 16)).
  { destruct (blocks_leftover 16 m ltac:(lia)) as [x [X1 [X2 X3]]].
    replace (m ++ P) with (x ++ (leftover 16 m ++ P)) by (rewrite app_assoc, <- X1; reflexivity).
    rewrite (blocks_app 16 (length m / 16)) by (auto; lia). rewrite fold_left_app, X3, K1.
    symmetry. apply (run_block 16 md2_transform ltac:(lia) (run 16 md2_transform (repeat 0 48, repeat 0 16) m)). exact LP. }
  rewrite ER, md2_fold by (apply blocks_lengths; lia). cbn [snd fst].
  unfold md2_value. rewrite EP. change (fun C blk => md2_sum C blk (nth 15 C 0)) with md2_C.
  change (md2_checksum (m ++ P)) with (fold_left md2_C (blocks 16 (m ++ P)) (repeat 0 16)).
  set (C := fold_left md2_C (blocks 16 (m ++ P)) (repeat 0 16)).
  assert (LC : length C = 16%nat) by (apply md2_C_length; [reflexivity|apply blocks_lengths; lia]).
  cbv zeta. rewrite (blocks_app 16 (length m / 16 + 1) ltac:(lia) (m ++ P) C).
  2:{ unfold P. rewrite app_length, repeat_length, K2. pose proof (Nat.div_mod (length m) 16 ltac:(lia)). lia. }
  rewrite fold_left_app. change (fun X blk => md2_rounds (firstn 16 X ++ blk ++ map2 Z.lxor blk (firstn 16 X))) with md2_X.
  rewrite (blocks_cons 16 C) by lia. rewrite (blocks_nil 16 (skipn 16 C)) by (rewrite skipn_length; lia). cbn [fold_left].
  unfold md2_transform. cbn [fst]. rewrite (firstn_all2 C) by lia. reflexivity.
Qed.

(* ---- GOST94 ---- *)
Lemma le_bytes_mod k n : le_bytes k (n mod 256 ^ Z.of_nat k) = le_bytes k n.
Proof.
  apply (dval_inj 256); [lia| | |rewrite !le_bytes_length; reflexivity|]; [apply bytes_below, le_bytes_bytes..|].
  fold (le_val (le_bytes k (n mod 256 ^ Z.of_nat k))) (le_val (le_bytes k n)). rewrite !le_val_le_bytes. apply Z.mod_mod. lia.
Qed.
Lemma gost_sum_spec s : forall m c, length m = length s -> gost94_sum s m c = le_bytes (length s) (le_val s + le_val m + c).
Proof.
  induction s as [|a s IH]; intros [|b m] c HL; cbn [length] in HL; try lia; [reflexivity|].
  cbn [gost94_sum]. rewrite IH by lia. cbn [length]. unfold le_bytes, le_val in *. cbn [digits dval]. cbv zeta.
  unfold w8, shr. rewrite Z.shiftr_div_pow2 by lia. change (2 ^ 8) with 256. change M8 with 256.
  replace (a + 256 * dval 256 s + (b + 256 * dval 256 m) + c) with (c + (a + b) + (dval 256 s + dval 256 m) * 256) by ring.
  rewrite Z.mod_add, Z.div_add by lia. f_equal. f_equal. ring.
Qed.
Definition gost_S (n : list Z) (b : list Z) : list Z := gost94_sum n b 0.
Lemma gost_sums bl : forall n, Forall (fun b => length b = 32%nat) bl ->
  fold_left gost_S bl (le_bytes 32 n) = le_bytes 32 (n + fold_right Z.add 0 (map le_val bl)).
Proof.
  induction bl as [|b bl IH]; intros n HF; cbn [fold_left map fold_right]; [rewrite Z.add_0_r; reflexivity|].
  inversion HF as [|? ? Hb HF']; subst. unfold gost_S at 2.
  rewrite gost_sum_spec by (rewrite le_bytes_length; auto). rewrite le_bytes_length, le_val_le_bytes, Z.add_0_r.
  rewrite <- (le_bytes_mod 32 (_ + le_val b)). rewrite Zplus_mod_idemp_l, le_bytes_mod. rewrite IH by auto. f_equal. ring.
Qed.
Lemma gost_fold bl h n : Forall (fun b => length b = 32%nat) bl ->
  fold_left gost94_transform bl (h, le_bytes 32 n) = (fold_left gost94_compress bl h, le_bytes 32 (n + fold_right Z.add 0 (map le_val bl))).
Proof.
  intros HF. rewrite <- gost_sums by auto. revert HF.
  apply (fold_pair gost94_transform gost94_compress gost_S (fun b => length b = 32%nat)). intros; reflexivity.
Qed.
Definition gostrep := mdrep 5 4 gost94_transform (repeat 0 32, repeat 0 32).
Lemma gostrep_init : gostrep [] gost94_init.
Proof.
  split; [|reflexivity]. cbn [gost94_init md_state md_block length]. change (0 mod 2 ^ 5)%nat with 0%nat. apply rep_init; [change (2 ^ 5)%nat with 32%nat; lia|reflexivity].
Qed.
Lemma gostrep_update m c raw : gostrep m c -> Z.of_nat (length raw) < M64 -> gostrep (m ++ raw) (gost94_update c raw).
Proof. apply (mdrep_update 5 4 gost94_transform); lia. Qed.
Lemma gost_final_spec m c : gostrep m c -> gost94_final c = gost_value m.
Proof.
  intros HR. pose proof (md_pos_spec 5 4 _ _ ltac:(lia) ltac:(lia) m c HR) as HP. change (2 ^ 5)%nat with 32%nat in HP.
  destruct HR as [HR HS]. change (2 ^ 5)%nat with 32%nat in HR.
  destruct (rep_eager 32 _ ltac:(lia) _ _ _ _ _ HR) as [K1 [_ [K3 K4]]].
  pose proof (Nat.mod_upper_bound (length m) 32 ltac:(lia)) as MU.
  unfold gost94_final. rewrite HP, HS, len_le_spec by lia. change (4 * 8)%nat with 32%nat. cbv zeta.
  assert (BL : forall block, length block = 32%nat -> blit block 0 (le_bytes 32 (8 * Z.of_nat (length m))) = le_bytes 32 (8 * Z.of_nat (length m))).
  { intros block HB. rewrite blit_full by (rewrite le_bytes_length; auto). reflexivity. }
  unfold gost_value. set (L := le_bytes 32 (8 * Z.of_nat (length m))) in *.
  assert (ES : exists blk, (if (0 <? length m mod 32)%nat
      then (gost94_transform (md_state c) (fill (md_block c) (length m mod 32) 32 0), fill (md_block c) (length m mod 32) 32 0)
      else (md_state c, md_block c)) = (fold_left gost94_transform (blocks 32 (gost_padded m)) (repeat 0 32, repeat 0 32), blk) /\ length blk = 32%nat).
  { unfold gost_padded. destruct (Nat.ltb_spec 0 (length m mod 32)) as [H|H].
    - pose proof (fill_full (md_block c) (length m mod 32) 0 ltac:(lia)) as F. rewrite K3 in F. rewrite F, K4. clear F.
      rewrite (Nat.mod_small (32 - _)) by lia. set (P := repeat 0 (32 - length m mod 32)).
      assert (LP : length (leftover 32 m ++ P) = 32%nat) by (unfold P; rewrite app_length, leftover_length, repeat_length by lia; lia).
      exists (leftover 32 m ++ P). split; [|exact LP]. f_equal.
      destruct (blocks_leftover 32 m ltac:(lia)) as [x [X1 [X2 X3]]].
      replace (m ++ P) with (x ++ (leftover 32 m ++ P)) by (rewrite app_assoc, <- X1; reflexivity).
      rewrite (blocks_app 32 (length m / 32)) by (auto; lia). rewrite fold_left_app, X3, K1.
      symmetry. apply (run_block 32 gost94_transform ltac:(lia) (run 32 gost94_transform (repeat 0 32, repeat 0 32) m)). exact LP.
    - replace (length m mod 32)%nat with 0%nat by lia. change ((32 - 0) mod 32)%nat with 0%nat. cbn [repeat]. rewrite app_nil_r.
      exists (md_block c). split; [rewrite K1; reflexivity|exact K3]. }
  destruct ES as [blk [ES LB]]. rewrite ES, (BL blk LB).
  change (repeat 0 32, repeat 0 32) with (repeat 0 32, le_bytes 32 0). rewrite gost_fold by (apply blocks_lengths; lia).
  reflexivity.
Qed.

(* ---- BLAKE2 ---- *)
Lemma blake2_increment_spec w W n c : (forall x, w x = x mod W) -> 0 < W -> 0 <= n -> 0 <= c < W ->
  blake2_increment w (digits W 2 n) c = digits W 2 (n + c).
Proof.
  intros Hw HW Hn Hc. unfold blake2_increment. cbn [digits nth]. rewrite !Hw. rewrite Zplus_mod_idemp_l. f_equal.
  f_equal. rewrite Zplus_mod_idemp_l.
  f_equal. pose proof (Z.div_mod n W ltac:(lia)) as D1. pose proof (Z.mod_pos_bound n W HW) as B1.
  pose proof (Z.div_mod (n + c) W ltac:(lia)) as D2. pose proof (Z.mod_pos_bound (n + c) W HW) as B2.
  destruct (Z.ltb_spec ((n + c) mod W) c); nia.
Qed.
Section Blake.
  Variables (B wb : nat) (F : list Z -> list Z -> list Z -> Z -> list Z) (w : Z -> Z).
  Let W := 256 ^ Z.of_nat wb.
  Hypothesis HB : (0 < B)%nat.
  Hypothesis Hw : forall x, w x = x mod W.
  Hypothesis HBW : Z.of_nat B < W.
  Definition b2_tr (ctx : list Z * list Z) (chunk : list Z) : list Z * list Z :=
    let '(h, t) := ctx in let t := blake2_increment w t (Z.of_nat B) in (F h t chunk 0, t).
  Definition b2_step (ht : list Z * Z) (blk : list Z) : list Z * Z :=
    let t := snd ht + Z.of_nat B in (F (fst ht) (digits W 2 t) blk 0, t).
  Lemma b2_fold bl : forall h t, 0 <= t ->
    fold_left b2_tr bl (h, digits W 2 t) = (fst (fold_left b2_step bl (h, t)), digits W 2 (t + Z.of_nat B * Z.of_nat (length bl))) /\
    snd (fold_left b2_step bl (h, t)) = t + Z.of_nat B * Z.of_nat (length bl).
  Proof.
    induction bl as [|b bl IH]; intros h t Ht; cbn [fold_left length]; [cbn [fst snd]; rewrite Z.mul_0_r, Z.add_0_r; auto|].
    unfold b2_tr at 2. rewrite blake2_increment_spec by (auto; lia).
    unfold b2_step at 2 4. cbn [fst snd]. destruct (IH (F h (digits W 2 (t + Z.of_nat B)) b 0) (t + Z.of_nat B) ltac:(lia)) as [I1 I2].
    cbv zeta. rewrite I1, I2. replace (t + Z.of_nat B + Z.of_nat B * Z.of_nat (length bl)) with (t + Z.of_nat B * Z.of_nat (S (length bl))) by lia. auto.
  Qed.
  Definition b2rep (h0 d : list Z) (n : nat) (c : blake2_t) : Prop :=
    b2_len c = n /\ rep B b2_tr true (h0, [0; 0]) d (b2_state c, b2_block c, b2_pos c).
  Lemma b2rep_update h0 d n c raw : b2rep h0 d n c -> b2rep h0 (d ++ raw) n (blake2_update B b2_tr c raw).
  Proof.
    intros [HN HR]. unfold blake2_update. pose proof (update_rep B b2_tr HB true _ d _ _ _ raw HR) as U.
    destruct (buf_update B true b2_tr (b2_state c) (b2_block c) (b2_pos c) raw) as [[st' bl'] pos']. split; [exact HN|exact U].
  Qed.
  Lemma digits00 : [0; 0] = digits W 2 0.
  Proof. cbn [digits]. rewrite Z.mod_0_l, Z.div_0_l, Z.mod_0_l by lia. reflexivity. Qed.
  (* the input of the last compression *)
  Lemma b2_finish h0 d n c : b2rep h0 d n c ->
    let q := ((length d - 1) / B * B)%nat in
    let ht := fold_left b2_step (blocks B (firstn q d)) (h0, 0) in
    fst (b2_state c) = fst ht /\ blake2_increment w (snd (b2_state c)) (Z.of_nat (b2_pos c)) = digits W 2 (Z.of_nat (length d)) /\
    fill (b2_block c) (b2_pos c) B 0 = skipn q d ++ repeat 0 (B - (length d - q)).
  Proof.
    intros [HN HR] q ht. destruct (rep_lazy B b2_tr HB _ _ _ _ _ HR) as [K1 [K2 [K3 [K4 K5]]]].
    change (keep B d) with q in *. rewrite K1. unfold run. rewrite digits00.
    destruct (b2_fold (blocks B (firstn q d)) h0 0 ltac:(lia)) as [E1 E2]. rewrite E1. cbn [fst snd].
    assert (Hq : (q <= length d)%nat).
    { unfold q. pose proof (Nat.mul_div_le (length d - 1) B ltac:(lia)). lia. }
    split; [reflexivity|]. rewrite skipn_length in K2. split.
    - rewrite blake2_increment_spec by (auto; lia). f_equal. rewrite blocks_length, firstn_length, Nat.min_l by auto.
      assert (EQ : q = (q / B * B)%nat) by (unfold q; rewrite Nat.div_mul by lia; reflexivity).
      rewrite K2, Nat2Z.inj_sub by auto. rewrite EQ at 2. rewrite Nat2Z.inj_mul. lia.
    - pose proof (fill_full (b2_block c) (b2_pos c) 0 ltac:(lia)) as FF. rewrite K3 in FF. rewrite FF, K4, K2. reflexivity.
  Qed.
  (* initial contexts *)
  Lemma b2rep_init maxlen iv n key c : (maxlen <= B)%nat -> (maxlen <= 255)%nat -> iv <> [] ->
    blake2_init B maxlen iv n key = Ok c -> b2rep (blake2_h0 iv (length key) n) (blake2_input B key []) n c /\ (1 <= n <= maxlen)%nat.
  Proof.
    intros HM1 HM2 HI. unfold blake2_init. destruct (Nat.leb_spec 1 n) as [N1|]; [|discriminate]. destruct (Nat.leb_spec n maxlen) as [N2|]; [|discriminate].
    cbn [andb negb]. destruct (Nat.leb_spec (length key) maxlen) as [N3|]; [|discriminate]. cbn [negb]. cbv zeta.
    assert (EP : Z.lor (Z.lor 16842752 (Z.shiftl (Z.of_nat (length key)) 8)) (Z.of_nat n) = 0x01010000 + 256 * Z.of_nat (length key) + Z.of_nat n).
    { rewrite Z.shiftl_mul_pow2 by lia. change 16842752 with (0x101 * 2 ^ 16).
      rewrite (lor_add_low 0x101 (Z.of_nat (length key) * 2 ^ 8) 16) by lia.
      replace (257 * 2 ^ 16 + Z.of_nat (length key) * 2 ^ 8) with ((257 * 2 ^ 8 + Z.of_nat (length key)) * 2 ^ 8) by ring.
      rewrite lor_add_low by lia. lia. }
    assert (EH : upd iv 0 (Z.lxor (nth 0 iv 0) (Z.lor (Z.lor 16842752 (Z.shiftl (Z.of_nat (length key)) 8)) (Z.of_nat n))) = blake2_h0 iv (length key) n).
    { rewrite EP. destruct iv as [|h iv]; [congruence|]. reflexivity. }
    rewrite EH. destruct (Nat.ltb_spec 0 (length key)) as [H|H]; intros HC.
    - assert (EC : c = MkBlake2 (blake2_h0 iv (length key) n, [0; 0]) (blit (repeat 0 B) 0 key) B n) by congruence. subst c. clear HC.
      split; [|lia]. split; [reflexivity|]. cbn [b2_state b2_block b2_pos].
      assert (EI : blake2_input B key [] = key ++ repeat 0 (B - length key)).
      { unfold blake2_input. destruct key; [cbn [length] in H; lia|]. rewrite app_nil_r. reflexivity. }
      assert (EB : blit (repeat 0 B) 0 key = key ++ repeat 0 (B - length key)).
      { unfold blit. cbn [firstn app Nat.add]. f_equal. clear. revert key. induction B as [|b IH]; intros [|a key]; cbn [length skipn repeat Nat.sub]; auto. }
      assert (LI : length (key ++ repeat 0 (B - length key)) = B) by (rewrite app_length, repeat_length; lia).
      rewrite EI, EB. exists 0%nat, [], (key ++ repeat 0 (B - length key)). rewrite LI.
      split; [reflexivity|]. split; [reflexivity|]. split; [symmetry; apply run_short; cbn [length]; lia|].
      split; [reflexivity|]. split; [reflexivity|]. split; [apply firstn_all2; lia|]. split; [lia|intros X; lia].
    - assert (EC : c = MkBlake2 (blake2_h0 iv (length key) n, [0; 0]) (repeat 0xcd B) 0 n) by congruence. subst c. clear HC.
      split; [|lia]. split; [reflexivity|]. cbn [b2_state b2_block b2_pos]. destruct key; [|cbn [length] in H; lia].
      cbn [blake2_input]. apply rep_init; [exact HB|apply repeat_length].
  Qed.
End Blake.
