From Verif.Base Require Import Prelude.
From Verif.Model Require Import Encoding Bio Util Aes.
From Verif.Spec Require Import AesSpec.
From Verif.Proof Require Import PolymodProof LinOps BioProof RandProof AesProof AesInv.
#[local] Ltac Zify.zify_post_hook ::= idtac.

Definition wd4 (w : list Z) : Prop := bytes w /\ length w = 4%nat.
Lemma wd4_inv w : wd4 w -> exists a b c d, w = [a; b; c; d] /\ byte a /\ byte b /\ byte c /\ byte d.
Proof.
  intros [H L]. do 4 (destruct w as [|? w]; [discriminate L|]). destruct w; [|discriminate L].
  do 4 eexists. split; [reflexivity|]. do 4 (inversion H as [|? ? ? H']; subst; clear H; rename H' into H). auto.
Qed.
Lemma rcon_ok i : (i < 10)%nat -> wd4 (rcon (i + 1)) /\ rd RCON i = b4l (rcon (i + 1)).
Proof.
  intros H. do 10 (destruct i as [|i]; [split; [split; [|reflexivity]; vm_compute; fb; split; congruence|vm_compute; reflexivity]|]). lia.
Qed.
Lemma sub_word_eq w : wd4 w -> sub_word w = map sb w.
Proof. intros [H _]. apply sub_eq. exact H. Qed.
#[local] Opaque gm sb ib b4 Z.lxor.
Lemma lxor_b4l x y : wd4 x -> wd4 y -> Z.lxor (b4l x) (b4l y) = b4l (xorl x y).
Proof.
  intros Hx Hy. apply wd4_inv in Hx, Hy. destruct Hx as (a & b & c & d & -> & ? & ? & ? & ?). destruct Hy as (a' & b' & c' & d' & -> & ? & ? & ? & ?).
  unfold b4l. cbn [nth xorl map2]. apply b4_lxor; auto.
Qed.
Lemma xorl_wd4 x y : wd4 x -> wd4 y -> wd4 (xorl x y).
Proof. intros [A B] [C D]. split; [apply xorl_bytes; auto|rewrite xorl_length; lia]. Qed.
Lemma subrot_wd4 x : wd4 x -> wd4 (sub_word (rot_word x)).
Proof.
  intros Hx. assert (R : wd4 (rot_word x)). { apply wd4_inv in Hx. destruct Hx as (a & b & c & d & -> & ? & ? & ? & ?). split; [fb; auto|reflexivity]. }
  rewrite sub_word_eq by auto. split; [apply map_bytes, sb_byte|rewrite map_length; apply R].
Qed.
Lemma sub_wd4 x : wd4 x -> wd4 (sub_word x).
Proof. intros Hx. rewrite sub_word_eq by auto. split; [apply map_bytes, sb_byte|rewrite map_length; apply Hx]. Qed.

Lemma ks_sub_eq x y : wd4 x -> wd4 y -> ks_sub (b4l x) (b4l y) = b4l (xorl x (sub_word y)).
Proof.
  intros Hx Hy. rewrite sub_word_eq by auto. apply wd4_inv in Hx, Hy. destruct Hx as (a & b & c & d & -> & ? & ? & ? & ?). destruct Hy as (a' & b' & c' & d' & -> & ? & ? & ? & ?).
  unfold ks_sub, b4l. cbn [nth map]. tbs. rewrite TE0_eq, TE1_eq, TE2_eq, TE3_eq by auto.
  rewrite mask3, mask2, mask1, mask0 by bytes_tac. rewrite !b4_lxor by bytes_tac. rewrite ?Z.lxor_0_r, ?Z.lxor_0_l. reflexivity.
Qed.
Lemma ks_rot_eq x y i : (i < 10)%nat -> wd4 x -> wd4 y ->
  ks_rot (b4l x) (b4l y) i = b4l (xorl x (xorl (sub_word (rot_word y)) (rcon (i + 1)))).
Proof.
  intros Hi Hx Hy. destruct (rcon_ok i Hi) as [Hr Er].
  assert (E : ks_rot (b4l x) (b4l y) i = Z.lxor (ks_sub (b4l x) (b4l (rot_word y))) (rd RCON i)).
  { apply wd4_inv in Hx, Hy. destruct Hx as (a & b & c & d & -> & ? & ? & ? & ?). destruct Hy as (a' & b' & c' & d' & -> & ? & ? & ? & ?).
    unfold ks_rot, ks_sub, b4l, rot_word. cbn [nth skipn firstn app]. tbs. reflexivity. }
  rewrite E, Er.
  assert (R : wd4 (rot_word y)). { apply wd4_inv in Hy. destruct Hy as (a & b & c & d & -> & ? & ? & ? & ?). split; [fb; auto|reflexivity]. }
  rewrite ks_sub_eq by auto. rewrite lxor_b4l; auto using xorl_wd4, sub_wd4. rewrite xorl_assoc. reflexivity.
Qed.
Definition wok (n : nat) (w : list (list Z)) : Prop := Forall wd4 w /\ length w = n.
Lemma key_be_eq n key : bytes key -> length key = (4 * n)%nat -> key_be n key = map b4l (key_words n key) /\ wok n (key_words n key).
Proof.
  intros Hk Lk.
  assert (K : forall i, (i < n)%nat -> wd4 (firstn 4 (skipn (4 * i) key)) /\ read32be (skipn (4 * i) key) = b4l (firstn 4 (skipn (4 * i) key))).
  { intros i Hi. assert (H1 : wd4 (firstn 4 (skipn (4 * i) key))).
    { split; [apply bytes_firstn, bytes_skipn; auto|]. rewrite firstn_length, skipn_length. lia. }
    split; auto. assert (B : bytes (skipn (4 * i) key)) by (apply bytes_skipn; auto). revert H1 B. generalize (skipn (4 * i) key). intros s H1 B.
    destruct H1 as [_ L]. rewrite firstn_length in L. do 4 (destruct s as [|? s]; [cbn in L; lia|]). unfold bytes in B.
    cbn [firstn]. unfold b4l. cbn [nth]. do 4 (inversion B as [|? ? ? B']; subst; clear B; rename B' into B). apply read_b4; auto. }
  split.
  - unfold key_be, key_words. rewrite map_map. apply map_ext_in. intros i Hi. apply in_seq in Hi. apply K. lia.
  - split; [|unfold key_words; rewrite map_length, seq_length; reflexivity].
    apply Forall_forall. intros x Hx. apply in_map_iff in Hx. destruct Hx as [i [<- Hi]]. apply in_seq in Hi. apply K. lia.
Qed.
#[local] Opaque b4l.

(* ---- the schedule, nk words at a time ---- *)
Lemma nthp {A} (pre l : list A) n k d : length pre = n -> nth (n + k) (pre ++ l) d = nth k l d.
Proof. intros <-. rewrite app_nth2_plus. reflexivity. Qed.
Lemma rdp pre l n k : length pre = n -> rd (map b4l (pre ++ l)) (n + k) = nth k (map b4l l) 0.
Proof. intros H. unfold rd. rewrite map_app. apply nthp. rewrite map_length. exact H. Qed.
Lemma kstep nk i m pre l : (0 < nk)%nat -> length pre = (nk * i)%nat -> (nk <= m)%nat ->
  key_step nk (pre ++ l) (nk * i + m) =
  pre ++ (l ++ [xorl (nth (m - nk) l [])
    (if (m mod nk =? 0)%nat then xorl (sub_word (rot_word (nth (m - 1) l []))) (rcon (i + m / nk))
     else if (6 <? nk)%nat && (m mod nk =? 4)%nat then sub_word (nth (m - 1) l []) else nth (m - 1) l [])]).
Proof.
  intros Hn Hl Hm. unfold key_step.
  replace (nk * i + m - 1)%nat with (nk * i + (m - 1))%nat by lia. replace (nk * i + m - nk)%nat with (nk * i + (m - nk))%nat by lia.
  rewrite !nthp by auto.
  replace ((nk * i + m) mod nk)%nat with (m mod nk)%nat by (rewrite (Nat.mul_comm nk i), Nat.add_comm, Nat.mod_add by lia; reflexivity).
  replace ((nk * i + m) / nk)%nat with (i + m / nk)%nat by (rewrite (Nat.mul_comm nk i), Nat.div_add_l by lia; reflexivity).
  rewrite app_assoc. reflexivity.
Qed.
Lemma split_last (w : list (list Z)) nk i : length w = (nk * i + nk)%nat -> exists pre l, w = pre ++ l /\ length pre = (nk * i)%nat /\ length l = nk.
Proof.
  intros H. exists (firstn (nk * i) w), (skipn (nk * i) w). rewrite firstn_skipn. split; auto.
  split; [rewrite firstn_length; lia|rewrite skipn_length; lia].
Qed.
Ltac kst nk i m := rewrite (kstep nk i m) by (auto; lia);
  cbn [app nth Nat.sub Nat.modulo Nat.divmod Nat.div fst snd Nat.eqb Nat.ltb Nat.leb andb].
Ltac wds H := repeat match type of H with Forall _ (_ :: _) => let H1 := fresh "B" in let H2 := fresh "H" in
    (assert (H1 := Forall_inv H); assert (H2 := Forall_inv_tail H); clear H; rename H2 into H) end; clear H.
Ltac wtac := repeat first [assumption | apply xorl_wd4 | apply subrot_wd4 | apply sub_wd4 | apply rcon_ok; lia].

Definition blk128 (w : list (list Z)) (i : nat) := fold_left (key_step 4) (map (fun m => 4 * i + m)%nat (seq 4 4)) w.
Definition blk192 (w : list (list Z)) (i : nat) := fold_left (key_step 6) (map (fun m => 6 * i + m)%nat (seq 6 6)) w.
Definition blk256 (w : list (list Z)) (i : nat) := fold_left (key_step 8) (map (fun m => 8 * i + m)%nat (seq 8 8)) w.

Lemma step128 w i : (i < 10)%nat -> wok (4 * i + 4) w -> sched128 (map b4l w) i = map b4l (blk128 w i) /\ wok (4 * (S i) + 4) (blk128 w i).
Proof.
  intros Hi [Hw Lw]. destruct (split_last w 4 i Lw) as (pre & l & -> & Lp & Ll).
  apply Forall_app in Hw. destruct Hw as [Hp Hl]. do 4 (destruct l as [|? l]; [discriminate Ll|]). destruct l; [|discriminate Ll]. wds Hl.
  unfold blk128. cbn [seq map fold_left]. kst 4%nat i 4%nat. kst 4%nat i 5%nat. kst 4%nat i 6%nat. kst 4%nat i 7%nat.
  destruct (rcon_ok i Hi) as [Hr _].
  split.
  - unfold sched128. rewrite !rdp by auto. cbn [map nth]. rewrite ks_rot_eq by auto.
    rewrite !lxor_b4l by wtac. rewrite !map_app. cbn [map]. rewrite <- app_assoc. reflexivity.
  - split; [|rewrite app_length; cbn [length]; lia]. apply Forall_app. split; auto. repeat (first [apply Forall_nil | apply Forall_cons; [wtac|]]).
Qed.
Lemma step192 w i : (i < 7)%nat -> wok (6 * i + 6) w -> sched192 (map b4l w) i = map b4l (blk192 w i) /\ wok (6 * (S i) + 6) (blk192 w i).
Proof.
  intros Hi [Hw Lw]. destruct (split_last w 6 i Lw) as (pre & l & -> & Lp & Ll).
  apply Forall_app in Hw. destruct Hw as [Hp Hl]. do 6 (destruct l as [|? l]; [discriminate Ll|]). destruct l; [|discriminate Ll]. wds Hl.
  unfold blk192. cbn [seq map fold_left]. kst 6%nat i 6%nat. kst 6%nat i 7%nat. kst 6%nat i 8%nat. kst 6%nat i 9%nat. kst 6%nat i 10%nat. kst 6%nat i 11%nat.
  destruct (rcon_ok i) as [Hr _]; [lia|].
  split.
  - unfold sched192. rewrite !rdp by auto. cbn [map nth]. rewrite ks_rot_eq by (auto; lia).
    destruct (Nat.eqb_spec (S i) 8) as [|_]; [lia|].
    rewrite !lxor_b4l by wtac. rewrite !map_app. cbn [map]. rewrite <- app_assoc. reflexivity.
  - split; [|rewrite app_length; cbn [length]; lia]. apply Forall_app. split; auto. repeat (first [apply Forall_nil | apply Forall_cons; [wtac|]]).
Qed.
Lemma last192 w : wok 48 w ->
  let w' := fold_left (key_step 6) (map (fun m => 6 * 7 + m)%nat (seq 6 4)) w in
  sched192 (map b4l w) 7 = map b4l w' /\ wok 52 w'.
Proof.
  intros [Hw Lw]. destruct (split_last w 6 7 Lw) as (pre & l & -> & Lp & Ll).
  apply Forall_app in Hw. destruct Hw as [Hp Hl]. do 6 (destruct l as [|? l]; [discriminate Ll|]). destruct l; [|discriminate Ll]. wds Hl.
  cbn [seq map fold_left]. kst 6%nat 7%nat 6%nat. kst 6%nat 7%nat 7%nat. kst 6%nat 7%nat 8%nat. kst 6%nat 7%nat 9%nat.
  destruct (rcon_ok 7) as [Hr _]; [lia|].
  split.
  - unfold sched192. rewrite !rdp by auto. cbn [map nth]. rewrite ks_rot_eq by (auto; lia).
    cbn [Nat.eqb].
    rewrite !lxor_b4l by wtac. rewrite !map_app. cbn [map]. rewrite <- app_assoc. reflexivity.
  - split; [|rewrite app_length; cbn [length]; lia]. apply Forall_app. split; auto. repeat (first [apply Forall_nil | apply Forall_cons; [wtac|]]).
Qed.
Lemma step256 w i : (i < 6)%nat -> wok (8 * i + 8) w -> sched256 (map b4l w) i = map b4l (blk256 w i) /\ wok (8 * (S i) + 8) (blk256 w i).
Proof.
  intros Hi [Hw Lw]. destruct (split_last w 8 i Lw) as (pre & l & -> & Lp & Ll).
  apply Forall_app in Hw. destruct Hw as [Hp Hl]. do 8 (destruct l as [|? l]; [discriminate Ll|]). destruct l; [|discriminate Ll]. wds Hl.
  unfold blk256. cbn [seq map fold_left]. kst 8%nat i 8%nat. kst 8%nat i 9%nat. kst 8%nat i 10%nat. kst 8%nat i 11%nat.
  kst 8%nat i 12%nat. kst 8%nat i 13%nat. kst 8%nat i 14%nat. kst 8%nat i 15%nat.
  destruct (rcon_ok i) as [Hr _]; [lia|].
  split.
  - unfold sched256. rewrite !rdp by auto. cbn [map nth]. rewrite ks_rot_eq by (auto; lia).
    destruct (Nat.eqb_spec (S i) 7) as [|_]; [lia|].
    rewrite (lxor_b4l l1), (lxor_b4l l2), (lxor_b4l l3) by wtac. rewrite ks_sub_eq by wtac. rewrite !lxor_b4l by wtac. rewrite !map_app. cbn [map]. rewrite <- app_assoc. reflexivity.
  - split; [|rewrite app_length; cbn [length]; lia]. apply Forall_app. split; auto. repeat (first [apply Forall_nil | apply Forall_cons; [wtac|]]).
Qed.
Lemma last256 w : wok 56 w ->
  let w' := fold_left (key_step 8) (map (fun m => 8 * 6 + m)%nat (seq 8 4)) w in
  sched256 (map b4l w) 6 = map b4l w' /\ wok 60 w'.
Proof.
  intros [Hw Lw]. destruct (split_last w 8 6 Lw) as (pre & l & -> & Lp & Ll).
  apply Forall_app in Hw. destruct Hw as [Hp Hl]. do 8 (destruct l as [|? l]; [discriminate Ll|]). destruct l; [|discriminate Ll]. wds Hl.
  cbn [seq map fold_left]. kst 8%nat 6%nat 8%nat. kst 8%nat 6%nat 9%nat. kst 8%nat 6%nat 10%nat. kst 8%nat 6%nat 11%nat.
  destruct (rcon_ok 6) as [Hr _]; [lia|].
  split.
  - unfold sched256. rewrite !rdp by auto. cbn [map nth]. rewrite ks_rot_eq by (auto; lia).
    cbn [Nat.eqb].
    rewrite !lxor_b4l by wtac. rewrite !map_app. cbn [map]. rewrite <- app_assoc. reflexivity.
  - split; [|rewrite app_length; cbn [length]; lia]. apply Forall_app. split; auto. repeat (first [apply Forall_nil | apply Forall_cons; [wtac|]]).
Qed.
Section Steps.
  Variables (nk lim : nat) (sched : list Z -> nat -> list Z) (blk : list (list Z) -> nat -> list (list Z)).
  Hypothesis ST : forall w i, (i < lim)%nat -> wok (nk * i + nk) w -> sched (map b4l w) i = map b4l (blk w i) /\ wok (nk * S i + nk) (blk w i).
  Lemma steps n : forall i w, (i + n <= lim)%nat -> wok (nk * i + nk) w ->
    fold_left sched (seq i n) (map b4l w) = map b4l (fold_left blk (seq i n) w) /\ wok (nk * (i + n) + nk) (fold_left blk (seq i n) w).
  Proof.
    induction n as [|n IH]; intros i w Hb Hw; cbn [seq fold_left].
    - rewrite Nat.add_0_r. auto.
    - destruct (ST w i ltac:(lia) Hw) as [E H]. rewrite E. replace (i + S n)%nat with (S i + n)%nat by lia. apply IH; auto. lia.
  Qed.
End Steps.
Lemma enc_key bits nk nr key : In (bits, nk) [(128, 4%nat); (192, 6%nat); (256, 8%nat)] -> nr = nr_of nk ->
  bytes key -> length key = (4 * nk)%nat ->
  aes_init_encrypt bits key = Some (nr, map b4l (key_expansion nk nr key)) /\ wok (4 * (nr + 1)) (key_expansion nk nr key).
Proof.
  intros Hin -> Hk Lk. destruct (key_be_eq nk key Hk Lk) as [E0 W0].
  cbn [In] in Hin. destruct Hin as [H|[H|[H|[]]]]; apply pair_equal_spec in H; destruct H as [<- <-]; unfold nr_of; cbn [Nat.add Nat.mul].
  - unfold aes_init_encrypt. cbn [Z.eqb Pos.eqb]. rewrite E0.
    destruct (steps 4 10 sched128 blk128 step128 10 0 _ ltac:(lia) W0) as [E1 W1]. rewrite E1.
    assert (EK : key_expansion 4 10 key = fold_left blk128 (seq 0 10) (key_words 4 key)).
    { unfold key_expansion, blk128. cbn [Nat.add Nat.mul Nat.sub seq map fold_left]. reflexivity. }
    rewrite EK. split; [reflexivity|exact W1].
  - unfold aes_init_encrypt. cbn [Z.eqb Pos.eqb]. rewrite E0.
    destruct (steps 6 7 sched192 blk192 step192 7 0 _ ltac:(lia) W0) as [E1 W1].
    change (seq 0 8) with (seq 0 7 ++ [7%nat]). rewrite fold_left_app, E1. cbn [fold_left].
    destruct (last192 _ W1) as [E2 W2]. rewrite E2.
    assert (EK : key_expansion 6 12 key = fold_left (key_step 6) (map (fun m => 6 * 7 + m)%nat (seq 6 4)) (fold_left blk192 (seq 0 7) (key_words 6 key))).
    { unfold key_expansion, blk192. cbn [Nat.add Nat.mul Nat.sub seq map fold_left]. reflexivity. }
    rewrite EK. split; [reflexivity|exact W2].
  - unfold aes_init_encrypt. cbn [Z.eqb Pos.eqb]. rewrite E0.
    destruct (steps 8 6 sched256 blk256 step256 6 0 _ ltac:(lia) W0) as [E1 W1].
    change (seq 0 7) with (seq 0 6 ++ [6%nat]). rewrite fold_left_app, E1. cbn [fold_left].
    destruct (last256 _ W1) as [E2 W2]. rewrite E2.
    assert (EK : key_expansion 8 14 key = fold_left (key_step 8) (map (fun m => 8 * 6 + m)%nat (seq 8 4)) (fold_left blk256 (seq 0 6) (key_words 8 key))).
    { unfold key_expansion, blk256. cbn [Nat.add Nat.mul Nat.sub seq map fold_left]. reflexivity. }
    rewrite EK. split; [reflexivity|exact W2].
Qed.

(* ---- round keys as words ---- *)
#[local] Transparent b4l.
Lemma rk_group w n r : wok n w -> (4 * r + 4 <= n)%nat -> exists a b c d,
  round_key w r = a ++ b ++ c ++ d ++ [] /\ wd4 a /\ wd4 b /\ wd4 c /\ wd4 d /\
  nth (4 * r + 0) w [] = a /\ nth (4 * r + 1) w [] = b /\ nth (4 * r + 2) w [] = c /\ nth (4 * r + 3) w [] = d.
Proof.
  intros [Hw Lw] Hr. unfold round_key.
  assert (LF : length (firstn (4 * r) w) = (4 * r)%nat) by (rewrite firstn_length; lia).
  assert (N : forall j, nth (4 * r + j) w [] = nth j (skipn (4 * r) w) []).
  { intros j. rewrite <- (firstn_skipn (4 * r) w) at 1. apply nthp. exact LF. }
  rewrite !N. assert (HS : Forall wd4 (skipn (4 * r) w)) by (rewrite <- (firstn_skipn (4 * r) w) in Hw; apply Forall_app in Hw; apply Hw).
  assert (LS : (4 <= length (skipn (4 * r) w))%nat) by (rewrite skipn_length; lia).
  revert HS LS. generalize (skipn (4 * r) w). intros s HS LS. clear N LF Hw Lw.
  destruct s as [|a [|b [|c [|d s]]]]; cbn [length] in LS; try lia.
  inversion HS as [|? ? A1 HS1]; subst. inversion HS1 as [|? ? A2 HS2]; subst. inversion HS2 as [|? ? A3 HS3]; subst. inversion HS3 as [|? ? A4 HS4]; subst.
  exists a, b, c, d. cbn [firstn concat nth]. auto 10.
Qed.
Lemma W_four a b c d : wd4 a -> wd4 b -> wd4 c -> wd4 d -> W (a ++ b ++ c ++ d ++ []) = (b4l a, b4l b, b4l c, b4l d) /\ ok16 (a ++ b ++ c ++ d ++ []).
Proof.
  intros Ha Hb Hc Hd.
  assert (O : ok16 (a ++ b ++ c ++ d ++ [])).
  { destruct Ha, Hb, Hc, Hd. split; [repeat (apply bytes_app; split; auto); constructor|]. rewrite !app_length. cbn [length]. lia. }
  split; auto. apply wd4_inv in Ha, Hb, Hc, Hd.
  destruct Ha as (? & ? & ? & ? & -> & _). destruct Hb as (? & ? & ? & ? & -> & _). destruct Hc as (? & ? & ? & ? & -> & _). destruct Hd as (? & ? & ? & ? & -> & _). reflexivity.
Qed.
Lemma rd_map w n i : length w = n -> (i < n)%nat -> rd (map b4l w) i = b4l (nth i w []).
Proof. intros L H. unfold rd. rewrite (nth_indep _ 0 (b4l [])) by (rewrite map_length; lia). apply map_nth. Qed.
Lemma rk_ok w n r : wok n w -> (4 * r + 4 <= n)%nat -> ok16 (round_key w r) /\ Kw (map b4l w) (4 * r) = W (round_key w r).
Proof.
  intros Hw Hr. destruct (rk_group w n r Hw Hr) as (a & b & c & d & E & Ha & Hb & Hc & Hd & N0 & N1 & N2 & N3).
  destruct (W_four a b c d Ha Hb Hc Hd) as [EW OW]. rewrite E. split; auto. rewrite EW. unfold Kw.
  rewrite Nat.add_0_r in N0. destruct Hw as [_ Lw]. rewrite !(rd_map w n) by (auto; lia). rewrite N0, N1, N2, N3. reflexivity.
Qed.

(* ---- the decryption keys: groups reversed, InvMixColumns on the inner ones ---- *)
Definition dk_loop (f : Z -> Z) (rounds : nat) (enckey : list Z) : list Z :=
  let K := swap_loop rounds enckey 0 (4 * rounds) in
  fold_left (fun K i => fold_left (fun K k => upd K (4 * i + k) (f (rd K (4 * i + k)))) (seq 0 4) K)
    (seq 1 (rounds - 1)) K.
Definition dk_word (f : Z -> Z) (nr : nat) (K : list Z) (r j : nat) : Z :=
  (if ((r =? 0) || (r =? nr))%nat then fun x => x else f) (rd K (4 * (nr - r) + j)).
Definition dk_list (f : Z -> Z) (nr : nat) (K : list Z) : list Z :=
  flat_map (fun r => [dk_word f nr K r 0; dk_word f nr K r 1; dk_word f nr K r 2; dk_word f nr K r 3]) (seq 0 (nr + 1)).
Lemma dk_loop_eq f nr K : In nr [10; 12; 14]%nat -> length K = (4 * (nr + 1))%nat -> dk_loop f nr K = dk_list f nr K.
Proof.
  intros Hin L. cbn [In] in Hin. destruct Hin as [<-|[<-|[<-|[]]]]; cbn [Nat.add Nat.mul] in L.
  - do 44 (destruct K as [|? K]; [discriminate L|]). destruct K; [|discriminate L]. vm_compute. reflexivity.
  - do 52 (destruct K as [|? K]; [discriminate L|]). destruct K; [|discriminate L]. vm_compute. reflexivity.
  - do 60 (destruct K as [|? K]; [discriminate L|]). destruct K; [|discriminate L]. vm_compute. reflexivity.
Qed.
Lemma flat4 (g : nat -> nat -> Z) n : forall a r j, (r < n)%nat -> (j < 4)%nat ->
  nth (4 * r + j) (flat_map (fun r => [g r 0; g r 1; g r 2; g r 3]%nat) (seq a n)) 0 = g (a + r)%nat j.
Proof.
  induction n as [|n IH]; intros a r j Hr Hj; [lia|]. cbn [seq flat_map app].
  destruct r as [|r].
  - rewrite Nat.add_0_r. cbn [Nat.mul Nat.add]. do 4 (destruct j as [|j]; [reflexivity|]). lia.
  - replace (4 * S r + j)%nat with (S (S (S (S (4 * r + j))))) by lia. cbn [nth]. rewrite IH by lia. f_equal. lia.
Qed.
Lemma imc_b4l a : wd4 a -> imc_word (b4l a) = b4l (imixc a).
Proof. intros Ha. apply wd4_inv in Ha. destruct Ha as (? & ? & ? & ? & -> & ? & ? & ? & ?). apply imc_word_eq; auto. Qed.
Lemma columns4 f a b c d : wd4 a -> wd4 b -> wd4 c -> wd4 d -> columns f (a ++ b ++ c ++ d ++ []) = f a ++ f b ++ f c ++ f d ++ [].
Proof.
  intros Ha Hb Hc Hd. apply wd4_inv in Ha, Hb, Hc, Hd.
  destruct Ha as (? & ? & ? & ? & -> & _). destruct Hb as (? & ? & ? & ? & -> & _). destruct Hc as (? & ? & ? & ? & -> & _). destruct Hd as (? & ? & ? & ? & -> & _). reflexivity.
Qed.
Lemma imixc_wd4 a : wd4 a -> wd4 (imixc a).
Proof. intros Ha. split; [|reflexivity]. destruct Ha as [Ha _]. unfold imixc. pose proof (fun i => nth_byte a i Ha) as N. fb; bytes_tac; auto. Qed.
Lemma dec_key w nr r : In nr [10; 12; 14]%nat -> wok (4 * (nr + 1)) w -> (r <= nr)%nat ->
  Kw (aes_init_decrypt nr (map b4l w)) (4 * r) = W (dkey nr (round_key w) r).
Proof.
  intros Hin Hw Hr. change (aes_init_decrypt nr (map b4l w)) with (dk_loop imc_word nr (map b4l w)).
  destruct Hw as [Fw Lw]. rewrite dk_loop_eq by (auto; rewrite map_length; auto).
  assert (G : forall j, (j < 4)%nat -> rd (dk_list imc_word nr (map b4l w)) (4 * r + j) = dk_word imc_word nr (map b4l w) r j).
  { intros j Hj. unfold rd, dk_list. rewrite (flat4 (dk_word imc_word nr (map b4l w)) (nr + 1) 0 r j) by lia. reflexivity. }
  unfold Kw. rewrite <- (Nat.add_0_r (4 * r)) at 1. rewrite !G by lia. unfold dk_word.
  destruct (rk_group w (4 * (nr + 1)) (nr - r) (conj Fw Lw) ltac:(lia)) as (a & b & c & d & E & Ha & Hb & Hc & Hd & N0 & N1 & N2 & N3).
  rewrite !(rd_map w (4 * (nr + 1))) by (auto; lia). rewrite N0, N1, N2, N3. unfold dkey.
  destruct ((r =? 0) || (r =? nr))%nat.
  - rewrite E. symmetry. apply W_four; auto.
  - rewrite !imc_b4l by auto. rewrite E, columns4 by auto. symmetry. apply W_four; auto using imixc_wd4.
Qed.

(* ---- the whole cipher ---- *)
Lemma aes_spec bits nk key src : In (bits, nk) [(128, 4%nat); (192, 6%nat); (256, 8%nat)] ->
  bytes key -> length key = (4 * nk)%nat -> bytes src -> length src = 16%nat ->
  exists c, aes_init bits key = Some c /\
    aes_encrypt c src = fips_cipher (nr_of nk) (key_expansion nk (nr_of nk) key) src /\
    aes_decrypt c src = fips_inv_cipher (nr_of nk) (key_expansion nk (nr_of nk) key) src /\
    fips_inv_cipher (nr_of nk) (key_expansion nk (nr_of nk) key) (fips_cipher (nr_of nk) (key_expansion nk (nr_of nk) key) src) = src.
Proof.
  intros Hin Hk Lk Hs Ls. destruct (enc_key bits nk (nr_of nk) key Hin eq_refl Hk Lk) as [E HW].
  assert (HN : exists h, nr_of nk = (2 * S h)%nat /\ In (nr_of nk) [10; 12; 14]%nat).
  { cbn [In] in Hin. destruct Hin as [H|[H|[H|[]]]]; apply pair_equal_spec in H; destruct H as [_ <-]; [exists 4%nat|exists 5%nat|exists 6%nat]; cbn; auto. }
  destruct HN as [h [EN IN]]. set (nr := nr_of nk) in *. set (w := key_expansion nk nr key) in *.
  assert (HO : forall r, (r <= nr)%nat -> ok16 (round_key w r)) by (intros r Hr; apply (rk_ok w (4 * (nr + 1))); auto; lia).
  unfold aes_init. rewrite E. eexists. split; [reflexivity|]. split; [|split].
  - rewrite (enc_blk nr h _ _ (round_key w)); [|exact EN|intros r Hr; apply (rk_ok w (4 * (nr + 1))); auto; lia|split; auto].
    symmetry. apply fips_eq; [auto|split; auto|lia].
  - apply (dec_fips nr h); auto. { intros r Hr. apply dec_key; auto. } split; auto.
  - apply fips_inverse; [auto|split; auto|lia].
Qed.
Lemma fips_cipher_ok bits nk key src : In (bits, nk) [(128, 4%nat); (192, 6%nat); (256, 8%nat)] ->
  bytes key -> length key = (4 * nk)%nat -> bytes src -> length src = 16%nat ->
  ok16 (fips_cipher (nr_of nk) (key_expansion nk (nr_of nk) key) src).
Proof.
  intros Hin Hk Lk Hs Ls. destruct (enc_key bits nk (nr_of nk) key Hin eq_refl Hk Lk) as [E HW].
  set (nr := nr_of nk) in *. set (w := key_expansion nk nr key) in *.
  assert (HO : forall r, (r <= nr)%nat -> ok16 (round_key w r)) by (intros r Hr; apply (rk_ok w (4 * (nr + 1))); auto; lia).
  rewrite fips_eq; [|auto|split; auto|]. 2:{ unfold nr, nr_of. lia. }
  apply xorl_ok; auto. apply shift_ok, map_bytes, sb_byte.
Qed.
