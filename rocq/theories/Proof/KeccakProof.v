(* The Keccak contexts compute the FIPS 202 sponge *)
From Verif.Base Require Import Prelude.
From Verif.Model Require Import Bio Block Encoding Keccak.
From Verif.Spec Require Import BlockSpec KeccakSpec.
From Verif.Proof Require Import BioProof BlockProof MdProof KeccakPerm WordsOut.
#[local] Opaque keccak_f keccak_compress.

Lemma keccak_xor_length n A chunk : length (keccak_xor n A chunk) = length A.
Proof.
  unfold keccak_xor. generalize (seq 0 n). intros l. revert A.
  induction l as [|i l IH]; intros A; cbn [fold_left]; [reflexivity|]. rewrite IH. apply upd_length.
Qed.
Lemma keccak_xor_nth n A chunk : (n <= length A)%nat -> forall i,
  nth i (keccak_xor n A chunk) 0 = if (i <? n)%nat then Z.lxor (nth i A 0) (read64le (skipn (i * 8) chunk)) else nth i A 0.
Proof.
  induction n as [|n IH]; intros HL i; [reflexivity|].
  assert (E : keccak_xor (S n) A chunk = upd (keccak_xor n A chunk) n (Z.lxor (kget (keccak_xor n A chunk) n) (read64le (skipn (n * 8) chunk)))).
  { unfold keccak_xor at 1. rewrite seq_S, fold_left_app. reflexivity. }
  rewrite E. destruct (Nat.eq_dec n i) as [<-|N].
  - rewrite nth_upd_same by (rewrite keccak_xor_length; lia). unfold kget. rewrite IH by lia.
    destruct (Nat.ltb_spec n n); [lia|]. destruct (Nat.ltb_spec n (S n)); [reflexivity|lia].
  - rewrite nth_upd_other by auto. rewrite IH by lia.
    destruct (Nat.ltb_spec i n), (Nat.ltb_spec i (S n)); try reflexivity; lia.
Qed.
Lemma lanes_length bs : length (lanes_of bs) = 25%nat.
Proof. unfold lanes_of. rewrite map_length, seq_length. reflexivity. Qed.
Lemma lanes_nth bs i : (i < 25)%nat -> nth i (lanes_of bs) 0 = le_val (firstn 8 (skipn (8 * i) bs)).
Proof.
  intros H. unfold lanes_of. set (f := fun i => le_val (firstn 8 (skipn (8 * i) bs))).
  rewrite (nth_indep _ 0 (f 0%nat)) by (rewrite map_length, seq_length; lia).
  rewrite map_nth, seq_nth by lia. reflexivity.
Qed.
Lemma lanes_ok bs : bytes bs -> Forall lane_ok (lanes_of bs).
Proof.
  intros H. apply Forall_forall. intros v Hv. apply in_map_iff in Hv. destruct Hv as [i [<- _]].
  pose proof (le_val_range (firstn 8 (skipn (8 * i) bs)) ltac:(auto using bytes_firstn, bytes_skipn)) as R.
  assert (length (firstn 8 (skipn (8 * i) bs)) <= 8)%nat by (rewrite firstn_length; lia).
  assert (256 ^ Z.of_nat (length (firstn 8 (skipn (8 * i) bs))) <= 256 ^ 8) by (apply Z.pow_le_mono_r; lia).
  unfold lane_ok. change (2 ^ 64) with (256 ^ 8). lia.
Qed.
Lemma map2_nth (f : Z -> Z -> Z) a : forall b i, length a = length b -> (i < length a)%nat -> nth i (map2 f a b) 0 = f (nth i a 0) (nth i b 0).
Proof.
  induction a as [|x a IH]; intros [|y b] i HL Hi; cbn [length] in *; try lia. cbn [map2]. destruct i as [|i]; [reflexivity|]. cbn [nth]. apply IH; lia.
Qed.
Lemma read64le_firstn s : bytes s -> (8 <= length s)%nat -> read64le s = le_val (firstn 8 s).
Proof.
  intros H L. rewrite read64le_spec by auto. do 8 (destruct s as [|? s]; [cbn [length] in L; lia|]). reflexivity.
Qed.
Lemma skipn_repeat {A} (v : A) n : forall k, skipn k (repeat v n) = repeat v (n - k).
Proof. induction n as [|n IH]; intros [|k]; cbn [repeat skipn Nat.sub]; auto. Qed.
Lemma firstn_repeat {A} (v : A) n : forall k, firstn k (repeat v n) = repeat v (Nat.min k n).
Proof. induction n as [|n IH]; intros [|k]; cbn [repeat firstn Nat.min]; auto. f_equal. apply IH. Qed.
Lemma xor_lanes n A chunk : (n <= 24)%nat -> length A = 25%nat -> bytes chunk -> length chunk = (8 * n)%nat ->
  keccak_xor n A chunk = map2 Z.lxor A (lanes_of (chunk ++ repeat 0 (200 - 8 * n))).
Proof.
  intros Hn HA HB HC. apply (list_eq_nth 0).
  - rewrite keccak_xor_length, map2_length, lanes_length. lia.
  - intros i Hi. rewrite keccak_xor_length in Hi. rewrite keccak_xor_nth by lia.
    rewrite map2_nth by (rewrite ?lanes_length; lia). rewrite lanes_nth by lia.
    destruct (Nat.ltb_spec i n) as [H|H].
    + f_equal. rewrite (Nat.mul_comm i 8). rewrite skipn_app, firstn_app. rewrite skipn_length.
      replace (8 - (length chunk - 8 * i))%nat with 0%nat by lia. rewrite firstn_O, app_nil_r.
      apply read64le_firstn; [auto using bytes_skipn|rewrite skipn_length; lia].
    + rewrite skipn_app. rewrite skipn_all2 by lia. cbn [app]. rewrite skipn_repeat, firstn_repeat.
      unfold le_val. rewrite dval_repeat0, Z.lxor_0_r. reflexivity.
Qed.

(* the rates keccak_init accepts *)
Definition lanes_n (bs : nat) (std : bool) : nat := if std then keccak_lanes0 bs else (bs / 8)%nat.
Definition rate_ok (bs : nat) (std : bool) : Prop := (8 * lanes_n bs std = bs)%nat /\ (0 < bs <= 192)%nat.
Lemma transform_eq bs std A chunk : keccak_transform bs std A chunk = keccak_compress (keccak_xor (lanes_n bs std) A chunk).
Proof. reflexivity. Qed.
Lemma absorb_eq R A blk : absorb_block R A blk = keccak_f (map2 Z.lxor A (lanes_of (blk ++ repeat 0 (200 - R)))).
Proof. reflexivity. Qed.
Lemma absorb_spec bs std A chunk : rate_ok bs std -> st_ok A -> bytes chunk -> length chunk = bs ->
  keccak_transform bs std A chunk = absorb_block bs A chunk /\ st_ok (absorb_block bs A chunk).
Proof.
  intros [R1 R2] [HL HF] HB HC. rewrite transform_eq, absorb_eq.
  rewrite xor_lanes by (auto; lia). rewrite R1.
  apply keccak_compress_spec. split; [rewrite map2_length, lanes_length; lia|].
  apply (proj2 (Forall_nth _ _)). intros i d Hi. rewrite map2_length, lanes_length, HL in Hi.
  rewrite (nth_indep _ d 0) by (rewrite map2_length, lanes_length; lia).
  rewrite map2_nth by (rewrite ?lanes_length; lia).
  assert (Hz : lane_ok 0) by (unfold lane_ok; lia).
  apply lxor_ok; apply Forall_nth_d; auto. apply lanes_ok. apply bytes_app. split; [auto|]. apply bytes_repeat. unfold byte. lia.
Qed.
Lemma st_ok_zero : st_ok (repeat 0 25).
Proof. split; [reflexivity|]. apply Forall_forall. intros v Hv. apply repeat_spec in Hv. subst. unfold lane_ok. lia. Qed.
Lemma fold_rel {A C} (f g : A -> C -> A) (P : A -> Prop) (Q : C -> Prop) :
  (forall a x, P a -> Q x -> f a x = g a x /\ P (g a x)) ->
  forall l a, P a -> Forall Q l -> fold_left f l a = fold_left g l a /\ P (fold_left g l a).
Proof.
  intros H l. induction l as [|x l IH]; intros a Ha HF; [split; [reflexivity|exact Ha]|].
  inversion HF as [|? ? Hx HF']; subst. destruct (H a x Ha Hx) as [E Ha']. cbn [fold_left]. rewrite E. apply IH; auto.
Qed.
Lemma fold_absorb bs std l A : rate_ok bs std -> st_ok A -> Forall (fun b => length b = bs /\ bytes b) l ->
  fold_left (keccak_transform bs std) l A = fold_left (absorb_block bs) l A /\ st_ok (fold_left (absorb_block bs) l A).
Proof.
  intros HR HA HF. apply (fold_rel _ _ st_ok (fun b => length b = bs /\ bytes b)); auto.
  intros a x Ha [Hx1 Hx2]. apply absorb_spec; auto.
Qed.

Lemma keccak_out_spec A len : st_ok A -> (len <= 200)%nat -> keccak_out A len = firstn len (concat (map (le_bytes 8) A)).
Proof.
  intros [HL HF] H. unfold keccak_out, kget.
  apply (words_tail 8 write64le A len); [lia|intros; apply write64le_spec|lia].
Qed.

(* ---- pad10*1 in bytes ---- *)
Lemma blocks8_bits m rest : bytes m -> bytes_of_bits (bits_of_bytes m ++ rest) = m ++ bytes_of_bits rest.
Proof.
  intros H. unfold bytes_of_bits, bits_of_bytes. induction m as [|a m IH]; [reflexivity|].
  inversion H as [|? ? Ha Hm]; subst. cbn [map concat]. rewrite <- app_assoc.
  rewrite (blocks_app 8 1) by (rewrite ?digits_length; lia).
  rewrite map_app, IH by auto. rewrite blocks_cons by (rewrite ?digits_length; lia).
  rewrite firstn_all2 by (rewrite digits_length; lia). rewrite blocks_nil by (rewrite skipn_length, digits_length; cbn; lia).
  cbn [map app]. f_equal. rewrite dval_digits by lia. apply Z.mod_small. exact Ha.
Qed.
Lemma bits_length m : length (bits_of_bytes m) = (8 * length m)%nat.
Proof. unfold bits_of_bytes. induction m as [|a m IH]; [reflexivity|]. cbn [map concat length]. rewrite app_length, digits_length, IH. lia. Qed.
Lemma bytes_of_bits_app x y : length x = 8%nat -> bytes_of_bits (x ++ y) = dval 2 x :: bytes_of_bits y.
Proof.
  intros H. unfold bytes_of_bits. rewrite (blocks_app 8 1) by lia. rewrite map_app.
  rewrite blocks_cons by lia. rewrite firstn_all2 by lia. rewrite blocks_nil by (rewrite skipn_length; lia). reflexivity.
Qed.
Lemma bytes_of_zero_bits q y : bytes_of_bits (repeat 0 (8 * q) ++ y) = repeat 0 q ++ bytes_of_bits y.
Proof.
  induction q as [|q IH]; [reflexivity|]. replace (8 * S q)%nat with (8 + 8 * q)%nat by lia. rewrite repeat_app, <- app_assoc.
  rewrite bytes_of_bits_app by reflexivity. rewrite IH. rewrite dval_repeat0. reflexivity.
Qed.
Lemma bytes_of_bits_one x : length x = 8%nat -> bytes_of_bits x = [dval 2 x].
Proof. intros H. rewrite <- (app_nil_r x), bytes_of_bits_app by auto. rewrite app_nil_r. reflexivity. Qed.

(* the domain-separation byte for a suffix of at most six bits *)
Definition pad_byte (suffix : list Z) : Z := dval 2 (suffix ++ [1]).
(* the last bytes, q of them: pad, zeros, 0x80 or-ed into the last *)
Definition pad_bytes (p : Z) (q : nat) : list Z := match q with O => [] | S O => [Z.lor p 128] | S (S q') => p :: repeat 0 q' ++ [128] end.

Lemma pad_byte_range s : Forall (below 2) s -> (length s <= 6)%nat -> 0 < pad_byte s < 128.
Proof.
  intros HF HL. unfold pad_byte. rewrite dval_app.
  pose proof (dval_range 2 s ltac:(lia) HF) as R. pose proof (Z.pow_le_mono_r 2 (Z.of_nat (length s)) 6 ltac:(lia) ltac:(lia)) as P.
  change (dval 2 [1]) with 1. change (2 ^ 6) with 64 in P. pose proof (Z.pow_pos_nonneg 2 (Z.of_nat (length s)) ltac:(lia) ltac:(lia)). lia.
Qed.
Lemma pad_bits s q : Forall (below 2) s -> (length s <= 6)%nat -> (0 < q)%nat ->
  bytes_of_bits (s ++ [1] ++ repeat 0 (8 * q - length s - 2) ++ [1]) = pad_bytes (pad_byte s) q.
Proof.
  intros HF HL HQ. pose proof (pad_byte_range s HF HL) as PR.
  destruct q as [|[|q]]; [lia| |].
  - rewrite bytes_of_bits_one by (rewrite !app_length, repeat_length; cbn [length]; lia).
    cbn [pad_bytes]. f_equal. rewrite app_assoc, dval_app. fold (pad_byte s). rewrite dval_app, dval_repeat0. rewrite !app_length, repeat_length. cbn [length].
    change (dval 2 [1]) with 1.
    assert (E : 2 ^ Z.of_nat (length s + 1) * (0 + 2 ^ Z.of_nat (8 * 1 - length s - 2) * 1) = 128).
    { replace 128 with (2 ^ 7) by reflexivity. rewrite Z.add_0_l, Z.mul_1_r, <- Z.pow_add_r by lia. f_equal. lia. }
    rewrite E. rewrite Z.lor_comm. replace 128 with (1 * 2 ^ 7) at 2 by reflexivity. rewrite lor_add_low by lia. lia.
  - cbn [pad_bytes].
    replace (s ++ [1] ++ repeat 0 (8 * S (S q) - length s - 2) ++ [1]) with
      ((s ++ [1] ++ repeat 0 (7 - length s)) ++ repeat 0 (8 * q) ++ (repeat 0 7 ++ [1])).
    2:{ rewrite <- !app_assoc. do 2 f_equal. rewrite !app_assoc. f_equal. rewrite <- !repeat_app. f_equal. lia. }
    rewrite bytes_of_bits_app by (rewrite !app_length, repeat_length; cbn [length]; lia).
    rewrite bytes_of_zero_bits. rewrite bytes_of_bits_one by reflexivity. f_equal.
    rewrite app_assoc, dval_app, dval_repeat0. fold (pad_byte s). lia.
Qed.
Lemma pad_length R n s : (0 < R)%nat -> (s <= 6)%nat ->
  Z.to_nat ((- Z.of_nat (8 * n + s) - 2) mod (8 * Z.of_nat R)) = (8 * (R - n mod R) - s - 2)%nat.
Proof.
  intros HR HS. pose proof (Nat.div_mod n R ltac:(lia)) as D. pose proof (Nat.mod_upper_bound n R ltac:(lia)) as U.
  set (q := (n / R)%nat) in *. set (r := (n mod R)%nat) in *.
  replace (- Z.of_nat (8 * n + s) - 2) with (Z.of_nat (8 * (R - r) - s - 2) + (- (Z.of_nat q + 1)) * (8 * Z.of_nat R)) by nia.
  rewrite Z.mod_add by lia. rewrite Z.mod_small by lia. apply Nat2Z.id.
Qed.
(* the padded message of the specification, in bytes *)
Lemma padded_bytes R s m : (0 < R)%nat -> bytes m -> Forall (below 2) s -> (length s <= 6)%nat ->
  bytes_of_bits ((bits_of_bytes m ++ s) ++ pad101 (8 * Z.of_nat R) (Z.of_nat (length (bits_of_bytes m ++ s)))) =
  m ++ pad_bytes (pad_byte s) (R - length m mod R).
Proof.
  intros HR Hm HF HL. rewrite <- app_assoc, blocks8_bits by auto. f_equal. unfold pad101.
  rewrite app_length, bits_length, pad_length by auto. apply pad_bits; auto.
  pose proof (Nat.mod_upper_bound (length m) R). lia.
Qed.

(* ---- the context ---- *)
Definition krep (bs : nat) (std : bool) (m : list Z) (c : keccak_t) : Prop :=
  k_bs c = bs /\ k_std c = std /\ rep bs (keccak_transform bs std) false (repeat 0 25) m (k_state c, k_block c, k_pos c).
Lemma krep_update bs std m c raw : (0 < bs)%nat -> krep bs std m c -> krep bs std (m ++ raw) (keccak_update c raw).
Proof.
  intros HB [E1 [E2 HR]]. unfold keccak_update. rewrite E1, E2.
  pose proof (update_rep bs (keccak_transform bs std) HB false (repeat 0 25) m _ _ _ raw HR) as U.
  destruct (buf_update bs false (keccak_transform bs std) (k_state c) (k_block c) (k_pos c) raw) as [[st' bl'] pos'].
  split; [reflexivity|]. split; [reflexivity|]. exact U.
Qed.
Lemma krep_chunks bs std : (0 < bs)%nat -> forall chunks m c, krep bs std m c -> krep bs std (m ++ concat chunks) (fold_left keccak_update chunks c).
Proof.
  intros HB. induction chunks as [|x chunks IH]; intros m c HR; cbn [concat fold_left]; [rewrite app_nil_r; exact HR|].
  rewrite app_assoc. apply IH. apply krep_update; auto.
Qed.

Lemma upd_app_r (l x : list Z) v : upd (l ++ x) (length l) v = l ++ upd x 0 v.
Proof. induction l as [|a l IH]; [reflexivity|]. cbn [app length upd]. rewrite IH. reflexivity. Qed.
(* the block keccak_final hands to the transform *)
Lemma final_block bs block pos p r : (pos < bs)%nat -> length block = bs -> firstn pos block = r -> length r = pos -> 0 < p < 256 ->
  (let block := upd block pos (Z.land p 0xff) in
   let block := fill block (pos + 1) bs 0 in
   upd block (bs - 1) (Z.lor (nth (bs - 1) block 0) 0x80)) = r ++ pad_bytes p (bs - pos).
Proof.
  intros HP HL HF HR Hp. cbv zeta. change 255 with (2 ^ 8 - 1). rewrite land_mask by lia. rewrite Z.mod_small by lia.
  assert (E1 : fill (upd block pos p) (pos + 1) bs 0 = r ++ p :: repeat 0 (bs - pos - 1)).
  { pose proof (fill_full (upd block pos p) (pos + 1) 0 ltac:(rewrite upd_length; lia)) as F. rewrite upd_length, HL in F. rewrite F. clear F.
    rewrite upd_blit by lia. rewrite (firstn_blit block pos [p]) by (cbn [length]; lia). rewrite HF.
    rewrite <- app_assoc. cbn [app]. do 3 f_equal. lia. }
  rewrite E1. remember (bs - pos)%nat as q eqn:Eq. destruct q as [|[|q]]; [lia| |]; cbn [pad_bytes].
  - replace (bs - 1)%nat with (length r) by lia. rewrite upd_app_r. cbn [upd]. rewrite app_nth2, Nat.sub_diag by lia. reflexivity.
  - replace (S (S q) - 1)%nat with (q + 1)%nat by lia. rewrite repeat_app. cbn [repeat].
    replace (bs - 1)%nat with (length (r ++ p :: repeat 0 q)) by (rewrite app_length; cbn [length]; rewrite repeat_length; lia).
    replace (r ++ p :: repeat 0 q ++ [0]) with ((r ++ p :: repeat 0 q) ++ [0]) by (rewrite <- app_assoc; reflexivity).
    rewrite upd_app_r. cbn [upd]. rewrite app_nth2, Nat.sub_diag by lia. rewrite <- app_assoc. reflexivity.
Qed.
Lemma pad_bytes_length p q : length (pad_bytes p q) = q.
Proof. destruct q as [|[|q]]; [reflexivity|reflexivity|]. cbn [pad_bytes length]. rewrite app_length, repeat_length. cbn [length]. lia. Qed.
Lemma pad_bytes_bytes p q : 0 <= p < 256 -> bytes (pad_bytes p q).
Proof.
  intros H. destruct q as [|[|q]]; cbn [pad_bytes]; [constructor| |].
  - constructor; [|constructor]. apply (lor_range p 128 8); lia.
  - constructor; [exact H|]. apply bytes_app. split; [apply bytes_repeat; unfold byte; lia|]. constructor; [unfold byte; lia|constructor].
Qed.

Lemma final_state bs std m p c : rate_ok bs std -> bytes m -> 0 < p < 256 -> krep bs std m c ->
  (let block := upd (k_block c) (k_pos c) (Z.land p 0xff) in
   let block := fill block (k_pos c + 1) (k_bs c) 0 in
   let block := upd block (k_bs c - 1) (Z.lor (nth (k_bs c - 1) block 0) 0x80) in
   keccak_transform (k_bs c) (k_std c) (k_state c) block) =
  fold_left (absorb_block bs) (blocks bs (m ++ pad_bytes p (bs - length m mod bs))) (repeat 0 25) /\
  st_ok (fold_left (absorb_block bs) (blocks bs (m ++ pad_bytes p (bs - length m mod bs))) (repeat 0 25)).
Proof.
  intros HR Hm Hp [E1 [E2 HK]]. rewrite E1, E2. destruct HR as [HR1 HR2].
  destruct (rep_eager bs _ ltac:(lia) (repeat 0 25) _ _ _ _ HK) as [K1 [K2 [K3 K4]]].
  pose proof (Nat.mod_upper_bound (length m) bs ltac:(lia)) as MU.
  pose proof (final_block bs (k_block c) (k_pos c) p (leftover bs m) ltac:(lia) K3 K4
     ltac:(rewrite leftover_length by lia; auto) Hp) as FB. cbv zeta in FB |- *. rewrite FB. clear FB.
  rewrite K1, K2.
  assert (HB : bytes (m ++ pad_bytes p (bs - length m mod bs))) by (apply bytes_app; split; [auto|apply pad_bytes_bytes; lia]).
  destruct (fold_absorb bs std (blocks bs (m ++ pad_bytes p (bs - length m mod bs))) (repeat 0 25)
    ltac:(split; auto) st_ok_zero (blocks_ok bs _ ltac:(lia) HB)) as [FE FS].
  split; [|exact FS]. rewrite <- FE.
  destruct (blocks_leftover bs m ltac:(lia)) as [x [X1 [X2 X3]]].
  set (P := pad_bytes p (bs - length m mod bs)) in *.
  replace (m ++ P) with (x ++ (leftover bs m ++ P)) by (rewrite app_assoc, <- X1; reflexivity).
  rewrite (blocks_app bs (length m / bs)) by (auto; lia). rewrite fold_left_app, X3.
  change (fold_left (keccak_transform bs std) (blocks bs m) (repeat 0 25)) with (run bs (keccak_transform bs std) (repeat 0 25) m).
  change (fold_left (keccak_transform bs std) (blocks bs (leftover bs m ++ P)) (run bs (keccak_transform bs std) (repeat 0 25) m)) with
    (run bs (keccak_transform bs std) (run bs (keccak_transform bs std) (repeat 0 25) m) (leftover bs m ++ P)).
  rewrite (run_block bs (keccak_transform bs std) ltac:(lia) _ (leftover bs m ++ P)); [reflexivity|].
  rewrite app_length, leftover_length by lia. unfold P. rewrite pad_bytes_length. lia.
Qed.

Theorem keccak_final_spec bs std s m c len : rate_ok bs std -> bytes m -> Forall (below 2) s -> (length s <= 6)%nat ->
  (0 < len <= bs)%nat -> krep bs std m c ->
  keccak_final c (pad_byte s) len = Ok (keccak_hash bs s m len).
Proof.
  intros HR Hm HF HL HD HK. pose proof (pad_byte_range s HF HL) as PR.
  destruct (final_state bs std m (pad_byte s) c HR Hm ltac:(lia) HK) as [FS1 FS2].
  unfold keccak_final. destruct (Z.eqb_spec (pad_byte s) 0) as [Z0|_]; [lia|].
  destruct (Nat.eqb_spec len 0) as [N0|_]; [lia|]. destruct HR as [HR1 HR2].
  destruct (Nat.leb_spec len 200) as [_|L]; [|lia]. cbn [negb]. f_equal. cbv zeta in FS1 |- *. rewrite FS1.
  rewrite keccak_out_spec by (auto; lia). unfold keccak_hash, sponge.
  rewrite padded_bytes by (auto; lia). set (A := fold_left _ _ _).
  destruct (Nat.eq_dec len bs) as [->|NE].
  - rewrite Nat.div_same by lia. cbn [squeeze Nat.add]. rewrite firstn_app_exact; [reflexivity|].
    rewrite firstn_length, concat_le_length. destruct FS2 as [FL _]. fold A in FL. rewrite FL. lia.
  - rewrite Nat.div_small by lia. cbn [squeeze Nat.add]. rewrite app_nil_r, firstn_firstn. f_equal. lia.
Qed.
(* length 0 asks for 100 - rate/2 bytes *)
Lemma keccak_final_default c p : (k_bs c < 200)%nat -> (100 - k_bs c / 2 <> 0)%nat ->
  keccak_final c p 0 = keccak_final c p (100 - k_bs c / 2).
Proof. intros H1 H2. unfold keccak_final. destruct (Nat.eqb_spec (100 - k_bs c / 2) 0); [lia|]. reflexivity. Qed.

Lemma keccak_init_spec bits c : keccak_init bits = Ok c ->
  exists bs std, krep bs std [] c /\ rate_ok bs std /\ Z.of_nat bs = 200 - bits / 4 /\ bits mod 4 = 0.
Proof.
  unfold keccak_init. cbv zeta. destruct (Z.leb_spec 32 bits) as [L1|]; [|discriminate]. cbn [negb].
  destruct (Z.leb_spec bits 768) as [L2|]; [|discriminate]. cbn [negb].
  destruct (Z.eqb_spec (Z.land (w32 (1600 - w32 (bits * 2))) 63) 0) as [E|]; [|discriminate]. cbn [negb]. intros HC.
  assert (Q : forallb (fun bits => implb (Z.land (w32 (1600 - w32 (bits * 2))) 63 =? 0)
     (let bs := Z.to_nat (shr (w32 (1600 - w32 (bits * 2))) 3) in
      let std := ((bits =? 128) || (bits =? 160) || (bits =? 192) || (bits =? 224) || (bits =? 256) || (bits =? 384) || (bits =? 512)) in
      ((8 * lanes_n bs std =? bs) && (0 <? bs) && (bs <=? 192))%nat && (Z.of_nat bs =? 200 - bits / 4) && (bits mod 4 =? 0))) (zseq 32 737) = true) by (vm_compute; reflexivity).
  rewrite forallb_forall in Q. specialize (Q bits). rewrite zseq_in in Q. specialize (Q ltac:(lia)).
  rewrite E in Q. cbn [Z.eqb implb] in Q. cbv zeta in Q. rewrite !andb_true_iff in Q. destruct Q as [[[[Q1 Q2] Q3] Q4] Q5].
  assert (HC' : MkKeccak (Z.to_nat (shr (w32 (1600 - w32 (bits * 2))) 3)) (repeat 0 25) (repeat 0xcd (Z.to_nat (shr (w32 (1600 - w32 (bits * 2))) 3))) 0
         ((bits =? 128) || (bits =? 160) || (bits =? 192) || (bits =? 224) || (bits =? 256) || (bits =? 384) || (bits =? 512)) = c) by congruence.
  subst c. clear HC. eexists. eexists. split; [|split; [split; [apply Nat.eqb_eq; exact Q1|]|split]].
  - split; [reflexivity|]. split; [reflexivity|]. cbn [k_state k_block k_pos].
    apply rep_init; [apply Nat.ltb_lt; exact Q2|apply repeat_length].
  - apply Nat.ltb_lt in Q2. apply Nat.leb_le in Q3. lia.
  - lia.
  - lia.
Qed.
