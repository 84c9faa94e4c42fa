From Verif.Base Require Import Prelude.
From Verif.Model Require Import Bio Util Stream Encoding Hash Rand.
From Verif.Spec Require Import StreamSpec RandSpec ShaSpec HashSpec.
From Verif.Proof Require Import BioProof HashProof HmacProof BufCrypt StreamProof StreamInit.
#[local] Ltac Zify.zify_post_hook ::= idtac.

Definition w32ok (l : list Z) := Forall (below M32) l.
Lemma w32_lxor a b : below M32 a -> below M32 b -> below M32 (Z.lxor a b).
Proof. unfold below. change M32 with (2 ^ 32). intros. apply lxor_range; lia. Qed.

Lemma lxor_land_distr a b c : Z.land (Z.lxor a b) c = Z.lxor (Z.land a c) (Z.land b c).
Proof. apply Z.bits_inj'. intros n _. rewrite !Z.land_spec, !Z.lxor_spec, !Z.land_spec. destruct (Z.testbit a n), (Z.testbit b n), (Z.testbit c n); reflexivity. Qed.
Lemma lxor_cons a b x y : byte a -> byte b -> Z.lxor (a + 256 * x) (b + 256 * y) = Z.lxor a b + 256 * Z.lxor x y.
Proof.
  intros Ha Hb. unfold byte in *.
  assert (D : Z.lxor (a + 256 * x) (b + 256 * y) / 256 = Z.lxor x y).
  { change 256 with (2 ^ 8) at 3. rewrite <- Z.shiftr_div_pow2, Z.shiftr_lxor, !Z.shiftr_div_pow2 by lia. change (2 ^ 8) with 256.
    rewrite (Z.mul_comm 256 x), (Z.mul_comm 256 y), !Z.div_add by lia. rewrite !Z.div_small by lia. reflexivity. }
  assert (R : Z.lxor (a + 256 * x) (b + 256 * y) mod 256 = Z.lxor a b).
  { change 256 with (2 ^ 8) at 3. rewrite <- Z.land_ones, lxor_land_distr, !Z.land_ones by lia. change (2 ^ 8) with 256.
    rewrite (Z.mul_comm 256 x), (Z.mul_comm 256 y), !Z.mod_add by lia. rewrite !Z.mod_small by lia. reflexivity. }
  rewrite <- D, <- R. generalize (Z.lxor (a + 256 * x) (b + 256 * y)). intros v. pose proof (Z.div_mod v 256). lia.
Qed.
Lemma le_val_xorl a : forall b, bytes a -> bytes b -> length a = length b -> le_val (xorl a b) = Z.lxor (le_val a) (le_val b).
Proof.
  induction a as [|x a IH]; intros [|y b] Ha Hb L; cbn [length] in L; try lia; [reflexivity|].
  inversion Ha; inversion Hb; subst. unfold le_val, xorl in *. cbn [map2 dval].
  change (map2 Z.lxor a b) with (xorl a b) in *. unfold xorl in *. rewrite IH by (auto; lia). symmetry. apply lxor_cons; auto.
Qed.
Lemma le_words_xorl n : forall a b, bytes a -> bytes b -> length a = (4 * n)%nat -> length b = (4 * n)%nat ->
  le_words n (xorl a b) = xorl (le_words n a) (le_words n b).
Proof.
  induction n as [|n IH]; intros a b Ha Hb La Lb; [reflexivity|]. cbn [le_words]. unfold xorl at 3. cbn [map2]. fold (xorl (le_words n (skipn 4 a)) (le_words n (skipn 4 b))).
  rewrite <- xorl_firstn. f_equal.
  - apply le_val_xorl; auto using bytes_firstn. rewrite !firstn_length; lia.
  - rewrite <- IH by (auto using bytes_skipn; rewrite skipn_length; lia). f_equal.
    unfold xorl. clear. revert a b. generalize 4%nat as k. induction k as [|k IH]; intros [|x a] [|y b]; cbn [skipn map2]; auto.
    destruct (skipn k a); reflexivity.
Qed.
Lemma le_words_unwords w : w32ok w -> le_words (length w) (unwords w) = w.
Proof.
  induction 1 as [|x w Hx Hw IH]; [reflexivity|]. cbn [length le_words]. unfold unwords in *. cbn [map concat].
  rewrite firstn_app_exact, skipn_app_exact by (rewrite le_bytes_length; reflexivity). rewrite IH. f_equal.
  rewrite le_val_le_bytes. apply Z.mod_small. exact Hx.
Qed.
Lemma le_words_ok n : forall s, bytes s -> w32ok (le_words n s).
Proof.
  induction n; intros s H; [constructor|]. cbn [le_words]. constructor; [|apply IHn; auto using bytes_skipn].
  pose proof (le_val_range (firstn 4 s) ltac:(auto using bytes_firstn)) as R.
  assert (length (firstn 4 s) <= 4)%nat by (rewrite firstn_length; lia).
  assert (256 ^ Z.of_nat (length (firstn 4 s)) <= 256 ^ 4) by (apply Z.pow_le_mono_r; lia).
  unfold below. change M32 with (256 ^ 4). lia.
Qed.
Lemma words_of_le n : forall s, bytes s -> (4 * n <= length s)%nat -> words_of n s = le_words n s.
Proof.
  induction n; intros s H L; [reflexivity|]. cbn [words_of le_words]. rewrite read32le_val by (auto; lia). f_equal.
  apply IHn; [auto using bytes_skipn|rewrite skipn_length; lia].
Qed.
Lemma mem_of_unwords w : mem_of w = unwords w.
Proof. unfold mem_of, unwords. f_equal. apply map_ext. apply write32le_spec. Qed.

(* ---- the keystream ---- *)
Lemma ks_seg_bytes block t n : (forall i, bytes (block i)) -> bytes (ks_seg block t n).
Proof.
  intros H. apply Forall_forall. intros v Hv. unfold ks_seg in Hv. apply in_map_iff in Hv. destruct Hv as [i [<- _]].
  unfold ks_byte. destruct (nth_in_or_default ((t + i) mod 64) (block ((t + i) / 64)%nat) 0) as [E|E]; [|rewrite E; unfold byte; lia].
  specialize (H ((t + i) / 64)%nat). unfold bytes in H. rewrite Forall_forall in H. apply H; auto.
Qed.
Lemma keystream_bytes key nonce n : bytes (keystream key nonce n).
Proof. apply ks_seg_bytes. intros i. apply unwords_bytes. Qed.
Lemma keystream_length key nonce n : length (keystream key nonce n) = n.
Proof. apply ks_seg_length. Qed.

Lemma rng_crypt_eq key nonce data : length key = 8%nat -> rng_crypt key nonce data = xorl data (keystream key nonce (length data)).
Proof.
  intros L. unfold rng_crypt. rewrite mem_of_unwords, write64le_spec.
  pose proof (proj2 (cc_init_some (unwords key) (le_bytes 8 nonce) 0)) as E.
  destruct E as [c E].
  { split; [apply key_ok_iff|]; rewrite ?unwords_length, ?le_bytes_length, ?L; cbn; auto. }
  rewrite E. pose proof (cc_out8 _ _ _ _ [data] (unwords_bytes key) (le_bytes_bytes 8 nonce) (le_bytes_length 8 nonce) (conj (Z.le_refl 0) (eq_refl : 0 < M64)) E) as C.
  cbn [calls concat] in C. rewrite app_nil_r in C. destruct (chacha20_crypt c data) as [o c']. cbn [fst] in *. rewrite app_nil_r in C. exact C.
Qed.
Lemma xorl_0_l n x : length x = n -> xorl (repeat 0 n) x = x.
Proof. intros <-. induction x; [reflexivity|]. unfold xorl in *. cbn [length repeat map2]. rewrite IHx. reflexivity. Qed.
Lemma rng_read_eq s n : length (r_key s) = 8%nat -> rng_read s n = keystream (r_key s) (r_nonce s) n.
Proof. intros L. unfold rng_read. rewrite rng_crypt_eq, repeat_length by auto. apply xorl_0_l, keystream_length. Qed.

(* ---- the state ---- *)
Definition inv (s : rng) : Prop :=
  length (r_key s) = 8%nat /\ w32ok (r_key s) /\ length (r_pool s) = 128%nat /\ (r_pos s <= 120)%nat /\
  forall i, (r_pos s <= i)%nat -> nth i (r_pool s) 0 = 0.

Definition view (s : rng) : gen := mkG (r_key s) (r_nonce s) (rev (firstn (r_pos s) (r_pool s))) (r_drawn s).
Definition hw_ok (hw : nat -> Z) := forall i, below M32 (hw i).

Lemma upd_mix key i w : (i < length key)%nat -> upd key i (Z.lxor (rd key i) w) = mix key i w.
Proof.
  unfold rd, mix. generalize (Z.lxor (nth i key 0) w). intros v. revert i. induction key as [|a k IH]; intros [|i] H; cbn [length] in H; try lia; [reflexivity|].
  cbn [upd]. rewrite IH by lia. reflexivity.
Qed.
Lemma mix_length key i w : (i < length key)%nat -> length (mix key i w) = length key.
Proof. intros H. rewrite <- upd_mix by auto. apply upd_length. Qed.
Lemma mix_ok key i w : (i < length key)%nat -> w32ok key -> below M32 w -> w32ok (mix key i w).
Proof.
  intros H K W. rewrite <- upd_mix by auto. apply Forall_upd; auto. apply w32_lxor; auto. unfold rd.
  unfold w32ok in K. rewrite Forall_forall in K. apply K. apply nth_In; auto.
Qed.
Lemma mix_rdrand_eq hw s key : length key = 8%nat ->
  mix_rdrand hw s key = (g_mix hw (r_rdrand s) (view s) key, g_tick (r_rdrand s) (view s)).
Proof. intros L. unfold mix_rdrand, g_mix, g_tick. destruct (r_rdrand s); [|reflexivity]. rewrite upd_mix by lia. reflexivity. Qed.
Lemma g_mix_length hw on g key : length key = 8%nat -> length (g_mix hw on g key) = 8%nat.
Proof. intros L. unfold g_mix. destruct on; auto. rewrite mix_length; lia. Qed.
Lemma g_mix_ok hw on g key : hw_ok hw -> length key = 8%nat -> w32ok key -> w32ok (g_mix hw on g key).
Proof. intros H L K. unfold g_mix. destruct on; auto. apply mix_ok; auto; lia. Qed.

Lemma xorl_w32ok a : forall b, w32ok a -> w32ok b -> w32ok (xorl a b).
Proof.
  induction a as [|x a IH]; intros [|y b] Ha Hb; cbn; try constructor; inversion Ha; inversion Hb; subst.
  - apply w32_lxor; auto. - apply IH; auto.
Qed.

Lemma generate_step hw s n : hw_ok hw -> inv s ->
  fst (rng_generate hw s n) = fst (g_step hw (r_rdrand s) (view s) (Bytes n)) /\
  view (snd (rng_generate hw s n)) = snd (g_step hw (r_rdrand s) (view s) (Bytes n)) /\
  inv (snd (rng_generate hw s n)) /\ r_rdrand (snd (rng_generate hw s n)) = r_rdrand s.
Proof.
  intros HW (L & K & P & Q & Z0). unfold rng_generate.
  rewrite upd_mix by lia.
  change (w32 (Z.of_nat n)) with (Z.of_nat n mod 2 ^ 32).
  assert (W : below M32 (Z.of_nat n mod 2 ^ 32)) by (apply (Z.mod_pos_bound _ (2 ^ 32)); reflexivity).
  set (k0 := mix (r_key s) 0 (Z.of_nat n mod 2 ^ 32)).
  assert (L0 : length k0 = 8%nat) by (unfold k0; rewrite mix_length; lia).
  assert (K0 : w32ok k0) by (unfold k0; apply mix_ok; auto; lia).
  rewrite mix_rdrand_eq by auto. cbn [g_step view fst snd g_key g_nonce g_queue].
  set (k1 := g_mix hw (r_rdrand s) (view s) k0).
  assert (L1 : length k1 = 8%nat) by (apply g_mix_length; auto).
  assert (K1 : w32ok k1) by (apply g_mix_ok; auto).
  assert (EK : words_of 8 (rng_crypt k1 (w64 (r_nonce s + 1)) (mem_of k1)) =
               xorl k1 (le_words 8 (keystream k1 ((r_nonce s + 1) mod 2 ^ 64) 32))).
  { rewrite rng_crypt_eq by auto. rewrite mem_of_unwords, unwords_length, L1. change (4 * 8)%nat with 32%nat.
    change (w64 (r_nonce s + 1)) with ((r_nonce s + 1) mod 2 ^ 64).
    rewrite words_of_le.
    - rewrite le_words_xorl by (auto using unwords_bytes, keystream_bytes; rewrite ?unwords_length, ?keystream_length; lia).
      f_equal. rewrite <- L1. apply le_words_unwords; auto.
    - apply xorl_bytes; auto using unwords_bytes, keystream_bytes.
    - rewrite xorl_length, unwords_length, keystream_length. lia. }
  rewrite EK. split; [|split; [|split]].
  - apply rng_read_eq; auto.
  - unfold view at 1. cbn [r_key r_nonce r_pool r_pos r_drawn]. reflexivity.
  - unfold inv. cbn [r_key r_nonce r_pool r_pos r_drawn]. split; [|split; [|split; [|split]]]; auto.
    + rewrite xorl_length, le_words_length. lia.
    + apply xorl_w32ok; auto. apply le_words_ok, keystream_bytes.
  - reflexivity.
Qed.

Lemma fold_xor_key pool key : length key = 8%nat -> length pool = 128%nat ->
  fold_left (fun k i => upd k i (Z.lxor (rd k i) (rd pool (120 + i)))) (seq 0 8) key = xorl key (skipn 120 pool).
Proof.
  intros L P. do 9 (destruct key as [|? key]; [try discriminate L|]); [|discriminate L]. clear L.
  assert (L : length (skipn 120 pool) = 8%nat) by (rewrite skipn_length; lia).
  assert (N : forall i, rd pool (120 + i) = nth i (skipn 120 pool) 0).
  { intros i. unfold rd. rewrite <- (firstn_skipn 120 pool) at 1. rewrite app_nth2; rewrite firstn_length, P; [f_equal; lia|lia]. }
  cbn [seq fold_left]. rewrite !N. revert L. generalize (skipn 120 pool). intros r L.
  do 9 (destruct r as [|? r]; [try discriminate L|]); [|discriminate L]. reflexivity.
Qed.
Lemma fold_zero_pool pool : length pool = 128%nat ->
  fold_left (fun p i => upd p (120 + i) 0) (seq 0 8) pool = firstn 120 pool ++ repeat 0 8.
Proof.
  intros P. apply (list_eq_nth 0).
  - cbn [seq fold_left]. rewrite !upd_length, app_length, firstn_length, repeat_length. lia.
  - intros i Hi. cbn [seq fold_left] in *. rewrite !upd_length in Hi.
    destruct (Nat.ltb_spec i 120) as [H|H].
    + rewrite app_nth1 by (rewrite firstn_length; lia). rewrite !nth_upd_other by lia.
      rewrite <- (firstn_skipn 120 pool) at 1. rewrite app_nth1 by (rewrite firstn_length; lia). reflexivity.
    + rewrite app_nth2 by (rewrite firstn_length; lia). rewrite nth_repeat.
      assert (C : In i (map (fun j => 120 + j)%nat (seq 0 8))).
      { apply in_map_iff. exists (i - 120)%nat. split; [lia|]. apply in_seq. lia. }
      cbn in C. repeat (destruct C as [<-|C]; [repeat (first [rewrite nth_upd_same by (rewrite ?upd_length; lia); reflexivity | rewrite nth_upd_other by lia])|]). destruct C.
Qed.

Lemma rev_firstn_snoc (l : list Z) n : (n < length l)%nat -> rev (firstn (S n) l) = nth n l 0 :: rev (firstn n l).
Proof.
  intros H. replace (S n) with (n + 1)%nat by lia. 
  assert (E : firstn (n + 1) l = firstn n l ++ [nth n l 0]).
  { revert n H. induction l as [|x l IH]; intros [|n] H; cbn [length] in H; try lia; [reflexivity|]. cbn [Nat.add firstn nth app]. rewrite <- IH by lia. reflexivity. }
  rewrite E, rev_app_distr. reflexivity.
Qed.
Lemma firstn_upd_ge (l : list Z) n v : firstn n (upd l n v) = firstn n l.
Proof. revert n. induction l; intros [|n]; cbn [upd firstn]; auto. f_equal. auto. Qed.

Lemma refill_spec hw s : hw_ok hw -> inv s ->
  view (rng_refill hw s) = refill hw (r_rdrand s) (view s) /\ inv (rng_refill hw s) /\
  r_rdrand (rng_refill hw s) = r_rdrand s /\ r_pos (rng_refill hw s) = 120%nat.
Proof.
  intros HW (L & K & P & Q & Z0). unfold rng_refill. rewrite mix_rdrand_eq by auto.
  set (k1 := g_mix hw (r_rdrand s) (view s) (r_key s)).
  assert (L1 : length k1 = 8%nat) by (apply g_mix_length; auto).
  assert (K1 : w32ok k1) by (apply g_mix_ok; auto).
  rewrite rng_read_eq by auto. rewrite words_of_le by (rewrite ?keystream_length; auto using keystream_bytes).
  fold (batch (r_key s) (r_nonce s)).
  assert (LB : length (batch (r_key s) (r_nonce s)) = 128%nat) by apply le_words_length.
  assert (KB : w32ok (batch (r_key s) (r_nonce s))) by apply le_words_ok, keystream_bytes.
  rewrite fold_xor_key, fold_zero_pool by auto.
  assert (LF : length (firstn 120 (batch (r_key s) (r_nonce s))) = 120%nat) by (rewrite firstn_length, LB; reflexivity).
  split; [|split; [|split; reflexivity]].
  - unfold view at 1, refill, served, rekey. cbn [r_key r_nonce r_pool r_pos r_drawn view g_key g_nonce g_queue g_seen].
    rewrite firstn_app_exact by auto. reflexivity.
  - unfold inv. cbn [r_key r_nonce r_pool r_pos r_drawn]. split; [|split; [|split; [|split]]]; auto.
    + rewrite xorl_length, skipn_length. lia.
    + apply xorl_w32ok; auto. unfold w32ok in *. rewrite <- (firstn_skipn 120) in KB. apply Forall_app in KB. apply KB.
    + intros i Hi. rewrite app_nth2 by lia. apply nth_repeat.
Qed.

Lemma random_step hw s : hw_ok hw -> inv s ->
  [fst (rng_random hw s)] = fst (g_step hw (r_rdrand s) (view s) Draw) /\
  view (snd (rng_random hw s)) = snd (g_step hw (r_rdrand s) (view s) Draw) /\
  inv (snd (rng_random hw s)) /\ r_rdrand (snd (rng_random hw s)) = r_rdrand s.
Proof.
  intros HW I. unfold rng_random.
  set (s1 := if (r_pos s =? 0)%nat then rng_refill hw s else s).
  assert (C : inv s1 /\ r_rdrand s1 = r_rdrand s /\ (0 < r_pos s1)%nat /\
    view s1 = match g_queue (view s) with [] => refill hw (r_rdrand s) (view s) | _ => view s end).
  { unfold s1. destruct (Nat.eqb_spec (r_pos s) 0) as [E|E].
    - destruct (refill_spec hw s HW I) as (V & I1 & R & Q). split; auto. split; auto. split; [lia|].
      rewrite V. cbn [view g_queue]. rewrite E. reflexivity.
    - split; auto. split; auto. split; [lia|]. cbn [view g_queue]. destruct I as (L & K & P & Q & Z0).
      destruct (r_pos s) as [|n]; [lia|]. rewrite rev_firstn_snoc by lia. reflexivity. }
  clearbody s1. destruct C as ((L & K & P & Q & Z0) & R & Q1 & V). cbn [g_step fst snd].
  destruct (r_pos s1) as [|n] eqn:EP; [lia|]. replace (S n - 1)%nat with n by lia.
  assert (QU : g_queue (view s1) = nth n (r_pool s1) 0 :: rev (firstn n (r_pool s1))).
  { cbn [view g_queue]. rewrite EP. apply rev_firstn_snoc. lia. }
  split; [|split; [|split; [|exact R]]].
  - rewrite <- V, QU. reflexivity.
  - rewrite <- V, QU. unfold view. cbn [r_key r_nonce r_pool r_pos r_drawn g_key g_nonce g_seen tl]. rewrite firstn_upd_ge. reflexivity.
  - unfold inv. cbn [r_key r_nonce r_pool r_pos r_drawn]. rewrite upd_length. split; [|split; [|split; [|split]]]; auto; [lia|].
    intros i Hi. destruct (Nat.eq_dec n i) as [<-|N].
    + rewrite nth_upd_same by lia. reflexivity.
    + rewrite nth_upd_other by lia. apply Z0. lia.
Qed.

(* ---- histories ---- *)
Definition rng_op (hw : nat -> Z) (s : rng) (o : op) : list Z * rng :=
  match o with
  | Draw => let '(x, s) := rng_random hw s in ([x], s)
  | Bytes n => rng_generate hw s n
  end.
Fixpoint rng_run (hw : nat -> Z) (s : rng) (ops : list op) : list (list Z) * rng :=
  match ops with
  | [] => ([], s)
  | o :: t => let '(x, s) := rng_op hw s o in let '(xs, s) := rng_run hw s t in (x :: xs, s)
  end.
Lemma op_step hw s o : hw_ok hw -> inv s ->
  fst (rng_op hw s o) = fst (g_step hw (r_rdrand s) (view s) o) /\
  view (snd (rng_op hw s o)) = snd (g_step hw (r_rdrand s) (view s) o) /\
  inv (snd (rng_op hw s o)) /\ r_rdrand (snd (rng_op hw s o)) = r_rdrand s.
Proof.
  intros HW I. destruct o as [|n]; cbn [rng_op]; [|apply generate_step; auto].
  pose proof (random_step hw s HW I) as R. destruct (rng_random hw s) as [x s']. exact R.
Qed.
Lemma run_spec hw : hw_ok hw -> forall ops s, inv s ->
  fst (rng_run hw s ops) = fst (g_run hw (r_rdrand s) (view s) ops) /\
  view (snd (rng_run hw s ops)) = snd (g_run hw (r_rdrand s) (view s) ops) /\
  inv (snd (rng_run hw s ops)) /\ r_rdrand (snd (rng_run hw s ops)) = r_rdrand s.
Proof.
  intros HW. induction ops as [|o t IH]; intros s I; [split; [|split; [|split]]; auto|].
  cbn [rng_run g_run]. destruct (op_step hw s o HW I) as (A & B & C & D).
  destruct (rng_op hw s o) as [x s1]. destruct (g_step hw (r_rdrand s) (view s) o) as [y g1]. cbn [fst snd] in *. subst y g1.
  destruct (IH s1 C) as (A2 & B2 & C2 & D2). rewrite D in *.
  destruct (rng_run hw s1 t) as [xs s2]. destruct (g_run hw (r_rdrand s) (view s1) t) as [ys g2]. cbn [fst snd] in *.
  subst. split; [|split; [|split]]; auto.
Qed.

(* ---- which batches the words come from ---- *)
From Coq Require Import Sorted.
Lemma served_length k n : length (served k n) = 120%nat.
Proof. unfold served. rewrite rev_length, firstn_length. unfold batch. rewrite le_words_length. reflexivity. Qed.
Definition words (gens : list (list Z * Z)) : list Z := concat (map (fun p => served (fst p) (snd p)) gens).

Lemma g_words hw on : forall ops g, 0 <= g_nonce g -> g_nonce g + Z.of_nat (length ops) < 2 ^ 64 ->
  exists gens, drawn ops (fst (g_run hw on g ops)) = firstn (draws ops) (g_queue g ++ words gens) /\
    length gens = ((draws ops - length (g_queue g) + 119) / 120)%nat /\
    StronglySorted Z.lt (map snd gens) /\ Forall (fun n => g_nonce g <= n < g_nonce g + Z.of_nat (length ops)) (map snd gens).
Proof.
  induction ops as [|o t IH]; intros g H0 HB.
  { exists []. cbn. split; [reflexivity|]. split; [reflexivity|]. split; constructor. }
  cbn [length] in HB. rewrite Nat2Z.inj_succ in HB. destruct o as [|n].
  - (* Draw *)
    cbn [g_run g_step]. destruct (g_queue g) as [|x q] eqn:EQ.
    + set (g1 := mkG (g_key (refill hw on g)) (g_nonce (refill hw on g)) (tl (g_queue (refill hw on g))) (g_seen (refill hw on g))).
      assert (N1 : g_nonce g1 = g_nonce g + 1) by (apply Z.mod_small; lia).
      destruct (IH g1) as (gens & A & B & C & D); [lia|lia|].
      exists ((g_key g, g_nonce g) :: gens).
      pose proof (served_length (g_key g) (g_nonce g)) as SL.
      destruct (g_run hw on g1 t) as [xs g2]. cbn [fst drawn draws].
      cbn [g1 g_queue refill] in A, B. cbn [refill g_queue].
      unfold words. cbn [map concat fst snd]. fold (words gens).
      destruct (served (g_key g) (g_nonce g)) as [|x q]; cbn [length] in SL; [lia|]. cbn [tl firstn app] in *.
      split; [f_equal; exact A|]. split; [|split].
      * cbn [length]. rewrite B. assert (length q = 119)%nat by lia. rewrite H.
        destruct (Nat.le_gt_cases (draws t) 119) as [L|L].
        -- replace (draws t - 119)%nat with 0%nat by lia. change ((0 + 119) / 120)%nat with 0%nat.
           replace (S (draws t) - 0 + 119)%nat with (draws t + 1 * 120)%nat by lia. rewrite Nat.div_add by lia. rewrite Nat.div_small by lia. reflexivity.
        -- replace (draws t - 119 + 119)%nat with (draws t) by lia. 
           replace (S (draws t) - 0 + 119)%nat with (draws t + 1 * 120)%nat by lia. rewrite Nat.div_add by lia. lia.
      * constructor; auto. eapply Forall_impl; [|exact D]. intros a Ha. cbn beta in Ha. lia.
      * cbn [length]. rewrite Nat2Z.inj_succ. constructor; [cbn [snd]; lia|]. eapply Forall_impl; [|exact D]. intros a Ha. cbn beta in Ha. lia.
    + destruct (IH (mkG (g_key g) (g_nonce g) q (g_seen g))) as (gens & A & B & C & D); [auto|cbn [g_nonce]; lia|].
      exists gens. rewrite EQ. cbn [tl firstn]. destruct (g_run hw on (mkG (g_key g) (g_nonce g) q (g_seen g)) t) as [xs g2].
      cbn [fst drawn draws firstn app length g_queue g_nonce] in *. split; [f_equal; exact A|]. split; [rewrite B; f_equal; lia|].
      split; auto. eapply Forall_impl; [|exact D]. intros a Ha. cbn beta in Ha. lia.
  - cbn [g_run g_step].
    match goal with |- context [g_run hw on ?gg t] => set (g1 := gg) end.
    assert (N1 : g_nonce g1 = g_nonce g + 1) by (apply Z.mod_small; lia).
    destruct (IH g1) as (gens & A & B & C & D); [lia|lia|]. exists gens.
    destruct (g_run hw on g1 t) as [xs g2]. cbn [fst drawn draws] in *. cbn [g1 g_queue] in A, B.
    split; auto. split; auto. split; auto. cbn [length]. eapply Forall_impl; [|exact D]. intros a Ha. cbn beta in Ha. lia.
Qed.

(* ---- initialisation ---- *)
Definition seed_ok (o : option (list Z)) : Prop := match o with Some l => bytes l /\ length l = 64%nat | None => True end.
Definition env_ok (e : env) : Prop := seed_ok (e_sys e) /\ seed_ok (e_hw e).
Definition opt_bytes (o : option (list Z)) : list Z := match o with Some l => l | None => [] end.
(* the entropy hashed into the first key *)
Definition entropy (e : env) : option (list Z) :=
  if e_has_sys e then match e_sys e with Some l => Some (l ++ opt_bytes (e_hw e)) | None => None end else e_hw e.

Lemma sha_rep m chunks h : hrep SHA256 m (Hmd h) -> bytes m -> bytes (concat chunks) -> Forall (fun c => length c = 64%nat) chunks ->
  sha256_final (fold_left sha256_update chunks h) = fips_sha256 (m ++ concat chunks).
Proof.
  revert m h. induction chunks as [|c t IH]; intros m h HR Hm Hc HL; cbn [fold_left concat].
  - rewrite app_nil_r. pose proof (hrep_final SHA256 m (Hmd h) 0 Hm HR ltac:(cbn; lia)) as E. cbn [hash_final hash_value] in E. congruence.
  - inversion HL; subst. apply bytes_app in Hc. destruct Hc as [Hc Ht].
    destruct (hrep_update SHA256 m (Hmd h) c HR) as (c' & E & R). { unfold M64; lia. }
    cbn [hash_update] in E. assert (c' = Hmd (sha256_update h c)) by congruence. subst c'.
    rewrite (IH (m ++ c)) by (auto; apply bytes_app; auto). rewrite <- app_assoc. reflexivity.
Qed.
Lemma sha_init_rep : hrep SHA256 [] (Hmd sha256_init).
Proof. destruct (hrep_init SHA256) as (c & E & R). cbn [hash_init] in E. congruence. Qed.
Lemma init_eq e d : env_ok e ->
  rng_init e d = match entropy e with
                 | Some m => Some (mkRng (le_words 8 (fips_sha256 m)) 0 (repeat 0 128) 0 (e_rdrand e) false 0 d)
                 | None => None end /\
  match entropy e with Some m => bytes m | None => True end.
Proof.
  intros [A B]. unfold rng_init, entropy.
  assert (K : forall chunks, Forall bytes chunks -> Forall (fun c => length c = 64%nat) chunks ->
    words_of 8 (sha256_final (fold_left sha256_update chunks sha256_init)) = le_words 8 (fips_sha256 (concat chunks)) /\ bytes (concat chunks)).
  { intros chunks H1 H2. assert (HB : bytes (concat chunks)). { clear H2. induction H1; [constructor|]. cbn [concat]. apply bytes_app; auto. }
    rewrite (sha_rep [] chunks sha256_init sha_init_rep) by (auto; constructor). cbn [app]. split; auto.
    destruct (hash_value_ok SHA256 (concat chunks) 0 HB) as [L O]. cbn [hash_value size_of] in L, O.
    apply words_of_le; auto. rewrite L. reflexivity. }
  destruct (e_has_sys e); cbn [negb].
  - destruct (e_sys e) as [x|]; [|split; [reflexivity|exact I]]. destruct A as [A1 A2]. destruct (e_hw e) as [y|]; cbn [opt_bytes].
    + destruct B as [B1 B2]. destruct (K [x; y]) as [E1 E2]; [repeat constructor; auto..|]. cbn [fold_left concat] in *. rewrite app_nil_r in *. rewrite E1. auto.
    + destruct (K [x]) as [E1 E2]; [repeat constructor; auto..|]. cbn [fold_left concat] in *. rewrite app_nil_r in *. rewrite E1. auto.
  - destruct (e_hw e) as [y|]; [|split; [reflexivity|exact I]]. destruct B as [B1 B2].
    destruct (K [y]) as [E1 E2]; [repeat constructor; auto..|]. cbn [fold_left concat] in *. rewrite app_nil_r in *. rewrite E1. auto.
Qed.
Lemma init_inv e d s : env_ok e -> rng_init e d = Some s -> inv s /\ r_pos s = 0%nat /\ r_nonce s = 0.
Proof.
  intros H E. destruct (init_eq e d H) as [E2 B]. rewrite E2 in E. destruct (entropy e) as [m|]; [|discriminate].
  apply some_inj in E. subst s. cbn [r_pos r_nonce]. split; auto.
  destruct (hash_value_ok SHA256 m 0 B) as [L O]. cbn [hash_value size_of] in L, O.
  unfold inv. cbn [r_key r_pool r_pos]. split; [apply le_words_length|]. split; [apply le_words_ok; auto|]. split; [reflexivity|]. split; [lia|].
  intros i _. apply nth_repeat.
Qed.

(* ---- uniform ---- *)
Lemma accept_iff max x : 2 <= max < 2 ^ 32 -> 0 <= x < 2 ^ 32 -> (uniform_reject max x = false <-> x / max < 2 ^ 32 / max).
Proof.
  intros Hm Hx. unfold uniform_reject, sub32, w32. change M32 with (2 ^ 32). rewrite Z.ltb_ge.
  assert (E1 : (- max) mod 2 ^ 32 = 2 ^ 32 - max).
  { rewrite <- (Z.mod_add _ 1) by lia. rewrite Z.mod_small; lia. }
  pose proof (Z.div_mod x max ltac:(lia)) as D. pose proof (Z.mod_pos_bound x max ltac:(lia)) as R.
  assert (Q : 0 <= x / max) by (apply Z.div_pos; lia).
  assert (E2 : (x - x mod max) mod 2 ^ 32 = max * (x / max)).
  { replace (x - x mod max) with (max * (x / max)) by lia. apply Z.mod_small. nia. }
  rewrite E1, E2. pose proof (Z.div_mod (2 ^ 32) max ltac:(lia)) as D2. pose proof (Z.mod_pos_bound (2 ^ 32) max ltac:(lia)) as R2.
  set (q := x / max) in *. set (T := 2 ^ 32) in *. set (n := T / max) in *. clearbody q n. clearbody T. split; intros H; nia.
Qed.
Lemma random_range hw s : hw_ok hw -> inv s -> (forall i, below M32 (nth i (r_pool s) 0)) -> 
  below M32 (fst (rng_random hw s)) /\ (forall i, below M32 (nth i (r_pool (snd (rng_random hw s))) 0)).
Proof.
  intros HW I HP. unfold rng_random.
  set (s1 := if (r_pos s =? 0)%nat then rng_refill hw s else s).
  assert (C : forall i, below M32 (nth i (r_pool s1) 0)).
  { unfold s1. destruct (r_pos s =? 0)%nat; auto. intros i. destruct I as (L & _).
    assert (E : r_pool (rng_refill hw s) = firstn 120 (batch (r_key s) (r_nonce s)) ++ repeat 0 8).
    { unfold rng_refill. destruct (mix_rdrand hw s (r_key s)). cbn [r_pool]. rewrite rng_read_eq by auto.
      rewrite words_of_le by (rewrite ?keystream_length; auto using keystream_bytes). apply fold_zero_pool. apply le_words_length. }
    rewrite E. apply Forall_nth_d; [|unfold below, M32; lia]. apply Forall_app. split.
    - assert (KB : w32ok (batch (r_key s) (r_nonce s))) by apply le_words_ok, keystream_bytes.
      unfold w32ok in KB. rewrite <- (firstn_skipn 120) in KB. apply Forall_app in KB. apply KB.
    - apply Forall_forall. intros v Hv. apply repeat_spec in Hv. subst. unfold below, M32; lia. }
  clearbody s1. cbn [fst snd r_pool]. split; [apply C|]. intros i.
  destruct (Nat.eq_dec (r_pos s1 - 1) i) as [<-|N].
  - destruct (Nat.ltb_spec (r_pos s1 - 1) (length (r_pool s1))).
    + rewrite nth_upd_same by auto. unfold below, M32; lia.
    + rewrite nth_overflow by (rewrite upd_length; lia). unfold below, M32; lia.
  - rewrite nth_upd_other by lia. apply C.
Qed.
