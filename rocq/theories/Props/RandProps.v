(* C47, C48: the user-space random generator *)
From Coq Require Import Sorted.
From Verif.Base Require Import Prelude.
From Verif.Model Require Import Bio Util Stream Encoding Hash Rand.
From Verif.Spec Require Import StreamSpec RandSpec ShaSpec HashSpec.
From Verif.Proof Require Import RandProof.
#[local] Ltac Zify.zify_post_hook ::= idtac.

(* ---- C47 ---- *)
(* Every residue has the same number, 2^32 / max, of source words that
   rng_uniform accepts and reduces to it. *)
Theorem C47_unbiased max r : 2 <= max < 2 ^ 32 -> 0 <= r < max ->
  exists l : list Z, NoDup l /\ Z.of_nat (length l) = 2 ^ 32 / max /\
    forall x, In x l <-> 0 <= x < 2 ^ 32 /\ uniform_reject max x = false /\ x mod max = r.
Proof.
  intros Hm Hr. exists (map (fun k => k * max + r) (zseq 0 (Z.to_nat (2 ^ 32 / max)))).
  assert (Q : 0 <= 2 ^ 32 / max) by (apply Z.div_pos; lia).
  pose proof (Z.div_mod (2 ^ 32) max ltac:(lia)) as D2. pose proof (Z.mod_pos_bound (2 ^ 32) max ltac:(lia)) as R2.
  split; [|split].
  - apply FinFun.Injective_map_NoDup; [intros a b E; nia|]. 
    generalize (Z.to_nat (2 ^ 32 / max)). generalize 0 at 1. intros z n. revert z. induction n as [|n IH]; intros z; cbn [zseq]; constructor; auto.
    rewrite zseq_in. lia.
  - rewrite map_length, zseq_length. lia.
  - intros x. rewrite in_map_iff. split.
    + intros (k & <- & Hk). rewrite zseq_in in Hk. rewrite Z2Nat.id in Hk by lia.
      assert (DX : (k * max + r) / max = k) by (rewrite Z.add_comm, Z.div_add, Z.div_small by lia; lia).
      assert (B : 0 <= k * max + r < 2 ^ 32). { split; [nia|]. set (n := 2 ^ 32 / max) in *. set (T := 2 ^ 32) in *. clearbody n. clearbody T. nia. }
      split; auto. split.
      * apply accept_iff; auto. rewrite DX. lia.
      * rewrite Z.add_comm, Z.mod_add, Z.mod_small by lia. reflexivity.
    + intros (Hx & A & E). apply accept_iff in A; auto. exists (x / max). split.
      * rewrite <- E. pose proof (Z.div_mod x max ltac:(lia)). lia.
      * rewrite zseq_in. rewrite Z2Nat.id by lia. assert (0 <= x / max) by (apply Z.div_pos; lia). lia.
Qed.
Example C47_unbiased_ex :
  uniform_reject 3221225472 3221225471 = false /\ uniform_reject 3221225472 3221225472 = true /\
  uniform_reject 6 4294967291 = false /\ uniform_reject 6 4294967292 = true /\ uniform_reject 8 4294967295 = false.
Proof. vm_compute. auto. Qed.

(* The accepted words are those below a bound greater than 2^31: every draw is
   accepted with probability more than one half. *)
Theorem C47_half max : 2 <= max < 2 ^ 32 ->
  exists b, 2 ^ 31 < b <= 2 ^ 32 /\ forall x, 0 <= x < 2 ^ 32 -> (uniform_reject max x = false <-> x < b).
Proof.
  intros Hm. exists (max * (2 ^ 32 / max)).
  pose proof (Z.div_mod (2 ^ 32) max ltac:(lia)) as D2. pose proof (Z.mod_pos_bound (2 ^ 32) max ltac:(lia)) as R2.
  split.
  - assert (1 <= 2 ^ 32 / max) by (apply Z.div_le_lower_bound; lia). change (2 ^ 32) with (2 * 2 ^ 31) in *.
    set (n := (2 * 2 ^ 31) / max) in *. set (T := 2 ^ 31) in *. clearbody n T. nia.
  - intros x Hx. rewrite accept_iff by auto. split; intros H.
    + pose proof (Z.div_mod x max ltac:(lia)) as D. pose proof (Z.mod_pos_bound x max ltac:(lia)) as R. nia.
    + apply Z.div_lt_upper_bound; lia.
Qed.
Example C47_half_ex : uniform_reject 2147483649 2147483648 = false /\ uniform_reject 2147483649 2147483649 = true.
Proof. vm_compute. auto. Qed.

(* The result is the residue of the first accepted word of the generator's
   stream of draws, it is in range, and the words before it were all rejected. *)
Lemma loop_spec hw max : forall fuel s r s', uniform_loop hw fuel s max = Some (r, s') ->
  exists ws x, fst (rng_run hw s (repeat Draw (length ws + 1))) = map (fun w => [w]) (ws ++ [x]) /\
    snd (rng_run hw s (repeat Draw (length ws + 1))) = s' /\ (length ws < fuel)%nat /\
    Forall (fun w => uniform_reject max w = true) ws /\ uniform_reject max x = false /\ r = x mod max.
Proof.
  induction fuel as [|f IH]; intros s r s' E; [discriminate|]. cbn [uniform_loop] in E.
  destruct (rng_random hw s) as [x s1] eqn:ER. destruct (uniform_reject max x) eqn:EJ.
  - destruct (IH _ _ _ E) as (ws & y & A & B & C & D & F & G). exists (x :: ws), y.
    cbn [length Nat.add repeat rng_run rng_op]. rewrite ER. destruct (rng_run hw s1 (repeat Draw (length ws + 1))) as [o s2].
    cbn [fst snd] in *. subst. split; [reflexivity|]. split; [reflexivity|]. split; [lia|]. split; [constructor; auto|]. auto.
  - exists [], x. cbn [length Nat.add repeat rng_run rng_op]. rewrite ER. cbn [fst snd app map].
    assert (r = x mod max /\ s' = s1) as [-> ->] by (split; congruence). split; [reflexivity|]. split; [reflexivity|]. split; [lia|]. split; [constructor|]. auto.
Qed.
Theorem C47_uniform hw fuel s max r s' : 2 <= max -> rng_uniform hw fuel s max = Some (r, s') ->
  0 <= r < max /\
  exists ws x, fst (rng_run hw s (repeat Draw (length ws + 1))) = map (fun w => [w]) (ws ++ [x]) /\
    snd (rng_run hw s (repeat Draw (length ws + 1))) = s' /\
    Forall (fun w => uniform_reject max w = true) ws /\ uniform_reject max x = false /\ r = x mod max.
Proof.
  intros Hm E. unfold rng_uniform in E. destruct (Z.leb_spec max 1) as [L|L]; [lia|].
  destruct (loop_spec _ _ _ _ _ _ E) as (ws & x & A & B & C & D & F & G). subst r.
  split; [apply Z.mod_pos_bound; lia|]. exists ws, x. auto.
Qed.
(* torsion_uniform, including the failure and the trivial bounds *)
Theorem C47_range hw fuel e s max ok x s' : 0 <= max -> torsion_uniform hw fuel e s max = Some (ok, x, s') ->
  0 <= x /\ (0 < max -> x < max) /\ (max = 0 -> x = 0) /\ (ok = false -> x = 0).
Proof.
  intros Hm E. unfold torsion_uniform in E. destruct (rng_global_init e s) as [[|] s1].
  - destruct (rng_uniform hw fuel s1 max) as [[y s2]|] eqn:EU; [|discriminate].
    assert (ok = true /\ x = y) as [-> ->] by (split; congruence).
    destruct (Z.leb_spec max 1) as [L|L].
    + unfold rng_uniform in EU. destruct (Z.leb_spec max 1) as [_|]; [|lia]. assert (y = 0) by congruence. subst. repeat split; try lia; try discriminate.
    + assert (H2 : 2 <= max) by lia. destruct (C47_uniform _ _ _ _ _ _ H2 EU) as [R _]. repeat split; try lia; discriminate.
  - assert (ok = false /\ x = 0) as [-> ->] by (split; congruence). repeat split; try lia.
Qed.
(* and the loop ends as soon as the stream has an acceptable word *)
Theorem C47_terminates hw fuel s max ws x : 2 <= max ->
  fst (rng_run hw s (repeat Draw (length ws + 1))) = map (fun w => [w]) (ws ++ [x]) -> uniform_reject max x = false ->
  (length ws < fuel)%nat -> rng_uniform hw fuel s max <> None.
Proof.
  intros Hm E A L. unfold rng_uniform. destruct (Z.leb_spec max 1) as [|_]; [lia|].
  revert s fuel E L. induction ws as [|w ws IH]; intros s [|f] E L; cbn [length] in L; try lia; cbn [uniform_loop].
  - cbn [length Nat.add repeat rng_run rng_op] in E. destruct (rng_random hw s) as [y s1]. cbn in E.
    assert (y = x) by congruence. subst. rewrite A. discriminate.
  - cbn [length Nat.add repeat rng_run rng_op] in E. destruct (rng_random hw s) as [y s1].
    destruct (uniform_reject max y); [|discriminate]. apply IH; [|lia].
    destruct (rng_run hw s1 (repeat Draw (length ws + 1))) as [o s2]. cbn [fst map app] in *. congruence.
Qed.

(* ---- C48 ---- *)
Definition ex_env : env := mkEnv 7 true (Some (repeat 1 64)) None true.
Definition ex_hw (n : nat) : Z := Z.of_nat n.
Definition ex_rng : rng := match rng_init ex_env 0 with Some s => s | None => rng_zero 0 end.

(* From a freshly seeded generator, any history of draws and byte requests hands
   out exactly the words of successive ChaCha20 batches, each word of a batch once
   (last word first), the eight re-keying words never; a batch is read exactly when
   the previous one is exhausted, and no nonce is used for two batches. *)
Theorem C48_each_word_once hw e d s ops : hw_ok hw -> env_ok e -> rng_init e d = Some s ->
  Z.of_nat (length ops) < 2 ^ 64 ->
  exists gens : list (list Z * Z),
    drawn ops (fst (rng_run hw s ops)) =
      firstn (draws ops) (concat (map (fun g => rev (firstn 120 (le_words 128 (keystream (fst g) (snd g) 512)))) gens)) /\
    length gens = ((draws ops + 119) / 120)%nat /\
    StronglySorted Z.lt (map snd gens).
Proof.
  intros HW HE EI HL. destruct (init_inv e d s HE EI) as (I & P & N).
  destruct (run_spec hw HW ops s I) as (A & _). rewrite A.
  destruct (g_words hw (r_rdrand s) ops (view s)) as (gens & B & C & D & _); [cbn [view g_nonce]; lia..|].
  exists gens. cbn [view g_queue] in B, C. rewrite P in B, C. cbn [firstn rev app length] in B, C.
  split; [exact B|]. split; [rewrite C; f_equal; lia|]. exact D.
Qed.
(* The same for the whole state: the generator is the queue of RandSpec. *)
Theorem C48_queue hw e d s ops : hw_ok hw -> env_ok e -> rng_init e d = Some s ->
  fst (rng_run hw s ops) = fst (g_run hw (r_rdrand s) (mkG (r_key s) 0 [] d) ops).
Proof.
  intros HW HE EI. destruct (init_inv e d s HE EI) as (I & P & N). destruct (run_spec hw HW ops s I) as (A & _). rewrite A.
  unfold view. rewrite P, N. cbn [firstn rev]. replace (r_drawn s) with d; [reflexivity|].
  destruct (init_eq e d HE) as [E _]. rewrite E in EI. destruct (entropy e); [|discriminate].
  pose proof (f_equal (option_map r_drawn) EI) as Q. cbn [option_map r_drawn] in Q. congruence.
Qed.
(* A word that has been handed out is no longer in memory, nor are the re-keying words. *)
Theorem C48_erased hw e d s ops i : hw_ok hw -> env_ok e -> rng_init e d = Some s ->
  (r_pos (snd (rng_run hw s ops)) <= i)%nat -> nth i (r_pool (snd (rng_run hw s ops))) 0 = 0.
Proof.
  intros HW HE EI H. destruct (init_inv e d s HE EI) as (I & _). destruct (run_spec hw HW ops s I) as (_ & _ & (_ & _ & _ & _ & Z0) & _). auto.
Qed.
Example C48_ex :
  let '(o, s) := rng_run ex_hw ex_rng [Draw; Bytes 5; Draw] in
  drawn [Draw; Bytes 5; Draw] o = rev (firstn 2 (skipn 118 (le_words 128 (keystream (r_key ex_rng) 0 512)))) /\
  r_pos s = 118%nat /\ r_nonce s = 2 /\ nth 117 (r_pool s) 0 <> 0 /\ nth 118 (r_pool s) 0 = 0.
Proof. vm_compute. repeat split; discriminate. Qed.

(* The first key is SHA-256 of the system entropy followed by the hardware entropy. *)
Theorem C48_seed e d : env_ok e ->
  rng_init e d = match entropy e with
                 | Some m => Some (mkRng (le_words 8 (fips_sha256 m)) 0 (repeat 0 128) 0 (e_rdrand e) false 0 d)
                 | None => None end.
Proof. intros H. apply (init_eq e d H). Qed.

(* A child process shares nothing with its parent: when the process id differs from
   the recorded one (or the generator is not started) the outputs and the new state
   do not depend on the old key, nonce or pool. *)
Definition stale (e : env) (s : rng) : Prop := r_started s = false \/ r_pid s <> e_pid e.
Theorem C48_fork hw fuel e s1 s2 n max : stale e s1 -> stale e s2 -> r_drawn s1 = r_drawn s2 ->
  torsion_getrandom hw e s1 n = torsion_getrandom hw e s2 n /\
  torsion_random hw e s1 = torsion_random hw e s2 /\
  torsion_uniform hw fuel e s1 max = torsion_uniform hw fuel e s2 max.
Proof.
  intros H1 H2 D. assert (E : rng_global_init e s1 = rng_global_init e s2).
  { unfold rng_global_init.
    assert (K : forall s, stale e s -> negb (r_started s) || negb (r_pid s =? e_pid e) = true).
    { intros s [K|K]; [rewrite K; reflexivity|]. apply Z.eqb_neq in K. rewrite K. apply orb_true_r. }
    rewrite !K by auto. rewrite D. reflexivity. }
  unfold torsion_getrandom, torsion_random, torsion_uniform. rewrite E. auto.
Qed.
(* and the parent continues with its own state *)
Theorem C48_same_pid e s : r_started s = true -> r_pid s = e_pid e -> rng_global_init e s = (true, s).
Proof. intros A B. unfold rng_global_init. rewrite A, B, Z.eqb_refl. reflexivity. Qed.
Theorem C48_started e s s' : rng_global_init e s = (true, s') -> r_started s' = true /\ r_pid s' = e_pid e.
Proof.
  unfold rng_global_init. destruct (r_started s) eqn:E1; cbn [negb orb].
  - destruct (Z.eqb_spec (r_pid s) (e_pid e)) as [E|E]; cbn [negb].
    + intros H. assert (s' = s) by congruence. subst. auto.
    + destruct (rng_init e (r_drawn s)); [|discriminate]. intros H. apply (f_equal snd) in H. cbn [snd] in H. subst s'. auto.
  - destruct (rng_init e (r_drawn s)); [|discriminate]. intros H. apply (f_equal snd) in H. cbn [snd] in H. subst s'. auto.
Qed.
Example C48_fork_ex :
  let s := snd (torsion_random ex_hw ex_env (rng_zero 0)) in
  rng_global_init ex_env s = (true, s) /\ stale (mkEnv 8 true (Some (repeat 2 64)) None true) s.
Proof. vm_compute. split; [reflexivity|]. right. discriminate. Qed.

(* the axioms of every theorem above, listed at once *)
Definition RandProps_all := (@C47_unbiased, @C47_half, @C47_uniform, @C47_range, @C47_terminates, @C48_each_word_once, @C48_queue, @C48_erased, @C48_seed,
  @C48_fork, @C48_same_pid, @C48_started).
Print Assumptions RandProps_all.
