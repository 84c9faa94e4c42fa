(* C17-C20: stream ciphers *)
From Coq Require Import Permutation.
From Verif.Base Require Import Prelude.
From Verif.Model Require Import Bio Util Stream.
From Verif.Spec Require Import StreamSpec.
From Verif.Proof Require Import BufCrypt StreamProof StreamInit.
#[local] Ltac Zify.zify_post_hook ::= idtac.

Definition key16 : list Z := zseq 1 16.
Definition key32 : list Z := zseq 0 32.

(* ---- C17 ---- *)
(* Any two ways of cutting a message into calls give the same bytes. *)
Theorem C17_arc4_chunks (c : arc4) ch1 ch2 : concat ch1 = concat ch2 ->
  calls arc4_crypt c ch1 = calls arc4_crypt c ch2.
Proof.
  assert (K : forall ch c, calls arc4_crypt c ch = arc4_crypt c (concat ch)).
  { induction ch as [|m t IH]; intros d; cbn [calls concat]; [reflexivity|].
    rewrite arc4_app. destruct (arc4_crypt d m) as [o d1]. cbn [fst snd]. rewrite IH.
    destruct (arc4_crypt d1 (concat t)). reflexivity. }
  intros E. rewrite !K, E. reflexivity.
Qed.
Theorem C17_arc4_inverse (c : arc4) m : fst (arc4_crypt c (fst (arc4_crypt c m))) = m.
Proof. apply arc4_invol. Qed.
Example C17_arc4_ex : match arc4_init [1; 2; 3; 4; 5] with
  | Some c => fst (calls arc4_crypt c [[10]; []; [20; 30]]) = [184; 45; 125] /\ fst (arc4_crypt c [184; 45; 125]) = [10; 20; 30]
  | None => False end.
Proof. vm_compute. auto. Qed.

Theorem C17_chacha20_chunks key nonce ctr c ch1 ch2 : bytes key -> bytes nonce ->
  chacha20_init key nonce ctr = Some c -> concat ch1 = concat ch2 ->
  fst (calls chacha20_crypt c ch1) = fst (calls chacha20_crypt c ch2).
Proof.
  intros Hk Hn E EC. destruct (cc_init_fresh _ _ _ _ Hk Hn E) as [-> W]. rewrite !cc_out by auto. rewrite EC. reflexivity.
Qed.
Theorem C17_salsa20_chunks key nonce ctr c ch1 ch2 : bytes key -> bytes nonce ->
  salsa20_init key nonce ctr = Some c -> concat ch1 = concat ch2 ->
  fst (calls salsa20_crypt c ch1) = fst (calls salsa20_crypt c ch2).
Proof.
  intros Hk Hn E EC. destruct (sa_init_fresh _ _ _ _ Hk Hn E) as [-> W]. rewrite !sa_out by auto. rewrite EC. reflexivity.
Qed.
(* Running again from the same initial state on the ciphertext, in any chunks,
   restores the plaintext. *)
Theorem C17_chacha20_inverse key nonce ctr c ch1 ch2 : bytes key -> bytes nonce ->
  chacha20_init key nonce ctr = Some c -> concat ch2 = fst (calls chacha20_crypt c ch1) ->
  fst (calls chacha20_crypt c ch2) = concat ch1.
Proof.
  intros Hk Hn E EC. destruct (cc_init_fresh _ _ _ _ Hk Hn E) as [EF W]. rewrite EF in *.
  rewrite cc_out by auto. rewrite EC. rewrite cc_out by auto. set (m := concat ch1).
  rewrite xorl_length, ks_seg_length, Nat.min_id. apply xorl_involutive. rewrite ks_seg_length. lia.
Qed.
Theorem C17_salsa20_inverse key nonce ctr c ch1 ch2 : bytes key -> bytes nonce ->
  salsa20_init key nonce ctr = Some c -> concat ch2 = fst (calls salsa20_crypt c ch1) ->
  fst (calls salsa20_crypt c ch2) = concat ch1.
Proof.
  intros Hk Hn E EC. destruct (sa_init_fresh _ _ _ _ Hk Hn E) as [EF W]. rewrite EF in *.
  rewrite sa_out by auto. rewrite EC. rewrite sa_out by auto. set (m := concat ch1).
  rewrite xorl_length, ks_seg_length, Nat.min_id. apply xorl_involutive. rewrite ks_seg_length. lia.
Qed.
Example C17_chacha20_ex : match chacha20_init key32 (repeat 7 12) 1 with
  | Some c => let m := zseq 0 150 in
     fst (calls chacha20_crypt c [firstn 3 m; []; firstn 61 (skipn 3 m); skipn 64 m]) = fst (chacha20_crypt c m) /\
     fst (chacha20_crypt c (fst (chacha20_crypt c m))) = m /\ fst (chacha20_crypt c m) <> m
  | None => False end.
Proof. vm_compute. repeat split; congruence. Qed.

(* ---- C18 ---- *)
Theorem C18_arc4_permutation key c chunks : arc4_init key = Some c ->
  let c' := snd (calls arc4_crypt c chunks) in
  Permutation (a_s c') (zseq 0 256) /\ 0 <= a_i c' < 256 /\ 0 <= a_j c' < 256.
Proof.
  intros E. apply arc4_init_inv in E. revert c E. induction chunks as [|m t IH]; intros c E; [exact E|].
  cbn [calls]. pose proof (arc4_crypt_inv m c E) as H. destruct (arc4_crypt c m) as [o c1]. cbn [snd] in H.
  specialize (IH c1 H). destruct (calls arc4_crypt c1 t). exact IH.
Qed.
Theorem C18_arc4_accepts key : (exists c, arc4_init key = Some c) <-> (1 <= length key <= 256)%nat.
Proof.
  unfold arc4_init. generalize (arc4_ksa 256 0 0 (zseq 0 256) key). intros s.
  destruct (Nat.leb_spec 1 (length key)), (Nat.leb_spec (length key) 256); cbn [andb negb];
    (split; [intros [c E]; (discriminate || lia)|intros; (lia || eexists; reflexivity)]).
Qed.
Example C18_ex : match arc4_init key16 with
  | Some c => firstn 6 (a_s (snd (arc4_crypt c (repeat 0 5)))) = [1; 101; 99; 107; 19; 205]
  | None => False end.
Proof. vm_compute. reflexivity. Qed.

(* ---- C19 ---- *)
(* Initialisation succeeds exactly for 16- or 32-byte keys and 8, 12, 16, 24, 28
   or 32-byte nonces. *)
Theorem C19_chacha20_accepts key nonce ctr :
  (exists c, chacha20_init key nonce ctr = Some c) <->
  (length key = 16%nat \/ length key = 32%nat) /\ In (length nonce) [8; 12; 16; 24; 28; 32]%nat.
Proof. rewrite cc_init_some, key_ok_iff. reflexivity. Qed.

(* 8-byte nonce: block i of the keystream is the ChaCha20 block for the 64-bit
   counter value counter + i (reduced mod 2^64 by split64). *)
Theorem C19_chacha20_nonce8 key nonce ctr c chunks : bytes key -> bytes nonce -> length nonce = 8%nat ->
  0 <= ctr < 2 ^ 64 -> chacha20_init key nonce ctr = Some c ->
  fst (calls chacha20_crypt c chunks) =
  xorl (concat chunks) (ks_seg (fun i => cha_block64 key nonce (ctr + Z.of_nat i)) 0 (length (concat chunks))).
Proof. rewrite <- M64_eq. apply cc_out8. Qed.
Example C19_nonce8_ex :
  match chacha20_init key32 (zseq 0 8) (2 ^ 32 - 1) with
  | Some c => skipn 64 (fst (chacha20_crypt c (repeat 0 128))) = cha_block64 key32 (zseq 0 8) (2 ^ 32)
  | None => False end.
Proof. vm_compute. reflexivity. Qed.

(* 12-byte nonce: the RFC 8439 keystream, until the 32-bit counter overflows. *)
Theorem C19_chacha20_nonce12 key nonce ctr c chunks : bytes key -> bytes nonce -> length nonce = 12%nat ->
  chacha20_init key nonce ctr = Some c ->
  Z.of_nat (length (concat chunks)) < 64 * (2 ^ 32 - ctr mod 2 ^ 32) ->
  fst (calls chacha20_crypt c chunks) =
  xorl (concat chunks) (ks_seg (fun i => cha_block32 key nonce (ctr mod 2 ^ 32 + Z.of_nat i)) 0 (length (concat chunks))).
Proof. rewrite <- M32_eq. apply cc_out12. Qed.
Example C19_nonce12_ex :
  match chacha20_init key32 [0;0;0;9;0;0;0;0x4a;0;0;0;0] 1 with
  | Some c => fst (chacha20_crypt c (repeat 0 64)) = cha_block32 key32 [0;0;0;9;0;0;0;0x4a;0;0;0;0] 1 /\
      firstn 4 (cha_block32 key32 [0;0;0;9;0;0;0;0x4a;0;0;0;0] 1) = [0x10;0xf1;0xe7;0xe4]
  | None => False end.
Proof. vm_compute. auto. Qed.

(* When the 32-bit counter overflows it carries into the nonce: two different
   12-byte nonces then share keystream. *)
Theorem C19_nonce12_overflow_refuted : exists key n1 n2 c1 c2,
  length n1 = 12%nat /\ length n2 = 12%nat /\ n1 <> n2 /\
  chacha20_init key n1 (2 ^ 32 - 1) = Some c1 /\ chacha20_init key n2 0 = Some c2 /\
  skipn 64 (fst (chacha20_crypt c1 (repeat 0 128))) = fst (chacha20_crypt c2 (repeat 0 64)).
Proof.
  exists (repeat 0 32), (repeat 0 12), (1 :: repeat 0 11),
    (match chacha20_init (repeat 0 32) (repeat 0 12) (2 ^ 32 - 1) with Some c => c | None => mkS [] [] 0 end),
    (match chacha20_init (repeat 0 32) (1 :: repeat 0 11) 0 with Some c => c | None => mkS [] [] 0 end).
  split; [reflexivity|]. split; [reflexivity|]. split; [discriminate|]. vm_compute. auto.
Qed.

(* 16-byte nonce: its first eight bytes are the initial counter; the counter
   argument is ignored. *)
Theorem C19_chacha20_nonce16 key nonce ctr c chunks : bytes key -> bytes nonce -> length nonce = 16%nat ->
  chacha20_init key nonce ctr = Some c ->
  fst (calls chacha20_crypt c chunks) =
  xorl (concat chunks) (ks_seg (fun i => cha_block64 key (skipn 8 nonce) (le_val (firstn 8 nonce) + Z.of_nat i)) 0
                          (length (concat chunks))).
Proof. apply cc_out16. Qed.

(* Longer nonces: HChaCha20 of the first 16 bytes is the key, the rest the nonce. *)
Theorem C19_xchacha20 key nonce ctr : bytes key -> bytes nonce -> (length key = 16 \/ length key = 32)%nat ->
  (24 <= length nonce <= 32)%nat ->
  chacha20_init key nonce ctr = chacha20_init (hchacha key (firstn 16 nonce)) (skipn 16 nonce) ctr.
Proof. intros Hk Hn Hl. apply cc_init_x; auto. apply key_ok_iff. auto. Qed.
(* draft-irtf-cfrg-xchacha 2.2.1 *)
Example C19_hchacha_ex : firstn 8 (hchacha key32 [0;0;0;9;0;0;0;0x4a;0;0;0;0;0x31;0x41;0x59;0x27]) =
  [0x82;0x41;0x3b;0x42;0x27;0xb2;0x7b;0xfe].
Proof. vm_compute. reflexivity. Qed.

(* The rounds are a permutation of the word states: no two block inputs are
   mapped to the same value. *)
Theorem C19_rounds_injective x y :
  Forall (fun w => 0 <= w < 2 ^ 32) x -> length x = 16%nat -> Forall (fun w => 0 <= w < 2 ^ 32) y -> length y = 16%nat ->
  times 10 cc_dround x = times 10 cc_dround y -> x = y.
Proof. intros Hx Lx Hy Ly. apply (times_winj 10 cc_dround cc_dround_winj); split; auto. Qed.

(* ---- C20 ---- *)
(* 8-byte nonces: block i is the Salsa20 block for counter + i, *)
Theorem C20_salsa20_nonce8 key nonce ctr c chunks : bytes key -> bytes nonce -> length nonce = 8%nat ->
  0 <= ctr < 2 ^ 64 -> salsa20_init key nonce ctr = Some c ->
  fst (calls salsa20_crypt c chunks) =
  xorl (concat chunks) (ks_seg (fun i => sal_block64 key nonce (ctr + Z.of_nat i)) 0 (length (concat chunks))).
Proof. rewrite <- M64_eq. apply sa_out8. Qed.
(* the block inputs of two contexts with distinct nonces never coincide, *)
Theorem C20_salsa20_distinct key n1 n2 ctr1 ctr2 c1 c2 i j : bytes key -> bytes n1 -> bytes n2 ->
  length n1 = 8%nat -> length n2 = 8%nat -> n1 <> n2 ->
  salsa20_init key n1 ctr1 = Some c1 -> salsa20_init key n2 ctr2 = Some c2 ->
  Nat.iter i sa_next (s_state c1) <> Nat.iter j sa_next (s_state c2).
Proof.
  intros Hk H1 H2 L1 L2 N E1 E2 E. apply N.
  destruct (sa_init_fresh _ _ _ _ Hk H1 E1) as [_ W1]. destruct (sa_init_fresh _ _ _ _ Hk H2 E2) as [_ W2].
  rewrite !sa_iter in E by auto.
  rewrite sa_init_short in E1 by lia. rewrite sa_init_short in E2 by lia.
  destruct (negb (key_ok key)); [discriminate|]. unfold sa_mid in *. rewrite L1 in E1. rewrite L2 in E2. cbn [Nat.eqb] in *.
  apply some_inj in E1, E2. subst c1 c2. cbn [s_state fresh] in E. unfold sa_state in E.
  rewrite !set64_sa in E by reflexivity.
  apply read8_inj; auto; [exact (f_equal (fun l => nth 6 l 0) E)|exact (f_equal (fun l => nth 7 l 0) E)].
Qed.
(* and those of one context do not repeat within 2^64 blocks. *)
Theorem C20_salsa20_period key nonce ctr c i j : bytes key -> bytes nonce -> length nonce = 8%nat ->
  salsa20_init key nonce ctr = Some c -> Z.of_nat i < 2 ^ 64 -> Z.of_nat j < 2 ^ 64 ->
  Nat.iter i sa_next (s_state c) = Nat.iter j sa_next (s_state c) -> i = j.
Proof.
  intros Hk Hn L E Hi Hj EQ. destruct (sa_init_fresh _ _ _ _ Hk Hn E) as [_ W]. rewrite !sa_iter in EQ by auto.
  set (v := ctr64 (s_state c) 8 9) in *.
  rewrite sa_init_short in E by lia. destruct (negb (key_ok key)); [discriminate|].
  unfold sa_mid in E. rewrite L in E. cbn [Nat.eqb] in E. apply some_inj in E. subst c. cbn [s_state fresh] in EQ.
  unfold sa_state in EQ. rewrite !set64_sa in EQ by reflexivity.
  assert (ES : split64 (v + Z.of_nat i) = split64 (v + Z.of_nat j)).
  { unfold split64. f_equal; [exact (f_equal (fun l => nth 8 l 0) EQ)|]. f_equal. exact (f_equal (fun l => nth 9 l 0) EQ). }
  apply split64_inj in ES. rewrite M64_eq in ES.
  assert (E2 : (v + Z.of_nat i - v) mod 2 ^ 64 = (v + Z.of_nat j - v) mod 2 ^ 64)
    by (rewrite Zminus_mod, ES, <- Zminus_mod; reflexivity).
  rewrite !Z.add_simpl_l, !Z.mod_small in E2 by lia. lia.
Qed.
Example C20_ex : match salsa20_init key32 (zseq 0 8) 5 with
  | Some c => firstn 64 (fst (salsa20_crypt c (repeat 0 65))) = sal_block64 key32 (zseq 0 8) 5
  | None => False end.
Proof. vm_compute. reflexivity. Qed.

(* 12-byte nonces: the increment hits the last nonce word, so consecutive
   nonces give the same keystream shifted by one block. *)
Theorem C20_salsa20_nonce12_refuted : exists key n1 n2 c1 c2,
  length n1 = 12%nat /\ length n2 = 12%nat /\ n1 <> n2 /\
  salsa20_init key n1 0 = Some c1 /\ salsa20_init key n2 0 = Some c2 /\
  skipn 64 (fst (salsa20_crypt c1 (repeat 0 128))) = fst (salsa20_crypt c2 (repeat 0 64)).
Proof.
  exists (repeat 0 32), (repeat 0 12), (repeat 0 8 ++ [1; 0; 0; 0]),
    (match salsa20_init (repeat 0 32) (repeat 0 12) 0 with Some c => c | None => mkS [] [] 0 end),
    (match salsa20_init (repeat 0 32) (repeat 0 8 ++ [1; 0; 0; 0]) 0 with Some c => c | None => mkS [] [] 0 end).
  split; [reflexivity|]. split; [reflexivity|]. split; [discriminate|]. vm_compute. auto.
Qed.

(* 24-byte and longer nonces go through HSalsa20. *)
Theorem C20_xsalsa20 key nonce ctr : bytes key -> bytes nonce -> (length key = 16 \/ length key = 32)%nat ->
  (24 <= length nonce <= 32)%nat ->
  salsa20_init key nonce ctr = salsa20_init (hsalsa key (firstn 16 nonce)) (skipn 16 nonce) ctr.
Proof. intros Hk Hn Hl. apply sa_init_x; auto. apply key_ok_iff. auto. Qed.

(* the axioms of every theorem above, listed at once *)
Definition StreamProps_all := (@C17_arc4_chunks, @C17_arc4_inverse, @C17_chacha20_chunks, @C17_salsa20_chunks, @C17_chacha20_inverse, @C17_salsa20_inverse,
  @C18_arc4_permutation, @C18_arc4_accepts, @C19_chacha20_accepts, @C19_chacha20_nonce8, @C19_chacha20_nonce12, @C19_nonce12_overflow_refuted,
  @C19_chacha20_nonce16, @C19_xchacha20, @C19_rounds_injective, @C20_salsa20_nonce8, @C20_salsa20_distinct, @C20_salsa20_period, @C20_salsa20_nonce12_refuted,
  @C20_xsalsa20).
Print Assumptions StreamProps_all.
