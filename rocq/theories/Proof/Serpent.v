(* Serpent: the bitsliced boxes are the published S-boxes; decryption inverts encryption *)
From Verif.Base Require Import Prelude.
From Verif.Model Require Import Encoding Bio Util Hash Blowfish Ciphers64 Ciphers128.
From Verif.Spec Require Import SerpentSpec.
From Verif.Proof Require Import BioProof BlowfishProof FinInv CipherGen.

Lemma ones_bit i : 0 <= i < 32 -> Z.testbit 0xffffffff i = true.
Proof. intros H. change 0xffffffff with (Z.ones 32). rewrite Z.ones_spec_iff; lia. Qed.
Lemma ones_high i : 32 <= i -> Z.testbit 0xffffffff i = false.
Proof. intros H. change 0xffffffff with (Z.ones 32). apply Z.ones_spec_high. lia. Qed.
(* the box acts on each of the 32 nibbles as the table does, and makes words *)
Definition bitsliced (f : quad -> quad) (t : list Z) : Prop :=
  forall a b c d i, (0 <= i < 32 -> nibble (f (a, b, c, d)) i = rd t (Z.to_nat (nibble (a, b, c, d) i))) /\
    (32 <= i -> word a -> word b -> word c -> word d -> nibble (f (a, b, c, d)) i = 0).
Lemma bit_xor a b i x y : Z.testbit a i = x -> Z.testbit b i = y -> Z.testbit (Z.lxor a b) i = xorb x y.
Proof. intros <- <-. apply Z.lxor_spec. Qed.
Lemma bit_and a b i x y : Z.testbit a i = x -> Z.testbit b i = y -> Z.testbit (Z.land a b) i = andb x y.
Proof. intros <- <-. apply Z.land_spec. Qed.
Lemma bit_or a b i x y : Z.testbit a i = x -> Z.testbit b i = y -> Z.testbit (Z.lor a b) i = orb x y.
Proof. intros <- <-. apply Z.lor_spec. Qed.
(* name the value of each let with its bit i *)
Ltac bit_of i e H := eassert (Z.testbit e i = _) as H by (unfold not_w; repeat first [eassumption | eapply bit_xor | eapply bit_and | eapply bit_or]); cbv beta delta [xorb andb orb] iota in H.
Ltac sb_step i :=
  match goal with |- nibble (let x := ?e in @?k x) i = ?r =>
    first [is_var e; change (nibble (k e) i = r); cbv beta |
    let H := fresh "H" in let v := fresh "v" in bit_of i e H; change (nibble (k e) i = r); generalize dependent e; intros v H; cbv beta]
  end.
Ltac sb_end i :=
  match goal with |- nibble (?a, ?b, ?c, ?d) i = _ =>
    unfold nibble; repeat match goal with H : Z.testbit _ i = _ |- _ => rewrite H; clear H end; reflexivity end.
Ltac bit_case i a := let H := fresh "H" in destruct (Z.testbit a i) eqn:H.
Tactic Notation "sb_bits" reference(f) :=
  intros a b c d i; split;
  [ intros Hi; pose proof (ones_bit i Hi) as HO; bit_case i a; bit_case i b; bit_case i c; bit_case i d;
    cbv beta iota delta [f]; repeat sb_step i; sb_end i
  | intros Hi Wa Wb Wc Wd; pose proof (ones_high i Hi) as HO; 
    pose proof (word_high a i Wa Hi); pose proof (word_high b i Wb Hi); pose proof (word_high c i Wc Hi); pose proof (word_high d i Wd Hi);
    cbv beta iota delta [f]; repeat sb_step i; sb_end i ].
Definition invert (t : list Z) : list Z := map (fun y => fold_left (fun a p => if snd p =? y then Z.of_nat (fst p) else a) (combine (seq 0 16) t) 0) (zseq 0 16).
Lemma sb0_bits : bitsliced serpent_sb0 sbox0.
Proof. sb_bits serpent_sb0. Qed.
Lemma sb0inv_bits : bitsliced serpent_sb0inv (invert sbox0).
Proof. sb_bits serpent_sb0inv. Qed.
Lemma sb1_bits : bitsliced serpent_sb1 sbox1.
Proof. sb_bits serpent_sb1. Qed.
Lemma sb1inv_bits : bitsliced serpent_sb1inv (invert sbox1).
Proof. sb_bits serpent_sb1inv. Qed.
Lemma sb2_bits : bitsliced serpent_sb2 sbox2.
Proof. sb_bits serpent_sb2. Qed.
Lemma sb2inv_bits : bitsliced serpent_sb2inv (invert sbox2).
Proof. sb_bits serpent_sb2inv. Qed.
Lemma sb3_bits : bitsliced serpent_sb3 sbox3.
Proof. sb_bits serpent_sb3. Qed.
Lemma sb3inv_bits : bitsliced serpent_sb3inv (invert sbox3).
Proof. sb_bits serpent_sb3inv. Qed.
Lemma sb4_bits : bitsliced serpent_sb4 sbox4.
Proof. sb_bits serpent_sb4. Qed.
Lemma sb4inv_bits : bitsliced serpent_sb4inv (invert sbox4).
Proof. sb_bits serpent_sb4inv. Qed.
Lemma sb5_bits : bitsliced serpent_sb5 sbox5.
Proof. sb_bits serpent_sb5. Qed.
Lemma sb5inv_bits : bitsliced serpent_sb5inv (invert sbox5).
Proof. sb_bits serpent_sb5inv. Qed.
Lemma sb6_bits : bitsliced serpent_sb6 sbox6.
Proof. sb_bits serpent_sb6. Qed.
Lemma sb6inv_bits : bitsliced serpent_sb6inv (invert sbox6).
Proof. sb_bits serpent_sb6inv. Qed.
Lemma sb7_bits : bitsliced serpent_sb7 sbox7.
Proof. sb_bits serpent_sb7. Qed.
Lemma sb7inv_bits : bitsliced serpent_sb7inv (invert sbox7).
Proof. sb_bits serpent_sb7inv. Qed.

Lemma nibble_inj x y i : nibble x i = nibble y i ->
  let '(a, b, c, d) := x in let '(a', b', c', d') := y in
  Z.testbit a i = Z.testbit a' i /\ Z.testbit b i = Z.testbit b' i /\ Z.testbit c i = Z.testbit c' i /\ Z.testbit d i = Z.testbit d' i.
Proof.
  destruct x as [[[a b] c] d], y as [[[a' b'] c'] d']. unfold nibble.
  destruct (Z.testbit a i), (Z.testbit b i), (Z.testbit c i), (Z.testbit d i), (Z.testbit a' i), (Z.testbit b' i), (Z.testbit c' i), (Z.testbit d' i);
    cbn; intros E; repeat split; first [reflexivity | discriminate E].
Qed.
Lemma nibble_range x i : 0 <= nibble x i < 16.
Proof. destruct x as [[[a b] c] d]. unfold nibble. destruct (Z.testbit a i), (Z.testbit b i), (Z.testbit c i), (Z.testbit d i); cbn; lia. Qed.
Lemma bitsliced_word f t x : bitsliced f t -> wquad x -> wquad (f x).
Proof.
  intros B. destruct x as [[[a b] c] d]. intros (Wa & Wb & Wc & Wd). pose proof (B a b c d) as H. destruct (f (a, b, c, d)) as [[[a' b'] c'] d'].
  assert (E : forall i, 32 <= i -> Z.testbit a' i = false /\ Z.testbit b' i = false /\ Z.testbit c' i = false /\ Z.testbit d' i = false).
  { intros i Hi. destruct (H i) as [_ H2]. specialize (H2 Hi Wa Wb Wc Wd). unfold nibble in H2.
    destruct (Z.testbit a' i), (Z.testbit b' i), (Z.testbit c' i), (Z.testbit d' i); cbn in H2; auto; lia. }
  repeat split; try (apply word_bits; intros i Hi; apply (E i Hi)).
Qed.
Lemma bitsliced_inverse f g t u : bitsliced f t -> bitsliced g u -> forallb (fun n => rd u (Z.to_nat (rd t (Z.to_nat n))) =? n) (zseq 0 16) = true ->
  forall x, wquad x -> wquad (f x) /\ g (f x) = x.
Proof.
  intros Bf Bg C x W. pose proof (bitsliced_word f t x Bf W) as Wf. split; [exact Wf|]. pose proof (bitsliced_word g u _ Bg Wf) as Wg.
  assert (N : forall i, 0 <= i < 32 -> nibble (g (f x)) i = nibble x i).
  { intros i Hi. destruct (f x) as [[[a' b'] c'] d'] eqn:Ef. rewrite (proj1 (Bg a' b' c' d' i) Hi). rewrite <- Ef. destruct x as [[[a b] c] d].
    rewrite (proj1 (Bf a b c d i) Hi). pose proof (nibble_range (a, b, c, d) i) as R. pose proof (forall_zseq (fun n => rd u (Z.to_nat (rd t (Z.to_nat n))) =? n) 0 16 C) as Q.
    apply Z.eqb_eq. apply (Q (nibble (a, b, c, d) i)). lia. }
  destruct (g (f x)) as [[[a' b'] c'] d']. destruct x as [[[a b] c] d].
  assert (M : forall i, 0 <= i < 32 -> Z.testbit a' i = Z.testbit a i /\ Z.testbit b' i = Z.testbit b i /\ Z.testbit c' i = Z.testbit c i /\ Z.testbit d' i = Z.testbit d i).
  { intros i Hi. exact (nibble_inj (a', b', c', d') (a, b, c, d) i (N i Hi)). }
  destruct W as (W1 & W2 & W3 & W4), Wg as (V1 & V2 & V3 & V4).
  rewrite (word_eq a' a V1 W1) by (intros i Hi; apply (M i Hi)). rewrite (word_eq b' b V2 W2) by (intros i Hi; apply (M i Hi)).
  rewrite (word_eq c' c V3 W3) by (intros i Hi; apply (M i Hi)). rewrite (word_eq d' d V4 W4) by (intros i Hi; apply (M i Hi)). reflexivity.
Qed.
Lemma sb0_inv x : wquad x -> wquad (serpent_sb0 x) /\ serpent_sb0inv (serpent_sb0 x) = x.
Proof. apply (bitsliced_inverse _ _ _ _ sb0_bits sb0inv_bits). vm_compute. reflexivity. Qed.
Lemma sb1_inv x : wquad x -> wquad (serpent_sb1 x) /\ serpent_sb1inv (serpent_sb1 x) = x.
Proof. apply (bitsliced_inverse _ _ _ _ sb1_bits sb1inv_bits). vm_compute. reflexivity. Qed.
Lemma sb2_inv x : wquad x -> wquad (serpent_sb2 x) /\ serpent_sb2inv (serpent_sb2 x) = x.
Proof. apply (bitsliced_inverse _ _ _ _ sb2_bits sb2inv_bits). vm_compute. reflexivity. Qed.
Lemma sb3_inv x : wquad x -> wquad (serpent_sb3 x) /\ serpent_sb3inv (serpent_sb3 x) = x.
Proof. apply (bitsliced_inverse _ _ _ _ sb3_bits sb3inv_bits). vm_compute. reflexivity. Qed.
Lemma sb4_inv x : wquad x -> wquad (serpent_sb4 x) /\ serpent_sb4inv (serpent_sb4 x) = x.
Proof. apply (bitsliced_inverse _ _ _ _ sb4_bits sb4inv_bits). vm_compute. reflexivity. Qed.
Lemma sb5_inv x : wquad x -> wquad (serpent_sb5 x) /\ serpent_sb5inv (serpent_sb5 x) = x.
Proof. apply (bitsliced_inverse _ _ _ _ sb5_bits sb5inv_bits). vm_compute. reflexivity. Qed.
Lemma sb6_inv x : wquad x -> wquad (serpent_sb6 x) /\ serpent_sb6inv (serpent_sb6 x) = x.
Proof. apply (bitsliced_inverse _ _ _ _ sb6_bits sb6inv_bits). vm_compute. reflexivity. Qed.
Lemma sb7_inv x : wquad x -> wquad (serpent_sb7 x) /\ serpent_sb7inv (serpent_sb7 x) = x.
Proof. apply (bitsliced_inverse _ _ _ _ sb7_bits sb7inv_bits). vm_compute. reflexivity. Qed.

Lemma linear_inv x : wquad x -> wquad (serpent_linear x) /\ serpent_linearinv (serpent_linear x) = x.
Proof.
  destruct x as [[[v0 v1] v2] v3]. intros (W0 & W1 & W2 & W3). unfold serpent_linear.
  assert (A0 : word (rotl32 v0 13)) by (apply word_rotl; [exact W0|lia]). assert (A2 : word (rotl32 v2 3)) by (apply word_rotl; [exact W2|lia]).
  remember (rotl32 v0 13) as t0 eqn:E0. remember (rotl32 v2 3) as t2 eqn:E2.
  assert (A1 : word (Z.lxor (Z.lxor v1 t0) t2)) by (repeat apply word_xor; assumption).
  assert (A3 : word (Z.lxor (Z.lxor v3 t2) (shl32 t0 3))) by (repeat apply word_xor; auto using word_shl).
  cbv zeta. remember (Z.lxor (Z.lxor v1 t0) t2) as t1 eqn:E1. remember (Z.lxor (Z.lxor v3 t2) (shl32 t0 3)) as t3 eqn:E3.
  assert (B1 : word (rotl32 t1 1)) by (apply word_rotl; [exact A1|lia]). assert (B3 : word (rotl32 t3 7)) by (apply word_rotl; [exact A3|lia]).
  assert (C0 : word (Z.lxor t0 (Z.lxor (rotl32 t1 1) (rotl32 t3 7)))) by (repeat apply word_xor; assumption).
  assert (C2 : word (Z.lxor t2 (Z.lxor (rotl32 t3 7) (shl32 (rotl32 t1 1) 7)))) by (repeat apply word_xor; auto using word_shl).
  split; [repeat split; try assumption; try (apply B1); try (apply B3); try (apply word_rotl; [assumption|lia])|].
  unfold serpent_linearinv. cbv zeta. rewrite !rotr_rotl by (try assumption; lia). rewrite !xx.
  rewrite E3 at 1. rewrite E1 at 1. rewrite E0 at 1. rewrite E2 at 1.
  assert (F3 : Z.lxor (Z.lxor t3 t2) (shl32 t0 3) = v3).
  { rewrite E3. rewrite (Z.lxor_assoc _ t2), (Z.lxor_comm t2), <- Z.lxor_assoc, xx. apply xx. }
  assert (F1 : Z.lxor (Z.lxor t1 t0) t2 = v1).
  { rewrite E1. rewrite (Z.lxor_assoc _ t0 t2), (Z.lxor_comm t0 t2), <- Z.lxor_assoc, xx. apply xx. }
  rewrite <- E0, <- E2, <- E1, <- E3, F3, F1, E0, E2, !rotr_rotl by (try assumption; lia). reflexivity.
Qed.
Lemma xor_q_inv x k : wquad k -> wquad x -> wquad (xor_q x k) /\ xor_q (xor_q x k) k = x.
Proof.
  destruct x as [[[a b] c] d], k as [[[k0 k1] k2] k3]. intros (K0 & K1 & K2 & K3) (W0 & W1 & W2 & W3). unfold xor_q. rewrite !xx.
  split; [|reflexivity]. repeat split; try (apply word_xor; assumption); apply word_xor; assumption.
Qed.
Lemma xor4_inv sk i0 i1 i2 i3 x : Forall word sk -> wquad x -> wquad (serpent_xor4 sk i0 i1 i2 i3 x) /\ serpent_xor4 sk i0 i1 i2 i3 (serpent_xor4 sk i0 i1 i2 i3 x) = x.
Proof. intros K. apply xor_q_inv. repeat split; try (apply (rd_all word); [exact K|apply word_0]); apply (rd_all word sk _ K word_0). Qed.
Theorem serpent_words sk x : Forall word sk -> wquad x -> wquad (pipe (serpent_encrypt_steps sk) x) /\ pipe (serpent_decrypt_steps sk) (pipe (serpent_encrypt_steps sk) x) = x.
Proof.
  intros K. apply pipe_inverse. cbn [rev serpent_encrypt_steps serpent_decrypt_steps app].
  assert (HX : forall a b c d x, wquad x -> wquad (serpent_xor4 sk a b c d x) /\ serpent_xor4 sk a b c d (serpent_xor4 sk a b c d x) = x) by (intros; apply xor4_inv; assumption).
  repeat (apply Forall2_cons; [first [apply HX | exact linear_inv | exact sb0_inv | exact sb1_inv | exact sb2_inv | exact sb3_inv | exact sb4_inv | exact sb5_inv | exact sb6_inv | exact sb7_inv]|]).
  apply Forall2_nil.
Qed.
(* the key schedule makes words *)
Lemma expand_words n : forall i k, 0 <= i -> i + Z.of_nat n <= 2 ^ 32 -> Forall word k -> Forall word (serpent_expand n i k).
Proof.
  induction n as [|n IH]; intros i k H0 Hi Hk; [exact Hk|]. cbn [serpent_expand]. apply IH; [lia|lia|]. apply Forall_app. split; [exact Hk|]. constructor; [|constructor].
  apply word_rotl; [|lia]. repeat apply word_xor; try (apply (rd_all word k _ Hk word_0)); unfold word, serpent_phi, M32; lia.
Qed.
Lemma sb_word n x : wquad x -> wquad (serpent_sb n x).
Proof.
  intros W. unfold serpent_sb.
  do 8 (destruct n as [|n]; [cbn [nth]; first [apply (sb0_inv x W) | apply (sb1_inv x W) | apply (sb2_inv x W) | apply (sb3_inv x W) | apply (sb4_inv x W) | apply (sb5_inv x W) | apply (sb6_inv x W) | apply (sb7_inv x W)]|]).
  cbn [nth]. destruct n; apply (sb0_inv x W).
Qed.
Lemma init_words bits key sk : bytes key -> serpent_init bits key = Ok sk -> Forall word sk.
Proof.
  intros Hk. unfold serpent_init. destruct (negb _); [discriminate|]. intros E. apply Ok_inj in E. subst sk.
  set (k0 := map (fun i => read32le (skipn (4 * i) key)) (seq 0 (Z.to_nat (bits / 32)))).
  assert (H0 : Forall word k0). { apply Forall_forall. intros x Hx. apply in_map_iff in Hx. destruct Hx as (i & <- & _). apply read32le_range, bytes_skipn, Hk. }
  set (k1 := if (Z.to_nat (bits / 32) <? 8)%nat then k0 ++ [1] else k0).
  assert (H1 : Forall word k1). { unfold k1. destruct (_ <? _)%nat; [|exact H0]. apply Forall_app. split; [exact H0|]. constructor; [unfold word, M32; lia|constructor]. }
  assert (H2 : Forall word (k1 ++ repeat 0 (8 - length k1))). { apply Forall_app. split; [exact H1|]. apply Forall_forall. intros x Hx. apply repeat_spec in Hx. subst x. apply word_0. }
  assert (H3 : Forall word (skipn 8 (serpent_expand 132 0 (k1 ++ repeat 0 (8 - length k1))))).
  { assert (Q : Forall word (serpent_expand 132 0 (k1 ++ repeat 0 (8 - length k1)))) by (apply expand_words; [lia|lia|exact H2]).
    rewrite <- (firstn_skipn 8) in Q. apply Forall_app in Q. apply Q. }
  generalize dependent (skipn 8 (serpent_expand 132 0 (k1 ++ repeat 0 (8 - length k1)))). intros s Hs.
  apply Forall_flat_map. apply Forall_forall. intros [i n] _. cbn [fst snd].
  assert (W : wquad (serpent_sb n (get4 s (4 * i)))). { apply sb_word. repeat split; try (apply (rd_all word s _ Hs word_0)). }
  destruct (serpent_sb n (get4 s (4 * i))) as [[[a b] c] d]. destruct W as (W0 & W1 & W2 & W3). cbn [list4]. repeat constructor; first [apply W0|apply W1|apply W2|apply W3].
Qed.
Theorem serpent_roundtrip bits key sk src : bytes key -> serpent_init bits key = Ok sk -> bytes src -> length src = 16%nat ->
  serpent_decrypt sk (serpent_encrypt sk src) = src /\ serpent_encrypt sk (serpent_decrypt sk src) = src.
Proof.
  intros Hk E. apply (block_inverse 16 wquad (ld4 read32le) (st4 write32le) (pipe (serpent_encrypt_steps sk)) (pipe (serpent_decrypt_steps sk))).
  - apply fmt_ld4, fmt32le.
  - intros x W. apply serpent_words; [exact (init_words bits key sk Hk E)|exact W].
Qed.
