(* Common imports, bytes, machine words, radix values, byte lists. *)
From Coq Require Export ZArith List Lia Bool Arith.
From Coq Require Export ZifyBool ZifyNat.
Export ListNotations.
#[global] Open Scope Z_scope.

Ltac Zify.zify_post_hook ::= Z.div_mod_to_equations.

(* ------------------------------------------------------------------ *)
(* Bytes                                                               *)
(* ------------------------------------------------------------------ *)

(* An unsigned char value. *)
Definition byte (x : Z) : Prop := 0 <= x < 256.
(* A buffer of unsigned chars. *)
Definition bytes (l : list Z) : Prop := Forall byte l.

Definition byteb (x : Z) : bool := (0 <=? x) && (x <? 256).

Lemma byteb_spec x : byteb x = true <-> byte x.
Proof. unfold byteb, byte. lia. Qed.

(* A value below [b]. *)
Definition below (b x : Z) : Prop := 0 <= x < b.

(* ------------------------------------------------------------------ *)
(* Machine words: C unsigned arithmetic, reduced explicitly             *)
(* ------------------------------------------------------------------ *)

Definition M8 : Z := 256.
Definition M16 : Z := 65536.
Definition M32 : Z := 4294967296.
Definition M64 : Z := 18446744073709551616.
Definition M128 : Z := 340282366920938463463374607431768211456.

Definition w8 (x : Z) : Z := x mod M8.
Definition w16 (x : Z) : Z := x mod M16.
Definition w32 (x : Z) : Z := x mod M32.
Definition w64 (x : Z) : Z := x mod M64.

Definition add32 (x y : Z) := w32 (x + y).
Definition sub32 (x y : Z) := w32 (x - y).
Definition mul32 (x y : Z) := w32 (x * y).
Definition shl32 (x n : Z) := w32 (Z.shiftl x n).
Definition shr (x n : Z) := Z.shiftr x n.
Definition not32 (x : Z) := M32 - 1 - x.
Definition rotl32 (x n : Z) := Z.lor (w32 (Z.shiftl x n)) (Z.shiftr x (32 - n)).
Definition rotr32 (x n : Z) := Z.lor (Z.shiftr x n) (w32 (Z.shiftl x (32 - n))).

Definition add64 (x y : Z) := w64 (x + y).
Definition sub64 (x y : Z) := w64 (x - y).
Definition mul64 (x y : Z) := w64 (x * y).
Definition shl64 (x n : Z) := w64 (Z.shiftl x n).
Definition not64 (x : Z) := M64 - 1 - x.
Definition rotl64 (x n : Z) := Z.lor (w64 (Z.shiftl x n)) (Z.shiftr x (64 - n)).
Definition rotr64 (x n : Z) := Z.lor (Z.shiftr x n) (w64 (Z.shiftl x (64 - n))).

Lemma M8_eq : M8 = 2 ^ 8. Proof. reflexivity. Qed.
Lemma M16_eq : M16 = 2 ^ 16. Proof. reflexivity. Qed.
Lemma M32_eq : M32 = 2 ^ 32. Proof. reflexivity. Qed.
Lemma M64_eq : M64 = 2 ^ 64. Proof. reflexivity. Qed.
Lemma M128_eq : M128 = 2 ^ 128. Proof. reflexivity. Qed.

Lemma w8_range x : 0 <= w8 x < M8.
Proof. apply Z.mod_pos_bound. reflexivity. Qed.
Lemma w32_range x : 0 <= w32 x < M32.
Proof. apply Z.mod_pos_bound. reflexivity. Qed.
Lemma w64_range x : 0 <= w64 x < M64.
Proof. apply Z.mod_pos_bound. reflexivity. Qed.
Lemma w8_small x : 0 <= x < M8 -> w8 x = x.
Proof. apply Z.mod_small. Qed.
Lemma w32_small x : 0 <= x < M32 -> w32 x = x.
Proof. apply Z.mod_small. Qed.
Lemma w64_small x : 0 <= x < M64 -> w64 x = x.
Proof. apply Z.mod_small. Qed.
Lemma w8_byte x : byte (w8 x).
Proof. apply w8_range. Qed.

(* ------------------------------------------------------------------ *)
(* Bit reasoning                                                       *)
(* ------------------------------------------------------------------ *)

Lemma testbit_w n m x : 0 <= n -> 0 <= m ->
  Z.testbit (x mod 2 ^ n) m = (m <? n) && Z.testbit x m.
Proof.
  intros Hn Hm. destruct (m <? n) eqn:E.
  - rewrite Z.mod_pow2_bits_low by lia. reflexivity.
  - rewrite Z.mod_pow2_bits_high by lia. reflexivity.
Qed.

Lemma testbit_w8 m x : 0 <= m -> Z.testbit (w8 x) m = (m <? 8) && Z.testbit x m.
Proof. intros. unfold w8. rewrite M8_eq, testbit_w by lia. reflexivity. Qed.
Lemma testbit_w32 m x : 0 <= m -> Z.testbit (w32 x) m = (m <? 32) && Z.testbit x m.
Proof. intros. unfold w32. rewrite M32_eq, testbit_w by lia. reflexivity. Qed.
Lemma testbit_w64 m x : 0 <= m -> Z.testbit (w64 x) m = (m <? 64) && Z.testbit x m.
Proof. intros. unfold w64. rewrite M64_eq, testbit_w by lia. reflexivity. Qed.

Lemma testbit_high x n m : 0 <= x < 2 ^ n -> n <= m -> Z.testbit x m = false.
Proof.
  intros [H0 H1] Hm.
  destruct (Z.eq_dec x 0) as [->|]; [apply Z.bits_0|].
  apply Z.bits_above_log2; [lia|].
  assert (Z.log2 x < n) by (apply Z.log2_lt_pow2; lia). lia.
Qed.

Lemma bits_below x n : 0 <= n -> (forall m, n <= m -> Z.testbit x m = false) ->
  0 <= x -> x < 2 ^ n.
Proof.
  intros Hn H Hx.
  assert (E : x = x mod 2 ^ n).
  { apply Z.bits_inj'. intros m Hm. rewrite testbit_w by lia.
    destruct (m <? n) eqn:E; [reflexivity|]. apply H. lia. }
  rewrite E. apply Z.mod_pos_bound. apply Z.pow_pos_nonneg; lia.
Qed.

Lemma lxor_range x y n : 0 <= n -> 0 <= x < 2 ^ n -> 0 <= y < 2 ^ n ->
  0 <= Z.lxor x y < 2 ^ n.
Proof.
  intros Hn Hx Hy.
  assert (0 <= Z.lxor x y) by (apply Z.lxor_nonneg; lia).
  split; [assumption|]. apply bits_below; try assumption.
  intros m Hm. rewrite Z.lxor_spec.
  rewrite (testbit_high x n m), (testbit_high y n m); auto.
Qed.

Lemma land_range_l x y n : 0 <= n -> 0 <= x < 2 ^ n -> 0 <= Z.land x y < 2 ^ n.
Proof.
  intros Hn Hx.
  assert (0 <= Z.land x y) by (apply Z.land_nonneg; lia).
  split; [assumption|]. apply bits_below; try assumption.
  intros m Hm. rewrite Z.land_spec, (testbit_high x n m); auto.
Qed.

Lemma lor_range x y n : 0 <= n -> 0 <= x < 2 ^ n -> 0 <= y < 2 ^ n ->
  0 <= Z.lor x y < 2 ^ n.
Proof.
  intros Hn Hx Hy.
  assert (0 <= Z.lor x y) by (apply Z.lor_nonneg; lia).
  split; [assumption|]. apply bits_below; try assumption.
  intros m Hm. rewrite Z.lor_spec.
  rewrite (testbit_high x n m), (testbit_high y n m); auto.
Qed.

Lemma byte_lxor x y : byte x -> byte y -> byte (Z.lxor x y).
Proof. unfold byte. change 256 with (2 ^ 8). apply lxor_range. lia. Qed.

(* or of disjoint ranges is addition *)
Lemma lor_add_low a b n : 0 <= n -> 0 <= b < 2 ^ n ->
  Z.lor (a * 2 ^ n) b = a * 2 ^ n + b.
Proof.
  intros Hn Hb. symmetry. rewrite <- Z.lxor_lor; [apply Z.add_nocarry_lxor|];
  apply Z.bits_inj'; intros m Hm; rewrite Z.land_spec, Z.bits_0;
  (destruct (Z.ltb_spec m n);
   [ rewrite Z.mul_pow2_bits_low by lia; reflexivity
   | rewrite (testbit_high b n m) by lia; apply andb_false_r ]).
Qed.

Lemma lor_shiftl_add a b n : 0 <= n -> 0 <= b < 2 ^ n ->
  Z.lor (Z.shiftl a n) b = a * 2 ^ n + b.
Proof. intros. rewrite Z.shiftl_mul_pow2 by lia. apply lor_add_low; lia. Qed.

Lemma shiftr_div x n : 0 <= n -> Z.shiftr x n = x / 2 ^ n.
Proof. intros. apply Z.shiftr_div_pow2; lia. Qed.

Lemma shiftl_mul x n : 0 <= n -> Z.shiftl x n = x * 2 ^ n.
Proof. intros. apply Z.shiftl_mul_pow2; lia. Qed.

Lemma land_mask x n : 0 <= n -> Z.land x (2 ^ n - 1) = x mod 2 ^ n.
Proof. intros. rewrite <- Z.land_ones by lia. f_equal. rewrite Z.ones_equiv. lia. Qed.

Lemma land_255 x : Z.land x 255 = x mod 256.
Proof. apply (land_mask x 8). lia. Qed.

(* sign bit of a 32-bit difference *)
Lemma borrow32 a b : 0 <= a < 2 ^ 31 -> 0 <= b < 2 ^ 31 ->
  Z.shiftr (sub32 a b) 31 = if a <? b then 1 else 0.
Proof.
  intros. unfold sub32, w32, M32. rewrite shiftr_div by lia.
  change (2 ^ 31) with 2147483648 in *.
  destruct (a <? b) eqn:E; lia.
Qed.

(* ------------------------------------------------------------------ *)
(* Finite ranges, for checks by computation                             *)
(* ------------------------------------------------------------------ *)

Fixpoint zseq (start : Z) (len : nat) : list Z :=
  match len with
  | O => []
  | S n => start :: zseq (start + 1) n
  end.

Lemma zseq_in s n x : In x (zseq s n) <-> s <= x < s + Z.of_nat n.
Proof.
  revert s. induction n as [|n IH]; intros s; cbn [zseq In].
  - lia.
  - rewrite IH. lia.
Qed.

Lemma zseq_length s n : length (zseq s n) = n.
Proof. revert s. induction n; intros; cbn [zseq length]; auto. Qed.

Lemma forall_zseq (P : Z -> bool) s n : forallb P (zseq s n) = true ->
  forall x, s <= x < s + Z.of_nat n -> P x = true.
Proof. intros H x Hx. rewrite forallb_forall in H. apply H. apply zseq_in. lia. Qed.

Lemma forall_byte (P : Z -> bool) : forallb P (zseq 0 256) = true ->
  forall x, byte x -> P x = true.
Proof. intros H x Hx. apply (forall_zseq P 0 256 H). unfold byte in Hx. lia. Qed.

Lemma forall_byte2 (P : Z -> Z -> bool) :
  forallb (fun x => forallb (P x) (zseq 0 256)) (zseq 0 256) = true ->
  forall x y, byte x -> byte y -> P x y = true.
Proof.
  intros H x y Hx Hy.
  pose proof (forall_byte _ H x Hx) as H1. cbn beta in H1.
  apply (forall_byte _ H1 y Hy).
Qed.

(* ------------------------------------------------------------------ *)
(* Radix values (least significant digit first)                         *)
(* ------------------------------------------------------------------ *)

Fixpoint dval (B : Z) (l : list Z) : Z :=
  match l with
  | [] => 0
  | d :: t => d + B * dval B t
  end.

Fixpoint digits (B : Z) (n : nat) (x : Z) : list Z :=
  match n with
  | O => []
  | S m => x mod B :: digits B m (x / B)
  end.

Definition le_val := dval 256.
Definition be_val (l : list Z) := dval 256 (rev l).
Definition le_bytes (n : nat) (x : Z) := digits 256 n x.
Definition be_bytes (n : nat) (x : Z) := rev (digits 256 n x).

Lemma digits_length B n x : length (digits B n x) = n.
Proof. revert x. induction n; intros; cbn [digits length]; auto. Qed.

Lemma digits_below B n x : 0 < B -> Forall (below B) (digits B n x).
Proof.
  intros HB. revert x. induction n; intros; cbn [digits]; constructor; auto.
  unfold below. apply Z.mod_pos_bound. lia.
Qed.

Lemma dval_digits B n x : 0 < B -> dval B (digits B n x) = x mod B ^ Z.of_nat n.
Proof.
  intros HB. revert x. induction n as [|n IH]; intros x.
  - cbn. rewrite Z.mod_1_r. reflexivity.
  - cbn [digits dval]. rewrite IH.
    replace (Z.of_nat (S n)) with (1 + Z.of_nat n) by lia.
    rewrite Z.pow_add_r, Z.pow_1_r by lia.
    rewrite Z.rem_mul_r by (try lia; apply Z.pow_pos_nonneg; lia). reflexivity.
Qed.

Lemma dval_range B l : 0 < B -> Forall (below B) l ->
  0 <= dval B l < B ^ Z.of_nat (length l).
Proof.
  intros HB. induction 1 as [|d t Hd Ht IH].
  - cbn. lia.
  - cbn [dval length]. replace (Z.of_nat (S (length t))) with (1 + Z.of_nat (length t)) by lia.
    rewrite Z.pow_add_r, Z.pow_1_r by lia. unfold below in Hd. nia.
Qed.

Lemma digits_dval B l : 0 < B -> Forall (below B) l -> digits B (length l) (dval B l) = l.
Proof.
  intros HB. induction 1 as [|d t Hd Ht IH]; [reflexivity|].
  unfold below in Hd. cbn [length digits dval]. f_equal.
  - rewrite Z.mul_comm, Z.mod_add, Z.mod_small by lia. reflexivity.
  - rewrite Z.mul_comm, Z.div_add, Z.div_small by lia. exact IH.
Qed.

Lemma dval_app B l1 l2 : dval B (l1 ++ l2) = dval B l1 + B ^ Z.of_nat (length l1) * dval B l2.
Proof.
  induction l1 as [|d t IH].
  - cbn [dval app length]. change (Z.of_nat 0) with 0. rewrite Z.pow_0_r. lia.
  - cbn [dval app length]. rewrite IH.
    replace (Z.of_nat (S (length t))) with (1 + Z.of_nat (length t)) by lia.
    rewrite Z.pow_add_r, Z.pow_1_r by lia. ring.
Qed.

Lemma dval_inj B l1 l2 : 0 < B -> Forall (below B) l1 -> Forall (below B) l2 ->
  length l1 = length l2 -> dval B l1 = dval B l2 -> l1 = l2.
Proof.
  intros HB H1 H2 HL HV.
  rewrite <- (digits_dval B l1), <- (digits_dval B l2) by auto. rewrite HL, HV. reflexivity.
Qed.

Lemma dval_repeat0 B n : dval B (repeat 0 n) = 0.
Proof. induction n; cbn [repeat dval]; lia. Qed.

Lemma bytes_below l : bytes l <-> Forall (below 256) l.
Proof. unfold bytes, byte, below. tauto. Qed.

Lemma le_bytes_bytes n x : bytes (le_bytes n x).
Proof. apply bytes_below, digits_below. lia. Qed.
Lemma be_bytes_bytes n x : bytes (be_bytes n x).
Proof. unfold bytes, be_bytes. apply Forall_rev, digits_below. lia. Qed.
Lemma le_bytes_length n x : length (le_bytes n x) = n.
Proof. apply digits_length. Qed.
Lemma be_bytes_length n x : length (be_bytes n x) = n.
Proof. unfold be_bytes. rewrite rev_length. apply digits_length. Qed.

Lemma le_val_le_bytes n x : le_val (le_bytes n x) = x mod 256 ^ Z.of_nat n.
Proof. apply dval_digits. lia. Qed.
Lemma be_val_be_bytes n x : be_val (be_bytes n x) = x mod 256 ^ Z.of_nat n.
Proof. unfold be_val, be_bytes. rewrite rev_involutive. apply dval_digits. lia. Qed.
Lemma le_bytes_le_val l : bytes l -> le_bytes (length l) (le_val l) = l.
Proof. intros. apply digits_dval; [lia|]. apply bytes_below; auto. Qed.
Lemma be_bytes_be_val l : bytes l -> be_bytes (length l) (be_val l) = l.
Proof.
  intros H. unfold be_bytes, be_val.
  rewrite <- (rev_length l) at 1. rewrite digits_dval; [apply rev_involutive|lia|].
  apply Forall_rev, bytes_below; auto.
Qed.
Lemma le_val_range l : bytes l -> 0 <= le_val l < 256 ^ Z.of_nat (length l).
Proof. intros. apply dval_range; [lia|]. apply bytes_below; auto. Qed.
Lemma be_val_range l : bytes l -> 0 <= be_val l < 256 ^ Z.of_nat (length l).
Proof.
  intros. unfold be_val. rewrite <- (rev_length l). apply dval_range; [lia|].
  apply Forall_rev, bytes_below; auto.
Qed.

Lemma be_val_app l1 l2 : be_val (l1 ++ l2) = be_val l1 * 256 ^ Z.of_nat (length l2) + be_val l2.
Proof. unfold be_val. rewrite rev_app_distr, dval_app, rev_length. lia. Qed.
Lemma be_val_cons b l : be_val (b :: l) = b * 256 ^ Z.of_nat (length l) + be_val l.
Proof. change (b :: l) with ([b] ++ l). rewrite be_val_app. unfold be_val at 1. cbn. lia. Qed.

(* ------------------------------------------------------------------ *)
(* Byte lists                                                          *)
(* ------------------------------------------------------------------ *)

Lemma bytes_app l1 l2 : bytes (l1 ++ l2) <-> bytes l1 /\ bytes l2.
Proof. apply Forall_app. Qed.
Lemma bytes_firstn n l : bytes l -> bytes (firstn n l).
Proof. intros H. rewrite <- (firstn_skipn n l) in H. apply bytes_app in H. tauto. Qed.
Lemma bytes_skipn n l : bytes l -> bytes (skipn n l).
Proof. intros H. rewrite <- (firstn_skipn n l) in H. apply bytes_app in H. tauto. Qed.
Lemma bytes_repeat x n : byte x -> bytes (repeat x n).
Proof. intros. unfold bytes. induction n; cbn [repeat]; constructor; auto. Qed.
Lemma bytes_rev l : bytes l -> bytes (rev l).
Proof. apply Forall_rev. Qed.
Lemma bytes_cons x l : bytes (x :: l) <-> byte x /\ bytes l.
Proof. unfold bytes. rewrite Forall_cons_iff. tauto. Qed.
Lemma bytes_nil : bytes [].
Proof. constructor. Qed.

Fixpoint map2 {A B C} (f : A -> B -> C) (x : list A) (y : list B) : list C :=
  match x, y with
  | a :: x', b :: y' => f a b :: map2 f x' y'
  | _, _ => []
  end.

(* byte-wise exclusive or of two lists (shorter length) *)
Definition xorl := map2 Z.lxor.

Lemma map2_length {A B C} (f : A -> B -> C) x y :
  length (map2 f x y) = Nat.min (length x) (length y).
Proof. revert y. induction x; intros [|b y]; cbn [map2 length Nat.min]; auto. Qed.

Lemma xorl_length x y : length (xorl x y) = Nat.min (length x) (length y).
Proof. apply map2_length. Qed.

Lemma xorl_bytes x y : bytes x -> bytes y -> bytes (xorl x y).
Proof.
  intros H. revert y. unfold bytes, xorl.
  induction H as [|a x Ha Hx IH]; intros y Hy; [constructor|].
  destruct Hy as [|b y Hb Hy]; cbn [map2]; constructor; auto using byte_lxor.
Qed.

Lemma xorl_involutive x k : (length x <= length k)%nat -> xorl (xorl x k) k = x.
Proof.
  revert k. induction x as [|a x IH]; intros [|b k] H; cbn [length] in H; try reflexivity; try lia.
  unfold xorl in *. cbn [map2]. f_equal.
  - rewrite Z.lxor_assoc, Z.lxor_nilpotent, Z.lxor_0_r. reflexivity.
  - apply IH. lia.
Qed.

Lemma xorl_comm x y : xorl x y = xorl y x.
Proof.
  revert y. induction x as [|a x IH]; intros [|b y]; try reflexivity.
  unfold xorl in *. cbn [map2]. rewrite Z.lxor_comm. f_equal. apply IH.
Qed.

Lemma map2_app {A B C} (f : A -> B -> C) x1 x2 y1 y2 : length x1 = length y1 ->
  map2 f (x1 ++ x2) (y1 ++ y2) = map2 f x1 y1 ++ map2 f x2 y2.
Proof.
  revert y1. induction x1 as [|a x1 IH]; intros [|b y1] H; cbn [length] in H; try lia.
  - reflexivity.
  - cbn [app map2]. f_equal. apply IH. lia.
Qed.

Lemma xorl_app x1 x2 y1 y2 : length x1 = length y1 ->
  xorl (x1 ++ x2) (y1 ++ y2) = xorl x1 y1 ++ xorl x2 y2.
Proof. apply map2_app. Qed.

Lemma xorl_assoc x y z : xorl (xorl x y) z = xorl x (xorl y z).
Proof.
  revert y z. induction x as [|a x IH]; intros [|b y] [|c z]; try reflexivity.
  unfold xorl in *. cbn [map2]. rewrite Z.lxor_assoc, IH. reflexivity.
Qed.

Lemma xorl_firstn n x y : xorl (firstn n x) (firstn n y) = firstn n (xorl x y).
Proof.
  revert x y. induction n as [|n IH]; intros [|a x] [|b y]; cbn [firstn]; try reflexivity.
  unfold xorl in *. cbn [map2 firstn]. rewrite IH. reflexivity.
Qed.

(* functional array update, the C statement a[i] = v *)
Fixpoint upd {A} (l : list A) (i : nat) (v : A) : list A :=
  match l, i with
  | [], _ => []
  | _ :: t, O => v :: t
  | x :: t, S j => x :: upd t j v
  end.

Lemma upd_length {A} (l : list A) i v : length (upd l i v) = length l.
Proof. revert i. induction l; intros [|i]; cbn [upd length]; auto. Qed.

Lemma nth_upd_same {A} (l : list A) i v d : (i < length l)%nat -> nth i (upd l i v) d = v.
Proof. revert i. induction l; intros [|i] H; cbn [upd length nth] in *; try lia; auto. apply IHl. lia. Qed.

Lemma nth_upd_other {A} (l : list A) i j v d : i <> j -> nth j (upd l i v) d = nth j l d.
Proof. revert i j. induction l; intros [|i] [|j] H; cbn [upd nth]; auto; try lia. Qed.

Lemma Forall_upd {A} (P : A -> Prop) l i v : Forall P l -> P v -> Forall P (upd l i v).
Proof. intros H Hv. revert i. induction H; intros [|i]; cbn [upd]; constructor; auto. Qed.

Lemma Forall_nth_d {A} (P : A -> Prop) l i d : Forall P l -> P d -> P (nth i l d).
Proof. intros H Hd. revert i. induction H; intros [|i]; cbn [nth]; auto. Qed.

Lemma firstn_app_exact {A} (l1 l2 : list A) n : length l1 = n -> firstn n (l1 ++ l2) = l1.
Proof. intros <-. rewrite firstn_app, Nat.sub_diag, firstn_O, firstn_all, app_nil_r. reflexivity. Qed.
Lemma skipn_app_exact {A} (l1 l2 : list A) n : length l1 = n -> skipn n (l1 ++ l2) = l2.
Proof. intros <-. rewrite skipn_app, Nat.sub_diag, skipn_O, skipn_all. reflexivity. Qed.

Lemma list_eq_nth {A} (d : A) l1 l2 : length l1 = length l2 ->
  (forall i, (i < length l1)%nat -> nth i l1 d = nth i l2 d) -> l1 = l2.
Proof.
  revert l2. induction l1 as [|a l1 IH]; intros [|b l2] HL H; cbn [length] in HL; try lia; auto.
  f_equal.
  - apply (H 0%nat). cbn [length]. lia.
  - apply IH; [lia|]. intros i Hi. apply (H (S i)). cbn [length]. lia.
Qed.
