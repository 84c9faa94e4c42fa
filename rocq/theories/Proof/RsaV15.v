(* PKCS#1 v1.5: the signature block and the decryption unpadding. *)
From Verif.Base Require Import Prelude.
From Verif.Model Require Import Encoding Bio Util Asn1 Hash NumTheory Rsa.
From Verif.Spec Require Import RsaSpec.
From Verif.Proof Require Import UtilProof RsaKey RsaPrim.

Lemma sec_equal_spec x y : 0 <= x < 2 ^ 31 -> 0 <= y < 2 ^ 31 -> sec_equal x y = Z.b2z (x =? y).
Proof.
  intros Hx Hy. unfold sec_equal, w32, M32. pose proof (lxor_range x y 31 ltac:(lia) Hx Hy) as R. change (2 ^ 31) with 2147483648 in *. rewrite shiftr_div by lia. change (2 ^ 31) with 2147483648.
  destruct (Z.eqb_spec x y) as [->|N]; [rewrite Z.lxor_nilpotent; reflexivity|].
  assert (Z.lxor x y <> 0) by (intro E; apply Z.lxor_eq in E; contradiction). cbn [Z.b2z]. rewrite Z.mod_small by lia. apply Z.div_small. lia.
Qed.
Lemma sec_lte_spec x y : 0 <= x < 2 ^ 31 -> 0 <= y < 2 ^ 31 -> sec_lte x y = Z.b2z (x <=? y).
Proof.
  intros Hx Hy. unfold sec_lte, w32, M32. change (2 ^ 31) with 2147483648 in *. rewrite shiftr_div by lia. change (2 ^ 31) with 2147483648. destruct (Z.leb_spec x y); cbn [Z.b2z]; lia.
Qed.
Lemma cnd_select_spec x y c : 0 <= x < 2 ^ 32 -> 0 <= y < 2 ^ 32 -> cnd_select x y c = if c =? 0 then x else y.
Proof.
  intros Hx Hy. unfold cnd_select. destruct (c =? 0).
  - rewrite Z.lxor_0_l, Z.land_0_r, Z.lor_0_r. change 4294967295 with (2 ^ 32 - 1). rewrite land_mask by lia. apply Z.mod_small. exact Hx.
  - rewrite Z.lxor_nilpotent, Z.land_0_r, Z.lor_0_l. change 4294967295 with (2 ^ 32 - 1). rewrite land_mask by lia. apply Z.mod_small. exact Hy.
Qed.
Lemma land_b2z a b : Z.land (Z.b2z a) (Z.b2z b) = Z.b2z (a && b). Proof. destruct a, b; reflexivity. Qed.
Lemma b2z_1 b : (Z.b2z b =? 1) = b. Proof. destruct b; reflexivity. Qed.
Lemma byte31 x : byte x -> 0 <= x < 2 ^ 31. Proof. unfold byte. change (2 ^ 31) with 2147483648. lia. Qed.

Definition leqb (a b : list Z) : bool := if list_eq_dec Z.eq_dec a b then true else false.
Lemma memequal_b a b : bytes a -> bytes b -> length a = length b -> torsion_memequal a b = Z.b2z (leqb a b).
Proof. intros Ha Hb L. rewrite memequal_iff by assumption. unfold leqb. destruct (list_eq_dec Z.eq_dec a b); reflexivity. Qed.
Lemma leqb_iff a b : leqb a b = true <-> a = b.
Proof. unfold leqb. destruct (list_eq_dec Z.eq_dec a b); split; congruence. Qed.

Lemma all_equal_spec v b : byte v -> forall ps pre post, bytes ps -> all_equal (pre ++ ps ++ post) (length pre) (length pre + length ps) v (Z.b2z b) = Z.b2z (b && forallb (fun x => x =? v) ps).
Proof.
  intros Hv ps pre post Hp. unfold all_equal. replace (length pre + length ps - length pre)%nat with (length ps) by lia. revert b pre.
  induction ps as [|x ps IH]; intros b pre; cbn [length seq fold_left forallb]; [rewrite andb_true_r; reflexivity|].
  apply bytes_cons in Hp. destruct Hp as [Hx Hp]. rewrite app_nth2, Nat.sub_diag by lia. cbn [app nth]. rewrite sec_equal_spec by (apply byte31; assumption). rewrite land_b2z.
  specialize (IH Hp (b && (x =? v)) (pre ++ [x])). rewrite app_length in IH. cbn [length] in IH. rewrite Nat.add_1_r in IH. rewrite <- app_assoc in IH. cbn [app] in IH.
  rewrite IH, andb_assoc. reflexivity.
Qed.

(* splitting a list of known length *)
Lemma split_at {A} n (l : list A) : (n <= length l)%nat -> exists a b, l = a ++ b /\ length a = n.
Proof. intros H. exists (firstn n l), (skipn n l). split; [symmetry; apply firstn_skipn|apply firstn_length_le; exact H]. Qed.

Lemma v15_check_spec klen prefix msg em : bytes em -> bytes prefix -> bytes msg -> length em = klen -> (length prefix + length msg + 11 <= klen)%nat ->
  let hlen := length msg in let tlen := (length prefix + hlen)%nat in
  (let ok := 1 in
   let ok := Z.land ok (sec_equal (nth 0 em 0) 0x00) in
   let ok := Z.land ok (sec_equal (nth 1 em 0) 0x01) in
   let ok := all_equal em 2 (klen - tlen - 1) 0xff ok in
   let ok := Z.land ok (sec_equal (nth (klen - tlen - 1) em 0) 0x00) in
   let ok := Z.land ok (torsion_memequal (firstn (length prefix) (skipn (klen - tlen) em)) prefix) in
   let ok := Z.land ok (torsion_memequal (firstn (length msg) (skipn (klen - hlen) em)) msg) in
   ok =? 1) = true <-> em = v15_block klen prefix msg.
Proof.
  intros Be Bp Bm L LE. cbv zeta.
  destruct em as [|a em]; [cbn [length] in L; lia|]. destruct em as [|b em]; [cbn [length] in L; lia|]. cbn [length] in L.
  destruct (split_at (klen - (length prefix + length msg) - 3) em ltac:(lia)) as (ps & r & -> & Lps). rewrite app_length in L.
  destruct r as [|c r]; [cbn [length] in L; lia|]. cbn [length] in L.
  destruct (split_at (length prefix) r ltac:(lia)) as (t & m & -> & Lt). rewrite app_length in L.
  assert (Bx := Be). apply bytes_cons in Bx. destruct Bx as [Ba Bx]. apply bytes_cons in Bx. destruct Bx as [Bb Bx]. apply bytes_app in Bx. destruct Bx as [Bps Bx].
  apply bytes_cons in Bx. destruct Bx as [Bc Bx]. apply bytes_app in Bx. destruct Bx as [Bt Bmm].
  assert (Lm : length m = length msg) by lia.
  change (nth 0 (a :: b :: ps ++ c :: t ++ m) 0) with a. change (nth 1 (a :: b :: ps ++ c :: t ++ m) 0) with b. rewrite (sec_equal_spec a), (sec_equal_spec b) by (apply byte31; assumption || (unfold byte; lia)). change 1 with (Z.b2z true) at 1. rewrite !land_b2z.
  change (a :: b :: ps ++ c :: t ++ m) with ([a; b] ++ ps ++ c :: t ++ m).
  replace (klen - (length prefix + length msg) - 1)%nat with (length [a; b] + length ps)%nat by (cbn [length]; lia). change 2%nat with (length [a; b]) at 1.
  rewrite all_equal_spec by (try assumption; unfold byte; lia).
  rewrite (app_nth2 [a; b]) by lia. replace (length [a; b] + length ps - length [a; b])%nat with (length ps) by lia. rewrite (app_nth2 ps) by lia. rewrite Nat.sub_diag. cbn [nth].
  rewrite sec_equal_spec by (apply byte31; assumption || (unfold byte; lia)).
  replace ([a; b] ++ ps ++ c :: t ++ m) with (([a; b] ++ ps ++ [c]) ++ t ++ m) by (rewrite <- !app_assoc; reflexivity).
  rewrite (skipn_app_exact ([a; b] ++ ps ++ [c])) by (rewrite !app_length; cbn [length]; lia). rewrite (firstn_app_exact t) by exact Lt.
  replace (([a; b] ++ ps ++ [c]) ++ t ++ m) with ((([a; b] ++ ps ++ [c]) ++ t) ++ m) by (rewrite <- !app_assoc; reflexivity).
  rewrite (skipn_app_exact (([a; b] ++ ps ++ [c]) ++ t)) by (rewrite !app_length; cbn [length]; lia). rewrite firstn_all2 by lia.
  rewrite !memequal_b by assumption. rewrite !land_b2z, b2z_1.
  rewrite !andb_true_iff, !leqb_iff, !Z.eqb_eq, forallb_forall. unfold v15_block. rewrite <- !app_assoc.
  split.
  - intros ((((((_ & ->) & ->) & Hps) & ->) & ->) & ->). cbn [app]. do 3 f_equal. rewrite <- Lps. clear - Hps. induction ps as [|x ps IH]; [reflexivity|].
    cbn [length repeat app]. rewrite <- IH by (intros y Hy; apply Hps; right; exact Hy). f_equal. apply Z.eqb_eq. apply Hps. left. reflexivity.
  - intros E. cbn [app] in E. injection E as -> -> E.
    assert (Eps : ps = repeat 255 (klen - (length prefix + length msg) - 3)).
    { apply (f_equal (firstn (length ps))) in E. rewrite firstn_app, firstn_all, Nat.sub_diag in E. cbn [firstn] in E. rewrite app_nil_r in E. rewrite E.
      apply firstn_app_exact. rewrite repeat_length. symmetry. exact Lps. }
    assert (E2 : c :: t ++ m = 0 :: prefix ++ msg).
    { rewrite Eps in E. apply app_inv_head in E. exact E. }
    injection E2 as -> E2. assert (Et : t = prefix).
    { apply (f_equal (firstn (length t))) in E2. rewrite firstn_app_exact in E2 by reflexivity. rewrite firstn_app_exact in E2 by congruence. exact E2. }
    subst t. apply app_inv_head in E2. subst m. repeat split. intros x Hx. rewrite Eps in Hx. apply repeat_spec in Hx. subst. reflexivity.
Qed.

Lemma v15_block_spec klen prefix msg : (length prefix + length msg + 11 <= klen)%nat ->
  forall em, em = v15_block klen prefix msg <-> emsa_v15 klen (prefix ++ msg) em.
Proof.
  intros LE em. unfold v15_block, emsa_v15. split.
  - intros ->. exists (repeat 255 (klen - (length prefix + length msg) - 3)). split; [reflexivity|]. rewrite !app_length, !repeat_length. cbn [length]. split; [|split; lia].
    apply Forall_forall. intros x Hx. apply repeat_spec in Hx. congruence.
  - intros (PS & -> & F & L8 & L). rewrite !app_length in L. cbn [length] in L.
    assert (EP : PS = repeat 255 (klen - (length prefix + length msg) - 3)).
    { replace (klen - (length prefix + length msg) - 3)%nat with (length PS) by lia. clear - F. induction F as [|x PS Hx F IH]; [reflexivity|]. cbn [length repeat]. congruence. }
    rewrite <- EP. reflexivity.
Qed.
Lemma v15_block_bytes klen prefix msg : bytes prefix -> bytes msg -> bytes (v15_block klen prefix msg).
Proof.
  intros. unfold v15_block. repeat (apply bytes_app; split); try assumption; try (apply bytes_repeat); repeat constructor; unfold byte; lia.
Qed.
Lemma v15_block_length klen prefix msg : (length prefix + length msg + 11 <= klen)%nat -> length (v15_block klen prefix msg) = klen.
Proof. intros. unfold v15_block. rewrite !app_length, repeat_length. cbn [length]. lia. Qed.
(* the block is below any modulus of that length *)
Lemma pow_klen n : 2 ^ 511 <= n -> 256 ^ (Z.of_nat (klen_of n) - 1) <= n /\ (64 <= klen_of n)%nat.
Proof.
  intros Hn. assert (N0 : 0 < n) by (apply Z.lt_le_trans with (2 ^ 511); [apply Z.pow_pos_nonneg; lia|exact Hn]).
  assert (BL : 512 <= mpz_bitlen n).
  { apply Z.ltb_ge. rewrite bitlen_lt by (clear - N0; lia). apply Z.ltb_ge. exact Hn. }
  clear Hn. unfold klen_of. assert (K : mpz_bytelen n * 8 <= mpz_bitlen n + 7 < mpz_bytelen n * 8 + 8).
  { unfold mpz_bytelen. pose proof (Z.div_mod (mpz_bitlen n + 7) 8 ltac:(lia)). pose proof (Z.mod_pos_bound (mpz_bitlen n + 7) 8 ltac:(lia)). lia. }
  rewrite Z2Nat.id by lia. split; [|lia]. change 256 with (2 ^ 8). rewrite <- Z.pow_mul_r by lia.
  apply Z.le_trans with (2 ^ (mpz_bitlen n - 1)); [apply Z.pow_le_mono_r; lia|].
  unfold mpz_bitlen in *. destruct (Z.eqb_spec n 0); [lia|]. rewrite Z.abs_eq in * by lia. replace (Z.log2 n + 1 - 1) with (Z.log2 n) by lia. apply Z.log2_spec. lia.
Qed.
Lemma zero_block_lt n l : 2 ^ 511 <= n -> bytes l -> (length l < klen_of n)%nat -> be_val l < n.
Proof.
  intros Hn Hb L. destruct (pow_klen n Hn) as [P K]. clear Hn. pose proof (be_val_range l Hb) as R.
  apply Z.lt_le_trans with (256 ^ Z.of_nat (length l)); [apply R|]. apply Z.le_trans with (256 ^ (Z.of_nat (klen_of n) - 1)); [|exact P]. apply Z.pow_le_mono_r; lia.
Qed.

(* ---- unpadding ---- *)
Fixpoint first_zero (l : list Z) : option nat :=
  match l with [] => None | x :: l => if x =? 0 then Some O else option_map S (first_zero l) end.
Lemma unpad_loop_done l : bytes l -> forall i off, 0 <= i -> i + Z.of_nat (length l) < 2 ^ 31 -> 0 <= off < 2 ^ 31 -> unpad_loop l i off 0 = (off, 0).
Proof.
  induction 1 as [|x l Hx Hl IH]; intros i off Hi HL Ho; [reflexivity|]. cbn [unpad_loop length] in *. change (2 ^ 31) with 2147483648 in *.
  rewrite Z.land_0_l. rewrite !cnd_select_spec by (change (2 ^ 32) with 4294967296; lia). rewrite Z.eqb_refl. destruct (sec_equal x 0 =? 0); apply IH; lia.
Qed.
Lemma unpad_loop_spec l : bytes l -> forall i, 0 <= i -> i + Z.of_nat (length l) < 2 ^ 31 ->
  unpad_loop l i 0 1 = match first_zero l with Some j => (i + Z.of_nat j, 0) | None => (0, 1) end.
Proof.
  induction 1 as [|x l Hx Hl IH]; intros i Hi HL; [reflexivity|]. cbn [unpad_loop length first_zero] in *. change (2 ^ 31) with 2147483648 in *.
  rewrite sec_equal_spec by (change (2 ^ 31) with 2147483648; unfold byte in Hx; lia). rewrite !cnd_select_spec by (change (2 ^ 32) with 4294967296; lia).
  destruct (x =? 0); cbn [Z.b2z].
  - change (Z.land 1 1 =? 0) with false. change (1 =? 0) with false. cbv iota. rewrite unpad_loop_done; [f_equal; lia|exact Hl| | |]; change (2 ^ 31) with 2147483648; lia.
  - change (Z.land 1 0 =? 0) with true. change (0 =? 0) with true. cbv iota. rewrite IH by lia. destruct (first_zero l); cbn [option_map]; [f_equal; lia|reflexivity].
Qed.
Lemma first_zero_spec l j : first_zero l = Some j <-> exists a b, l = a ++ 0 :: b /\ length a = j /\ Forall (fun x => x <> 0) a.
Proof.
  revert j. induction l as [|x l IH]; intros j; cbn [first_zero].
  - split; [discriminate|]. intros (a & b & E & _). destruct a; discriminate.
  - destruct (Z.eqb_spec x 0) as [->|N].
    + split; [intros E; apply some_inj in E; subst j; exists [], l; repeat split; constructor|].
      intros (a & b & E & L & F). destruct a as [|y a]; [subst j; reflexivity|]. injection E as E0 E. inversion F. exfalso. congruence.
    + split.
      * destruct (first_zero l) as [j'|] eqn:FZ; [|discriminate]. intros E. apply some_inj in E. subst j. destruct (proj1 (IH j') eq_refl) as (a & b & -> & L & F).
        exists (x :: a), b. split; [reflexivity|]. split; [cbn [length]; congruence|constructor; assumption].
      * intros (a & b & E & L & F). destruct a as [|y a]; [injection E as E _; congruence|]. injection E as -> E. inversion F. subst.
        cbn [length]. rewrite (proj2 (IH (length a))); [reflexivity|]. exists a, b. repeat split; assumption.
Qed.

Lemma unpad_spec em : bytes em -> (11 <= length em)%nat -> Z.of_nat (length em) < 2 ^ 30 ->
  forall m, (let '(ok, off) := pkcs1v15_unpad em in ok =? 0 = false /\ m = skipn (Z.to_nat off) em) <-> eme_v15 em m.
Proof.
  intros Hb L11 LB m. change (2 ^ 30) with 1073741824 in LB. destruct em as [|a em]; [cbn [length] in L11; lia|]. destruct em as [|b em]; [cbn [length] in L11; lia|].
  apply bytes_cons in Hb. destruct Hb as [Ba Hb]. apply bytes_cons in Hb. destruct Hb as [Bb Hb]. unfold pkcs1v15_unpad. cbn [nth skipn length] in *.
  rewrite unpad_loop_spec by (try assumption; change (2 ^ 31) with 2147483648; lia).
  rewrite !sec_equal_spec by (apply byte31; assumption || (unfold byte; lia)). replace (Z.land 1 (Z.b2z (a =? 0))) with (Z.b2z (a =? 0)) by (destruct (a =? 0); reflexivity). rewrite !land_b2z. unfold eme_v15.
  destruct (first_zero em) as [j|] eqn:FZ.
  - assert (J : (j < length em)%nat). { apply first_zero_spec in FZ. destruct FZ as (x & y & -> & Lx & _). rewrite app_length. cbn [length]. lia. }
    change (Z.lxor 0 1) with (Z.b2z true). rewrite land_b2z, sec_lte_spec by (change (2 ^ 31) with 2147483648; lia). rewrite land_b2z.
    rewrite w32_small by (unfold M32; lia). rewrite cnd_select_spec by (change (2 ^ 32) with 4294967296; lia).
    destruct (((a =? 0) && (b =? 2) && true && (2 + 8 <=? 2 + Z.of_nat j))) eqn:OK; cbn [Z.b2z].
    + change (1 =? 0) with false. cbv iota. rewrite !andb_true_iff, !Z.eqb_eq, Z.leb_le in OK. destruct OK as (((-> & ->) & _) & J8).
      replace (Z.to_nat (2 + Z.of_nat j + 1)) with (S (S (S j))) by lia. change (skipn (S (S (S j))) (0 :: 2 :: em)) with (skipn (S j) em).
      assert (SK : forall x y, em = x ++ 0 :: y -> Forall (fun z => z <> 0) x -> length x = j).
      { intros x y -> Fx. assert (Some (length x) = Some j) by (rewrite <- FZ; symmetry; apply first_zero_spec; exists x, y; repeat split; assumption). congruence. }
      apply first_zero_spec in FZ. destruct FZ as (x & y & Ex & Lx & Fx). split.
      * intros [_ ->]. exists x. rewrite Ex. split; [|split; [exact Fx|lia]]. cbn [app]. do 4 f_equal. change (x ++ 0 :: y) with (x ++ [0] ++ y). rewrite app_assoc. rewrite skipn_app_exact; [reflexivity|rewrite app_length; cbn [length]; lia].
      * intros (PS & E & F & _). split; [reflexivity|]. cbn [app] in E. injection E as E. pose proof (SK _ _ E F) as LP. rewrite E.
        change (PS ++ 0 :: m) with (PS ++ [0] ++ m). rewrite app_assoc. rewrite skipn_app_exact; [reflexivity|rewrite app_length; cbn [length]; lia].
    + change (0 =? 0) with true. split; [intros [X _]; discriminate|]. intros (PS & E & F & L8). exfalso. cbn [app] in E. injection E as -> -> E.
      assert (Some (length PS) = Some j) by (rewrite <- FZ; symmetry; apply first_zero_spec; exists PS, m; repeat split; assumption).
      assert (length PS = j) by congruence. rewrite !Z.eqb_refl in OK. cbn [andb] in OK. apply Z.leb_gt in OK. lia.
  - change (Z.lxor 1 1) with (Z.b2z false). rewrite land_b2z, andb_false_r. cbn [Z.b2z]. rewrite Z.land_0_l. change (0 =? 0) with true. split; [intros [X _]; discriminate|].
    intros (PS & E & F & _). exfalso. cbn [app] in E. injection E as _ _ E. assert (first_zero em = Some (length PS)) by (apply first_zero_spec; exists PS, m; repeat split; assumption). congruence.
Qed.
