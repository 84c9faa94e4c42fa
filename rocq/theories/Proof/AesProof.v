From Verif.Base Require Import Prelude.
From Verif.Model Require Import Encoding Bio Util Aes.
From Verif.Spec Require Import AesSpec.
From Verif.Proof Require Import PolymodProof LinOps BioProof RandProof.
#[local] Ltac Zify.zify_post_hook ::= idtac.

Ltac fb := unfold bytes; repeat first [apply Forall_nil | apply Forall_cons].
Lemma byte_all (P : Z -> bool) : forallb P (zseq 0 256) = true -> forall x, byte x -> P x = true.
Proof. intros H x Hx. rewrite forallb_forall in H. apply H. apply zseq_in. unfold byte in Hx. cbn. lia. Qed.

(* ---- words and their bytes ---- *)
Definition b4 (a b c d : Z) : Z := d + 256 * (c + 256 * (b + 256 * a)).
Lemma b4_be a b c d : be_val [a; b; c; d] = b4 a b c d.
Proof. unfold be_val, b4. cbn [rev app dval]. lia. Qed.
Lemma b4_lxor a b c d e f g h : byte a -> byte b -> byte c -> byte d -> byte e -> byte f -> byte g -> byte h ->
  Z.lxor (b4 a b c d) (b4 e f g h) = b4 (Z.lxor a e) (Z.lxor b f) (Z.lxor c g) (Z.lxor d h).
Proof. intros. unfold b4. rewrite !lxor_cons by auto. reflexivity. Qed.
Lemma land_cons a b x y : byte a -> byte b -> Z.land (a + 256 * x) (b + 256 * y) = Z.land a b + 256 * Z.land x y.
Proof.
  intros Ha Hb. unfold byte in *.
  assert (D : Z.land (a + 256 * x) (b + 256 * y) / 256 = Z.land x y).
  { change 256 with (2 ^ 8) at 3. rewrite <- Z.shiftr_div_pow2, Z.shiftr_land, !Z.shiftr_div_pow2 by lia. change (2 ^ 8) with 256.
    rewrite (Z.mul_comm 256 x), (Z.mul_comm 256 y), !Z.div_add by lia. rewrite !Z.div_small by lia. reflexivity. }
  assert (R : Z.land (a + 256 * x) (b + 256 * y) mod 256 = Z.land a b).
  { change 256 with (2 ^ 8) at 3. rewrite <- Z.land_ones by lia.
    replace (Z.land (Z.land (a + 256 * x) (b + 256 * y)) (Z.ones 8)) with (Z.land (Z.land (a + 256 * x) (Z.ones 8)) (Z.land (b + 256 * y) (Z.ones 8))).
    2:{ apply Z.bits_inj'. intros n _. rewrite !Z.land_spec. destruct (Z.testbit (a + 256 * x) n), (Z.testbit (b + 256 * y) n), (Z.testbit (Z.ones 8) n); reflexivity. }
    rewrite !Z.land_ones by lia. change (2 ^ 8) with 256.
    rewrite (Z.mul_comm 256 x), (Z.mul_comm 256 y), !Z.mod_add by lia. rewrite !Z.mod_small by lia. reflexivity. }
  rewrite <- D, <- R. generalize (Z.land (a + 256 * x) (b + 256 * y)). intros v. pose proof (Z.div_mod v 256). lia.
Qed.
Lemma land_255 a : byte a -> Z.land a 255 = a.
Proof. intros H. change 255 with (Z.ones 8). rewrite Z.land_ones by lia. apply Z.mod_small. exact H. Qed.
Lemma byte0 : byte 0. Proof. unfold byte; lia. Qed.
Lemma byte255 : byte 255. Proof. unfold byte; lia. Qed.
#[local] Hint Resolve byte0 byte255 : core.
Lemma b4_land a b c d e f g h : byte a -> byte b -> byte c -> byte d -> byte e -> byte f -> byte g -> byte h ->
  Z.land (b4 a b c d) (b4 e f g h) = b4 (Z.land a e) (Z.land b f) (Z.land c g) (Z.land d h).
Proof. intros. unfold b4. rewrite !land_cons by auto. reflexivity. Qed.
Lemma mask3 a b c d : byte a -> byte b -> byte c -> byte d -> Z.land (b4 a b c d) 0xff000000 = b4 a 0 0 0.
Proof. intros. change 0xff000000 with (b4 255 0 0 0). rewrite b4_land, land_255, !Z.land_0_r by auto. reflexivity. Qed.
Lemma mask2 a b c d : byte a -> byte b -> byte c -> byte d -> Z.land (b4 a b c d) 0x00ff0000 = b4 0 b 0 0.
Proof. intros. change 0x00ff0000 with (b4 0 255 0 0). rewrite b4_land, land_255, !Z.land_0_r by auto. reflexivity. Qed.
Lemma mask1 a b c d : byte a -> byte b -> byte c -> byte d -> Z.land (b4 a b c d) 0x0000ff00 = b4 0 0 c 0.
Proof. intros. change 0x0000ff00 with (b4 0 0 255 0). rewrite b4_land, land_255, !Z.land_0_r by auto. reflexivity. Qed.
Lemma mask0 a b c d : byte a -> byte b -> byte c -> byte d -> Z.land (b4 a b c d) 0x000000ff = b4 0 0 0 d.
Proof. intros. change 0x000000ff with (b4 0 0 0 255). rewrite b4_land, land_255, !Z.land_0_r by auto. reflexivity. Qed.
Lemma b4_byte a b c d n : byte a -> byte b -> byte c -> byte d -> In n [0;1;2;3]%nat ->
  Z.land (shr (b4 a b c d) (8 * Z.of_nat n)) 0xff = nth n [d; c; b; a] 0.
Proof.
  unfold byte. intros Ha Hb Hc Hd Hn. unfold shr. change 0xff with (Z.ones 8). rewrite Z.land_ones, Z.shiftr_div_pow2 by lia. unfold b4.
  change (2 ^ 8) with 256. destruct Hn as [<-|[<-|[<-|[<-|[]]]]]; cbn [nth].
  - change (2 ^ (8 * Z.of_nat 0)) with 1. Z.div_mod_to_equations; lia.
  - change (2 ^ (8 * Z.of_nat 1)) with 256. Z.div_mod_to_equations; lia.
  - change (2 ^ (8 * Z.of_nat 2)) with (256 * 256). Z.div_mod_to_equations; lia.
  - change (2 ^ (8 * Z.of_nat 3)) with (256 * (256 * 256)). Z.div_mod_to_equations; lia.
Qed.
Section Tb.
  Variables (a b c d : Z) (T : list Z).
  Hypotheses (Ha : byte a) (Hb : byte b) (Hc : byte c) (Hd : byte d).
  Lemma tb24 : tb T (b4 a b c d) 24 = nth (Z.to_nat a) T 0.
  Proof. unfold tb. change 24 with (8 * Z.of_nat 3) at 1. rewrite (b4_byte a b c d 3) by (cbn; auto). reflexivity. Qed.
  Lemma tb16 : tb T (b4 a b c d) 16 = nth (Z.to_nat b) T 0.
  Proof. unfold tb. change 16 with (8 * Z.of_nat 2) at 1. rewrite (b4_byte a b c d 2) by (cbn; auto). reflexivity. Qed.
  Lemma tb8 : tb T (b4 a b c d) 8 = nth (Z.to_nat c) T 0.
  Proof. unfold tb. change 8 with (8 * Z.of_nat 1) at 1. rewrite (b4_byte a b c d 1) by (cbn; auto). reflexivity. Qed.
  Lemma tb0 : tb T (b4 a b c d) 0 = nth (Z.to_nat d) T 0.
  Proof. unfold tb. pose proof (b4_byte a b c d 0 Ha Hb Hc Hd (or_introl eq_refl)) as E. change (8 * Z.of_nat 0) with 0 in E. rewrite E. reflexivity. Qed.
End Tb.
Lemma read_b4 a b c d r : byte a -> byte b -> byte c -> byte d -> bytes r -> read32be (a :: b :: c :: d :: r) = b4 a b c d.
Proof.
  intros. rewrite read32be_spec by (fb; auto). unfold rd. cbn [nth]. apply b4_be.
Qed.
Lemma write_b4 a b c d : byte a -> byte b -> byte c -> byte d -> write32be (b4 a b c d) = [a; b; c; d].
Proof.
  intros. rewrite write32be_spec. rewrite <- b4_be. change 4%nat with (length [a; b; c; d]). apply be_bytes_be_val.
  fb; auto.
Qed.

(* ---- the tables ---- *)
Definition chk (T : list Z) (f : Z -> Z) : bool := forallb (fun x => nth (Z.to_nat x) T 0 =? f x) (zseq 0 256).
Lemma chk_ok T f : chk T f = true -> forall x, byte x -> nth (Z.to_nat x) T 0 = f x.
Proof. intros H x Hx. apply Z.eqb_eq. apply (byte_all (fun x => nth (Z.to_nat x) T 0 =? f x) H x Hx). Qed.
(* the S-box as tables, to evaluate the algebraic definition only once *)
Definition SB : list Z := Eval vm_compute in map sbox (zseq 0 256).
Definition IB : list Z := Eval vm_compute in map inv_sbox (zseq 0 256).
Lemma SB_eq : map sbox (zseq 0 256) = SB. Proof. vm_compute. reflexivity. Qed.
Lemma IB_eq : map inv_sbox (zseq 0 256) = IB. Proof. vm_compute. reflexivity. Qed.
Lemma nth_map_zseq (f : Z -> Z) x : byte x -> nth (Z.to_nat x) (map f (zseq 0 256)) 0 = f x.
Proof.
  intros H. unfold byte in H. rewrite (nth_indep _ 0 (f 0)) by (rewrite map_length, zseq_length; lia). rewrite map_nth. f_equal.
  assert (K : forall n s i d, (i < n)%nat -> nth i (zseq s n) d = s + Z.of_nat i).
  { clear. induction n; intros s i d L; [lia|]. cbn [zseq]. destruct i; cbn [nth]; [lia|]. rewrite IHn by lia. lia. }
  rewrite K by lia. lia.
Qed.
Definition sb (x : Z) : Z := nth (Z.to_nat x) SB 0.
Definition ib (x : Z) : Z := nth (Z.to_nat x) IB 0.
Lemma sb_eq x : byte x -> sbox x = sb x.
Proof. intros H. unfold sb. rewrite <- SB_eq. symmetry. apply nth_map_zseq; auto. Qed.
Lemma ib_eq x : byte x -> inv_sbox x = ib x.
Proof. intros H. unfold ib. rewrite <- IB_eq. symmetry. apply nth_map_zseq; auto. Qed.
Lemma sb_byte x : byte (sb x).
Proof. apply (Forall_nth_d byte); [|auto]. apply Forall_forall. intros v Hv. apply byteb_spec. revert v Hv. apply forallb_forall. vm_compute. reflexivity. Qed.
Lemma ib_byte x : byte (ib x).
Proof. apply (Forall_nth_d byte); [|auto]. apply Forall_forall. intros v Hv. apply byteb_spec. revert v Hv. apply forallb_forall. vm_compute. reflexivity. Qed.
#[local] Hint Resolve sb_byte ib_byte : core.
Lemma ib_sb x : byte x -> ib (sb x) = x.
Proof. intros H. apply Z.eqb_eq. revert x H. apply (byte_all (fun x => ib (sb x) =? x)). vm_compute. reflexivity. Qed.
Lemma sb_ib x : byte x -> sb (ib x) = x.
Proof. intros H. apply Z.eqb_eq. revert x H. apply (byte_all (fun x => sb (ib x) =? x)). vm_compute. reflexivity. Qed.

(* multiplications by the constants *)
Definition gcol (c : Z) : list Z := map (fun i => Nat.iter i xtime c) (seq 0 8).
Definition gm (c x : Z) : Z := tlin (gcol c) x.
Definition consts : list Z := [1; 2; 3; 9; 11; 13; 14].
Lemma gm_eq c x : In c consts -> byte x -> gmul c x = gm c x.
Proof.
  intros Hc Hx. apply Z.eqb_eq. revert x Hx. apply (byte_all (fun x => gmul c x =? gm c x)).
  revert c Hc. apply forallb_forall. vm_compute. reflexivity.
Qed.
Lemma gm_lin c : linear (gm c).
Proof. apply tlin_lin. Qed.
Lemma gm_byte c x : In c consts -> byte x -> byte (gm c x).
Proof.
  intros Hc Hx. apply byteb_spec. revert x Hx. apply (byte_all (fun x => byteb (gm c x))).
  revert c Hc. apply forallb_forall. vm_compute. reflexivity.
Qed.

Lemma TE0_eq x : byte x -> nth (Z.to_nat x) TE0 0 = b4 (gm 2 (sb x)) (sb x) (sb x) (gm 3 (sb x)).
Proof. revert x. apply chk_ok. vm_compute. reflexivity. Qed.
Lemma TE1_eq x : byte x -> nth (Z.to_nat x) TE1 0 = b4 (gm 3 (sb x)) (gm 2 (sb x)) (sb x) (sb x).
Proof. revert x. apply chk_ok. vm_compute. reflexivity. Qed.
Lemma TE2_eq x : byte x -> nth (Z.to_nat x) TE2 0 = b4 (sb x) (gm 3 (sb x)) (gm 2 (sb x)) (sb x).
Proof. revert x. apply chk_ok. vm_compute. reflexivity. Qed.
Lemma TE3_eq x : byte x -> nth (Z.to_nat x) TE3 0 = b4 (sb x) (sb x) (gm 3 (sb x)) (gm 2 (sb x)).
Proof. revert x. apply chk_ok. vm_compute. reflexivity. Qed.
Lemma TD0_eq x : byte x -> nth (Z.to_nat x) TD0 0 = b4 (gm 14 (ib x)) (gm 9 (ib x)) (gm 13 (ib x)) (gm 11 (ib x)).
Proof. revert x. apply chk_ok. vm_compute. reflexivity. Qed.
Lemma TD1_eq x : byte x -> nth (Z.to_nat x) TD1 0 = b4 (gm 11 (ib x)) (gm 14 (ib x)) (gm 9 (ib x)) (gm 13 (ib x)).
Proof. revert x. apply chk_ok. vm_compute. reflexivity. Qed.
Lemma TD2_eq x : byte x -> nth (Z.to_nat x) TD2 0 = b4 (gm 13 (ib x)) (gm 11 (ib x)) (gm 14 (ib x)) (gm 9 (ib x)).
Proof. revert x. apply chk_ok. vm_compute. reflexivity. Qed.
Lemma TD3_eq x : byte x -> nth (Z.to_nat x) TD3 0 = b4 (gm 9 (ib x)) (gm 13 (ib x)) (gm 11 (ib x)) (gm 14 (ib x)).
Proof. revert x. apply chk_ok. vm_compute. reflexivity. Qed.
Lemma TD4_eq x : byte x -> nth (Z.to_nat x) TD4 0 = ib x.
Proof. revert x. apply chk_ok. vm_compute. reflexivity. Qed.

(* ---- one round ---- *)
Definition ok16 (s : list Z) : Prop := bytes s /\ length s = 16%nat.
Definition W (s : list Z) : st4 :=
  let n i := nth i s 0 in
  (b4 (n 0%nat) (n 1%nat) (n 2%nat) (n 3%nat), b4 (n 4%nat) (n 5%nat) (n 6%nat) (n 7%nat),
   b4 (n 8%nat) (n 9%nat) (n 10%nat) (n 11%nat), b4 (n 12%nat) (n 13%nat) (n 14%nat) (n 15%nat)).
Definition Kw (K : list Z) (o : nat) : st4 := (rd K o, rd K (o + 1), rd K (o + 2), rd K (o + 3)).

(* the specification with the tabulated substitution and multiplications *)
Definition mixc (c : list Z) : list Z :=
  let '(a, b, c, d) := (nth 0 c 0, nth 1 c 0, nth 2 c 0, nth 3 c 0) in
  let m4 x y z t := Z.lxor (Z.lxor (Z.lxor x y) z) t in
  [m4 (gm 2 a) (gm 3 b) c d; m4 a (gm 2 b) (gm 3 c) d; m4 a b (gm 2 c) (gm 3 d); m4 (gm 3 a) b c (gm 2 d)].
Definition imixc (c : list Z) : list Z :=
  let '(a, b, c, d) := (nth 0 c 0, nth 1 c 0, nth 2 c 0, nth 3 c 0) in
  let m4 x y z t := Z.lxor (Z.lxor (Z.lxor x y) z) t in
  [m4 (gm 14 a) (gm 11 b) (gm 13 c) (gm 9 d); m4 (gm 9 a) (gm 14 b) (gm 11 c) (gm 13 d);
   m4 (gm 13 a) (gm 9 b) (gm 14 c) (gm 11 d); m4 (gm 11 a) (gm 13 b) (gm 9 c) (gm 14 d)].
Lemma nth_byte s i : bytes s -> byte (nth i s 0).
Proof. intros H. apply Forall_nth_d; auto. Qed.
Lemma mixc_eq c : bytes c -> mix_column c = mixc c.
Proof. intros H. unfold mix_column, mixc. rewrite !gm_eq by (cbn; auto 10 using nth_byte). reflexivity. Qed.
Lemma imixc_eq c : bytes c -> inv_mix_column c = imixc c.
Proof. intros H. unfold inv_mix_column, imixc. rewrite !gm_eq by (cbn; auto 10 using nth_byte). reflexivity. Qed.
Lemma columns_ext f g s : bytes s -> (forall c, bytes c -> f c = g c) -> columns f s = columns g s.
Proof. intros H E. unfold columns. f_equal. apply map_ext. intros c. apply E. auto using bytes_firstn, bytes_skipn. Qed.
Lemma sub_eq s : bytes s -> sub_bytes s = map sb s.
Proof. intros H. apply map_ext_Forall. eapply Forall_impl; [|exact H]. intros a Ha. apply sb_eq; auto. Qed.
Lemma isub_eq s : bytes s -> inv_sub_bytes s = map ib s.
Proof. intros H. apply map_ext_Forall. eapply Forall_impl; [|exact H]. intros a Ha. apply ib_eq; auto. Qed.
Lemma map_bytes (f : Z -> Z) s : (forall x, byte (f x)) -> bytes (map f s).
Proof. intros H. apply Forall_forall. intros v Hv. apply in_map_iff in Hv. destruct Hv as [x [<- _]]. auto. Qed.
Lemma shift_ok s : bytes s -> ok16 (shift_rows s).
Proof. intros H. split; [|reflexivity]. apply Forall_forall. intros v Hv. apply in_map_iff in Hv. destruct Hv as [x [<- _]]. apply nth_byte; auto. Qed.
Lemma ishift_ok s : bytes s -> ok16 (inv_shift_rows s).
Proof. intros H. split; [|reflexivity]. apply Forall_forall. intros v Hv. apply in_map_iff in Hv. destruct Hv as [x [<- _]]. apply nth_byte; auto. Qed.
Lemma xor_byte a b : byte a -> byte b -> byte (Z.lxor a b).
Proof. unfold byte. intros. change 256 with (2 ^ 8) in *. apply lxor_range; lia. Qed.
Ltac bytes_tac := repeat (first [assumption | lazymatch goal with
  | |- byte (Z.lxor _ _) => apply xor_byte
  | |- byte (gm _ _) => apply gm_byte; [cbn; auto 10|]
  | |- byte (sb _) => apply sb_byte
  | |- byte (ib _) => apply ib_byte
  | |- byte 0 => apply byte0
  end]).
Lemma mixc_ok s : bytes s -> ok16 (columns mixc s).
Proof.
  intros H. assert (K : forall c, bytes c -> bytes (mixc c)).
  { intros c Hc. unfold mixc. pose proof (fun i => nth_byte c i Hc) as N. fb; bytes_tac; auto. }
  split; [|reflexivity]. unfold columns. cbn [seq map concat]. repeat (apply bytes_app; split; [apply K; auto using bytes_firstn, bytes_skipn|]). constructor.
Qed.
Lemma imixc_ok s : bytes s -> ok16 (columns imixc s).
Proof.
  intros H. assert (K : forall c, bytes c -> bytes (imixc c)).
  { intros c Hc. unfold imixc. pose proof (fun i => nth_byte c i Hc) as N. fb; bytes_tac; auto. }
  split; [|reflexivity]. unfold columns. cbn [seq map concat]. repeat (apply bytes_app; split; [apply K; auto using bytes_firstn, bytes_skipn|]). constructor.
Qed.
Lemma mix_cols_eq s : bytes s -> mix_columns s = columns mixc s.
Proof. intros H. apply columns_ext; auto using mixc_eq. Qed.
Lemma imix_cols_eq s : bytes s -> inv_mix_columns s = columns imixc s.
Proof. intros H. apply columns_ext; auto using imixc_eq. Qed.
Lemma xorl_ok a b : ok16 a -> ok16 b -> ok16 (xorl a b).
Proof. intros [A1 A2] [B1 B2]. split; [apply xorl_bytes; auto|rewrite xorl_length; lia]. Qed.

Ltac dest16 s H L :=
  do 16 (destruct s as [|? s]; [discriminate L|]); destruct s as [|? s]; [|discriminate L];
  unfold bytes in H; repeat match type of H with Forall _ (_ :: _) => let H1 := fresh "B" in let H2 := fresh "H" in
    (assert (H1 := Forall_inv H); assert (H2 := Forall_inv_tail H); clear H; rename H2 into H) end; clear H L.
Ltac tbs := repeat first [rewrite tb24 by bytes_tac | rewrite tb16 by bytes_tac | rewrite tb8 by bytes_tac | rewrite tb0 by bytes_tac].

Lemma S24_eq x : byte x -> shl32 x 24 = b4 x 0 0 0.
Proof. intros Hx. unfold byte in Hx. unfold shl32, w32, b4, M32. rewrite Z.shiftl_mul_pow2 by lia. change (2 ^ 24) with 16777216. rewrite Z.mod_small by lia. lia. Qed.
Lemma S16_eq x : byte x -> shl32 x 16 = b4 0 x 0 0.
Proof. intros Hx. unfold byte in Hx. unfold shl32, w32, b4, M32. rewrite Z.shiftl_mul_pow2 by lia. change (2 ^ 16) with 65536. rewrite Z.mod_small by lia. lia. Qed.
Lemma S8_eq x : byte x -> shl32 x 8 = b4 0 0 x 0.
Proof. intros Hx. unfold byte in Hx. unfold shl32, w32, b4, M32. rewrite Z.shiftl_mul_pow2 by lia. change (2 ^ 8) with 256. rewrite Z.mod_small by lia. lia. Qed.
Lemma S0_eq x : byte x -> shl32 x 0 = b4 0 0 0 x.
Proof. intros Hx. unfold byte in Hx. unfold shl32, w32, b4, M32. rewrite Z.shiftl_mul_pow2 by lia. change (2 ^ 0) with 1. rewrite Z.mod_small by lia. lia. Qed.
Lemma b4_000 x : b4 0 0 0 x = x.
Proof. unfold b4. lia. Qed.
#[local] Opaque gm sb ib b4 Z.lxor.
Section Words.
  Variables a0 a1 a2 a3 b0 b1 b2 b3 c0 c1 c2 c3 d0 d1 d2 d3 k0 k1 k2 k3 : Z.
  Hypotheses (A0 : byte a0) (A1 : byte a1) (A2 : byte a2) (A3 : byte a3) (B0 : byte b0) (B1 : byte b1) (B2 : byte b2) (B3 : byte b3)
    (C0 : byte c0) (C1 : byte c1) (C2 : byte c2) (C3 : byte c3) (D0 : byte d0) (D1 : byte d1) (D2 : byte d2) (D3 : byte d3)
    (K0 : byte k0) (K1 : byte k1) (K2 : byte k2) (K3 : byte k3).
  Definition b4l (l : list Z) : Z := b4 (nth 0 l 0) (nth 1 l 0) (nth 2 l 0) (nth 3 l 0).
  Lemma te_word_eq : te_word (b4 a0 a1 a2 a3) (b4 b0 b1 b2 b3) (b4 c0 c1 c2 c3) (b4 d0 d1 d2 d3) (b4 k0 k1 k2 k3) =
    b4l (xorl (mixc [sb a0; sb b1; sb c2; sb d3]) [k0; k1; k2; k3]).
  Proof.
    unfold te_word. tbs. rewrite TE0_eq, TE1_eq, TE2_eq, TE3_eq by auto.
    rewrite !b4_lxor by bytes_tac. reflexivity.
  Qed.
  Lemma td_word_eq : td_word (b4 a0 a1 a2 a3) (b4 b0 b1 b2 b3) (b4 c0 c1 c2 c3) (b4 d0 d1 d2 d3) (b4 k0 k1 k2 k3) =
    b4l (xorl (imixc [ib a0; ib b1; ib c2; ib d3]) [k0; k1; k2; k3]).
  Proof.
    unfold td_word. tbs. rewrite TD0_eq, TD1_eq, TD2_eq, TD3_eq by auto.
    rewrite !b4_lxor by bytes_tac. reflexivity.
  Qed.
  Lemma te_last_eq : te_last (b4 a0 a1 a2 a3) (b4 b0 b1 b2 b3) (b4 c0 c1 c2 c3) (b4 d0 d1 d2 d3) (b4 k0 k1 k2 k3) =
    b4l (xorl [sb a0; sb b1; sb c2; sb d3] [k0; k1; k2; k3]).
  Proof.
    unfold te_last. tbs. rewrite TE0_eq, TE1_eq, TE2_eq, TE3_eq by auto.
    rewrite mask3, mask2, mask1, mask0 by bytes_tac. rewrite !b4_lxor by bytes_tac. rewrite ?Z.lxor_0_r, ?Z.lxor_0_l. reflexivity.
  Qed.
  Lemma td_last_eq : td_last (b4 a0 a1 a2 a3) (b4 b0 b1 b2 b3) (b4 c0 c1 c2 c3) (b4 d0 d1 d2 d3) (b4 k0 k1 k2 k3) =
    b4l (xorl [ib a0; ib b1; ib c2; ib d3] [k0; k1; k2; k3]).
  Proof.
    unfold td_last. tbs. rewrite !TD4_eq by auto.
    rewrite S24_eq, S16_eq, S8_eq, S0_eq by auto. rewrite !b4_lxor by bytes_tac. rewrite ?Z.lxor_0_r, ?Z.lxor_0_l. reflexivity.
  Qed.
  Lemma imc_word_eq : imc_word (b4 a0 a1 a2 a3) = b4l (imixc [a0; a1; a2; a3]).
  Proof.
    unfold imc_word. tbs. rewrite !TE1_eq by auto. rewrite !mask0 by bytes_tac.
    rewrite !b4_000.
    rewrite TD0_eq, TD1_eq, TD2_eq, TD3_eq by bytes_tac. rewrite !ib_sb by auto. rewrite !b4_lxor by bytes_tac. reflexivity.
  Qed.
End Words.

Lemma st4_inj (a b c d a' b' c' d' : Z) : (a, b, c, d) = (a', b', c', d') -> a = a' /\ b = b' /\ c = c' /\ d = d'.
Proof. intros E. repeat split; congruence. Qed.
Lemma enc_round_eq K o s k : ok16 s -> ok16 k -> Kw K o = W k ->
  enc_round K o (W s) = W (xorl (columns mixc (shift_rows (map sb s))) k).
Proof.
  intros [Hs Ls] [Hk Lk] E. unfold Kw in E. unfold enc_round. 
  dest16 s Hs Ls. dest16 k Hk Lk. unfold W in *. cbn [nth] in *. apply st4_inj in E. destruct E as (E0 & E1 & E2 & E3).
  rewrite E0, E1, E2, E3. rewrite !te_word_eq by assumption. reflexivity.
Qed.
Lemma dec_round_eq K o s k : ok16 s -> ok16 k -> Kw K o = W k ->
  dec_round K o (W s) = W (xorl (columns imixc (map ib (inv_shift_rows s))) k).
Proof.
  intros [Hs Ls] [Hk Lk] E. unfold Kw in E. unfold dec_round. 
  dest16 s Hs Ls. dest16 k Hk Lk. unfold W in *. cbn [nth] in *. apply st4_inj in E. destruct E as (E0 & E1 & E2 & E3).
  rewrite E0, E1, E2, E3. rewrite !td_word_eq by assumption. reflexivity.
Qed.
Definition enc_out (K : list Z) (o : nat) (t : st4) : list Z :=
  let '(t0, t1, t2, t3) := t in
  write32be (te_last t0 t1 t2 t3 (rd K o)) ++ write32be (te_last t1 t2 t3 t0 (rd K (o + 1))) ++
  write32be (te_last t2 t3 t0 t1 (rd K (o + 2))) ++ write32be (te_last t3 t0 t1 t2 (rd K (o + 3))).
Definition dec_out (K : list Z) (o : nat) (t : st4) : list Z :=
  let '(t0, t1, t2, t3) := t in
  write32be (td_last t0 t3 t2 t1 (rd K o)) ++ write32be (td_last t1 t0 t3 t2 (rd K (o + 1))) ++
  write32be (td_last t2 t1 t0 t3 (rd K (o + 2))) ++ write32be (td_last t3 t2 t1 t0 (rd K (o + 3))).
Lemma enc_out_eq K o s k : ok16 s -> ok16 k -> Kw K o = W k ->
  enc_out K o (W s) = xorl (shift_rows (map sb s)) k.
Proof.
  intros [Hs Ls] [Hk Lk] E. unfold Kw in E. unfold enc_out. 
  dest16 s Hs Ls. dest16 k Hk Lk. unfold W in *. cbn [nth] in *. apply st4_inj in E. destruct E as (E0 & E1 & E2 & E3).
  rewrite E0, E1, E2, E3. rewrite !te_last_eq by assumption. unfold b4l. rewrite !write_b4 by (apply nth_byte; apply xorl_bytes; fb; bytes_tac). reflexivity.
Qed.
Lemma dec_out_eq K o s k : ok16 s -> ok16 k -> Kw K o = W k ->
  dec_out K o (W s) = xorl (map ib (inv_shift_rows s)) k.
Proof.
  intros [Hs Ls] [Hk Lk] E. unfold Kw in E. unfold dec_out. 
  dest16 s Hs Ls. dest16 k Hk Lk. unfold W in *. cbn [nth] in *. apply st4_inj in E. destruct E as (E0 & E1 & E2 & E3).
  rewrite E0, E1, E2, E3. rewrite !td_last_eq by assumption. unfold b4l. rewrite !write_b4 by (apply nth_byte; apply xorl_bytes; fb; bytes_tac). reflexivity.
Qed.
Lemma load4_eq K s k : ok16 s -> ok16 k -> Kw K 0 = W k -> load4 K s = W (xorl s k).
Proof.
  intros [Hs Ls] [Hk Lk] E. unfold Kw in E. unfold load4. cbn [Nat.add] in E.
  dest16 s Hs Ls. dest16 k Hk Lk. unfold W in *. cbn [nth] in *. apply st4_inj in E. destruct E as (E0 & E1 & E2 & E3).
  rewrite E0, E1, E2, E3. cbn [skipn]. rewrite !read_b4 by (auto; fb; auto). rewrite !b4_lxor by auto. reflexivity.
Qed.

(* ---- the loops ---- *)
Definition rnd (k s : list Z) : list Z := xorl (columns mixc (shift_rows (map sb s))) k.
Definition drnd (k s : list Z) : list Z := xorl (columns imixc (map ib (inv_shift_rows s))) k.
Lemma rnd_ok k s : ok16 s -> ok16 k -> ok16 (rnd k s).
Proof. intros [A B] C. apply xorl_ok; auto. apply mixc_ok. apply shift_ok. apply map_bytes. apply sb_byte. Qed.
Lemma drnd_ok k s : ok16 s -> ok16 k -> ok16 (drnd k s).
Proof. intros [A B] C. apply xorl_ok; auto. apply imixc_ok. apply map_bytes. apply ib_byte. Qed.
Lemma fold_ok (f : list Z -> list Z -> list Z) (rk : nat -> list Z) l : (forall k s, ok16 s -> ok16 k -> ok16 (f k s)) ->
  (forall i, In i l -> ok16 (rk i)) -> forall s, ok16 s -> ok16 (fold_left (fun s i => f (rk i) s) l s).
Proof. intros Hf. induction l as [|i l IH]; intros Hr s Hs; cbn [fold_left]; auto. apply IH; [intros; apply Hr; cbn; auto|]. apply Hf; auto. apply Hr; cbn; auto. Qed.

Section Loop.
  Variables (K : list Z) (rk : nat -> list Z) (nr : nat).
  Hypothesis HK : forall r, (r <= nr)%nat -> ok16 (rk r) /\ Kw K (4 * r) = W (rk r).
  Lemma enc_loop_spec r : forall j s, ok16 s -> (2 * j + 2 * r + 2 <= nr)%nat ->
    enc_loop K (S r) (W s) (8 * j) = (W (fold_left (fun s i => rnd (rk i) s) (seq (2 * j + 1) (2 * r + 1)) s), (8 * (j + r + 1))%nat).
  Proof.
    induction r as [|r IH]; intros j s Hs Hb; cbn [enc_loop].
    - replace (8 * j + 4)%nat with (4 * (2 * j + 1))%nat by lia.
      destruct (HK (2 * j + 1)) as [O E]; [lia|]. rewrite (enc_round_eq K _ s (rk (2 * j + 1)%nat)) by auto. f_equal. lia.
    - replace (8 * j + 4)%nat with (4 * (2 * j + 1))%nat by lia. destruct (HK (2 * j + 1)) as [O1 E1]; [lia|].
      rewrite (enc_round_eq K _ s (rk (2 * j + 1)%nat)) by auto. fold (rnd (rk (2 * j + 1)%nat) s).
      destruct (HK (2 * j + 2)) as [O2 E2]; [lia|].
      replace (8 * j + 8)%nat with (4 * (2 * j + 2))%nat by lia.
      rewrite (enc_round_eq K _ _ (rk (2 * j + 2)%nat)) by (auto using rnd_ok). fold (rnd (rk (2 * j + 2)%nat) (rnd (rk (2 * j + 1)%nat) s)).
      replace (4 * (2 * j + 2))%nat with (8 * (S j))%nat by lia.
      change (match r with O => _ | _ => _ end) with (enc_loop K (S r) (W (rnd (rk (2 * j + 2)%nat) (rnd (rk (2 * j + 1)%nat) s))) (8 * S j)).
      rewrite IH by (auto using rnd_ok; lia).
      replace (2 * S r + 1)%nat with (S (S (2 * r + 1))) by lia. cbn [seq fold_left].
      replace (S (2 * j + 1)) with (2 * j + 2)%nat by lia. replace (S (2 * j + 2)) with (2 * S j + 1)%nat by lia. f_equal. lia.
  Qed.
  Lemma dec_loop_spec r : forall j s, ok16 s -> (2 * j + 2 * r + 2 <= nr)%nat ->
    dec_loop K (S r) (W s) (8 * j) = (W (fold_left (fun s i => drnd (rk i) s) (seq (2 * j + 1) (2 * r + 1)) s), (8 * (j + r + 1))%nat).
  Proof.
    induction r as [|r IH]; intros j s Hs Hb; cbn [dec_loop].
    - replace (8 * j + 4)%nat with (4 * (2 * j + 1))%nat by lia.
      destruct (HK (2 * j + 1)) as [O E]; [lia|]. rewrite (dec_round_eq K _ s (rk (2 * j + 1)%nat)) by auto. f_equal. lia.
    - replace (8 * j + 4)%nat with (4 * (2 * j + 1))%nat by lia. destruct (HK (2 * j + 1)) as [O1 E1]; [lia|].
      rewrite (dec_round_eq K _ s (rk (2 * j + 1)%nat)) by auto. fold (drnd (rk (2 * j + 1)%nat) s).
      destruct (HK (2 * j + 2)) as [O2 E2]; [lia|].
      replace (8 * j + 8)%nat with (4 * (2 * j + 2))%nat by lia.
      rewrite (dec_round_eq K _ _ (rk (2 * j + 2)%nat)) by (auto using drnd_ok). fold (drnd (rk (2 * j + 2)%nat) (drnd (rk (2 * j + 1)%nat) s)).
      replace (4 * (2 * j + 2))%nat with (8 * (S j))%nat by lia.
      change (match r with O => _ | _ => _ end) with (dec_loop K (S r) (W (drnd (rk (2 * j + 2)%nat) (drnd (rk (2 * j + 1)%nat) s))) (8 * S j)).
      rewrite IH by (auto using drnd_ok; lia).
      replace (2 * S r + 1)%nat with (S (S (2 * r + 1))) by lia. cbn [seq fold_left].
      replace (S (2 * j + 1)) with (2 * j + 2)%nat by lia. replace (S (2 * j + 2)) with (2 * S j + 1)%nat by lia. f_equal. lia.
  Qed.
End Loop.

(* ---- the block operations in terms of round keys ---- *)
Lemma enc_blk nr h K D rk src : nr = (2 * S h)%nat -> (forall r, (r <= nr)%nat -> ok16 (rk r) /\ Kw K (4 * r) = W (rk r)) -> ok16 src ->
  aes_encrypt (MkAes nr K D) src =
  xorl (shift_rows (map sb (fold_left (fun s i => rnd (rk i) s) (seq 1 (nr - 1)) (xorl src (rk 0%nat))))) (rk nr).
Proof.
  intros EN HK HS. destruct (HK 0%nat) as [O0 E0]; [lia|]. destruct (HK nr) as [ON EL]; [lia|].
  unfold aes_encrypt. cbn [aes_enckey aes_rounds]. rewrite (load4_eq K src (rk 0%nat)) by auto.
  replace (Nat.div2 nr) with (S h) by (rewrite EN, Nat.div2_double; reflexivity).
  pose proof (enc_loop_spec K rk nr HK h 0 (xorl src (rk 0%nat)) (xorl_ok _ _ HS O0) ltac:(lia)) as E.
  replace (2 * h + 1)%nat with (nr - 1)%nat in E by lia. change (8 * 0)%nat with 0%nat in E. change (2 * 0 + 1)%nat with 1%nat in E.
  rewrite E. replace (8 * (0 + h + 1))%nat with (4 * nr)%nat by lia.
  set (s := fold_left _ _ _). assert (OS : ok16 s).
  { apply fold_ok; auto using rnd_ok, xorl_ok. intros i Hi. apply in_seq in Hi. apply HK. lia. }
  rewrite <- (enc_out_eq K (4 * nr) s (rk nr)) by auto. unfold enc_out. destruct (W s) as [[[? ?] ?] ?]. reflexivity.
Qed.
Lemma dec_blk nr h K D rk src : nr = (2 * S h)%nat -> (forall r, (r <= nr)%nat -> ok16 (rk r) /\ Kw D (4 * r) = W (rk r)) -> ok16 src ->
  aes_decrypt (MkAes nr K D) src =
  xorl (map ib (inv_shift_rows (fold_left (fun s i => drnd (rk i) s) (seq 1 (nr - 1)) (xorl src (rk 0%nat))))) (rk nr).
Proof.
  intros EN HK HS. destruct (HK 0%nat) as [O0 E0]; [lia|]. destruct (HK nr) as [ON EL]; [lia|].
  unfold aes_decrypt. cbn [aes_deckey aes_rounds]. rewrite (load4_eq D src (rk 0%nat)) by auto.
  replace (Nat.div2 nr) with (S h) by (rewrite EN, Nat.div2_double; reflexivity).
  pose proof (dec_loop_spec D rk nr HK h 0 (xorl src (rk 0%nat)) (xorl_ok _ _ HS O0) ltac:(lia)) as E.
  replace (2 * h + 1)%nat with (nr - 1)%nat in E by lia. change (8 * 0)%nat with 0%nat in E. change (2 * 0 + 1)%nat with 1%nat in E.
  rewrite E. replace (8 * (0 + h + 1))%nat with (4 * nr)%nat by lia.
  set (s := fold_left _ _ _). assert (OS : ok16 s).
  { apply fold_ok; auto using drnd_ok, xorl_ok. intros i Hi. apply in_seq in Hi. apply HK. lia. }
  rewrite <- (dec_out_eq D (4 * nr) s (rk nr)) by auto. unfold dec_out. destruct (W s) as [[[? ?] ?] ?]. reflexivity.
Qed.

(* the specification in the same form *)
Lemma rounds_eq w l : (forall r, In r l -> ok16 (round_key w r)) -> forall s, ok16 s ->
  fold_left (fips_round w) l s = fold_left (fun s i => rnd (round_key w i) s) l s.
Proof.
  induction l as [|i l IH]; intros Hr s Hs; [reflexivity|]. cbn [fold_left].
  assert (E : fips_round w s i = rnd (round_key w i) s).
  { unfold fips_round, rnd, add_round_key. destruct Hs as [A B]. rewrite sub_eq by auto. rewrite mix_cols_eq; [reflexivity|]. apply shift_ok, map_bytes, sb_byte. }
  rewrite E. apply IH; [intros; apply Hr; cbn; auto|]. apply rnd_ok; auto. apply Hr; cbn; auto.
Qed.
Lemma fips_eq nr w src : (forall r, (r <= nr)%nat -> ok16 (round_key w r)) -> ok16 src -> (1 <= nr)%nat ->
  fips_cipher nr w src = xorl (shift_rows (map sb (fold_left (fun s i => rnd (round_key w i) s) (seq 1 (nr - 1)) (xorl src (round_key w 0))))) (round_key w nr).
Proof.
  intros HK HS HN. unfold fips_cipher, add_round_key.
  assert (O0 := HK 0%nat ltac:(lia)).
  rewrite rounds_eq by (auto using xorl_ok; intros r Hr; apply in_seq in Hr; apply HK; lia).
  f_equal. f_equal. apply sub_eq. apply fold_ok; auto using rnd_ok, xorl_ok. intros i Hi. apply in_seq in Hi. apply HK. lia.
Qed.
