(* C14-C16: DER *)
From Verif.Base Require Import Prelude.
From Verif.Model Require Import Bio Asn1.
From Verif.Spec Require Import DerSpec.
From Verif.Proof Require Import Asn1Proof.
#[local] Ltac Zify.zify_post_hook ::= idtac.

(* ---- C14 ---- *)
(* The writer emits the X.690 encoding on exactly asn1_size_mpz bytes whenever
   the content fits in 65535 bytes, and hits its CHECK otherwise. *)
Theorem C14_write_mpz_is_der n : 0 <= n -> 2 * n < 256 ^ 65535 ->
  exists bs, asn1_write_mpz n = Some bs /\ der_int n bs /\ bytes bs /\ Z.of_nat (length bs) = asn1_size_mpz n.
Proof. intros Hn H. apply write_mpz_der; auto. apply (proj1 (der_bytelen_le n 65535 Hn eq_refl)). exact H. Qed.
Theorem C14_write_mpz_abort n : 0 <= n -> 256 ^ 65535 <= 2 * n -> asn1_write_mpz n = None.
Proof.
  intros Hn H. apply write_mpz_none; auto. apply Z.nle_gt. intros L.
  apply (proj2 (der_bytelen_le n 65535 Hn eq_refl)) in L. apply (Z.lt_irrefl (2 * n)).
  eapply Z.lt_le_trans; eassumption.
Qed.
Example C14_write_ex :
  asn1_write_mpz 0xff7f = Some [2; 3; 0; 0xff; 0x7f] /\ asn1_size_mpz 0xff7f = 5 /\
  asn1_write_mpz 0 = Some [2; 1; 0] /\
  firstn 5 (match asn1_write_mpz (2 ^ 2047) with Some l => l | None => [] end) = [2; 0x82; 1; 1; 0].
Proof. vm_compute. auto. Qed.

(* Reading what was written gives the number back, consumes exactly the bytes
   written, whatever follows and in either mode. *)
Theorem C14_mpz_roundtrip n rest strict : 0 <= n < 256 ^ 2048 -> bytes rest ->
  exists bs, asn1_write_mpz n = Some bs /\ asn1_read_mpz (bs ++ rest) strict = ROk n rest.
Proof. apply mpz_roundtrip. Qed.
Example C14_mpz_roundtrip_ex : asn1_read_mpz ([2; 3; 0; 0xff; 0x7f] ++ [1; 2]) true = ROk 0xff7f [1; 2].
Proof. reflexivity. Qed.

Theorem C14_int_roundtrip num rest strict : bytes num -> bytes rest -> Z.of_nat (length num) < 0xffff ->
  exists bs, asn1_write_int num = Some bs /\ der_int (be_val num) bs /\
    Z.of_nat (length bs) = asn1_size_int num /\
    asn1_read_int (length num) (bs ++ rest) strict = ROk num rest.
Proof.
  intros H1 H2 H3. destruct (int_roundtrip num rest strict H1 H2 H3) as (bs & E & R).
  destruct (write_int_der num H1 H3) as (bs' & E' & D & _ & L). rewrite E in E'. injection E' as <-.
  exists bs. auto.
Qed.
Example C14_int_ex : asn1_write_int [0; 0; 0x80; 1] = Some [2; 3; 0; 0x80; 1] /\
  asn1_read_int 4 [2; 3; 0; 0x80; 1; 9] true = ROk [0; 0; 0x80; 1] [9].
Proof. split; reflexivity. Qed.

(* A sequence header written for the size of what follows is accepted; in
   strict mode a header for any other size is rejected. *)
Theorem C14_seq_roundtrip rest l : bytes rest ->
  asn1_write_seq (Z.of_nat (length rest)) = Some l ->
  asn1_read_seq (l ++ rest) true = ROk tt rest /\ asn1_read_seq (l ++ rest) false = ROk tt rest /\
  Z.of_nat (length l) = 1 + asn1_size_size (Z.of_nat (length rest)).
Proof.
  intros Hr E. unfold asn1_write_seq in E. destruct (asn1_write_size (Z.of_nat (length rest))) as [s|] eqn:ES; [|discriminate].
  injection E as <-. assert (Hd := ES). apply write_size_iff in Hd; [|lia]. destruct Hd as [Hd Hle].
  destruct (write_size_der (Z.of_nat (length rest)) ltac:(lia)) as (s' & ES' & _ & HL). rewrite ES in ES'. injection ES' as <-.
  assert (bytes s).
  { destruct Hd as [[? ->]|(_ & c & Hc & _ & _ & ? & ->)]; [repeat constructor; unfold byte; lia|].
    apply bytes_cons. split; [unfold byte; lia|auto]. }
  split; [|split].
  - apply read_seq_strict.
    + cbn [app]. apply bytes_cons. split; [unfold byte; lia|]. apply bytes_app. auto.
    + exists s. split; [auto|]. split; [reflexivity|]. change (2 ^ 32) with 4294967296. lia.
  - apply (read_seq_lax s rest (Z.of_nat (length rest))); auto. change (2 ^ 32) with 4294967296. lia.
  - cbn [length]. lia.
Qed.
Theorem C14_seq_wrong_size rest size l : bytes rest -> 0 <= size -> size <> Z.of_nat (length rest) ->
  asn1_write_seq size = Some l -> asn1_read_seq (l ++ rest) true = RFail.
Proof.
  intros Hr Hs Hne E. unfold asn1_write_seq in E. destruct (asn1_write_size size) as [s|] eqn:ES; [|discriminate].
  injection E as <-. apply write_size_iff in ES; [|lia]. destruct ES as [Hd Hle].
  unfold asn1_read_seq, read_tag. cbn [app length Nat.eqb]. change (negb (48 =? 48)) with false. cbv iota.
  rewrite (read_size_complete _ _ _ true Hd) by (change (2 ^ 32) with 4294967296; lia).
  destruct (Z.eqb_spec size (Z.of_nat (length rest))); [contradiction|reflexivity].
Qed.
Example C14_seq_ex : asn1_write_seq 300 = Some [0x30; 0x82; 1; 44] /\
  asn1_read_seq ([0x30; 2] ++ [5; 0]) true = ROk tt [5; 0] /\ asn1_read_seq ([0x30; 2] ++ [5; 0; 0]) true = RFail.
Proof. repeat split; reflexivity. Qed.

Theorem C14_version_roundtrip v rest strict : 0 <= v <= 255 -> bytes rest ->
  exists bs, asn1_write_version v = Some bs /\ Z.of_nat (length bs) = asn1_size_version v /\
    forall v', asn1_read_version (bs ++ rest) v' strict = if v =? v' then ROk tt rest else RFail.
Proof.
  intros Hv Hr. exists [2; 1; v]. unfold asn1_write_version. destruct (Z.leb_spec v 255); [|lia].
  rewrite w8_small by (unfold M8; lia). split; [reflexivity|]. split; [reflexivity|]. intros v'.
  destruct strict; [|apply version_lax; auto].
  unfold asn1_read_version, peek. cbn [app length Nat.ltb Nat.leb nth_error skipn].
  change (negb (2 =? 2)) with false. change (negb (1 =? 1)) with false. cbn [orb].
  destruct (v =? v'); reflexivity.
Qed.
Example C14_version_ex : asn1_read_version ([2; 1; 3] ++ [7]) 3 true = ROk tt [7] /\
  asn1_read_version ([2; 1; 3] ++ [7]) 4 false = RFail.
Proof. split; reflexivity. Qed.

Theorem C14_dumb_roundtrip n rest : 0 <= n -> mpz_bytelen n <= 0xffff ->
  exists bs, asn1_write_dumb n = Some bs /\ asn1_read_dumb (bs ++ rest) = ROk n rest /\
    Z.of_nat (length bs) = 2 + mpz_bytelen n.
Proof. apply dumb_roundtrip. Qed.
Example C14_dumb_ex : asn1_write_dumb 0x10203 = Some [0; 3; 1; 2; 3].
Proof. reflexivity. Qed.

(* ---- C15 ---- *)
(* A strictly accepted integer is the DER encoding, byte for byte what the
   writer emits for the parsed value. *)
Theorem C15_strict_mpz_canonical data n rest : bytes data -> asn1_read_mpz data true = ROk n rest ->
  exists bs, data = bs ++ rest /\ der_int n bs /\ asn1_write_mpz n = Some bs.
Proof.
  intros Hb E. destruct (read_mpz_strict data n rest Hb E) as (bs & Hd & -> & Hn). exists bs.
  split; [auto|]. split; [auto|]. apply der_int_write; [apply Hn|apply pow2048; exact Hn|exact Hd].
Qed.
Theorem C15_strict_int_canonical out_len data num rest : bytes data -> Z.of_nat out_len < 0xffff ->
  asn1_read_int out_len data true = ROk num rest ->
  exists bs, data = bs ++ rest /\ length num = out_len /\ asn1_write_int num = Some bs.
Proof.
  intros Hb HL E. destruct (read_int_strict out_len data num rest Hb E) as (bs & Hd & -> & HLn & Hn). exists bs.
  split; [auto|]. split; [auto|]. apply der_int_write_int; auto. rewrite HLn. auto.
Qed.
Theorem C15_strict_seq_canonical data rest : bytes data -> Z.of_nat (length rest) <= 0xffff ->
  asn1_read_seq data true = ROk tt rest <->
  exists l, asn1_write_seq (Z.of_nat (length rest)) = Some l /\ data = l ++ rest.
Proof.
  intros Hb HL. rewrite read_seq_strict by auto. unfold asn1_write_seq. split.
  - intros (l & Hl & -> & _). exists (48 :: l).
    assert (E : asn1_write_size (Z.of_nat (length rest)) = Some l) by (apply write_size_iff; [lia|auto]).
    rewrite E. split; reflexivity.
  - intros (l & E & ->). destruct (asn1_write_size (Z.of_nat (length rest))) as [s|] eqn:ES; [|discriminate].
    injection E as <-. apply write_size_iff in ES; [|lia]. exists s. split; [apply ES|]. split; [reflexivity|].
    change (2 ^ 32) with 4294967296. lia.
Qed.
Theorem C15_strict_size_canonical data s rest : bytes data -> asn1_read_size data true = ROk s rest ->
  exists l, data = l ++ rest /\ der_len s l /\ (s <= 0xffff -> asn1_write_size s = Some l).
Proof.
  intros Hb E. pose proof (read_size_nonneg _ _ _ _ Hb E) as HN.
  destruct (read_size_strict data s rest Hb E) as (l & Hl & ->). exists l. split; [auto|]. split; [auto|].
  intros Hle. apply write_size_iff; [lia|auto].
Qed.
(* Hence no two strings are strictly read to the same pair of integers with
   the same remainder (the body of a DER signature). *)
Definition read_pair (data : list Z) : option (Z * Z * list Z) :=
  match asn1_read_seq data true with
  | ROk _ d1 => match asn1_read_mpz d1 true with
    | ROk r d2 => match asn1_read_mpz d2 true with
      | ROk s d3 => Some (r, s, d3)
      | _ => None end
    | _ => None end
  | _ => None end.
Theorem C15_pair_unique a b r s t : bytes a -> bytes b ->
  read_pair a = Some (r, s, t) -> read_pair b = Some (r, s, t) -> a = b.
Proof.
  assert (K : forall x, bytes x -> read_pair x = Some (r, s, t) ->
    exists l b1 b2, x = [0x30] ++ l ++ b1 ++ b2 ++ t /\ der_int r b1 /\ der_int s b2 /\ der_len (Z.of_nat (length (b1 ++ b2 ++ t))) l).
  { intros x Hx E. unfold read_pair in E. destruct (asn1_read_seq x true) as [[] d1| |] eqn:E1; try discriminate.
    apply read_seq_strict in E1; auto. destruct E1 as (l & Hl & -> & _).
    assert (Hb1 : bytes d1) by (apply bytes_app in Hx as [_ Hx]; apply bytes_app in Hx; tauto).
    destruct (asn1_read_mpz d1 true) as [r' d2| |] eqn:E2; try discriminate.
    apply read_mpz_strict in E2; auto. destruct E2 as (b1 & D1 & -> & _).
    assert (Hb2 : bytes d2) by (apply bytes_app in Hb1; tauto).
    destruct (asn1_read_mpz d2 true) as [s' d3| |] eqn:E3; try discriminate.
    apply read_mpz_strict in E3; auto. destruct E3 as (b2 & D2 & -> & _).
    injection E as -> -> ->. exists l, b1, b2. auto. }
  intros Ha Hb Ea Eb. destruct (K a Ha Ea) as (l & b1 & b2 & -> & D1 & D2 & L).
  destruct (K b Hb Eb) as (l' & b1' & b2' & -> & D1' & D2' & L').
  rewrite (der_int_unique _ _ _ D1 D1'), (der_int_unique _ _ _ D2 D2') in *.
  rewrite (der_len_unique _ _ _ L L'). reflexivity.
Qed.
Example C15_pair_ex : read_pair [0x30; 6; 2; 1; 5; 2; 1; 7] = Some (5, 7, []) /\
  read_pair [0x30; 7; 2; 2; 0; 5; 2; 1; 7] = None /\ read_pair [0x30; 0x81; 6; 2; 1; 5; 2; 1; 7] = None.
Proof. vm_compute. auto. Qed.

(* The non-strict reader: asn1_read_mpz hands strict=1 to asn1_read_size, so
   only the content may deviate from DER; any content is read as unsigned. *)
Theorem C15_lax_mpz_exact data n rest : bytes data ->
  asn1_read_mpz data false = ROk n rest <->
  exists l c, der_len (Z.of_nat (length c)) l /\ data = [2] ++ l ++ c ++ rest /\ be_val c = n /\
    n < 256 ^ 2048 /\ Z.of_nat (length c) < 2 ^ 32.
Proof. apply read_mpz_lax. Qed.
Example C15_lax_ex : asn1_read_mpz [2; 1; 0x80] false = ROk 0x80 [] /\
  asn1_read_mpz [2; 0x81; 1; 5] false = RFail /\ asn1_read_mpz [2; 0] false = ROk 0 [].
Proof. repeat split; reflexivity. Qed.

(* ---- C16 ---- *)
(* No reader touches a byte outside the buffer; what is left over is a suffix. *)
Definition in_bounds {A} (r : rres A) (data : list Z) : Prop :=
  match r with
  | ROk _ rest => exists p, data = p ++ rest
  | RFail => True
  | ROob => False
  end.
Theorem C16_readers_in_bounds data strict v out_len : bytes data ->
  in_bounds (asn1_read_size data strict) data /\
  in_bounds (asn1_read_seq data strict) data /\
  in_bounds (asn1_read_int out_len data strict) data /\
  in_bounds (asn1_read_mpz data strict) data /\
  in_bounds (asn1_read_version data v strict) data /\
  in_bounds (asn1_read_dumb data) data.
Proof.
  intros Hb. split; [apply read_size_safe|]. split; [apply read_seq_safe|].
  split. { unfold asn1_read_int. pose proof (read_int_bytes_safe data strict strict (Z.of_nat out_len) Hb) as H.
           destruct (read_int_bytes _ _ _ _); exact H. }
  split. { unfold asn1_read_mpz. pose proof (read_int_bytes_safe data true strict 2048 Hb) as H.
           destruct (read_int_bytes _ _ _ _); exact H. }
  split; [apply read_version_safe; auto|apply read_dumb_safe; auto].
Qed.
Example C16_ex : asn1_read_mpz [2; 0x84; 0xff; 0xff; 0xff; 0xff; 1] false = RFail /\ asn1_read_mpz [2; 5; 1] true = RFail.
Proof. split; reflexivity. Qed.

(* the axioms of every theorem above, listed at once *)
Definition Asn1Props_all := (@C14_write_mpz_is_der, @C14_write_mpz_abort, @C14_mpz_roundtrip, @C14_int_roundtrip, @C14_seq_roundtrip, @C14_seq_wrong_size,
  @C14_version_roundtrip, @C14_dumb_roundtrip, @C15_strict_mpz_canonical, @C15_strict_int_canonical, @C15_strict_seq_canonical, @C15_strict_size_canonical,
  @C15_pair_unique, @C15_lax_mpz_exact, @C16_readers_in_bounds).
Print Assumptions Asn1Props_all.
