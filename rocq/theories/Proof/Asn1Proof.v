From Verif.Base Require Import Prelude.
From Verif.Model Require Import Bio Asn1.
From Verif.Spec Require Import DerSpec.
#[local] Ltac Zify.zify_post_hook ::= idtac.

(* ---- bytes ---- *)
Lemma land80 b : byte b -> (Z.land b 0x80 =? 0) = (b <? 128).
Proof.
  intros H. apply Bool.eqb_prop.
  apply (forall_byte (fun b => Bool.eqb (Z.land b 0x80 =? 0) (b <? 128))); [vm_compute; reflexivity|exact H].
Qed.
Lemma land7f b : byte b -> 128 <= b -> Z.land b 0x7f = b - 128.
Proof.
  intros H L.
  assert (E : (b <? 128) || (Z.land b 0x7f =? b - 128) = true).
  { apply (forall_byte (fun b => (b <? 128) || (Z.land b 0x7f =? b - 128))); [vm_compute; reflexivity|exact H]. }
  destruct (Z.ltb_spec b 128); [lia|]. cbn [orb] in E. lia.
Qed.
Lemma be_val_lead c : bytes c -> hd 0 c <> 0 -> 256 ^ (Z.of_nat (length c) - 1) <= be_val c.
Proof.
  destruct c as [|b c]; intros Hb Hh; [cbn in Hh; lia|]. cbn [hd] in Hh.
  apply bytes_cons in Hb as [Hb Hc]. pose proof (be_val_range c Hc).
  rewrite be_val_cons. cbn [length].
  replace (Z.of_nat (S (length c)) - 1) with (Z.of_nat (length c)) by lia.
  unfold byte in Hb. assert (0 < 256 ^ Z.of_nat (length c)) by (apply Z.pow_pos_nonneg; lia). nia.
Qed.

(* ---- asn1_read_size ---- *)
Lemma loop_step size ch : 0 <= size < 2 ^ 24 -> byte ch ->
  Z.lor (w64 (Z.shiftl size 8)) ch = size * 256 + ch.
Proof.
  intros Hs Hc. rewrite w64_small.
  - rewrite lor_shiftl_add by (unfold byte in Hc; lia). change (2 ^ 8) with 256. lia.
  - rewrite shiftl_mul by lia. change (2 ^ 8) with 256. unfold M64. change (2 ^ 24) with 16777216 in Hs. lia.
Qed.

Lemma loop_safe n : forall size data strict,
  match read_size_loop n size data strict with
  | ROk _ rest => exists p, data = p ++ rest | RFail => True | ROob => False end.
Proof.
  induction n; intros size data strict; cbn [read_size_loop]; [exists []; reflexivity|].
  destruct data as [|ch data]; cbn [length Nat.eqb]; [exact I|].
  destruct (_ <=? size); [exact I|]. destruct (_ && _); [exact I|].
  specialize (IHn (Z.lor (w64 (Z.shiftl size 8)) ch) data strict).
  destruct (read_size_loop n _ data strict) as [a rest| |]; auto.
  destruct IHn as [p ->]. exists (ch :: p). reflexivity.
Qed.

Lemma loop_sound n : forall size data strict s rest,
  bytes data -> 0 <= size < 2 ^ 32 ->
  read_size_loop n size data strict = ROk s rest ->
  exists c, data = c ++ rest /\ length c = n /\
    s = size * 256 ^ Z.of_nat n + be_val c /\ s < 2 ^ 32 /\
    (strict = true -> size = 0 -> (0 < n)%nat -> hd 0 c <> 0).
Proof.
  induction n; intros size data strict s rest Hb Hs E; cbn [read_size_loop] in E.
  - injection E as <- <-. exists []. cbn. change (be_val []) with 0. repeat split; try lia.
  - destruct data as [|ch data]; cbn [length Nat.eqb] in E; [discriminate|].
    apply bytes_cons in Hb as [Hc Hb].
    change (Z.shiftl 1 24) with (2 ^ 24) in E. destruct (Z.leb_spec (2 ^ 24) size) as [|Hlt]; [discriminate|].
    rewrite loop_step in E by (auto; lia).
    destruct (strict && (size * 256 + ch =? 0)) eqn:Est; [discriminate|].
    assert (Hc' := Hc). unfold byte in Hc'.
    apply IHn in E; [|auto|change (2 ^ 24) with 16777216 in Hlt; change (2 ^ 32) with 4294967296; lia].
    destruct E as (c & -> & Hl & -> & Hs2 & Hh). exists (ch :: c).
    split; [reflexivity|]. split; [cbn [length]; lia|]. split.
    { rewrite be_val_cons, Hl. rewrite Nat2Z.inj_succ, Z.pow_succ_r by lia. ring. }
    split; [auto|]. intros -> -> _. cbn [andb] in Est. cbn [hd]. lia.
Qed.

Lemma loop_complete c : forall size rest strict,
  bytes c -> 0 <= size -> size * 256 ^ Z.of_nat (length c) + be_val c < 2 ^ 32 ->
  (strict = true -> size <> 0 \/ hd 0 c <> 0) ->
  read_size_loop (length c) size (c ++ rest) strict =
    ROk (size * 256 ^ Z.of_nat (length c) + be_val c) rest.
Proof.
  induction c as [|ch c IH]; intros size rest strict Hb Hs Hlt Hst.
  - cbn. change (be_val []) with 0. f_equal. lia.
  - apply bytes_cons in Hb as [Hc Hb]. assert (Hc' := Hc). unfold byte in Hc'.
    pose proof (be_val_range c Hb) as Hr.
    rewrite be_val_cons in *. cbn [length app read_size_loop Nat.eqb] in *.
    rewrite Nat2Z.inj_succ, Z.pow_succ_r in Hlt by lia.
    assert (HP : 1 <= 256 ^ Z.of_nat (length c)) by (pose proof (Z.pow_pos_nonneg 256 (Z.of_nat (length c))); lia).
    assert (Hsz : size < 2 ^ 24).
    { change (2 ^ 24) with 16777216. change (2 ^ 32) with 4294967296 in Hlt. nia. }
    change (Z.shiftl 1 24) with (2 ^ 24).
    destruct (Z.leb_spec (2 ^ 24) size); [lia|].
    rewrite loop_step by (auto; lia).
    replace (strict && (size * 256 + ch =? 0)) with false.
    + rewrite IH.
      * f_equal. rewrite Nat2Z.inj_succ, Z.pow_succ_r by lia. ring.
      * auto.
      * lia.
      * nia.
      * intros ->. left. destruct (Hst eq_refl) as [?|Hh]; [lia|]. cbn [hd] in Hh. lia.
    + destruct strict; [|reflexivity]. cbn [andb]. symmetry. apply Z.eqb_neq.
      destruct (Hst eq_refl) as [?|Hh]; [lia|]. cbn [hd] in Hh. lia.
Qed.

Lemma read_size_safe data strict :
  match asn1_read_size data strict with
  | ROk _ rest => exists p, data = p ++ rest | RFail => True | ROob => False end.
Proof.
  unfold asn1_read_size. destruct data as [|ch data]; cbn [length Nat.eqb]; [exact I|].
  destruct (_ =? 0); [exists [ch]; reflexivity|].
  destruct (_ && _); [exact I|].
  pose proof (loop_safe (Z.to_nat (Z.land ch 0x7f)) 0 data strict) as H.
  destruct (read_size_loop _ _ _ _) as [a rest| |]; auto.
  destruct (_ && _); [exact I|]. destruct H as [p ->]. exists (ch :: p). reflexivity.
Qed.

Lemma read_size_nonneg data strict s rest : bytes data ->
  asn1_read_size data strict = ROk s rest -> 0 <= s < 2 ^ 32.
Proof.
  unfold asn1_read_size. destruct data as [|ch data]; cbn [length Nat.eqb]; [discriminate|].
  intros Hb. apply bytes_cons in Hb as [Hc Hb]. assert (Hc' := Hc). unfold byte in Hc'.
  destruct (_ =? 0). { intros E. injection E as <- <-. change (2 ^ 32) with 4294967296. lia. }
  destruct (_ && _); [discriminate|].
  destruct (read_size_loop _ _ _ _) as [a r| |] eqn:E; try discriminate.
  apply loop_sound in E; [|auto|lia]. destruct E as (c & -> & _ & Hv & Hlt & _).
  apply bytes_app in Hb as [Hb _]. pose proof (be_val_range c Hb).
  destruct (_ && _); [discriminate|]. intros E. injection E as <- <-. lia.
Qed.

Lemma read_size_strict data s rest : bytes data ->
  asn1_read_size data true = ROk s rest -> exists l, der_len s l /\ data = l ++ rest.
Proof.
  unfold asn1_read_size. destruct data as [|ch data]; cbn [length Nat.eqb]; [discriminate|].
  intros Hb. apply bytes_cons in Hb as [Hc Hb]. assert (Hc' := Hc). unfold byte in Hc'.
  rewrite land80 by auto. destruct (Z.ltb_spec ch 128).
  { intros E. injection E as <- <-. exists [ch]. split; [left; split; [lia|reflexivity]|reflexivity]. }
  rewrite land7f by auto. cbn [andb]. destruct (Z.eqb_spec (ch - 128) 0); [discriminate|].
  destruct (read_size_loop _ _ _ _) as [a r| |] eqn:E; try discriminate.
  apply loop_sound in E; [|auto|lia]. destruct E as (c & -> & Hl & Hv & Hlt & Hh).
  apply bytes_app in Hb as [Hb _].
  destruct (Z.ltb_spec a 128); [discriminate|]. intros E. injection E as <- <-.
  assert (Hd : hd 0 c <> 0) by (apply Hh; auto; lia).
  pose proof (be_val_lead c Hb Hd) as HL.
  assert (length c <= 4)%nat.
  { destruct (Nat.le_gt_cases (length c) 4) as [|Hgt]; [auto|].
    assert (256 ^ 4 <= 256 ^ (Z.of_nat (length c) - 1)) by (apply Z.pow_le_mono_r; lia).
    change (256 ^ 4) with (2 ^ 32) in *. lia. }
  exists (ch :: c). split; [|reflexivity]. right. split; [lia|]. exists c.
  repeat split; auto; try lia. f_equal. lia.
Qed.

Lemma read_size_complete s l rest strict : der_len s l -> s < 2 ^ 32 ->
  asn1_read_size (l ++ rest) strict = ROk s rest.
Proof.
  intros [[Hs ->]|(Hs & c & Hb & Hh & Hv & Hl & ->)] Hlt; unfold asn1_read_size; cbn [app length Nat.eqb].
  - rewrite land80 by (unfold byte; lia). destruct (Z.ltb_spec s 128); [reflexivity|lia].
  - assert (Hc : byte (128 + Z.of_nat (length c))) by (unfold byte; lia).
    rewrite land80 by auto. destruct (Z.ltb_spec (128 + Z.of_nat (length c)) 128); [lia|].
    rewrite land7f by (auto; lia).
    replace (128 + Z.of_nat (length c) - 128) with (Z.of_nat (length c)) by lia.
    destruct c as [|b c]; [cbn in Hh; lia|].
    replace (strict && (Z.of_nat (length (b :: c)) =? 0)) with false
      by (destruct strict; cbn [andb length]; [symmetry; apply Z.eqb_neq; lia|reflexivity]).
    rewrite Nat2Z.id. rewrite loop_complete; auto; try lia.
    rewrite Z.mul_0_l, Z.add_0_l, Hv. destruct (Z.ltb_spec s 128); [lia|]. rewrite andb_false_r. reflexivity.
Qed.

(* the writer's size *)
Lemma write_size_der s : 0 <= s <= 0xffff ->
  exists l, asn1_write_size s = Some l /\ der_len s l /\ Z.of_nat (length l) = asn1_size_size s.
Proof.
  intros Hs. unfold asn1_write_size, asn1_size_size.
  destruct (Z.leb_spec s 0x7f).
  { eexists. split; [reflexivity|]. rewrite w8_small by (unfold M8; lia). split; [left; split; [lia|reflexivity]|reflexivity]. }
  destruct (Z.leb_spec s 0xff).
  { eexists. split; [reflexivity|]. rewrite w8_small by (unfold M8; lia). split; [right|reflexivity].
    split; [lia|]. exists [s]. split; [repeat constructor; unfold byte; lia|]. cbn [hd length]. repeat split; try lia.
    change (be_val [s]) with (s + 256 * 0). lia. }
  destruct (Z.leb_spec s 0xffff); [|lia].
  eexists. split; [reflexivity|]. rewrite land_255. unfold shr, w8, M8. rewrite shiftr_div by lia. change (2 ^ 8) with 256.
  pose proof (Z.div_mod s 256 ltac:(lia)). pose proof (Z.mod_pos_bound s 256 ltac:(lia)).
  rewrite (Z.mod_small (s / 256)) by lia.
  split; [right|reflexivity]. split; [lia|]. exists [s / 256; s mod 256].
  split; [repeat constructor; unfold byte; lia|]. cbn [hd length]. repeat split; try lia.
  change (be_val [s / 256; s mod 256]) with (s mod 256 + 256 * (s / 256 + 256 * 0)). lia.
Qed.

Lemma write_size_none s : 0xffff < s -> asn1_write_size s = None.
Proof.
  intros H. unfold asn1_write_size. destruct (Z.leb_spec s 0x7f); [lia|]. destruct (Z.leb_spec s 0xff); [lia|].
  destruct (Z.leb_spec s 0xffff); [lia|]. reflexivity.
Qed.

(* ---- uniqueness of the specification ---- *)
Lemma der_len_unique n a b : der_len n a -> der_len n b -> a = b.
Proof.
  intros [[H ->]|(H & c & Hb & Hh & Hv & Hl & ->)] [[H' ->]|(H' & c' & Hb' & Hh' & Hv' & Hl' & ->)]; try reflexivity; try lia.
  enough (length c = length c') as E.
  { f_equal; [lia|]. rewrite <- (be_bytes_be_val c Hb), <- (be_bytes_be_val c' Hb'). rewrite E, Hv, Hv'. reflexivity. }
  pose proof (be_val_lead c Hb Hh). pose proof (be_val_lead c' Hb' Hh').
  pose proof (be_val_range c Hb). pose proof (be_val_range c' Hb').
  destruct (Nat.lt_trichotomy (length c) (length c')) as [L|[L|L]]; auto.
  - assert (256 ^ Z.of_nat (length c) <= 256 ^ (Z.of_nat (length c') - 1)) by (apply Z.pow_le_mono_r; lia). lia.
  - assert (256 ^ Z.of_nat (length c') <= 256 ^ (Z.of_nat (length c) - 1)) by (apply Z.pow_le_mono_r; lia). lia.
Qed.

Lemma der_content_bounds n c : der_content n c ->
  0 <= n /\ 2 * n < 256 ^ Z.of_nat (length c) /\
  ((1 < length c)%nat -> 256 ^ (Z.of_nat (length c) - 1) <= 2 * n).
Proof.
  intros (Hb & Hne & Hh & Hv & Hm). destruct c as [|b c]; [congruence|]. cbn [nth length] in *.
  apply bytes_cons in Hb as [Hb Hc]. pose proof (be_val_range c Hc) as Hr. unfold byte in Hb.
  rewrite be_val_cons in Hv. replace (Z.of_nat (S (length c)) - 1) with (Z.of_nat (length c)) by lia.
  rewrite Nat2Z.inj_succ, Z.pow_succ_r by lia. set (P := 256 ^ Z.of_nat (length c)) in *.
  assert (0 < P) by (apply Z.pow_pos_nonneg; lia).
  split; [nia|]. split; [nia|]. intros L.
  destruct (Z.eq_dec b 0) as [->|]; [|nia].
  destruct c as [|b1 c]; [cbn in L; lia|]. cbn [nth length] in *.
  apply bytes_cons in Hc as [Hb1 Hc]. unfold byte in Hb1.
  assert (128 <= b1) by (destruct (Z.le_gt_cases 128 b1); auto; exfalso; apply Hm; repeat split; auto; lia).
  rewrite be_val_cons in Hv. pose proof (be_val_range c Hc).
  unfold P in *. rewrite Nat2Z.inj_succ, Z.pow_succ_r in * by lia.
  set (Q := 256 ^ Z.of_nat (length c)) in *. assert (0 < Q) by (apply Z.pow_pos_nonneg; lia). nia.
Qed.

Lemma der_content_len n c c' : der_content n c -> der_content n c' -> (length c <= length c')%nat.
Proof.
  intros H H'. destruct (Nat.le_gt_cases (length c) (length c')) as [|L]; auto.
  pose proof (der_content_bounds _ _ H) as (_ & _ & B1). pose proof (der_content_bounds _ _ H') as (_ & B2 & _).
  assert (0 < length c')%nat by (destruct c'; [destruct H' as (_ & ? & _); congruence|cbn; lia]).
  specialize (B1 ltac:(lia)).
  assert (256 ^ Z.of_nat (length c') <= 256 ^ (Z.of_nat (length c) - 1)) by (apply Z.pow_le_mono_r; lia). lia.
Qed.

Lemma der_content_unique n c c' : der_content n c -> der_content n c' -> c = c'.
Proof.
  intros H H'. pose proof (der_content_len _ _ _ H H'). pose proof (der_content_len _ _ _ H' H).
  destruct H as (Hb & _ & _ & Hv & _), H' as (Hb' & _ & _ & Hv' & _).
  rewrite <- (be_bytes_be_val c Hb), <- (be_bytes_be_val c' Hb'), Hv, Hv'. f_equal. lia.
Qed.

Lemma der_int_unique n a b : der_int n a -> der_int n b -> a = b.
Proof.
  intros (c & l & Hc & Hl & ->) (c' & l' & Hc' & Hl' & ->).
  rewrite (der_content_unique _ _ _ Hc Hc') in *. rewrite (der_len_unique _ _ _ Hl Hl'). reflexivity.
Qed.

(* ---- integer bodies ---- *)
Lemma strip0_spec l : bytes l -> exists k, l = repeat 0 k ++ strip0 l /\ (strip0 l = [] \/ hd 0 (strip0 l) <> 0).
Proof.
  induction l as [|b l IH]; intros Hb; [exists 0%nat; cbn; auto|].
  apply bytes_cons in Hb as [Hb Hl]. cbn [strip0]. destruct (Z.eqb_spec b 0) as [->|].
  - destruct (IH Hl) as (k & E & D). exists (S k). split; auto. cbn [repeat app]. rewrite <- E. reflexivity.
  - exists 0%nat. cbn. auto.
Qed.
Lemma be_val_repeat0 k l : be_val (repeat 0 k ++ l) = be_val l.
Proof. induction k; [reflexivity|]. cbn [repeat app]. rewrite be_val_cons, IHk. lia. Qed.
Lemma strip0_val l : bytes l -> be_val (strip0 l) = be_val l.
Proof. intros H. destruct (strip0_spec l H) as (k & E & _). rewrite E at 2. symmetry. apply be_val_repeat0. Qed.
Lemma strip0_bytes l : bytes l -> bytes (strip0 l).
Proof. intros H. destruct (strip0_spec l H) as (k & E & _). rewrite E in H. apply bytes_app in H. tauto. Qed.
Lemma strip0_le l : (length (strip0 l) <= length l)%nat.
Proof. induction l as [|b l IH]; cbn [strip0]; [lia|]. destruct (b =? 0); cbn [length]; lia. Qed.

(* eat_zeros over exactly the content *)
Lemma eat_zeros_spec c : forall rest,
  eat_zeros (S (length c)) (Z.of_nat (length c)) (c ++ rest) =
  ROk (Z.of_nat (length (strip0 c))) (strip0 c ++ rest).
Proof.
  induction c as [|b c IH]; intros rest; [reflexivity|].
  cbn [length app strip0]. remember (S (length c)) as f eqn:Ef. cbn [eat_zeros]. destruct (Z.ltb_spec 0 (Z.of_nat f)); [|lia].
  destruct (Z.eqb_spec b 0); [|cbn [length]; rewrite Ef; reflexivity]. subst f.
  replace (Z.of_nat (S (length c)) - 1) with (Z.of_nat (length c)) by lia. apply IH.
Qed.

Lemma take_exact (c rest : list Z) : take (Z.of_nat (length c)) (c ++ rest) = ROk c rest.
Proof.
  unfold take. rewrite app_length. destruct (Z.ltb_spec (Z.of_nat (length c + length rest)) (Z.of_nat (length c))); [lia|].
  rewrite Nat2Z.id, firstn_app_exact, skipn_app_exact by reflexivity. reflexivity.
Qed.

Definition der_ok (c : list Z) : bool :=
  match c with
  | [] => false
  | [b] => b <? 128
  | b :: b' :: _ => (b <? 128) && negb ((b =? 0) && (b' <? 128))
  end.

Lemma der_ok_content c : bytes c -> der_ok c = true <-> der_content (be_val c) c.
Proof.
  intros Hb. unfold der_content. destruct c as [|b [|b' c]]; cbn [der_ok nth length].
  - split; [discriminate|]. intros (_ & H & _). congruence.
  - split; [intros H; repeat split; auto; try discriminate; lia|]. intros (_ & _ & H & _). lia.
  - split.
    + intros H. apply andb_true_iff in H as [H1 H2]. repeat split; auto; try discriminate; [lia|].
      intros (-> & _ & H). destruct (Z.ltb_spec b' 128); [discriminate|lia].
    + intros (_ & _ & H1 & _ & H2). apply andb_true_iff. split; [lia|].
      destruct (Z.eqb_spec b 0); [|reflexivity]. destruct (Z.ltb_spec b' 128); [|reflexivity].
      exfalso. apply H2. repeat split; auto; lia.
Qed.

Lemma strict_int_spec c rest : bytes c ->
  strict_int (Z.of_nat (length c)) (c ++ rest) = Some (der_ok c).
Proof.
  intros Hb. unfold strict_int, peek. destruct c as [|b [|b' c]]; cbn [length app nth_error der_ok].
  - reflexivity.
  - apply bytes_cons in Hb as [Hb _]. destruct (Z.eqb_spec (Z.of_nat 1) 0); [lia|].
    rewrite land80 by auto. destruct (b <? 128); reflexivity.
  - apply bytes_cons in Hb as [Hb Hc]. apply bytes_cons in Hc as [Hb' _].
    destruct (Z.eqb_spec (Z.of_nat (S (S (length c)))) 0); [lia|].
    rewrite !land80 by auto. destruct (b <? 128); cbn [negb andb]; [|reflexivity].
    destruct (Z.ltb_spec 1 (Z.of_nat (S (S (length c))))); [|lia]. cbn [andb].
    destruct (b =? 0); cbn [andb negb]; [|reflexivity]. destruct (b' <? 128); reflexivity.
Qed.

(* what read_int_bytes does after the size has been read *)
Definition body (strict : bool) (limit size : Z) (data : list Z) : rres (list Z) :=
  if Z.of_nat (length data) <? size then RFail else
  let c := firstn (Z.to_nat size) data in
  if strict && negb (der_ok c) then RFail else
  if limit <? Z.of_nat (length (strip0 c)) then RFail
  else ROk (strip0 c) (skipn (Z.to_nat size) data).

Lemma read_int_bytes_eq data ss strict limit : bytes data ->
  read_int_bytes data ss strict limit =
  match data with
  | [] => RFail
  | t :: data => if negb (t =? 2) then RFail else
    match asn1_read_size data ss with
    | ROk size data => body strict limit size data
    | _ => RFail
    end
  end.
Proof.
  intros Hb. unfold read_int_bytes, read_tag. destruct data as [|t data]; cbn [length Nat.eqb]; [reflexivity|].
  apply bytes_cons in Hb as [_ Hb].
  destruct (negb (t =? 2)); [reflexivity|].
  pose proof (read_size_safe data ss) as HS. pose proof (read_size_nonneg data ss) as HN.
  destruct (asn1_read_size data ss) as [size rest| |]; [|reflexivity|contradiction].
  destruct HS as [p ->]. specialize (HN size rest Hb eq_refl). apply bytes_app in Hb as [_ Hb].
  unfold body. destruct (Z.ltb_spec (Z.of_nat (length rest)) size) as [|Hle]; [reflexivity|].
  remember (firstn (Z.to_nat size) rest) as c eqn:Ec.
  remember (skipn (Z.to_nat size) rest) as r eqn:Er.
  assert (Hc : bytes c) by (subst; apply bytes_firstn; auto).
  assert (Hlen : length c = Z.to_nat size) by (subst; rewrite firstn_length; lia).
  assert (HE : rest = c ++ r) by (subst; symmetry; apply firstn_skipn). rewrite HE.
  replace size with (Z.of_nat (length c)) by lia.
  rewrite strict_int_spec, Nat2Z.id, eat_zeros_spec by auto.
  destruct strict; cbn [andb]; [destruct (der_ok c); cbn [negb]; [|reflexivity]|];
    (destruct (limit <? _); [reflexivity|apply take_exact]).
Qed.

Definition safe {A} (r : rres A) (data : list Z) : Prop :=
  match r with ROk _ rest => exists p, data = p ++ rest | RFail => True | ROob => False end.

Lemma read_int_bytes_safe data ss strict limit : bytes data -> safe (read_int_bytes data ss strict limit) data.
Proof.
  intros Hb. rewrite read_int_bytes_eq by auto. unfold safe. destruct data as [|t data]; [exact I|].
  destruct (negb _); [exact I|]. pose proof (read_size_safe data ss) as HS.
  destruct (asn1_read_size data ss) as [size rest| |]; auto. destruct HS as [p ->].
  unfold body. destruct (_ <? _); [exact I|]. destruct (_ && _); [exact I|]. destruct (_ <? _); [exact I|].
  exists (t :: p ++ firstn (Z.to_nat size) rest). cbn [app]. rewrite <- app_assoc, firstn_skipn. reflexivity.
Qed.

(* strict reading means DER *)
Lemma read_int_bytes_strict data ss limit num rest : bytes data -> ss = true ->
  read_int_bytes data ss true limit = ROk num rest ->
  exists bs, der_int (be_val num) bs /\ data = bs ++ rest /\
    bytes num /\ Z.of_nat (length num) <= limit /\ (num = [] \/ hd 0 num <> 0).
Proof.
  intros Hb -> E. rewrite read_int_bytes_eq in E by auto. destruct data as [|t data]; [discriminate|].
  destruct (Z.eqb_spec t 2) as [->|]; cbn [negb] in E; [|discriminate].
  apply bytes_cons in Hb as [_ Hb].
  destruct (asn1_read_size data true) as [size r| |] eqn:ES; try discriminate.
  pose proof (read_size_nonneg _ _ _ _ Hb ES) as HN.
  apply read_size_strict in ES; auto. destruct ES as (l & Hl & ->).
  apply bytes_app in Hb as [_ Hb]. unfold body in E.
  destruct (Z.ltb_spec (Z.of_nat (length r)) size) as [|Hle]; [discriminate|].
  assert (Hc : bytes (firstn (Z.to_nat size) r)) by (apply bytes_firstn; auto).
  destruct (der_ok (firstn (Z.to_nat size) r)) eqn:Ed; cbn [andb negb] in E; [|discriminate].
  destruct (Z.ltb_spec limit (Z.of_nat (length (strip0 (firstn (Z.to_nat size) r))))); [discriminate|].
  injection E as <- <-. apply der_ok_content in Ed; auto.
  exists ([2] ++ l ++ firstn (Z.to_nat size) r). split.
  - exists (firstn (Z.to_nat size) r), l. rewrite strip0_val by auto. split; [auto|]. split; [|reflexivity].
    replace (Z.of_nat (length (firstn (Z.to_nat size) r))) with size by (rewrite firstn_length; lia). auto.
  - split; [rewrite <- !app_assoc, firstn_skipn; reflexivity|].
    split; [apply strip0_bytes; auto|]. split; [auto|].
    destruct (strip0_spec _ Hc) as (k & _ & D). exact D.
Qed.

(* DER is accepted, in either mode *)
Lemma read_int_bytes_complete n bs rest ss strict limit : der_int n bs -> bytes rest -> bytes bs ->
  0 <= limit < 2 ^ 31 -> n < 256 ^ limit ->
  exists num, read_int_bytes (bs ++ rest) ss strict limit = ROk num rest /\ be_val num = n /\
    bytes num /\ Z.of_nat (length num) <= limit /\ (num = [] \/ hd 0 num <> 0).
Proof.
  intros (c & l & Hc & Hl & ->) Hr Hbs Hlim Hn.
  assert (Hcb : bytes c) by apply Hc.
  rewrite read_int_bytes_eq by (apply bytes_app; auto).
  cbn [app]. change (negb (2 =? 2)) with false. cbv iota.
  destruct (strip0_spec c Hcb) as (k & Ek & D).
  pose proof (strip0_val c Hcb) as Hsv. pose proof (strip0_bytes c Hcb) as Hsb.
  assert (Hv : be_val c = n) by apply Hc.
  assert (Hsl : Z.of_nat (length (strip0 c)) <= limit).
  { destruct D as [->|D]; [cbn; lia|]. pose proof (be_val_lead _ Hsb D) as HL.
    destruct (Z.le_gt_cases (Z.of_nat (length (strip0 c))) limit) as [|G]; auto.
    assert (256 ^ limit <= 256 ^ (Z.of_nat (length (strip0 c)) - 1)) by (apply Z.pow_le_mono_r; lia). lia. }
  assert (Hcl : Z.of_nat (length c) < 2 ^ 32).
  { pose proof (der_content_bounds n c Hc) as (_ & _ & HB).
    destruct (Nat.le_gt_cases (length c) 1) as [|G]; [change (2 ^ 32) with 4294967296; lia|].
    specialize (HB G). destruct (Z.le_gt_cases (Z.of_nat (length c)) (limit + 2)); [change (2 ^ 32) with (2 * 2 ^ 31); change (2 ^ 31) with 2147483648 in *; lia|].
    assert (256 ^ (limit + 1) <= 256 ^ (Z.of_nat (length c) - 1)) by (apply Z.pow_le_mono_r; lia).
    rewrite Z.pow_add_r in * by lia. change (256 ^ 1) with 256 in *. lia. }
  rewrite <- app_assoc, (read_size_complete _ _ _ ss Hl) by auto.
  unfold body. rewrite app_length. destruct (Z.ltb_spec (Z.of_nat (length c + length rest)) (Z.of_nat (length c))); [lia|].
  rewrite Nat2Z.id, firstn_app_exact, skipn_app_exact by reflexivity.
  assert (Hok : der_ok c = true) by (apply der_ok_content; [auto|rewrite Hv; auto]).
  rewrite Hok, andb_false_r. destruct (Z.ltb_spec limit (Z.of_nat (length (strip0 c)))); [lia|].
  exists (strip0 c). repeat split; auto. lia.
Qed.

(* ---- writers ---- *)
Lemma mpz_bitlen_bound n : 0 < n -> 2 ^ (mpz_bitlen n - 1) <= n < 2 ^ mpz_bitlen n.
Proof.
  intros H. unfold mpz_bitlen. destruct (Z.eqb_spec n 0); [lia|]. rewrite Z.abs_eq by lia.
  pose proof (Z.log2_spec n H). replace (Z.log2 n + 1 - 1) with (Z.log2 n) by lia. rewrite Z.add_1_r. lia.
Qed.
Lemma mpz_bitlen_pos n : 0 < n -> 0 < mpz_bitlen n.
Proof. intros H. unfold mpz_bitlen. destruct (Z.eqb_spec n 0); [lia|]. pose proof (Z.log2_nonneg (Z.abs n)). lia. Qed.
Lemma mpz_topbit n : 0 < n -> Z.testbit n (mpz_bitlen n - 1) = true.
Proof.
  intros H. unfold mpz_bitlen. destruct (Z.eqb_spec n 0); [lia|]. rewrite Z.abs_eq by lia.
  replace (Z.log2 n + 1 - 1) with (Z.log2 n) by lia. apply Z.bit_log2. auto.
Qed.

(* the content of n on k bytes, given the DER window *)
Lemma be_content n k : (0 < k)%nat -> 0 <= n -> 2 * n < 256 ^ Z.of_nat k ->
  ((1 < k)%nat -> 256 ^ (Z.of_nat k - 1) <= 2 * n) -> der_content n (be_bytes k n).
Proof.
  intros Hk Hn Hu Hl. pose proof (be_bytes_bytes k n) as Hb.
  assert (Hv : be_val (be_bytes k n) = n) by (rewrite be_val_be_bytes; apply Z.mod_small; lia).
  pose proof (be_bytes_length k n) as HL.
  destruct (be_bytes k n) as [|b c] eqn:E; [cbn in HL; lia|]. cbn [length] in HL.
  unfold der_content. cbn [nth length]. rewrite be_val_cons in Hv.
  assert (Hb' := Hb). apply bytes_cons in Hb' as [Hb0 Hc]. unfold byte in Hb0.
  pose proof (be_val_range c Hc) as Hr.
  assert (Ek : Z.of_nat k = Z.of_nat (length c) + 1) by lia.
  rewrite Ek in *. replace (Z.of_nat (length c) + 1 - 1) with (Z.of_nat (length c)) in Hl by lia.
  rewrite Z.pow_add_r in Hu by lia. change (256 ^ 1) with 256 in Hu.
  assert (0 < 256 ^ Z.of_nat (length c)) by (apply Z.pow_pos_nonneg; lia).
  repeat split; auto; try discriminate.
  - nia.
  - rewrite be_val_cons. exact Hv.
  - intros (-> & L & L1). specialize (Hl ltac:(lia)). destruct c as [|b1 c]; [cbn in L; lia|].
    cbn [nth] in L1. apply bytes_cons in Hc as [Hb1 Hc]. unfold byte in Hb1.
    rewrite be_val_cons in Hv. pose proof (be_val_range c Hc). cbn [length] in *.
    rewrite Nat2Z.inj_succ, Z.pow_succ_r in * by lia. nia.
Qed.

Lemma be_bytes_cons0 k n : 0 <= n < 256 ^ Z.of_nat k -> be_bytes (S k) n = 0 :: be_bytes k n.
Proof.
  intros H. assert (Hb : bytes (0 :: be_bytes k n)) by (apply bytes_cons; split; [unfold byte; lia|apply be_bytes_bytes]).
  rewrite <- (be_bytes_be_val _ Hb). rewrite be_val_cons, be_val_be_bytes.
  rewrite Z.mod_small by auto. cbn [length]. rewrite be_bytes_length. f_equal.
Qed.

Definition der_bytelen (n : Z) : Z := if n =? 0 then 1 else Z.log2 n / 8 + 1 + Z.b2z (Z.log2 n mod 8 =? 7).

Lemma der_bytelen_bounds n : 0 <= n -> let k := der_bytelen n in
  0 < k /\ 2 * n < 256 ^ k /\ (1 < k -> 256 ^ (k - 1) <= 2 * n).
Proof.
  intros Hn k. unfold k, der_bytelen. destruct (Z.eqb_spec n 0) as [->|]; [change (256 ^ 1) with 256; lia|].
  pose proof (Z.log2_spec n ltac:(lia)) as HL. pose proof (Z.log2_nonneg n) as H0.
  set (g := Z.log2 n) in *. pose proof (Z.div_mod g 8 ltac:(lia)) as HD. pose proof (Z.mod_pos_bound g 8 ltac:(lia)) as HM.
  set (q := g / 8) in *. set (r := g mod 8) in *. assert (0 <= q) by lia.
  change 256 with (2 ^ 8). rewrite <- !Z.pow_mul_r by (destruct (r =? 7); cbn; lia).
  rewrite Z.pow_succ_r in HL by lia.
  destruct (Z.eqb_spec r 7); cbn [Z.b2z].
  - split; [lia|]. split.
    + assert (2 ^ (g + 2) <= 2 ^ (8 * (q + 1 + 1))) by (apply Z.pow_le_mono_r; lia).
      rewrite Z.pow_add_r in * by lia. change (2 ^ 2) with 4 in *. lia.
    + intros _. replace (8 * (q + 1 + 1 - 1)) with (g + 1) by lia. rewrite Z.pow_add_r by lia. change (2 ^ 1) with 2. lia.
  - split; [lia|]. split.
    + assert (2 ^ (g + 2) <= 2 ^ (8 * (q + 1 + 0))) by (apply Z.pow_le_mono_r; lia).
      rewrite Z.pow_add_r in * by lia. change (2 ^ 2) with 4 in *. lia.
    + intros _. assert (2 ^ (8 * (q + 1 + 0 - 1)) <= 2 ^ (g + 1)) by (apply Z.pow_le_mono_r; lia).
      rewrite (Z.pow_add_r 2 g 1) in * by lia. change (2 ^ 1) with 2 in *. lia.
Qed.

Lemma write_mpz_eq n : 0 <= n ->
  asn1_write_mpz n = match asn1_write_size (der_bytelen n) with
                     | Some s => Some ([2] ++ s ++ be_bytes (Z.to_nat (der_bytelen n)) n)
                     | None => None end /\
  asn1_size_mpz n = 1 + asn1_size_size (der_bytelen n) + der_bytelen n.
Proof.
  intros Hn. unfold asn1_write_mpz, asn1_size_mpz, mpz_export, mpz_bytelen.
  destruct (Z.eq_dec n 0) as [->|Hnz]; [split; reflexivity|].
  assert (Hp : 0 < n) by lia. pose proof (mpz_bitlen_pos n Hp) as HB. rewrite (mpz_topbit n Hp).
  assert (EB : mpz_bitlen n = Z.log2 n + 1)
    by (unfold mpz_bitlen; destruct (Z.eqb_spec n 0); [lia|]; rewrite Z.abs_eq by lia; reflexivity).
  rewrite EB in *. destruct (Z.ltb_spec 0 (Z.log2 n + 1)); [|lia]. destruct (Z.eqb_spec (Z.log2 n + 1) 0); [lia|].
  cbn [andb Z.b2z].
  assert (EL : Z.land (Z.log2 n + 1) 7 = (Z.log2 n + 1) mod 8) by (apply (land_mask _ 3); lia). rewrite EL. clear EL.
  unfold der_bytelen. destruct (Z.eqb_spec n 0); [lia|].
  pose proof (Z.log2_nonneg n) as H0. set (g := Z.log2 n) in *.
  pose proof (Z.div_mod g 8 ltac:(lia)) as HD. pose proof (Z.mod_pos_bound g 8 ltac:(lia)) as HM.
  assert (Eq1 : (g + 1 + 7) / 8 = g / 8 + 1) by (replace (g + 1 + 7) with (g + 1 * 8) by lia; apply Z.div_add; lia).
  assert (Eq2 : ((g + 1) mod 8 =? 0) = (g mod 8 =? 7)).
  { apply Bool.eq_iff_eq_true. rewrite !Z.eqb_eq. rewrite <- Z.add_mod_idemp_l by lia. split; intros E.
    - destruct (Z.eq_dec (g mod 8) 7); auto. rewrite Z.mod_small in E by lia. lia.
    - rewrite E. reflexivity. }
  rewrite Eq1, Eq2. set (q := g / 8) in *. rewrite Z.ltb_irrefl, Z.abs_eq by lia.
  destruct (g mod 8 =? 7) eqn:E7; cbn [Z.b2z].
  - split.
    + replace (1 + (q + 1)) with (q + 1 + 1) by lia.
      destruct (asn1_write_size (q + 1 + 1)); [|reflexivity]. change (1 =? 0) with false. cbv iota.
      replace (Z.to_nat (q + 1 + 1)) with (S (Z.to_nat (q + 1))) by lia. rewrite be_bytes_cons0; [reflexivity|].
      rewrite Z2Nat.id by lia. split; [lia|]. change 256 with (2 ^ 8). rewrite <- Z.pow_mul_r by lia.
      pose proof (Z.log2_spec n Hp) as HL. fold g in HL.
      assert (2 ^ Z.succ g <= 2 ^ (8 * (q + 1))) by (apply Z.pow_le_mono_r; lia). lia.
    + reflexivity.
  - split.
    + rewrite Z.add_0_r, Z.add_0_l. change (0 =? 0) with true. cbv iota. destruct (asn1_write_size (q + 1)); reflexivity.
    + rewrite Z.add_0_r. reflexivity.
Qed.

Lemma write_mpz_der n : 0 <= n -> der_bytelen n <= 0xffff ->
  exists bs, asn1_write_mpz n = Some bs /\ der_int n bs /\ bytes bs /\ Z.of_nat (length bs) = asn1_size_mpz n.
Proof.
  intros Hn Hk. pose proof (der_bytelen_bounds n Hn) as (K0 & K1 & K2).
  destruct (write_mpz_eq n Hn) as [-> ->].
  destruct (write_size_der (der_bytelen n) ltac:(lia)) as (l & -> & Hl & HL).
  assert (bytes l).
  { destruct Hl as [[? ->]|(_ & c & Hc & _ & _ & ? & ->)]; [repeat constructor; unfold byte; lia|].
    apply bytes_cons. split; [unfold byte; lia|auto]. }
  eexists. split; [reflexivity|]. split.
  - exists (be_bytes (Z.to_nat (der_bytelen n)) n), l. rewrite be_bytes_length, Z2Nat.id by lia.
    split; [|auto]. apply be_content; rewrite ?Z2Nat.id by lia; auto; try lia.
  - split.
    + cbn [app]. apply bytes_cons. split; [unfold byte; lia|]. apply bytes_app. split; auto. apply be_bytes_bytes.
    + cbn [app length]. rewrite app_length, be_bytes_length. lia.
Qed.

Lemma write_mpz_none n : 0 <= n -> 0xffff < der_bytelen n -> asn1_write_mpz n = None.
Proof. intros Hn H. destruct (write_mpz_eq n Hn) as [-> _]. rewrite write_size_none by auto. reflexivity. Qed.

(* fixed-length integers *)
Lemma shr7 b : byte b -> shr b 7 = Z.b2z (negb (b <? 128)).
Proof.
  intros H. apply Z.eqb_eq. apply (forall_byte (fun b => shr b 7 =? Z.b2z (negb (b <? 128)))); [vm_compute; reflexivity|exact H].
Qed.

Lemma write_int_der num : bytes num -> Z.of_nat (length num) < 0xffff ->
  exists bs, asn1_write_int num = Some bs /\ der_int (be_val num) bs /\ bytes bs /\ Z.of_nat (length bs) = asn1_size_int num.
Proof.
  intros Hb HL. unfold asn1_write_int, asn1_size_int.
  pose proof (strip0_val num Hb) as Hv. pose proof (strip0_bytes num Hb) as Hsb. pose proof (strip0_le num) as Hle.
  destruct (strip0_spec num Hb) as (k & _ & D). set (s := strip0 num) in *. rewrite <- Hv.
  destruct s as [|b s].
  - cbn [length Nat.eqb]. change (Z.of_nat 0 =? 0) with true. cbv iota. eexists. split; [reflexivity|].
    change (be_val []) with 0. split; [|split; [repeat constructor; unfold byte; lia|reflexivity]].
    exists [0], [1]. split; [|split; [left; split; [cbn; lia|reflexivity]|reflexivity]].
    unfold der_content. cbn [nth length]. change (be_val [0]) with 0. repeat split; try discriminate; try lia.
    repeat constructor; unfold byte; lia.
  - destruct D as [D|D]; [discriminate|]. cbn [hd] in D. cbn [length Nat.eqb] in *.
    destruct (Z.eqb_spec (Z.of_nat (S (length s))) 0); [lia|].
    assert (Hsb' := Hsb). apply bytes_cons in Hsb' as [Hb0 Hs]. cbn [rd nth].
    change (rd (b :: s) 0) with b. rewrite shr7 by auto.
    assert (HZ : 0 <= Z.b2z (negb (b <? 128)) <= 1) by (destruct (negb (b <? 128)); cbn; lia).
    destruct (write_size_der (Z.b2z (negb (b <? 128)) + Z.of_nat (S (length s))) ltac:(lia)) as (l & -> & Hl & Hll).
    assert (bytes l).
    { destruct Hl as [[? ->]|(_ & c & Hc & _ & _ & ? & ->)]; [repeat constructor; unfold byte; lia|].
      apply bytes_cons. split; [unfold byte; lia|auto]. }
    assert (Hlead : forall c, c = (if Z.b2z (negb (b <? 128)) =? 0 then [] else [0]) ++ b :: s ->
      der_content (be_val (b :: s)) c /\ Z.of_nat (length c) = Z.b2z (negb (b <? 128)) + Z.of_nat (S (length s)) /\ bytes c).
    { intros c ->. unfold byte in Hb0. destruct (Z.ltb_spec b 128); cbn [negb Z.b2z].
      - change (0 =? 0) with true. cbn [app]. split; [|split; [cbn [length]; lia|auto]].
        unfold der_content. cbn [nth length]. repeat split; auto; try discriminate; try lia.
      - change (1 =? 0) with false. cbn [app]. split; [|split; [cbn [length]; lia|]].
        + unfold der_content. cbn [nth length].
          split; [apply bytes_cons; split; [unfold byte; lia|auto]|]. split; [discriminate|]. split; [lia|].
          split; [rewrite (be_val_cons 0); lia|lia].
        + apply bytes_cons; split; [unfold byte; lia|auto]. }
    specialize (Hlead _ eq_refl) as (HC & HCl & HCb).
    eexists. split; [reflexivity|]. split; [exists ((if Z.b2z (negb (b <? 128)) =? 0 then [] else [0]) ++ b :: s), l|].
    + rewrite HCl. repeat split; auto; apply HC.
    + split.
      * cbn [app]. apply bytes_cons. split; [unfold byte; lia|]. apply bytes_app. auto.
      * rewrite (Z.add_comm (Z.of_nat (S (length s)))), <- Hll, <- HCl. cbn [app length]. rewrite !app_length. lia.
Qed.

(* dumb integers *)
Lemma mpz_bytelen_val n : 0 <= n -> 0 <= mpz_bytelen n /\ n < 256 ^ mpz_bytelen n.
Proof.
  intros H. unfold mpz_bytelen. destruct (Z.eq_dec n 0) as [->|]; [cbn; lia|].
  pose proof (mpz_bitlen_bound n ltac:(lia)) as B. pose proof (mpz_bitlen_pos n ltac:(lia)).
  pose proof (Z.div_mod (mpz_bitlen n + 7) 8 ltac:(lia)). pose proof (Z.mod_pos_bound (mpz_bitlen n + 7) 8 ltac:(lia)).
  split; [apply Z.div_pos; lia|]. change 256 with (2 ^ 8). rewrite <- Z.pow_mul_r by (try apply Z.div_pos; lia).
  assert (2 ^ mpz_bitlen n <= 2 ^ (8 * ((mpz_bitlen n + 7) / 8))) by (apply Z.pow_le_mono_r; lia). lia.
Qed.

Lemma dumb_size s : 0 <= s <= 0xffff ->
  Z.lor (Z.shiftl (w8 (shr s 8)) 8) (Z.land s 0xff) = s /\ byte (w8 (shr s 8)) /\ byte (Z.land s 0xff).
Proof.
  intros H. rewrite land_255. pose proof (Z.div_mod s 256 ltac:(lia)). pose proof (Z.mod_pos_bound s 256 ltac:(lia)).
  unfold shr, w8, M8. rewrite shiftr_div by lia. change (2 ^ 8) with 256. rewrite (Z.mod_small (s / 256)) by lia.
  rewrite lor_shiftl_add by (change (2 ^ 8) with 256; lia). change (2 ^ 8) with 256. unfold byte. lia.
Qed.

Lemma dumb_roundtrip n rest : 0 <= n -> mpz_bytelen n <= 0xffff ->
  exists bs, asn1_write_dumb n = Some bs /\ asn1_read_dumb (bs ++ rest) = ROk n rest /\
    Z.of_nat (length bs) = 2 + mpz_bytelen n.
Proof.
  intros Hn HL. pose proof (mpz_bytelen_val n Hn) as [H0 H1]. unfold asn1_write_dumb, mpz_export.
  destruct (Z.ltb_spec 0xffff (mpz_bytelen n)); [lia|]. rewrite Z.ltb_irrefl, Z.abs_eq by lia.
  eexists. split; [reflexivity|]. split.
  - unfold asn1_read_dumb. cbn [app length Nat.ltb Nat.leb].
    unfold peek. cbn [nth_error skipn]. destruct (dumb_size (mpz_bytelen n) ltac:(lia)) as (E & _ & _). rewrite E.
    pose proof (be_bytes_length (Z.to_nat (mpz_bytelen n)) n) as HBL.
    destruct (Z.ltb_spec (Z.of_nat (length (be_bytes (Z.to_nat (mpz_bytelen n)) n ++ rest))) (mpz_bytelen n)).
    { rewrite app_length in *. lia. }
    replace (mpz_bytelen n) with (Z.of_nat (length (be_bytes (Z.to_nat (mpz_bytelen n)) n))) at 1 by (rewrite HBL; lia).
    rewrite take_exact, be_val_be_bytes, Z2Nat.id by lia. rewrite Z.mod_small by lia. reflexivity.
  - cbn [app length]. rewrite be_bytes_length. lia.
Qed.

Lemma read_dumb_safe data : bytes data -> safe (asn1_read_dumb data) data.
Proof.
  intros Hb. unfold asn1_read_dumb. destruct data as [|a [|b data]]; cbn [length Nat.ltb Nat.leb]; try exact I.
  unfold peek. cbn [nth_error skipn]. destruct (Z.ltb_spec (Z.of_nat (length data)) (Z.lor (Z.shiftl a 8) b)) as [|L]; [exact I|].
  unfold take. destruct (Z.ltb_spec (Z.of_nat (length data)) (Z.lor (Z.shiftl a 8) b)); [lia|].
  cbn [safe]. exists (a :: b :: firstn (Z.to_nat (Z.lor (Z.shiftl a 8) b)) data). cbn [app]. rewrite firstn_skipn. reflexivity.
Qed.

Lemma read_seq_safe data strict : safe (asn1_read_seq data strict) data.
Proof.
  unfold asn1_read_seq, read_tag. destruct data as [|t data]; cbn [length Nat.eqb]; [exact I|].
  destruct (negb _); [exact I|]. pose proof (read_size_safe data strict) as H.
  destruct (asn1_read_size data strict) as [s r| |]; auto. destruct (_ && _); [exact I|].
  destruct H as [p ->]. exists (t :: p). reflexivity.
Qed.

Lemma read_version_safe data v strict : bytes data -> safe (asn1_read_version data v strict) data.
Proof.
  intros Hb. unfold asn1_read_version. destruct strict.
  - destruct data as [|a [|b [|c data]]]; cbn [length Nat.ltb Nat.leb]; try exact I.
    unfold peek. cbn [nth_error skipn]. destruct (_ || _); [exact I|]. exists [a; b; c]. reflexivity.
  - unfold asn1_read_mpz. pose proof (read_int_bytes_safe data true false 2048 Hb) as H.
    destruct (read_int_bytes _ _ _ _) as [num r| |]; auto. cbv beta iota.
    destruct (_ =? _); [exact H|exact I].
Qed.

Lemma der_bytelen_le n k : 0 <= n -> 0 < k -> 2 * n < 256 ^ k <-> der_bytelen n <= k.
Proof.
  intros Hn Hk. pose proof (der_bytelen_bounds n Hn) as (B0 & B1 & B2). split.
  - intros H. destruct (Z.le_gt_cases (der_bytelen n) k) as [|G]; auto.
    assert (256 ^ k <= 256 ^ (der_bytelen n - 1)) by (apply Z.pow_le_mono_r; lia). lia.
  - intros H. assert (256 ^ der_bytelen n <= 256 ^ k) by (apply Z.pow_le_mono_r; lia). lia.
Qed.

Lemma be_val_lt_len num k : bytes num -> Z.of_nat (length num) <= k -> be_val num < 256 ^ k.
Proof.
  intros Hb H. pose proof (be_val_range num Hb).
  assert (256 ^ Z.of_nat (length num) <= 256 ^ k) by (apply Z.pow_le_mono_r; lia). lia.
Qed.

(* strict mpz: exactly DER, and exactly the writer's bytes *)
Lemma read_mpz_strict data n rest : bytes data ->
  asn1_read_mpz data true = ROk n rest ->
  exists bs, der_int n bs /\ data = bs ++ rest /\ 0 <= n < 256 ^ 2048.
Proof.
  intros Hb E. unfold asn1_read_mpz in E.
  destruct (read_int_bytes data true true 2048) as [num r| |] eqn:ER; try discriminate.
  injection E as <- <-. apply read_int_bytes_strict in ER; auto.
  destruct ER as (bs & Hd & -> & Hn & HL & _). exists bs. split; [auto|]. split; [auto|].
  split; [apply be_val_range; auto|]. apply be_val_lt_len; auto.
Qed.

Lemma der_int_write n bs : 0 <= n -> 2 * n < 256 ^ 65535 -> der_int n bs -> asn1_write_mpz n = Some bs.
Proof.
  intros Hn Hl Hd. apply (proj1 (der_bytelen_le n 65535 Hn eq_refl)) in Hl.
  destruct (write_mpz_der n Hn Hl) as (bs' & -> & Hd' & _). f_equal. eapply der_int_unique; eauto.
Qed.

Lemma pow2048 n : 0 <= n < 256 ^ 2048 -> 2 * n < 256 ^ 65535.
Proof.
  intros [H0 H]. apply (proj2 (der_bytelen_le n 65535 H0 eq_refl)).
  assert (der_bytelen n <= 2049); [|clear H; lia]. apply der_bytelen_le; [auto|reflexivity|].
  change 2049 with (2048 + 1). rewrite Z.pow_add_r by (clear; lia).
  set (P := 256 ^ 2048) in *. clearbody P. lia.
Qed.

Lemma mpz_roundtrip n rest strict : 0 <= n < 256 ^ 2048 -> bytes rest ->
  exists bs, asn1_write_mpz n = Some bs /\ asn1_read_mpz (bs ++ rest) strict = ROk n rest.
Proof.
  intros Hn Hr. pose proof (pow2048 n Hn) as Hp. apply (proj1 (der_bytelen_le n 65535 (proj1 Hn) eq_refl)) in Hp.
  destruct (write_mpz_der n (proj1 Hn) Hp) as (bs & -> & Hd & Hb & _). exists bs. split; [auto|].
  destruct (read_int_bytes_complete n bs rest true strict 2048 Hd Hr Hb) as (num & E & <- & _);
    [split; [discriminate|reflexivity]|exact (proj2 Hn)|]. unfold asn1_read_mpz. rewrite E. reflexivity.
Qed.

Lemma lead_unique a b : bytes a -> bytes b -> (a = [] \/ hd 0 a <> 0) -> (b = [] \/ hd 0 b <> 0) ->
  be_val a = be_val b -> a = b.
Proof.
  assert (K : forall a b, bytes a -> bytes b -> (a = [] \/ hd 0 a <> 0) -> be_val a = be_val b -> (length a <= length b)%nat).
  { intros x y Hx Hy [->|D] E; [cbn; lia|]. pose proof (be_val_lead x Hx D). pose proof (be_val_range y Hy).
    destruct (Nat.le_gt_cases (length x) (length y)) as [|G]; auto.
    assert (256 ^ Z.of_nat (length y) <= 256 ^ (Z.of_nat (length x) - 1)) by (apply Z.pow_le_mono_r; lia). lia. }
  intros Ha Hb Da Db E. pose proof (K a b Ha Hb Da E). pose proof (K b a Hb Ha Db (eq_sym E)).
  rewrite <- (be_bytes_be_val a Ha), <- (be_bytes_be_val b Hb), E. f_equal. lia.
Qed.

Lemma int_roundtrip num rest strict : bytes num -> bytes rest -> Z.of_nat (length num) < 0xffff ->
  exists bs, asn1_write_int num = Some bs /\ asn1_read_int (length num) (bs ++ rest) strict = ROk num rest.
Proof.
  intros Hn Hr HL. destruct (write_int_der num Hn HL) as (bs & -> & Hd & Hb & _). exists bs. split; [auto|].
  destruct (read_int_bytes_complete _ bs rest strict strict (Z.of_nat (length num)) Hd Hr Hb) as (s & E & Ev & Hsb & Hsl & D);
    [change (2 ^ 31) with 2147483648; lia|apply be_val_lt_len; auto; lia|].
  unfold asn1_read_int. rewrite E. f_equal.
  destruct (strip0_spec num Hn) as (k & Ek & Dk).
  assert (s = strip0 num).
  { apply lead_unique; auto; [apply strip0_bytes; auto|]. rewrite strip0_val; auto. }
  subst s. assert (EL : length num = (k + length (strip0 num))%nat)
    by (rewrite Ek at 1; rewrite app_length, repeat_length; reflexivity).
  replace (length num - length (strip0 num))%nat with k by lia. symmetry. exact Ek.
Qed.

Lemma read_int_strict out_len data num rest : bytes data ->
  asn1_read_int out_len data true = ROk num rest ->
  exists bs, der_int (be_val num) bs /\ data = bs ++ rest /\ length num = out_len /\ bytes num.
Proof.
  intros Hb E. unfold asn1_read_int in E.
  destruct (read_int_bytes data true true (Z.of_nat out_len)) as [s r| |] eqn:ER; try discriminate.
  injection E as <- <-. apply read_int_bytes_strict in ER; auto.
  destruct ER as (bs & Hd & -> & Hn & HL & _). exists bs. rewrite be_val_repeat0. split; [auto|]. split; [auto|].
  split; [rewrite app_length, repeat_length; lia|]. apply bytes_app. split; auto. apply bytes_repeat. unfold byte; lia.
Qed.

Lemma der_int_write_int num bs : bytes num -> Z.of_nat (length num) < 0xffff -> der_int (be_val num) bs ->
  asn1_write_int num = Some bs.
Proof.
  intros Hn HL Hd. destruct (write_int_der num Hn HL) as (bs' & -> & Hd' & _). f_equal. eapply der_int_unique; eauto.
Qed.

(* the lax mpz reader *)
Lemma read_mpz_lax data n rest : bytes data ->
  asn1_read_mpz data false = ROk n rest <->
  exists l c, der_len (Z.of_nat (length c)) l /\ data = [2] ++ l ++ c ++ rest /\ be_val c = n /\
    n < 256 ^ 2048 /\ Z.of_nat (length c) < 2 ^ 32.
Proof.
  intros Hb. unfold asn1_read_mpz. rewrite read_int_bytes_eq by auto. split.
  - destruct data as [|t data]; [discriminate|]. destruct (Z.eqb_spec t 2) as [->|]; cbn [negb]; [|discriminate].
    apply bytes_cons in Hb as [_ Hb].
    destruct (asn1_read_size data true) as [size r| |] eqn:ES; try discriminate.
    pose proof (read_size_nonneg _ _ _ _ Hb ES) as HN.
    apply read_size_strict in ES; auto. destruct ES as (l & Hl & ->).
    apply bytes_app in Hb as [_ Hb]. unfold body.
    destruct (Z.ltb_spec (Z.of_nat (length r)) size) as [|Hle]; [discriminate|]. cbn [andb].
    assert (Hc : bytes (firstn (Z.to_nat size) r)) by (apply bytes_firstn; auto).
    destruct (Z.ltb_spec 2048 (Z.of_nat (length (strip0 (firstn (Z.to_nat size) r))))); [discriminate|].
    intros E. injection E as <- <-. exists l, (firstn (Z.to_nat size) r).
    assert (EL : Z.of_nat (length (firstn (Z.to_nat size) r)) = size) by (rewrite firstn_length; lia).
    rewrite EL. split; [auto|]. split; [rewrite firstn_skipn; reflexivity|].
    rewrite strip0_val by auto. split; [auto|]. split; [|lia].
    rewrite <- strip0_val by auto. apply be_val_lt_len; [apply strip0_bytes; auto|auto].
  - intros (l & c & Hl & -> & <- & Hn & Hc). cbn [app]. change (negb (2 =? 2)) with false. cbv iota.
    rewrite (read_size_complete _ _ _ true Hl) by auto. unfold body. rewrite app_length.
    destruct (Z.ltb_spec (Z.of_nat (length c + length rest)) (Z.of_nat (length c))); [lia|].
    rewrite Nat2Z.id, firstn_app_exact, skipn_app_exact by reflexivity. cbn [andb].
    cbn [app] in Hb. apply bytes_cons in Hb as [_ Hb]. apply bytes_app in Hb as [_ Hb]. apply bytes_app in Hb as [Hcb _].
    destruct (Z.ltb_spec 2048 (Z.of_nat (length (strip0 c)))) as [G|]; [exfalso|rewrite strip0_val by auto; reflexivity].
    destruct (strip0_spec c Hcb) as (k & _ & D). destruct D as [D|D]; [rewrite D in G; cbn in G; lia|].
    pose proof (be_val_lead _ (strip0_bytes c Hcb) D) as HL. rewrite strip0_val in HL by auto.
    assert (256 ^ 2048 <= 256 ^ (Z.of_nat (length (strip0 c)) - 1)) by (apply Z.pow_le_mono_r; lia).
    set (P := 256 ^ 2048) in *. clearbody P. lia.
Qed.

(* sequences *)
Lemma read_seq_strict data rest : bytes data ->
  asn1_read_seq data true = ROk tt rest <->
  exists l, der_len (Z.of_nat (length rest)) l /\ data = [0x30] ++ l ++ rest /\ Z.of_nat (length rest) < 2 ^ 32.
Proof.
  intros Hb. unfold asn1_read_seq, read_tag. split.
  - destruct data as [|t data]; cbn [length Nat.eqb]; [discriminate|].
    destruct (Z.eqb_spec t 48) as [->|]; cbn [negb]; [|discriminate]. apply bytes_cons in Hb as [_ Hb].
    destruct (asn1_read_size data true) as [size r| |] eqn:ES; try discriminate.
    pose proof (read_size_nonneg _ _ _ _ Hb ES) as HN.
    apply read_size_strict in ES; auto. destruct ES as (l & Hl & ->). cbn [andb].
    destruct (Z.eqb_spec size (Z.of_nat (length r))) as [->|]; cbn [negb]; [|discriminate].
    intros E. injection E as <-. exists l. split; [auto|]. split; [reflexivity|lia].
  - intros (l & Hl & -> & Hlt). cbn [app length Nat.eqb]. change (negb (48 =? 48)) with false. cbv iota.
    rewrite (read_size_complete _ _ _ true Hl) by auto. rewrite Z.eqb_refl. reflexivity.
Qed.

Lemma read_seq_lax l rest size : der_len size l -> size < 2 ^ 32 ->
  asn1_read_seq ([0x30] ++ l ++ rest) false = ROk tt rest.
Proof.
  intros Hl Hlt. unfold asn1_read_seq, read_tag. cbn [app length Nat.eqb]. change (negb (48 =? 48)) with false. cbv iota.
  rewrite (read_size_complete _ _ _ false Hl) by auto. reflexivity.
Qed.

Lemma write_size_iff s l : 0 <= s -> asn1_write_size s = Some l <-> der_len s l /\ s <= 0xffff.
Proof.
  intros Hs. split.
  - intros E. destruct (Z.le_gt_cases s 0xffff) as [L|G]; [|rewrite write_size_none in E by lia; discriminate].
    destruct (write_size_der s ltac:(lia)) as (l' & E' & Hl & _). rewrite E in E'. injection E' as ->. auto.
  - intros [Hl L]. destruct (write_size_der s ltac:(lia)) as (l' & E' & Hl' & _).
    rewrite E'. f_equal. eapply der_len_unique; eauto.
Qed.

Lemma version_lax v rest : 0 <= v <= 255 -> bytes rest ->
  forall v', asn1_read_version ([2; 1; v] ++ rest) v' false = if v =? v' then ROk tt rest else RFail.
Proof.
  intros Hv Hr v'. unfold asn1_read_version.
  assert (E : asn1_read_mpz ([2; 1; v] ++ rest) false = ROk v rest).
  { apply read_mpz_lax.
    - cbn [app]. repeat (apply bytes_cons; split; [unfold byte; lia|]). auto.
    - exists [1], [v]. split; [left; split; [cbn; lia|reflexivity]|]. split; [reflexivity|].
      split; [change (be_val [v]) with (v + 256 * 0); lia|].
      assert (256 ^ 1 <= 256 ^ 2048) by (apply Z.pow_le_mono_r; lia). change (256 ^ 1) with 256 in *.
      split; [|cbn; lia]. set (P := 256 ^ 2048) in *. clearbody P. lia. }
  rewrite E. reflexivity.
Qed.
