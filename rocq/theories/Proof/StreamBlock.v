(* cipher_stream_t: the block modes as instances of StreamApi, and the finals *)
From Verif.Base Require Import Prelude.
From Verif.Model Require Import Bio Util Block Encoding Modes CipherStream.
From Verif.Spec Require Import BlockSpec StreamSpec ModesSpec StreamApiSpec.
From Verif.Proof Require Import UtilProof BioProof BufCrypt BlockProof Pkcs7Proof BlockModes GfShift XtsProof StreamApi.
#[local] Ltac Zify.zify_post_hook ::= idtac.

(* drivers: a sequence of updates, then final; the caller keeps the first
   *output_len bytes of each output *)
Fixpoint updates (s : cstream) (chunks : list (list Z)) : outcome (list Z * cstream) :=
  match chunks with
  | [] => Ok ([], s)
  | x :: t =>
    match cipher_stream_update s x with
    | Ok (w, n, s') =>
      match updates s' t with
      | Ok (o, s'') => Ok (firstn n w ++ o, s'')
      | Fail => Fail | Abort => Abort
      end
    | Fail => Fail | Abort => Abort
    end
  end.
Definition run (s : cstream) (chunks : list (list Z)) : outcome (list Z) :=
  match updates s chunks with
  | Ok (o, s') =>
    match cipher_stream_final s' with
    | Ok (r, w, n, _) => if r =? 0 then Fail else Ok (o ++ firstn n w)
    | Fail => Fail | Abort => Abort
    end
  | Fail => Fail | Abort => Abort
  end.

Lemma ok_inj {A} (x y : A) : Ok x = Ok y -> x = y.
Proof. congruence. Qed.
Lemma nth_repeat_lt (v : Z) n i d : (i < n)%nat -> nth i (repeat v n) d = v.
Proof. revert i. induction n as [|n IH]; intros i H; [lia|]. destruct i; [reflexivity|]. apply IH. lia. Qed.

Section Inst.
  Variable c : cipher.
  Hypothesis Hc : cipher_ok c.
  Notation B := (c_size c).
  Notation E := (c_enc c).
  Notation D := (c_dec c).
  Let HB : (0 < B)%nat := B_pos c Hc.

  Definition gstep (type : mode_id) (enc : bool) (m : mstate) (b : list Z) : list Z * mstate :=
    match type, m with
    | RAW, _ | ECB, _ => ((if enc then E b else D b), m)
    | CBC, MCbc p | CTS, MCbc p => if enc then (E (xorl p b), MCbc (E (xorl p b))) else (xorl (D b) p, MCbc b)
    | XTS, MXts (t, p) => (xex (if enc then E else D) t b, MXts (tweak B t 1, if enc then p else t))
    | _, _ => (b, m)
    end.
  Definition Inv (type : mode_id) (m : mstate) : Prop :=
    match type, m with
    | RAW, _ | ECB, _ => True
    | CBC, MCbc p | CTS, MCbc p => okb B p
    | XTS, MXts (t, p) => okb B t
    | _, _ => False
    end.
  Lemma f_ok (enc : bool) b : okb B b -> okb B ((if enc then E else D) b).
  Proof. destruct enc; [apply E_ok|apply D_ok]; auto. Qed.
  Lemma inv_step type enc m b : Inv type m -> okb B b -> okb B (fst (gstep type enc m b)) /\ Inv type (snd (gstep type enc m b)).
  Proof.
    intros HI Hb. pose proof (f_ok true) as HE. pose proof (f_ok false) as HD. cbn in HE, HD.
    destruct type; cbn [gstep Inv] in *; try contradiction; try (split; [destruct enc; cbn [fst]; auto|exact I]).
    - destruct m; try contradiction. destruct enc; cbn [fst snd]; (split; [|auto]).
      + apply HE, X_ok; auto.
      + apply HE, X_ok; auto.
      + apply X_ok; auto.
    - destruct m; try contradiction. destruct enc; cbn [fst snd]; (split; [|auto]).
      + apply HE, X_ok; auto.
      + apply HE, X_ok; auto.
      + apply X_ok; auto.
    - destruct m as [| |[t p]| | | |]; try contradiction. cbn [fst snd]. split; [apply xex_ok; auto; apply f_ok|]. apply tweak_ok; auto.
  Qed.

  Lemma seqm_ecb type enc m bs : type = RAW \/ type = ECB -> seqm (gstep type enc) m bs = (map (if enc then E else D) bs, m).
  Proof.
    intros Ht. induction bs as [|b t IH]; cbn [seqm map]; [reflexivity|].
    destruct Ht as [-> | ->]; cbn [gstep]; rewrite IH; destruct enc; reflexivity.
  Qed.
  Lemma seqm_cbce type p bs : type = CBC \/ type = CTS -> seqm (gstep type true) (MCbc p) bs = (cbc_chain E p bs, MCbc (last (cbc_chain E p bs) p)).
  Proof.
    intros Ht. revert p. induction bs as [|b t IH]; intros p; cbn [seqm cbc_chain]; [reflexivity|]. rewrite last_cons.
    destruct Ht as [-> | ->]; cbn [gstep]; rewrite IH; reflexivity.
  Qed.
  Lemma seqm_cbcd type p bs : type = CBC \/ type = CTS -> okb B p -> Forall (okb B) bs ->
    concat (fst (seqm (gstep type false) (MCbc p) bs)) = cbc_undo c p bs /\ snd (seqm (gstep type false) (MCbc p) bs) = MCbc (last bs p).
  Proof.
    intros Ht Hp HF. revert p Hp. induction HF as [|b t Hb HF IH]; intros p Hp; [split; reflexivity|]. rewrite last_cons.
    assert (EX : seqm (gstep type false) (MCbc p) (b :: t) =
      (xorl (D b) p :: fst (seqm (gstep type false) (MCbc b) t), snd (seqm (gstep type false) (MCbc b) t))).
    { cbn [seqm]. destruct Ht as [-> | ->]; cbn [gstep]; match goal with |- context [seqm ?g ?m t] => destruct (seqm g m t) end; reflexivity. }
    rewrite EX. cbn [fst snd concat]. destruct (IH b Hb) as [I1 I2]. rewrite I1, I2. split; [|reflexivity].
    unfold cbc_undo. cbn [map concat]. rewrite xorl_app; [reflexivity|].
    destruct (D_ok c Hc b Hb), Hp; lia.
  Qed.
  Lemma tweak_1 t0 i : okb B t0 -> tweak B (tweak B t0 i) 1 = tweak B t0 (S i).
  Proof.
    intros H. rewrite <- (tweak_S c Hc t0 i) by auto. rewrite <- (tweak_0 c (tweak B t0 i)) at 2 by (apply tweak_ok).
    symmetry. apply (tweak_S c Hc). apply tweak_ok.
  Qed.
  Lemma seqm_xts enc t0 bs : okb B t0 -> forall i p,
    seqm (gstep XTS enc) (MXts (tweak B t0 i, p)) bs =
    (xts_chain B (if enc then E else D) t0 i bs,
     MXts (tweak B t0 (i + length bs), if enc then p else match bs with [] => p | _ => tweak B t0 (i + length bs - 1) end)).
  Proof.
    intros H0. induction bs as [|b t IH]; intros i p.
    - cbn [seqm xts_chain length]. rewrite Nat.add_0_r. destruct enc; reflexivity.
    - cbn [seqm gstep xts_chain length]. rewrite tweak_1 by auto. rewrite IH. f_equal. f_equal. f_equal; [f_equal; lia|].
      destruct enc; [reflexivity|]. destruct t; [cbn [length]; f_equal; lia|f_equal; cbn [length]; lia].
  Qed.

  Lemma hcrypt type enc m bs : is_stream type = false -> Inv type m -> Forall (okb B) bs ->
    crypt c type enc m (concat bs) = Ok (concat (fst (seqm (gstep type enc) m bs)), snd (seqm (gstep type enc) m bs)).
  Proof.
    intros Hs HI HF. pose proof (okb_len _ _ HF) as HL. unfold crypt. destruct type; try discriminate.
    - rewrite seqm_ecb by auto. cbn [fst snd]. destruct enc; cbn [cipher_mode_encrypt cipher_mode_decrypt];
        [rewrite ecb_encrypt_spec by auto|rewrite ecb_decrypt_spec by auto]; reflexivity.
    - rewrite seqm_ecb by auto. cbn [fst snd]. destruct enc; cbn [cipher_mode_encrypt cipher_mode_decrypt];
        [rewrite ecb_encrypt_spec by auto|rewrite ecb_decrypt_spec by auto]; reflexivity.
    - destruct m; try contradiction. cbn [Inv] in HI. destruct enc; cbn [cipher_mode_encrypt cipher_mode_decrypt].
      + rewrite cbc_encrypt_spec, seqm_cbce by auto. reflexivity.
      + rewrite cbc_disjoint_spec by auto. destruct (seqm_cbcd CBC prev bs ltac:(auto) HI HF) as [-> ->]. reflexivity.
    - destruct m; try contradiction. cbn [Inv] in HI. destruct enc; cbn [cipher_mode_encrypt cipher_mode_decrypt].
      + rewrite cbc_encrypt_spec, seqm_cbce by auto. reflexivity.
      + rewrite cbc_disjoint_spec by auto. destruct (seqm_cbcd CTS prev bs ltac:(auto) HI HF) as [-> ->]. reflexivity.
    - destruct m as [| |[t p]| | | |]; try contradiction. cbn [Inv] in HI.
      replace (MXts (t, p)) with (MXts (tweak B t 0, p)) by (rewrite tweak_0; auto). rewrite seqm_xts by auto.
      destruct enc; cbn [cipher_mode_encrypt cipher_mode_decrypt].
      + rewrite xts_encrypt_spec by auto. reflexivity.
      + rewrite xts_decrypt_spec by auto. reflexivity.
  Qed.

  Notation srp type enc := (srep c type enc (gstep type enc)).
  Notation outz type enc := (outs c (gstep type enc)).

  Lemma updates_srep type enc m0 pd up chunks : is_stream type = false -> Inv type m0 -> Forall bytes chunks -> forall hist out s,
    bytes hist -> srp type enc m0 pd up hist out s ->
    exists o s', updates s chunks = Ok (o, s') /\ srp type enc m0 pd up (hist ++ concat chunks) (out ++ o) s'.
  Proof.
    intros Hs HI HF. induction HF as [|x t Hx HF IH]; intros hist out s Hh R; cbn [updates concat].
    - exists [], s. rewrite !app_nil_r. auto.
    - destruct (update_srep c Hc type enc (gstep type enc) (Inv type) Hs (inv_step type enc) (fun m bs => hcrypt type enc m bs Hs) m0 pd up hist out s x HI Hh Hx R)
        as (w & n & s' & U1 & U2 & _).
      rewrite U1. destruct (IH _ _ _ (proj2 (bytes_app hist x) (conj Hh Hx)) U2) as (o & s'' & V1 & V2).
      rewrite V1. eexists _, _. split; [reflexivity|]. rewrite !app_assoc in *. auto.
  Qed.

  (* ---- finals ---- *)
  Definition fin_out (out : list Z) (f : outcome fin) : outcome (list Z) :=
    match f with Ok (r, w, n, _) => if r =? 0 then Fail else Ok (out ++ firstn n w) | Fail => Fail | Abort => Abort end.

  Lemma pos_zero hist : (length (leftover B hist) =? 0)%nat = (length hist mod B =? 0)%nat.
  Proof. rewrite leftover_length by auto. reflexivity. Qed.

  (* no padding: block multiples only *)
  Lemma final_whole type enc m0 pd hist out s : is_stream type = false -> (type = RAW \/ pd = false) ->
    srp type enc m0 pd false hist out s ->
    fin_out out (cipher_stream_final s) = if (length hist mod B =? 0)%nat then Ok (concat (outz type enc m0 hist)) else Fail.
  Proof.
    intros Hs Hp [R1 R2 R3 R4 R5 R6 R7 R8 R9 R10]. unfold cipher_stream_final. rewrite R3, R4, R8, pos_zero. subst out.
    assert (G : fin_out (concat (outz type enc m0 hist)) (if negb (length hist mod B =? 0)%nat then Ok (0, [], 0%nat, s) else Ok (1, [], 0%nat, s)) =
      if (length hist mod B =? 0)%nat then Ok (concat (outz type enc m0 hist)) else Fail).
    { destruct (length hist mod B =? 0)%nat; cbn [negb fin_out Z.eqb firstn]; [rewrite app_nil_r|]; reflexivity. }
    destruct type; try discriminate; auto; destruct Hp as [Hp|Hp]; try discriminate; subst pd; cbn [negb]; exact G.
  Qed.

  Lemma blocks_padded hist pad : (length (leftover B hist) + length pad = B)%nat ->
    blocks B (hist ++ pad) = blocks B hist ++ [leftover B hist ++ pad] /\ leftover B (hist ++ pad) = [].
  Proof.
    intros HL. destruct (split_hist c Hc hist pad) as [S1 S2].
    assert (HX : length (leftover B hist ++ pad) = B) by (rewrite app_length; auto).
    rewrite S1, S2. split; [f_equal; pose proof (blocks_exact B [leftover B hist ++ pad] HB) as X; cbn [concat] in X; rewrite app_nil_r in X; apply X; auto|].
    unfold leftover at 1. rewrite HX, Nat.div_same by lia. rewrite Nat.mul_1_l. apply skipn_all2. lia.
  Qed.

  Lemma pad_len hist : (length (leftover B hist) + (B - length hist mod B) = B)%nat.
  Proof. rewrite leftover_length by auto. pose proof (Nat.mod_upper_bound (length hist) B ltac:(lia)). lia. Qed.
  Lemma B_small : (B < 256)%nat.
  Proof. destruct (bc_size _ _ _ Hc) as [-> | ->]; lia. Qed.
  Lemma seqm_snoc type enc m0 bs b :
    fst (seqm (gstep type enc) m0 (bs ++ [b])) = fst (seqm (gstep type enc) m0 bs) ++ [fst (gstep type enc (snd (seqm (gstep type enc) m0 bs)) b)].
  Proof. rewrite seqm_app. cbn [fst]. f_equal. cbn [seqm]. destruct (gstep _ _ _ b). reflexivity. Qed.

  Lemma final_pad_enc type m0 hist out s : is_pad type = true -> Inv type m0 -> bytes hist ->
    srp type true m0 true false hist out s ->
    fin_out out (cipher_stream_final s) = Ok (concat (outz type true m0 (pkcs7 B hist))).
  Proof.
    intros Hp HI Hb [R1 R2 R3 R4 R5 R6 R7 R8 R9 R10]. subst out.
    assert (Hs : is_stream type = false) by (destruct type; try discriminate; reflexivity).
    unfold cipher_stream_final, s_bsize. rewrite R3, R4, R1, R2, R9.
    set (L := leftover B hist) in *. pose proof (pad_len hist) as HL. fold L in HL.
    pose proof B_small as HS. pose proof (Nat.mod_upper_bound (length hist) B ltac:(lia)) as HM.
    assert (EP : pkcs7_pad L B = Some (L ++ repeat (Z.of_nat (B - length hist mod B)) (B - length hist mod B))).
    { unfold pkcs7_pad. destruct (Nat.leb_spec (length L) B); [|lia]. rewrite w8_small by (rewrite M8_eq; lia).
      replace (B - length L)%nat with (B - length hist mod B)%nat by lia. reflexivity. }
    rewrite EP. set (pad := repeat (Z.of_nat (B - length hist mod B)) (B - length hist mod B)) in *.
    assert (Hl : (length (leftover B hist) + length pad = B)%nat) by (unfold pad; rewrite repeat_length; auto).
    destruct (blocks_padded hist pad Hl) as [P1 _].
    assert (Hbl : bytes L) by (apply leftover_bytes; auto).
    assert (Hok : okb B (L ++ pad)).
    { split; [rewrite app_length; auto|]. apply bytes_app. split; auto. apply Forall_forall. intros y Hy. apply repeat_spec in Hy. subst y. unfold byte. lia. }
    assert (EC : encipher s (s_mode s) (L ++ pad) = crypt c type true (s_mode s) (concat [L ++ pad])).
    { unfold encipher, crypt. rewrite R1, R2, R3. cbn [concat]. rewrite app_nil_r. reflexivity. }
    destruct (seqm_ok c (gstep type true) (Inv type) (inv_step type true) _ m0 HI (blocks_okb B hist HB Hb)) as [O1 O2].
    rewrite R6 in EC. rewrite hcrypt in EC by auto. rewrite R6, EC.
    unfold outs, pkcs7. fold pad. rewrite P1. fold L. rewrite seqm_snoc, concat_app.
    set (m1 := snd (seqm (gstep type true) m0 (blocks B hist))) in *.
    assert (E1 : concat (fst (seqm (gstep type true) m1 [L ++ pad])) = fst (gstep type true m1 (L ++ pad))).
    { cbn [seqm]. destruct (gstep type true m1 (L ++ pad)). cbn [fst concat]. apply app_nil_r. }
    rewrite E1. destruct (inv_step type true m1 _ O2 Hok) as [[Hl1 _] _].
    destruct type; try discriminate; cbn [negb fin_out Z.eqb concat]; rewrite app_nil_r, firstn_all2 by lia; reflexivity.
  Qed.

  Lemma outs_ok type enc m0 hist : Inv type m0 -> bytes hist -> Forall (okb B) (outz type enc m0 hist).
  Proof. intros HI Hb. apply (seqm_ok c (gstep type enc) (Inv type) (inv_step type enc)); auto. apply blocks_okb; auto. Qed.
  Lemma outs_len type enc m0 hist : length (outz type enc m0 hist) = (length hist / B)%nat.
  Proof. unfold outs. rewrite seqm_length. apply blocks_length. Qed.
  Lemma outs_ne type enc m0 hist : (B <= length hist)%nat -> outz type enc m0 hist <> [].
  Proof. intros H E0. pose proof (outs_len type enc m0 hist) as X. rewrite E0 in X. cbn [length] in X. pose proof (Nat.div_le_lower_bound (length hist) B 1 ltac:(lia) ltac:(lia)). lia. Qed.

  Lemma last_pkcs7 (os : list (list Z)) m : os <> [] -> Forall (okb B) os ->
    (concat os = pkcs7 B m <-> exists n, pkcs7_canonical (last os []) n /\ m = concat (removelast os) ++ firstn (B - n) (last os [])).
  Proof.
    intros Hn HF. assert (Hlast : okb B (last os [])).
    { destruct os as [|x t]; [congruence|]. inversion HF; subst. rewrite last_cons. apply (last_ok c); auto. }
    destruct Hlast as [L1 L2]. assert (EO := app_removelast_last [] Hn).
    assert (HR : length (concat (removelast os)) = (length (removelast os) * B)%nat).
    { apply concat_length_exact. apply okb_len. rewrite EO in HF. apply Forall_app in HF. tauto. }
    assert (EC : concat os = concat (removelast os) ++ last os []) by (rewrite EO at 1; rewrite concat_app; cbn [concat]; rewrite app_nil_r; reflexivity).
    rewrite EC. unfold pkcs7, pkcs7_canonical. split.
    - intros H. pose proof (Nat.mod_upper_bound (length m) B ltac:(lia)) as HM. set (n := (B - length m mod B)%nat) in *. exists n.
      assert (HLn : (length (concat (removelast os)) + B = length m + n)%nat).
      { apply (f_equal (@length Z)) in H. rewrite !app_length, repeat_length, L1 in H. auto. }
      assert (Hm : (length (concat (removelast os)) + (B - n) = length m)%nat) by (unfold n in *; lia).
      assert (F1 : firstn (length m) (concat (removelast os) ++ last os []) = m) by (rewrite H; apply firstn_app_exact; auto).
      assert (F2 : skipn (length m) (concat (removelast os) ++ last os []) = repeat (Z.of_nat n) n) by (rewrite H; apply skipn_app_exact; auto).
      rewrite <- Hm, firstn_app_2 in F1. rewrite <- Hm, skipn_app in F2.
      rewrite skipn_all2 in F2 by lia. replace (length (concat (removelast os)) + (B - n) - length (concat (removelast os)))%nat with (B - n)%nat in F2 by lia.
      cbn [app] in F2. rewrite L1. repeat split; auto; unfold n; lia.
    - intros (n & (N1 & N2) & ->). rewrite L1 in *.
      assert (HX : length (concat (removelast os) ++ firstn (B - n) (last os [])) = (length (removelast os) * B + (B - n))%nat).
      { rewrite app_length, HR, firstn_length. lia. }
      assert (HN : (B - length (concat (removelast os) ++ firstn (B - n) (last os [])) mod B)%nat = n).
      { rewrite HX. rewrite Nat.add_comm, Nat.mod_add by lia. destruct (Nat.eq_dec n B) as [->|]; [rewrite Nat.sub_diag, Nat.mod_0_l; lia|]. rewrite Nat.mod_small by lia. lia. }
      rewrite HN, <- app_assoc. f_equal. rewrite <- N2. symmetry. apply firstn_skipn.
  Qed.

  Lemma final_pad_dec type m0 hist out s : is_pad type = true -> Inv type m0 -> bytes hist ->
    srp type false m0 true true hist out s ->
    (forall m, fin_out out (cipher_stream_final s) = Ok m <-> (length hist mod B = 0)%nat /\ concat (outz type false m0 hist) = pkcs7 B m) /\
    fin_out out (cipher_stream_final s) <> Abort.
  Proof.
    intros Hp HI Hb [R1 R2 R3 R4 R5 R6 R7 R8 R9 (R10 & R11 & R12)]. subst out.
    unfold cipher_stream_final, s_bsize. rewrite R3, R4, R1, R8, pos_zero, R11.
    set (X := match type with RAW => _ | _ => _ end).
    assert (EX : X = if negb (length hist mod B =? 0)%nat then Ok (0, [], 0%nat, s)
      else if ((if (length hist <? B)%nat then 0 else B) =? 0)%nat then Ok (0, [], 0%nat, s)
      else let '(r, len, dst) := pkcs7_unpad (s_last s) in Ok (r, dst, Z.to_nat len, s)).
    { unfold X. destruct type; try discriminate; reflexivity. }
    rewrite EX. clear X EX.
    assert (HC : concat (outz type false m0 hist) = [] \/ (B <= length hist)%nat).
    { destruct (Nat.le_gt_cases B (length hist)); [auto|]. left. unfold outs. rewrite blocks_nil by auto. reflexivity. }
    assert (HZ : forall m, (length hist < B)%nat -> concat (outz type false m0 hist) <> pkcs7 B m).
    { intros m Hlt E0. destruct HC as [E1|]; [|lia]. rewrite E1 in E0. apply (f_equal (@length Z)) in E0. unfold pkcs7 in E0.
      rewrite app_length, repeat_length in E0. cbn [length] in E0. pose proof (Nat.mod_upper_bound (length m) B ltac:(lia)). lia. }
    destruct (Nat.eqb_spec (length hist mod B) 0) as [HM|HM]; cbn [negb].
    2:{ cbn [fin_out Z.eqb]. split; [|discriminate]. intros m. split; [discriminate|]. lia. }
    destruct (Nat.ltb_spec (length hist) B) as [HL|HL].
    - change (0 =? 0)%nat with true. cbv iota. cbn [fin_out Z.eqb]. split; [|discriminate]. intros m. split; [discriminate|].
      intros [_ E0]. exfalso. revert E0. apply HZ. auto.
    - destruct (Nat.eqb_spec B 0) as [?|HBne]; [lia|]. rewrite R12 by auto.
      pose proof (outs_ok type false m0 hist HI Hb) as HO. pose proof (outs_ne type false m0 hist HL) as HN.
      set (os := outz type false m0 hist) in *.
      assert (Hlast : okb B (last os [])).
      { destruct os as [|x t]; [congruence|]. inversion HO; subst. rewrite last_cons. apply (last_ok c); auto. }
      destruct Hlast as [L1 L2]. pose proof B_small as HS.
      assert (Hl31 : Z.of_nat (length (last os [])) + 1 < 2 ^ 31) by (rewrite L1; lia).
      assert (Hl0 : (0 < length (last os []))%nat) by lia.
      rewrite (unpad_compute _ L2 Hl0 Hl31). cbv zeta.
      set (l := rd (last os []) (length (last os []) - 1)).
      pose proof (pad_valid_iff (last os []) l eq_refl Hl0) as HV.
      destruct (pad_valid (last os []) l) eqn:EV; cbn [fin_out Z.eqb].
      + split; [|discriminate]. destruct (proj1 HV eq_refl) as (n & E1 & E2). intros m. rewrite (last_pkcs7 os m HN HO).
        rewrite L1, E1. assert (HB1 : (1 <= n <= B)%nat) by (destruct E2; lia).
        replace (Z.to_nat (Z.of_nat B - Z.of_nat n)) with (B - n)%nat by lia. split.
        * intros H. apply ok_inj in H. split; auto. exists n. auto.
        * intros (_ & n' & C1 & ->). f_equal. f_equal. f_equal.
          assert (n = n'); [|congruence].
          destruct E2 as [N1 N2], C1 as [N3 N4]. apply Nat2Z.inj. transitivity l; [auto|]. unfold l, rd.
          replace (length (last os []) - 1)%nat with (length (last os []) - n' + (n' - 1))%nat by lia. rewrite <- nth_skipn, N4.
          rewrite nth_repeat_lt by lia. reflexivity.
      + split; [|discriminate]. intros m. split; [discriminate|]. intros (_ & E0). apply (last_pkcs7 os m HN HO) in E0 as (n & C1 & _).
        exfalso. assert (false = true); [|discriminate]. apply HV. exists n. split; auto.
        destruct C1 as [N3 N4]. unfold l, rd. replace (length (last os []) - 1)%nat with (length (last os []) - n + (n - 1))%nat by lia. rewrite <- nth_skipn, N4.
        rewrite nth_repeat_lt by lia. reflexivity.
  Qed.

  (* ---- ciphertext stealing ---- *)
  Lemma outs_snoc type enc m0 hist ps p : blocks B hist = ps ++ [p] ->
    outz type enc m0 hist = fst (seqm (gstep type enc) m0 ps) ++ [fst (gstep type enc (snd (seqm (gstep type enc) m0 ps)) p)].
  Proof. intros H. unfold outs. rewrite H. apply seqm_snoc. Qed.
  Lemma blocks_snoc hist : (B <= length hist)%nat -> exists ps p, blocks B hist = ps ++ [p].
  Proof.
    intros H. assert (N : blocks B hist <> []).
    { intros E0. pose proof (blocks_length B hist) as X. rewrite E0 in X. cbn [length] in X. pose proof (Nat.div_le_lower_bound (length hist) B 1 ltac:(lia) ltac:(lia)). lia. }
    exists (removelast (blocks B hist)), (last (blocks B hist) []). apply app_removelast_last. auto.
  Qed.
  Lemma rl_snoc {A} (l : list A) x : removelast (l ++ [x]) = l.
  Proof. rewrite removelast_app by discriminate. cbn. apply app_nil_r. Qed.

  Lemma final_cts_enc iv hist out s : okb B iv -> bytes hist -> srp CTS true (MCbc iv) true true hist out s ->
    fin_out out (cipher_stream_final s) = if (B <=? length hist)%nat then Ok (cbc_cts B E iv (blocks B hist) (leftover B hist)) else Fail.
  Proof.
    intros Hi Hb [R1 R2 R3 R4 R5 R6 R7 R8 R9 (R10 & R11 & R12)]. subst out.
    unfold cipher_stream_final, s_bsize. rewrite R3, R4, R1, R2, R11. cbn [negb].
    destruct (Nat.ltb_spec (length hist) B) as [HL|HL]; [destruct (Nat.leb_spec B (length hist)); [lia|reflexivity]|].
    destruct (Nat.leb_spec B (length hist)) as [_|]; [|lia]. destruct (Nat.eqb_spec B 0) as [?|_]; [lia|].
    unfold outs in *. rewrite seqm_cbce in * by auto. cbn [fst snd] in *. rewrite R6, R12 by auto. cbn [cipher_mode_steal].
    assert (HN : cbc_chain E iv (blocks B hist) <> []).
    { pose proof (outs_ne CTS true (MCbc iv) hist HL) as X. unfold outs in X. rewrite seqm_cbce in X by auto. exact X. }
    assert (HO : Forall (okb B) (cbc_chain E iv (blocks B hist))) by (apply cbc_chain_ok; auto; apply blocks_okb; auto).
    assert (EL : last (cbc_chain E iv (blocks B hist)) [] = last (cbc_chain E iv (blocks B hist)) iv) by (destruct (cbc_chain E iv (blocks B hist)) as [|x t]; [congruence|rewrite !last_cons; reflexivity]).
    rewrite EL. set (ck := last (cbc_chain E iv (blocks B hist)) iv).
    assert (Hk : okb B ck) by (apply (last_ok c); auto).
    set (r := leftover B hist) in *. pose proof (leftover_length B hist HB) as Hr. fold r in Hr. pose proof (Nat.mod_upper_bound (length hist) B ltac:(lia)) as HM.
    rewrite R8 in R9. rewrite R8. rewrite (cbc_steal_spec c ck r (s_block s) Hk) by (auto; lia). cbn [fin_out Z.eqb].
    unfold cbc_cts. fold ck. f_equal. f_equal. destruct Hk as [K1 K2].
    assert (HX : length (E (xorl ck (r ++ repeat 0 (B - length r)))) = B).
    { apply E_ok; auto. apply X_ok; [split; auto|]. apply pad_ok; [apply leftover_bytes; auto|lia]. }
    rewrite (firstn_app_exact (firstn (length r) ck) (skipn (length r) (s_block s)) (length r)) by (rewrite firstn_length; lia).
    apply firstn_all2. rewrite app_length, HX, firstn_length. lia.
  Qed.

  Lemma blocks_stolen (cs : list (list Z)) x t : Forall (okb B) cs -> length x = B -> (length t < B)%nat ->
    blocks B (concat cs ++ x ++ t) = cs ++ [x] /\ leftover B (concat cs ++ x ++ t) = t /\ (B <= length (concat cs ++ x ++ t))%nat.
  Proof.
    intros HF Hx Ht. assert (L : length (concat (cs ++ [x])) = (length (cs ++ [x]) * B)%nat).
    { apply concat_length_exact. apply Forall_app. split; [apply okb_len; auto|auto]. }
    assert (EQ : concat cs ++ x ++ t = concat (cs ++ [x]) ++ t) by (rewrite concat_app; cbn [concat]; rewrite app_nil_r, <- app_assoc; reflexivity).
    assert (HG : Forall (fun b : list Z => length b = B) (cs ++ [x])) by (apply Forall_app; split; [apply okb_len; auto|constructor; auto]).
    rewrite EQ. rewrite (blocks_app B _ HB _ _ L), (leftover_app B _ _ _ HB L), (blocks_exact B _ HB HG), (blocks_nil B t Ht), (leftover_small B t Ht), app_nil_r.
    split; [reflexivity|]. split; [reflexivity|]. rewrite app_length, L, app_length. cbn [length]. nia.
  Qed.

  Lemma seqm_cbc_chain type p bs : type = CBC \/ type = CTS -> okb B p -> Forall (okb B) bs ->
    seqm (gstep type false) (MCbc p) (cbc_chain E p bs) = (bs, MCbc (last (cbc_chain E p bs) p)).
  Proof.
    intros Ht Hp HF. revert p Hp. induction HF as [|b t Hb HF IH]; intros p Hp; [reflexivity|]. cbn [cbc_chain]. rewrite last_cons.
    assert (Hx : okb B (E (xorl p b))) by (apply E_ok; auto; apply X_ok; auto).
    assert (HD : xorl (D (E (xorl p b))) p = b).
    { rewrite DE by (auto; apply X_ok; auto). rewrite (xorl_comm p b). apply xor_cancel_r. destruct Hb, Hp; lia. }
    assert (EX : forall u, seqm (gstep type false) (MCbc p) (E (xorl p b) :: u) =
      (b :: fst (seqm (gstep type false) (MCbc (E (xorl p b))) u), snd (seqm (gstep type false) (MCbc (E (xorl p b))) u))).
    { intros u. cbn [seqm]. destruct Ht as [-> | ->]; cbn [gstep]; rewrite HD; match goal with |- context [seqm ?g ?m u] => destruct (seqm g m u) end; reflexivity. }
    rewrite EX, IH by auto. reflexivity.
  Qed.
  Lemma cbc_chain_snoc iv ps p : cbc_chain E iv (ps ++ [p]) = cbc_chain E iv ps ++ [E (xorl (last (cbc_chain E iv ps) iv) p)].
  Proof. revert iv. induction ps as [|b t IH]; intros iv; [reflexivity|]. cbn [app cbc_chain]. rewrite IH, last_cons. reflexivity. Qed.

  Lemma msg_split m : exists x, m = concat (blocks B m) ++ leftover B m /\ x = concat (blocks B m).
  Proof.
    destruct (blocks_leftover B m HB) as (x & X1 & X2 & X3). exists (concat (blocks B m)). split; auto.
    rewrite <- X3. rewrite (concat_blocks B _ HB x X2). exact X1.
  Qed.

  Lemma final_cts_dec iv m hist out s : okb B iv -> bytes m -> (B <= length m)%nat ->
    hist = cbc_cts B E iv (blocks B m) (leftover B m) -> srp CTS false (MCbc iv) true true hist out s ->
    fin_out out (cipher_stream_final s) = Ok m.
  Proof.
    intros Hi Hb HL EH [R1 R2 R3 R4 R5 R6 R7 R8 R9 (R10 & R11 & R12)]. subst out.
    destruct (blocks_snoc m HL) as (ps & pk & EB). pose proof (blocks_okb B m HB Hb) as HF. rewrite EB in HF. apply Forall_app in HF as [HF1 HF2].
    assert (Hpk : okb B pk) by (inversion HF2; auto).
    set (r := leftover B m) in *. pose proof (leftover_length B m HB) as Hr. fold r in Hr. pose proof (Nat.mod_upper_bound (length m) B ltac:(lia)) as HM.
    assert (Hbr : bytes r) by (apply leftover_bytes; auto).
    set (cs := cbc_chain E iv ps). set (cp := last cs iv). set (ck := E (xorl cp pk)).
    assert (Hcs : Forall (okb B) cs) by (apply cbc_chain_ok; auto).
    assert (Hcp : okb B cp) by (apply (last_ok c); auto).
    assert (Hck : okb B ck) by (apply E_ok; auto; apply X_ok; auto).
    set (x := E (xorl ck (r ++ repeat 0 (B - length r)))).
    assert (Hx : okb B x) by (apply E_ok; auto; apply X_ok; auto; apply pad_ok; auto; lia).
    assert (EH2 : hist = concat cs ++ x ++ firstn (length r) ck).
    { rewrite EH. unfold cbc_cts. rewrite EB, cbc_chain_snoc. fold cs. fold cp. fold ck. rewrite rl_snoc, last_last. reflexivity. }
    assert (HT : length (firstn (length r) ck) = length r) by (rewrite firstn_length; destruct Hck; lia).
    destruct (blocks_stolen cs x (firstn (length r) ck) Hcs (proj1 Hx) ltac:(lia)) as (BB & BL & BN). rewrite <- EH2 in BB, BL, BN.
    assert (ES : seqm (gstep CTS false) (MCbc iv) cs = (ps, MCbc cp)) by (apply seqm_cbc_chain; auto).
    assert (EO : outz CTS false (MCbc iv) hist = ps ++ [xorl (D x) cp]).
    { rewrite (outs_snoc CTS false (MCbc iv) hist cs x BB), ES. reflexivity. }
    assert (EM : s_mode s = MCbc x).
    { rewrite R6, BB, seqm_app, ES. reflexivity. }
    unfold cipher_stream_final, s_bsize. rewrite R3, R4, R1, R2, R11. cbn [negb].
    destruct (Nat.ltb_spec (length hist) B) as [?|_]; [lia|]. destruct (Nat.eqb_spec B 0) as [?|_]; [lia|].
    rewrite EM, R12, EO, rl_snoc, last_last by auto. cbn [cipher_mode_unsteal]. rewrite R8 in R9. rewrite R8, BL, HT. rewrite BL, HT in R9.
    destruct (cbc_unsteal_spec c Hc cp ck r (s_block s) Hcp Hck Hbr ltac:(lia) R9) as (prev & U). fold x in U. rewrite U.
    cbn [fin_out Z.eqb]. f_equal.
    assert (EP : xorl (D ck) cp = pk).
    { unfold ck. rewrite DE by (auto; apply X_ok; auto). rewrite (xorl_comm cp pk). apply xor_cancel_r. destruct Hpk, Hcp; lia. }
    rewrite EP. rewrite (firstn_app_exact r (skipn (length r) (s_block s)) (length r)) by auto.
    rewrite firstn_all2 by (rewrite app_length; destruct Hpk; lia).
    destruct (msg_split m) as (_ & EQ & _). rewrite EQ. fold r. rewrite EB, concat_app. cbn [concat]. rewrite app_nil_r, <- app_assoc. reflexivity.
  Qed.

  Lemma final_xts_enc t0 p0 hist out s : okb B t0 -> bytes hist -> srp XTS true (MXts (t0, p0)) true true hist out s ->
    fin_out out (cipher_stream_final s) = if (B <=? length hist)%nat then Ok (xts_spec B E t0 (blocks B hist) (leftover B hist)) else Fail.
  Proof.
    intros Hi Hb [R1 R2 R3 R4 R5 R6 R7 R8 R9 (R10 & R11 & R12)]. subst out.
    unfold cipher_stream_final, s_bsize. rewrite R3, R4, R1, R2, R11. cbn [negb].
    destruct (Nat.ltb_spec (length hist) B) as [HL|HL]; [destruct (Nat.leb_spec B (length hist)); [lia|reflexivity]|].
    destruct (Nat.leb_spec B (length hist)) as [_|]; [|lia]. destruct (Nat.eqb_spec B 0) as [?|_]; [lia|].
    assert (ES : seqm (gstep XTS true) (MXts (t0, p0)) (blocks B hist) = (xts_chain B E t0 0 (blocks B hist), MXts (tweak B t0 (length (blocks B hist)), p0))).
    { replace (MXts (t0, p0)) with (MXts (tweak B t0 0, p0)) by (rewrite tweak_0; auto). rewrite seqm_xts by auto. reflexivity. }
    unfold outs in *. rewrite ES in *. cbn [fst snd] in *. rewrite R6, R12 by auto. cbn [cipher_mode_steal].
    set (cs := xts_chain B E t0 0 (blocks B hist)) in *.
    assert (HN : cs <> []).
    { pose proof (outs_ne XTS true (MXts (t0, p0)) hist HL) as X. unfold outs in X. rewrite ES in X. exact X. }
    assert (HO : Forall (okb B) cs) by (apply xts_chain_ok; auto; [apply (f_ok true)|apply blocks_okb; auto]).
    assert (Hk : okb B (last cs [])) by (destruct cs as [|y t]; [congruence|]; inversion HO; subst; rewrite last_cons; apply (last_ok c); auto).
    assert (EC : concat cs = concat (removelast cs) ++ last cs []) by (rewrite (app_removelast_last [] HN) at 1; rewrite concat_app; cbn [concat]; rewrite app_nil_r; reflexivity).
    set (r := leftover B hist) in *. pose proof (leftover_length B hist HB) as Hr. fold r in Hr. pose proof (Nat.mod_upper_bound (length hist) B ltac:(lia)) as HM.
    rewrite R8 in R9. rewrite R8. destruct Hk as [K1 K2]. rewrite (xts_steal_spec c (tweak B t0 (length (blocks B hist))) p0 (last cs []) r (s_block s)) by (auto; lia). cbn [fin_out Z.eqb].
    unfold xts_spec. fold cs. destruct r as [|r0 r'] eqn:Er.
    - f_equal. cbn [length firstn]. rewrite app_nil_r, firstn_all2 by lia. auto.
    - rewrite <- Er in *. f_equal. f_equal.
      rewrite (firstn_app_exact (firstn (length r) (last cs [])) (skipn (length r) (s_block s)) (length r)) by (rewrite firstn_length; lia).
      apply firstn_all2. rewrite app_length, firstn_length.
      assert (HX : length (xex E (tweak B t0 (length (blocks B hist))) (r ++ skipn (length r) (last cs []))) = B).
      { apply xex_ok; [apply (f_ok true)|apply tweak_ok; auto|]. split; [rewrite app_length, skipn_length; lia|]. apply bytes_app. split; [unfold r; apply leftover_bytes; auto|apply bytes_skipn; auto]. }
      lia.
  Qed.

  Lemma final_xts_dec t0 p0 m hist out s : okb B t0 -> bytes m -> (B <= length m)%nat ->
    hist = xts_spec B E t0 (blocks B m) (leftover B m) -> srp XTS false (MXts (t0, p0)) true true hist out s ->
    fin_out out (cipher_stream_final s) = Ok m.
  Proof.
    intros Hi Hb HL EH [R1 R2 R3 R4 R5 R6 R7 R8 R9 (R10 & R11 & R12)]. subst out.
    destruct (blocks_snoc m HL) as (ps & pk & EB). pose proof (blocks_okb B m HB Hb) as HF. assert (HFm := HF). rewrite EB in HF. apply Forall_app in HF as [HF1 HF2].
    assert (Hpk : okb B pk) by (inversion HF2; auto).
    set (r := leftover B m) in *. pose proof (leftover_length B m HB) as Hr. fold r in Hr. pose proof (Nat.mod_upper_bound (length m) B ltac:(lia)) as HM.
    assert (Hbr : bytes r) by (apply leftover_bytes; auto).
    set (cs := xts_chain B E t0 0 ps). set (n := length ps). set (ck := xex E (tweak B t0 n) pk).
    assert (Hcs : Forall (okb B) cs) by (apply xts_chain_ok; auto; apply (f_ok true)).
    assert (Htk : forall i, okb B (tweak B t0 i)) by (intros; apply tweak_ok; auto).
    assert (Hck : okb B ck) by (apply xex_ok; auto; apply (f_ok true)).
    assert (EQm : m = concat ps ++ pk ++ r).
    { destruct (msg_split m) as (_ & EQ & _). rewrite EQ. fold r. rewrite EB, concat_app. cbn [concat]. rewrite app_nil_r, <- app_assoc. reflexivity. }
    assert (EM0 : MXts (t0, p0) = MXts (tweak B t0 0, p0)) by (rewrite tweak_0; auto).
    assert (ES : exists q, seqm (gstep XTS false) (MXts (t0, p0)) cs = (ps, MXts (tweak B t0 n, q))).
    { rewrite EM0. rewrite seqm_xts by auto. unfold cs at 1. rewrite (xts_chain_DE c Hc) by auto.
      eexists. f_equal. f_equal. f_equal. f_equal. unfold cs, n. rewrite xts_chain_length. reflexivity. }
    destruct ES as (q & ES).
    unfold cipher_stream_final, s_bsize. rewrite R3, R4, R1, R2, R11. cbn [negb].
    (* the last full ciphertext block and the tail *)
    assert (HX : exists x t, okb B x /\ length t = length r /\ hist = concat cs ++ x ++ t /\
       match r with [] => x = ck /\ t = [] | _ => x = xex E (tweak B t0 (S n)) (r ++ skipn (length r) ck) /\ t = firstn (length r) ck end).
    { rewrite EH. unfold xts_spec. rewrite EB, (xts_chain_app c). cbn [xts_chain Nat.add]. fold cs. fold n. fold ck. destruct r as [|r0 r'] eqn:Er.
      - exists ck, []. rewrite concat_app. cbn [concat]. auto.
      - rewrite <- Er in *. rewrite rl_snoc, last_last. rewrite app_length. cbn [length]. fold n. rewrite Nat.add_1_r.
        eexists _, _. split; [|split; [|split; [reflexivity|split; reflexivity]]].
        + apply xex_ok; auto; [apply (f_ok true)|]. destruct Hck as [K1 K2]. split; [rewrite app_length, skipn_length; lia|]. apply bytes_app. split; [auto|apply bytes_skipn; auto].
        + rewrite firstn_length. destruct Hck. lia. }
    destruct HX as (x & t & Hx & Hlt & EH2 & HC).
    destruct (blocks_stolen cs x t Hcs (proj1 Hx) ltac:(lia)) as (BB & BL & BN). rewrite <- EH2 in BB, BL, BN.
    assert (EO : outz XTS false (MXts (t0, p0)) hist = ps ++ [xex D (tweak B t0 n) x]).
    { rewrite (outs_snoc XTS false (MXts (t0, p0)) hist cs x BB), ES. reflexivity. }
    assert (EM : s_mode s = MXts (tweak B t0 (S n), tweak B t0 n)).
    { rewrite R6, BB, seqm_app, ES. cbn [fst snd seqm gstep]. rewrite tweak_1 by auto. reflexivity. }
    destruct (Nat.ltb_spec (length hist) B) as [?|_]; [lia|]. destruct (Nat.eqb_spec B 0) as [?|_]; [lia|].
    rewrite EM, R12, EO, rl_snoc, last_last by auto. cbn [cipher_mode_unsteal]. rewrite R8 in R9. rewrite R8, BL, Hlt. rewrite BL, Hlt in R9.
    assert (EP : xex D (tweak B t0 n) ck = pk) by (apply (xex_DE c Hc); auto).
    destruct r as [|r0 r'] eqn:Er.
    - destruct HC as [-> ->]. rewrite EP. cbn [length]. unfold xts_unsteal. change (0 =? 0)%nat with true. cbv iota. cbn [fin_out Z.eqb firstn].
      rewrite EQm. f_equal. f_equal. apply firstn_all2. rewrite app_length. destruct Hpk. cbn [length]. lia.
    - rewrite <- Er in *. destruct HC as [-> ->].
      rewrite (xts_unsteal_spec c Hc (tweak B t0 (S n)) (tweak B t0 n) ck r (s_block s)) by (auto; try lia; rewrite Er; discriminate).
      cbn [fin_out Z.eqb]. rewrite EP, EQm. f_equal. f_equal.
      rewrite (firstn_app_exact r (skipn (length r) (s_block s)) (length r)) by auto.
      apply firstn_all2. rewrite app_length; destruct Hpk; lia.
  Qed.
End Inst.
