(* C09-C13: bech32 and CashAddr *)
From Coq Require Import String.
From Verif.Base Require Import Prelude.
From Verif.Model Require Import Encoding Bech32.
From Verif.Spec Require Import EncodingSpec Bech32Spec.
From Verif.Proof Require Import Bech32Proof Bech32Des SegwitProof Cash32Proof DetectProof.

(* ---- C09 ---- *)
(* The serializer produces exactly the BIP 173 string: the checksum is the
   unique one that makes the BIP 173 residue equal to the constant k. It
   fails exactly when no such string exists. *)
Theorem C09_bech32_serialize_exact hrp d k s : cstring hrp -> bytes d -> 0 <= k < 2 ^ 30 ->
  bech32_serialize hrp d k = Some s <-> is_bech32 k hrp d s.
Proof. apply bech32_serialize_iff. Qed.
Example C09_serialize_ex :
  bech32_serialize (str "a"%string) [] 1 = Some (str "a12uel5l"%string) /\
  is_bech32 1 (str "a"%string) [] (str "a12uel5l"%string).
Proof.
  assert (E : bech32_serialize (str "a"%string) [] 1 = Some (str "a12uel5l"%string)) by (vm_compute; reflexivity).
  split; [exact E|]. apply C09_bech32_serialize_exact; [| |lia|exact E].
  - repeat constructor; vm_compute; congruence.
  - constructor.
Qed.

(* The deserializer accepts exactly the single-case strings whose lower-case
   form is such a string, and returns its parts. *)
Theorem C09_bech32_deserialize_exact s k hrp d : cstring s -> 0 <= k ->
  bech32_deserialize s k = Some (hrp, d) <-> single_case s /\ is_bech32 k hrp d (map lower s).
Proof. apply bech32_deserialize_iff. Qed.
Example C09_deserialize_ex :
  bech32_deserialize (str "A12UEL5L"%string) 1 = Some (str "a"%string, []) /\
  bech32_deserialize (str "A12UEl5L"%string) 1 = None /\
  bech32_deserialize (str "1pzry9x0s0muk"%string) 1 = None.
Proof. vm_compute. auto. Qed.

Theorem C09_bech32_roundtrip hrp d k s : cstring hrp -> bytes d -> 0 <= k < 2 ^ 30 ->
  bech32_serialize hrp d k = Some s ->
  bech32_deserialize s k = Some (hrp, d) /\ bech32_is s k = true.
Proof.
  intros Hh Hd Hk E. apply bech32_serialize_iff in E; auto.
  assert (B := E). destruct E as (N & Fh & Fd & c & Lc & Fc & Pc & Es & L).
  assert (LS : forall x, In x s -> lower x = x /\ 33 <= x <= 126 /\ ~ is_upper x).
  { intros x Hx. rewrite Es in Hx. apply in_app_or in Hx. destruct Hx as [Hx|Hx].
    - rewrite Forall_forall in Fh. apply Fh in Hx. destruct Hx as (Hx & Hu). split; [|auto].
      unfold lower, is_upper in *. destruct ((65 <=? x) && (x <=? 90)) eqn:EU; lia.
    - destruct Hx as [<-|Hx]; [split; [reflexivity|unfold is_upper; lia]|].
      apply in_map_iff in Hx. destruct Hx as (v & <- & Hv).
      assert (Hb : below 32 v) by (apply in_app_or in Hv; rewrite Forall_forall in Fd, Fc; destruct Hv; auto).
      destruct (bsym v Hb) as (_ & _ & R & LL & _). split; [exact LL|]. split; [exact R|].
      unfold is_upper. unfold lower in LL. destruct ((65 <=? sym alphabech v) && (sym alphabech v <=? 90)) eqn:EU; lia. }
  assert (EM : map lower s = s).
  { rewrite <- map_id. apply map_ext_in. intros x Hx. apply LS; auto. }
  assert (Q : bech32_deserialize s k = Some (hrp, d)).
  { apply bech32_deserialize_iff; [|lia|].
    - apply Forall_forall. intros x Hx. apply LS in Hx. unfold cchar. lia.
    - rewrite EM. split; [|exact B]. intros (Q & _). apply Exists_exists in Q. destruct Q as (x & Hx & Qx).
      apply LS in Hx. tauto. }
  split; [exact Q|]. unfold bech32_is. rewrite Q. reflexivity.
Qed.
Theorem C09_bech32_canonical s k hrp d : cstring s -> 0 <= k < 2 ^ 30 ->
  bech32_deserialize s k = Some (hrp, d) ->
  single_case s /\ bech32_serialize hrp d k = Some (map lower s).
Proof.
  intros Hs Hk E. apply bech32_deserialize_iff in E; auto; [|lia]. destruct E as (SC & B). split; [exact SC|].
  assert (B' := B). destruct B as (N & Fh & Fd & _).
  apply bech32_serialize_iff; auto.
  - eapply Forall_impl; [|exact Fh]. intros c (Hc & _). unfold cchar. lia.
  - apply below_bytes. exact Fd.
Qed.
Example C09_roundtrip_ex :
  exists s, bech32_serialize (str "?"%string) (map Z.of_nat (seq 0 32)) 1 = Some s /\ length s = 40%nat /\
    bech32_deserialize s 1 = Some (str "?"%string, map Z.of_nat (seq 0 32)).
Proof.
  exists (match bech32_serialize (str "?"%string) (map Z.of_nat (seq 0 32)) 1 with Some s => s | None => [] end).
  vm_compute. auto.
Qed.

(* Past the first scan every character is below 128, so the 128-entry symbol
   table is never indexed out of range. *)
Theorem C09_table_index_in_range n s slen hlen lo up : cstring s ->
  bech32_scan n s 0 0 false false = Some (slen, hlen, lo, up) ->
  Forall (fun c => 0 <= torsion_ascii c < 128) (firstn slen s).
Proof.
  intros Hs. rewrite scan_ok by exact Hs. destruct (forallb printb (firstn n s)) eqn:E; [|discriminate].
  intros Q. injection Q as <- _ _ _. apply Forall_forall. intros x Hx.
  assert (Hx' : In x (firstn n s)).
  { rewrite <- (firstn_skipn (Nat.min n (length s)) (firstn n s)). apply in_or_app. left.
    rewrite firstn_firstn. replace (Nat.min (Nat.min n (length s)) n) with (Nat.min n (length s)) by lia. exact Hx. }
  rewrite forallb_forall in E. apply E in Hx'. unfold printb in Hx'. rewrite ascii_id by lia. lia.
Qed.

(* ---- C10 ---- *)
(* Substituting between one and four characters of the data part (checksum
   included) is always noticed, provided no substitute is the separator. *)
Theorem C10_bech32_detects_four s s' k hrp d w w' : cstring s -> cstring s' -> 0 <= k ->
  bech32_deserialize s k = Some (hrp, d) ->
  map lower s = hrp ++ [49] ++ w -> map lower s' = hrp ++ [49] ++ w' ->
  length w' = length w -> ~ In 49 w' -> (1 <= hamming w w' <= 4)%nat ->
  bech32_deserialize s' k = None.
Proof.
  intros Hs Hs' Hk E Ew Ew' L N H. apply bech32_deserialize_iff in E; auto.
  apply (bech32_detect s s' k hrp d w w'); auto.
Qed.
Example C10_detect_ex :
  bech32_deserialize (str "a12uel5l"%string) 1 = Some (str "a"%string, []) /\
  bech32_deserialize (str "a1xuey5c"%string) 1 = None /\
  hamming (str "2uel5l"%string) (str "xuey5c"%string) = 3%nat.
Proof. vm_compute. auto. Qed.
(* With the separator among the substitutes the claim is false: four
   substitutions turn this valid string into another valid one. *)
Theorem C10_bech32_separator_refuted : exists s s' r r',
  length s' = length s /\ hamming s s' = 4%nat /\ firstn 3 s' = firstn 3 s /\
  bech32_deserialize s 1 = Some (str "bc"%string, r) /\ bech32_deserialize s' 1 = Some r'.
Proof.
  exists (str "bc18xfn3l2vfd6tjmrxuz5cmg8dk6wrnlf6xjdh3cr69a9hcf75tjdxm553wz5pzcmqdd"%string),
         (str "bc18xfn3l2vfd6tjmrxu15cmg8dk6wrnlf6xjdh3cs69a9vcf75tjdxm553wz5pzlmqdd"%string).
  exists (match bech32_deserialize (str "bc18xfn3l2vfd6tjmrxuz5cmg8dk6wrnlf6xjdh3cr69a9hcf75tjdxm553wz5pzcmqdd"%string) 1 with Some (_, d) => d | None => [] end),
         (match bech32_deserialize (str "bc18xfn3l2vfd6tjmrxu15cmg8dk6wrnlf6xjdh3cs69a9vcf75tjdxm553wz5pzlmqdd"%string) 1 with Some r => r | None => ([], []) end).
  vm_compute. auto.
Qed.

(* ---- C11 ---- *)
Theorem C11_bech32_encode_exact hrp v h k s : cstring hrp -> bytes h -> 0 <= v -> 0 <= k < 2 ^ 30 ->
  bech32_encode hrp v h k = Some s <-> is_segwit k hrp v h s.
Proof. apply bech32_encode_iff. Qed.
Theorem C11_bech32_decode_exact a k hrp v h : cstring a -> 0 <= k ->
  bech32_decode a k = Some (hrp, v, h) <-> single_case a /\ is_segwit k hrp v h (map lower a).
Proof. apply bech32_decode_iff. Qed.

(* Encoding succeeds whenever the address fits in 90 characters. *)
Theorem C11_bech32_encode_total hrp v h k : hrp <> [] -> Forall hrp_char hrp -> bytes h -> 0 <= v <= 31 ->
  0 <= k < 2 ^ 30 -> (2 <= length h <= 40)%nat ->
  Z.of_nat (length hrp) + 8 + (8 * Z.of_nat (length h) + 4) / 5 <= 90 ->
  exists s, bech32_encode hrp v h k = Some s.
Proof.
  intros N Fh Hh Hv Hk Lh L90.
  assert (Hc : cstring hrp). { eapply Forall_impl; [|exact Fh]. intros c (Hc & _). cbn beta. lia. }
  set (d := v :: rfc4648_digits 5 h).
  assert (Fd : Forall (below 32) d) by (constructor; [unfold below; lia|apply ConvertBits.rfc_digits_below]).
  pose proof (ConvertBits.rfc_digits_length h) as RL.
  assert (Fst : 0 <= bip173_polymod (hrp_expand hrp ++ d) < 2 ^ (25 + 5)).
  { apply (PolymodProof.pm_fold_range 25 bip173_gen ltac:(lia) PolymodProof.bip173_gen_ok); [|lia].
    apply Forall_app. split; [apply hrp_expand_32; auto|auto]. }
  set (st := bip173_polymod (hrp_expand hrp ++ d)) in *.
  set (c := bedig 32 6 (Z.lxor (iter_polymod (PolymodProof.pmz 25 bip173_gen) 6 st) k)).
  assert (Lc : length c = 6%nat) by apply ConvertBits.bedig_length.
  assert (Fc : Forall (below 32) c) by (apply ConvertBits.bedig_below; lia).
  exists (hrp ++ [49] ++ map (sym alphabech) (d ++ c)).
  apply bech32_encode_iff; auto; [lia|].
  split; [lia|]. split; [auto|]. split; [lia|]. fold d. split; [auto|]. split; [auto|]. split; [auto|].
  exists c. split; [auto|]. split; [auto|]. split.
  - assert (E : bip173_polymod (hrp_expand hrp ++ d ++ c) = fold_left (pm_step 25 bip173_gen) c st).
    { unfold st, bip173_polymod. rewrite app_assoc, fold_left_app. reflexivity. }
    rewrite E. apply (PolymodProof.pm_checksum 25 bip173_gen ltac:(lia) PolymodProof.bip173_gen_ok 6); auto; lia.
  - split; [reflexivity|]. rewrite !app_length, map_length, app_length, Lc. cbn [length d]. lia.
Qed.

Theorem C11_bech32_address_roundtrip hrp v h k s : cstring hrp -> bytes h -> 0 <= v -> 0 <= k < 2 ^ 30 ->
  bech32_encode hrp v h k = Some s ->
  bech32_decode s k = Some (hrp, v, h) /\ bech32_test s k = true.
Proof.
  intros Hh Hb Hv Hk E. apply bech32_encode_iff in E; auto. destruct E as (V & B & L & I).
  assert (SE : bech32_serialize hrp (v :: rfc4648_digits 5 h) k = Some s).
  { apply bech32_serialize_iff; auto. constructor; [unfold byte; lia|]. apply below_bytes, ConvertBits.rfc_digits_below. }
  apply C09_bech32_roundtrip in SE; auto.
  2:{ constructor; [unfold byte; lia|]. apply below_bytes, ConvertBits.rfc_digits_below. }
  destruct SE as (SE & _).
  assert (Cs : cstring s).
  { destruct I as (N & Fh & Fd & c & Lc & Fc & Pc & -> & _). apply Forall_app. split.
    - eapply Forall_impl; [|exact Fh]. intros c' (Hc & _). cbn beta. lia.
    - constructor; [lia|]. rewrite Forall_map. apply Forall_forall. intros x Hx.
      assert (Hx32 : below 32 x) by (apply in_app_or in Hx; rewrite Forall_forall in Fd, Fc; destruct Hx; auto).
      pose proof (bsym x Hx32). lia. }
  assert (Q : bech32_decode s k = Some (hrp, v, h)).
  { apply bech32_decode_iff; auto; [lia|]. apply bech32_deserialize_iff in SE; auto; [|lia].
    destruct SE as (SC & I2). split; [auto|]. split; [auto|]. split; [auto|]. split; auto. }
  split; [exact Q|]. unfold bech32_test. rewrite Q. reflexivity.
Qed.
Theorem C11_bech32_address_canonical a k hrp v h : cstring a -> 0 <= k < 2 ^ 30 ->
  bech32_decode a k = Some (hrp, v, h) -> bech32_encode hrp v h k = Some (map lower a).
Proof.
  intros Ha Hk E. apply bech32_decode_iff in E; auto; [|lia]. destruct E as (_ & I). assert (I' := I).
  destruct I as (V & B & L & (N & Fh & _)). apply bech32_encode_iff; auto; [|lia].
  eapply Forall_impl; [|exact Fh]. intros c' (Hc & _). unfold cchar. lia.
Qed.
Example C11_address_ex :
  exists h, length h = 32%nat /\
    bech32_encode (str "tb"%string) 0 h 1 = Some (str "tb1qrp33g0q5c5txsp9arysrx4k6zdkfs4nce4xj0gdcccefvpysxf3q0sl5k7"%string) /\
    bech32_decode (str "tb1qrp33g0q5c5txsp9arysrx4k6zdkfs4nce4xj0gdcccefvpysxf3q0sl5k7"%string) 1 = Some (str "tb"%string, 0, h) /\
    (* non-zero padding bits *)
    bech32_decode (str "tb1qrp33g0q5c5txsp9arysrx4k6zdkfs4nce4xj0gdcccefvpysxf3pjxtptv"%string) 1 = None.
Proof.
  exists [0x18; 0x63; 0x14; 0x3c; 0x14; 0xc5; 0x16; 0x68; 0x04; 0xbd; 0x19; 0x20; 0x33; 0x56; 0xda; 0x13;
          0x6c; 0x98; 0x56; 0x78; 0xcd; 0x4d; 0x27; 0xa1; 0xb8; 0xc6; 0x32; 0x96; 0x04; 0x90; 0x32; 0x62].
  vm_compute. auto.
Qed.

(* ---- C12 ---- *)
Theorem C12_cash32_serialize_exact prefix d s : cstring prefix -> bytes d ->
  cash32_serialize prefix d = Some s <-> is_cash32 prefix d s.
Proof. apply cash32_serialize_iff. Qed.
Theorem C12_cash32_deserialize_exact s fb prefix d : cstring s -> cstring fb ->
  cash32_deserialize s fb = Some (prefix, d) <-> single_case s /\ cash_accept s fb prefix d.
Proof. apply cash32_deserialize_iff. Qed.
Theorem C12_cash32_encode_exact prefix t h s : cstring prefix -> bytes h -> 0 <= t ->
  cash32_encode prefix t h = Some s <-> exists ds, cash_data t h ds /\ is_cash32 prefix ds s.
Proof. apply cash32_encode_iff. Qed.
Theorem C12_cash32_decode_exact a expect t h : cstring a -> cstring expect ->
  cash32_decode a expect = Some (t, h) <->
  single_case a /\ exists ds, cash_data t h ds /\ cash_accept a expect expect ds.
Proof. apply cash32_decode_iff. Qed.

Lemma cash32_lower prefix d s : is_cash32 prefix d s -> map lower s = s /\ ~ Exists is_upper s /\ cstring s.
Proof.
  intros (pl & (N & FL & _ & Fd & _ & c & _ & Fc & _ & ->) & ->).
  assert (LS : forall x, In x (prefix ++ [58] ++ map (sym alphabech) (d ++ c)) -> lower x = x /\ 1 <= x < 256 /\ ~ is_upper x).
  { intros x Hx. apply in_app_or in Hx. destruct Hx as [Hx|[<-|Hx]].
    - rewrite Forall_forall in FL. apply FL in Hx. unfold is_lower in Hx. unfold lower, is_upper.
      destruct ((65 <=? x) && (x <=? 90)) eqn:EU; lia.
    - unfold is_upper. split; [reflexivity|lia].
    - apply in_map_iff in Hx. destruct Hx as (v & <- & Hv).
      assert (Hb : below 32 v) by (apply in_app_or in Hv; rewrite Forall_forall in Fd, Fc; destruct Hv; auto).
      destruct (bsym v Hb) as (_ & _ & R & LL & _). split; [exact LL|]. split; [lia|].
      unfold is_upper. unfold lower in LL. destruct ((65 <=? sym alphabech v) && (sym alphabech v <=? 90)) eqn:EU; lia. }
  split; [|split].
  - rewrite <- map_id. apply map_ext_in. intros x Hx. apply LS; auto.
  - intros Q. apply Exists_exists in Q. destruct Q as (x & Hx & Qx). apply LS in Hx. tauto.
  - apply Forall_forall. intros x Hx. apply LS in Hx. tauto.
Qed.

Theorem C12_cash32_address_roundtrip prefix t h s : cstring prefix -> bytes h -> 0 <= t ->
  cash32_encode prefix t h = Some s ->
  cash32_decode s prefix = Some (t, h) /\ cash32_test s prefix = true.
Proof.
  intros Hp Hh Ht E. apply cash32_encode_iff in E; auto. destruct E as (ds & D & I).
  destruct (cash32_lower _ _ _ I) as (EM & NU & Cs).
  assert (Q : cash32_decode s prefix = Some (t, h)).
  { apply cash32_decode_iff; auto. split; [intros (Q & _); contradiction|].
    exists ds. split; [auto|]. rewrite <- EM in I. destruct I as (pl & I & E). exists pl. auto. }
  split; [exact Q|]. unfold cash32_test. rewrite Q. reflexivity.
Qed.
(* An accepted address is the encoding of what was decoded, in full or without
   its prefix, up to a uniform change of case. *)
Theorem C12_cash32_address_canonical a expect t h : cstring a -> cstring expect ->
  cash32_decode a expect = Some (t, h) ->
  single_case a /\
  (cash32_encode expect t h = Some (map lower a) \/
   cash32_encode expect t h = Some (expect ++ [58] ++ map lower a)).
Proof.
  intros Ha He E. apply cash32_decode_iff in E; auto. destruct E as (SC & ds & D & (pl & P & E)).
  split; [exact SC|]. assert (Bh : bytes h) by apply D. assert (Ht : 0 <= t) by apply D.
  destruct E as [E|(_ & E)]; [left|right]; rewrite E; (apply cash32_encode_iff; auto; exists ds; split; [exact D|]; exists pl; auto).
Qed.
Example C12_address_ex :
  exists h, length h = 20%nat /\
    cash32_encode (str "bchtest"%string) 1 h = Some (str "bchtest:pr6m7j9njldwwzlg9v7v53unlr4jkmx6eyvwc0uz5t"%string) /\
    cash32_decode (str "PR6M7J9NJLDWWZLG9V7V53UNLR4JKMX6EYVWC0UZ5T"%string) (str "bchtest"%string) = Some (1, h) /\
    cash32_decode (str "bchtest:pr6m7j9njldwwzlg9v7v53unlr4jkmx6eyvwc0uz5t"%string) (str "bitcoincash"%string) = None.
Proof.
  exists [0xf5; 0xbf; 0x48; 0xb3; 0x97; 0xda; 0xe7; 0x0b; 0xe8; 0x2b; 0x3c; 0xca; 0x47; 0x93; 0xf8; 0xeb; 0x2b; 0x6c; 0xda; 0xc9].
  vm_compute. auto.
Qed.

(* ---- C13 ---- *)
(* Substituting between one and four characters of the payload is always
   noticed, provided no substitute is a colon. pre is the prefix with its
   colon, or empty when the prefix was left out. *)
Theorem C13_cash32_detects_four s s' fb prefix d pre pl pl' : cstring s -> cstring s' -> cstring fb ->
  cash32_deserialize s fb = Some (prefix, d) ->
  pre = [] \/ pre = prefix ++ [58] ->
  map lower s = pre ++ pl -> map lower s' = pre ++ pl' ->
  length pl' = length pl -> ~ In 58 pl -> ~ In 58 pl' -> (1 <= hamming pl pl' <= 4)%nat ->
  cash32_deserialize s' fb = None.
Proof.
  intros Hs Hs' Hf E P Ew Ew' L N N' H. apply cash32_deserialize_iff in E; auto.
  apply (cash32_detect s s' fb prefix d pre pl pl'); auto.
Qed.
Example C13_detect_ex :
  cash32_is (str "bchtest:pr6m7j9njldwwzlg9v7v53unlr4jkmx6eyvwc0uz5t"%string) (str "bchtest"%string) = true /\
  cash32_is (str "bchtest:pr6m7j9njldwwzlg9q7v53unlr4qkmx6eyvqc0uz5q"%string) (str "bchtest"%string) = false /\
  hamming (str "bchtest:pr6m7j9njldwwzlg9v7v53unlr4jkmx6eyvwc0uz5t"%string) (str "bchtest:pr6m7j9njldwwzlg9q7v53unlr4qkmx6eyvqc0uz5q"%string) = 4%nat.
Proof. vm_compute. auto. Qed.
(* With a colon among the substitutes the claim is false for addresses written
   without their prefix. *)
Theorem C13_cash32_colon_refuted : exists s s' r r',
  length s' = length s /\ hamming s s' = 4%nat /\
  cash32_deserialize s (str "bitcoincash"%string) = Some (str "bitcoincash"%string, r) /\
  cash32_deserialize s' (str "bitcoincash"%string) = Some (str "ujug"%string, r').
Proof.
  set (a := str "ujugxnnkczhdrdryxydmvcuesjytpjrkucamtgxmrlpgvyyvznlgrupvdgcxjuadnjqhngjcxnctslctfcnythjshpcgkvdqcyctdpmvyuazauzx"%string).
  set (b := str "ujug:nnkczhdrdryxydmvcuesjytejrkucamtgxmrlpgvyyvznlgrupvdgcxjuadnjqd4gjcxnctslctfcnythjshpcgkvdqcyctdpmvyuazauzx"%string).
  exists a, b,
    (match cash32_deserialize a (str "bitcoincash"%string) with Some (_, d) => d | None => [] end),
    (match cash32_deserialize b (str "bitcoincash"%string) with Some (_, d) => d | None => [] end).
  vm_compute. auto.
Qed.

(* the axioms of every theorem above, listed at once *)
Definition Bech32Props_all := (@C09_bech32_serialize_exact, @C09_bech32_deserialize_exact, @C09_bech32_roundtrip, @C09_bech32_canonical,
  @C09_table_index_in_range, @C10_bech32_detects_four, @C10_bech32_separator_refuted, @C11_bech32_encode_exact, @C11_bech32_decode_exact,
  @C11_bech32_encode_total, @C11_bech32_address_roundtrip, @C11_bech32_address_canonical, @C12_cash32_serialize_exact, @C12_cash32_deserialize_exact,
  @C12_cash32_encode_exact, @C12_cash32_decode_exact, @C12_cash32_address_roundtrip, @C12_cash32_address_canonical, @C13_cash32_detects_four,
  @C13_cash32_colon_refuted).
Print Assumptions Bech32Props_all.
