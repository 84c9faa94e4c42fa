(* bech32_encode, bech32_decode *)
From Coq Require Import String.
From Verif.Base Require Import Prelude.
From Verif.Model Require Import Encoding Bech32.
From Verif.Spec Require Import EncodingSpec Bech32Spec.
From Verif.Proof Require Import EncodingProof PolymodProof Bech32Proof Bech32Des ConvertBits.

Lemma below_bytes ds : Forall (below 32) ds -> bytes ds.
Proof. intros H. eapply Forall_impl; [|exact H]. unfold below, byte. lia. Qed.

Lemma bech32_encode_iff hrp v h k s : Forall cchar hrp -> bytes h -> 0 <= v -> 0 <= k < 2 ^ 30 ->
  bech32_encode hrp v h k = Some s <-> is_segwit k hrp v h s.
Proof.
  intros Hh Hb Hv Hk. unfold bech32_encode, is_segwit.
  destruct (Z.ltb_spec 31 v). { split; [discriminate|]. lia. }
  destruct ((Z.of_nat (length h) <? 2) || (40 <? Z.of_nat (length h))) eqn:EL.
  { split; [discriminate|]. intros (_ & _ & Q & _). lia. }
  unfold bech32_convert_bits. change 0xffffffff with (2 ^ 32 - 1). rewrite convert_pad_ok by (auto; lia).
  rewrite bech32_serialize_iff; auto.
  - split; [|tauto]. intros Q. split; [lia|]. split; [auto|]. split; [lia|auto].
  - constructor; [unfold byte; lia|]. apply below_bytes, rfc_digits_below.
Qed.

Lemma bech32_decode_iff a k hrp v h : Forall cchar a -> 0 <= k ->
  bech32_decode a k = Some (hrp, v, h) <-> single_case a /\ is_segwit k hrp v h (map lower a).
Proof.
  intros Ha Hk. unfold bech32_decode, is_segwit.
  destruct (bech32_deserialize a k) as [[hrp' d]|] eqn:ED.
  - pose proof ED as ED'. apply bech32_deserialize_iff in ED'; auto. destruct ED' as (SC & B).
    assert (U : forall hrp2 d2, is_bech32 k hrp2 d2 (map lower a) -> hrp2 = hrp' /\ d2 = d).
    { intros hrp2 d2 Q. assert (Q2 : bech32_deserialize a k = Some (hrp2, d2)) by (apply bech32_deserialize_iff; auto).
      rewrite ED in Q2. injection Q2 as -> ->. auto. }
    assert (F32 : Forall (below 32) d) by apply B.
    destruct d as [|v0 ds].
    { cbn [length Nat.eqb orb]. split; [discriminate|]. intros (_ & _ & _ & _ & Q). apply U in Q. destruct Q as (_ & Q). discriminate. }
    inversion F32; subst. unfold bech32_convert_bits. change 0xffffffff with (2 ^ 32 - 1).
    cbn [nth tl]. change (length (v0 :: ds) =? 0)%nat with false. cbn [orb].
    assert (HN : forall h', convert_bits (2 ^ 32 - 1) 8 ds 5 false = Some h' <-> bytes h' /\ ds = rfc4648_digits 5 h')
      by (intros; apply convert_nopad_ok; auto; lia).
    destruct (Nat.ltb_spec 65 (length (v0 :: ds))) as [E65|E65].
    { split; [discriminate|]. intros (_ & _ & Qb & Ql & Q). apply U in Q. destruct Q as (_ & Q). injection Q as _ Q.
      pose proof (rfc_digits_length h) as R. rewrite Q in R. cbn [length] in E65. lia. }
    unfold below in *. destruct (Z.ltb_spec 31 v0); [lia|].
    destruct (convert_bits (2 ^ 32 - 1) 8 ds 5 false) as [h'|] eqn:EC.
    + pose proof (proj1 (HN h') eq_refl) as (Bh & Eds).
      destruct ((Z.of_nat (length h') <? 2) || (40 <? Z.of_nat (length h'))) eqn:EL.
      * split; [discriminate|]. intros (_ & _ & Qb & Ql & Q). apply U in Q. destruct Q as (_ & Q). injection Q as _ Q.
        assert (Q2 : Some h' = Some h) by (apply HN; auto). injection Q2 as ->. lia.
      * split.
        -- intros E. injection E as <- <- <-. split; [auto|]. split; [lia|]. split; [auto|]. split; [lia|]. rewrite <- Eds. auto.
        -- intros (_ & _ & Qb & Ql & Q). apply U in Q. destruct Q as (-> & Q). injection Q as -> Q.
           assert (Q2 : Some h' = Some h) by (apply HN; auto). injection Q2 as ->. reflexivity.
    + split; [discriminate|]. intros (_ & _ & Qb & Ql & Q). apply U in Q. destruct Q as (_ & Q). injection Q as _ Q.
      assert (Q2 : None = Some h) by (apply HN; auto). discriminate Q2.
  - split; [discriminate|]. intros (SC & _ & _ & _ & Q).
    assert (Q2 : bech32_deserialize a k = Some (hrp, v :: rfc4648_digits 5 h)) by (apply bech32_deserialize_iff; auto).
    congruence.
Qed.
