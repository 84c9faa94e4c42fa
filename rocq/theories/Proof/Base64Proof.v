(* base64 and base64url *)
From Verif.Base Require Import Prelude.
From Verif.Model Require Import Encoding.
From Verif.Spec Require Import EncodingSpec.
From Verif.Proof Require Import EncodingProof.

Section B64.
  Variables (tb cs : list Z).
  Hypothesis OK : tab_ok tb cs (fun c => c) 64 = true.

  Let dec c := tok_dec _ _ _ _ OK c.
  Let symv v := tok_sym _ _ _ _ OK v.

  Ltac decs := repeat match goal with
    | H : high_bit (tabval tb ?c) = false, Hc : byte ?c |- _ =>
        let R := fresh "R" in let E := fresh "E" in
        destruct (dec c Hc H) as [R E]; clear H
    end.

  Lemma b64_dec_ok : forall s o, bytes s -> base64_dec_loop tb s = Some o ->
    bytes o /\ base64_encode0 cs false o = s.
  Proof.
    intros s. apply (list_ind_step 4 (fun s => forall o, bytes s -> base64_dec_loop tb s = Some o ->
      bytes o /\ base64_encode0 cs false o = s)); clear s; [lia| |].
    - intros [|a [|b [|c [|? ?]]]] HL o Hs; cbn [base64_dec_loop]; try discriminate.
      + intros E; injection E as <-. split; [apply bytes_nil|reflexivity].
      + rewrite high_bit_lor. invbytes. destruct (high_bit (tabval tb a)) eqn:Ha; [discriminate|].
        destruct (high_bit (tabval tb b)) eqn:Hb; [discriminate|]. cbn [orb].
        decs. bits2arith. destruct (Z.eqb_spec (tabval tb b mod 16) 0); [|discriminate].
        intros E1; injection E1 as <-. lor2add. split.
        * repeat constructor; apply w8_range.
        * cbn [base64_encode0 app]. bits2arith.
          replace (((tabval tb a * 4 + tabval tb b / 16) mod 256) / 4) with (tabval tb a) by lia.
          replace (((tabval tb a * 4 + tabval tb b / 16) mod 256) mod 4 * 16) with (tabval tb b) by lia.
          congruence.
      + rewrite !high_bit_lor. invbytes. destruct (high_bit (tabval tb a)) eqn:Ha; [discriminate|].
        destruct (high_bit (tabval tb b)) eqn:Hb; [discriminate|].
        destruct (high_bit (tabval tb c)) eqn:Hc; [discriminate|]. cbn [orb].
        decs. bits2arith. destruct (Z.eqb_spec (tabval tb c mod 4) 0); [|discriminate].
        intros E2; injection E2 as <-. lor2add. split.
        * repeat constructor; apply w8_range.
        * cbn [base64_encode0 app]. bits2arith. lor2add.
          set (x := tabval tb a) in *. set (y := tabval tb b) in *. set (z := tabval tb c) in *.
          replace (((x * 4 + y / 16) mod 256) / 4) with x by lia.
          replace (((x * 4 + y / 16) mod 256) mod 4 * 16 + (y * 16 + z / 4) mod 256 / 16) with y by lia.
          replace ((y * 16 + z / 4) mod 256 mod 16 * 4) with z by lia.
          congruence.
      + cbn [length] in HL. lia.
    - intros g l Hg IH o Hs. dlist g Hg. destruct g; [|discriminate].
      rename z into a, z0 into b, z1 into c, z2 into d. cbn [app base64_dec_loop].
      cbn [app] in Hs. invbytes. rewrite !high_bit_lor.
      destruct (high_bit (tabval tb a)) eqn:Ha; [discriminate|].
      destruct (high_bit (tabval tb b)) eqn:Hb; [discriminate|].
      destruct (high_bit (tabval tb c)) eqn:Hc; [discriminate|].
      destruct (high_bit (tabval tb d)) eqn:Hd; [discriminate|]. cbn [orb].
      destruct (base64_dec_loop tb l) as [o'|]; [|discriminate].
      destruct (IH o') as [I1 I2]; auto. decs. bits2arith. lor2add. rewrite Z.div_1_r.
      intros E3; injection E3 as <-.
      split; [repeat constructor; try apply w8_range; auto|].
      cbn [base64_encode0]. rewrite I2. bits2arith. lor2add.
      set (x := tabval tb a) in *. set (y := tabval tb b) in *. set (z := tabval tb c) in *. set (w := tabval tb d) in *.
      replace (((x * 4 + y / 16) mod 256) / 4) with x by lia.
      replace (((x * 4 + y / 16) mod 256) mod 4 * 16 + (y * 16 + z / 4) mod 256 / 16) with y by lia.
      replace ((y * 16 + z / 4) mod 256 mod 16 * 4 + (z * 64 + w) mod 256 / 64) with z by lia.
      replace ((z * 64 + w) mod 256 mod 64) with w by lia.
      congruence.
  Qed.

  Lemma b64_dec_enc : forall o, bytes o -> base64_dec_loop tb (base64_encode0 cs false o) = Some o.
  Proof.
    intros o. apply (list_ind_step 3 (fun o => bytes o ->
      base64_dec_loop tb (base64_encode0 cs false o) = Some o)); clear o; [lia| |].
    - intros [|a [|b [|? ?]]] HL Hs; invbytes; unfold byte in *.
      + reflexivity.
      + cbn [base64_encode0 app base64_dec_loop]. bits2arith.
        destruct (symv (a / 4) ltac:(lia)) as (_ & _ & _ & ->).
        destruct (symv (a mod 4 * 16) ltac:(lia)) as (_ & _ & _ & ->).
        rewrite high_bit_lor, !high_bit_small by lia. cbn [orb].
        replace (a mod 4 * 16 mod 16) with 0 by lia. cbn [Z.eqb negb].
        bits2arith. lor2add. do 2 f_equal. lia.
      + cbn [base64_encode0 app base64_dec_loop]. bits2arith. lor2add.
        destruct (symv (a / 4) ltac:(lia)) as (_ & _ & _ & ->).
        destruct (symv (a mod 4 * 16 + b / 16) ltac:(lia)) as (_ & _ & _ & ->).
        destruct (symv (b mod 16 * 4) ltac:(lia)) as (_ & _ & _ & ->).
        rewrite !high_bit_lor, !high_bit_small by lia. cbn [orb].
        replace (b mod 16 * 4 mod 4) with 0 by lia. cbn [Z.eqb negb].
        bits2arith. lor2add. do 2 f_equal; [lia|]. f_equal. lia.
      + cbn [length] in HL; lia.
    - intros g l Hg IH Hs. dlist g Hg. destruct g; [|discriminate].
      rename z into a, z0 into b, z1 into c. cbn [app] in *. invbytes; unfold byte in *.
      cbn [base64_encode0 base64_dec_loop]. rewrite IH by auto. bits2arith. lor2add.
      destruct (symv (a / 4) ltac:(lia)) as (_ & _ & _ & ->).
      destruct (symv (a mod 4 * 16 + b / 16) ltac:(lia)) as (_ & _ & _ & ->).
      destruct (symv (b mod 16 * 4 + c / 64) ltac:(lia)) as (_ & _ & _ & ->).
      destruct (symv (c mod 64) ltac:(lia)) as (_ & _ & _ & ->).
      rewrite !high_bit_lor, !high_bit_small by lia. cbn [orb].
      bits2arith. rewrite Z.div_1_r. lor2add.
      do 2 f_equal; [lia|]. f_equal; [lia|]. f_equal. lia.
  Qed.

  Lemma b64_enc_len : forall o, 
    Z.of_nat (length (base64_encode0 cs false o)) = base64_encode_size0 (Z.of_nat (length o)) false.
  Proof.
    intros o. apply (list_ind_step 3 (fun o => 
       Z.of_nat (length (base64_encode0 cs false o)) = base64_encode_size0 (Z.of_nat (length o)) false)); clear o; [lia| |].
    - intros [|a [|b [|? ?]]] HL; try reflexivity. cbn [length] in HL; lia.
    - intros g l Hg IH. dlist g Hg. destruct g; [|discriminate]. cbn [app base64_encode0 length].
      unfold base64_encode_size0 in *. 
      replace (Z.of_nat (S (S (S (length l))))) with (Z.of_nat (length l) + 1 * 3) by lia.
      rewrite Z.div_add, Z.mod_add by lia.
      destruct (Z.of_nat (length l) mod 3 =? 1); [lia|].
      destruct (Z.of_nat (length l) mod 3 =? 2); lia.
  Qed.

  Lemma b64_enc_pad : forall o, base64_encode0 cs true o = base64_encode0 cs false o ++
    repeat 61 (Z.to_nat (if Z.of_nat (length o) mod 3 =? 1 then 2 else if Z.of_nat (length o) mod 3 =? 2 then 1 else 0)).
  Proof.
    intros o. apply (list_ind_step 3 (fun o => base64_encode0 cs true o = base64_encode0 cs false o ++
    repeat 61 (Z.to_nat (if Z.of_nat (length o) mod 3 =? 1 then 2 else if Z.of_nat (length o) mod 3 =? 2 then 1 else 0)))); clear o; [lia| |].
    - intros [|a [|b [|? ?]]] HL; try reflexivity. cbn [length] in HL; lia.
    - intros g l Hg IH. dlist g Hg. destruct g; [|discriminate]. cbn [app base64_encode0 length].
      rewrite IH. replace (Z.of_nat (S (S (S (length l))))) with (Z.of_nat (length l) + 1 * 3) by lia.
      rewrite Z.mod_add by lia. reflexivity.
  Qed.

  Lemma b64_enc_no61 : forall o, bytes o -> Forall (fun c => byte c /\ c <> 61) (base64_encode0 cs false o).
  Proof.
    assert (S : forall v, 0 <= v < 64 -> byte (tab cs v) /\ tab cs v <> 61).
    { intros v Hv. destruct (symv v Hv) as (?&?&_). auto. }
    intros o. apply (list_ind_step 3 (fun o => bytes o -> 
      Forall (fun c => byte c /\ c <> 61) (base64_encode0 cs false o))); clear o; [lia| |].
    - intros [|a [|b [|? ?]]] HL Hs; invbytes; cbn [base64_encode0 app].
      + constructor.
      + bits2arith. unfold byte in *. repeat constructor; try (apply S; lia).
      + bits2arith. unfold byte in *. lor2add. repeat constructor; try (apply S; lia).
      + cbn [length] in HL; lia.
    - intros g l Hg IH Hs. dlist g Hg. destruct g; [|discriminate].
      rename z into a, z0 into b, z1 into c. cbn [app base64_encode0] in *. invbytes.
      bits2arith. unfold byte in *. lor2add. repeat (constructor; [apply S; lia|]). apply IH; auto.
  Qed.

  (* encode = RFC 4648 *)
  Variable alpha : list Z.
  Hypothesis CS : cs = alpha.

  Lemma b64_encode_rfc : forall o, bytes o -> base64_encode0 cs false o = rfc4648 6 alpha o.
  Proof.
    unfold rfc4648. rewrite <- CS. change (sym cs) with (tab cs).
    intros o. apply (list_ind_step 3 (fun o => bytes o -> 
      base64_encode0 cs false o = map (tab cs) (rfc4648_digits 6 o))); clear o; [lia| |].
    - intros [|a [|b [|? ?]]] HL Hs; invbytes; unfold byte in *; cbn [base64_encode0 app].
      + rewrite rfc_digits_nil by lia. reflexivity.
      + unfold rfc4648_digits. cbn [length]. change (Z.of_nat 1) with 1. 
        change ((8 * 1 + 6 - 1) / 6) with 2. change (Z.to_nat 2) with 2%nat. change (6 * 2 - 8 * 1) with 4.
        change (2 ^ 4) with 16. change (2 ^ 6) with 64.
        replace (bedig 64 2 (be_val [a] * 16)) with [a / 4; a mod 4 * 16].
        * cbn [map]. bits2arith. reflexivity.
        * symmetry. apply (bedig_unique 64 [a / 4; a mod 4 * 16]); [lia| |].
          -- repeat constructor; unfold below; lia.
          -- unfold be_val. cbn [rev app dval]. lia.
      + unfold rfc4648_digits. cbn [length]. change (Z.of_nat 2) with 2. 
        change ((8 * 2 + 6 - 1) / 6) with 3. change (Z.to_nat 3) with 3%nat. change (6 * 3 - 8 * 2) with 2.
        change (2 ^ 2) with 4. change (2 ^ 6) with 64.
        replace (bedig 64 3 (be_val [a; b] * 4)) with [a / 4; a mod 4 * 16 + b / 16; b mod 16 * 4].
        * cbn [map]. bits2arith. lor2add. reflexivity.
        * symmetry. apply (bedig_unique 64 [a / 4; a mod 4 * 16 + b / 16; b mod 16 * 4]); [lia| |].
          -- repeat constructor; unfold below; lia.
          -- unfold be_val. cbn [rev app dval]. lia.
      + cbn [length] in HL; lia.
    - intros g l Hg IH Hs. 
      rewrite (rfc_digits_group 6 g 4 l) by (first [lia | apply bytes_app in Hs; tauto]).
      rewrite map_app, <- IH by (apply bytes_app in Hs; tauto).
      dlist g Hg. destruct g; [|discriminate].
      rename z into a, z0 into b, z1 into c. cbn [app base64_encode0] in *. invbytes; unfold byte in *.
      change (2 ^ 6) with 64.
      replace (bedig 64 4 (be_val [a; b; c])) with [a / 4; a mod 4 * 16 + b / 16; b mod 16 * 4 + c / 64; c mod 64].
      + cbn [map app]. bits2arith. lor2add. reflexivity.
      + symmetry. apply (bedig_unique 64 [a / 4; a mod 4 * 16 + b / 16; b mod 16 * 4 + c / 64; c mod 64]); [lia| |].
          * repeat constructor; unfold below; lia.
          * unfold be_val. cbn [rev app dval]. lia.
  Qed.

  Lemma b64_enc_len3 : forall o, let n := Z.of_nat (length (base64_encode0 cs false o)) in
    let m := Z.of_nat (length o) in
    (m mod 3 = 0 -> n mod 4 = 0) /\ (m mod 3 = 1 -> n mod 4 = 2) /\ (m mod 3 = 2 -> n mod 4 = 3) /\
    n / 4 * 3 + (if n mod 4 =? 0 then 0 else n mod 4 - 1) = m.
  Proof.
    intros o n m. subst n. rewrite b64_enc_len. fold m. unfold base64_encode_size0.
    assert (0 <= m) by lia.
    destruct (Z.eqb_spec (m mod 3) 1); [|destruct (Z.eqb_spec (m mod 3) 2)].
    - replace ((m / 3 * 4 + 2 + 0) mod 4 =? 0) with false by lia. lia.
    - replace ((m / 3 * 4 + 3 + 0) mod 4 =? 0) with false by lia. lia.
    - replace ((m / 3 * 4) mod 4 =? 0) with true by lia. lia.
  Qed.

  (* stripping *)
  Lemma strip_cases s : exists p, s = rev (strip1 (strip1 (rev s))) ++ p /\
    ((p = [] /\ last s 0 <> 61) \/ (p = [] /\ s = []) \/ 
     (p = [61] /\ (length s = 1%nat \/ nth (length s - 2) s 0 <> 61)) \/ p = [61; 61]).
  Proof.
    remember (rev s) as r eqn:Er. assert (Es : s = rev r) by (rewrite Er, rev_involutive; auto).
    clear Er. subst s.
    destruct r as [|c [|d r]]; cbn [strip1].
    - exists []. cbn; intuition.
    - destruct (Z.eqb_spec c 61) as [->|]; cbn [strip1].
      + exists [61]. cbn; intuition.
      + destruct (Z.eqb_spec c 61); [contradiction|]. exists []. cbn; intuition.
    - destruct (Z.eqb_spec c 61) as [->|]; cbn [strip1].
      + destruct (Z.eqb_spec d 61) as [->|]; cbn [strip1].
        * exists [61; 61]. cbn [rev]. rewrite <- app_assoc. cbn; intuition.
        * exists [61]. split; [reflexivity|]. right; right; left. split; auto. right.
          cbn [rev]. rewrite !app_length, rev_length. cbn [length].
          rewrite app_nth1 by (rewrite app_length, rev_length; cbn [length]; lia).
          rewrite app_nth2 by (rewrite rev_length; lia). rewrite rev_length.
          replace (length r + 1 + 1 - 2 - length r)%nat with O by lia. assumption.
      + destruct (Z.eqb_spec c 61); [contradiction|]. exists []. rewrite app_nil_r. split; auto.
        left. split; auto. cbn [rev]. rewrite last_last. assumption.
  Qed.

  Lemma strip_clean s p : Forall (fun c => byte c /\ c <> 61) s -> (p = [] \/ p = [61] \/ p = [61; 61]) ->
     (p = [] \/ s <> [] ) ->
     rev (strip1 (strip1 (rev (s ++ p)))) = s.
  Proof.
    intros Hs Hp Hn. rewrite rev_app_distr. apply Forall_rev in Hs.
    rewrite <- (rev_involutive s) at 2. f_equal.
    destruct (rev s) as [|c r].
    - destruct Hp as [->|[->| ->]]; reflexivity.
    - inversion_clear Hs. destruct H as [_ H].
      apply Z.eqb_neq in H.
      destruct Hp as [->|[->| ->]]; cbn [rev app strip1]; rewrite ?Z.eqb_refl, ?H; cbn [strip1];
        rewrite ?Z.eqb_refl, ?H; auto.
  Qed.

  Lemma nth_last (s : list Z) : s <> [] -> nth (length s - 1) s 0 = last s 0.
  Proof.
    intros Hs. destruct (exists_last Hs) as (t & x & ->). rewrite last_last, app_length. cbn [length].
    rewrite app_nth2 by lia. replace (length t + 1 - 1 - length t)%nat with O by lia. reflexivity.
  Qed.

  Lemma dec0_iff_stripped t o : bytes t ->
    ((if Z.land (Z.of_nat (length t)) 3 =? 1 then None else base64_dec_loop tb t) = Some o <->
     bytes o /\ t = base64_encode0 cs false o).
  Proof.
    intros Ht. split.
    - destruct (_ =? 1); [discriminate|]. intros E. apply b64_dec_ok in E as [? ?]; auto.
    - intros [Ho ->]. rewrite land_3. destruct (b64_enc_len3 o) as (A & B & C & _).
      rewrite b64_dec_enc by auto.
      destruct (Z.eqb_spec (Z.of_nat (length (base64_encode0 cs false o)) mod 4) 1); auto. lia.
  Qed.

  Lemma bytes_strip s t p : bytes s -> s = t ++ p -> bytes t.
  Proof. intros H ->. apply bytes_app in H. tauto. Qed.

  (* base64url: size = 0, no padding at all *)
  Lemma b64url_iff s b : bytes s ->
    ((if negb (base64_check_padding s 0) then None else base64_decode0 tb s) = Some b <->
      bytes b /\ s = base64_encode0 cs false b).
  Proof.
    intros Hs. unfold base64_decode0. split.
    - destruct (base64_check_padding s 0) eqn:P; [|discriminate]. cbn [negb]. intros E.
      destruct (strip_cases s) as (p & Ep & Hp).
      apply dec0_iff_stripped in E; [|eapply bytes_strip; eauto]. destruct E as [Hb E].
      split; auto. assert (p = []); [|subst p; rewrite app_nil_r in Ep; congruence].
      unfold base64_check_padding in P. rewrite Zmod_0_l in P. cbn [Z.eqb] in P.
      assert (G : p <> [] -> last s 0 = 61).
      { intros G. destruct Hp as [[? _]|[[? _]|[[-> _]| ->]]]; try contradiction; rewrite Ep.
        - apply last_last.
        - change [61; 61] with ([61] ++ [61]). rewrite app_assoc. apply last_last. }
      destruct p as [|c p]; auto. exfalso. specialize (G ltac:(discriminate)).
      destruct s as [|x s]; [destruct (rev (strip1 (strip1 (rev [])))); discriminate|].
      destruct (Nat.eqb_spec (length (x :: s)) 0); [discriminate|].
      destruct (Nat.eqb_spec (length (x :: s)) 1) as [E1|].
      + destruct s; [|discriminate]. cbn [last] in G. subst x. discriminate P.
      + rewrite nth_last in P by discriminate. rewrite G in P. rewrite andb_false_r in P. discriminate.
    - intros [Hb E].
      assert (HN : Forall (fun c => byte c /\ c <> 61) s) by (rewrite E; apply b64_enc_no61; auto).
      assert (S0 : rev (strip1 (strip1 (rev s))) = s).
      { rewrite <- (app_nil_r s) at 1. apply strip_clean; auto. }
      rewrite S0. replace (base64_check_padding s 0) with true.
      + cbn [negb]. apply dec0_iff_stripped; auto.
      + unfold base64_check_padding. rewrite Zmod_0_l. cbn [Z.eqb].
        assert (F : forall n, (n < length s)%nat -> nth n s 0 =? 61 = false).
        { intros n Hn. apply Z.eqb_neq. rewrite Forall_forall in HN. apply HN. apply nth_In; auto. }
        destruct (Nat.eqb_spec (length s) 0); auto.
        destruct (Nat.eqb_spec (length s) 1); rewrite !F by lia; auto.
  Qed.

  (* base64: exactly the RFC padding *)
  Lemma b64_iff s b : bytes s ->
    ((if negb (base64_check_padding s (base64_decode_size0 s)) then None else base64_decode0 tb s) = Some b <->
      bytes b /\ s = base64_encode0 cs true b).
  Proof.
    intros Hs. unfold base64_decode0, base64_decode_size0. rewrite <- (rev_length (strip1 _)).
    split.
    - destruct (base64_check_padding _ _) eqn:P; [|discriminate]. cbn [negb]. intros E.
      destruct (strip_cases s) as (p & Ep & Hp).
      apply dec0_iff_stripped in E; [|eapply bytes_strip; eauto]. destruct E as [Hb E].
      split; auto. rewrite b64_enc_pad.
      set (t := rev (strip1 (strip1 (rev s)))) in *.
      destruct (b64_enc_len3 b) as (A & B & C & D). rewrite <- E in *.
      assert (Hsz : (if Z.land (Z.of_nat (length t)) 3 =? 0 then Z.of_nat (length t) / 4 * 3
          else Z.of_nat (length t) / 4 * 3 + (Z.land (Z.of_nat (length t)) 3 - 1)) = Z.of_nat (length b)).
      { rewrite land_3. revert D. cbv zeta. destruct (Z.of_nat (length t) mod 4 =? 0); lia. }
      cbv zeta in P. rewrite Hsz in P. rewrite Ep at 1. f_equal.
      unfold base64_check_padding in P.
      destruct (Z.eqb_spec (Z.of_nat (length b) mod 3) 1) as [E1|];
      [|destruct (Z.eqb_spec (Z.of_nat (length b) mod 3) 2) as [E2|]].
      + replace (Z.of_nat (length b) mod 3 =? 0) with false in P by lia.
        apply andb_prop in P as [P P3]. apply andb_prop in P as [P1 P2].
        apply Nat.leb_le in P1.
        assert (s <> []) by (destruct s; [cbn in P1; lia|discriminate]).
        rewrite nth_last in P3 by auto.
        destruct Hp as [[-> H1]|[[-> H1]|[[-> H1]| ->]]]; try lia; try contradiction; reflexivity.
      + replace (Z.of_nat (length b) mod 3 =? 0) with false in P by lia.
        replace (Z.of_nat (length b) mod 3 =? 1) with false in P by lia.
        apply andb_prop in P as [P P3]. apply andb_prop in P as [P1 P2].
        apply Nat.leb_le in P1.
        assert (s <> []) by (destruct s; [cbn in P1; lia|discriminate]).
        rewrite nth_last in P3 by auto.
        destruct Hp as [[-> H1]|[[-> H1]|[[-> H1]| ->]]]; try lia; try contradiction; try reflexivity.
        exfalso. rewrite Ep in P2. rewrite app_length in P2. cbn [length] in P2.
        rewrite app_nth2 in P2 by lia. replace (length t + 2 - 2 - length t)%nat with O in P2 by lia.
        discriminate P2.
      + replace (Z.of_nat (length b) mod 3 =? 0) with true in P by lia.
        destruct (Nat.eqb_spec (length s) 0) as [E0|].
        { destruct s; [|discriminate]. destruct t, p; try discriminate. reflexivity. }
        assert (s <> []) by (destruct s; [cbn in *; lia|discriminate]).
        destruct (Nat.eqb_spec (length s) 1) as [E1|].
        * destruct s as [|x [|? ?]]; try discriminate. cbn [nth] in P.
          destruct Hp as [[-> H1]|[[-> H1]|[[-> H1]| ->]]]; try reflexivity.
          -- destruct t; try discriminate; cbn [app] in Ep; [injection Ep as ->; discriminate|].
             destruct t; discriminate.
          -- destruct t as [|? [|? ?]]; discriminate.
        * rewrite nth_last in P by auto. apply andb_prop in P as [_ P].
          assert (G : p <> [] -> last s 0 = 61).
          { intros G. destruct Hp as [[? _]|[[? _]|[[-> _]| ->]]]; try contradiction; rewrite Ep.
            - apply last_last.
            - change [61; 61] with ([61] ++ [61]). rewrite app_assoc. apply last_last. }
          destruct p; [reflexivity|]. rewrite G in P by discriminate. discriminate P.
    - intros [Hb E]. rewrite b64_enc_pad in E.
      set (t := base64_encode0 cs false b) in *.
      assert (HN : Forall (fun c => byte c /\ c <> 61) t) by (apply b64_enc_no61; auto).
      destruct (b64_enc_len3 b) as (A & B & C & D). fold t in A, B, C, D.
      set (p := repeat 61 _) in E.
      assert (Hp : (p = [] /\ Z.of_nat (length b) mod 3 = 0) \/ (p = [61] /\ Z.of_nat (length b) mod 3 = 2)
                   \/ (p = [61; 61] /\ Z.of_nat (length b) mod 3 = 1)).
      { subst p. destruct (Z.eqb_spec (Z.of_nat (length b) mod 3) 1); [cbn; auto|].
        destruct (Z.eqb_spec (Z.of_nat (length b) mod 3) 2); [cbn; auto|]. left. split; [reflexivity|lia]. }
      assert (S0 : rev (strip1 (strip1 (rev s))) = t).
      { rewrite E. apply strip_clean; auto; [tauto|].
        destruct Hp as [[-> H]|Hp]; [auto|right]. intros ET. rewrite ET in *. cbn [length] in *.
        change (Z.of_nat 0 mod 4) with 0 in *. lia. }
      rewrite S0.
      assert (Hsz : (if Z.land (Z.of_nat (length t)) 3 =? 0 then Z.of_nat (length t) / 4 * 3
          else Z.of_nat (length t) / 4 * 3 + (Z.land (Z.of_nat (length t)) 3 - 1)) = Z.of_nat (length b)).
      { rewrite land_3. revert D. cbv zeta. destruct (Z.of_nat (length t) mod 4 =? 0); lia. }
      cbv zeta. rewrite Hsz.
      replace (base64_check_padding s (Z.of_nat (length b))) with true.
      + cbn [negb]. apply dec0_iff_stripped; auto. apply (bytes_strip s t p); auto.
      + unfold base64_check_padding.
        assert (F : forall n, (n < length t)%nat -> nth n t 0 =? 61 = false).
        { intros n Hn. apply Z.eqb_neq. rewrite Forall_forall in HN. apply HN. apply nth_In; auto. }
        destruct Hp as [[Ep H]|[[Ep H]|[Ep H]]]; rewrite Ep in E.
        * rewrite app_nil_r in E. subst s. rewrite H. cbn [Z.eqb].
          destruct (Nat.eqb_spec (length t) 0); auto.
          destruct (Nat.eqb_spec (length t) 1); rewrite !F by lia; auto.
        * rewrite H. cbn [Z.eqb]. subst s. rewrite !app_length. cbn [length].
          assert (Z.of_nat (length t) mod 4 = 3) by auto.
          replace (4 <=? length t + 1)%nat with true by (symmetry; apply Nat.leb_le; lia).
          rewrite app_nth1 by lia. rewrite F by lia. rewrite app_nth2 by lia.
          replace (length t + 1 - 1 - length t)%nat with O by lia. reflexivity.
        * rewrite H. cbn [Z.eqb]. subst s. rewrite !app_length. cbn [length].
          assert (Z.of_nat (length t) mod 4 = 2) by auto.
          replace (4 <=? length t + 2)%nat with true by (symmetry; apply Nat.leb_le; lia).
          rewrite !app_nth2 by lia.
          replace (length t + 2 - 2 - length t)%nat with O by lia.
          replace (length t + 2 - 1 - length t)%nat with 1%nat by lia. reflexivity.
  Qed.

  (* padding is to a multiple of four *)
  Lemma b64_pad_eq o : base64_encode0 cs true o = pad_eq 4 (base64_encode0 cs false o).
  Proof.
    rewrite b64_enc_pad. unfold pad_eq. f_equal. f_equal.
    destruct (b64_enc_len3 o) as (A & B & C & _).
    set (n := length (base64_encode0 cs false o)) in *.
    assert (G : Z.of_nat (n mod 4) = Z.of_nat n mod 4) by (rewrite Nat2Z.inj_mod; reflexivity).
    destruct (Z.eqb_spec (Z.of_nat (length o) mod 3) 1) as [E1|];
      [|destruct (Z.eqb_spec (Z.of_nat (length o) mod 3) 2) as [E2|]].
    - replace (n mod 4)%nat with 2%nat by lia. reflexivity.
    - replace (n mod 4)%nat with 3%nat by lia. reflexivity.
    - replace (n mod 4)%nat with 0%nat by lia. reflexivity.
  Qed.

  (* test *)
  Lemma b64_test_dec s : bytes s -> base64_test0 tb s = true <-> exists o, base64_decode0 tb s = Some o.
  Proof.
    intros Hs. unfold base64_test0, base64_decode0.
    set (t := rev (strip1 (strip1 (rev s)))).
    assert (Ht : bytes t). { destruct (strip_cases s) as (p & Ep & _). eapply bytes_strip; eauto. }
    clearbody t. clear s Hs. rewrite land_3.
    enough (G : Z.of_nat (length t) mod 4 <> 1 -> 
       ((if negb (forallb (fun c => negb (tab tb (torsion_ascii c) =? -1)) t) then false
         else if Z.of_nat (length t) mod 4 =? 2 then Z.land (tab tb (torsion_ascii (last t 0))) 15 =? 0
         else if Z.of_nat (length t) mod 4 =? 3 then Z.land (tab tb (torsion_ascii (last t 0))) 3 =? 0
         else true) = true <-> exists o, base64_dec_loop tb t = Some o)).
    { destruct (Z.eqb_spec (Z.of_nat (length t) mod 4) 1); [|auto]. split; [discriminate|]. intros [? ?]; discriminate. }
    revert Ht. apply (list_ind_step 4 (fun t => bytes t -> Z.of_nat (length t) mod 4 <> 1 -> 
       ((if negb (forallb (fun c => negb (tab tb (torsion_ascii c) =? -1)) t) then false
         else if Z.of_nat (length t) mod 4 =? 2 then Z.land (tab tb (torsion_ascii (last t 0))) 15 =? 0
         else if Z.of_nat (length t) mod 4 =? 3 then Z.land (tab tb (torsion_ascii (last t 0))) 3 =? 0
         else true) = true <-> exists o, base64_dec_loop tb t = Some o))); clear t; [lia| |].
    - intros [|a [|b [|c [|? ?]]]] HL Hs Hm; invbytes.
      + cbn. split; eauto.
      + exfalso. apply Hm. reflexivity.
      + cbn [forallb last length base64_dec_loop]. change (Z.of_nat 2 mod 4 =? 2) with true. cbv iota.
        rewrite !(tok_neg1 _ _ _ _ OK), high_bit_lor by auto.
        destruct (high_bit (tabval tb a)) eqn:Ha; cbn [negb andb orb].
        { split; [discriminate|intros [? ?]; discriminate]. }
        destruct (high_bit (tabval tb b)) eqn:Hb; cbn [negb andb orb].
        { split; [discriminate|intros [? ?]; discriminate]. }
        rewrite (tok_tab _ _ _ _ OK) by auto.
        destruct (Z.eqb_spec (Z.land (tabval tb b) 15) 0); cbn [negb]; split; eauto; try discriminate.
        intros [? ?]; discriminate.
      + cbn [forallb last length base64_dec_loop]. change (Z.of_nat 3 mod 4 =? 2) with false.
        change (Z.of_nat 3 mod 4 =? 3) with true. cbv iota.
        rewrite !(tok_neg1 _ _ _ _ OK), !high_bit_lor by auto.
        destruct (high_bit (tabval tb a)) eqn:Ha; cbn [negb andb orb].
        { split; [discriminate|intros [? ?]; discriminate]. }
        destruct (high_bit (tabval tb b)) eqn:Hb; cbn [negb andb orb].
        { split; [discriminate|intros [? ?]; discriminate]. }
        destruct (high_bit (tabval tb c)) eqn:Hc; cbn [negb andb orb].
        { split; [discriminate|intros [? ?]; discriminate]. }
        rewrite (tok_tab _ _ _ _ OK) by auto.
        destruct (Z.eqb_spec (Z.land (tabval tb c) 3) 0); cbn [negb]; split; eauto; try discriminate.
        intros [? ?]; discriminate.
      + cbn [length] in HL; lia.
    - intros g l Hg IH Hs Hm. dlist g Hg. destruct g; [|discriminate].
      rename z into a, z0 into b, z1 into c, z2 into d. cbn [app] in *. invbytes.
      cbn [length] in Hm. replace (Z.of_nat (length (a :: b :: c :: d :: l))) with (Z.of_nat (length l) + 1 * 4) by (cbn [length]; lia).
      rewrite Z.mod_add by lia.
      replace (Z.of_nat (S (S (S (S (length l)))))) with (Z.of_nat (length l) + 1 * 4) in Hm by lia.
      rewrite Z.mod_add in Hm by lia. specialize (IH ltac:(assumption) Hm).
      cbn [forallb base64_dec_loop]. rewrite !(tok_neg1 _ _ _ _ OK), !high_bit_lor by auto.
      destruct (high_bit (tabval tb a)) eqn:Ha; cbn [negb andb orb].
      { split; [discriminate|intros [? ?]; discriminate]. }
      destruct (high_bit (tabval tb b)) eqn:Hb; cbn [negb andb orb].
      { split; [discriminate|intros [? ?]; discriminate]. }
      destruct (high_bit (tabval tb c)) eqn:Hc; cbn [negb andb orb].
      { split; [discriminate|intros [? ?]; discriminate]. }
      destruct (high_bit (tabval tb d)) eqn:Hd; cbn [negb andb orb].
      { split; [discriminate|intros [? ?]; discriminate]. }
      destruct l as [|x l].
      + cbn. split; eauto.
      + replace (last (a :: b :: c :: d :: x :: l) 0) with (last (x :: l) 0) by reflexivity.
        rewrite IH. destruct (base64_dec_loop tb (x :: l)); split; intros [? G]; eauto; discriminate.
  Qed.
End B64.
