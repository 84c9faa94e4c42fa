(* MGF1, EMSA-PSS and EME-OAEP, for any hash function with outputs of one length. *)
From Verif.Base Require Import Prelude.
From Verif.Model Require Import Encoding Bio Util Asn1 Hash NumTheory Rsa.
From Verif.Spec Require Import RsaSpec.
From Verif.Proof Require Import UtilProof BioProof RsaKey RsaPrim RsaV15.

Lemma xorl_long x a b : (length x <= length a)%nat -> xorl x (a ++ b) = xorl x a.
Proof.
  intros L. rewrite <- (firstn_skipn (length x) a) at 1. rewrite <- app_assoc. rewrite <- (app_nil_r x) at 1. rewrite xorl_app by (rewrite firstn_length; lia).
  cbn [xorl map2]. change (xorl [] (skipn (length x) a ++ b)) with (@nil Z). rewrite app_nil_r.
  rewrite <- (firstn_all x) at 1. rewrite xorl_firstn. apply firstn_all2. rewrite xorl_length. lia.
Qed.
Lemma be_bytes_mod k x y : x mod 256 ^ Z.of_nat k = y mod 256 ^ Z.of_nat k -> be_bytes k x = be_bytes k y.
Proof.
  intros E. rewrite <- (be_bytes_be_val (be_bytes k x)) by apply be_bytes_bytes. rewrite <- (be_bytes_be_val (be_bytes k y)) by apply be_bytes_bytes.
  rewrite !be_bytes_length, !be_val_be_bytes. rewrite E. reflexivity.
Qed.
Lemma incr4 c : increment_be_var (be_bytes 4 c) = be_bytes 4 (c + 1).
Proof.
  rewrite increment_be_var_spec by apply be_bytes_bytes. rewrite be_bytes_length, be_val_be_bytes. apply be_bytes_mod. rewrite Z.add_mod_idemp_l; [reflexivity|]. apply Z.pow_nonzero; lia.
Qed.

Section Mgf.
  Variable H : list Z -> list Z.
  Variable hlen : nat.
  Hypothesis Hpos : (0 < hlen)%nat.
  Hypothesis Hok : forall x, bytes x -> length (H x) = hlen /\ bytes (H x).

  Let blocks seed c m := concat (map (fun c => H (seed ++ be_bytes 4 (Z.of_nat c))) (seq c m)).
  Lemma blocks_ok seed c m : bytes seed -> length (blocks seed c m) = (m * hlen)%nat /\ bytes (blocks seed c m).
  Proof.
    intros Hs. unfold blocks. revert c. induction m as [|m IH]; intros c; [split; [reflexivity|constructor]|]. cbn [seq map concat]. rewrite app_length.
    destruct (Hok (seed ++ be_bytes 4 (Z.of_nat c))) as [L B]; [apply bytes_app; split; [exact Hs|apply be_bytes_bytes]|]. destruct (IH (S c)) as [IL IB].
    rewrite L, IL. split; [lia|]. apply bytes_app. split; assumption.
  Qed.
  Lemma mgf1_loop_nil fuel ctr seed : mgf1_loop H hlen fuel ctr [] seed = [].
  Proof. destruct fuel; reflexivity. Qed.
  Lemma mgf1_loop_spec seed : bytes seed -> forall fuel c m out, (length out <= fuel)%nat -> (length out <= m * hlen)%nat ->
    mgf1_loop H hlen fuel (be_bytes 4 (Z.of_nat c)) out seed = xorl out (blocks seed c m).
  Proof.
    intros Hs. induction fuel as [|fuel IH]; intros c m out LF LM; [destruct out; [reflexivity|cbn [length] in LF; lia]|].
    cbn [mgf1_loop]. destruct out as [|x out]; [reflexivity|]. set (o := x :: out) in *. assert (L0 : (0 < length o)%nat) by (subst o; cbn [length]; lia). clearbody o.
    destruct m as [|m]; [lia|]. unfold blocks. cbn [seq map concat]. fold (blocks seed (S c) m).
    destruct (Hok (seed ++ be_bytes 4 (Z.of_nat c))) as [L B]; [apply bytes_app; split; [exact Hs|apply be_bytes_bytes]|]. set (h := H _) in *. clearbody h.
    rewrite (firstn_all2 h) by lia. rewrite incr4. replace (Z.of_nat c + 1) with (Z.of_nat (S c)) by lia.
    destruct (Nat.le_gt_cases (length o) hlen) as [Le|Gt].
    - rewrite skipn_all2 by exact Le. rewrite mgf1_loop_nil, app_nil_r, firstn_all2 by exact Le. symmetry. apply xorl_long. lia.
    - rewrite (IH (S c) m) by (rewrite skipn_length; lia). rewrite <- (firstn_skipn hlen o) at 3. rewrite xorl_app by (rewrite firstn_length; lia). reflexivity.
  Qed.
  Lemma mgf1xor_spec out seed : bytes seed -> mgf1xor H hlen out seed = xorl out (mgf1 H hlen seed (length out)).
  Proof.
    intros Hs. unfold mgf1xor. change [0; 0; 0; 0] with (be_bytes 4 (Z.of_nat 0)). set (m := ((length out + hlen - 1) / hlen)%nat).
    assert (LM : (length out <= m * hlen)%nat).
    { subst m. pose proof (Nat.div_mod (length out + hlen - 1) hlen ltac:(lia)) as D. pose proof (Nat.mod_upper_bound (length out + hlen - 1) hlen ltac:(lia)). nia. }
    rewrite (mgf1_loop_spec seed Hs _ 0 m) by lia. unfold mgf1. fold m. fold (blocks seed 0 m).
    destruct (blocks_ok seed 0 m Hs) as [L B]. set (ks := blocks seed 0 m) in *. clearbody ks.
    rewrite <- (firstn_skipn (length out) ks) at 1. apply xorl_long. rewrite firstn_length. lia.
  Qed.
  Lemma mgf1_ok seed l : bytes seed -> length (mgf1 H hlen seed l) = l /\ bytes (mgf1 H hlen seed l).
  Proof.
    intros Hs. unfold mgf1. set (m := ((l + hlen - 1) / hlen)%nat). fold (blocks seed 0 m). destruct (blocks_ok seed 0 m Hs) as [L B]. split; [|apply bytes_firstn; exact B].
    rewrite firstn_length, L. enough (l <= m * hlen)%nat by lia. subst m. pose proof (Nat.div_mod (l + hlen - 1) hlen ltac:(lia)) as D. pose proof (Nat.mod_upper_bound (l + hlen - 1) hlen ltac:(lia)). nia.
  Qed.
  Lemma mgf1xor_ok out seed : bytes out -> bytes seed -> length (mgf1xor H hlen out seed) = length out /\ bytes (mgf1xor H hlen out seed).
  Proof.
    intros Ho Hs. rewrite mgf1xor_spec by exact Hs. destruct (mgf1_ok seed (length out) Hs) as [L B]. split; [rewrite xorl_length; lia|apply xorl_bytes; assumption].
  Qed.
  Lemma mgf1xor_invol out seed : bytes out -> bytes seed -> mgf1xor H hlen (mgf1xor H hlen out seed) seed = out.
  Proof.
    intros Ho Hs. destruct (mgf1xor_ok out seed Ho Hs) as [L B]. rewrite (mgf1xor_spec (mgf1xor H hlen out seed)) by exact Hs. rewrite L.
    rewrite mgf1xor_spec by exact Hs. destruct (mgf1_ok seed (length out) Hs) as [Lm _]. apply xorl_involutive. lia.
  Qed.

  (* ---- the leading byte mask ---- *)
  Lemma mask_val z : 0 <= z < 8 -> Z.shiftr 255 z = 2 ^ (8 - z) - 1.
  Proof. intros Hz. assert (z = 0 \/ z = 1 \/ z = 2 \/ z = 3 \/ z = 4 \/ z = 5 \/ z = 6 \/ z = 7) as X by lia. repeat destruct X as [->|X]; try subst z; reflexivity. Qed.
  Lemma mask0_xor m a b : length a = length b -> mask0 m (xorl a b) = xorl (mask0 m a) (mask0 m b).
  Proof.
    destruct a as [|x a], b as [|y b]; try discriminate; [reflexivity|]. intros _. cbn [xorl map2 mask0]. f_equal.
    rewrite !(Z.land_comm _ m). apply Z.bits_inj'. intros i Hi. rewrite !Z.lxor_spec, !Z.land_spec, Z.lxor_spec. destruct (Z.testbit m i), (Z.testbit x i), (Z.testbit y i); reflexivity.
  Qed.
  Lemma mask0_idem m a : mask0 m (mask0 m a) = mask0 m a.
  Proof. destruct a as [|x a]; [reflexivity|]. cbn [mask0]. rewrite <- Z.land_assoc, Z.land_diag. reflexivity. Qed.
  Lemma mask0_length m a : length (mask0 m a) = length a. Proof. destruct a; reflexivity. Qed.
  Lemma mask0_bytes m a : 0 <= m -> bytes a -> bytes (mask0 m a).
  Proof.
    intros Hm Ha. destruct a as [|x a]; [constructor|]. apply bytes_cons in Ha. destruct Ha as [Hx Ha]. cbn [mask0]. apply bytes_cons. split; [|exact Ha].
    unfold byte in *. split; [apply Z.land_nonneg; lia|]. apply Z.le_lt_trans with x; [|lia].
    apply Z.ldiff_le; [lia|]. apply Z.bits_inj'. intros i Hi. rewrite Z.ldiff_spec, Z.land_spec, Z.bits_0. destruct (Z.testbit x i), (Z.testbit m i); reflexivity.
  Qed.
  Lemma mask0_mask m a g : length a = length g -> mask0 m (xorl (mask0 m (xorl a g)) g) = mask0 m a.
  Proof.
    intros L. rewrite mask0_xor by (rewrite mask0_length, xorl_length; lia). rewrite mask0_idem. rewrite <- mask0_xor by (rewrite xorl_length; lia).
    rewrite xorl_involutive by lia. reflexivity.
  Qed.
  Lemma mask0_fix z a : 0 <= z < 8 -> bytes a -> (0 < length a)%nat ->
    (Z.land (nth 0 a 0) (Z.lnot (2 ^ (8 - z) - 1)) = 0 <-> mask0 (2 ^ (8 - z) - 1) a = a).
  Proof.
    intros Hz Ha L. destruct a as [|x a]; [cbn [length] in L; lia|]. cbn [nth mask0]. apply bytes_cons in Ha. destruct Ha as [Hx _]. set (m := 2 ^ (8 - z) - 1). clearbody m. clear - Hx.
    rewrite <- Z.ldiff_land. split.
    - intros E. f_equal. apply Z.bits_inj'. intros i Hi. assert (T : Z.testbit (Z.ldiff x m) i = false) by (rewrite E; apply Z.bits_0). rewrite Z.ldiff_spec in T. rewrite Z.land_spec. destruct (Z.testbit x i), (Z.testbit m i); try discriminate; reflexivity.
    - intros E. assert (E' : Z.land x m = x) by congruence. rewrite <- E'. apply Z.bits_inj'. intros i Hi. rewrite Z.ldiff_spec, Z.land_spec, Z.bits_0. destruct (Z.testbit x i), (Z.testbit m i); reflexivity.
  Qed.
  Lemma mask0_val z a : 0 <= z < 8 -> bytes a -> (0 < length a)%nat -> be_val (mask0 (2 ^ (8 - z) - 1) a) = be_val a mod 2 ^ (8 * Z.of_nat (length a) - z).
  Proof.
    intros Hz Ha L. destruct a as [|x a]; [cbn [length] in L; lia|]. apply bytes_cons in Ha. destruct Ha as [Hx Ha]. cbn [mask0 length]. rewrite !be_val_cons, land_mask by lia.
    replace (8 * Z.of_nat (S (length a)) - z) with (8 * Z.of_nat (length a) + (8 - z)) by lia. rewrite Z.pow_add_r by lia. rewrite (Z.pow_mul_r 2 8) by lia. change (2 ^ 8) with 256.
    pose proof (be_val_range a Ha) as R. set (P := 256 ^ Z.of_nat (length a)) in *. set (m := 2 ^ (8 - z)). assert (0 < m) by (apply Z.pow_pos_nonneg; lia). assert (0 < P) by lia. clearbody P m.
    pose proof (Z.mod_pos_bound x m ltac:(lia)). pose proof (Z.div_mod x m ltac:(lia)). apply (Z.mod_unique_pos _ _ (x / m)); nia.
  Qed.

  (* ---- PSS ---- *)
  Lemma pss_auto_spec db i : pss_auto db = Some i <-> exists salt, db = repeat 0 i ++ [1] ++ salt.
  Proof.
    revert i. induction db as [|x db IH]; intros i; cbn [pss_auto].
    - split; [discriminate|]. intros (s & E). destruct i; discriminate.
    - destruct (Z.eqb_spec x 0) as [->|N].
      + destruct i as [|i].
        * split; [destruct (pss_auto db); discriminate|]. intros (s & E). discriminate.
        * split.
          -- destruct (pss_auto db) as [j|]; [|discriminate]. intros E. assert (j = i) by (cbn in E; congruence). subst j. destruct (proj1 (IH i) eq_refl) as (s & ->). exists s. reflexivity.
          -- intros (s & E). cbn [repeat app] in E. injection E as E'. rewrite (proj2 (IH i)); [reflexivity|]. exists s. exact E'.
      + destruct (Z.eqb_spec x 1) as [->|N1].
        * split; [intros E; apply some_inj in E; subst i; exists db; reflexivity|]. intros (s & E). destruct i; [reflexivity|discriminate].
        * split; [discriminate|]. intros (s & E). exfalso. destruct i; cbn [repeat app] in E; injection E as E0 _; contradiction.
  Qed.
  (* the bytes of the padded salt *)
  Definition pss_db (dlen : nat) (salt : list Z) : list Z := repeat 0 (dlen - length salt - 1) ++ [1] ++ salt.
  Lemma pss_db_length dlen salt : (length salt + 1 <= dlen)%nat -> length (pss_db dlen salt) = dlen.
  Proof. intros. unfold pss_db. rewrite !app_length, repeat_length. cbn [length]. lia. Qed.
  Lemma pss_db_bytes dlen salt : bytes salt -> bytes (pss_db dlen salt).
  Proof. intros. unfold pss_db. apply bytes_app. split; [apply bytes_repeat; unfold byte; lia|]. apply bytes_cons. split; [unfold byte; lia|assumption]. Qed.
  Lemma pss_db_mask z dlen salt : 0 <= z < 8 -> mask0 (2 ^ (8 - z) - 1) (pss_db dlen salt) = pss_db dlen salt.
  Proof.
    intros Hz. unfold pss_db. destruct (dlen - length salt - 1)%nat; cbn [repeat app mask0]; [|reflexivity]. f_equal.
    rewrite land_mask by lia. apply Z.mod_small. split; [lia|]. apply Z.lt_le_trans with (2 ^ 1); [reflexivity|]. apply Z.pow_le_mono_r; lia.
  Qed.
  (* the salt length found in db *)
  Definition find_salt (dlen slen : nat) (db : list Z) : option nat :=
    if (slen =? 0)%nat then match pss_auto db with Some i => Some (dlen - (i + 1))%nat | None => None end
    else let len := (dlen - slen - 1)%nat in
         if negb (forallb (fun x => x =? 0) (firstn len db)) then None else if negb (nth len db 0 =? 1) then None else Some slen.
  Lemma find_salt_spec dlen slen db s : length db = dlen -> (slen + 1 <= dlen)%nat ->
    (find_salt dlen slen db = Some s <-> (slen = 0%nat \/ s = slen) /\ (s + 1 <= dlen)%nat /\ db = pss_db dlen (skipn (dlen - s) db)).
  Proof.
    intros Ld Ls. unfold find_salt. destruct (Nat.eqb_spec slen 0) as [->|N].
    - split.
      + destruct (pss_auto db) as [i|] eqn:PA; [|discriminate]. intros E. apply some_inj in E. apply pss_auto_spec in PA. destruct PA as (salt & E2).
        assert (Li : length db = (i + 1 + length salt)%nat) by (rewrite E2, !app_length, repeat_length; cbn [length]; lia).
        split; [left; reflexivity|]. split; [lia|].
        replace (skipn (dlen - s) db) with salt; [|rewrite E2, app_assoc; rewrite skipn_app_exact; [reflexivity|rewrite app_length, repeat_length; cbn [length]; lia]].
        unfold pss_db. replace (dlen - length salt - 1)%nat with i by lia. exact E2.
      + intros (_ & L & E). assert (PA : pss_auto db = Some (dlen - s - 1)%nat).
        { apply pss_auto_spec. exists (skipn (dlen - s) db). unfold pss_db in E. rewrite skipn_length in E. replace (dlen - (length db - (dlen - s)) - 1)%nat with (dlen - s - 1)%nat in E by lia. exact E. }
        rewrite PA. f_equal. lia.
    - cbv zeta. set (len := (dlen - slen - 1)%nat).
      assert (SP : db = firstn len db ++ nth len db 0 :: skipn (dlen - slen) db).
      { rewrite <- (firstn_skipn len db) at 1. f_equal. replace (dlen - slen)%nat with (S len) by (subst len; lia).
        assert (LL : (len < length db)%nat) by (subst len; lia). clear - LL. revert LL. generalize len. induction db as [|x db IH]; intros [|n] L; cbn [length] in L; try lia; [reflexivity|]. cbn [skipn nth]. apply IH. lia. }
      assert (R : forallb (fun x => x =? 0) (firstn len db) = true <-> firstn len db = repeat 0 len).
      { assert (LF : length (firstn len db) = len) by (apply firstn_length_le; subst len; lia). rewrite <- LF at 3. clear. generalize (firstn len db). intros l. induction l as [|x l IH]; [split; reflexivity|].
        cbn [forallb length repeat]. rewrite andb_true_iff, Z.eqb_eq, IH. split; [intros [-> E]; congruence|]. intros E. injection E as E0 E1. split; assumption. }
      split.
      + destruct (forallb (fun x => x =? 0) (firstn len db)); cbn [negb]; [|discriminate]. destruct (Z.eqb_spec (nth len db 0) 1) as [E1|]; cbn [negb]; [|discriminate].
        intros E. apply some_inj in E. subst s. split; [right; reflexivity|]. split; [lia|]. rewrite SP at 1. rewrite (proj1 R eq_refl), E1. unfold pss_db. rewrite skipn_length.
        replace (dlen - (length db - (dlen - slen)) - 1)%nat with len by (subst len; lia). reflexivity.
      + intros (SS & L & E). destruct SS as [SS|SS]; [contradiction|]. subst s. unfold pss_db in E. rewrite skipn_length in E. replace (dlen - (length db - (dlen - slen)) - 1)%nat with len in E by (subst len; lia).
        assert (F : firstn len db = repeat 0 len) by (rewrite E; apply firstn_app_exact; rewrite repeat_length; reflexivity).
        assert (NT : nth len db 0 = 1) by (rewrite E; rewrite app_nth2 by (rewrite repeat_length; lia); rewrite repeat_length, Nat.sub_diag; reflexivity).
        rewrite (proj2 R F), NT. reflexivity.
  Qed.

  Lemma pss_encode_eq msg embits salt em : let emlen := Z.to_nat ((embits + 7) / 8) in
    pss_encode H hlen msg embits salt = Some em <->
    length msg = hlen /\ (hlen + length salt + 2 <= emlen)%nat /\
    let h := H (repeat 0 8 ++ msg ++ salt) in
    em = mask0 (Z.shiftr 255 (8 * Z.of_nat emlen - embits)) (mgf1xor H hlen (pss_db (emlen - hlen - 1) salt) h) ++ h ++ [0xbc].
  Proof.
    cbv zeta. unfold pss_encode, pss_db. rewrite shiftr_div by lia. change (2 ^ 3) with 8. set (emlen := Z.to_nat ((embits + 7) / 8)).
    destruct (Nat.eqb_spec (length msg) hlen) as [Lm|Lm]; cbn [negb]; [|split; [discriminate|intros (? & _); contradiction]].
    destruct (Nat.ltb_spec emlen (hlen + length salt + 2)) as [Lt|Lt]; [split; [discriminate|intros (_ & ? & _); lia]|].
    replace (emlen - hlen - 1 - length salt - 1)%nat with (emlen - length salt - hlen - 2)%nat by lia. split.
    - intros E. apply some_inj in E. repeat split; [exact Lm|exact Lt|symmetry; exact E].
    - intros (_ & _ & ->). reflexivity.
  Qed.

  Theorem pss_verify_iff msg em embits slen : 0 < embits -> bytes msg -> bytes em -> length em = Z.to_nat ((embits + 7) / 8) ->
    (pss_verify H hlen msg em embits slen = true <->
     (hlen + slen + 2 <= Z.to_nat ((embits + 7) / 8))%nat /\ exists salt, bytes salt /\ (slen = 0%nat \/ length salt = slen) /\ pss_encode H hlen msg embits salt = Some em).
  Proof.
    intros Hb Bm Be Le. assert (Z8 : 0 <= 8 * Z.of_nat (length em) - embits < 8).
    { rewrite Le. pose proof (Z.div_mod (embits + 7) 8 ltac:(lia)). pose proof (Z.mod_pos_bound (embits + 7) 8 ltac:(lia)). rewrite Z2Nat.id by lia. lia. }
    assert (PE := fun salt => pss_encode_eq msg embits salt em). cbv zeta in PE. rewrite <- Le in PE. rewrite (mask_val _ Z8) in PE.
    unfold pss_verify. cbv zeta. rewrite shiftr_div by lia. change (2 ^ 3) with 8. rewrite <- Le. rewrite (mask_val _ Z8). set (z := 8 * Z.of_nat (length em) - embits) in *. set (mask := 2 ^ (8 - z) - 1) in *.
    assert (Mn : 0 <= mask) by (subst mask; pose proof (Z.pow_pos_nonneg 2 (8 - z)); lia).
    destruct (Nat.eqb_spec (length msg) hlen) as [Lm|Lm]; cbn [negb]; [|split; [discriminate|intros (_ & salt & _ & _ & E); apply PE in E; destruct E; contradiction]].
    destruct (Nat.ltb_spec (length em) (hlen + slen + 2)) as [Lt|Lt]; [split; [discriminate|intros (? & _); lia]|].
    set (dlen := (length em - hlen - 1)%nat) in *.
    destruct (split_at dlen em ltac:(subst dlen; lia)) as (mdb & r & Eem & Lmdb). destruct (split_at hlen r) as (h & x & Er & Lh); [apply (f_equal (@length Z)) in Eem; rewrite app_length in Eem; subst dlen; lia|].
    assert (Lx : length x = 1%nat) by (apply (f_equal (@length Z)) in Eem; rewrite Er, !app_length in Eem; subst dlen; lia). destruct x as [|x [|]]; try discriminate Lx. clear Lx. subst r.
    assert (Bmdb : bytes mdb /\ bytes h /\ bytes [x]) by (rewrite Eem in Be; apply bytes_app in Be; destruct Be as [? Be]; apply bytes_app in Be; tauto). destruct Bmdb as (Bmdb & Bh & _).
    assert (N1 : nth (length em - 1) em 0 = x).
    { rewrite Eem at 2. rewrite app_assoc, app_nth2 by (rewrite app_length; subst dlen; lia). rewrite app_length. replace (length em - 1 - (length mdb + length h))%nat with 0%nat by (subst dlen; lia). reflexivity. }
    assert (N0 : nth 0 em 0 = nth 0 mdb 0) by (rewrite Eem; apply app_nth1; subst dlen; lia).
    assert (F1 : firstn dlen em = mdb) by (rewrite Eem; apply firstn_app_exact; exact Lmdb).
    assert (F2 : firstn hlen (skipn dlen em) = h) by (rewrite Eem; rewrite skipn_app_exact by exact Lmdb; apply firstn_app_exact; exact Lh).
    rewrite N1, N0, F1, F2. clear N1 N0 F1 F2.
    set (db := mask0 mask (mgf1xor H hlen mdb h)). destruct (mgf1xor_ok mdb h Bmdb Bh) as [Lx Bx].
    assert (Ldb : length db = dlen) by (subst db; rewrite mask0_length; lia). assert (Bdb : bytes db) by (subst db; apply mask0_bytes; assumption).
    match goal with |- context [match ?X with Some _ => _ | None => false end] => change X with (find_salt dlen slen db) end.
    assert (G : length (mgf1 H hlen h dlen) = dlen) by (apply mgf1_ok; exact Bh).
    (* masking twice gives back the masked data *)
    assert (BACK : mask0 mask (mgf1xor H hlen db h) = mask0 mask mdb).
    { rewrite mgf1xor_spec by exact Bh. rewrite Ldb. subst db. rewrite (mgf1xor_spec mdb) by exact Bh. rewrite Lmdb. apply mask0_mask. lia. }
    assert (FIX := mask0_fix z mdb Z8 Bmdb ltac:(subst dlen; lia)). fold mask in FIX. assert (PM : forall salt, mask0 mask (pss_db dlen salt) = pss_db dlen salt) by (intros; apply pss_db_mask; exact Z8). clearbody mask. split.
    - destruct (Z.eqb_spec x 188) as [->|]; cbn [negb]; [|discriminate].
      destruct (Z.eqb_spec (Z.land (nth 0 mdb 0) (Z.lnot mask)) 0) as [E0|]; cbn [negb]; [|discriminate]. apply FIX in E0.
      destruct (find_salt dlen slen db) as [s|] eqn:FS; [|discriminate]. intros MQ. apply find_salt_spec in FS; [|exact Ldb|subst dlen; lia]. destruct FS as (FS1 & FS2 & FS3).
      set (salt := skipn (dlen - s) db) in *. assert (Ls : length salt = s) by (subst salt; rewrite skipn_length; lia). assert (Bs : bytes salt) by (apply bytes_skipn; exact Bdb).
      assert (Bin : bytes (repeat 0 8 ++ msg ++ salt)) by (apply bytes_app; split; [apply bytes_repeat; unfold byte; lia|apply bytes_app; split; assumption]).
      destruct (Hok _ Bin) as [LH BH]. rewrite memequal_b in MQ by (try assumption; lia). rewrite b2z_1 in MQ. apply leqb_iff in MQ.
      split; [exact Lt|]. exists salt. split; [exact Bs|]. split; [lia|]. apply PE. split; [exact Lm|]. split; [subst dlen; lia|]. fold dlen. rewrite MQ, <- FS3, BACK, E0. exact Eem.
    - intros (_ & salt & Bs & SL & E). apply PE in E. destruct E as (_ & L2 & E). fold dlen in E.
      assert (Bin : bytes (repeat 0 8 ++ msg ++ salt)) by (apply bytes_app; split; [apply bytes_repeat; unfold byte; lia|apply bytes_app; split; assumption]).
      destruct (Hok _ Bin) as [LH BH]. set (h' := H (repeat 0 8 ++ msg ++ salt)) in *.
      pose proof (pss_db_length dlen salt ltac:(subst dlen; lia)) as LP. pose proof (pss_db_bytes dlen salt Bs) as BP.
      destruct (mgf1xor_ok (pss_db dlen salt) h' BP BH) as [LX _].
      assert (E1 : mdb = mask0 mask (mgf1xor H hlen (pss_db dlen salt) h')).
      { rewrite Eem in E. apply (f_equal (firstn dlen)) in E. rewrite firstn_app_exact in E by exact Lmdb. rewrite firstn_app_exact in E by (rewrite mask0_length; lia). exact E. }
      assert (E2 : h ++ [x] = h' ++ [188]) by (rewrite Eem, <- E1 in E; apply app_inv_head in E; exact E). apply app_inj_tail in E2. destruct E2 as [E2 ->]. subst h.
      rewrite Z.eqb_refl. cbn [negb]. assert (E0 : mask0 mask mdb = mdb) by (rewrite E1; apply mask0_idem). rewrite (proj2 FIX E0), Z.eqb_refl. cbn [negb].
      assert (Edb : db = pss_db dlen salt).
      { subst db. rewrite E1. rewrite (mgf1xor_spec (mask0 _ _)) by exact Bh. rewrite mask0_length, LX, LP. rewrite mgf1xor_spec by exact Bh. rewrite LP. rewrite mask0_mask by lia. apply PM. }
      replace (find_salt dlen slen db) with (Some (length salt)).
      + rewrite Edb. replace (skipn (dlen - length salt) (pss_db dlen salt)) with salt; [fold h'; rewrite memequal_b by (try assumption; lia); rewrite b2z_1; apply leqb_iff; reflexivity|].
        unfold pss_db. rewrite app_assoc. rewrite skipn_app_exact; [reflexivity|]. rewrite app_length, repeat_length. cbn [length]. subst dlen; lia.
      + symmetry. apply find_salt_spec; [exact Ldb|subst dlen; lia|]. split; [tauto|]. split; [subst dlen; lia|]. rewrite Edb at 1. f_equal. rewrite Edb.
        unfold pss_db. rewrite app_assoc. rewrite skipn_app_exact; [reflexivity|]. rewrite app_length, repeat_length. cbn [length]. subst dlen; lia.
  Qed.
  (* the encoding is the one of RFC 8017 *)
  Theorem pss_encode_spec msg embits salt em : 0 < embits -> bytes msg -> bytes salt ->
    (pss_encode H hlen msg embits salt = Some em <-> length msg = hlen /\ emsa_pss H hlen msg embits salt em).
  Proof.
    intros Hb Bm Bs. rewrite pss_encode_eq. cbv zeta. unfold emsa_pss. cbv zeta. set (emlen := Z.to_nat ((embits + 7) / 8)).
    assert (Z8 : 0 <= 8 * Z.of_nat emlen - embits < 8).
    { subst emlen. pose proof (Z.div_mod (embits + 7) 8 ltac:(lia)). pose proof (Z.mod_pos_bound (embits + 7) 8 ltac:(lia)). rewrite Z2Nat.id by lia. lia. }
    rewrite (mask_val _ Z8). assert (Bin : bytes (repeat 0 8 ++ msg ++ salt)) by (apply bytes_app; split; [apply bytes_repeat; unfold byte; lia|apply bytes_app; split; assumption]).
    destruct (Hok _ Bin) as [LH BH]. set (h := H (repeat 0 8 ++ msg ++ salt)) in *. set (z := 8 * Z.of_nat emlen - embits) in *.
    assert (Mn : 0 <= 2 ^ (8 - z) - 1) by (pose proof (Z.pow_pos_nonneg 2 (8 - z)); lia).
    set (dlen := (emlen - hlen - 1)%nat). pose proof (pss_db_bytes dlen salt Bs) as BP.
    assert (MV : forall l, (hlen + length salt + 2 <= emlen)%nat -> bytes l -> length l = dlen -> be_val (mask0 (2 ^ (8 - z) - 1) l) = be_val l mod 2 ^ (embits - 8 * Z.of_nat hlen - 8)).
    { intros l L0 Bl Ll. rewrite mask0_val by (try assumption; subst dlen; lia). do 2 f_equal. subst z dlen. lia. }
    split.
    - intros (Lm & L2 & ->). split; [exact Lm|]. pose proof (pss_db_length dlen salt ltac:(subst dlen; lia)) as LP. destruct (mgf1xor_ok (pss_db dlen salt) h BP BH) as [LX BX].
      exists (repeat 0 (dlen - length salt - 1)). cbv zeta. fold (pss_db dlen salt). split; [apply Forall_forall; intros y Hy; apply repeat_spec in Hy; congruence|].
      split; [rewrite !app_length, mask0_length, LX, LP, LH; cbn [length]; subst dlen; lia|]. split; [exact L2|]. split; [exact LP|].
      exists (mask0 (2 ^ (8 - z) - 1) (mgf1xor H hlen (pss_db dlen salt) h)). split; [reflexivity|]. rewrite mask0_length. split; [|split; [apply mask0_bytes; assumption|exact LX]].
      rewrite MV by (try assumption; lia). rewrite mgf1xor_spec by exact BH. rewrite LP. reflexivity.
    - intros (Lm & PS & F & LE & L2 & LD & mdb & -> & V & Bmdb & Lmdb). split; [exact Lm|]. split; [exact L2|].
      assert (EPS : PS ++ [1] ++ salt = pss_db dlen salt).
      { unfold pss_db. f_equal. rewrite !app_length in LD. cbn [length] in LD. replace (dlen - length salt - 1)%nat with (length PS) by (subst dlen; lia). clear - F. induction F as [|y PS Hy F IH]; [reflexivity|]. cbn [length repeat]. congruence. }
      rewrite EPS in *. fold dlen in LD. f_equal. destruct (mgf1xor_ok (pss_db dlen salt) h BP BH) as [LX BX].
      assert (Lmask : length (mask0 (2 ^ (8 - z) - 1) (mgf1xor H hlen (pss_db dlen salt) h)) = dlen) by (rewrite mask0_length; lia).
      rewrite <- (be_bytes_be_val mdb Bmdb). rewrite <- (be_bytes_be_val (mask0 (2 ^ (8 - z) - 1) (mgf1xor H hlen (pss_db dlen salt) h))) by (apply mask0_bytes; assumption).
      rewrite Lmask. replace (length mdb) with dlen by lia. f_equal. rewrite V, MV by (try assumption; lia). rewrite mgf1xor_spec by exact BH. rewrite LD. reflexivity.
  Qed.
  Lemma pss_encode_ok msg embits salt em : 0 < embits -> bytes msg -> bytes salt -> pss_encode H hlen msg embits salt = Some em ->
    bytes em /\ length em = Z.to_nat ((embits + 7) / 8) /\ be_val em < 2 ^ embits.
  Proof.
    intros Hb Bm Bs E. apply pss_encode_spec in E; try assumption. destruct E as (Lm & PS & F & LE & L2 & LD & mdb & -> & V & Bmdb & Lmdb). set (emlen := Z.to_nat ((embits + 7) / 8)) in *.
    assert (Z8 : 0 <= 8 * Z.of_nat emlen - embits < 8).
    { subst emlen. pose proof (Z.div_mod (embits + 7) 8 ltac:(lia)). pose proof (Z.mod_pos_bound (embits + 7) 8 ltac:(lia)). rewrite Z2Nat.id by lia. lia. }
    assert (Bin : bytes (repeat 0 8 ++ msg ++ salt)) by (apply bytes_app; split; [apply bytes_repeat; unfold byte; lia|apply bytes_app; split; assumption]).
    destruct (Hok _ Bin) as [LH BH]. set (h := H (repeat 0 8 ++ msg ++ salt)) in *.
    assert (Bt : bytes (h ++ [188])) by (apply bytes_app; split; [exact BH|apply bytes_cons; split; [unfold byte; lia|constructor]]).
    split; [apply bytes_app; split; assumption|]. split; [exact LE|].
    rewrite be_val_app. pose proof (be_val_range _ Bt) as R. rewrite app_length, LH in *. cbn [length] in *.
    assert (VB : 0 <= be_val mdb < 2 ^ (embits - 8 * Z.of_nat hlen - 8)) by (rewrite V; apply Z.mod_pos_bound, Z.pow_pos_nonneg; lia).
    replace embits with ((embits - 8 * Z.of_nat hlen - 8) + 8 * Z.of_nat (hlen + 1)) by lia. rewrite Z.pow_add_r by lia. rewrite (Z.pow_mul_r 2 8) by lia. change (2 ^ 8) with 256.
    clear - VB R. set (P := 256 ^ Z.of_nat (hlen + 1)) in *. clearbody P.
    replace (embits - 8 * Z.of_nat hlen - 8 + 8 * Z.of_nat (hlen + 1) - 8 * Z.of_nat hlen - 8) with (embits - 8 * Z.of_nat hlen - 8) in * by lia.
    set (Q := 2 ^ (embits - 8 * Z.of_nat hlen - 8)) in *. clearbody Q. nia.
  Qed.

  (* ---- OAEP ---- *)
  Lemma bit_of b : 0 <= Z.b2z b < 2 ^ 32. Proof. destruct b; cbn; lia. Qed.
  Lemma oaep_done l : bytes l -> forall i off inv, 0 <= i -> i + Z.of_nat (length l) < 2 ^ 31 -> 0 <= off < 2 ^ 31 -> inv = 0 \/ inv = 1 -> oaep_loop l i off 0 inv = (off, 0, inv).
  Proof.
    induction 1 as [|x l Hx Hl IH]; intros i off inv Hi HL Ho HI; [reflexivity|]. cbn [oaep_loop length] in *. change (2 ^ 31) with 2147483648 in *.
    rewrite !Z.land_0_l. rewrite !cnd_select_spec by (change (2 ^ 32) with 4294967296; lia). rewrite Z.eqb_refl. cbv iota.
    replace (if sec_equal x 1 =? 0 then 0 else 0) with 0 by (destruct (sec_equal x 1 =? 0); reflexivity). apply IH; lia.
  Qed.
  Lemma oaep_bad l : bytes l -> forall i off lk, 0 <= i -> i + Z.of_nat (length l) < 2 ^ 31 -> 0 <= off < 2 ^ 31 -> lk = 0 \/ lk = 1 -> exists off' lk', oaep_loop l i off lk 1 = (off', lk', 1) /\ (lk' = 0 \/ lk' = 1).
  Proof.
    induction 1 as [|x l Hx Hl IH]; intros i off lk Hi HL Ho HK; [exists off, lk; split; [reflexivity|exact HK]|]. cbn [oaep_loop length] in *. change (2 ^ 31) with 2147483648 in *.
    set (c1 := Z.land lk (sec_equal x 1)). set (e1 := sec_equal x 1). clearbody c1 e1. rewrite (cnd_select_spec off), (cnd_select_spec lk) by (change (2 ^ 32) with 4294967296; lia).
    set (c2 := Z.land _ _). clearbody c2. rewrite (cnd_select_spec 1) by (change (2 ^ 32) with 4294967296; lia). replace (if c2 =? 0 then 1 else 1) with 1 by (destruct (c2 =? 0); reflexivity).
    apply IH; try lia; [destruct (c1 =? 0); lia|destruct (e1 =? 0); lia].
  Qed.
  Lemma oaep_loop_spec l : bytes l -> forall i, 0 <= i -> i + Z.of_nat (length l) < 2 ^ 31 ->
    match pss_auto l with
    | Some j => oaep_loop l i 0 1 0 = (i + Z.of_nat j, 0, 0)
    | None => exists off lk inv, oaep_loop l i 0 1 0 = (off, lk, inv) /\ (lk = 0 \/ lk = 1) /\ (inv = 0 \/ inv = 1) /\ (lk = 1 \/ inv = 1)
    end.
  Proof.
    induction 1 as [|x l Hx Hl IH]; intros i Hi HL; [exists 0, 1, 0; split; [reflexivity|lia]|]. cbn [oaep_loop length pss_auto] in *. change (2 ^ 31) with 2147483648 in *.
    rewrite !sec_equal_spec by (change (2 ^ 31) with 2147483648; unfold byte in Hx; lia). specialize (IH (i + 1) ltac:(lia) ltac:(lia)).
    destruct (Z.eqb_spec x 0) as [->|N].
    - change (0 =? 1) with false. cbn [Z.b2z]. change (Z.land 1 0) with 0. rewrite !cnd_select_spec by (change (2 ^ 32) with 4294967296; lia). rewrite Z.eqb_refl. cbv iota.
      change (Z.land 1 (Z.lxor 1 1) =? 0) with true. cbv iota. destruct (pss_auto l) as [j|]; cbn [option_map]; [rewrite IH; do 2 f_equal; lia|exact IH].
    - destruct (Z.eqb_spec x 1) as [->|N1]; cbn [Z.b2z].
      + change (Z.land 1 1) with 1. rewrite !cnd_select_spec by (change (2 ^ 32) with 4294967296; lia). change (1 =? 0) with false. cbv iota. change (Z.land 0 (Z.lxor 0 1) =? 0) with true. cbv iota.
        rewrite oaep_done by (try assumption; change (2 ^ 31) with 2147483648; lia). do 2 f_equal. lia.
      + change (Z.land 1 0) with 0. rewrite (cnd_select_spec 0 i), (cnd_select_spec 1 0) by (change (2 ^ 32) with 4294967296; lia). rewrite Z.eqb_refl. cbv iota.
        rewrite cnd_select_spec by (change (2 ^ 32) with 4294967296; lia). change (Z.land 1 (Z.lxor 0 1) =? 0) with false. cbv iota.
        destruct (oaep_bad l Hl (i + 1) 0 1) as (off & lk & E & K); [lia|change (2 ^ 31) with 2147483648; lia|change (2 ^ 31) with 2147483648; lia|lia|]. exists off, lk, 1. split; [exact E|lia].
  Qed.

  Lemma oaep_encode_spec klen label msg seed em : (2 * hlen + 2 + length msg <= klen)%nat -> bytes label -> bytes msg -> bytes seed -> length seed = hlen ->
    (em = oaep_encode H hlen klen label msg seed <-> eme_oaep H hlen klen label msg seed em).
  Proof.
    intros Lk Bl Bm Bs Ls. destruct (Hok label Bl) as [LL BL]. unfold oaep_encode, eme_oaep. cbv zeta.
    assert (GEN : forall PS, PS = repeat 0 (klen - (1 + hlen) - length msg - 1 - hlen) -> let db := H label ++ PS ++ [1] ++ msg in
      bytes db /\ length db = (klen - hlen - 1)%nat).
    { intros PS ->. cbv zeta. split; [apply bytes_app; split; [exact BL|apply bytes_app; split; [apply bytes_repeat; unfold byte; lia|apply bytes_cons; split; [unfold byte; lia|exact Bm]]]|].
      rewrite !app_length, repeat_length. cbn [length]. lia. }
    cbv zeta in GEN. destruct (GEN _ eq_refl) as [Bdb Ldb]. set (db := H label ++ repeat 0 (klen - (1 + hlen) - length msg - 1 - hlen) ++ [1] ++ msg) in *.
    destruct (mgf1xor_ok db seed Bdb Bs) as [L1 B1]. set (mdb := mgf1xor H hlen db seed) in *. destruct (mgf1xor_ok seed mdb Bs B1) as [L2 B2].
    assert (E1 : mdb = xorl db (mgf1 H hlen seed (klen - hlen - 1))) by (subst mdb; rewrite mgf1xor_spec by exact Bs; rewrite Ldb; reflexivity).
    assert (E2 : mgf1xor H hlen seed mdb = xorl seed (mgf1 H hlen mdb hlen)) by (rewrite mgf1xor_spec by exact B1; rewrite Ls; reflexivity).
    split.
    - intros ->. exists (repeat 0 (klen - (1 + hlen) - length msg - 1 - hlen)). split; [apply Forall_forall; intros y Hy; apply repeat_spec in Hy; congruence|].
      fold db. split; [exact Ldb|]. split; [rewrite !app_length; cbn [length]; lia|]. split; [exact Ls|]. rewrite <- E1, <- E2. reflexivity.
    - intros (PS & F & LD & LE & _ & E).
      assert (EP : PS = repeat 0 (klen - (1 + hlen) - length msg - 1 - hlen)).
      { rewrite !app_length, LL in LD. cbn [length] in LD. replace (klen - (1 + hlen) - length msg - 1 - hlen)%nat with (length PS) by lia. clear - F; induction F as [|y PS Hy F IH]; [reflexivity|]; cbn [length repeat]; congruence. }
      rewrite EP in E. fold db in E. rewrite <- E1, <- E2 in E. exact E.
  Qed.

  Lemma oaep_encode_ok klen label msg seed : (2 * hlen + 2 + length msg <= klen)%nat -> bytes label -> bytes msg -> bytes seed -> length seed = hlen ->
    bytes (oaep_encode H hlen klen label msg seed) /\ length (oaep_encode H hlen klen label msg seed) = klen /\ hd 1 (oaep_encode H hlen klen label msg seed) = 0.
  Proof.
    intros Lk Bl Bm Bs Ls. destruct (Hok label Bl) as [LL BL]. unfold oaep_encode. cbv zeta.
    set (db := H label ++ repeat 0 (klen - (1 + hlen) - length msg - 1 - hlen) ++ [1] ++ msg).
    assert (Bdb : bytes db) by (apply bytes_app; split; [exact BL|apply bytes_app; split; [apply bytes_repeat; unfold byte; lia|apply bytes_cons; split; [unfold byte; lia|exact Bm]]]).
    assert (Ldb : length db = (klen - hlen - 1)%nat) by (subst db; rewrite !app_length, repeat_length; cbn [length]; lia).
    destruct (mgf1xor_ok db seed Bdb Bs) as [L1 B1]. destruct (mgf1xor_ok seed _ Bs B1) as [L2 B2].
    split; [|split; [rewrite !app_length; cbn [length]; lia|reflexivity]]. apply bytes_cons. split; [unfold byte; lia|]. apply bytes_app. split; assumption.
  Qed.

  (* decoding succeeds exactly on the encodings *)
  Theorem oaep_decode_iff em label msg : bytes em -> bytes label -> (2 * hlen + 2 <= length em)%nat -> Z.of_nat (length em) < 2 ^ 31 ->
    (oaep_decode H hlen em label = Some msg <-> bytes msg /\ exists seed, bytes seed /\ length seed = hlen /\ (2 * hlen + 2 + length msg <= length em)%nat /\ em = oaep_encode H hlen (length em) label msg seed).
  Proof.
    intros Be Bl Le LB. destruct em as [|z em]; [cbn [length] in Le; lia|]. cbn [length] in Le, LB.
    destruct (split_at hlen em ltac:(lia)) as (ms & mdb & -> & Lms). rewrite app_length in Le, LB. apply bytes_cons in Be. destruct Be as [Bz Be]. apply bytes_app in Be. destruct Be as [Bms Bmdb].
    destruct (Hok label Bl) as [LL BL]. unfold oaep_decode. cbv zeta. cbn [nth]. change (skipn 1 (z :: ms ++ mdb)) with (ms ++ mdb). rewrite firstn_app_exact by exact Lms.
    replace (skipn (hlen + 1) (z :: ms ++ mdb)) with mdb; [|rewrite Nat.add_1_r; cbn [skipn]; symmetry; apply skipn_app_exact; exact Lms].
    destruct (mgf1xor_ok ms mdb Bms Bmdb) as [L1 B1]. set (seed := mgf1xor H hlen ms mdb) in *.
    destruct (mgf1xor_ok mdb seed Bmdb B1) as [L2 B2]. set (db := mgf1xor H hlen mdb seed) in *.
    destruct (split_at hlen db ltac:(lia)) as (lh & rest & Edb & Llh). rewrite Edb. rewrite firstn_app_exact, skipn_app_exact by exact Llh.
    assert (B3 := B2). rewrite Edb in B3. apply bytes_app in B3. destruct B3 as [Blh Brest].
    assert (Lrest : (length rest + hlen = length mdb)%nat) by (rewrite <- L2, Edb, app_length; lia).
    rewrite memequal_b by (try assumption; lia). rewrite sec_equal_spec by (apply byte31; assumption || (unfold byte; lia)). rewrite land_b2z.
    (* what an encoding looks like after unmasking *)
    assert (ENC : forall m sd, bytes m -> bytes sd -> length sd = hlen -> (2 * hlen + 2 + length m <= length (z :: ms ++ mdb))%nat ->
      (z :: ms ++ mdb = oaep_encode H hlen (length (z :: ms ++ mdb)) label m sd <-> z = 0 /\ sd = seed /\ lh = H label /\ rest = repeat 0 (length rest - length m - 1) ++ [1] ++ m)).
    { intros m sd Bm Bsd Lsd Lm. cbn [length] in Lm |- *. rewrite app_length in Lm |- *. unfold oaep_encode. cbv zeta.
      replace (S (length ms + length mdb) - (1 + hlen) - length m - 1 - hlen)%nat with (length rest - length m - 1)%nat by lia.
      set (db' := H label ++ repeat 0 (length rest - length m - 1) ++ [1] ++ m).
      assert (Bdb' : bytes db') by (apply bytes_app; split; [exact BL|apply bytes_app; split; [apply bytes_repeat; unfold byte; lia|apply bytes_cons; split; [unfold byte; lia|exact Bm]]]).
      assert (Ldb' : length db' = length mdb) by (subst db'; rewrite !app_length, repeat_length; cbn [length]; lia).
      destruct (mgf1xor_ok db' sd Bdb' Bsd) as [La Ba]. destruct (mgf1xor_ok sd _ Bsd Ba) as [Lb Bb]. split.
      - intros E. cbn [app] in E. injection E as -> E.
        assert (E1 : ms = mgf1xor H hlen sd (mgf1xor H hlen db' sd)) by (apply (f_equal (firstn hlen)) in E; rewrite !firstn_app_exact in E by lia; exact E).
        assert (E2 : mdb = mgf1xor H hlen db' sd) by (apply (f_equal (skipn hlen)) in E; rewrite !skipn_app_exact in E by lia; exact E).
        assert (E3 : sd = seed) by (subst seed; rewrite E1, E2; symmetry; apply mgf1xor_invol; assumption).
        assert (E4 : db' = lh ++ rest) by (rewrite <- Edb; subst db; rewrite <- E3, E2; symmetry; apply mgf1xor_invol; assumption).
        split; [reflexivity|]. split; [exact E3|]. split.
        + apply (f_equal (firstn hlen)) in E4. rewrite firstn_app_exact in E4 by exact Llh. subst db'. rewrite firstn_app_exact in E4 by exact LL. congruence.
        + apply (f_equal (skipn hlen)) in E4. rewrite skipn_app_exact in E4 by exact Llh. subst db'. rewrite skipn_app_exact in E4 by exact LL. congruence.
      - intros (-> & -> & El & Er). assert (E4 : db' = db) by (rewrite Edb; subst db'; rewrite <- Er, El; reflexivity).
        rewrite E4. subst db. rewrite mgf1xor_invol by assumption. subst seed. rewrite mgf1xor_invol by assumption. reflexivity. }
    pose proof (oaep_loop_spec rest Brest 0 ltac:(lia) ltac:(lia)) as LS. destruct (pss_auto rest) as [j|] eqn:PA.
    - rewrite LS. change (Z.lxor 0 1) with (Z.b2z true). rewrite !land_b2z, !andb_true_r. replace (Z.to_nat (0 + Z.of_nat j + 1)) with (S j) by lia.
      apply pss_auto_spec in PA. destruct PA as (m & Er). assert (Lm : length rest = (j + 1 + length m)%nat) by (rewrite Er, !app_length, repeat_length; cbn [length]; lia).
      assert (SK : skipn (S j) rest = m) by (rewrite Er, app_assoc; apply skipn_app_exact; rewrite app_length, repeat_length; cbn [length]; lia). rewrite SK.
      assert (Bm : bytes m) by (rewrite <- SK; apply bytes_skipn; exact Brest).
      destruct ((z =? 0) && leqb lh (H label)) eqn:OK; cbn [Z.b2z].
      + change (1 =? 0) with false. cbv iota. apply andb_true_iff in OK. destruct OK as [O1 O2]. apply Z.eqb_eq in O1. apply leqb_iff in O2. split.
        * intros E. apply some_inj in E. subst msg. split; [exact Bm|]. exists seed. split; [exact B1|]. split; [lia|]. split; [cbn [length]; rewrite app_length; lia|].
          apply ENC; [exact Bm|exact B1|lia|cbn [length]; rewrite app_length; lia|]. split; [exact O1|]. split; [reflexivity|]. split; [exact O2|]. rewrite Er at 1. do 2 f_equal. lia.
        * intros (Bmsg & sd & Bsd & Lsd & Lmm & E). apply ENC in E; try assumption. destruct E as (_ & _ & _ & E). f_equal.
          assert (PA1 : pss_auto rest = Some (length rest - length msg - 1)%nat) by (apply pss_auto_spec; exists msg; exact E).
          assert (PA2 : pss_auto rest = Some j) by (apply pss_auto_spec; exists m; exact Er).
          assert (EJ : j = (length rest - length msg - 1)%nat) by congruence.
          apply (f_equal (skipn (S j))) in E. rewrite SK in E. rewrite E. rewrite app_assoc. apply skipn_app_exact. rewrite app_length, repeat_length. cbn [length]. lia.
      + change (0 =? 0) with true. cbv iota. split; [discriminate|]. intros (Bmsg & sd & Bsd & Lsd & Lmm & E). apply ENC in E; try assumption. destruct E as (E1 & _ & E2 & _).
        exfalso. rewrite (proj2 (Z.eqb_eq _ _) E1), (proj2 (leqb_iff _ _) E2) in OK. discriminate.
    - destruct LS as (off & lk & inv & -> & HK & HI & HB). split.
      + intros E. exfalso. destruct HK as [->| ->], HI as [->| ->]; destruct HB as [HB|HB]; try discriminate HB; destruct ((z =? 0) && leqb lh (H label)); discriminate E.
      + intros (Bmsg & sd & Bsd & Lsd & Lmm & E). apply ENC in E; try assumption. destruct E as (_ & _ & _ & E). exfalso.
        assert (PA1 : pss_auto rest = Some (length rest - length msg - 1)%nat) by (apply pss_auto_spec; exists msg; exact E). congruence.
  Qed.
End Mgf.
