(* EB2K and PGPDF: values and termination *)
From Verif.Base Require Import Prelude.
From Verif.Model Require Import Encoding Bio Hash Stream Kdf.
From Verif.Spec Require Import BlockSpec HashSpec KdfSpec.
From Verif.Proof Require Import BioProof BlockProof HashProof HmacProof KdfProof.

#[local] Opaque hash_init hash_update hash_final hmac_init hmac_update hmac_final hash_value rfc2104.

Lemma hrep_H id m c : bytes m -> hrep id m c -> hash_final id c (hash_output_size id) = Ok (H id m).
Proof. intros Hm HR. pose proof (sizes id) as [_ [_ [S1 S2]]]. apply hrep_final; auto. rewrite S1. exact S2. Qed.
Lemma D_ok id pw salt i : bytes pw -> bytes salt -> bytes (eb2k_D id pw salt i) /\ (length (eb2k_D id pw salt i) <= 64)%nat /\
  ((0 < i)%nat -> length (eb2k_D id pw salt i) = hash_output_size id).
Proof.
  intros Hp Hs. pose proof (osize id). induction i as [|i [I1 [I2 I3]]]; cbn [eb2k_D]; [split; [constructor|split; [cbn; lia|lia]]|].
  assert (HB : bytes (eb2k_D id pw salt i ++ pw ++ salt)) by (apply bytes_app; split; [auto|apply bytes_app; auto]).
  destruct (H_ok id _ HB) as [L B]. split; [auto|]. split; [lia|auto].
Qed.
Lemma eb2k_step id pw salt i : bytes pw -> bytes salt -> Z.of_nat (length pw) < M64 -> Z.of_nat (length salt) < M64 ->
  bind (hash_init id) (fun c => bind (hash_update id c (eb2k_D id pw salt i)) (fun c => bind (hash_update id c pw) (fun c =>
            bind (hash_update id c salt) (fun c => hash_final id c (hash_output_size id))))) = Ok (eb2k_D id pw salt (S i)).
Proof.
  intros Hp Hs Lp Ls. destruct (D_ok id pw salt i Hp Hs) as [DB [DL _]].
  destruct (hrep_init id) as [c0 [E0 R0]]. rewrite E0. cbn [bind].
  destruct (hrep_update id _ _ (eb2k_D id pw salt i) R0 ltac:(unfold M64; lia)) as [c1 [E1 R1]]. rewrite E1. cbn [bind].
  destruct (hrep_update id _ _ pw R1 Lp) as [c2 [E2 R2]]. rewrite E2. cbn [bind].
  destruct (hrep_update id _ _ salt R2 Ls) as [c3 [E3 R3]]. rewrite E3. cbn [bind].
  cbn [app] in R3. rewrite <- app_assoc in R3. apply hrep_H; [|exact R3].
  apply bytes_app; split; [auto|apply bytes_app; auto].
Qed.
Lemma eb2k_loop_spec id pw salt : bytes pw -> bytes salt -> Z.of_nat (length pw) < M64 -> Z.of_nat (length salt) < M64 ->
  forall n fuel i kl il key iv, (n <= fuel)%nat -> (kl + il <= n * hash_output_size id)%nat ->
  let T := concat (map (eb2k_D id pw salt) (seq (S i) n)) in
  eb2k_loop fuel id pw salt (eb2k_D id pw salt i) kl il key iv = Some (Ok (key ++ firstn kl T, iv ++ firstn il (skipn kl T))).
Proof.
  intros Hp Hs Lp Ls. pose proof (osize id) as Ho. induction n as [|n IH]; intros fuel i kl il key iv Hf HL; cbv zeta.
  - assert (kl = 0%nat /\ il = 0%nat) as [-> ->] by lia. destruct fuel; cbn [eb2k_loop Nat.ltb Nat.leb orb firstn]; rewrite !app_nil_r; reflexivity.
  - destruct fuel as [|fuel]; [lia|]. cbn [eb2k_loop].
    destruct ((0 <? kl)%nat || (0 <? il)%nat) eqn:EC.
    2: { apply Bool.orb_false_iff in EC. destruct EC as [E1 E2]. apply Nat.ltb_ge in E1, E2. assert (kl = 0%nat /\ il = 0%nat) as [-> ->] by lia.
         cbn [firstn]. rewrite !app_nil_r. reflexivity. }
    rewrite eb2k_step by auto. destruct (D_ok id pw salt (S i) Hp Hs) as [DB [_ DL]]. specialize (DL ltac:(lia)).
    cbn [seq map concat]. set (T := concat (map (eb2k_D id pw salt) (seq (S (S i)) n))).
    set (b := eb2k_D id pw salt (S i)) in *. set (hs := hash_output_size id) in *.
    assert (IH' := fun kl il key iv => IH fuel (S i) kl il key iv ltac:(lia)). cbv zeta in IH'. fold T b hs in IH'. clear IH.
    rewrite (firstn_all2 (n := hs) b) by lia. cbv zeta.
    rewrite !firstn_app, !skipn_app, !firstn_app, !skipn_length, !DL.
    destruct (Nat.ltb_spec 0 kl) as [K|K].
    + destruct (Nat.ltb_spec kl hs) as [K2|K2].
      * replace (kl - kl)%nat with 0%nat by lia. replace (kl - hs)%nat with 0%nat by lia. cbn [firstn skipn]. rewrite app_nil_r.
        destruct (Nat.ltb_spec 0 il) as [I|I].
        -- destruct (Nat.ltb_spec il (hs - kl)) as [I2|I2].
           ++ rewrite IH' by lia. cbn [firstn skipn]. rewrite Nat.sub_diag. replace (il - (hs - kl))%nat with 0%nat by lia. cbn [firstn]. rewrite !app_nil_r. reflexivity.
           ++ rewrite IH' by nia. fold T. cbn [firstn skipn]. rewrite app_nil_r, <- app_assoc. rewrite (firstn_all2 (n := il)) by (rewrite skipn_length; lia).
              rewrite (firstn_all2 (n := hs - kl)) by (rewrite skipn_length; lia). reflexivity.
        -- assert (il = 0%nat) by lia. subst il. rewrite IH' by lia. cbn [firstn skipn]. rewrite !app_nil_r. reflexivity.
      * rewrite (firstn_all2 (n := hs) b), (firstn_all2 (n := kl) b) by lia. rewrite !(skipn_all2 (n := hs) b), (skipn_all2 (n := kl) b) by lia.
        replace (hs - hs)%nat with 0%nat by lia. replace (hs - kl)%nat with 0%nat by lia. rewrite !firstn_nil, Nat.sub_0_r. cbn [app].
        destruct (Nat.ltb_spec 0 il) as [I|I].
        -- destruct (Nat.ltb_spec il 0) as [I2|I2]; [lia|]. rewrite IH' by nia. fold T. rewrite Nat.sub_0_r. rewrite ?firstn_O, ?app_nil_r, <- ?app_assoc. reflexivity.
        -- assert (il = 0%nat) by lia. subst il. rewrite IH' by nia. fold T. rewrite ?firstn_O, ?app_nil_r, <- ?app_assoc. reflexivity.
    + assert (kl = 0%nat) by lia. subst kl. replace (0 - hs)%nat with 0%nat by lia. cbn [firstn skipn app]. rewrite ?app_nil_r, ?Nat.sub_0_r.
      destruct (Nat.ltb_spec 0 il) as [I|I]; [|lia].
      destruct (Nat.ltb_spec il hs) as [I2|I2].
      * rewrite IH' by lia. rewrite Nat.sub_diag. replace (il - hs)%nat with 0%nat by lia. cbn [firstn skipn]. rewrite !app_nil_r. reflexivity.
      * rewrite IH' by nia. fold T. cbn [firstn skipn]. rewrite app_nil_r, <- app_assoc. rewrite (firstn_all2 (n := hs) b), (firstn_all2 (n := il) b) by lia. reflexivity.
Qed.
Theorem eb2k_value id pw salt kl il fuel : bytes pw -> bytes salt -> Z.of_nat (length pw) < M64 ->
  (kl + il <= fuel)%nat -> length salt = 0%nat \/ (8 <= length salt)%nat ->
  let T := eb2k_stream id pw (firstn 8 salt) (cover (hash_output_size id) (kl + il)) in
  eb2k_derive fuel id pw salt kl il = Some (Ok (firstn kl T, firstn il (skipn kl T))).
Proof.
  intros Hp Hs Lp Hf HL T. pose proof (osize id) as Ho. unfold eb2k_derive. cbv zeta.
  assert (E : firstn (if (8 <? length salt)%nat then 8%nat else length salt) salt = firstn 8 salt /\
    negb ((if (8 <? length salt)%nat then 8%nat else length salt) =? 0)%nat && negb ((if (8 <? length salt)%nat then 8%nat else length salt) =? 8)%nat = false).
  { destruct (Nat.ltb_spec 8 (length salt)); [split; reflexivity|]. split.
    - rewrite !firstn_all2 by lia. reflexivity.
    - destruct HL as [HL|HL]; [rewrite HL; reflexivity|]. replace (length salt) with 8%nat by lia. reflexivity. }
  destruct E as [E1 E2]. rewrite E1, E2. destruct (cover_bounds (hash_output_size id) (kl + il) ltac:(lia)) as [C1 [C2 C3]].
  refine (eb2k_loop_spec id pw (firstn 8 salt) Hp (bytes_firstn 8 salt Hs) Lp _ (cover (hash_output_size id) (kl + il)) fuel 0 kl il [] [] _ _).
  - rewrite firstn_length. unfold M64. lia.
  - destruct (Nat.eq_dec (kl + il) 0) as [E|E]; [rewrite (C3 E); lia|]. specialize (C2 ltac:(lia)). nia.
  - exact C1.
Qed.

(* ---- PGPDF ---- *)
Lemma feed_zeros_spec id n : forall m c, hrep id m c -> exists c', feed_zeros n id c = Ok c' /\ hrep id (m ++ repeat 0 n) c'.
Proof.
  induction n as [|n IH]; intros m c HR; cbn [feed_zeros repeat]; [rewrite app_nil_r; eauto|].
  destruct (hrep_update id m c [0] HR ltac:(reflexivity)) as [c1 [E1 R1]]. rewrite E1. cbn [bind].
  destruct (IH _ _ R1) as [c2 [E2 R2]]. exists c2. split; [exact E2|]. rewrite <- app_assoc in R2. exact R2.
Qed.
Lemma pre_ok id n m : bytes m -> length (H id (repeat 0 n ++ m)) = hash_output_size id.
Proof. intros Hm. apply H_ok. apply bytes_app. split; [apply bytes_zeros|auto]. Qed.
Theorem pgpdf_salted_value id pass salt len fuel : bytes pass -> bytes salt -> Z.of_nat (length pass) < M64 -> Z.of_nat (length salt) < M64 -> (len <= fuel)%nat ->
  pgpdf_derive_salted fuel id pass salt len = Some (Ok (s2k id (salt ++ pass) len)).
Proof.
  intros Hp Hs Lp Ls Hf. unfold pgpdf_derive_salted, s2k. pose proof (osize id) as Ho.
  destruct (cover_bounds (hash_output_size id) len ltac:(lia)) as [C1 [C2 C3]].
  rewrite (emit_while_spec _ (fun _ _ => True) (fun i => H id (repeat 0 i ++ salt ++ pass)) (hash_output_size id)) with (n := cover (hash_output_size id) len); auto.
  - lia.
  - intros i. apply pre_ok. apply bytes_app. auto.
  - intros i st _. exists tt. split; [|exact I]. unfold pgpdf_salted_body. f_equal.
    destruct (hrep_init id) as [c0 [E0 R0]]. rewrite E0. cbn [bind]. destruct (feed_zeros_spec id i _ _ R0) as [c1 [E1 R1]]. rewrite E1. cbn [bind].
    destruct (hrep_update id _ _ salt R1 Ls) as [c2 [E2 R2]]. rewrite E2. cbn [bind].
    destruct (hrep_update id _ _ pass R2 Lp) as [c3 [E3 R3]]. rewrite E3. cbn [bind].
    cbn [app] in R3. rewrite <- app_assoc in R3. rewrite (hrep_H id (repeat 0 i ++ salt ++ pass)); [reflexivity| |exact R3].
    apply bytes_app. split; [apply bytes_zeros|]. apply bytes_app. auto.
  - destruct (Nat.eq_dec len 0) as [E|E]; [rewrite (C3 E); lia|]. specialize (C2 ltac:(lia)). nia.
  - destruct (Nat.eq_dec len 0) as [E|E]; [right; auto|left; apply C2; lia].
Qed.

Lemma firstn_cycle (x : list Z) q : forall n k, (n < (q + 1) * length x)%nat -> (q * length x <= n)%nat -> (q < k)%nat \/ n = (k * length x)%nat ->
  firstn n (concat (repeat x k)) = concat (repeat x q) ++ firstn (n - q * length x) x.
Proof.
  induction q as [|q IH]; intros n k H1 H2 H3.
  - cbn [repeat concat app]. rewrite Nat.mul_0_l, Nat.sub_0_r. destruct k as [|k]; cbn [repeat concat].
    + destruct H3 as [|H3]; [lia|]. cbn in H3. subst n. reflexivity.
    + rewrite firstn_app. replace (n - length x)%nat with 0%nat by lia. cbn [firstn]. apply app_nil_r.
  - destruct k as [|k]; [destruct H3 as [|H3]; [lia|cbn in *; nia]|]. cbn [repeat concat]. rewrite firstn_app, firstn_all2 by nia.
    rewrite IH; [|nia|nia|destruct H3; [left; lia|right; nia]]. rewrite <- app_assoc. do 3 f_equal. nia.
Qed.
Lemma feed_repeat_spec id pass salt : Z.of_nat (length pass) < M64 -> Z.of_nat (length salt) < M64 ->
  forall q fuel rem m c, (q <= fuel)%nat -> hrep id m c ->
  let total := Z.of_nat (length salt) + Z.of_nat (length pass) in
  Z.of_nat q * total <= rem < (Z.of_nat q + 1) * total ->
  exists c', feed_repeat fuel id pass salt total rem c = Some (Ok (c', rem - Z.of_nat q * total)) /\ hrep id (m ++ concat (repeat (salt ++ pass) q)) c'.
Proof.
  intros Lp Ls q. induction q as [|q IH]; intros fuel rem m c Hf HR total Hr.
  - exists c. rewrite app_nil_r. split; [|exact HR]. destruct fuel; cbn [feed_repeat]; destruct (Z.leb_spec total rem); try lia; do 3 f_equal; lia.
  - destruct fuel as [|fuel]; [lia|]. cbn [feed_repeat]. destruct (Z.leb_spec total rem); [|nia].
    destruct (hrep_update id m c salt HR Ls) as [c1 [E1 R1]]. rewrite E1. cbn [bind].
    destruct (hrep_update id _ c1 pass R1 Lp) as [c2 [E2 R2]]. rewrite E2.
    destruct (IH fuel (rem - total) _ c2 ltac:(lia) R2 ltac:(fold total; lia)) as [c3 [E3 R3]]. fold total in E3. rewrite E3.
    exists c3. split; [do 3 f_equal; lia|]. cbn [repeat concat]. rewrite <- !app_assoc in R3. rewrite <- !app_assoc. exact R3.
Qed.
Theorem pgpdf_iterated_value id pass salt count len fuel : bytes pass -> bytes salt -> (0 < length salt + length pass)%nat ->
  Z.of_nat (length salt) + Z.of_nat (length pass) < M64 -> (len + count + length salt + length pass <= fuel)%nat ->
  pgpdf_derive_iterated fuel id pass salt (Z.of_nat count) len = Some (Ok (s2k_iterated id pass salt count len)).
Proof.
  intros Hp Hs Ht HL Hf. unfold pgpdf_derive_iterated. unfold w64. rewrite (Z.mod_small _ M64) by lia.
  set (total := Z.of_nat (length salt) + Z.of_nat (length pass)). cbv zeta.
  destruct (Z.ltb_spec total (Z.of_nat (length salt))) as [G0|G0]; [lia|].
  set (n := Nat.max count (length (salt ++ pass))).
  assert (En : (if Z.of_nat count <? total then total else Z.of_nat count) = Z.of_nat n).
  { unfold n, total. rewrite app_length. destruct (Z.ltb_spec (Z.of_nat count) (Z.of_nat (length salt) + Z.of_nat (length pass))); lia. }
  rewrite En. unfold s2k_iterated. fold n. cbv zeta. set (x := salt ++ pass) in *. assert (Lx : length x = (length salt + length pass)%nat) by (unfold x; apply app_length).
  set (q := (n / length x)%nat). pose proof (Nat.div_mod n (length x) ltac:(lia)) as Dm. fold q in Dm. pose proof (Nat.mod_upper_bound n (length x) ltac:(lia)) as Du.
  assert (Q1 : (q * length x <= n)%nat) by nia. assert (Q2 : (n < (q + 1) * length x)%nat) by nia.
  assert (HX : bytes x) by (apply bytes_app; auto).
  rewrite (firstn_cycle x q n n Q2 Q1) by (destruct (Nat.le_gt_cases 2 (length x)) as [G|G]; [left; nia|right; assert (length x = 1%nat) by lia; nia]).
  set (m := concat (repeat x q) ++ firstn (n - q * length x) x).
  assert (Hm : bytes m).
  { apply bytes_app. split; [|apply bytes_firstn; auto]. clear - HX. induction q as [|q IH]; cbn [repeat concat]; [constructor|]. apply bytes_app. auto. }
  pose proof (osize id) as Ho. destruct (cover_bounds (hash_output_size id) len ltac:(lia)) as [C1 [C2 C3]]. unfold s2k.
  assert (Hqn : (q <= n)%nat) by nia.
  rewrite (emit_while_spec _ (fun _ _ => True) (fun i => H id (repeat 0 i ++ m)) (hash_output_size id)) with (n := cover (hash_output_size id) len); auto.
  - lia.
  - intros i. apply pre_ok. auto.
  - intros i st _. exists tt. split; [|exact I]. unfold pgpdf_iterated_body.
    destruct (hrep_init id) as [c0 [E0 R0]]. rewrite E0. cbn [bind]. destruct (feed_zeros_spec id i _ _ R0) as [c1 [E1 R1]]. rewrite E1. cbn [app] in R1.
    destruct (feed_repeat_spec id pass salt ltac:(lia) ltac:(lia) q fuel (Z.of_nat n) _ c1 ltac:(lia) R1 ltac:(nia)) as [c2 [E2 R2]].
    fold total in E2. fold x in R2. rewrite E2. f_equal.
    set (rm := Z.of_nat n - Z.of_nat q * total) in *. assert (Erm : rm = Z.of_nat (n - q * length x)) by (unfold rm, total; nia).
    assert (F : exists c3, (if 0 <? rm then if Z.of_nat (length salt) <? rm
         then bind (hash_update id c2 salt) (fun c => hash_update id c (firstn (Z.to_nat (rm - Z.of_nat (length salt))) pass))
         else hash_update id c2 (firstn (Z.to_nat rm) salt) else Ok c2) = Ok c3 /\ hrep id (repeat 0 i ++ m) c3).
    { unfold m. set (w := (n - q * length x)%nat) in *. destruct (Z.ltb_spec 0 rm) as [G|G].
      - destruct (Z.ltb_spec (Z.of_nat (length salt)) rm) as [G2|G2].
        + destruct (hrep_update id _ c2 salt R2 ltac:(lia)) as [c3 [E3 R3]]. rewrite E3. cbn [bind].
          destruct (hrep_update id _ c3 (firstn (Z.to_nat (rm - Z.of_nat (length salt))) pass) R3 ltac:(rewrite firstn_length; lia)) as [c4 [E4 R4]].
          exists c4. split; [exact E4|]. rewrite <- !app_assoc in R4. unfold x. rewrite firstn_app, firstn_all2 by lia. fold x.
          replace (w - length salt)%nat with (Z.to_nat (rm - Z.of_nat (length salt))) by lia. exact R4.
        + destruct (hrep_update id _ c2 (firstn (Z.to_nat rm) salt) R2 ltac:(rewrite firstn_length; lia)) as [c3 [E3 R3]].
          exists c3. split; [exact E3|]. rewrite <- !app_assoc in R3. unfold x. rewrite firstn_app. fold x.
          replace (w - length salt)%nat with 0%nat by lia. replace w with (Z.to_nat rm) by lia.
          rewrite firstn_O, app_nil_r. exact R3.
      - exists c2. split; [reflexivity|]. replace w with 0%nat by lia. rewrite firstn_O, app_nil_r. exact R2. }
    destruct F as [c3 [E3 R3]]. rewrite E3. cbn [bind]. rewrite (hrep_H id (repeat 0 i ++ m)); [reflexivity| |exact R3].
    apply bytes_app. split; [apply bytes_zeros|auto].
  - destruct (Nat.eq_dec len 0) as [E|E]; [rewrite (C3 E); lia|]. specialize (C2 ltac:(lia)). nia.
  - destruct (Nat.eq_dec len 0) as [E|E]; [right; auto|left; apply C2; lia].
Qed.
(* empty salt and passphrase: the inner loop subtracts zero for ever *)
Lemma feed_repeat_diverges id rem fuel : 0 <= rem -> forall m c, hrep id m c -> feed_repeat fuel id [] [] 0 rem c = None.
Proof.
  intros Hr. induction fuel as [|fuel IH]; intros m c HR; cbn [feed_repeat]; destruct (Z.leb_spec 0 rem); try lia; [reflexivity|].
  destruct (hrep_update id m c [] HR ltac:(reflexivity)) as [c1 [E1 R1]]. rewrite E1. cbn [bind].
  destruct (hrep_update id _ c1 [] R1 ltac:(reflexivity)) as [c2 [E2 R2]]. rewrite E2. rewrite Z.sub_0_r. apply (IH _ _ R2).
Qed.
Theorem pgpdf_iterated_diverges id count len fuel : 0 <= count -> (0 < len)%nat -> pgpdf_derive_iterated fuel id [] [] count len = None.
Proof.
  intros Hc Hl. unfold pgpdf_derive_iterated. cbn [length Z.of_nat]. change (w64 (0 + 0)) with 0. cbn [Z.ltb Z.compare].
  destruct (Z.ltb_spec count 0); [lia|]. destruct fuel as [|fuel]; cbn [emit_while]; destruct (Nat.ltb_spec 0 len); try lia; [reflexivity|].
  unfold pgpdf_iterated_body at 1. destruct (hrep_init id) as [c0 [E0 R0]]. rewrite E0. cbn [bind feed_zeros].
  rewrite (feed_repeat_diverges id count (S fuel) Hc [] c0 R0). reflexivity.
Qed.
