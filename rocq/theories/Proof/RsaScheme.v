(* The exported RSA functions: what is signed verifies, what is encrypted decrypts, what is veiled unveils. *)
From Verif.Base Require Import Prelude.
From Coq Require Import Znumtheory.
From Verif.Model Require Import Encoding Bio Util Asn1 Hash NumTheory Rsa.
From Verif.Spec Require Import RsaSpec.
From Verif.Proof Require Import UtilProof RsaKey RsaCodec Cong RsaPrim RsaV15 RsaMgf.

Lemma ok_inj {A} (a b : A) : Ok a = Ok b -> a = b. Proof. congruence. Qed.

Definition key_of (key : list Z) (k : rsa_priv) : Prop := rsa_priv_import key = Some k /\ valid k.
Lemma key_of_verify key k : key_of key k -> rsa_priv_import key = Some k /\ rsa_priv_verify k = true.
Proof. intros [I V]. split; [exact I|apply priv_verify_spec; exact V]. Qed.

Lemma pubkey_create_spec key pub : rsa_pubkey_create key = Ok pub ->
  exists k, key_of key k /\ bytes pub /\ rsa_pub_import pub = Some (MkPub (kn k) (ke k)) /\ rsa_pub_verify (MkPub (kn k) (ke k)) = true.
Proof.
  unfold rsa_pubkey_create. destruct (rsa_priv_import key) as [k|] eqn:I; [|discriminate]. destruct (rsa_priv_verify k) eqn:V; [|discriminate]. cbn [negb].
  apply priv_verify_spec in V. pose proof (valid_big k V) as B. unfold priv_fields in B. inversion B as [|? ? B1 B']. inversion B' as [|? ? B2 _]. clear B B'.
  destruct (pub_roundtrip (kn k) (ke k) B1 B2) as (bs & E1 & E2 & E3). rewrite E1. intros E. apply ok_inj in E. subst pub. exists k. split; [split; assumption|]. split; [exact E2|]. split; [exact E3|].
  apply pub_verify_spec. apply valid_pub_of. exact V.
Qed.
Lemma pubkey_create_ok key k : key_of key k -> exists pub, rsa_pubkey_create key = Ok pub.
Proof.
  intros [I V]. unfold rsa_pubkey_create. rewrite I, (proj2 (priv_verify_spec k) V). cbn [negb]. pose proof (valid_big k V) as B. unfold priv_fields in B. inversion B as [|? ? B1 B']. inversion B' as [|? ? B2 _].
  destruct (pub_roundtrip (kn k) (ke k) B1 B2) as (bs & E1 & _). rewrite E1. eexists. reflexivity.
Qed.

Lemma valid_pub_facts n e : valid_pub n e -> 1 < n /\ 0 < e /\ (64 <= klen_of n <= 2048)%nat.
Proof.
  intros ([N1 N2] & [E1 E2] & _). destruct (pow_klen n N1) as [_ K].
  assert (K2 : (klen_of n <= 2048)%nat).
  { assert (N0 : 0 <= n) by (apply Z.le_trans with (2 ^ 511); [apply Z.pow_nonneg; clear; lia|exact N1]).
    assert (BL : mpz_bitlen n <= 16384) by (apply Z.leb_le; rewrite bitlen_le by (clear - N0; lia); apply Z.ltb_lt; exact N2).
    clear - BL. unfold klen_of, mpz_bytelen. assert ((mpz_bitlen n + 7) / 8 <= (16384 + 7) / 8) as D by (apply Z.div_le_mono; lia). change ((16384 + 7) / 8) with 2048 in D. lia. }
  split; [|split; [clear - E1; lia|split; assumption]]. apply Z.lt_le_trans with (2 ^ 511); [apply Z.lt_le_trans with (2 ^ 1); [reflexivity|apply Z.pow_le_mono_r; clear; lia]|exact N1].
Qed.
Lemma priv_facts k : valid k -> 1 < kn k /\ 0 < ke k /\ (64 <= klen_of (kn k) <= 2048)%nat.
Proof. intros V. apply valid_pub_facts. apply valid_pub_of. exact V. Qed.

(* ---- v1.5 signatures ---- *)
Definition hlen_of (t : option hash_id) (msg : list Z) : nat := match t with None => length msg | Some id => hash_output_size id end.
Lemma digest_info_bytes t : bytes (get_digest_info t).
Proof.
  unfold get_digest_info. apply bytes_firstn. assert (A : forallb (fun r => forallb (fun x => (0 <=? x) && (x <? 256)) r) digest_info = true) by (vm_compute; reflexivity).
  rewrite forallb_forall in A. assert (HI : In (nth (hash_index t) digest_info []) digest_info).
  { apply nth_In. destruct t as [id|]; [destruct id|]; cbn; lia. }
  specialize (A _ HI). rewrite forallb_forall in A. destruct (nth (hash_index t) digest_info []) as [|x r]; [constructor|]. cbn [tl]. apply Forall_forall. intros y Hy. specialize (A y (or_intror Hy)). unfold byte. lia.
Qed.
Lemma ex_some {A} (a : A) (P : A -> Prop) : (exists k, Some a = Some k /\ P k) <-> P a.
Proof. split; [intros (k & E & H); apply some_inj in E; subst k; exact H|intros H; exists a; split; [reflexivity|exact H]]. Qed.
Lemma ex_none {A} (P : A -> Prop) : (exists k, None = Some k /\ P k) <-> False.
Proof. split; [intros (k & E & _); discriminate|contradiction]. Qed.
Theorem verify_iff t msg sig key : bytes msg -> bytes sig ->
  (rsa_verify t msg sig key = true <->
   exists k, rsa_pub_import key = Some k /\ valid_pub (un k) (ue k) /\ length msg = hlen_of t msg /\ length sig = klen_of (un k) /\ be_val sig < un k /\
     emsa_v15 (klen_of (un k)) (get_digest_info t ++ msg) (be_bytes (klen_of (un k)) ((be_val sig ^ ue k) mod un k))).
Proof.
  intros Bm Bs. unfold rsa_verify. fold (hlen_of t msg). set (prefix := get_digest_info t). assert (Bp : bytes prefix) by apply digest_info_bytes. cbv zeta.
  destruct (rsa_pub_import key) as [[n e]|]; [rewrite ex_some|rewrite ex_none; destruct (negb _); split; [discriminate|contradiction|discriminate|contradiction]]. cbn [un ue].
  destruct (Nat.eqb_spec (length msg) (hlen_of t msg)) as [Lh|Lh]; cbn [negb]; [|split; [discriminate|intros (_ & L & _); contradiction]].
  destruct (rsa_pub_verify (MkPub n e)) eqn:V; cbn [negb]; [|split; [discriminate|intros (V' & _); apply pub_verify_spec in V'; congruence]].
  apply pub_verify_spec in V. destruct (valid_pub_facts n e V) as (N1 & E1 & K).
  destruct (Nat.eqb_spec (length sig) (klen_of n)) as [Ls|Ls]; cbn [negb]; [|split; [discriminate|intros (_ & _ & L & _); contradiction]].
  rewrite <- Lh. destruct (Nat.ltb_spec (klen_of n) (length prefix + length msg + 11)) as [Lt|Lt].
  { split; [discriminate|]. intros (_ & _ & _ & _ & PS & E & _ & L8 & L). exfalso. apply (f_equal (@length Z)) in E. rewrite L, !app_length in E. cbn [length] in E. fold prefix in E. lia. }
  destruct (Z.lt_ge_cases (be_val sig) n) as [Lv|Lv].
  2:{ assert (E : rsa_pub_encrypt (MkPub n e) sig = Fail).
      { unfold rsa_pub_encrypt. cbn [un ue]. destruct (Z.leb_spec n 0); [reflexivity|]. destruct (Z.leb_spec e 0); [reflexivity|]. cbn [orb]. destruct (Z.leb_spec n (be_val sig)); [reflexivity|]. exfalso. clear V. lia. }
      rewrite E. split; [discriminate|]. intros (_ & _ & _ & L & _). exfalso. clear V. lia. }
  rewrite encrypt_eq by assumption. set (em := be_bytes (klen_of n) ((be_val sig ^ e) mod n)).
  assert (Be : bytes em) by apply be_bytes_bytes. assert (Le : length em = klen_of n) by apply be_bytes_length. clearbody em.
  pose proof (v15_check_spec (klen_of n) prefix msg em Be Bp Bm Le Lt) as C. cbv zeta in C. rewrite C. rewrite v15_block_spec by exact Lt.
  split; [intros E; repeat (split; [assumption || reflexivity|]); exact E|]. intros (_ & _ & _ & _ & E). exact E.
Qed.

Theorem sign_verify t msg key draws sig pub : bytes msg -> rsa_sign t msg key draws = Ok sig -> rsa_pubkey_create key = Ok pub -> rsa_verify t msg sig pub = true.
Proof.
  intros Bm S P. destruct (pubkey_create_spec key pub P) as (k & [I V] & Bp & Ip & Vp). unfold rsa_sign in S. fold (hlen_of t msg) in S. cbv zeta in S.
  destruct (Nat.eqb_spec (length msg) (hlen_of t msg)) as [Lh|]; [|discriminate]. cbn [negb] in S. rewrite I in S. rewrite (proj2 (priv_verify_spec k) V) in S. cbn [negb] in S. rewrite <- Lh in S.
  destruct (Nat.ltb_spec (klen_of (kn k)) (length (get_digest_info t) + length msg + 11)) as [|Lt]; [discriminate|].
  assert (Bb : bytes (v15_block (klen_of (kn k)) (get_digest_info t) msg)) by (apply v15_block_bytes; [apply digest_info_bytes|exact Bm]).
  destruct (priv_facts k V) as (N1 & E1 & K). destruct (decrypt_fault_safe k _ draws sig N1 ltac:(clear - E1; lia) Bb S) as (F & L & B & LT).
  apply verify_iff; [exact Bm|exact B|]. exists (MkPub (kn k) (ke k)). split; [exact Ip|]. cbn [un ue]. split; [apply valid_pub_of; exact V|]. split; [exact Lh|]. split; [exact L|]. split; [exact LT|].
  rewrite F. apply v15_block_spec; [exact Lt|]. rewrite <- (be_bytes_be_val _ Bb) at 2. rewrite v15_block_length by exact Lt. reflexivity.
Qed.
Theorem sign_ok t msg key k draws : bytes msg -> key_of key k -> prime (kp k) -> prime (kq k) -> (exists s, In s draws /\ Z.gcd s (kn k) = 1) ->
  length msg = hlen_of t msg -> (length (get_digest_info t) + length msg + 11 <= klen_of (kn k))%nat -> exists sig, rsa_sign t msg key draws = Ok sig.
Proof.
  intros Bm [I V] Pp Pq D Lh Lt. unfold rsa_sign. fold (hlen_of t msg). cbv zeta. rewrite <- Lh, Nat.eqb_refl. cbn [negb]. rewrite I, (proj2 (priv_verify_spec k) V). cbn [negb].
  destruct (Nat.ltb_spec (klen_of (kn k)) (length (get_digest_info t) + length msg + 11)) as [Lx|_]; [clear - Lx Lt; lia|].
  assert (Bb : bytes (v15_block (klen_of (kn k)) (get_digest_info t) msg)) by (apply v15_block_bytes; [apply digest_info_bytes|exact Bm]).
  eexists. apply decrypt_correct; try assumption.
  (* the block starts with a zero byte *)
  unfold v15_block in *. cbn [app] in *. apply bytes_cons in Bb. destruct Bb as [_ Bb]. rewrite be_val_cons, Z.mul_0_l, Z.add_0_l. apply zero_block_lt; [apply V|exact Bb|].
  cbn [length]. rewrite app_length, repeat_length. cbn [length]. rewrite app_length. clear - Lt. lia.
Qed.

(* ---- v1.5 encryption ---- *)
Lemma roundtrip_val k em : valid k -> prime (kp k) -> prime (kq k) -> 0 <= em < kn k -> (((em ^ ke k) mod kn k) ^ kd k) mod kn k = em.
Proof.
  intros V Pp Pq R. destruct k as [n e d p q dp dq qi]. unfold valid in V. cbn [kn ke kd kp kq kdp kdq kqi] in *. pose proof (n_gt1 _ _ _ _ _ _ _ _ V) as N1.
  assert (He : 0 <= e) by (pose proof (proj1 (vp_e _ _ _ _ _ _ _ _ V)); lia). assert (Hd : 0 <= d) by (pose proof (proj1 (vp_d _ _ _ _ _ _ _ _ V)); lia).
  apply (eqm_small n); [apply Z.mod_pos_bound; lia|exact R|]. eapply eqm_trans; [apply eqm_mod|]. eapply eqm_trans; [apply eqm_pow; apply eqm_mod|].
  rewrite <- Z.pow_mul_r by assumption. eapply ed_id; eassumption.
Qed.
Lemma decrypt_of_encrypt k em c crt draws : valid k -> prime (kp k) -> prime (kq k) -> (exists s, In s draws /\ Z.gcd s (kn k) = 1) ->
  bytes em -> length em = klen_of (kn k) -> rsa_pub_encrypt (MkPub (kn k) (ke k)) em = Ok c -> length c = klen_of (kn k) /\ bytes c /\ rsa_priv_decrypt k c crt draws = Ok em.
Proof.
  intros V Pp Pq D Be Le E. destruct (priv_facts k V) as (N1 & E1 & K). apply encrypt_ok_iff in E; try assumption. destruct E as [Lt ->]. pose proof (be_val_range em Be) as R.
  set (x := (be_val em ^ ke k) mod kn k). assert (Rx : 0 <= x < kn k) by (apply Z.mod_pos_bound; clear - N1; lia).
  split; [apply be_bytes_length|]. split; [apply be_bytes_bytes|]. rewrite (decrypt_correct k _ crt draws V Pp Pq (be_bytes_bytes _ _)) by (try exact D; rewrite be_val_export by exact Rx; apply Rx).
  rewrite be_val_export by exact Rx. subst x. rewrite (roundtrip_val k (be_val em) V Pp Pq (conj (proj1 R) Lt)). rewrite <- Le, be_bytes_be_val by exact Be. reflexivity.
Qed.

Theorem encrypt_decrypt key pub k msg ps c draws : key_of key k -> prime (kp k) -> prime (kq k) -> (exists s, In s draws /\ Z.gcd s (kn k) = 1) -> rsa_pubkey_create key = Ok pub ->
  bytes msg -> bytes ps -> Forall (fun x => x <> 0) ps -> (length ps + length msg + 3 = klen_of (kn k))%nat ->
  rsa_encrypt msg pub ps = Ok c -> rsa_decrypt c key draws = Ok msg.
Proof.
  intros [I V] Pp Pq D P Bm Bps F L E. destruct (pubkey_create_spec key pub P) as (k' & [I' _] & _ & Ip & Vp). assert (k' = k) by congruence. subst k'.
  unfold rsa_encrypt in E. rewrite Ip, Vp in E. cbn [negb un] in E. cbv zeta in E. destruct (priv_facts k V) as (N1 & E1 & K).
  destruct (Nat.ltb_spec (klen_of (kn k)) 11); [discriminate|]. destruct (Nat.ltb_spec (klen_of (kn k) - 11) (length msg)); [discriminate|].
  set (em := [0; 2] ++ ps ++ [0] ++ msg) in *. assert (Be : bytes em) by (subst em; repeat (apply bytes_app; split); try assumption; repeat (apply bytes_cons; split); try apply bytes_nil; unfold byte; clear; lia).
  assert (Le : length em = klen_of (kn k)) by (subst em; rewrite !app_length; cbn [length]; clear - L; lia).
  destruct (decrypt_of_encrypt k em c true draws V Pp Pq D Be Le E) as (Lc & Bc & DE).
  unfold rsa_decrypt. rewrite I, (proj2 (priv_verify_spec k) V). cbn [negb]. cbv zeta. rewrite Lc, Nat.eqb_refl. cbn [negb]. destruct (Nat.ltb_spec (klen_of (kn k)) 11) as [Lx|_]; [clear - Lx K; lia|].
  rewrite DE. cbn [bind]. assert (EM : eme_v15 em msg) by (exists ps; split; [reflexivity|]; split; [exact F|]; clear - L H H0; lia).
  apply (unpad_spec em Be) in EM; [|rewrite Le; clear - K; lia|rewrite Le; change (2 ^ 30) with 1073741824; clear - K; lia]. destruct (pkcs1v15_unpad em) as [ok off]. destruct EM as [EM1 EM2]. rewrite EM1, <- EM2. reflexivity.
Qed.

(* soundness: the result is the message of a well-formed block whose e-th power is the ciphertext *)
Theorem decrypt_sound key k msg out draws : key_of key k -> bytes msg -> rsa_decrypt msg key draws = Ok out ->
  exists em, bytes em /\ length em = klen_of (kn k) /\ length msg = klen_of (kn k) /\ eme_v15 em out /\ (be_val em ^ ke k) mod kn k = be_val msg.
Proof.
  intros [I V] Bm. unfold rsa_decrypt. rewrite I, (proj2 (priv_verify_spec k) V). cbn [negb]. cbv zeta. destruct (Nat.eqb_spec (length msg) (klen_of (kn k))) as [Lm|]; [|discriminate]. cbn [negb].
  destruct (priv_facts k V) as (N1 & E1 & K). destruct (klen_of (kn k) <? 11)%nat; [discriminate|]. destruct (rsa_priv_decrypt k msg true draws) as [em| |] eqn:DE; try discriminate. cbn [bind].
  destruct (decrypt_fault_safe k msg draws em N1 ltac:(clear - E1; lia) Bm DE) as (F & L & B & LT). intros E. exists em. repeat (split; [assumption|]). split; [|exact F].
  apply (unpad_spec em B); [rewrite L; clear - K; lia|rewrite L; change (2 ^ 30) with 1073741824; clear - K; lia|]. destruct (pkcs1v15_unpad em) as [ok off]. destruct (ok =? 0); [discriminate|]. apply ok_inj in E. split; [reflexivity|symmetry; exact E].
Qed.

(* rsa_decrypt_key always returns a value: the message if the block is good and the length as asked, else the random one *)
Lemma unpad_range em ok off : bytes em -> (2 <= length em)%nat -> Z.of_nat (length em) < 2 ^ 30 -> pkcs1v15_unpad em = (ok, off) -> (ok = 0 \/ ok = 1) /\ 0 <= off <= Z.of_nat (length em).
Proof.
  intros Hb L2 LB. change (2 ^ 30) with 1073741824 in LB. destruct em as [|a em]; [cbn [length] in L2; lia|]. destruct em as [|b em]; [cbn [length] in L2; lia|].
  apply bytes_cons in Hb. destruct Hb as [Ba Hb]. apply bytes_cons in Hb. destruct Hb as [Bb Hb]. unfold pkcs1v15_unpad. cbn [nth skipn length] in *.
  rewrite unpad_loop_spec by (try assumption; change (2 ^ 31) with 2147483648; lia). rewrite !sec_equal_spec by (apply byte31; assumption || (unfold byte; lia)).
  replace (Z.land 1 (Z.b2z (a =? 0))) with (Z.b2z (a =? 0)) by (destruct (a =? 0); reflexivity). rewrite !land_b2z.
  destruct (first_zero em) as [j|] eqn:FZ.
  - assert (J : (j < length em)%nat). { apply first_zero_spec in FZ. destruct FZ as (x & y & -> & Lx & _). rewrite app_length. cbn [length]. lia. }
    change (Z.lxor 0 1) with (Z.b2z true). rewrite land_b2z, sec_lte_spec by (change (2 ^ 31) with 2147483648; lia). rewrite land_b2z.
    rewrite w32_small by (unfold M32; lia). rewrite cnd_select_spec by (change (2 ^ 32) with 4294967296; lia). intros E. apply pair_equal_spec in E. destruct E as [<- <-].
    match goal with |- context [Z.b2z ?b] => destruct b end; cbn [Z.b2z]; [change (1 =? 0) with false|change (0 =? 0) with true]; cbv iota; lia.
  - change (Z.lxor 1 1) with (Z.b2z false). rewrite land_b2z, andb_false_r. cbn [Z.b2z]. rewrite Z.land_0_l. rewrite w32_small by (unfold M32; lia). rewrite cnd_select_spec by (change (2 ^ 32) with 4294967296; lia). intros E. apply pair_equal_spec in E. destruct E as [<- <-]. cbv iota. rewrite Z.eqb_refl. lia.
Qed.
Lemma unpad_ok em ok off : bytes em -> (11 <= length em)%nat -> Z.of_nat (length em) < 2 ^ 30 -> pkcs1v15_unpad em = (ok, off) -> ok = 1 ->
  eme_v15 em (skipn (Z.to_nat off) em).
Proof. intros Hb L LB E ->. apply (unpad_spec em Hb L LB). rewrite E. split; reflexivity. Qed.
Lemma cnd_memcpy_spec x y c : length x = length y -> bytes x -> bytes y -> cnd_memcpy x y c = if c =? 0 then x else y.
Proof.
  intros L Bx. revert y L. unfold cnd_memcpy. induction Bx as [|a x Ha Bx IH]; intros [|b y] L By; try discriminate; [destruct (c =? 0); reflexivity|].
  apply bytes_cons in By. destruct By as [Hb By]. cbn [length] in L. cbn [map2]. rewrite IH by (try assumption; lia).
  assert (A : w8 (Z.lor (Z.land a (Z.lxor (if c =? 0 then 0 else 4294967295) 4294967295)) (Z.land b (if c =? 0 then 0 else 4294967295))) = if c =? 0 then a else b).
  { unfold byte in *. change (Z.lor (Z.land a (Z.lxor (if c =? 0 then 0 else 4294967295) 4294967295)) (Z.land b (if c =? 0 then 0 else 4294967295))) with (cnd_select a b c).
    rewrite cnd_select_spec by (change (2 ^ 32) with 4294967296; lia). unfold w8, M8. destruct (c =? 0); apply Z.mod_small; assumption. }
  rewrite A. destruct (c =? 0); reflexivity.
Qed.
Theorem decrypt_key_spec key k out msg draws r : key_of key k -> bytes out -> bytes msg -> rsa_decrypt_key out msg key draws = Ok r ->
  exists em, rsa_priv_decrypt k msg true draws = Ok em /\ (be_val em ^ ke k) mod kn k = be_val msg /\
    (forall m, eme_v15 em m -> length m = length out -> r = m) /\ ((forall m, eme_v15 em m -> length m <> length out) -> r = out).
Proof.
  intros [I V] Bo Bm. unfold rsa_decrypt_key. cbv zeta. destruct (_ <? Z.of_nat (length out)); [discriminate|]. rewrite I, (proj2 (priv_verify_spec k) V). cbn [negb].
  destruct (Nat.eqb_spec (length msg) (klen_of (kn k))) as [Lm|]; [|discriminate]. cbn [negb]. destruct (priv_facts k V) as (N1 & E1 & K).
  destruct (Nat.ltb_spec (klen_of (kn k)) (length out + 11)) as [|Lo]; [discriminate|]. destruct (rsa_priv_decrypt k msg true draws) as [em| |] eqn:DE; try discriminate. cbn [bind].
  destruct (decrypt_fault_safe k msg draws em N1 ltac:(clear - E1; lia) Bm DE) as (F & L & B & LT). clear V.
  destruct (pkcs1v15_unpad em) as [ok off] eqn:U. destruct (unpad_range em ok off B ltac:(lia) ltac:(change (2 ^ 30) with 1073741824; lia) U) as [Hok Hoff].
  rewrite cnd_memcpy_spec by (try assumption; try (apply bytes_skipn; assumption); rewrite skipn_length; lia).
  rewrite !w32_small by (unfold M32; lia). rewrite sec_equal_spec by (change (2 ^ 31) with 2147483648; lia).
  intros E. apply ok_inj in E. exists em. split; [reflexivity|]. split; [exact F|].
  assert (US := unpad_spec em B ltac:(lia) ltac:(change (2 ^ 30) with 1073741824; lia)). rewrite U in US.
  destruct Hok as [->| ->].
  - rewrite Z.land_0_l, Z.eqb_refl in E. split; [|intros _; symmetry; exact E]. intros m EM. apply US in EM. destruct EM as [X _]. discriminate X.
  - change 1 with (Z.b2z true) in E at 1. rewrite land_b2z in E. cbn [andb] in E. destruct (Z.eqb_spec (Z.of_nat (klen_of (kn k)) - off) (Z.of_nat (length out))) as [EL|EL]; cbn [Z.b2z] in E.
    + change (1 =? 0) with false in E. cbv iota in E. replace (klen_of (kn k) - length out)%nat with (Z.to_nat off) in E by lia. split.
      * intros m EM _. apply US in EM. destruct EM as [_ ->]. symmetry. exact E.
      * intros NO. exfalso. apply (NO (skipn (Z.to_nat off) em)); [apply US; split; reflexivity|]. rewrite skipn_length. lia.
    + change (0 =? 0) with true in E. cbv iota in E. split; [|intros _; symmetry; exact E]. intros m EM LM. apply US in EM. destruct EM as [_ ->]. rewrite skipn_length in LM. lia.
Qed.

(* ---- PSS ---- *)
Lemma be_val_inj a b : bytes a -> bytes b -> length a = length b -> be_val a = be_val b -> a = b.
Proof. intros Ba Bb L E. rewrite <- (be_bytes_be_val a Ba), <- (be_bytes_be_val b Bb), L, E. reflexivity. Qed.
Lemma be_val_zeros n l : be_val (repeat 0 n ++ l) = be_val l.
Proof. induction n as [|n IH]; [reflexivity|]. cbn [repeat app]. rewrite be_val_cons, IH. lia. Qed.
Section WithHash.
  Variable H : list Z -> list Z.
  Variable hlen : nat.
  Hypothesis Hpos : (0 < hlen)%nat.
  Hypothesis Hok : forall x, bytes x -> length (H x) = hlen /\ bytes (H x).

  (* the salt length the functions are asked for: automatic (0), the hash length, or itself *)
  Definition asked (salt_len : Z) : nat := Z.to_nat (if salt_len =? 0 then 0 else if salt_len =? SALT_HASH then Z.of_nat hlen else salt_len).

  Lemma emlen_cases n : 0 <= mpz_bitlen n - 1 -> let emlen := Z.to_nat ((mpz_bitlen n - 1 + 7) / 8) in
    (Z.land (mpz_bitlen n - 1) 7 = 0 /\ klen_of n = S emlen) \/ (Z.land (mpz_bitlen n - 1) 7 <> 0 /\ klen_of n = emlen).
  Proof.
    intros B. cbv zeta. unfold klen_of, mpz_bytelen. set (b := mpz_bitlen n - 1) in *. replace (mpz_bitlen n + 7) with (b + 8) by (subst b; lia). clearbody b.
    change 7 with (2 ^ 3 - 1) at 1 3. rewrite land_mask by lia. change (2 ^ 3) with 8.
    pose proof (Z.div_mod b 8 ltac:(lia)) as D. pose proof (Z.mod_pos_bound b 8 ltac:(lia)) as M. replace ((b + 8) / 8) with (b / 8 + 1) by (replace (b + 8) with (b + 1 * 8) by lia; rewrite Z.div_add by lia; reflexivity).
    destruct (Z.eq_dec (b mod 8) 0) as [E|E].
    - left. split; [exact E|]. replace ((b + 7) / 8) with (b / 8); [lia|]. apply (Z.div_unique _ _ _ 7); lia.
    - right. split; [exact E|]. replace ((b + 7) / 8) with (b / 8 + 1); [lia|]. apply (Z.div_unique _ _ _ (b mod 8 - 1)); lia.
  Qed.
  Lemma bitlen_range n : 2 ^ 511 <= n < 2 ^ 16384 -> 512 <= mpz_bitlen n <= 16384.
  Proof.
    intros [N1 N2]. assert (N0 : 0 <= n) by (apply Z.le_trans with (2 ^ 511); [apply Z.pow_nonneg; clear; lia|exact N1]). split.
    - apply Z.ltb_ge. rewrite bitlen_lt by (clear - N0; lia). apply Z.ltb_ge. exact N1.
    - apply Z.leb_le. rewrite bitlen_le by (clear - N0; lia). apply Z.ltb_lt. exact N2.
  Qed.

  Theorem verify_pss_iff msg sig key salt_len : 0 <= salt_len -> bytes msg -> bytes sig ->
    (rsa_verify_pss H hlen msg sig key salt_len = true <->
     exists k, rsa_pub_import key = Some k /\ valid_pub (un k) (ue k) /\ length msg = hlen /\ length sig = klen_of (un k) /\ be_val sig < un k /\
       let embits := mpz_bitlen (un k) - 1 in
       (hlen + asked salt_len + 2 <= Z.to_nat ((embits + 7) / 8))%nat /\
       exists salt em, bytes salt /\ bytes em /\ (salt_len = 0 \/ length salt = asked salt_len) /\ emsa_pss H hlen msg embits salt em /\ (be_val sig ^ ue k) mod un k = be_val em).
  Proof.
    intros S0 Bm Bs. unfold rsa_verify_pss. set (sl := if salt_len =? 0 then 0 else if salt_len =? SALT_HASH then Z.of_nat hlen else salt_len).
    assert (SL : 0 <= sl /\ (sl = 0 <-> salt_len = 0)).
    { subst sl. destruct (Z.eqb_spec salt_len 0); [lia|]. destruct (Z.eqb_spec salt_len SALT_HASH); lia. }
    replace (asked salt_len) with (Z.to_nat sl) by reflexivity. cbv zeta. clearbody sl.
    destruct (rsa_pub_import key) as [[n e]|]; [rewrite ex_some|rewrite ex_none; destruct (negb _); split; [discriminate|contradiction|discriminate|contradiction]]. cbn [un ue].
    destruct (Nat.eqb_spec (length msg) hlen) as [Lh|Lh]; cbn [negb]; [|split; [discriminate|intros (_ & L & _); contradiction]].
    destruct (rsa_pub_verify (MkPub n e)) eqn:V; cbn [negb]; [|split; [discriminate|intros (V' & _); apply pub_verify_spec in V'; congruence]].
    apply pub_verify_spec in V. destruct (valid_pub_facts n e V) as (N1 & E1 & K). pose proof (bitlen_range n (proj1 V)) as BR.
    change (Z.to_nat ((mpz_bitlen n + 7) / 8)) with (klen_of n).
    destruct (Nat.eqb_spec (length sig) (klen_of n)) as [Ls|Ls]; cbn [negb]; [|split; [discriminate|intros (_ & _ & L & _); contradiction]].
    pose proof (emlen_cases n ltac:(clear - BR; lia)) as EC. cbv zeta in EC. set (embits := mpz_bitlen n - 1) in *. set (emlen := Z.to_nat ((embits + 7) / 8)) in *.
    assert (KE : (emlen <= klen_of n)%nat) by (clear - EC; lia).
    destruct (Z.ltb_spec (Z.of_nat (klen_of n)) sl) as [Lk|Lk]; [split; [discriminate|]; intros (_ & _ & _ & _ & X & _); exfalso; clear - X Lk KE; lia|].
    destruct (Z.lt_ge_cases (be_val sig) n) as [Lv|Lv].
    2:{ assert (E : rsa_pub_encrypt (MkPub n e) sig = Fail).
        { unfold rsa_pub_encrypt. cbn [un ue]. destruct (Z.leb_spec n 0); [reflexivity|]. destruct (Z.leb_spec e 0); [reflexivity|]. cbn [orb]. destruct (Z.leb_spec n (be_val sig)) as [|G]; [reflexivity|]. exfalso. clear - G Lv. lia. }
        rewrite E. split; [discriminate|]. intros (_ & _ & _ & L & _). exfalso. clear - L Lv. lia. }
    rewrite encrypt_eq by assumption. set (v := (be_val sig ^ e) mod n). assert (Rv : 0 <= v < n) by (apply Z.mod_pos_bound; clear - N1; lia).
    pose proof (klen_range n v Rv) as Rk. set (em := be_bytes (klen_of n) v). assert (Be : bytes em) by apply be_bytes_bytes. assert (Le : length em = klen_of n) by apply be_bytes_length.
    assert (Ve : be_val em = v) by (apply be_val_export; exact Rv).
    (* the encoded message found in em *)
    assert (CORE : forall EM, bytes EM -> length EM = emlen -> be_val EM = v -> (pss_verify H hlen msg EM embits (Z.to_nat sl) = true <->
      (hlen + Z.to_nat sl + 2 <= emlen)%nat /\ exists salt em, bytes salt /\ bytes em /\ (salt_len = 0 \/ length salt = Z.to_nat sl) /\ emsa_pss H hlen msg embits salt em /\ v = be_val em)).
    { intros EM BE LE VE. rewrite pss_verify_iff; try assumption; [|clear - BR; lia]. fold emlen. split.
      - intros (L & salt & B1 & B2 & B3). split; [exact L|]. exists salt, EM. split; [exact B1|]. split; [exact BE|]. split; [clear - B2 SL; lia|]. split; [|symmetry; exact VE]. apply pss_encode_spec in B3; try assumption; [apply B3|clear - BR; lia].
      - intros (L & salt & EM' & B1 & B2 & B3 & B4 & B5). split; [exact L|]. exists salt. split; [exact B1|]. split; [clear - B3 SL; lia|]. apply pss_encode_spec; try assumption; [clear - BR; lia|]. split; [exact Lh|].
        assert (EM = EM') by (apply be_val_inj; try assumption; [rewrite LE; destruct B4 as (PS & _ & B4 & _); symmetry; exact B4|congruence]). subst EM'. exact B4. }
    assert (FIN : forall P, (P <-> (hlen + Z.to_nat sl + 2 <= emlen)%nat /\ exists salt em, bytes salt /\ bytes em /\ (salt_len = 0 \/ length salt = Z.to_nat sl) /\ emsa_pss H hlen msg embits salt em /\ v = be_val em) ->
      (P <-> valid_pub n e /\ hlen = hlen /\ klen_of n = klen_of n /\ be_val sig < n /\ (hlen + Z.to_nat sl + 2 <= emlen)%nat /\ exists salt em, bytes salt /\ bytes em /\ (salt_len = 0 \/ length salt = Z.to_nat sl) /\ emsa_pss H hlen msg embits salt em /\ v = be_val em)).
    { intros P ->. split; [intros X; repeat (split; [assumption || reflexivity|]); exact X|intros (_ & _ & _ & _ & X); exact X]. }
    rewrite Lh, Ls. apply FIN. clear FIN. destruct EC as [[E0 EK]|[E0 EK]].
    - rewrite E0, Z.eqb_refl. rewrite EK in Le. destruct em as [|x EM] eqn:Eem; [discriminate Le|]. cbn [length] in Le. apply Nat.succ_inj in Le. cbn [nth]. change (skipn 1 (x :: EM)) with EM.
      apply bytes_cons in Be. destruct Be as [Bx Be]. rewrite be_val_cons in Ve. destruct (Z.eqb_spec x 0) as [->|X0]; cbn [negb].
      + apply CORE; [exact Be|exact Le|]. clear - Ve. lia.
      + split; [discriminate|]. intros (_ & salt & EM' & B1 & B2 & B3 & (PS & _ & B4 & _) & B5). exfalso. pose proof (be_val_range EM' B2) as R. pose proof (be_val_range EM Be) as R2. fold emlen in B4. rewrite B4 in R. rewrite Le in *.
        clear - R R2 Ve B5 X0 Bx. unfold byte in Bx. set (P := 256 ^ Z.of_nat emlen) in *. clearbody P. nia.
    - destruct (Z.eqb_spec (Z.land embits 7) 0) as [X|_]; [contradiction|]. apply CORE; [exact Be|congruence|exact Ve].
  Qed.

  Theorem sign_pss_verify msg key salt_len salts draws sig pub : 0 <= salt_len -> bytes msg -> (forall l, length (salts l) = l /\ bytes (salts l)) ->
    rsa_sign_pss H hlen msg key salt_len salts draws = Ok sig -> rsa_pubkey_create key = Ok pub -> rsa_verify_pss H hlen msg sig pub salt_len = true.
  Proof.
    intros S0 Bm HS SG P. destruct (pubkey_create_spec key pub P) as (k & [I V] & Bp & Ip & Vp). unfold rsa_sign_pss in SG.
    destruct (Nat.eqb_spec (length msg) hlen) as [Lh|]; [|discriminate]. cbn [negb] in SG. rewrite I, (proj2 (priv_verify_spec k) V) in SG. cbn [negb] in SG.
    destruct (pss_salt_len hlen (kn k) salt_len) as [slen|] eqn:PL; [|discriminate]. destruct (HS slen) as [Lsalt Bsalt]. set (salt := salts slen) in *.
    destruct (pss_encode H hlen msg (mpz_bitlen (kn k) - 1) salt) as [em|] eqn:PE; [|discriminate].
    pose proof (bitlen_range (kn k) ltac:(apply V)) as BR. destruct (priv_facts k V) as (N1 & E1 & K).
    destruct (pss_encode_ok H hlen Hpos Hok msg (mpz_bitlen (kn k) - 1) salt em ltac:(clear - BR; lia) Bm Bsalt PE) as (Be & Le & _).
    destruct (decrypt_fault_safe k em draws sig N1 ltac:(clear - E1; lia) Be SG) as (F & L & B & LT).
    apply verify_pss_iff; [exact S0|exact Bm|exact B|]. exists (MkPub (kn k) (ke k)). split; [exact Ip|]. cbn [un ue]. split; [apply valid_pub_of; exact V|]. split; [exact Lh|]. split; [exact L|]. split; [exact LT|]. cbv zeta.
    apply pss_encode_spec in PE; try assumption; [|clear - BR; lia]. destruct PE as (_ & PE). assert (PE' := PE). destruct PE' as (_ & _ & _ & L2 & _).
    assert (AS : salt_len = 0 \/ slen = asked salt_len).
    { unfold pss_salt_len in PL. unfold asked. destruct (Z.eqb_spec salt_len 0) as [|_]; [left; assumption|right]. destruct (salt_len =? SALT_HASH); cbn [obind] in PL; destruct (_ <? _) in PL; try discriminate; apply some_inj in PL; symmetry; exact PL. }
    split.
    - destruct AS as [AS|AS]; [unfold asked; rewrite AS; cbn [Z.eqb Z.to_nat]; clear - L2; lia|]. rewrite <- AS, <- Lsalt. exact L2.
    - exists salt, em. split; [exact Bsalt|]. split; [exact Be|]. split; [rewrite Lsalt; exact AS|]. split; [exact PE|exact F].
  Qed.

  (* ---- OAEP ---- *)
  Theorem oaep_roundtrip key pub k msg label seed c draws : key_of key k -> prime (kp k) -> prime (kq k) -> (exists s, In s draws /\ Z.gcd s (kn k) = 1) -> rsa_pubkey_create key = Ok pub ->
    bytes msg -> bytes label -> bytes seed -> length seed = hlen ->
    rsa_encrypt_oaep H hlen msg pub label seed = Ok c -> rsa_decrypt_oaep H hlen c key label draws = Ok msg.
  Proof.
    intros [I V] Pp Pq D P Bm Bl Bs Ls E. destruct (pubkey_create_spec key pub P) as (k' & [I' _] & _ & Ip & Vp). assert (k' = k) by congruence. subst k'.
    unfold rsa_encrypt_oaep in E. rewrite Ip, Vp in E. cbn [negb un] in E. cbv zeta in E. destruct (priv_facts k V) as (N1 & E1 & K).
    destruct (Nat.ltb_spec (klen_of (kn k)) (2 * hlen + 2)) as [|L1]; [discriminate|]. destruct (Nat.ltb_spec (klen_of (kn k) - 2 * hlen - 2) (length msg)) as [|L2]; [discriminate|].
    assert (L3 : (2 * hlen + 2 + length msg <= klen_of (kn k))%nat) by (clear - L1 L2; lia).
    destruct (oaep_encode_ok H hlen Hpos Hok (klen_of (kn k)) label msg seed L3 Bl Bm Bs Ls) as (Be & Le & _). set (em := oaep_encode H hlen (klen_of (kn k)) label msg seed) in *.
    destruct (decrypt_of_encrypt k em c true draws V Pp Pq D Be Le E) as (Lc & Bc & DE).
    unfold rsa_decrypt_oaep. rewrite I, (proj2 (priv_verify_spec k) V). cbn [negb]. cbv zeta. rewrite Lc, Nat.eqb_refl. cbn [negb]. destruct (Nat.ltb_spec (klen_of (kn k)) (hlen * 2 + 2)) as [Lx|_]; [clear - Lx L1; lia|].
    rewrite DE. cbn [bind]. assert (X : oaep_decode H hlen em label = Some msg).
    { apply (oaep_decode_iff H hlen Hpos Hok); [exact Be|exact Bl|rewrite Le; exact L1|rewrite Le; change (2 ^ 31) with 2147483648; clear - K; lia|]. split; [exact Bm|]. exists seed. rewrite Le. repeat (split; [assumption|]). reflexivity. }
    rewrite X. reflexivity.
  Qed.
  Theorem oaep_sound key k msg label out draws : key_of key k -> bytes msg -> bytes label -> rsa_decrypt_oaep H hlen msg key label draws = Ok out ->
    exists em seed, bytes em /\ eme_oaep H hlen (klen_of (kn k)) label out seed em /\ (be_val em ^ ke k) mod kn k = be_val msg.
  Proof.
    intros [I V] Bm Bl. unfold rsa_decrypt_oaep. rewrite I, (proj2 (priv_verify_spec k) V). cbn [negb]. cbv zeta. destruct (Nat.eqb_spec (length msg) (klen_of (kn k))) as [Lm|]; [|discriminate]. cbn [negb].
    destruct (priv_facts k V) as (N1 & E1 & K). destruct (Nat.ltb_spec (klen_of (kn k)) (hlen * 2 + 2)) as [|L1]; [discriminate|].
    destruct (rsa_priv_decrypt k msg true draws) as [em| |] eqn:DE; try discriminate. cbn [bind].
    destruct (decrypt_fault_safe k msg draws em N1 ltac:(clear - E1; lia) Bm DE) as (F & L & B & LT). destruct (oaep_decode H hlen em label) as [m|] eqn:OD; [|discriminate]. intros E. apply ok_inj in E. subst m.
    apply (oaep_decode_iff H hlen Hpos Hok) in OD; [|exact B|exact Bl|rewrite L; clear - L1; lia|rewrite L; change (2 ^ 31) with 2147483648; clear - K; lia].
    destruct OD as (Bo & seed & Bsd & Lsd & L3 & E). exists em, seed. split; [exact B|]. split; [|exact F]. rewrite L in *. apply (oaep_encode_spec H hlen Hpos Hok); assumption.
  Qed.
End WithHash.

(* ---- veil ---- *)
Lemma veil_loop_spec c n vmax draws v : veil_loop draws c n vmax = Some v -> v < vmax /\ exists r, In r draws /\ v = c + r * n.
Proof.
  induction draws as [|r draws IH]; cbn [veil_loop]; [discriminate|]. cbv zeta. destruct (Z.leb_spec vmax (c + r * n)) as [|L].
  - intros E. destruct (IH E) as (L & r' & HI & Hr). split; [exact L|]. exists r'. split; [right; exact HI|exact Hr].
  - intros E. apply some_inj in E. subst v. split; [exact L|]. exists r. split; [left; reflexivity|reflexivity].
Qed.
Theorem veil_unveil msg bits key draws v : bytes msg -> Forall (fun r => 0 <= r) draws -> rsa_veil msg bits key draws = Ok v ->
  be_val v < 2 ^ bits /\ Z.of_nat (length v) = (bits + 7) / 8 /\ rsa_unveil v bits key = Ok msg /\ rsa_unveil v 0 key = Ok msg.
Proof.
  intros Bm FD. unfold rsa_veil, rsa_unveil. destruct (rsa_pub_import key) as [[n e]|]; [|discriminate]. destruct (rsa_pub_verify (MkPub n e)) eqn:V; [|discriminate]. cbn [negb un].
  apply pub_verify_spec in V. destruct (valid_pub_facts n e V) as (N1 & E1 & K). pose proof (bitlen_range n (proj1 V)) as BR. unfold valid_pub in V. destruct V as [_ V]. clear V.
  destruct (Z.eqb_spec (Z.of_nat (length msg)) (mpz_bytelen n)) as [Lm|]; [|discriminate]. cbn [negb]. unfold MAX_MOD_BITS, MAX_MOD_SIZE. destruct (Z.ltb_spec (16384 + 8) bits) as [|LB]; [discriminate|].
  unfold rsa_pub_veil, rsa_pub_unveil. cbn [un]. destruct (Z.ltb_spec bits (mpz_bitlen n)) as [|B1]; [discriminate|]. cbv zeta.
  destruct (Z.leb_spec n (be_val msg)) as [|C]; [discriminate|]. pose proof (be_val_range msg Bm) as RM.
  destruct (0 <? veil_rmax n (be_val msg) bits); [|discriminate]. cbn [negb]. destruct (veil_loop draws (be_val msg) n (2 ^ bits)) as [w|] eqn:VL; [|discriminate].
  destruct (veil_loop_spec _ _ _ _ _ VL) as (W1 & r & HI & W2). assert (R0 : 0 <= r) by (rewrite Forall_forall in FD; apply FD; exact HI).
  assert (W0 : 0 <= w) by (clear - R0 W2 RM N1; nia).
  destruct (Z.eqb_spec (w mod n) (be_val msg)) as [WM|]; [|discriminate]. cbn [negb]. assert (WB : mpz_bitlen w <=? bits = true) by (rewrite bitlen_le; [apply Z.ltb_lt; exact W1|clear - BR B1; lia|exact W0]). rewrite WB. cbn [negb].
  unfold mpz_export. assert (SB : (bits + 7) / 8 <? mpz_bytelen w = false) by (apply Z.ltb_ge; unfold mpz_bytelen; apply Z.div_le_mono; [clear; lia|]; apply Z.leb_le in WB; clear - WB; lia).
  rewrite SB. rewrite Z.abs_eq by exact W0. set (l := Z.to_nat ((bits + 7) / 8)). intros E. apply ok_inj in E. subst v.
  assert (BL0 : 0 <= (bits + 7) / 8) by (apply Z.div_pos; clear - BR B1; lia).
  assert (Vw : be_val (be_bytes l w) = w).
  { rewrite be_val_be_bytes. apply Z.mod_small. split; [exact W0|]. apply Z.lt_le_trans with (2 ^ bits); [exact W1|]. change 256 with (2 ^ 8). rewrite <- Z.pow_mul_r by (clear; lia). apply Z.pow_le_mono_r; [clear; lia|].
    subst l. rewrite Z2Nat.id by exact BL0. pose proof (Z.div_mod (bits + 7) 8 ltac:(clear; lia)) as DM. pose proof (Z.mod_pos_bound (bits + 7) 8 ltac:(clear; lia)) as MM. clear - DM MM. lia. }
  rewrite Vw, be_bytes_length. split; [exact W1|]. split; [subst l; rewrite Z2Nat.id by exact BL0; reflexivity|].
  assert (LK : (l <? klen_of n)%nat = false).
  { apply Nat.ltb_ge. subst l. unfold klen_of, mpz_bytelen. apply Z2Nat.inj_le; [apply Z.div_pos; clear - BR; lia|exact BL0|]. apply Z.div_le_mono; [clear; lia|clear - B1; lia]. }
  assert (LK2 : 2048 + 1 <? Z.of_nat l = false).
  { apply Z.ltb_ge. subst l. rewrite Z2Nat.id by exact BL0. change (2048 + 1) with ((16384 + 8 + 7) / 8). apply Z.div_le_mono; clear - LB; lia. }
  assert (EX : exported n (w mod n) = Ok msg).
  { rewrite exported_ok by (apply Z.mod_pos_bound; clear - N1; lia). rewrite WM. f_equal. replace (klen_of n) with (length msg); [apply be_bytes_be_val; exact Bm|]. unfold klen_of. rewrite <- Lm. symmetry. apply Nat2Z.id. }
  rewrite LK, LK2, EX. apply Z.leb_le in WB. split.
  - destruct (Z.ltb_spec (16384 + 8) bits) as [X|_]; [clear - X LB; lia|]. destruct (Z.ltb_spec bits (mpz_bitlen w)) as [X|_]; [clear - X WB; lia|]. rewrite andb_false_r. reflexivity.
  - reflexivity.
Qed.
(* and it succeeds with the first small enough candidate, of which 0 is one *)
Theorem veil_ok msg bits key k draws : bytes msg -> rsa_pub_import key = Some k -> valid_pub (un k) (ue k) -> length msg = klen_of (un k) -> be_val msg < un k -> mpz_bitlen (un k) <= bits <= 16392 ->
  Forall (fun r => 0 <= r) draws -> (exists r, In r draws /\ be_val msg + r * un k < 2 ^ bits) -> exists v, rsa_veil msg bits key draws = Ok v.
Proof.
  intros Bm I V Lm C HB FD HD. destruct k as [n e]. cbn [un ue] in *. destruct (valid_pub_facts n e V) as (N1 & E1 & K). pose proof (bitlen_range n (proj1 V)) as BR. unfold rsa_veil. rewrite I, (proj2 (pub_verify_spec n e) V). cbn [negb un].
  clear V. pose proof (be_val_range msg Bm) as RM. rewrite Lm. unfold klen_of at 1. rewrite Z2Nat.id by (unfold mpz_bytelen; apply Z.div_pos; clear - BR; lia). rewrite Z.eqb_refl. cbn [negb]. unfold MAX_MOD_BITS.
  destruct (Z.ltb_spec (16384 + 8) bits) as [X|_]; [clear - X HB; lia|]. unfold rsa_pub_veil. cbn [un]. destruct (Z.ltb_spec bits (mpz_bitlen n)) as [X|_]; [clear - X HB; lia|]. cbv zeta.
  destruct (Z.leb_spec n (be_val msg)) as [X|_]; [clear - X C; lia|].
  assert (VN : n < 2 ^ bits) by (apply Z.ltb_lt; rewrite <- bitlen_le by (clear - BR HB N1; lia); apply Z.leb_le, HB).
  assert (RX : 0 <? veil_rmax n (be_val msg) bits = true).
  { apply Z.ltb_lt. unfold veil_rmax. rewrite Z.quot_div_nonneg by (clear - VN C RM N1; lia). apply Z.div_str_pos. clear - VN C RM N1. lia. }
  rewrite RX. cbn [negb].
  assert (VS : exists w, veil_loop draws (be_val msg) n (2 ^ bits) = Some w).
  { destruct HD as (r & HI & Hr). clear - HI Hr. induction draws as [|x draws IH]; [destruct HI|]. cbn [veil_loop]. cbv zeta. destruct (Z.leb_spec (2 ^ bits) (be_val msg + x * n)) as [L|L]; [|eexists; reflexivity].
    destruct HI as [->|HI]; [exfalso; clear - L Hr; lia|]. apply IH. exact HI. }
  destruct VS as (w & VS). rewrite VS. destruct (veil_loop_spec _ _ _ _ _ VS) as (W1 & r & HI & W2). assert (R0 : 0 <= r) by (rewrite Forall_forall in FD; apply FD; exact HI).
  assert (W0 : 0 <= w) by (clear - R0 W2 RM N1; nia).
  assert (WM : w mod n = be_val msg) by (rewrite W2, Z.mod_add by (clear - N1; lia); apply Z.mod_small; split; [apply RM|exact C]). rewrite WM, Z.eqb_refl. cbn [negb].
  assert (WB : mpz_bitlen w <=? bits = true) by (rewrite bitlen_le; [apply Z.ltb_lt; exact W1|clear - BR HB; lia|exact W0]). rewrite WB. cbn [negb]. unfold mpz_export.
  assert (SB : (bits + 7) / 8 <? mpz_bytelen w = false) by (apply Z.ltb_ge; unfold mpz_bytelen; apply Z.div_le_mono; [clear; lia|]; apply Z.leb_le in WB; clear - WB; lia).
  rewrite SB. eexists. reflexivity.
Qed.
