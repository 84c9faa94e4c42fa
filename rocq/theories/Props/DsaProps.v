(* C63 C77: DSA. *)
From Verif.Base Require Import Prelude.
From Coq Require Import Znumtheory.
From Verif.Model Require Import Encoding Bio Asn1 Hash Drbg NumTheory Rsa Dsa.
From Verif.Spec Require Import HashSpec KdfSpec DrbgSpec DsaSpec.
From Verif.Proof Require Import RsaKey RsaCodec RsaPrim KdfProof DrbgProof DsaCodec Rfc6979 DsaProof.

(* a group with a 512-bit p and a 160-bit q *)
Definition ex_p : Z := 8133465783868717637559729678542019903777327927138318386375397722427716547111154295046431759972201578552098588053979424955632813416294467898250567126040053.
Definition ex_q : Z := 1224708678353690534618407679660981200927625709343.
Definition ex_g : Z := 4539077064893777708133981182090576700735314650741620572557669859696752162923427959783460078192695157167342121934486475079485134152230070301046940127532667.
Definition ex_y : Z := 3512654250385258040716204449466258465715069780103734992271316205432256575256035093753359781902220383304531427611051991689884798892498862149195527413788346.
Definition ex_k : dsa_priv := MkDPriv (MkGroup ex_p ex_q ex_g) ex_y 5.
Definition oget (o : option (list Z)) : list Z := match o with Some b => b | None => [] end.
Definition ex_key : list Z := oget (dsa_priv_export ex_k).
Definition ex_pub : list Z := oget (dsa_pubkey_create ex_key).

(* ---- C63 ---- *)
(* the integer of a message: the leftmost bits, reduced; the ASSERT never fires *)
Theorem C63_reduce msg q : 0 < q -> bytes msg -> dsa_reduce msg q = Ok (bits2int q msg mod q, bits2int q msg <? q).
Proof. apply dsa_reduce_spec. Qed.
(* exactly the signatures of FIPS 186-4 section 4.7 are accepted *)
Theorem C63_verify_exact msg sig key : bytes msg -> bytes sig -> bytes key ->
  (dsa_verify msg sig key = true <->
   exists k a b, dsa_pub_import key = Some k /\ sane_group (gp (pg k)) (gq (pg k)) (gg (pg k)) /\ 2 <= py k < gp (pg k) - 1 /\
     sig = a ++ b /\ length a = octs (gq (pg k)) /\ length b = octs (gq (pg k)) /\
     dsa_accepts (gp (pg k)) (gq (pg k)) (gg (pg k)) (py k) (bits2int (gq (pg k)) msg mod gq (pg k)) (be_val a) (be_val b)).
Proof.
  intros Bm Bs Bk. rewrite verify_iff by assumption. split; intros (k & a & b & H); exists k, a, b; unfold sane_pub in *; tauto.
Qed.
(* a signature is made with the first suitable RFC 6979 nonce, whatever the blinding *)
Theorem C63_sign_rfc6979 msg key k blinds sig : bytes msg -> bytes key -> dsa_priv_import key = Some k -> dsa_sign msg key blinds = Ok sig ->
  let p := gp (xg k) in let q := gq (xg k) in let g := gg (xg k) in let m := bits2int q msg mod q in
  let nonce := fun i => rfc_candidate SHA256 q i (rfc_init SHA256 (be_bytes (octs q) (xx k)) (be_bytes (octs q) m)) in
  exists n r s, 0 < nonce n < q /\ dsa_signs p q g (xx k) m (nonce n) r s /\ 0 < r < q /\ 0 < s < q /\
    (forall i, (i < n)%nat -> ~ (0 < nonce i < q /\ exists r' s', dsa_signs p q g (xx k) m (nonce i) r' s' /\ 0 < r' /\ 0 < s')) /\
    sig = be_bytes (octs q) r ++ be_bytes (octs q) s.
Proof.
  intros Bm Bk EI E. destruct (sign_spec msg key k blinds sig Bm Bk EI E) as (_ & n & r & s & H). exists n, r, s. exact H.
Qed.
(* so it does not depend on the blinding *)
Theorem C63_sign_deterministic msg key blinds blinds' sig sig' k : bytes msg -> bytes key -> dsa_priv_import key = Some k -> prime (gq (xg k)) ->
  dsa_sign msg key blinds = Ok sig -> dsa_sign msg key blinds' = Ok sig' -> sig = sig'.
Proof.
  intros Bm Bk EI Pq E E'. destruct (sign_spec msg key k blinds sig Bm Bk EI E) as (SP & n & r & s & K & D & R & S & N & ->).
  destruct (sign_spec msg key k blinds' sig' Bm Bk EI E') as (_ & n' & r' & s' & K' & D' & R' & S' & N' & ->).
  set (p := gp (xg k)) in *. set (q := gq (xg k)) in *. set (m := bits2int q msg mod q) in *. cbv beta in *.
  assert (G : good_nonce p q (gg (xg k)) (xx k) m (rfc_candidate SHA256 q n (nonce_state k m))) by (split; [exact K|exists r, s; split; [exact D|]; clear - R S; lia]).
  assert (G' : good_nonce p q (gg (xg k)) (xx k) m (rfc_candidate SHA256 q n' (nonce_state k m))) by (split; [exact K'|exists r', s'; split; [exact D'|]; clear - R' S'; lia]).
  assert (n = n'). { destruct (Nat.lt_trichotomy n n') as [H|[H|H]]; [contradiction (N' n H)|exact H|contradiction (N n' H)]. }
  subst n'. set (c := rfc_candidate SHA256 q n (nonce_state k m)) in *. clearbody c. destruct D as (-> & Hs & Es). destruct D' as (-> & Hs' & Es').
  f_equal. f_equal. apply (Cong.eqm_small q); try assumption. pose proof (prime_ge_2 q Pq) as Q2. apply (coprime_cancel q c); [clear - Q2; lia| |].
  - apply Zgcd_1_rel_prime. apply rel_prime_sym. apply prime_rel_prime; [exact Pq|]. intros X. apply Z.divide_pos_le in X; clear - X K; lia.
  - rewrite (Z.mul_comm c), (Z.mul_comm c). unfold eqm. rewrite Es, Es'. reflexivity.
Qed.
Theorem C63_sign_succeeds msg key k blinds n : bytes msg -> bytes key -> dsa_priv_import key = Some k -> dsa_priv_is_sane k = true -> prime (gq (xg k)) ->
  Forall (fun b => 0 <= b < gq (xg k)) blinds -> (n < length (filter (fun b => negb (b =? 0)%Z) blinds))%nat ->
  (let q := gq (xg k) in let m := bits2int q msg mod q in
   let nonce := rfc_candidate SHA256 q n (rfc_init SHA256 (be_bytes (octs q) (xx k)) (be_bytes (octs q) m)) in
   0 < nonce < q /\ exists r s, dsa_signs (gp (xg k)) q (gg (xg k)) (xx k) m nonce r s /\ 0 < r /\ 0 < s) ->
  exists sig, dsa_sign msg key blinds = Ok sig.
Proof.
  intros Bm Bk EI ES Pq F L G. destruct (dpriv_canonical key k Bk EI) as (_ & (_ & (Q0 & _) & _) & _ & (X0 & _)).
  apply (sign_succeeds msg key k blinds n); try assumption. apply priv_sane_iff; assumption.
Qed.
Theorem C63_sign_verify msg key k blinds sig pub : bytes msg -> bytes key -> dsa_priv_import key = Some k -> dsa_priv_verify k = true -> prime (gq (xg k)) ->
  dsa_sign msg key blinds = Ok sig -> dsa_pubkey_create key = Some pub -> dsa_verify msg sig pub = true.
Proof.
  intros Bm Bk EI EV. destruct (dpriv_canonical key k Bk EI) as (_ & (_ & (Q0 & _) & _) & _ & (X0 & _)). apply sign_verify; try assumption. apply priv_verify_iff; assumption.
Qed.
(* the shared secret *)
Theorem C63_derive_agree ka kb a b puba pubb : bytes ka -> bytes kb -> dsa_priv_import ka = Some a -> dsa_priv_import kb = Some b -> dsa_priv_verify a = true -> dsa_priv_verify b = true -> xg a = xg b ->
  dsa_pubkey_create ka = Some puba -> dsa_pubkey_create kb = Some pubb -> exists s, dsa_derive puba kb = Some s /\ dsa_derive pubb ka = Some s.
Proof.
  intros Ba Bb Ia Ib Va Vb. destruct (dpriv_canonical ka a Ba Ia) as (_ & (_ & (Q0 & _) & _) & _ & (X0 & _)). destruct (dpriv_canonical kb b Bb Ib) as (_ & (_ & (Q1 & _) & _) & _ & (X1 & _)).
  apply derive_agree; try assumption; apply priv_verify_iff; assumption.
Qed.
(* a derived secret comes from a public key in the subgroup *)
Theorem C63_derive_sound pub priv out : bytes pub -> bytes priv -> dsa_derive pub priv = Some out ->
  exists k1 k2, dsa_pub_import pub = Some k1 /\ dsa_priv_import priv = Some k2 /\ pg k1 = xg k2 /\ (py k1 ^ gq (pg k1)) mod gp (pg k1) = 1 /\ 2 <= py k1 < gp (pg k1) - 1 /\
    out = be_bytes (octs (gp (pg k1))) ((py k1 ^ xx k2) mod gp (pg k1)).
Proof.
  intros B1 B2 E. apply derive_spec in E; try assumption. destruct E as (k1 & k2 & A & B & C & _ & (_ & D1 & D2) & ->). exists k1, k2. auto 10.
Qed.
Example C63_verify_ex : dsa_verify (be_bytes 20 731923959462744103660049350616839176893843347822) (be_bytes 20 896185532426392913979502126964886518238437468329 ++ be_bytes 20 1060447105390041724298954903312933859583031588836) ex_pub = true /\
  dsa_verify (be_bytes 20 731923959462744103660049350616839176893843347822 ++ [1; 2; 3]) (be_bytes 20 896185532426392913979502126964886518238437468329 ++ be_bytes 20 1060447105390041724298954903312933859583031588836) ex_pub = true /\
  dsa_verify (be_bytes 20 731923959462744103660049350616839176893843347822) (be_bytes 20 896185532426392913979502126964886518238437468329 ++ be_bytes 20 (1060447105390041724298954903312933859583031588836 + ex_q)) ex_pub = false /\
  dsa_verify (be_bytes 20 (731923959462744103660049350616839176893843347822 + 1)) (be_bytes 20 896185532426392913979502126964886518238437468329 ++ be_bytes 21 1060447105390041724298954903312933859583031588836) ex_pub = false.
Proof. vm_compute. repeat split; reflexivity. Qed.
Example C63_reduce_ex : dsa_reduce [255; 255; 7] 700 = Ok (323, false) /\ dsa_reduce [1] 700 = Ok (1, true). Proof. vm_compute. split; reflexivity. Qed.

(* ---- C77 ---- *)
Theorem C77_priv_roundtrip k : 0 <= gq (xg k) -> 0 <= xx k -> dsa_priv_is_sane k = true ->
  (exists bs, dsa_priv_export k = Some bs /\ bytes bs /\ dsa_priv_import bs = Some k) /\
  (forall rest, exists bs, dsa_priv_export_dumb k = Some bs /\ dsa_priv_import_dumb (bs ++ rest) = Some k).
Proof.
  intros Q X S. apply priv_sane_iff in S; try assumption. destruct (priv_big k S) as (B1 & B2 & B3). split; [apply dpriv_roundtrip; assumption|]. intros rest. apply dpriv_dumb_roundtrip; assumption.
Qed.
Theorem C77_pub_roundtrip k : 0 <= gq (pg k) -> dsa_pub_is_sane k = true ->
  (exists bs, dsa_pub_export k = Some bs /\ bytes bs /\ dsa_pub_import bs = Some k) /\ (forall rest, exists bs, dsa_pub_export_dumb k = Some bs /\ dsa_pub_import_dumb (bs ++ rest) = Some k).
Proof.
  intros Q S. apply pub_sane_iff in S; try assumption. destruct (pub_big k S) as (B1 & B2). split; [apply pub_roundtrip; assumption|]. intros rest. apply dpub_dumb_roundtrip; assumption.
Qed.
Theorem C77_group_roundtrip g : 0 <= gq g -> dsa_group_is_sane g = true ->
  (exists bs, dsa_group_export g = Some bs /\ bytes bs /\ dsa_group_import bs = Some g) /\ (forall rest, exists bs, dsa_group_export_dumb g = Some bs /\ dsa_group_import_dumb (bs ++ rest) = Some g).
Proof.
  intros Q S. apply group_sane_iff in S; try assumption. pose proof (sane_big _ _ _ S) as B. split; [apply group_roundtrip; exact B|]. intros rest. apply group_dumb_roundtrip; exact B.
Qed.
Theorem C77_canonical data : bytes data ->
  (forall k, dsa_priv_import data = Some k -> dsa_priv_export k = Some data) /\ (forall k, dsa_pub_import data = Some k -> dsa_pub_export k = Some data) /\ (forall g, dsa_group_import data = Some g -> dsa_group_export g = Some data).
Proof. intros B. split; [|split]; intros k E; [apply (dpriv_canonical data k B E)|apply (pub_canonical data k B E)|apply (group_canonical data k B E)]. Qed.
Theorem C77_sig_convert sig n : bytes sig -> (0 < n <= 32)%nat -> length sig = (2 * n)%nat -> exists der, dsa_sig_export sig n = Some der /\ bytes der /\ dsa_sig_import der n = Some sig.
Proof. apply sig_export_import. Qed.
Theorem C77_sig_convert_back der n sig : bytes der -> (0 < n <= 32)%nat -> dsa_sig_import der n = Some sig -> dsa_sig_export sig n = Some der.
Proof. apply sig_import_export. Qed.
Theorem C77_privkey_import key out : bytes key -> dsa_privkey_import key = Some out ->
  exists k0 k, dsa_priv_import_dumb key = Some k0 /\ dsa_priv_import out = Some k /\ xg k = xg k0 /\ xx k = xx k0 /\ 0 < xx k < gq (xg k) /\
    (xy k0 = 0 -> xy k = (gg (xg k) ^ xx k) mod gp (xg k)) /\ (xy k0 <> 0 -> xy k = xy k0).
Proof.
  intros B E. destruct (privkey_import_spec key out B E) as (k0 & k & A1 & A2 & A3 & A4 & A5 & A6 & A7). exists k0, k. repeat (split; [assumption|]).
  destruct (Z.eqb_spec (xy k0) 0); split; intros H; try contradiction; [exact A7|apply A7].
Qed.
(* what the checks mean *)
Theorem C77_group_check g : 0 <= gq g -> (dsa_group_verify g = true <-> good_group (gp g) (gq g) (gg g)).
Proof. apply group_verify_iff. Qed.
Theorem C77_priv_check k : 0 <= gq (xg k) -> 0 <= xx k -> (dsa_priv_verify k = true <->
  good_group (gp (xg k)) (gq (xg k)) (gg (xg k)) /\ 2 <= xy k < gp (xg k) - 1 /\ 0 < xx k < gq (xg k) /\ (gg (xg k) ^ xx k) mod gp (xg k) = xy k).
Proof.
  intros Q X. rewrite priv_verify_iff by assumption. unfold good_priv, sane_priv, sane_pub, good_group. cbn [pg py dsa_pub_roset_priv]. tauto.
Qed.
(* generated groups and keys pass the full checks, for every primality test that accepts only primes *)
Theorem C77_generate isprime bits raw fuel g : (forall n, isprime n = true -> prime n) ->
  Forall (fun r => 0 <= fst r < 2 ^ 256) raw -> (bits < 2048 -> Forall (fun r => 0 <= fst r < 2 ^ 160) raw) -> Z.of_nat fuel < 2 ^ 512 ->
  dsa_group_generate isprime bits raw fuel = Ok g ->
  prime (gp g) /\ prime (gq g) /\ (gq g | gp g - 1) /\ bits <= mpz_bitlen (gp g) /\ dsa_group_verify g = true.
Proof.
  intros IP F1 F2 Hf E. destruct (generate_good isprime IP bits raw fuel g F1 F2 Hf E) as (A & B & C & D & G). repeat (split; [assumption|]). apply group_verify_iff; [|exact G]. apply prime_ge_2 in B. lia.
Qed.
Theorem C77_create g draws k : dsa_group_verify g = true -> prime (gp g) -> prime (gq g) -> Forall (fun x => 0 <= x < gq g) draws -> dsa_priv_create g draws = Ok k -> dsa_priv_verify k = true /\ xg k = g.
Proof.
  intros V Pp Pq F E. pose proof (prime_ge_2 _ Pq) as Q2. apply group_verify_iff in V; [|lia]. destruct (create_good g draws k V Pp Pq F E) as [G EG]. split; [|exact EG]. apply priv_verify_iff; [rewrite EG; lia| |exact G].
  destruct G as ((_ & X) & _). lia.
Qed.
Example C77_ex : dsa_priv_import ex_key = Some ex_k /\ dsa_priv_is_sane ex_k = true /\ (200 < length ex_key)%nat /\
  (match dsa_priv_export_dumb (MkDPriv (xg ex_k) 0 5) with Some b => dsa_privkey_import b = Some ex_key | None => False end) /\
  dsa_sig_export [0; 1; 200; 3] 2 = Some [48; 8; 2; 1; 1; 2; 3; 0; 200; 3] /\ dsa_sig_import [48; 8; 2; 1; 1; 2; 3; 0; 200; 3] 2 = Some [0; 1; 200; 3].
Proof. vm_compute. repeat split; try reflexivity. repeat constructor. Qed.

(* the axioms of every theorem above, listed at once *)
Definition DsaProps_all := (@C63_reduce, @C63_verify_exact, @C63_sign_rfc6979, @C63_sign_deterministic, @C63_sign_succeeds, @C63_sign_verify,
  @C63_derive_agree, @C63_derive_sound, @C77_priv_roundtrip, @C77_pub_roundtrip, @C77_group_roundtrip, @C77_canonical, @C77_sig_convert, @C77_sig_convert_back,
  @C77_privkey_import, @C77_group_check, @C77_priv_check, @C77_generate, @C77_create).
Print Assumptions DsaProps_all.
