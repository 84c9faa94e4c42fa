(* The RSA primitives: fault safety for every key, correctness for prime factors. *)
From Coq Require Import Znumtheory Zpow_facts.
From Verif.Base Require Import Prelude.
From Verif.Model Require Import Encoding Bio Asn1 Hash NumTheory Rsa.
From Verif.Spec Require Import RsaSpec.
From Verif.Proof Require Import Asn1Proof NumInv RsaKey Cong.

Lemma powm_eq x e n : n <> 0 -> powm x e n = (x ^ e) mod n. Proof. apply Zpow_mod_correct. Qed.

Lemma bytelen_val n : 0 <= n -> n < 256 ^ mpz_bytelen n.
Proof. intros Hn. apply mpz_bytelen_val. exact Hn. Qed.
Lemma bytelen_mono m n : 0 <= m <= n -> mpz_bytelen m <= mpz_bytelen n.
Proof.
  intros H. unfold mpz_bytelen. apply Z.div_le_mono; [lia|]. apply Z.add_le_mono_r. apply Z.leb_le.
  assert (B : 0 <= mpz_bitlen n) by (unfold mpz_bitlen; destruct (n =? 0); [lia|pose proof (Z.log2_nonneg (Z.abs n)); lia]).
  rewrite bitlen_le by lia. apply Z.ltb_lt. apply Z.le_lt_trans with n; [lia|].
  apply Z.ltb_lt. rewrite <- bitlen_le by lia. apply Z.leb_refl.
Qed.
Lemma exported_ok n m : 0 <= m < n -> exported n m = Ok (be_bytes (klen_of n) m).
Proof.
  intros H. unfold exported, mpz_export. destruct (Z.ltb_spec (mpz_bytelen n) (mpz_bytelen m)) as [L|_]; [pose proof (bytelen_mono m n); lia|].
  rewrite Z.abs_eq by lia. reflexivity.
Qed.
Lemma klen_range n m : 0 <= m < n -> 0 <= m < 256 ^ Z.of_nat (klen_of n).
Proof.
  intros H. unfold klen_of. pose proof (mpz_bytelen_val n ltac:(lia)) as [B1 B2]. rewrite Z2Nat.id by exact B1. lia.
Qed.
Lemma be_val_export n m : 0 <= m < n -> be_val (be_bytes (klen_of n) m) = m.
Proof. intros H. rewrite be_val_be_bytes. apply Z.mod_small. apply klen_range. exact H. Qed.

Lemma blinding_spec draws n s bi : 1 < n -> blinding draws n = Some (s, bi) -> s * bi ≡ 1 ⟦ n ⟧ /\ 0 <= bi < n.
Proof.
  intros Hn. induction draws as [|x draws IH]; cbn [blinding]; [discriminate|].
  pose proof (invert_spec x n Hn) as I. destruct (invert x n) as [z|]; [|exact IH]. intros E. apply some_inj in E. injection E as -> ->.
  destruct I as (_ & R & M). split; [|exact R]. unfold eqm. rewrite M. rewrite Z.mod_small; lia.
Qed.
Lemma blinding_some draws n : 1 < n -> (exists s, In s draws /\ Z.gcd s n = 1) -> exists s bi, blinding draws n = Some (s, bi).
Proof.
  intros Hn (s0 & Hin & G). induction draws as [|x draws IH]; [destruct Hin|]. cbn [blinding].
  pose proof (invert_spec x n Hn) as I. destruct (invert x n) as [z|]; [exists x, z; reflexivity|].
  destruct Hin as [->|Hin]; [contradiction|]. apply IH. exact Hin.
Qed.

(* nothing is released unless its e-th power is the input: for any exponents and factors *)
Lemma decrypt_fault_safe k msg draws out : 1 < kn k -> 0 <= ke k -> bytes msg -> rsa_priv_decrypt k msg true draws = Ok out ->
  (be_val out ^ ke k) mod kn k = be_val msg /\ length out = klen_of (kn k) /\ bytes out /\ be_val out < kn k.
Proof.
  intros Hn He Hb. unfold rsa_priv_decrypt. pose proof (be_val_range msg Hb) as R.
  destruct ((kn k <=? 0) || (kd k <=? 0)); [discriminate|]. destruct ((kd k <=? 0) || negb (Z.odd (kn k))); [discriminate|].
  destruct ((kdp k <=? 0) || negb (Z.odd (kp k))); [discriminate|]. destruct ((kdq k <=? 0) || negb (Z.odd (kq k))); [discriminate|].
  destruct (Z.leb_spec (kn k) (be_val msg)) as [|C]; [discriminate|].
  destruct (blinding draws (kn k)) as [[s bi]|] eqn:B; [|discriminate]. destruct (blinding_spec _ _ _ _ Hn B) as [S1 _].
  cbn [andb]. set (m := rsa_crt k _). destruct (Z.eqb_spec (powm m (ke k) (kn k)) ((be_val msg * powm s (ke k) (kn k)) mod kn k)) as [E|]; [|discriminate].
  cbn [negb]. pose proof (Z.mod_pos_bound (m * bi) (kn k) ltac:(lia)) as MB. rewrite exported_ok by lia. intros X. assert (X' : be_bytes (klen_of (kn k)) ((m * bi) mod kn k) = out) by congruence. subst out. clear X.
  rewrite be_val_export by lia. split; [|split; [apply be_bytes_length|split; [apply be_bytes_bytes|lia]]].
  rewrite <- (Z.mod_small (be_val msg) (kn k)) by lia. change ((m * bi) mod kn k) with ((m * bi) mod kn k).
  assert (G : ((m * bi) mod kn k) ^ ke k ≡ be_val msg ⟦ kn k ⟧); [|exact G].
  rewrite !powm_eq in E by lia.
  eapply eqm_trans; [apply eqm_pow, eqm_mod|]. rewrite Z.pow_mul_l.
  eapply eqm_trans; [apply eqm_mul; [|apply eqm_refl]|].
  { apply eqm_trans with (be_val msg * (s ^ ke k mod kn k)); [exact E|].
    apply eqm_mul; [apply eqm_refl|apply eqm_mod]. }
  rewrite <- Z.mul_assoc, <- Z.pow_mul_l. eapply eqm_trans; [apply eqm_mul; [apply eqm_refl|apply eqm_pow, S1]|].
  rewrite Z.pow_1_l by exact He. rewrite Z.mul_1_r. apply eqm_refl.
Qed.

Section Prime.
  Variables n e d p q dp dq qi : Z.
  Hypothesis V : valid_priv n e d p q dp dq qi.
  Hypothesis Pp : prime p.
  Hypothesis Pq : prime q.

  Lemma n_gt1 : 1 < n.
  Proof. destruct V as [En _ _ [P1 _] [Q1 _] _ _ _ _ _ _]. rewrite En. nia. Qed.
  Lemma pq_coprime : rel_prime p q.
  Proof.
    apply prime_rel_prime; [exact Pp|]. intros D. destruct V as [_ _ _ [P1 _] [Q1 _] PQ _ _ _ _ _].
    apply prime_div_prime in D; [contradiction|exact Pp|exact Pq].
  Qed.
  (* x^(e d) = x modulo n *)
  Lemma ed_id x : x ^ (e * d) ≡ x ⟦ n ⟧.
  Proof.
    destruct V as [En _ [[E1 _] _] [P1 _] [Q1 _] _ [D1 _] ED _ _ _]. rewrite En.
    assert (Q : forall r, prime r -> 3 <= r -> (r - 1 | Z.lcm (p - 1) (q - 1)) -> x ^ (e * d) ≡ x ⟦ r ⟧).
    { intros r Pr Hr D. rewrite <- (Z.pow_1_r x) at 2. apply fermat_exp; [exact Pr|nia|lia|]. apply eqm_iff; [lia|]. eapply Z.divide_trans; eassumption. }
    apply eqm_crt; [lia|lia|apply pq_coprime| |]; apply Q; try assumption; [apply Z.divide_lcm_l|apply Z.divide_lcm_r].
  Qed.
  Lemma crt_value c : rsa_crt (MkPriv n e d p q dp dq qi) c = (c ^ d) mod n.
  Proof.
    pose proof n_gt1 as N1. destruct V as [En _ _ [P1 _] [Q1 _] _ [D1 _] _ [DP1 DP2] [DQ1 DQ2] [_ QI]]. unfold rsa_crt. cbn [kn kp kq kdp kdq kqi].
    rewrite !powm_eq by lia.
    pose proof (Z.mod_pos_bound (((c ^ dp mod p - c ^ dq mod q) * qi) mod p * q + c ^ dq mod q) n ltac:(lia)).
    pose proof (Z.mod_pos_bound (c ^ d) n ltac:(lia)).
    apply (eqm_small n); [assumption|assumption|]. apply eqm_trans with (((c ^ dp mod p - c ^ dq mod q) * qi) mod p * q + c ^ dq mod q); [apply eqm_mod|].
    apply eqm_trans with (c ^ d); [|apply eqm_sym, eqm_mod]. rewrite En.
    apply eqm_crt; [lia|lia|apply pq_coprime| |].
    - apply eqm_trans with (c ^ dp mod p - c ^ dq mod q + c ^ dq mod q).
      + apply eqm_add; [|apply eqm_refl]. eapply eqm_trans; [apply eqm_mul; [apply eqm_mod|apply eqm_refl]|].
        rewrite <- Z.mul_assoc. rewrite <- (Z.mul_1_r (c ^ dp mod p - c ^ dq mod q)) at 2. apply eqm_mul; [apply eqm_refl|].
        apply eqm_iff; [lia|]. rewrite (Z.mul_comm qi). exact QI.
      + replace (c ^ dp mod p - c ^ dq mod q + c ^ dq mod q) with (c ^ dp mod p) by lia. eapply eqm_trans; [apply eqm_mod|].
        apply fermat_exp; [exact Pp|exact DP2|lia|]. rewrite DP1. apply eqm_mod.
    - apply eqm_trans with (0 + c ^ dq).
      + apply eqm_add; [|apply eqm_mod]. apply eqm_0; [lia|]. apply Z.divide_factor_r.
      + rewrite Z.add_0_l. apply fermat_exp; [exact Pq|exact DQ2|lia|]. rewrite DQ1. apply eqm_mod.
  Qed.
End Prime.

Lemma decrypt_correct k msg crt draws : valid k -> prime (kp k) -> prime (kq k) -> bytes msg -> be_val msg < kn k ->
  (exists s, In s draws /\ Z.gcd s (kn k) = 1) ->
  rsa_priv_decrypt k msg crt draws = Ok (be_bytes (klen_of (kn k)) ((be_val msg ^ kd k) mod kn k)).
Proof.
  intros V Pp Pq Hb C HD. pose proof (be_val_range msg Hb) as R. destruct k as [n e d p q dp dq qi]. unfold valid in V. cbn [kn ke kd kp kq kdp kdq kqi] in *.
  pose proof (n_gt1 _ _ _ _ _ _ _ _ V) as N1. unfold rsa_priv_decrypt. cbn [kn ke kd kp kq kdp kdq kqi].
  assert (V' := V). destruct V' as [En _ [[E1 _] _] [P1 P2] [Q1 Q2] _ [D1 _] _ [_ DP2] [_ DQ2] _].
  assert (On : Z.odd n = true) by (rewrite En; apply odd_mul_odd; assumption).
  destruct (Z.leb_spec n 0) as [|_]; [lia|]. destruct (Z.leb_spec d 0) as [|_]; [lia|]. destruct (Z.leb_spec dp 0) as [|_]; [lia|]. destruct (Z.leb_spec dq 0) as [|_]; [lia|].
  rewrite On, P2, Q2. cbn [negb orb]. destruct (Z.leb_spec n (be_val msg)) as [|_]; [lia|].
  destruct (blinding_some draws n N1 HD) as (s & bi & B). rewrite B. destruct (blinding_spec _ _ _ _ N1 B) as [S1 S2].
  rewrite !powm_eq by lia. rewrite (crt_value _ _ _ _ _ _ _ _ V Pp Pq). set (c := (be_val msg * (s ^ e mod n)) mod n).
  assert (Em : (if crt then (c ^ d) mod n else (c ^ d) mod n) = (c ^ d) mod n) by (destruct crt; reflexivity). rewrite Em.
  assert (Chk : (((c ^ d) mod n) ^ e) mod n = c).
  { assert (Cr : 0 <= c < n) by (apply Z.mod_pos_bound; lia). rewrite <- (Z.mod_small c n) at 2 by exact Cr.
    change (((c ^ d) mod n) ^ e ≡ c ⟦ n ⟧). eapply eqm_trans; [apply eqm_pow, eqm_mod|]. rewrite <- Z.pow_mul_r by lia. rewrite Z.mul_comm.
    apply (ed_id _ _ _ _ _ _ _ _ V Pp Pq). }
  rewrite Chk, Z.eqb_refl. cbn [negb]. rewrite andb_false_r.
  pose proof (Z.mod_pos_bound (((c ^ d) mod n) * bi) n ltac:(lia)) as MB. rewrite exported_ok by exact MB. f_equal. f_equal.
  change ((c ^ d) mod n * bi ≡ be_val msg ^ d ⟦ n ⟧). eapply eqm_trans; [apply eqm_mul; [apply eqm_mod|apply eqm_refl]|].
  eapply eqm_trans; [apply eqm_mul; [|apply eqm_refl]|].
  { eapply eqm_trans; [apply eqm_pow, eqm_mod|]. apply eqm_pow. apply eqm_mul; [apply eqm_refl|apply eqm_mod]. }
  rewrite Z.pow_mul_l, <- Z.pow_mul_r by lia. rewrite <- Z.mul_assoc. rewrite <- (Z.mul_1_r (be_val msg ^ d)) at 2. apply eqm_mul; [apply eqm_refl|].
  eapply eqm_trans; [apply eqm_mul; [apply (ed_id _ _ _ _ _ _ _ _ V Pp Pq)|apply eqm_refl]|exact S1].
Qed.

Lemma encrypt_eq n e msg : 1 < n -> 0 < e -> bytes msg -> be_val msg < n ->
  rsa_pub_encrypt (MkPub n e) msg = Ok (be_bytes (klen_of n) ((be_val msg ^ e) mod n)).
Proof.
  intros Hn He Hb C. pose proof (be_val_range msg Hb) as R. unfold rsa_pub_encrypt. cbn [un ue].
  destruct (Z.leb_spec n 0); [lia|]. destruct (Z.leb_spec e 0); [lia|]. cbn [orb]. destruct (Z.leb_spec n (be_val msg)); [lia|].
  rewrite powm_eq by lia. apply exported_ok. apply Z.mod_pos_bound. lia.
Qed.
Lemma encrypt_ok_iff n e msg em : 1 < n -> 0 < e -> bytes msg ->
  rsa_pub_encrypt (MkPub n e) msg = Ok em <-> be_val msg < n /\ em = be_bytes (klen_of n) ((be_val msg ^ e) mod n).
Proof.
  intros Hn He Hb. destruct (Z.lt_ge_cases (be_val msg) n) as [L|G].
  - rewrite encrypt_eq by assumption. split; [intros E; split; [exact L|congruence]|intros [_ ->]; reflexivity].
  - split; [|lia]. unfold rsa_pub_encrypt. cbn [un ue]. destruct (Z.leb_spec n 0); [lia|]. destruct (Z.leb_spec e 0); [lia|]. cbn [orb].
    destruct (Z.leb_spec n (be_val msg)); [discriminate|lia].
Qed.

(* what was released re-encrypts to the input *)
Lemma decrypt_encrypt k msg draws out : valid k -> bytes msg -> rsa_priv_decrypt k msg true draws = Ok out ->
  rsa_pub_encrypt (MkPub (kn k) (ke k)) out = Ok (be_bytes (klen_of (kn k)) (be_val msg)) /\ length out = klen_of (kn k) /\ bytes out.
Proof.
  intros V Hb E. pose proof (n_gt1 _ _ _ _ _ _ _ _ V) as N1. assert (He : 3 <= ke k) by apply V.
  destruct (decrypt_fault_safe k msg draws out N1 ltac:(lia) Hb E) as (F & L & B & LT).
  rewrite encrypt_eq by (try assumption; lia). rewrite F. repeat split; assumption.
Qed.
Lemma decrypt_lt k msg crt draws out : bytes msg -> rsa_priv_decrypt k msg crt draws = Ok out -> be_val msg < kn k.
Proof.
  intros Hb. unfold rsa_priv_decrypt. destruct ((kn k <=? 0) || (kd k <=? 0)); [discriminate|]. destruct ((kd k <=? 0) || negb (Z.odd (kn k))); [discriminate|].
  destruct ((kdp k <=? 0) || negb (Z.odd (kp k))); [discriminate|]. destruct ((kdq k <=? 0) || negb (Z.odd (kq k))); [discriminate|].
  destruct (Z.leb_spec (kn k) (be_val msg)) as [|C]; [discriminate|]. intros _. exact C.
Qed.
