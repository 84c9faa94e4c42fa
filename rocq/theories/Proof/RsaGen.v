(* Keys rebuilt from some of their parts, and generated keys. *)
From Verif.Base Require Import Prelude.
From Coq Require Import Znumtheory.
From Verif.Model Require Import Encoding Asn1 NumTheory Rsa.
From Verif.Spec Require Import RsaSpec.
From Verif.Proof Require Import RsaKey Cong RsaPrim RsaCodec.

Lemma small_of_prod p q : 3 <= p -> 3 <= q -> p * q < 2 ^ 16384 -> p < 2 ^ 16384 /\ q < 2 ^ 16384.
Proof. set (M := 2 ^ 16384). clearbody M. intros. nia. Qed.

(* the parts that are needed are enough *)
Lemma set_pqe_complete p q e : p <> q -> 3 <= p -> 3 <= q -> Z.odd p = true -> Z.odd q = true -> 3 <= e < 2 ^ 33 -> Z.odd e = true ->
  2 ^ 511 <= p * q < 2 ^ 16384 -> Z.gcd e (Z.lcm (p - 1) (q - 1)) = 1 -> Z.gcd p q = 1 -> exists k, rsa_priv_set_pqe p q e = Some k.
Proof.
  intros N Hp Hq Op Oq He Oe Hn G1 G2. unfold rsa_priv_set_pqe.
  assert (HX : forall p' q', q' < p' -> 3 <= p' -> 3 <= q' -> Z.odd p' = true -> Z.odd q' = true -> p' * q' = p * q -> Z.gcd e (Z.lcm (p' - 1) (q' - 1)) = 1 -> Z.gcd q' p' = 1 -> exists k,
    (if p' =? q' then None else
     if (p' <? 3) || (MAX_MOD_BITS <? mpz_bitlen p') then None else
     if (q' <? 3) || (MAX_MOD_BITS <? mpz_bitlen q') then None else
     if (e <? MIN_EXP) || (MAX_EXP_BITS <? mpz_bitlen e) then None else
     if negb (Z.odd p') || negb (Z.odd q') || negb (Z.odd e) then None else
     let n := p' * q' in
     if (mpz_bitlen n <? MIN_MOD_BITS) || (MAX_MOD_BITS <? mpz_bitlen n) then None else
     let pm1 := p' - 1 in let qm1 := q' - 1 in
     obind (invert e (lcmz pm1 qm1)) (fun d => obind (invert q' p') (fun qi => Some (MkPriv n e d p' q' (d mod pm1) (d mod qm1) qi)))) = Some k).
  { intros p' q' Hlt Hp' Hq' Op' Oq' E1 Ge Gq. unfold MAX_MOD_BITS, MAX_EXP_BITS, MIN_MOD_BITS, MIN_EXP. rewrite lcmz_eq. cbv zeta. rewrite <- E1 in Hn.
    destruct (small_of_prod p' q' Hp' Hq' (proj2 Hn)) as [Sp Sq].
    rewrite !bitlen_gt by (try (clear - Hp' Hq' He; nia)). rewrite bitlen_lt by (try (clear - Hp' Hq' He; nia)). change (512 - 1) with 511.
    destruct (Z.eqb_spec p' q') as [E|_]; [clear - E Hlt; lia|]. destruct (Z.ltb_spec p' 3) as [E|_]; [clear - E Hp'; lia|]. destruct (Z.ltb_spec q' 3) as [E|_]; [clear - E Hq'; lia|].
    destruct (Z.ltb_spec e 3) as [E|_]; [clear - E He; lia|]. rewrite (proj2 (Z.leb_gt _ _) Sp), (proj2 (Z.leb_gt _ _) Sq), (proj2 (Z.leb_gt _ _) (proj2 He)).
    rewrite Op', Oq', Oe. cbn [orb negb]. rewrite (proj2 (Z.leb_gt _ _) (proj2 Hn)), (proj2 (Z.ltb_ge _ _) (proj1 Hn)). cbn [orb].
    pose proof (lcm_ge2 (p' - 1) (q' - 1) ltac:(clear - Hp'; lia) ltac:(clear - Hq'; lia)) as L.
    pose proof (invert_spec e (Z.lcm (p' - 1) (q' - 1)) ltac:(clear - L Hp'; lia)) as I1. destruct (invert e (Z.lcm (p' - 1) (q' - 1))) as [d|]; [|contradiction].
    pose proof (invert_spec q' p' ltac:(clear - Hp'; lia)) as I2. destruct (invert q' p') as [qi|]; [|contradiction]. cbn [obind]. eexists. reflexivity. }
  destruct (Z.ltb_spec p q) as [L|L].
  - apply HX; try assumption; [ring|]. rewrite Z.lcm_comm. exact G1.
  - apply HX; try assumption; try reflexivity; [clear - L N; lia|]. rewrite Z.gcd_comm. exact G2.
Qed.

Lemma set_pqd_valid p q d k : rsa_priv_set_pqd p q d = Some k ->
  valid k /\ kn k = p * q /\ (Z.lcm (p - 1) (q - 1) | ke k * d - 1) /\ (Z.lcm (p - 1) (q - 1) | kd k - d) /\ kp k = Z.max p q /\ kq k = Z.min p q.
Proof.
  unfold rsa_priv_set_pqd. destruct (Z.ltb_spec p 3) as [|Hp]; [discriminate|]. destruct (MAX_MOD_BITS <? mpz_bitlen p); [discriminate|].
  destruct (Z.ltb_spec q 3) as [|Hq]; [discriminate|]. destruct (MAX_MOD_BITS <? mpz_bitlen q); [discriminate|]. cbn [orb].
  destruct (negb (Z.odd p) || negb (Z.odd q)); [discriminate|]. cbv zeta. destruct ((d <? 2) || ((p - 1) * (q - 1) <=? d)); [discriminate|].
  rewrite gcdz_eq, quot_lcm by lia. pose proof (lcm_ge2 (p - 1) (q - 1) ltac:(lia) ltac:(lia)) as L. set (lam := Z.lcm (p - 1) (q - 1)) in *.
  pose proof (invert_spec d lam ltac:(lia)) as I. destruct (invert d lam) as [e|]; [|discriminate]. cbn [obind]. intros E. destruct (set_pqe_valid _ _ _ _ E) as (V & E1 & E2 & E3 & E4).
  destruct I as (G & _ & I). split; [exact V|]. split; [exact E1|]. rewrite E2. assert (D1 : (lam | e * d - 1)) by (rewrite Z.mul_comm; apply mod1_iff; [lia|exact I]). split; [exact D1|].
  split; [|split; assumption]. assert (D2 : (lam | e * kd k - 1)).
  { rewrite <- E2. pose proof (vp_ed _ _ _ _ _ _ _ _ V) as D. rewrite E3, E4 in D. replace lam with (Z.lcm (Z.max p q - 1) (Z.min p q - 1)); [exact D|]. subst lam.
    destruct (Z.max_spec p q) as [[? ->]|[? ->]], (Z.min_spec p q) as [[? ->]|[? ->]]; try reflexivity; try (apply Z.lcm_comm); lia. }
  apply (Gauss lam e); [|apply rel_prime_sym, Zgcd_1_rel_prime].
  - replace (e * (kd k - d)) with ((e * kd k - 1) - (e * d - 1)) by ring. apply Z.divide_sub_r; assumption.
  - destruct D1 as (c & D1). apply Z.bezout_1_gcd. exists d, (- c). lia.
Qed.

(* a square root of one splits an odd modulus *)
Lemma sqrt1_split n b : 0 < n -> Z.odd n = true -> (n | (b - 1) * (b + 1)) -> Z.gcd n (b - 1) * Z.gcd n (b + 1) = n.
Proof.
  intros Hn On D. set (g1 := Z.gcd n (b - 1)). set (g2 := Z.gcd n (b + 1)).
  assert (P1 : 0 <= g1) by apply Z.gcd_nonneg. assert (P2 : 0 <= g2) by apply Z.gcd_nonneg.
  assert (D1 : (g1 | n)) by apply Z.gcd_divide_l. assert (D2 : (g2 | n)) by apply Z.gcd_divide_l.
  assert (D1' : (g1 | b - 1)) by apply Z.gcd_divide_r. assert (D2' : (g2 | b + 1)) by apply Z.gcd_divide_r.
  assert (C : rel_prime g1 g2).
  { apply Zgcd_1_rel_prime. set (g := Z.gcd g1 g2). assert (A1 : (g | g1)) by apply Z.gcd_divide_l. assert (A2 : (g | g2)) by apply Z.gcd_divide_r.
    assert (A3 : (g | 2)). { replace 2 with ((b + 1) - (b - 1)) by ring. apply Z.divide_sub_r; [exact (Z.divide_trans _ _ _ A2 D2')|exact (Z.divide_trans _ _ _ A1 D1')]. }
    assert (A4 : (g | n)) by exact (Z.divide_trans _ _ _ A1 D1). apply Zodd_bool_iff, Zodd_ex in On. destruct On as (m & On).
    assert (A5 : (g | 1)). { replace 1 with (n - 2 * m) by lia. apply Z.divide_sub_r; [exact A4|apply Z.divide_mul_l; exact A3]. }
    apply Z.divide_1_r_nonneg; [apply Z.gcd_nonneg|exact A5]. }
  apply Z.divide_antisym_nonneg; [nia|lia| |].
  - destruct D1 as (c & D1). assert (A : (g2 | c)). { apply (Gauss g2 g1); [rewrite Z.mul_comm, <- D1; exact D2|apply rel_prime_sym; exact C]. } destruct A as (c2 & ->). exists c2. rewrite D1. ring.
  - destruct D1 as (n' & E1). destruct D1' as (b' & E2). assert (G0 : g1 <> 0) by (intro Z0; rewrite Z0 in E1; lia).
    assert (R : rel_prime n' b').
    { apply Zgcd_1_rel_prime. assert (GG : Z.gcd (n' * g1) (b' * g1) = Z.gcd n' b' * g1) by (rewrite Z.gcd_mul_mono_r_nonneg by lia; reflexivity). rewrite <- E1, <- E2 in GG. fold g1 in GG. pose proof (Z.gcd_nonneg n' b'). nia. }
    assert (A : (n' | b + 1)). { apply (Gauss n' b'); [|exact R]. destruct D as (c & D). exists c. apply (Z.mul_reg_r _ _ g1 G0). transitivity ((b - 1) * (b + 1)); [rewrite E2 at 1; ring|]. rewrite D. rewrite E1 at 1. ring. }
    assert (B : (n' | g2)). { apply Z.gcd_greatest; [exists g1; rewrite E1; ring|exact A]. }
    rewrite E1 at 1. rewrite (Z.mul_comm n'). apply Z.mul_divide_mono_l. exact B.
Qed.

Lemma ned_inner_valid n e : 1 < n -> Z.odd n = true -> forall cnt b r, ned_inner cnt n e b = inl r -> forall k, r = Some k -> valid k /\ kn k = n /\ ke k = e.
Proof.
  intros Hn On. induction cnt as [|cnt IH]; intros b r; cbn [ned_inner]; [discriminate|]. cbv zeta.
  destruct (Z.eqb_spec ((b * b) mod n) 1) as [E1|_].
  - intros E k Ek. assert (E' : rsa_priv_set_pqe (gcdz n (b - 1)) (gcdz n (b + 1)) e = Some k) by congruence. destruct (set_pqe_valid _ _ _ _ E') as (V & V1 & V2 & _). split; [exact V|]. split; [|exact V2].
    rewrite V1, !gcdz_eq. apply sqrt1_split; [lia|exact On|]. replace ((b - 1) * (b + 1)) with (b * b - 1) by ring. apply mod1_iff; [lia|exact E1].
  - destruct ((b * b) mod n =? n - 1); [discriminate|]. apply IH.
Qed.
Lemma set_ned_valid n e d draws k : rsa_priv_set_ned n e d draws = Some k -> valid k /\ kn k = n /\ ke k = e.
Proof.
  unfold rsa_priv_set_ned. destruct (Z.ltb_spec n 0) as [|H0]; [discriminate|]. destruct (mpz_bitlen n <? MIN_MOD_BITS) eqn:BL; [discriminate|]. destruct (MAX_MOD_BITS <? mpz_bitlen n); [discriminate|]. cbn [orb].
  destruct ((e <? MIN_EXP) || (MAX_EXP_BITS <? mpz_bitlen e)); [discriminate|]. destruct ((d <? 2) || (MAX_MOD_BITS <? mpz_bitlen d)); [discriminate|].
  destruct (Z.odd n) eqn:On; [|discriminate]. destruct (Z.odd e); [|discriminate]. cbn [negb orb]. cbv zeta.
  assert (N1 : 1 < n). { destruct (Z.eq_dec n 0) as [->|]; [discriminate On|]. destruct (Z.eq_dec n 1) as [->|]; [discriminate BL|]. lia. }
  generalize (firstn 128 draws). intros bases. induction bases as [|a bases IH]; cbn [ned_outer]; [discriminate|]. cbv zeta.
  destruct (_ || _); [exact IH|]. destruct (ned_inner _ n e _) as [r|] eqn:NI; [|exact IH]. intros E. exact (ned_inner_valid n e N1 On _ _ _ NI k E).
Qed.
(* the last squaring is never tried: with e * d = 3 (mod 4) no base helps *)
Lemma tz_two f : f mod 4 = 2 -> tz f = 1.
Proof.
  intros F. unfold tz. replace (Z.land f (- f)) with 2; [reflexivity|]. apply Z.bits_inj'. intros i Hi. rewrite Z.land_spec.
  assert (F1 : f = 2 * (2 * (f / 4) + 1)) by (pose proof (Z.div_mod f 4 ltac:(lia)); lia). assert (F2 : - f = 2 * (2 * (- (f / 4) - 1) + 1)) by lia.
  rewrite F2. rewrite F1 at 1. set (a := f / 4). clearbody a. replace (- a - 1) with (Z.lnot a) by (unfold Z.lnot; lia).
  destruct (Z.eq_dec i 0) as [->|N0]; [rewrite !Z.testbit_even_0; reflexivity|]. replace i with (Z.succ (i - 1)) by lia. rewrite !Z.testbit_even_succ by lia.
  change 2 with (2 * 1) at 1. rewrite Z.testbit_even_succ by lia. destruct (Z.eq_dec (i - 1) 0) as [->|N1]; [rewrite !Z.testbit_odd_0; reflexivity|].
  replace (i - 1) with (Z.succ (i - 2)) by lia. rewrite !Z.testbit_odd_succ by lia. rewrite Z.lnot_spec by lia. change 1 with (2 * 0 + 1) at 1. rewrite Z.testbit_odd_succ by lia. rewrite Z.bits_0.
  destruct (Z.testbit a (i - 2)); reflexivity.
Qed.
Lemma set_ned_fails n e d draws : (e * d) mod 4 = 3 -> rsa_priv_set_ned n e d draws = None.
Proof.
  intros F. unfold rsa_priv_set_ned. destruct (n <? 0); [reflexivity|]. destruct (_ || _); [reflexivity|]. destruct (_ || _); [reflexivity|]. destruct (_ || _); [reflexivity|]. destruct (_ || _); [reflexivity|].
  cbv zeta. rewrite tz_two by (rewrite Zminus_mod, F; reflexivity). generalize (firstn 128 draws). intros bases. induction bases as [|a bases IH]; [reflexivity|]. cbn [ned_outer]. cbv zeta.
  destruct (_ || _); [exact IH|]. change (Z.to_nat (1 - 1)) with 0%nat. cbn [ned_inner]. exact IH.
Qed.

(* generation *)
Lemma generate_step_valid bits exp p0 q0 r : 512 <= bits <= 16384 -> 3 <= exp < 2 ^ 33 -> Z.odd exp = true ->
  3 <= p0 -> Z.odd p0 = true -> 3 <= q0 -> Z.odd q0 = true -> rsa_generate_step bits exp p0 q0 = Some r ->
  (forall k, r = Ok k -> valid k /\ mpz_bitlen (kn k) = bits /\ ke k = exp /\ kp k = Z.max p0 q0 /\ kq k = Z.min p0 q0) /\ (Z.gcd p0 q0 = 1 -> exists k, r = Ok k).
Proof.
  intros Hb He Oe Hp Op Hq Oq. unfold rsa_generate_step.
  assert (HX : forall p q, q <= p -> p = Z.max p0 q0 -> q = Z.min p0 q0 -> 3 <= q -> Z.odd p = true -> Z.odd q = true -> (Z.gcd p0 q0 = 1 -> Z.gcd q p = 1) -> p <> q ->
   (if mpz_bitlen (p - q) <=? Z.shiftr bits 1 - 99 then None else
    let n := p * q in
    if negb (mpz_bitlen n =? bits) then None else
    let pm1 := p - 1 in let qm1 := q - 1 in let phi := pm1 * qm1 in
    if negb (gcdz exp phi =? 1) then None else
    let lam := Z.quot phi (gcdz pm1 qm1) in
    obind (invert exp lam) (fun d =>
    if mpz_bitlen d <=? Z.shiftr (bits + 1) 1 then None else
    Some (match invert q p with None => Abort | Some qi => Ok (MkPriv n exp d p q (d mod pm1) (d mod qm1) qi) end))) = Some r ->
   (forall k, r = Ok k -> valid k /\ mpz_bitlen (kn k) = bits /\ ke k = exp /\ kp k = Z.max p0 q0 /\ kq k = Z.min p0 q0) /\ (Z.gcd p0 q0 = 1 -> exists k, r = Ok k)).
  { intros p q Hle Ep Eq H3 Op' Oq' Gpq N. destruct (_ <=? _); [discriminate|]. cbv zeta. destruct (Z.eqb_spec (mpz_bitlen (p * q)) bits) as [EB|]; [|discriminate]. cbn [negb].
    destruct (negb _); [discriminate|]. rewrite gcdz_eq, quot_lcm by (clear - H3 Hle; lia). pose proof (lcm_ge2 (p - 1) (q - 1) ltac:(clear - H3 Hle; lia) ltac:(clear - H3; lia)) as L.
    pose proof (invert_spec exp (Z.lcm (p - 1) (q - 1)) ltac:(clear - L H3 Hle; lia)) as I1. destruct (invert exp (Z.lcm (p - 1) (q - 1))) as [d|]; [|discriminate]. cbn [obind].
    destruct (_ <=? _); [discriminate|]. intros E. apply some_inj in E. pose proof (invert_spec q p ltac:(clear - H3 Hle; lia)) as I2. destruct (invert q p) as [qi|].
    - split; [|intros _; eexists; symmetry; exact E]. intros k Ek. subst r. assert (Ek' : MkPriv (p * q) exp d p q (d mod (p - 1)) (d mod (q - 1)) qi = k) by congruence. subst k. cbn [kn ke kp kq]. split; [|repeat split; assumption].
      assert (NN : 0 <= p * q) by (clear - H3 Hle; nia).
      apply make_valid; try assumption; try apply I1; try apply I2; [clear - Hle N; lia|]. split.
      + apply Z.ltb_ge. change 511 with (512 - 1). rewrite <- (bitlen_lt (p * q) 512) by (clear - NN; lia). apply Z.ltb_ge. rewrite EB. apply Hb.
      + apply Z.ltb_lt. rewrite <- (bitlen_le (p * q) 16384) by (clear - NN; lia). apply Z.leb_le. rewrite EB. apply Hb.
    - split; [congruence|]. intros G. exfalso. apply I2, Gpq. exact G. }
  destruct (Z.eqb_spec p0 q0) as [|N]; [discriminate|]. destruct (Z.ltb_spec p0 q0); apply HX; try assumption; try lia; rewrite Z.gcd_comm; auto.
Qed.
Lemma generate_valid bits exp pairs k : Forall (fun pq => 3 <= fst pq /\ Z.odd (fst pq) = true /\ 3 <= snd pq /\ Z.odd (snd pq) = true) pairs ->
  rsa_priv_generate bits exp pairs = Ok k -> valid k /\ mpz_bitlen (kn k) = bits /\ ke k = exp /\ exists p q, In (p, q) pairs /\ kp k = Z.max p q /\ kq k = Z.min p q.
Proof.
  intros F. unfold rsa_priv_generate, MIN_MOD_BITS, MAX_MOD_BITS, MIN_EXP, MAX_EXP. destruct (Z.ltb_spec bits 512); [discriminate|]. destruct (Z.ltb_spec 16384 bits); [discriminate|]. destruct (Z.ltb_spec exp 3); [discriminate|].
  destruct (Z.ltb_spec 8589934591 exp); [discriminate|]. destruct (Z.odd exp) eqn:Oe; [|discriminate]. cbn [orb negb].
  assert (He : 3 <= exp < 2 ^ 33) by (change (2 ^ 33) with 8589934592; lia).
  induction F as [|[p q] pairs Hpq F IH]; cbn [rsa_generate_loop]; [discriminate|]. cbn [fst snd] in Hpq. destruct Hpq as (P1 & P2 & P3 & P4).
  destruct (rsa_generate_step bits exp p q) as [r|] eqn:GS.
  - intros E. destruct (proj1 (generate_step_valid bits exp p q r ltac:(lia) He Oe P1 P2 P3 P4 GS) k E) as (V & B & X & Ep & Eq). repeat (split; [assumption|]). exists p, q. split; [left; reflexivity|split; assumption].
  - intros E. destruct (IH E) as (V & B & X & p' & q' & HI & Hm). repeat (split; [assumption|]). exists p', q'. split; [right; exact HI|exact Hm].
Qed.
(* the assertion that q is invertible cannot fail on distinct primes *)
Lemma generate_no_abort bits exp p q : 512 <= bits <= 16384 -> 3 <= exp < 2 ^ 33 -> Z.odd exp = true -> prime p -> prime q -> 3 <= p -> Z.odd p = true -> 3 <= q -> Z.odd q = true ->
  rsa_generate_step bits exp p q <> Some Abort.
Proof.
  intros Hb He Oe Pp Pq P1 P2 P3 P4 E. destruct (Z.eq_dec p q) as [Epq|N].
  - unfold rsa_generate_step in E. rewrite (proj2 (Z.eqb_eq _ _) Epq) in E. discriminate.
  - assert (G : Z.gcd p q = 1). { apply (proj2 (Zgcd_1_rel_prime p q)). apply prime_rel_prime; [exact Pp|]. intro D. apply prime_div_prime in D; [contradiction|exact Pp|exact Pq]. }
    destruct (proj2 (generate_step_valid bits exp p q Abort Hb He Oe P1 P2 P3 P4 E) G) as (k & X). discriminate.
Qed.
