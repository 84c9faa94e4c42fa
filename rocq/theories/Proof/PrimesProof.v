(* Square roots modulo a prime, Miller-Rabin on primes, trial division, factorials, binomials, Fibonacci. *)
From Coq Require Import Znumtheory Zpow_facts Factorial.
From Verif.Base Require Import Prelude.
From Verif.Model Require Import Encoding MpnMod NumTheory Primes.
From Verif.Proof Require Import NumGcd NumInv NumRoot Fermat.

(* partial correctness of a bounded loop *)
Lemma until_inv {S R : Type} (Inv : S -> Prop) (Post : R -> Prop) (f : S -> S + R) :
  (forall s, Inv s -> match f s with inl s' => Inv s' | inr r => Post r end) ->
  forall p s, Inv s -> match until p f s with inl s' => Inv s' | inr r => Post r end.
Proof.
  intros H. induction p as [p IH|p IH|]; intros s Hs; cbn [until].
  - pose proof (H s Hs) as H0. destruct (f s) as [s1|r]; [|exact H0].
    pose proof (IH s1 H0) as H1. destruct (until p f s1) as [s2|r]; [|exact H1]. exact (IH s2 H1).
  - pose proof (IH s Hs) as H1. destruct (until p f s) as [s2|r]; [|exact H1]. exact (IH s2 H1).
  - exact (H s Hs).
Qed.

Lemma mod_eq_ex a b p : 0 < p -> (a mod p = b mod p <-> exists q, a = b + q * p).
Proof.
  intros Hp. split.
  - intros E. exists (a / p - b / p). pose proof (Z.div_mod a p ltac:(lia)). pose proof (Z.div_mod b p ltac:(lia)). rewrite E in H. nia.
  - intros [q ->]. apply Z_mod_plus_full.
Qed.

(* the residue loop returns 0 only when the operands have a common factor *)
Definition jgcd (g : Z) (s : Z * Z * Z) : Prop := let '(u, v, j) := s in 0 <= u /\ 0 < v /\ Z.odd v = true /\ Z.gcd u v = g /\ (j = 1 \/ j = -1).
Lemma jac_gcd_step g : forall s, jgcd g s -> match jac_step s with inl s' => jgcd g s' | inr r => fst r = g /\ (snd r = 1 \/ snd r = -1) end.
Proof.
  intros [[u v] j] (Hu & Hv & Ov & Eg & Hj). unfold jac_step. destruct (Z.eqb_spec u 0) as [E|N].
  - cbn [fst snd]. split; [|exact Hj]. rewrite E, Z.gcd_0_l, Z.abs_eq in Eg by lia. exact Eg.
  - assert (Hu' : 0 < u) by lia. destruct (oddp_spec u Hu') as (Eu & Ou & Bu). change (Z.shiftr u (ctz u)) with (oddp u).
    assert (G : Z.gcd (oddp u) v = g). { rewrite <- Eg. rewrite Eu at 2. symmetry. apply gcd_pow2_l; [apply ctz_nonneg|exact Ov]. }
    cbv zeta. set (u1 := oddp u) in *. clearbody u1. clear Eu Eg.
    assert (Ng : forall b i, i = 1 \/ i = -1 -> neg_if b i = 1 \/ neg_if b i = -1) by (intros b i Hi; unfold neg_if; destruct b; lia).
    pose proof (Ng (Z.odd (ctz u) && flip8 v) j Hj) as Hj1. set (j1 := neg_if (Z.odd (ctz u) && flip8 v) j) in *. clearbody j1.
    assert (K : forall a b i, 0 < b <= a -> Z.odd a = true -> Z.odd b = true -> Z.gcd a b = g -> i = 1 \/ i = -1 -> jgcd g (Z.shiftr (a - b) 1, b, neg_if (flip8 b) i)).
    { intros a b i Hb Oa Ob Gab Hi. assert (Ea : exists h, a - b = 2 * h) by (apply nodd_ev; rewrite Z.odd_sub, Oa, Ob; reflexivity). destruct Ea as [h Eh].
      assert (Es : Z.shiftr (a - b) 1 = h) by (rewrite Eh, Z.shiftr_div_pow2 by lia; rewrite Z.mul_comm; apply Z.div_mul; lia).
      rewrite Es. split; [lia|]. split; [lia|]. split; [exact Ob|]. split; [|apply Ng; exact Hi].
      rewrite <- Gab, <- (gcd_sub_l a b), Eh. change 2 with (2 ^ 1). symmetry. apply gcd_pow2_l; [lia|exact Ob]. }
    destruct (Z.ltb_spec u1 v) as [L|L].
    + apply K; [lia|exact Ov|exact Ou|rewrite Z.gcd_comm; exact G|apply Ng; exact Hj1].
    + apply K; [lia|exact Ou|exact Ov|exact G|exact Hj1].
Qed.
Lemma jac_zero x p : 0 <= x < p -> Z.odd p = true -> jac x p = Some 0 -> Z.gcd x p <> 1.
Proof.
  intros Hx Op. unfold jac, mpz_jacobi. rewrite Op. cbn [negb]. cbv zeta. rewrite (Z.abs_eq p) by lia.
  replace ((x <? 0) || (p <=? Z.abs x)) with false by (symmetry; apply orb_false_iff; split; [apply Z.ltb_ge; lia|apply Z.leb_gt; lia]).
  unfold mpn_jacobi. pose proof (until_inv (jgcd (Z.gcd x p)) (fun r => fst r = Z.gcd x p /\ (snd r = 1 \/ snd r = -1)) jac_step (jac_gcd_step (Z.gcd x p)) (Z.to_pos (x + p + 1)) (x, p, 1)) as U.
  destruct (until (Z.to_pos (x + p + 1)) jac_step (x, p, 1)) as [s|[v j]]; [discriminate|]. cbn [fst snd] in U.
  destruct U as [U1 U2]. { split; [lia|]. split; [lia|]. split; [exact Op|]. split; [reflexivity|left; reflexivity]. }
  subst v. unfold neg_if. intros E. destruct (Z.eqb_spec (Z.gcd x p) 1) as [G|G]; [|exact G]. exfalso.
  replace ((x <? 0) && (p <? 0)) with false in E by (symmetry; destruct (Z.ltb_spec x 0); [lia|reflexivity]). congruence || (injection E as E; lia).
Qed.

(* soundness of the square roots *)
Lemma sqrtm_0_sound nb ob x p z : prime p -> Z.odd p = true -> 0 <= x < p -> sqrtm_0 nb ob x p = Some (Some z) -> (z * z) mod p = x.
Proof.
  intros Hp Op Hx. assert (P1 : 1 < p) by (destruct Hp; lia). unfold sqrtm_0. destruct (Z.eqb_spec p 1) as [E|_]; [lia|].
  destruct (jac x p) as [j|] eqn:Ej; [|discriminate]. destruct (j =? -1); [discriminate|]. destruct (Z.eqb_spec j 0) as [E0|N0].
  { subst j. apply jac_zero in Ej; [|exact Hx|exact Op]. intros E. assert (z = 0) by congruence. subst z. rewrite Z.mul_0_l, Z.mod_0_l by lia.
    destruct (Z.eq_dec x 0) as [e|n]; [symmetry; exact e|exfalso]. apply Ej. apply Zgcd_1_rel_prime. apply rel_prime_sym. apply prime_rel_prime; [exact Hp|].
    intros D. apply Z.divide_pos_le in D; lia. }
  destruct (ctz_spec (p - 1) ltac:(lia)) as (o & Eo & Oo & Po). pose proof (ctz_nonneg (p - 1)) as Nc.
  assert (Es : Z.shiftr (p - 1) (ctz (p - 1)) = o). { change (Z.shiftr (p - 1) (ctz (p - 1))) with (oddp (p - 1)). destruct (oddp_spec (p - 1) ltac:(lia)) as (E' & _ & _). assert (0 < 2 ^ ctz (p - 1)) by (apply Z.pow_pos_nonneg; lia). clear - E' Eo H. nia. }
  rewrite Es. destruct (until nb (nonres_step p) 2) as [?|[n|]]; try discriminate.
  intros H. set (y0 := Zpow_mod x (Z.shiftr (o + 1) 1) p) in *. set (b0 := Zpow_mod x o p) in *. set (g0 := Zpow_mod n o p) in *.
  pose proof (until_inv (fun s : Z * Z * Z * Z => let '(y, b, g, k) := s in 0 <= b < p /\ exists q, y * y = x * b + q * p)
    (fun r => match r with Some (Some z) => exists q, z * z = x + q * p | _ => True end) (ts_step p ob)) as U.
  specialize (U) with (p := Z.to_pos (ctz (p - 1) + 1)) (s := (y0, b0, g0, ctz (p - 1))).
  destruct (until (Z.to_pos (ctz (p - 1) + 1)) (ts_step p ob) (y0, b0, g0, ctz (p - 1))) as [s|r]; [discriminate|]. subst r.
  destruct U as [q Hq].
  - intros [[[y b] g] k] [Hb [q Hq]]. unfold ts_step.
    pose proof (until_inv (fun s : Z * Z => 0 <= snd s /\ (snd s = 0 -> fst s = b)) (fun m => m = 0 -> b = 1) (order_step p)) as V. specialize (V) with (p := ob) (s := (b, 0)).
    destruct (until ob (order_step p) (b, 0)) as [?|m]; [exact I|]. destruct (Z.eqb_spec m 0) as [Em|Nm].
    + assert (B1 : b = 1).
      { apply V; [|cbn [fst snd]; split; [lia|reflexivity]|exact Em]. intros [t i] [V1 V2]. cbn [fst snd] in *. unfold order_step. destruct (Z.eqb_spec t 1) as [Et|Nt].
        - intros Ei. rewrite <- V2 by exact Ei. exact Et.
        - cbn [fst snd]. split; [lia|]. intros; lia. }
      exists q. rewrite Hq, B1. ring.
    + destruct (k <=? m); [exact I|]. set (t := sqrs p (k - m - 1) g). clearbody t. split; [apply Z.mod_pos_bound; lia|].
      apply mod_eq_ex; [lia|]. rewrite <- Z.mul_mod by lia. rewrite Z.mul_mod_idemp_r by lia. rewrite (Z.mul_assoc x b), Z.mul_mod_idemp_r by lia.
      replace (y * t * (y * t)) with (x * b * (t * t) + (q * (t * t)) * p); [apply Z_mod_plus_full|]. transitivity (y * y * (t * t)); [rewrite Hq; ring|ring].
  - split; [unfold b0; rewrite Zpow_mod_correct by lia; apply Z.mod_pos_bound; lia|]. apply mod_eq_ex; [lia|]. unfold y0, b0. rewrite !Zpow_mod_correct by lia.
    rewrite <- Z.mul_mod by lia. rewrite Z.mul_mod_idemp_r by lia. f_equal. apply odd_ev in Oo. destruct Oo as [h Hh].
    assert (Eh : Z.shiftr (o + 1) 1 = h + 1). { rewrite Z.shiftr_div_pow2 by lia. change (2 ^ 1) with 2. replace (o + 1) with ((h + 1) * 2) by lia. apply Z.div_mul. lia. }
    rewrite Eh, <- Z.pow_add_r by lia. rewrite <- Z.pow_succ_r by lia. f_equal. lia.
  - rewrite Hq. rewrite Z_mod_plus_full. apply Z.mod_small. exact Hx.
Qed.
Lemma mpz_sqrtm_sound nb ob x p z : prime p -> mpz_sqrtm nb ob x p = Some (Some z) -> (z * z) mod p = x mod p.
Proof.
  intros Hp. assert (P1 : 1 < p) by (destruct Hp; lia). unfold mpz_sqrtm. destruct ((p <=? 0) || Z.even p) eqn:C; [discriminate|].
  apply orb_false_iff in C. destruct C as [_ C]. assert (Op : Z.odd p = true) by (rewrite <- Z.negb_even, C; reflexivity). cbv zeta.
  pose proof (Z.mod_pos_bound x p ltac:(lia)) as Hx. destruct (p mod 4 =? 3).
  - unfold sqrtm_3mod4. cbv zeta. destruct (Z.eqb_spec ((Zpow_mod (x mod p) (Z.shiftr (p + 1) 2) p * Zpow_mod (x mod p) (Z.shiftr (p + 1) 2) p) mod p) (x mod p)) as [E|]; [|discriminate].
    intros H. assert (Ez : z = Zpow_mod (x mod p) (Z.shiftr (p + 1) 2) p) by congruence. rewrite Ez. exact E.
  - destruct (p mod 8 =? 5).
    + unfold sqrtm_5mod8. cbv zeta. match goal with |- Some (if (?b0 * ?b0) mod p =? _ then _ else _) = _ -> _ => set (b := b0) end. clearbody b.
      destruct (Z.eqb_spec ((b * b) mod p) (x mod p)) as [E|]; [|discriminate]. intros H. assert (Ez : z = b) by congruence. rewrite Ez. exact E.
    + intros H. apply (sqrtm_0_sound nb ob (x mod p) p z Hp Op Hx H).
Qed.
(* completeness for p = 3 mod 4 *)
Lemma sqrtm_3mod4_complete nb ob x a p : prime p -> p mod 4 = 3 -> (a * a) mod p = x mod p -> exists z, mpz_sqrtm nb ob x p = Some (Some z).
Proof.
  intros Hp H4 Ha. assert (P1 : 1 < p) by (destruct Hp; lia). pose proof (Z.div_mod p 4 ltac:(lia)) as Ep. rewrite H4 in Ep. set (h := p / 4) in *. clearbody h.
  unfold mpz_sqrtm. replace ((p <=? 0) || Z.even p) with false.
  2: { symmetry. apply orb_false_iff. split; [apply Z.leb_gt; lia|]. rewrite Ep, Z.even_add, Z.even_mul. reflexivity. }
  cbv zeta. rewrite H4. change (3 =? 3) with true. cbv iota. unfold sqrtm_3mod4. cbv zeta.
  assert (Ee : Z.shiftr (p + 1) 2 = h + 1). { rewrite Z.shiftr_div_pow2 by lia. change (2 ^ 2) with 4. replace (p + 1) with ((h + 1) * 4) by lia. apply Z.div_mul. lia. }
  rewrite Ee. set (b := Zpow_mod (x mod p) (h + 1) p).
  assert (Eb : (b * b) mod p = x mod p).
  { unfold b. rewrite !Zpow_mod_correct by lia. rewrite <- Z.mul_mod by lia. rewrite <- Z.pow_add_r by lia. rewrite <- Ha. rewrite <- Zpower_mod by lia.
    rewrite <- Z.pow_2_r at 1. rewrite <- Z.pow_mul_r by lia. replace (2 * (h + 1 + (h + 1))) with (p + 1) by lia.
    rewrite Z.pow_add_r, Z.pow_1_r by lia. rewrite Z.mul_mod by lia. rewrite fermat_all by exact Hp. rewrite <- Z.mul_mod by lia. reflexivity. }
  rewrite Eb, Z.eqb_refl. exists b. reflexivity.
Qed.

(* Miller-Rabin *)
Lemma sqrt_one p y : prime p -> 0 <= y < p -> (y * y) mod p = 1 -> y = 1 \/ y = p - 1.
Proof.
  intros Hp Hy E. assert (P1 : 1 < p) by (destruct Hp; lia).
  assert (D : (p | (y - 1) * (y + 1))). { apply Z.mod_divide; [lia|]. replace ((y - 1) * (y + 1)) with (y * y - 1) by ring. rewrite Zminus_mod, E. rewrite (Z.mod_small 1) by lia. reflexivity. }
  apply prime_mult in D; [|exact Hp]. destruct D as [D|D].
  - left. destruct (Z.eq_dec y 1) as [e|n]; [exact e|exfalso]. destruct (Z.eq_dec y 0) as [e0|n0].
    + subst y. rewrite Z.mul_0_l, Z.mod_0_l in E by lia. lia.
    + apply Z.divide_pos_le in D; lia.
  - right. apply Z.divide_pos_le in D; lia.
Qed.
Lemma mr_loop_prime p : prime p -> forall d y, 0 <= y < p -> y <> 1 -> y <> p - 1 -> (y ^ (2 ^ Z.of_nat (S d))) mod p = 1 -> mr_loop p d y = true.
Proof.
  intros Hp. assert (P1 : 1 < p) by (destruct Hp; lia). induction d as [|d IH]; intros y Hy N1 Nm E.
  - exfalso. change (2 ^ Z.of_nat 1) with 2 in E. rewrite Z.pow_2_r in E. destruct (sqrt_one p y Hp Hy E); lia.
  - cbn [mr_loop]. cbv zeta. destruct (Z.eqb_spec ((y * y) mod p) (p - 1)) as [Em|Nm']; [reflexivity|].
    destruct (Z.eqb_spec ((y * y) mod p) 1) as [E1|N1']; [destruct (sqrt_one p y Hp Hy E1); lia|].
    apply IH; [apply Z.mod_pos_bound; lia|exact N1'|exact Nm'|]. rewrite <- Zpower_mod by lia. rewrite <- E. f_equal.
    rewrite <- (Z.pow_2_r y). rewrite <- Z.pow_mul_r by lia. f_equal. rewrite (Nat2Z.inj_succ (S d)), Z.pow_succ_r by lia. reflexivity.
Qed.
Lemma mr_round_prime p x : prime p -> 7 < p -> 2 <= x <= p - 2 -> mr_round p (ctz (p - 1)) (Z.shiftr (p - 1) (ctz (p - 1))) x = true.
Proof.
  intros Hp H7 Hx. destruct (oddp_spec (p - 1) ltac:(lia)) as (Eo & Oo & Bo). change (Z.shiftr (p - 1) (ctz (p - 1))) with (oddp (p - 1)).
  assert (Ek : 1 <= ctz (p - 1)).
  { pose proof (ctz_nonneg (p - 1)). destruct (Z.eq_dec (ctz (p - 1)) 0) as [e|n]; [exfalso|lia]. rewrite e, Z.pow_0_r, Z.mul_1_l in Eo. rewrite <- Eo in Oo.
    rewrite Z.odd_sub in Oo. assert (Op : Z.odd p = false) by (destruct (Z.odd p); [discriminate|reflexivity]). apply nodd_ev in Op. destruct Op as [h Hh].
    destruct (prime_divisors p Hp 2) as [d|[d|[d|d]]]; try lia. exists h. lia. }
  set (k := ctz (p - 1)) in *. set (q := oddp (p - 1)) in *. clearbody k q. unfold mr_round. cbv zeta. rewrite Zpow_mod_correct by lia.
  destruct (Z.eqb_spec (x ^ q mod p) 1) as [E|N]; [reflexivity|]. destruct (Z.eqb_spec (x ^ q mod p) (p - 1)) as [E|N']; [reflexivity|]. cbn [orb].
  apply mr_loop_prime; [exact Hp|apply Z.mod_pos_bound; lia|exact N|exact N'|]. rewrite <- Zpower_mod by lia. rewrite <- Z.pow_mul_r by lia.
  rewrite Nat2Z.inj_succ, Z2Nat.id by lia. replace (Z.succ (k - 1)) with k by lia. rewrite Z.mul_comm, <- Eo. apply fermat; [exact Hp|]. rewrite Z.mod_small by lia. lia.
Qed.
Lemma mr_prime_accepts p reps force2 rng : prime p -> (forall i, 0 <= rng i < p - 3) -> mr_prime p reps force2 rng = true.
Proof.
  intros Hp Hr. assert (P1 : 1 < p) by (destruct Hp; lia). unfold mr_prime. destruct (Z.ltb_spec p 2) as [L|_]; [lia|].
  destruct (Z.even p) eqn:Ev.
  - apply Z.even_spec in Ev. destruct Ev as [h Hh]. apply Z.eqb_eq. assert (D : (2 | p)) by (exists h; lia). destruct (prime_divisors p Hp 2 D) as [d|[d|[d|d]]]; lia.
  - destruct (Z.leb_spec p 7) as [L|L]; [reflexivity|]. cbv zeta. apply forallb_forall. intros i _. apply mr_round_prime; [exact Hp|exact L|].
    destruct (Nat.eqb i (reps - 1) && force2); [lia|]. pose proof (Hr i). lia.
Qed.
(* trial division *)
Definition small : list Z := [3; 5; 7; 11; 13; 17; 19; 23; 29; 31; 37; 41; 43; 47; 53].
Lemma mod_mod_div x d q : 0 < q -> (q | d) -> 0 < d -> (x mod d) mod q = x mod q.
Proof. intros Hq [k ->] Hd. apply mod_eq_ex; [exact Hq|]. exists (- (x / (k * q)) * k). pose proof (Z.div_mod x (k * q) ltac:(lia)). lia. Qed.
Lemma trial_spec w x : (let '(ra, rb) := mod_primorial w x in trial ra rb) = true <-> exists q, In q small /\ x mod q = 0.
Proof.
  assert (K : exists ra rb, mod_primorial w x = (ra, rb) /\ (forall q, In q [3; 5; 7; 11; 13; 17; 19; 23; 37] -> ra mod q = x mod q) /\ (forall q, In q [29; 31; 41; 43; 47; 53] -> rb mod q = x mod q)).
  { assert (D1 : forall d q, In q [3; 5; 7; 11; 13; 17; 19; 23; 37] -> d = 4127218095 \/ d = 16294579238595022365 -> (q | d)).
    { intros d q Hq Hd. apply Z.mod_divide; [intros ->; cbn in Hq; lia|]. destruct Hd as [->| ->]; cbn [In] in Hq;
        repeat (destruct Hq as [<-|Hq]; [reflexivity|]); contradiction. }
    assert (D2 : forall d q, In q [29; 31; 41; 43; 47; 53] -> d = 3948078067 \/ d = 16294579238595022365 -> (q | d)).
    { intros d q Hq Hd. apply Z.mod_divide; [intros ->; cbn in Hq; lia|]. destruct Hd as [->| ->]; cbn [In] in Hq;
        repeat (destruct Hq as [<-|Hq]; [reflexivity|]); contradiction. }
    assert (P : forall q l, In q l -> l = [3; 5; 7; 11; 13; 17; 19; 23; 37] \/ l = [29; 31; 41; 43; 47; 53] -> 0 < q).
    { intros q l Hq [->| ->]; cbn [In] in Hq; lia. }
    unfold mod_primorial. destruct (w =? 64); cbv zeta.
    - do 2 eexists. split; [reflexivity|]. split; intros q Hq.
      + pose proof (P q _ Hq (or_introl eq_refl)). rewrite mod_mod_div; [|lia|apply D1; [exact Hq|left; reflexivity]|lia]. apply mod_mod_div; [lia|apply D1; [exact Hq|right; reflexivity]|lia].
      + pose proof (P q _ Hq (or_intror eq_refl)). rewrite mod_mod_div; [|lia|apply D2; [exact Hq|left; reflexivity]|lia]. apply mod_mod_div; [lia|apply D2; [exact Hq|right; reflexivity]|lia].
    - do 2 eexists. split; [reflexivity|]. split; intros q Hq.
      + pose proof (P q _ Hq (or_introl eq_refl)). apply mod_mod_div; [lia|apply D1; [exact Hq|left; reflexivity]|lia].
      + pose proof (P q _ Hq (or_intror eq_refl)). apply mod_mod_div; [lia|apply D2; [exact Hq|left; reflexivity]|lia]. }
  destruct K as (ra & rb & -> & K1 & K2). unfold trial. rewrite orb_true_iff, !existsb_exists. split.
  - intros [(q & Hq & E)|(q & Hq & E)]; apply Z.eqb_eq in E; exists q; [rewrite K1 in E by exact Hq|rewrite K2 in E by exact Hq]; (split; [|exact E]); unfold small; cbn [In] in *; tauto.
  - intros (q & Hq & E). assert (Hs : In q [3; 5; 7; 11; 13; 17; 19; 23; 37] \/ In q [29; 31; 41; 43; 47; 53]) by (unfold small in Hq; cbn [In] in *; tauto).
    destruct Hs as [Hs|Hs]; [left|right]; exists q; (split; [exact Hs|]); apply Z.eqb_eq; [rewrite K1 by exact Hs|rewrite K2 by exact Hs]; exact E.
Qed.
(* the table of small primes *)
Definition isprime (n : Z) : bool := (2 <=? n) && forallb (fun d => (n <=? d) || negb (n mod d =? 0)) (zseq 2 31).
Lemma isprime_spec n : n < 1024 -> isprime n = true <-> prime n.
Proof.
  intros Hn. unfold isprime. rewrite andb_true_iff, forallb_forall. split.
  - intros [H2 Hd]. apply Z.leb_le in H2. apply prime_alt. split; [lia|]. intros d Hd' D.
    (* the smaller of d and n/d is at most 31 *)
    destruct D as [e He]. assert (K : forall d, 1 < d < n -> (d | n) -> 32 < d).
    { clear - Hd H2. intros d Hd' D. destruct (Z.lt_ge_cases 32 d) as [L|L]; [exact L|exfalso]. specialize (Hd d). rewrite zseq_in in Hd. specialize (Hd ltac:(lia)).
      apply orb_true_iff in Hd. destruct Hd as [Hd|Hd]; [apply Z.leb_le in Hd; lia|]. apply negb_true_iff, Z.eqb_neq in Hd. apply Hd. apply Z.mod_divide; [lia|exact D]. }
    assert (E1 : 1 < e < n) by (clear - He Hd' H2; nia). assert (Hde : (d | n)) by (exists e; exact He). assert (Hed : (e | n)) by (exists d; rewrite He; ring).
    pose proof (K d Hd' Hde) as K1. pose proof (K e E1 Hed) as K2. clear - K1 K2 He Hn. nia.
  - intros Hp. assert (P1 : 1 < n) by (destruct Hp; lia). split; [apply Z.leb_le; lia|]. intros d Hd. rewrite zseq_in in Hd. apply orb_true_iff.
    destruct (Z.leb_spec n d) as [L|L]; [left; reflexivity|right]. apply negb_true_iff, Z.eqb_neq. intros E. apply Z.mod_divide in E; [|lia].
    destruct (prime_divisors n Hp d E) as [e|[e|[e|e]]]; lia.
Qed.
Lemma small_prime_spec w n : (w = 32 \/ w = 64) -> 0 <= n < 1024 -> small_prime w n = true <-> prime n.
Proof.
  intros Hw Hn. rewrite <- isprime_spec by lia.
  assert (C : forallb (fun n => Bool.eqb (small_prime w n) (isprime n)) (zseq 0 1024) = true) by (destruct Hw as [->| ->]; vm_compute; reflexivity).
  rewrite forallb_forall in C. specialize (C n). rewrite zseq_in in C. specialize (C ltac:(lia)). apply Bool.eqb_prop in C. rewrite C. reflexivity.
Qed.
Lemma probab_prime_spec w x rounds rng : (w = 32 \/ w = 64) -> prime x -> (forall i, 0 <= rng i < x - 3) ->
  probab_prime w x rounds rng = if x <? 1024 then true else lucas_prime x 0.
Proof.
  intros Hw Hp Hr. assert (P1 : 1 < x) by (destruct Hp; lia). unfold probab_prime. destruct (Z.leb_spec x 0) as [L|_]; [lia|].
  destruct (Z.ltb_spec x 1024) as [L|L]; [apply small_prime_spec; [exact Hw|lia|exact Hp]|].
  destruct (Z.even x) eqn:Ev.
  { exfalso. apply Z.even_spec in Ev. destruct Ev as [h Hh]. destruct (prime_divisors x Hp 2) as [d|[d|[d|d]]]; try lia. exists h. lia. }
  pose proof (trial_spec w x) as T. destruct (mod_primorial w x) as [ra rb]. destruct (trial ra rb).
  - exfalso. destruct (proj1 T eq_refl) as (q & Hq & E). assert (Q : 3 <= q <= 53) by (unfold small in Hq; cbn [In] in Hq; lia). apply Z.mod_divide in E; [|lia].
    destruct (prime_divisors x Hp q E) as [e|[e|[e|e]]]; lia.
  - rewrite mr_prime_accepts by assumption. reflexivity.
Qed.
Lemma probab_prime_rejects w x rounds rng : (w = 32 \/ w = 64) -> probab_prime w x rounds rng = true ->
  if x <? 1024 then prime x else Z.odd x = true /\ (forall q, In q small -> x mod q <> 0) /\ mr_prime x (rounds + 1) true rng = true /\ lucas_prime x 0 = true.
Proof.
  intros Hw. unfold probab_prime. destruct (Z.leb_spec x 0) as [L|L]; [discriminate|]. destruct (Z.ltb_spec x 1024) as [L'|L']; [intros H; apply (small_prime_spec w x Hw); [lia|exact H]|].
  destruct (Z.even x) eqn:Ev; [discriminate|]. pose proof (trial_spec w x) as T. destruct (mod_primorial w x) as [ra rb]. destruct (trial ra rb); [discriminate|].
  destruct (mr_prime x (rounds + 1) true rng) eqn:M; [|discriminate]. cbn [negb]. intros H. split; [rewrite <- Z.negb_even, Ev; reflexivity|]. split; [|split; [reflexivity|exact H]].
  intros q Hq E. destruct T as [_ T]. assert (false = true) by (apply T; exists q; split; assumption). discriminate.
Qed.
