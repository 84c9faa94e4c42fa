(* C85 random integers. *)
From Verif.Base Require Import Prelude.
From Verif.Model Require Import Encoding Hash Mpn Mpz MpzRand.
From Verif.Proof Require Import MpnProof MpnShift MpnDiv MpzProof MpzRandProof.
From Verif.Props Require Import MpzProps.

(* a draw for a bound of n limbs *)
Definition draw (w : Z) (n : nat) (d : list Z) : Prop := length d = n /\ limbs w d.
(* what is left of a draw of value D: its low n - 1 limbs, and its top limb without the s low bits *)
Definition kept (w : Z) (n : nat) (s D : Z) : Z := D mod 2 ^ (w * Z.of_nat (n - 1)) + 2 ^ (w * Z.of_nat (n - 1)) * (D / 2 ^ (w * Z.of_nat (n - 1) + s)).
(* the number of bits by which the limbs of v exceed v *)
Definition spare (w : Z) (n : nat) (v : Z) : Z := Z.of_nat n * w - (Z.log2 (Z.abs v) + 1).

Lemma cut_kept w n s D : 0 < w -> 0 <= s -> cut w n s D = kept w n s D.
Proof.
  intros W S. unfold cut, kept. cbv zeta. assert (E : LB w ^ Z.of_nat (n - 1) = 2 ^ (w * Z.of_nat (n - 1))) by (unfold LB; rewrite <- Z.pow_mul_r by lia; reflexivity). rewrite E. rewrite Z.pow_add_r by nia. rewrite Z.div_div; [reflexivity|apply Z.pow_nonzero; nia|apply Z.pow_pos_nonneg; nia].
Qed.
Lemma first_below_spec w n s m draws : 0 < w -> 0 <= s -> match first_below w n s m draws with
  | Some u => exists pre d post, draws = pre ++ d :: post /\ Forall (fun e => m <= kept w n s (value w e)) pre /\ kept w n s (value w d) < m /\ u = kept w n s (value w d)
  | None => Forall (fun e => m <= kept w n s (value w e)) draws end.
Proof.
  intros W S. induction draws as [|d draws IH]; [constructor|]. cbn [first_below]. change (LB w) with (2 ^ w). rewrite (cut_kept w n s _ W S). destruct (Z.ltb_spec (kept w n s (value w d)) m) as [L|L]; [exists [], d, draws; auto|].
  destruct (first_below w n s m draws) as [u|]; [|constructor; assumption]. destruct IH as (pre & e & post & -> & F & K & U). exists (d :: pre), e, post. split; [reflexivity|]. split; [constructor; assumption|auto].
Qed.
(* C85: the result is made of the first draw that falls below |x|, with the sign of x; without such a draw the loop goes on *)
Theorem C85_urandomm : forall w x v draws, 0 < w -> holds w x v -> v <> 0 -> Forall (draw w (length (lm x))) draws ->
  let n := length (lm x) in let f d := kept w n (spare w n v) (value w d) in
  match mpz_urandomm w x draws with
  | Some z => exists pre d post, draws = pre ++ d :: post /\ Forall (fun e => Z.abs v <= f e) pre /\ 0 <= f d < Z.abs v /\ holds w z (Z.sgn v * f d)
  | None => Forall (fun e => Z.abs v <= f e) draws
  end.
Proof.
  intros w x v draws W H NV HD n f. hz. destruct (urandomm_ok w W x v draws H NV HD) as (s & S & _ & _ & NN & ES & R). fold n in ES, R, NN. fold (spare w n v) in ES. rewrite ES in R, S. clear ES. pose proof (first_below_spec w n (spare w n v) (Z.abs v) draws W (proj1 S)) as FB.
  destruct (mpz_urandomm w x draws) as [z|]; [|rewrite R in FB; exact FB]. destruct R as (u & E & Z0). rewrite E in FB. destruct FB as (pre & d & post & -> & F & K & ->). exists pre, d, post. split; [reflexivity|]. split; [exact F|]. split; [|hs; exact Z0]. split; [|exact K]. unfold f, kept. apply Forall_app in HD. destruct HD as (_ & HD). apply Forall_cons_iff in HD. destruct HD as ((_ & LD) & _).
  pose proof (dval_range (2 ^ w) d ltac:(apply Z.pow_pos_nonneg; lia) LD). apply Z.add_nonneg_nonneg; [apply Z.mod_pos_bound, Z.pow_pos_nonneg; nia|]. apply Z.mul_nonneg_nonneg; [apply Z.pow_nonneg; lia|]. apply Z.div_pos; [lia|apply Z.pow_pos_nonneg; [lia|destruct S; nia]].
Qed.
(* C85: every value below |x| is left by exactly 2^spare draws, so none is preferred *)
Theorem C85_uniform : forall w x v u, 0 < w -> holds w x v -> 0 <= u < Z.abs v -> let n := length (lm x) in let s := spare w n v in 0 <= s < w /\
  exists g : Z -> list Z, (forall r, 0 <= r < 2 ^ s -> draw w n (g r) /\ kept w n s (value w (g r)) = u) /\
    (forall r r', 0 <= r < 2 ^ s -> 0 <= r' < 2 ^ s -> g r = g r' -> r = r') /\
    (forall d, draw w n d -> kept w n s (value w d) = u -> exists r, 0 <= r < 2 ^ s /\ d = g r).
Proof.
  intros w x v u W H U n s. hz. destruct (urandomm_ok w W x v [] H ltac:(lia) (Forall_nil _)) as (s' & S & _ & M & NN & ES & _). fold n in ES, NN, M. fold (spare w n v) in ES. fold s in ES. subst s'. split; [exact S|]. destruct (cut_uniform w W n s (Z.abs v) u NN S M U) as (g & G1 & G2 & G3). exists g. split; [|split].
  - intros r R. destruct (G1 r R) as (A & B & C). split; [split; assumption|]. rewrite <- (cut_kept w n s _ W (proj1 S)). exact C.
  - exact G2.
  - intros d (LD & HD) K. apply G3; [exact HD|exact LD|]. rewrite (cut_kept w n s _ W (proj1 S)). exact K.
Qed.
(* C85: the |x| 2^spare accepted draws are at least half of all draws *)
Theorem C85_accepted : forall w x v, 0 < w -> holds w x v -> v <> 0 -> let n := length (lm x) in (2 ^ w) ^ Z.of_nat n <= 2 * (Z.abs v * 2 ^ spare w n v) /\ Z.abs v * 2 ^ spare w n v < (2 ^ w) ^ Z.of_nat n.
Proof. intros w x v W H NV n. hz. destruct (urandomm_ok w W x v [] H NV (Forall_nil _)) as (s' & S & M1 & M & NN & ES & _). fold n in ES, NN, M, M1. fold (spare w n v) in ES. subst s'. split; [exact M1|exact M]. Qed.
(* C85: below 0 there is nothing to draw; the result is 0 *)
Theorem C85_urandomm_zero : forall w x draws, 0 < w -> holds w x 0 -> exists z, mpz_urandomm w x draws = Some z /\ holds w z 0.
Proof.
  intros w x draws W H. exists (mkz false []). hz. split.
  - unfold mpz_urandomm. destruct H as [(neg & l & -> & N & NZ) V]. rewrite (mkz_zval w) in V by exact NZ. assert (L0 : l = []) by (apply (normal_0 w W); [exact N|]; unfold sg in V; destruct neg; lia). subst l. destruct neg; reflexivity.
  - hs. split; [exists false, []; auto using normal_nil|reflexivity].
Qed.
(* C85: the low bits of the draw, whatever the number of bits *)
Theorem C85_urandomb : forall w bits d, 0 < w -> 0 <= bits -> draw w (Z.to_nat ((bits + w - 1) / w)) d -> holds w (mpz_urandomb w bits d) (value w d mod 2 ^ bits).
Proof. intros w bits d W NB (L & H). hs. apply urandomb_ok; assumption. Qed.
Example C85_ex : mpz_urandomm 8 (MkMpz (-2) [5; 3]) [[6; 255]; [200; 130]; [9; 191]] = Some (MkMpz (-2) [200; 2]) /\ mpz_urandomm 8 (MkMpz 2 [5; 3]) [[5; 192]] = None /\ mpz_urandomm 8 (MkMpz (-1) [5]) [[31]] = Some (MkMpz 0 []) /\
  spare 8 2 (-773) = 6 /\ kept 8 2 6 (200 + 256 * 130) = 712 /\ mpz_urandomb 8 11 [77; 255] = MkMpz 2 [77; 7] /\ mpz_urandomb 8 16 [77; 255] = MkMpz 2 [77; 255].
Proof. vm_compute. repeat split. Qed.

(* the axioms of every theorem above, listed at once *)
Definition MpzRandProps_all := (@C85_urandomm, @C85_uniform, @C85_accepted, @C85_urandomm_zero, @C85_urandomb).
Print Assumptions MpzRandProps_all.
