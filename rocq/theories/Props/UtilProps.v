(* C01-C03: src/util.c *)
From Verif.Base Require Import Prelude.
From Verif.Model Require Import Util.
From Verif.Spec Require Import UtilSpec.
From Verif.Proof Require Import UtilProof.

(* C01: -1, 0, 1 exactly as the lexicographic order says. *)
Theorem C01_memcmp_lexicographic : forall x y,
  bytes x -> bytes y -> length x = length y ->
  torsion_memcmp x y = match lex x y with Eq => 0 | Lt => -1 | Gt => 1 end.
Proof. exact memcmp_correct. Qed.
Example C01_memcmp_ex : torsion_memcmp [1; 255; 7] [1; 3; 9] = 1 /\ lex [1; 255; 7] [1; 3; 9] = Gt.
Proof. split; vm_compute; reflexivity. Qed.

Theorem C01_memcmp_var_lexicographic : forall x y,
  bytes x -> bytes y -> length x = length y ->
  match lex x y with
  | Eq => torsion_memcmp_var x y = 0
  | Lt => torsion_memcmp_var x y < 0
  | Gt => torsion_memcmp_var x y > 0
  end.
Proof. exact memcmp_var_correct. Qed.
Example C01_memcmp_var_ex : torsion_memcmp_var [1; 2] [1; 255] = -253.
Proof. vm_compute; reflexivity. Qed.

Theorem C01_memequal_exact : forall x y,
  bytes x -> bytes y -> length x = length y ->
  torsion_memequal x y = if list_eq_dec Z.eq_dec x y then 1 else 0.
Proof. exact memequal_iff. Qed.
Example C01_memequal_ex : torsion_memequal [0; 128] [0; 0] = 0 /\ torsion_memequal [9; 8] [9; 8] = 1.
Proof. split; vm_compute; reflexivity. Qed.

(* C02 *)
Theorem C02_memxor_bytewise : forall z x i,
  length z = length x -> (i < length z)%nat ->
  nth i (torsion_memxor z x) 0 = Z.lxor (nth i z 0) (nth i x 0).
Proof. exact memxor_nth. Qed.
Theorem C02_memxor_length : forall z x,
  length z = length x -> length (torsion_memxor z x) = length z.
Proof. exact memxor_length. Qed.
Theorem C02_memxor_involutive : forall z x,
  length z = length x -> torsion_memxor (torsion_memxor z x) x = z.
Proof. exact memxor_involutive. Qed.
Theorem C02_memxor3_bytewise : forall x y i,
  length x = length y -> (i < length x)%nat ->
  nth i (torsion_memxor3 x y) 0 = Z.lxor (nth i x 0) (nth i y 0).
Proof. exact memxor3_nth. Qed.
Theorem C02_memxor3_length : forall x y,
  length x = length y -> length (torsion_memxor3 x y) = length x.
Proof. exact memxor3_length. Qed.
Example C02_ex : torsion_memxor [1; 2; 3] [255; 2; 0] = [254; 0; 3].
Proof. vm_compute; reflexivity. Qed.

(* C03 *)
Theorem C03_murmur3_is_published_function : forall data seed r,
  bytes data -> 0 <= seed < 4294967296 ->
  (murmur3_sum data seed = r <-> is_murmur3 data seed r).
Proof. exact murmur3_correct_iff. Qed.
(* "hello" with seed 0 (published value 0x248bfa47) *)
Example C03_murmur3_ex : murmur3_sum [104; 101; 108; 108; 111] 0 = 0x248bfa47.
Proof. vm_compute; reflexivity. Qed.

Theorem C03_murmur3_tweak_seed : forall data n tweak,
  murmur3_tweak data n tweak = murmur3_sum data ((n * 0xfba4c795 + tweak) mod 2 ^ 32).
Proof. intros. unfold murmur3_tweak, add32, mul32, w32. rewrite Zplus_mod_idemp_l. reflexivity. Qed.

(* the axioms of every theorem above, listed at once *)
Definition UtilProps_all := (@C01_memcmp_lexicographic, @C01_memcmp_var_lexicographic, @C01_memequal_exact, @C02_memxor_bytewise, @C02_memxor_length,
  @C02_memxor_involutive, @C02_memxor3_bytewise, @C02_memxor3_length, @C03_murmur3_is_published_function, @C03_murmur3_tweak_seed).
Print Assumptions UtilProps_all.
