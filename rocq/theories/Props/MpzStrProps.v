(* C56: integers from and to byte strings and numerals. MP_LIMB_BITS is w = 8 * k (32 or 64 in the code). *)
From Verif.Base Require Import Prelude.
From Verif.Spec Require Import StrSpec.
From Verif.Model Require Import Encoding Hash Mpn Mpz MpzStr.
From Verif.Proof Require Import MpnProof MpnShift MpnDiv MpzProof MpzImport MpzStrProof MpzStrOut.
From Verif.Props Require Import MpzProps.
(* endian 1 and -1: big and little endian *)
Definition from_bytes (e : Z) (l : list Z) : Z := if e =? 1 then be_val l else le_val l.
Theorem C56_import w k raw e : (0 < k)%nat -> w = 8 * Z.of_nat k -> bytes raw -> e = 1 \/ e = -1 -> gives w (mpz_import w raw e) (from_bytes e raw).
Proof. intros Hk Wk H He. assert (Hw : 0 < w) by lia. hs. exact (mpz_import_ok w k Hk Wk raw e H He). Qed.
(* export writes the magnitude in exactly the size asked for, and aborts exactly when it does not fit *)
Theorem C56_export w k x v n e : (0 < k)%nat -> w = 8 * Z.of_nat k -> holds w x v -> e = 1 \/ e = -1 ->
  if Z.abs v <? 256 ^ Z.of_nat n then exists l, mpz_export w x n e = Ok l /\ length l = n /\ bytes l /\ from_bytes e l = Z.abs v else mpz_export w x n e = Abort.
Proof.
  intros Hk Wk H He. assert (Hw : 0 < w) by lia. hz. rewrite (mpz_export_ok w k Hk Wk x v n e H He). pose proof (bytes_of_spec k Hk v n) as BS. destruct (Z.ltb_spec (Z.abs v) (256 ^ Z.of_nat n)) as [G|G].
  - destruct (Z.leb_spec (bytes_of v) (Z.of_nat n)) as [L|L]; [|apply BS in G; lia]. eexists. split; [reflexivity|]. unfold from_bytes, be_bytes, le_bytes, be_val, le_val. destruct (e =? 1).
    + split; [rewrite rev_length; apply digits_length|]. split; [apply be_bytes_bytes|]. rewrite rev_involutive, dval_digits by lia. apply Z.mod_small. lia.
    + split; [apply digits_length|]. split; [apply le_bytes_bytes|]. rewrite dval_digits by lia. apply Z.mod_small. lia.
  - destruct (Z.leb_spec (bytes_of v) (Z.of_nat n)) as [L|L]; [apply BS in L; lia|reflexivity].
Qed.
Theorem C56_bytelen w k x v : (0 < k)%nat -> w = 8 * Z.of_nat k -> holds w x v ->
  mpz_bitlen w x = (if v =? 0 then 0 else Z.log2 (Z.abs v) + 1) /\ forall n, mpz_bytelen w x <= Z.of_nat n <-> Z.abs v < 256 ^ Z.of_nat n.
Proof. intros Hk Wk H. assert (Hw : 0 < w) by lia. hz. pose proof (bitlen_ok w k Hk Wk x v H) as E. split; [exact E|]. intros n. unfold mpz_bytelen. rewrite E. exact (bytes_of_spec k Hk v n). Qed.
Theorem C56_import_export w k x v n e : (0 < k)%nat -> w = 8 * Z.of_nat k -> holds w x v -> 0 <= v < 256 ^ Z.of_nat n -> e = 1 \/ e = -1 -> bind (mpz_export w x n e) (fun l => mpz_import w l e) = Ok x.
Proof.
  intros Hk Wk H Hv He. pose proof (C56_export w k x v n e Hk Wk H He) as X. destruct (Z.ltb_spec (Z.abs v) (256 ^ Z.of_nat n)) as [G|G]; [|lia]. destruct X as (l & E & L & BL & V). rewrite E. cbn [bind]. destruct (C56_import w k l e Hk Wk BL He) as (z & E2 & Hz). rewrite E2. f_equal. rewrite V, Z.abs_eq in Hz by lia. exact (C51_canonical w z x v ltac:(lia) Hz H).
Qed.
Theorem C56_export_import w k raw e : (0 < k)%nat -> w = 8 * Z.of_nat k -> bytes raw -> e = 1 \/ e = -1 -> bind (mpz_import w raw e) (fun x => mpz_export w x (length raw) e) = Ok raw.
Proof.
  intros Hk Wk H He. destruct (C56_import w k raw e Hk Wk H He) as (z & E & Hz). rewrite E. cbn [bind]. assert (R : 0 <= from_bytes e raw < 256 ^ Z.of_nat (length raw)). { unfold from_bytes, be_val, le_val. destruct (e =? 1); [rewrite <- (rev_length raw); apply dval_range; [lia|apply Forall_rev; exact H]|apply dval_range; [lia|exact H]]. }
  pose proof (C56_export w k z (from_bytes e raw) (length raw) e Hk Wk Hz He) as X. destruct (Z.ltb_spec (Z.abs (from_bytes e raw)) (256 ^ Z.of_nat (length raw))) as [G|G]; [|lia]. destruct X as (l & E2 & L & BL & V). rewrite E2. f_equal. rewrite Z.abs_eq in V by lia. unfold from_bytes, be_val, le_val in V. destruct (e =? 1).
  - rewrite <- (rev_involutive l), <- (rev_involutive raw). f_equal. apply (dval_inj 256); [lia|apply Forall_rev; exact BL|apply Forall_rev; exact H|rewrite !rev_length; exact L|exact V].
  - apply (dval_inj 256); [lia|exact BL|exact H|exact L|exact V].
Qed.
(* the sign is not exported *)
Theorem C56_sign_refuted : exists x, holds 8 x (-5) /\ exists y, bind (mpz_export 8 x 1 1) (fun l => mpz_import 8 l 1) = Ok y /\ holds 8 y 5.
Proof. exists (mkz true [5]). split; [apply holds_isz; [lia|]; apply isz_mkz; [apply (normal_last 8 ltac:(lia)); [repeat constructor; unfold below, LB; lia|right; cbn; lia]|reflexivity]|]. exists (mkz false [5]). split; [vm_compute; reflexivity|]. apply holds_isz; [lia|]. apply isz_mkz; [apply (normal_last 8 ltac:(lia)); [repeat constructor; unfold below, LB; lia|right; cbn; lia]|reflexivity]. Qed.
(* mpz_set_str reads exactly the integers of the specification; otherwise it fails and leaves zero. NUL is not a character of a string *)
Theorem C56_set_str w k s base : (0 < k)%nat -> w = 8 * Z.of_nat k -> bytes s ->
  match read_integer base s with
  | Some v => snd (mpz_set_str w s base) = true /\ holds w (fst (mpz_set_str w s base)) v
  | None => snd (mpz_set_str w s base) = false /\ holds w (fst (mpz_set_str w s base)) 0
  end.
Proof. intros Hk Wk H. assert (Hw : 0 < w) by lia. pose proof (set_str_ok w k Hk Wk s base H) as S. destruct (mpz_set_str w s base) as [z ok]. cbn [fst snd]. destruct (read_integer base s); (split; [exact (proj1 S)|hs; exact (proj2 S)]). Qed.
(* mpz_get_str writes the sign and the shortest numeral, and mpz_sizeinbase is its exact length *)
Theorem C56_get_str w k x v base : (0 < k)%nat -> w = 8 * Z.of_nat k -> holds w x v -> 2 <= base <= 62 ->
  exists s, numeral base (Z.abs v) s /\ mpz_get_str w x base = Some (Ok (if v <? 0 then 45 :: s else s)) /\ mpz_sizeinbase w x base = Some (Ok (Z.of_nat (length s))).
Proof. intros Hk Wk H Hb. assert (Hw : 0 < w) by lia. hz. exact (get_str_ok w k Hk Wk x v base H Hb). Qed.
Theorem C56_sizeinbase w k x v base n : (0 < k)%nat -> w = 8 * Z.of_nat k -> holds w x v -> v <> 0 -> 2 <= base <= 62 -> mpz_sizeinbase w x base = Some (Ok n) -> base ^ (n - 1) <= Z.abs v < base ^ n.
Proof.
  intros Hk Wk H Hv Hb E. destruct (C56_get_str w k x v base Hk Wk H Hb) as (s & (ds & -> & F & V & L & NE) & _ & E2). rewrite E2 in E. assert (n = Z.of_nat (length ds)) by (rewrite map_length in E; congruence). subst n. rewrite <- (rev_length ds). apply isdigits_len; [lia|]. split; [apply Forall_rev; exact F|]. split; [rewrite <- fold_dval, rev_involutive; exact V|].
  split; [|intros C; apply NE; rewrite <- (rev_involutive ds), C; reflexivity]. destruct ds as [|d ds]; [contradiction|]. cbn [rev]. rewrite last_last. destruct L as [L|L]; [|exact L]. injection L as -> ->. cbn in V. lia.
Qed.
Theorem C56_get_str_aborts w x base : base < 2 \/ 62 < base -> match mpz_get_str w x base with Some (Ok _) => False | _ => True end.
Proof.
  intros H. unfold mpz_get_str. destruct (mpz_sizeinbase w x base) as [[n| |]|]; try exact I. unfold mpn_get_str. replace ((base <? 2) || (62 <? base)) with true; [exact I|]. symmetry. apply orb_true_iff. destruct H; [left|right]; apply Z.ltb_lt; assumption.
Qed.
Theorem C56_str_roundtrip w k x v base : (0 < k)%nat -> w = 8 * Z.of_nat k -> holds w x v -> 2 <= base <= 62 -> exists s, mpz_get_str w x base = Some (Ok s) /\ mpz_set_str w s base = (x, true).
Proof.
  intros Hk Wk H Hb. destruct (C56_get_str w k x v base Hk Wk H Hb) as (s & N & E & _). eexists. split; [exact E|]. destruct (read_numeral k Hk base (Z.abs v) s Hb N) as (R1 & R2 & BS).
  assert (R : read_integer base (if v <? 0 then 45 :: s else s) = Some v) by (destruct (Z.ltb_spec v 0); [rewrite R2|rewrite R1]; f_equal; lia). assert (BY : bytes (if v <? 0 then 45 :: s else s)) by (destruct (v <? 0); [constructor; [unfold byte; lia|exact BS]|exact BS]).
  pose proof (C56_set_str w k _ base Hk Wk BY) as S. rewrite R in S. destruct (mpz_set_str w (if v <? 0 then 45 :: s else s) base) as [z ok]. cbn [fst snd] in S. destruct S as (-> & S). f_equal. exact (C51_canonical w z x v ltac:(lia) S H).
Qed.
(* "0x1fF " in base 0 is 511, "-zz" in base 36 is -1295, "08" in base 0 is not octal; -1295 is -zz in base 36 and -Kt in base 62 *)
Example C56_set_ex : map (fun '(s, b) => mpz_set_str 32 s b) [([48; 120; 49; 102; 70; 32], 0); ([32; 45; 122; 122], 36); ([48; 56], 0); ([49], 63)] = [(mkz false [511], true); (mkz true [1295], true); (mkz false [], false); (mkz false [], false)].
Proof. vm_compute. reflexivity. Qed.
Example C56_get_ex : map (fun b => mpz_get_str 32 (mkz true [1295]) b) [36; 62; 16; 8; 10; 63] = [Some (Ok [45; 122; 122]); Some (Ok [45; 75; 116]); Some (Ok [45; 53; 48; 102]); Some (Ok [45; 50; 52; 49; 55]); Some (Ok [45; 49; 50; 57; 53]); Some Abort].
Proof. vm_compute. reflexivity. Qed.
(* 2^32 + 5 over two limbs, in base 10 and, across the limb boundary, in base 8 *)
Example C56_two_limbs_ex : map (mpz_get_str 32 (mkz false [5; 1])) [10; 8] = [Some (Ok [52; 50; 57; 52; 57; 54; 55; 51; 48; 49]); Some (Ok [52; 48; 48; 48; 48; 48; 48; 48; 48; 48; 53])] /\ mpz_set_str 32 [52; 50; 57; 52; 57; 54; 55; 51; 48; 49] 10 = (mkz false [5; 1], true).
Proof. vm_compute. split; reflexivity. Qed.
Example C56_bytes_ex : mpz_import 32 [1; 2; 3; 4; 5] 1 = Ok (mkz false [33752069; 1]) /\ mpz_export 32 (mkz false [33752069; 1]) 6 (-1) = Ok [5; 4; 3; 2; 1; 0] /\ mpz_export 32 (mkz false [33752069; 1]) 4 1 = Abort.
Proof. vm_compute. repeat split; reflexivity. Qed.

(* the axioms of every theorem above, listed at once *)
Definition MpzStrProps_all := (@C56_import, @C56_export, @C56_bytelen, @C56_import_export, @C56_export_import, @C56_sign_refuted, @C56_set_str, @C56_get_str,
  @C56_sizeinbase, @C56_get_str_aborts, @C56_str_roundtrip).
Print Assumptions MpzStrProps_all.
