(* Model of the private keys of the ristretto group in src/ecc.c: ristretto_privkey_generate (14404-14419), from_uniform, verify,
   is_zero, export, import, tweak_add, tweak_mul, negate, invert (14438-14582), and of the search of ristretto_pubkey_grind
   (14606-14641). rge_import and rge_export are not modelled: the search starts from the point that was read and takes the
   encoding as a function. The callback is a function of the octets of a public key, its context argument is left out. The loops
   have no bound in C: rf bounds the draws and fuel the candidates, and Fail stands for a loop that has not ended. *)
From Verif.Base Require Import Prelude.
From Verif.Model Require Import Encoding Bio Hash Drbg Field EcScalar Wei Ecdsa Schnorr Edwards Eddsa.
Section P.
Variable p : positive.
Local Notation edw := (edw p).
Local Notation xge := (xge p).
(* ENTROPY_SIZE is 32 *)
Definition ristretto_privkey_generate (rf : nat) (c : edw) (entropy : list Z) : outcome (list Z) :=
  bind (hmac_drbg_init SHA256 (firstn 32 entropy)) (fun rng =>
  match sc_random rf (x_n p c) (xsbits p c) rng with Some (a, _) => Ok (xsc_export p c a) | None => Fail end).
(* 14438-14448: sc->size * 2 octets *)
Definition ristretto_privkey_from_uniform (c : edw) (raw : list Z) : outcome (list Z) :=
  bind (of_opt (xsc_wide p c (firstn (xssize p c * 2) raw))) (fun a => Ok (xsc_export p c a)).
(* 14450-14502; torsion_memequal by value *)
Definition ristretto_privkey_verify (c : edw) (priv : list Z) : bool := snd (xsc_import p c priv).
Definition ristretto_privkey_is_zero (c : edw) (priv : list Z) : bool := forallb (fun x => x =? 0) (firstn (xssize p c) priv).
Definition ristretto_privkey_export (c : edw) (priv : list Z) : list Z * bool := let '(a, ok) := xsc_import p c priv in (xsc_export p c a, ok).
(* sc_import_pad (1026-1037) of little endian octets: zeros at the end of an oversized string are dropped *)
Definition xsc_import_pad (c : edw) (raw : list Z) : Z * bool :=
  let raw := rev (drop_pad (xssize p c) (rev raw)) in
  if (xssize p c <? length raw)%nat then (0, false) else xsc_import p c raw.
Definition ristretto_privkey_import (c : edw) (raw : list Z) : list Z * bool := let '(a, ok) := xsc_import_pad c raw in (xsc_export p c a, ok).
(* 14504-14582 *)
Definition ristretto_privkey_tweak_add (c : edw) (priv tweak : list Z) : list Z * bool :=
  let '(a, ok) := xsc_import p c priv in let '(t, ok') := xsc_import p c tweak in (xsc_export p c (sc_add (x_n p c) a t), ok && ok').
Definition ristretto_privkey_tweak_mul (c : edw) (priv tweak : list Z) : list Z * bool :=
  let '(a, ok) := xsc_import p c priv in let '(t, ok') := xsc_import p c tweak in
  let a := sc_mul (x_n p c) a t in (xsc_export p c a, ok && ok' && negb (a =? 0)).
Definition ristretto_privkey_negate (c : edw) (priv : list Z) : list Z * bool :=
  let '(a, ok) := xsc_import p c priv in (xsc_export p c (sc_neg (x_n p c) a), ok).
Definition ristretto_privkey_invert (c : edw) (priv : list Z) : list Z * bool :=
  let '(a, ok) := xsc_import p c priv in (xsc_export p c (fst (sc_invert (x_n p c) a)), ok).
(* 14622-14636: w is the number of bits of a limb, ex stands for rge_export. The scalar t is not set before the loop: t0 is what its
   memory holds, taken below n here. *)
Fixpoint ristretto_grind_loop (w : Z) (fuel : nat) (c : edw) (ex : xge -> list Z) (check : list Z -> bool) (A : xge) (t counter : Z) : outcome Z :=
  match fuel with
  | O => Fail
  | S fuel =>
    let A := xmadd p c A (x_g p c) in
    let counter := counter + 1 in
    let '(t, counter) := if counter =? 2 ^ w - 1 then (sc_add (x_n p c) t counter, 0) else (t, counter) in
    if check (ex A) then Ok (sc_add (x_n p c) t counter) else ristretto_grind_loop w fuel c ex check A t counter
  end.
Definition ristretto_point_grind (w : Z) (fuel : nat) (c : edw) (ex : xge -> list Z) (check : list Z -> bool) (A : xge) (t0 : Z) : outcome (list Z) :=
  bind (ristretto_grind_loop w fuel c ex check A t0 0) (fun t => Ok (xsc_export p c t)).
End P.
