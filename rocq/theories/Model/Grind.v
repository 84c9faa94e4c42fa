(* Model of key generation and grinding of src/ecc.c: ecdsa_privkey_generate and ecdsa_privkey_grind (10546-10581),
   ecdsa_pubkey_grind (10739-10783), bip340_privkey_generate and bip340_privkey_grind (11962-11984), bip340_pubkey_grind
   (12103-12143). The callback is a function of the octets of a key; its length argument is the length of the key that was
   given, and its context argument is left out. Both loops have no bound in C: rf bounds the draws and fuel the candidates, and
   Fail stands for a loop that has not ended (or a square root that is not modelled). w is the number of bits of a limb. *)
From Verif.Base Require Import Prelude.
From Verif.Model Require Import Encoding Bio Hash Drbg Field EcScalar Wei Ecdsa Schnorr.
Section P.
Variable p : positive.
Local Notation wei := (wei p).
Local Notation wge := (wge p).
Variable w : Z.
(* ENTROPY_SIZE is 32 *)
Definition ecdsa_privkey_generate (rf : nat) (c : wei) (entropy : list Z) : outcome (list Z) :=
  bind (hmac_drbg_init SHA256 (firstn 32 entropy)) (fun rng =>
  match sc_random rf (e_n p c) (sbits p c) rng with Some (a, _) => Ok (sc_export p c a) | None => Fail end).
Definition bip340_privkey_generate := ecdsa_privkey_generate.
(* the loop of both functions (10760-10774, 12121-12135) and the sum after it: the counter is moved into the scalar before it
   would overflow. The scalar is below n because n has more than w bits, so that sc_set_word gives a reduced value. *)
Fixpoint grind_loop (fuel : nat) (c : wei) (ex : wge -> list Z * bool) (check : list Z -> bool) (A : wge) (t counter : Z) : outcome Z :=
  match fuel with
  | O => Fail
  | S fuel =>
    match wge_add_var p (e_a p c) (e_h p c) A (e_g p c) with
    | None => Fail
    | Some A =>
      let counter := counter + 1 in
      let '(t, counter) := if counter =? 2 ^ w - 1 then (sc_add (e_n p c) t counter, 0) else (t, counter) in
      let '(out, ok) := ex A in
      if ok && check out then Ok (sc_add (e_n p c) t counter) else grind_loop fuel c ex check A t counter
    end
  end.
(* None: the key is refused *)
Definition ecdsa_pubkey_grind (fuel : nat) (c : wei) (pub : list Z) (check : list Z -> bool) : outcome (option (list Z)) :=
  let compact := (length pub =? 1 + fsize p)%nat in
  match wge_import p c pub with
  | None => Fail
  | Some (_, false) => Ok None
  | Some (A, true) => bind (grind_loop fuel c (fun A => wge_export p A compact) check A 0 0) (fun t => Ok (Some (sc_export p c t)))
  end.
Definition bip340_pubkey_grind (fuel : nat) (c : wei) (pub : list Z) (check : list Z -> bool) : outcome (option (list Z)) :=
  match wge_import_even p c pub with
  | None => Fail
  | Some (_, false) => Ok None
  | Some (A, true) => bind (grind_loop fuel c (wge_export_x p) check A 0 0) (fun t => Ok (Some (sc_export p c t)))
  end.
(* a failed CHECK aborts *)
Definition ecdsa_privkey_grind (rf fuel : nat) (c : wei) (entropy : list Z) (compact : bool) (check : list Z -> bool) : outcome (list Z) :=
  bind (ecdsa_privkey_generate rf c entropy) (fun priv =>
  let '(pub, ok) := ecdsa_pubkey_create p c priv compact in
  if negb ok then Abort else
  bind (ecdsa_pubkey_grind fuel c pub check) (fun r =>
  match r with
  | None => Abort
  | Some tweak => let '(out, ok) := ecdsa_privkey_tweak_add p c priv tweak in if ok then Ok out else Abort
  end)).
Definition bip340_privkey_grind (rf fuel : nat) (c : wei) (entropy : list Z) (check : list Z -> bool) : outcome (list Z) :=
  bind (bip340_privkey_generate rf c entropy) (fun priv =>
  let '(pub, ok) := bip340_pubkey_create p c priv in
  if negb ok then Abort else
  bind (bip340_pubkey_grind fuel c pub check) (fun r =>
  match r with
  | None => Abort
  | Some tweak => let '(out, ok) := bip340_privkey_tweak_add p c priv tweak in if ok then Ok out else Abort
  end)).
End P.
