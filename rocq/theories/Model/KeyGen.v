(* Model of key generation and grinding on Montgomery curves in src/ecc.c: ecdh_privkey_generate (12917-12930) and
   ecdh_privkey_grind (12932-12958). The callback is a function of the octets of a public key, its context argument is left out.
   The loop has no bound in C: fuel bounds the candidates, and Fail stands for a loop that has not ended. ENTROPY_SIZE is 32. *)
From Verif.Base Require Import Prelude.
From Verif.Model Require Import Encoding Bio Hash Drbg Field EcScalar Wei Ecdsa Mont.
Section P.
Variable p : positive.
Local Notation mont := (mont p).
(* drbg_generate and mont_clamp, as in 12925-12927 and 12948-12949; the fuel of the generator is enough for every length *)
Definition ecdh_draw (c : mont) (rng : hmac_drbg_t) : outcome (list Z * hmac_drbg_t) :=
  match hmac_drbg_generate (mssize p c) rng (mssize p c) [] with
  | Some (Ok (raw, rng)) => match mont_clamp p c raw with Some priv => Ok (priv, rng) | None => Abort end
  | Some Fail | None => Fail
  | Some Abort => Abort
  end.
Definition ecdh_privkey_generate (c : mont) (entropy : list Z) : outcome (list Z) :=
  bind (hmac_drbg_init SHA256 (firstn 32 entropy)) (fun rng => bind (ecdh_draw c rng) (fun '(priv, _) => Ok priv)).
(* 12947-12953, with the ASSERT on the export *)
Fixpoint ecdh_grind_loop (fuel : nat) (c : mont) (check : list Z -> bool) (rng : hmac_drbg_t) : outcome (list Z) :=
  match fuel with
  | O => Fail
  | S fuel =>
    bind (ecdh_draw c rng) (fun '(priv, rng) =>
    let '(pub, ok) := pge_export p (cmul_g p c (msc_raw p c priv)) in
    if negb ok then Abort else if check pub then Ok priv else ecdh_grind_loop fuel c check rng)
  end.
Definition ecdh_privkey_grind (fuel : nat) (c : mont) (check : list Z -> bool) (entropy : list Z) : outcome (list Z) :=
  bind (hmac_drbg_init SHA256 (firstn 32 entropy)) (ecdh_grind_loop fuel c check).
End P.
