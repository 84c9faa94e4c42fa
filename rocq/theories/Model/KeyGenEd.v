(* Model of key generation and grinding on Edwards curves in src/ecc.c: eddsa_privkey_generate (13268-13279), eddsa_privkey_grind
   (13281-13310) and eddsa_scalar_generate (13312-13325). The callback is a function of the octets of a public key, its context
   argument is left out. The loop has no bound in C: fuel bounds the candidates, and Fail stands for a loop that has not ended.
   ENTROPY_SIZE is 32. *)
From Verif.Base Require Import Prelude.
From Verif.Model Require Import Encoding Bio Hash Drbg Field EcScalar Wei Ecdsa Schnorr Edwards Eddsa.
Section P.
Variable p : positive.
Local Notation edw := (edw p).
(* drbg_generate; the fuel of the generator is enough for every length *)
Definition ed_draw (rng : hmac_drbg_t) (len : nat) : outcome (list Z * hmac_drbg_t) :=
  match hmac_drbg_generate len rng len [] with Some r => r | None => Fail end.
Definition eddsa_privkey_generate (entropy : list Z) : outcome (list Z) :=
  bind (hmac_drbg_init SHA256 (firstn 32 entropy)) (fun rng => bind (ed_draw rng (adj_size p)) (fun '(priv, _) => Ok priv)).
(* 13298-13304: eddsa_privkey_hash leaves the clamped scalar in front *)
Fixpoint eddsa_grind_loop (fuel : nat) (c : edw) (check : list Z -> bool) (rng : hmac_drbg_t) : outcome (list Z) :=
  match fuel with
  | O => Fail
  | S fuel =>
    bind (ed_draw rng (adj_size p)) (fun '(priv, rng) =>
    bind (eddsa_privkey_convert p c priv) (fun scalar =>
    bind (of_opt (xge_export p (xmul_g p c (xsc_reduce p c scalar)))) (fun pub =>
    if check pub then Ok priv else eddsa_grind_loop fuel c check rng)))
  end.
Definition eddsa_privkey_grind (fuel : nat) (c : edw) (check : list Z -> bool) (entropy : list Z) : outcome (list Z) :=
  bind (hmac_drbg_init SHA256 (firstn 32 entropy)) (eddsa_grind_loop fuel c check).
Definition eddsa_scalar_generate (c : edw) (entropy : list Z) : outcome (list Z) :=
  bind (hmac_drbg_init SHA256 (firstn 32 entropy)) (fun rng =>
  bind (ed_draw rng (xssize p c)) (fun '(raw, _) => of_opt (edwards_clamp p c raw))).
End P.
