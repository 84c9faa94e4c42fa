(* NIST SP 800-90A: HMAC_DRBG (10.1.2), Hash_DRBG (10.1.1) and CTR_DRBG (10.2.1), as state machines.
   Hash_DRBG keeps V and C as integers modulo 2^seedlen. *)
From Verif.Base Require Import Prelude.
From Verif.Model Require Import Hash.
From Verif.Spec Require Import BlockSpec HashSpec KdfSpec.

Inductive op (A : Type) := Reseed (seed : A) | Generate (len : nat) (add : list Z).
Arguments Reseed {A}. Arguments Generate {A}.

(* run the operations; the bytes of every Generate, in order *)
Fixpoint run {A St} (reseed : St -> A -> St) (gen : St -> nat -> list Z -> list Z * St) (st : St) (ops : list (op A)) : list (list Z) :=
  match ops with
  | [] => []
  | Reseed s :: ops => run reseed gen (reseed st s) ops
  | Generate n a :: ops => let '(o, st) := gen st n a in o :: run reseed gen st ops
  end.

(* ---- 10.1.2: state (K, V) ---- *)
Definition HMAC_Update (id : hash_id) (st : list Z * list Z) (data : list Z) : list Z * list Z :=
  let '(K, V) := st in
  let K := rfc2104 id K (V ++ [0] ++ data) in
  let V := rfc2104 id K V in
  match data with
  | [] => (K, V)
  | _ => let K := rfc2104 id K (V ++ [1] ++ data) in (K, rfc2104 id K V)
  end.
Definition HMAC_Instantiate (id : hash_id) (seed : list Z) : list Z * list Z :=
  HMAC_Update id (repeat 0 (hash_output_size id), repeat 1 (hash_output_size id)) seed.
Definition HMAC_Generate (id : hash_id) (st : list Z * list Z) (len : nat) (add : list Z) : list Z * (list Z * list Z) :=
  let '(K, V) := match add with [] => st | _ => HMAC_Update id st add end in
  let n := cover (hash_output_size id) len in
  let Vs i := Nat.iter i (rfc2104 id K) V in
  (firstn len (concat (map Vs (seq 1 n))), HMAC_Update id (K, Vs n) add).

(* ---- 10.1.1: state (V, C, reseed_counter) ---- *)
Definition seedlen (id : hash_id) : nat := if (hash_output_size id <=? 32)%nat then 440 else 888.
(* 10.3.1 Hash_df; n bits, a multiple of 8 *)
Definition Hash_df (id : hash_id) (input : list Z) (n : nat) : list Z :=
  firstn (n / 8) (concat (map (fun i => H id ([Z.of_nat i] ++ be_bytes 4 (Z.of_nat n) ++ input)) (seq 1 (cover (hash_output_size id) (n / 8))))).
Definition Vbytes (id : hash_id) (V : Z) : list Z := be_bytes (seedlen id / 8) V.
Definition modseed (id : hash_id) (x : Z) : Z := x mod 2 ^ Z.of_nat (seedlen id).
Definition hash_seed (id : hash_id) (seed : list Z) : Z * Z * Z :=
  let V := be_val (Hash_df id seed (seedlen id)) in
  (V, be_val (Hash_df id ([0] ++ Vbytes id V) (seedlen id)), 1).
Definition Hash_Instantiate (id : hash_id) (seed : list Z) : Z * Z * Z := hash_seed id seed.
Definition Hash_Reseed (id : hash_id) (st : Z * Z * Z) (seed : list Z) : Z * Z * Z :=
  let '(V, C, rc) := st in hash_seed id ([1] ++ Vbytes id V ++ seed).
(* 10.1.1.4 Hashgen *)
Definition Hashgen (id : hash_id) (len : nat) (V : Z) : list Z :=
  firstn len (concat (map (fun i => H id (Vbytes id (modseed id (V + Z.of_nat i)))) (seq 0 (cover (hash_output_size id) len)))).
Definition Hash_Generate (id : hash_id) (st : Z * Z * Z) (len : nat) (add : list Z) : list Z * (Z * Z * Z) :=
  let '(V, C, rc) := st in
  let V := match add with [] => V | _ => modseed id (V + be_val (H id ([2] ++ Vbytes id V ++ add))) end in
  (Hashgen id len V, (modseed id (V + be_val (H id ([3] ++ Vbytes id V)) + C + rc), C, rc + 1)).

(* ---- 10.2.1 over a 128-bit block cipher E; state (K, V), keylen in bytes ---- *)
Section Ctr.
  Variable E : list Z -> list Z -> list Z.
  Variable keylen : nat.
  Definition slen : nat := (keylen + 16)%nat.
  Definition nextV (V : list Z) (i : nat) : list Z := be_bytes 16 (be_val V + Z.of_nat i).
  (* n bytes of E(K, V+1), E(K, V+2), ... *)
  Definition ctr_out (K V : list Z) (n : nat) : list Z := firstn n (concat (map (fun i => E K (nextV V i)) (seq 1 (cover 16 n)))).
  Definition zpad (l : list Z) (n : nat) : list Z := l ++ repeat 0 (n - length l).
  Definition CTR_Update (st : list Z * list Z) (data : list Z) : list Z * list Z :=
    let t := map2 Z.lxor (ctr_out (fst st) (snd st) slen) (zpad data slen) in (firstn keylen t, skipn keylen t).
  (* 10.3.3 *)
  Definition BCC (K : list Z) (data : list Z) : list Z := fold_left (fun ch b => E K (map2 Z.lxor ch b)) (blocks 16 data) (repeat 0 16).
  (* 10.3.2 Block_Cipher_df, n bytes requested *)
  Definition df_S (input : list Z) (n : nat) : list Z :=
    let S := be_bytes 4 (Z.of_nat (length input)) ++ be_bytes 4 (Z.of_nat n) ++ input ++ [0x80] in zpad S (16 * cover 16 (length S)).
  Definition Block_Cipher_df (input : list Z) (n : nat) : list Z :=
    let temp := concat (map (fun i => BCC (zseq 0 keylen) (be_bytes 4 (Z.of_nat i) ++ repeat 0 12 ++ df_S input n)) (seq 0 (cover 16 slen))) in
    let K := firstn keylen temp in
    let X := firstn 16 (skipn keylen temp) in
    firstn n (concat (map (fun i => Nat.iter i (E K) X) (seq 1 (cover 16 n)))).
  (* with the derivation function the seed material is nonce || personalisation; without, it is their xor *)
  Definition seed_material (df : bool) (x y : list Z) : list Z :=
    if df then Block_Cipher_df (x ++ y) slen else map2 Z.lxor (zpad x slen) (zpad y slen).
  Definition CTR_Instantiate (df : bool) (x y : list Z) : list Z * list Z := CTR_Update (repeat 0 keylen, repeat 0 16) (seed_material df x y).
  Definition CTR_Reseed (df : bool) (st : list Z * list Z) (x y : list Z) : list Z * list Z := CTR_Update st (seed_material df x y).
  Definition CTR_Generate (df : bool) (st : list Z * list Z) (len : nat) (add : list Z) : list Z * (list Z * list Z) :=
    let data := match add with [] => [] | _ => if df then Block_Cipher_df add slen else add end in
    let '(K, V) := match add with [] => st | _ => CTR_Update st data end in
    (ctr_out K V len, CTR_Update (K, nextV V (cover 16 len)) data).
End Ctr.
