(* src/rand.c: the user-space generator (ChaCha20 with fast key erasure) *)
From Verif.Base Require Import Prelude.
From Verif.Model Require Import Bio Util Stream Encoding Hash.

(* rand.c:48-56 rng_t. The arrays key and pool are lists of 32-bit words; their
   memory image, read through unsigned char pointers by rng_crypt and rng_read,
   is the one of a little-endian machine. rdrand is the flag of 53; r_drawn
   counts the torsion_rdrand32 words consumed so far (ghost: the index into the
   hardware stream), it is not a field of the C structure. *)
Record rng := mkRng {
  r_key : list Z; r_nonce : Z; r_pool : list Z; r_pos : nat;
  r_rdrand : bool; r_started : bool; r_pid : Z; r_drawn : nat }.

(* the memory image of a word array, and its inverse *)
Definition mem_of (ws : list Z) : list Z := concat (map write32le ws).
Fixpoint words_of (n : nat) (s : list Z) : list Z :=
  match n with O => [] | S m => read32le s :: words_of m (skipn 4 s) end.

(* What the platform returns to one call into this file: the process id
   (torsion_getpid), whether a system source exists, the 64 bytes of
   torsion_sysrand and torsion_hwrand (None: failure), torsion_has_rdrand. *)
Record env := mkEnv {
  e_pid : Z; e_has_sys : bool; e_sys : option (list Z); e_hw : option (list Z); e_rdrand : bool }.

(* rand.c:58-93 rng_init; None is return 0 *)
Definition rng_init (e : env) (drawn : nat) : option rng :=
  let fin h := Some (mkRng (words_of 8 (sha256_final h)) 0 (repeat 0 128) 0 (e_rdrand e) false 0 drawn) in
  if negb (e_has_sys e) then
    match e_hw e with
    | None => None
    | Some seed => fin (sha256_update sha256_init seed)
    end
  else
    match e_sys e with
    | None => None
    | Some seed =>
      let h := sha256_update sha256_init seed in
      match e_hw e with
      | Some seed => fin (sha256_update h seed)
      | None => fin h
      end
    end.

(* rand.c:95-108 rng_crypt. chacha20_init aborts only for other key or nonce
   sizes (C19_chacha20_accepts); that branch is unreachable here. *)
Definition rng_crypt (key : list Z) (nonce : Z) (data : list Z) : list Z :=
  match chacha20_init (mem_of key) (write64le nonce) 0 with
  | Some c => fst (chacha20_crypt c data)
  | None => []
  end.

(* rand.c:110-116 rng_read *)
Definition rng_read (s : rng) (size : nat) : list Z := rng_crypt (r_key s) (r_nonce s) (repeat 0 size).

(* if (rng->rdrand) rng->key[7] ^= torsion_rdrand32();  (127-128, 154-155) *)
Definition mix_rdrand (hw : nat -> Z) (s : rng) (key : list Z) : list Z * nat :=
  if r_rdrand s then (upd key 7 (Z.lxor (rd key 7) (hw (r_drawn s))), S (r_drawn s))
  else (key, r_drawn s).

(* rand.c:118-141 rng_generate *)
Definition rng_generate (hw : nat -> Z) (s : rng) (size : nat) : list Z * rng :=
  let dst := rng_read s size in
  let key := upd (r_key s) 0 (Z.lxor (rd (r_key s) 0) (w32 (Z.of_nat size))) in
  let '(key, drawn) := mix_rdrand hw s key in
  let nonce := w64 (r_nonce s + 1) in
  let key := words_of 8 (rng_crypt key nonce (mem_of key)) in
  (dst, mkRng key nonce (r_pool s) (r_pos s) (r_rdrand s) (r_started s) (r_pid s) drawn).

(* rand.c:148-167: the refill inside rng_random *)
Definition rng_refill (hw : nat -> Z) (s : rng) : rng :=
  let pool := words_of 128 (rng_read s 512) in
  let '(key, drawn) := mix_rdrand hw s (r_key s) in
  let key := fold_left (fun k i => upd k i (Z.lxor (rd k i) (rd pool (120 + i)))) (seq 0 8) key in
  let pool := fold_left (fun p i => upd p (120 + i) 0) (seq 0 8) pool in
  mkRng key (w64 (r_nonce s + 1)) pool 120 (r_rdrand s) (r_started s) (r_pid s) drawn.

(* rand.c:143-174 rng_random *)
Definition rng_random (hw : nat -> Z) (s : rng) : Z * rng :=
  let s := if (r_pos s =? 0)%nat then rng_refill hw s else s in
  let pos := (r_pos s - 1)%nat in
  (rd (r_pool s) pos,
   mkRng (r_key s) (r_nonce s) (upd (r_pool s) pos 0) pos (r_rdrand s) (r_started s) (r_pid s) (r_drawn s)).

(* rand.c:188, the loop condition of rng_uniform in uint32_t arithmetic *)
Definition uniform_reject (max x : Z) : bool := w32 (- max) <? sub32 x (x mod max).

(* rand.c:176-191 rng_uniform; None: the rejection loop did not stop within fuel
   iterations (the C loop has no bound) *)
Fixpoint uniform_loop (hw : nat -> Z) (fuel : nat) (s : rng) (max : Z) : option (Z * rng) :=
  match fuel with
  | O => None
  | S f =>
    let '(x, s) := rng_random hw s in
    if uniform_reject max x then uniform_loop hw f s max else Some (x mod max, s)
  end.
Definition rng_uniform (hw : nat -> Z) (fuel : nat) (s : rng) (max : Z) : option (Z * rng) :=
  if max <=? 1 then Some (0, s) else uniform_loop hw fuel s max.

(* rand.c:288-301 rng_global_init. On failure the state has been zeroed by
   rng_init's memset (and so is not started). *)
Definition rng_zero (drawn : nat) : rng := mkRng (repeat 0 8) 0 (repeat 0 128) 0 false false 0 drawn.
Definition rng_global_init (e : env) (s : rng) : bool * rng :=
  if negb (r_started s) || negb (r_pid s =? e_pid e) then
    match rng_init e (r_drawn s) with
    | None => (false, rng_zero (r_drawn s))
    | Some s => (true, mkRng (r_key s) (r_nonce s) (r_pool s) (r_pos s) (r_rdrand s) true (e_pid e) (r_drawn s))
    end
  else (true, s).

(* rand.c:314-333, 335-352, 354-371; the lock is not modelled. The first
   component is the return value. *)
Definition torsion_getrandom (hw : nat -> Z) (e : env) (s : rng) (size : nat) : bool * list Z * rng :=
  match rng_global_init e s with
  | (false, s) => (false, repeat 0 size, s)
  | (true, s) => let '(d, s) := rng_generate hw s size in (true, d, s)
  end.
Definition torsion_random (hw : nat -> Z) (e : env) (s : rng) : bool * Z * rng :=
  match rng_global_init e s with
  | (false, s) => (false, 0, s)
  | (true, s) => let '(x, s) := rng_random hw s in (true, x, s)
  end.
Definition torsion_uniform (hw : nat -> Z) (fuel : nat) (e : env) (s : rng) (max : Z) : option (bool * Z * rng) :=
  match rng_global_init e s with
  | (false, s) => Some (false, 0, s)
  | (true, s) => match rng_uniform hw fuel s max with
                 | Some (x, s) => Some (true, x, s)
                 | None => None
                 end
  end.
