(* The generator as a key, a nonce and a queue of words not yet handed out *)
From Verif.Base Require Import Prelude.
From Verif.Spec Require Import StreamSpec.

(* n bytes of the ChaCha20 keystream (64-bit nonce, block counter from 0) *)
Definition keystream (key : list Z) (nonce : Z) (n : nat) : list Z :=
  ks_seg (fun i => cha_block64 (unwords key) (le_bytes 8 nonce) (Z.of_nat i)) 0 n.

(* the 128 words of 512 keystream bytes: the first 120 are for the caller, last
   one first; the other eight are for re-keying only *)
Definition batch (key : list Z) (nonce : Z) : list Z := le_words 128 (keystream key nonce 512).
Definition served (key : list Z) (nonce : Z) : list Z := rev (firstn 120 (batch key nonce)).
Definition rekey (key : list Z) (nonce : Z) : list Z := skipn 120 (batch key nonce).

(* xor a word into one word of the key *)
Definition mix (key : list Z) (i : nat) (w : Z) : list Z :=
  firstn i key ++ [Z.lxor (nth i key 0) w] ++ skipn (S i) key.

Inductive op := Draw | Bytes (n : nat).

(* g_seen counts hardware words; hw is the stream of them *)
Record gen := mkG { g_key : list Z; g_nonce : Z; g_queue : list Z; g_seen : nat }.
Section Gen.
  Variable hw : nat -> Z.
  Variable on : bool.   (* hardware words are available *)
  Definition g_mix (g : gen) (key : list Z) : list Z := if on then mix key 7 (hw (g_seen g)) else key.
  Definition g_tick (g : gen) : nat := if on then S (g_seen g) else g_seen g.
  Definition refill (g : gen) : gen :=
    mkG (xorl (g_mix g (g_key g)) (rekey (g_key g) (g_nonce g))) ((g_nonce g + 1) mod 2 ^ 64)
        (served (g_key g) (g_nonce g)) (g_tick g).
  Definition g_step (g : gen) (o : op) : list Z * gen :=
    match o with
    | Draw =>
      let g := match g_queue g with [] => refill g | _ => g end in
      (firstn 1 (g_queue g), mkG (g_key g) (g_nonce g) (tl (g_queue g)) (g_seen g))
    | Bytes n =>
      let key := g_mix g (mix (g_key g) 0 (Z.of_nat n mod 2 ^ 32)) in
      let nonce := (g_nonce g + 1) mod 2 ^ 64 in
      (keystream (g_key g) (g_nonce g) n,
       mkG (xorl key (le_words 8 (keystream key nonce 32))) nonce (g_queue g) (g_tick g))
    end.
  Fixpoint g_run (g : gen) (ops : list op) : list (list Z) * gen :=
    match ops with
    | [] => ([], g)
    | o :: t => let '(x, g) := g_step g o in let '(xs, g) := g_run g t in (x :: xs, g)
    end.
End Gen.

(* the words handed out by the draws of a history *)
Fixpoint drawn (ops : list op) (outs : list (list Z)) : list Z :=
  match ops, outs with
  | Draw :: t, o :: u => o ++ drawn t u
  | Bytes _ :: t, _ :: u => drawn t u
  | _, _ => []
  end.
Fixpoint draws (ops : list op) : nat :=
  match ops with [] => O | Draw :: t => S (draws t) | Bytes _ :: t => draws t end.
