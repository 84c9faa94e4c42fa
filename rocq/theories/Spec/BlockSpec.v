(* Splitting a message into blocks *)
From Verif.Base Require Import Prelude.

(* the complete B-byte blocks of m *)
Definition blocks (B : nat) (m : list Z) : list (list Z) :=
  map (fun i => firstn B (skipn (i * B) m)) (seq 0 (length m / B)).
(* what follows them *)
Definition leftover (B : nat) (m : list Z) : list Z := skipn (length m / B * B) m.
