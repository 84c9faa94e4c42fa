(* The block buffering shared, line for line, by the update functions of
   hash.c and mac.c: a block array, a fill position and a transform. The
   instances cite their own lines. *)
From Verif.Base Require Import Prelude.
From Verif.Model Require Import Bio.

(* memcpy(block + pos, raw, len) *)
Definition blit (block : list Z) (pos : nat) (raw : list Z) : list Z :=
  firstn pos block ++ raw ++ skipn (pos + length raw) block.

(* while (pos < lim) block[pos++] = v *)
Definition fill (block : list Z) (pos lim : nat) (v : Z) : list Z :=
  blit block pos (repeat v (lim - pos)).

Section Buf.
  Context {S : Type}.
  Variable B : nat.                   (* block size *)
  Variable lazy : bool.               (* true: the comparisons are >, false: >= *)
  Variable tr : S -> list Z -> S.     (* transform of one block *)

  Definition enough (len want : nat) : bool :=
    if lazy then (want <? len)%nat else (want <=? len)%nat.

  (* while (len >= B) { transform(raw); raw += B; len -= B; } *)
  Fixpoint absorb (fuel : nat) (st : S) (raw : list Z) : S * list Z :=
    match fuel with
    | O => (st, raw)
    | Datatypes.S f =>
      if enough (length raw) B then absorb f (tr st (firstn B raw)) (skipn B raw)
      else (st, raw)
    end.

  (* the body of update: state, block, pos *)
  Definition buf_update (st : S) (block : list Z) (pos : nat) (raw : list Z) : S * list Z * nat :=
    let want := (B - pos)%nat in
    let '(st, block, pos, raw) :=
      if enough (length raw) want then
        let '(st, block, pos, raw) :=
          if (0 <? pos)%nat then
            let block := blit block pos (firstn want raw) in
            (tr st block, block, 0%nat, skipn want raw)
          else (st, block, pos, raw) in
        let '(st, raw) := absorb (length raw) st raw in
        (st, block, pos, raw)
      else (st, block, pos, raw) in
    if (0 <? length raw)%nat then (st, blit block pos raw, (pos + length raw)%nat)
    else (st, block, pos).
End Buf.
