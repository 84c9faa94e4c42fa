(* Numerals: strings of character codes (ASCII) in bases 2 to 62, as strtol reads them up to base 36 and with the order
   0-9, A-Z, a-z above. *)
From Verif.Base Require Import Prelude.
Definition space (c : Z) : bool := (9 <=? c) && (c <=? 13) || (c =? 32).
Definition digit_value (base c : Z) : option Z :=
  let d := if (48 <=? c) && (c <=? 57) then c - 48
           else if (65 <=? c) && (c <=? 90) then c - 55
           else if (97 <=? c) && (c <=? 122) then (if base <=? 36 then c - 87 else c - 61)
           else base in
  if d <? base then Some d else None.
Definition digit_char (base d : Z) : Z := if d <? 10 then 48 + d else if base <=? 36 then 87 + d else if d <? 36 then 55 + d else 61 + d.
(* digits with spaces anywhere, appended to a number *)
Fixpoint read_digits (base acc : Z) (s : list Z) : option Z :=
  match s with
  | [] => Some acc
  | c :: s => if space c then read_digits base acc s else match digit_value base c with Some d => read_digits base (acc * base + d) s | None => None end
  end.
Definition read_natural (base : Z) (s : list Z) : option Z := if (2 <=? base) && (base <=? 62) then read_digits base 0 s else None.
(* base 0: the prefixes 0b, 0o, 0x and 0 of the C language *)
Definition read_unsigned (base : Z) (s : list Z) : option Z :=
  if negb (base =? 0) then read_natural base s
  else match s with
  | 48 :: c :: r => if (c =? 98) || (c =? 66) then read_natural 2 r else if (c =? 111) || (c =? 79) then read_natural 8 r else if (c =? 120) || (c =? 88) then read_natural 16 r else read_natural 8 s
  | 48 :: _ => read_natural 8 s
  | _ => read_natural 10 s
  end.
Fixpoint trim (s : list Z) : list Z := match s with c :: r => if space c then trim r else s | [] => [] end.
Definition read_integer (base : Z) (s : list Z) : option Z :=
  match trim s with
  | 45 :: r => option_map Z.opp (read_unsigned base r)
  | 43 :: r => read_unsigned base r
  | r => read_unsigned base r
  end.
(* the numeral of a natural number: no leading zero *)
Definition numeral (base v : Z) (s : list Z) : Prop :=
  exists ds, s = map (digit_char base) ds /\ Forall (below base) ds /\ fold_left (fun a d => a * base + d) ds 0 = v /\ (ds = [0] \/ hd 0 ds <> 0) /\ ds <> [].
