(* Model of src/bio.h. Buffers are the list of bytes starting at the pointer. *)
From Verif.Base Require Import Prelude.

Definition rd (l : list Z) (i : nat) : Z := nth i l 0.

(* bio.h:30-40 (portable branch; on little-endian hosts memcpy is the same) *)
Definition read16le (s : list Z) : Z :=
  Z.lor (w16 (Z.shiftl (rd s 1) 8)) (rd s 0).
(* bio.h:52-64 *)
Definition read32le (s : list Z) : Z :=
  Z.lor (Z.lor (Z.lor (shl32 (rd s 3) 24) (shl32 (rd s 2) 16))
               (shl32 (rd s 1) 8)) (rd s 0).
(* bio.h:78-94 *)
Definition read64le (s : list Z) : Z :=
  Z.lor (Z.lor (Z.lor (Z.lor (Z.lor (Z.lor (Z.lor
    (shl64 (rd s 7) 56) (shl64 (rd s 6) 48)) (shl64 (rd s 5) 40))
    (shl64 (rd s 4) 32)) (shl64 (rd s 3) 24)) (shl64 (rd s 2) 16))
    (shl64 (rd s 1) 8)) (rd s 0).
(* bio.h:117-127 *)
Definition read16be (s : list Z) : Z :=
  Z.lor (w16 (Z.shiftl (rd s 0) 8)) (rd s 1).
(* bio.h:139-151 *)
Definition read32be (s : list Z) : Z :=
  Z.lor (Z.lor (Z.lor (shl32 (rd s 0) 24) (shl32 (rd s 1) 16))
               (shl32 (rd s 2) 8)) (rd s 3).
(* bio.h:165-181 *)
Definition read64be (s : list Z) : Z :=
  Z.lor (Z.lor (Z.lor (Z.lor (Z.lor (Z.lor (Z.lor
    (shl64 (rd s 0) 56) (shl64 (rd s 1) 48)) (shl64 (rd s 2) 40))
    (shl64 (rd s 3) 32)) (shl64 (rd s 4) 24)) (shl64 (rd s 5) 16))
    (shl64 (rd s 6) 8)) (rd s 7).

(* bio.h:42-50 *)
Definition write16le (w : Z) : list Z := [w8 (shr w 0); w8 (shr w 8)].
(* bio.h:66-76 *)
Definition write32le (w : Z) : list Z :=
  [w8 (shr w 0); w8 (shr w 8); w8 (shr w 16); w8 (shr w 24)].
(* bio.h:96-110 *)
Definition write64le (w : Z) : list Z :=
  [w8 (shr w 0); w8 (shr w 8); w8 (shr w 16); w8 (shr w 24);
   w8 (shr w 32); w8 (shr w 40); w8 (shr w 48); w8 (shr w 56)].
(* bio.h:129-137 *)
Definition write16be (w : Z) : list Z := [w8 (shr w 8); w8 (shr w 0)].
(* bio.h:153-163 *)
Definition write32be (w : Z) : list Z :=
  [w8 (shr w 24); w8 (shr w 16); w8 (shr w 8); w8 (shr w 0)].
(* bio.h:183-197 *)
Definition write64be (w : Z) : list Z :=
  [w8 (shr w 56); w8 (shr w 48); w8 (shr w 40); w8 (shr w 32);
   w8 (shr w 24); w8 (shr w 16); w8 (shr w 8); w8 (shr w 0)].

(* bio.h:218-223 (fallback) *)
Definition bswap32 (x : Z) : Z :=
  let x := Z.lor (Z.land (shl32 x 8) 0xff00ff00) (Z.land (shr x 8) 0x00ff00ff) in
  Z.lor (shr x 16) (shl32 x 16).
(* bio.h:229-236 (fallback) *)
Definition bswap64 (x : Z) : Z :=
  let x := Z.lor (Z.land (shl64 x 8) 0xff00ff00ff00ff00)
                 (Z.land (shr x 8) 0x00ff00ff00ff00ff) in
  let x := Z.lor (Z.land (shl64 x 16) 0xffff0000ffff0000)
                 (Z.land (shr x 16) 0x0000ffff0000ffff) in
  Z.lor (shl64 x 32) (shr x 32).

(* bio.h:243-253: carry loop of increment_le, from byte i upward *)
Fixpoint inc_le_loop (c : Z) (x : list Z) : list Z :=
  match x with
  | [] => []
  | b :: t => let c := c + b in w8 c :: inc_le_loop (shr c 8) t
  end.
Definition increment_le (x : list Z) : list Z := inc_le_loop 1 x.

(* bio.h:255-264 *)
Fixpoint inc_le_var_loop (c : Z) (x : list Z) : list Z :=
  match x with
  | [] => []
  | b :: t =>
    if c =? 0 then b :: t else
    let b' := w8 (b + c) in
    b' :: inc_le_var_loop (if b' <? c then 1 else 0) t
  end.
Definition increment_le_var (x : list Z) : list Z := inc_le_var_loop 1 x.

(* bio.h:266-276: same loop from the last byte down *)
Definition increment_be (x : list Z) : list Z := rev (inc_le_loop 1 (rev x)).
(* bio.h:278-287 *)
Definition increment_be_var (x : list Z) : list Z := rev (inc_le_var_loop 1 (rev x)).
