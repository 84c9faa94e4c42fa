(* X.690 (DER) lengths and non-negative integers, stated without the model. *)
From Verif.Base Require Import Prelude.

(* definite length, shortest form *)
Definition der_len (n : Z) (bs : list Z) : Prop :=
  (0 <= n < 128 /\ bs = [n]) \/
  (128 <= n /\ exists c, bytes c /\ hd 0 c <> 0 /\ be_val c = n /\ (length c < 127)%nat /\
     bs = (128 + Z.of_nat (length c)) :: c).

(* the shortest two's complement content of a non-negative integer *)
Definition der_content (n : Z) (c : list Z) : Prop :=
  bytes c /\ c <> [] /\ nth 0 c 0 < 128 /\ be_val c = n /\
  ~ (nth 0 c 0 = 0 /\ (1 < length c)%nat /\ nth 1 c 0 < 128).

Definition der_int (n : Z) (bs : list Z) : Prop :=
  exists c l, der_content n c /\ der_len (Z.of_nat (length c)) l /\ bs = [2] ++ l ++ c.
