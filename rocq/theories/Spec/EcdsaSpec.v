(* SEC 1: point encodings (2.3.3) and ECDSA (4.1.3, 4.1.4), over a curve given by its addition, multiples and base point. *)
From Verif.Base Require Import Prelude.
From Verif.Spec Require Import DsaSpec EcSpec.
(* the octets of a coordinate or scalar below q *)
Definition i2o (q x : Z) : list Z := be_bytes (octs q) x.
(* an octet string standing for the affine point with coordinates x, y: compressed, uncompressed or hybrid *)
Definition sec1 (p x y : Z) (raw : list Z) : Prop :=
  raw = (2 + y mod 2) :: i2o p x \/ raw = 4 :: i2o p x ++ i2o p y \/ raw = (6 + y mod 2) :: i2o p x ++ i2o p y.
Section S.
Variable F : Type.
Variable val : F -> Z.
Variables (add : point F -> point F -> point F) (mul : Z -> point F -> point F).
Variables (G : point F) (n : Z).
(* 4.1.4 for the public key A and the reduced digest m *)
Definition ecdsa_accepts (A : point F) (m r s : Z) : Prop :=
  0 < r < n /\ 0 < s < n /\ exists w X Y, (s * w) mod n = 1 /\ add (mul ((m * w) mod n) G) (mul ((r * w) mod n) A) = Aff X Y /\ val X mod n = r.
(* 4.1.3 with nonce k, private key a; the point k G is (X, Y) *)
Definition ecdsa_signs (a m k r s : Z) (X Y : F) : Prop :=
  mul k G = Aff X Y /\ r = val X mod n /\ 0 <= s < n /\ (s * k) mod n = (m + r * a) mod n.
End S.
(* the encodings that are written *)
Definition sec1_enc (p : Z) (compact : bool) (x y : Z) : list Z :=
  if compact then (2 + y mod 2) :: i2o p x else 4 :: i2o p x ++ i2o p y.
