(* Specifications of the block cipher modes: PKCS#7 (RFC 5652 6.3), ECB/CBC/CTR/CFB/OFB
   (SP 800-38A), XTS (IEEE 1619), GCM (SP 800-38D), CMAC (SP 800-38B / RFC 4493),
   CCM (RFC 3610) and EAX (Bellare, Rogaway, Wagner), over a block function E on
   B-byte blocks. *)
From Verif.Base Require Import Prelude.
From Verif.Spec Require Import BlockSpec MacSpec.

(* a block cipher under a fixed key: E and D are inverse permutations of B-byte blocks *)
Record block_cipher (B : nat) (E D : list Z -> list Z) : Prop := {
  bc_size : B = 8%nat \/ B = 16%nat;
  bc_elen : forall b, length b = B -> length (E b) = B;
  bc_dlen : forall b, length b = B -> length (D b) = B;
  bc_ebytes : forall b, length b = B -> bytes b -> bytes (E b);
  bc_dbytes : forall b, length b = B -> bytes b -> bytes (D b);
  bc_de : forall b, length b = B -> bytes b -> D (E b) = b;
  bc_ed : forall b, length b = B -> bytes b -> E (D b) = b }.

(* a sequence of calls that may abort: the outputs, concatenated *)
Fixpoint ocalls {C : Type} (f : C -> list Z -> option (list Z * C)) (c : C) (chunks : list (list Z)) : option (list Z * C) :=
  match chunks with
  | [] => Some ([], c)
  | m :: t =>
    match f c m with
    | None => None
    | Some (o, c) => match ocalls f c t with None => None | Some (o', c) => Some (o ++ o', c) end
    end
  end.

(* b ends in n copies of n, 1 <= n <= |b| *)
Definition pkcs7_canonical (b : list Z) (n : nat) : Prop :=
  (1 <= n <= length b)%nat /\ skipn (length b - n) b = repeat (Z.of_nat n) n.

(* a message cut into B-byte blocks, the last one possibly shorter *)
Definition pieces (B : nat) (m : list Z) : list (list Z) :=
  blocks B m ++ match leftover B m with [] => [] | r => [r] end.

(* zeros up to a multiple of 16 bytes *)
Definition padded (m : list Z) : list Z := m ++ pad16 m.

Section Modes.
  Variable B : nat.
  Variable E : list Z -> list Z.

  (* CBC: c_i = E(c_{i-1} xor p_i) *)
  Fixpoint cbc_chain (c : list Z) (ps : list (list Z)) : list (list Z) :=
    match ps with
    | [] => []
    | p :: t => let c := E (xorl c p) in c :: cbc_chain c t
    end.
  (* ciphertext stealing: the last block of the chain is cut to the length of the
     partial block r and follows the block enciphering r (CBC-CS3, SP 800-38A
     addendum, when r is not empty) *)
  Definition cbc_cts (iv : list Z) (ps : list (list Z)) (r : list Z) : list Z :=
    let cs := cbc_chain iv ps in
    let c := last cs iv in
    concat (removelast cs) ++ E (xorl c (r ++ repeat 0 (B - length r))) ++ firstn (length r) c.
  (* CFB: c_i = p_i xor E(c_{i-1}), the last block truncated *)
  Fixpoint cfb_chain (c : list Z) (ps : list (list Z)) : list (list Z) :=
    match ps with
    | [] => []
    | p :: t => let c := xorl p (E c) in c :: cfb_chain c t
    end.
  Definition cfb_spec (iv m : list Z) : list Z := concat (cfb_chain iv (pieces B m)).

  (* the counter block iv + i, of which the low w bytes count *)
  Definition counter (w : nat) (iv : list Z) (i : nat) : list Z :=
    firstn (B - w) iv ++ be_bytes w (be_val (skipn (B - w) iv) + Z.of_nat i).
  (* a keystream of n blocks *)
  Definition keystream (blk : nat -> list Z) (n : nat) : list Z := concat (map blk (seq 0 n)).
  Definition ctr_block (w : nat) (iv : list Z) (i : nat) : list Z := E (counter w iv i).
  Definition ofb_block (iv : list Z) (i : nat) : list Z := Nat.iter (S i) E iv.
  (* one keystream byte per message byte (length m blocks are always enough) *)
  Definition xor_stream (blk : nat -> list Z) (m : list Z) : list Z := xorl m (keystream blk (length m)).

  (* x * v in GF(2)[x]/(x^(8B) + ...), coefficients in bit order *)
  Definition rpoly : Z := if (B =? 8)%nat then 0x1b else 0x87.
  Definition mulx (v : Z) : Z :=
    let n := 8 * Z.of_nat B in
    if 2 * v <? 2 ^ n then 2 * v else Z.lxor (2 * v) (2 ^ n + rpoly).
  (* XTS: block i is enciphered under the tweak x^i t0 *)
  Definition tweak (t0 : list Z) (i : nat) : list Z := le_bytes B (Nat.iter i mulx (le_val t0)).
  Definition xex (f : list Z -> list Z) (t p : list Z) : list Z := xorl (f (xorl p t)) t.
  Fixpoint xts_chain (f : list Z -> list Z) (t0 : list Z) (i : nat) (ps : list (list Z)) : list (list Z) :=
    match ps with
    | [] => []
    | p :: t => xex f (tweak t0 i) p :: xts_chain f t0 (S i) t
    end.

  (* IEEE 1619 5.3.2: a partial last block r borrows the end of the block before it *)
  Definition xts_spec (t0 : list Z) (ps : list (list Z)) (r : list Z) : list Z :=
    let cs := xts_chain E t0 0 ps in
    match r with
    | [] => concat cs
    | _ =>
      let c := last cs [] in
      concat (removelast cs) ++ xex E (tweak t0 (length ps)) (r ++ skipn (length r) c) ++ firstn (length r) c
    end.

  (* CBC-MAC of whole blocks from a zero IV *)
  Definition cbc_mac (bs : list (list Z)) : list Z :=
    fold_left (fun c b => E (xorl c b)) bs (repeat 0 B).

  (* CMAC: subkeys by doubling, big endian *)
  Definition dbl_be (k : list Z) : list Z := be_bytes B (mulx (be_val k)).
  Definition cmac_k1 : list Z := dbl_be (E (repeat 0 B)).
  Definition cmac_k2 : list Z := dbl_be cmac_k1.
  (* the complete blocks before the last one, and the (1..B byte) last one *)
  Definition cut (m : list Z) : nat := ((length m - 1) / B * B)%nat.
  Definition cmac_spec (m : list Z) : list Z :=
    let z := skipn (cut m) m in
    let z := if (length z =? B)%nat then xorl z cmac_k1
             else xorl (z ++ 0x80 :: repeat 0 (B - 1 - length z)) cmac_k2 in
    cbc_mac (blocks B (firstn (cut m) m) ++ [z]).
  (* OMAC^t *)
  Definition omac (t : Z) (m : list Z) : list Z := cmac_spec (repeat 0 (B - 1) ++ [t] ++ m).

  Definition eax_cipher (nonce m : list Z) : list Z := xor_stream (ctr_block B (omac 0 nonce)) m.
  Definition eax_tag (nonce aad ct : list Z) : list Z := xorl (xorl (omac 1 aad) (omac 2 ct)) (omac 0 nonce).
End Modes.

(* ---- GF(2^128) in GCM bit order: bit 127 - i of the big-endian integer is the
   coefficient of x^i, and x^128 = x^7 + x^2 + x + 1 ---- *)
Definition gmulx (v : Z) : Z := Z.lxor (v / 2) (if Z.odd v then 0xe1 * 2 ^ 120 else 0).
(* sum over i of x_i * (x^i y) *)
Definition gmul (x y : Z) : Z :=
  fold_right (fun i acc => Z.lxor (if Z.testbit x (127 - Z.of_nat i) then Nat.iter i gmulx y else 0) acc) 0 (seq 0 128).
Definition ghash_spec (h : Z) (m : list Z) : Z :=
  fold_left (fun y b => gmul (Z.lxor y (be_val b)) h) (blocks 16 m) 0.
Definition bits64 (m : list Z) : list Z := be_bytes 8 (8 * Z.of_nat (length m)).
Definition gcm_ghash (h aad ct : list Z) : list Z :=
  be_bytes 16 (ghash_spec (be_val h) (padded aad ++ padded ct ++ bits64 aad ++ bits64 ct)).

Section Gcm.
  Variable E : list Z -> list Z.
  Definition gcm_h : list Z := E (repeat 0 16).
  Definition gcm_j0 (iv : list Z) : list Z :=
    if (length iv =? 12)%nat then iv ++ [0; 0; 0; 1] else gcm_ghash gcm_h [] iv.
  (* GCTR from inc32(J0) *)
  Definition gcm_cipher (iv m : list Z) : list Z :=
    xor_stream (fun i => ctr_block 16 E 4 (gcm_j0 iv) (S i)) m.
  Definition gcm_tag (iv aad ct : list Z) : list Z :=
    xorl (gcm_ghash gcm_h aad ct) (E (gcm_j0 iv)).
End Gcm.

(* ---- CCM (RFC 3610) with nonce n of exactly 15 - L bytes ---- *)
Section Ccm.
  Variable E : list Z -> list Z.
  Variables (L M : nat).
  Definition ccm_b0 (n : list Z) (adata : bool) (mlen : Z) : list Z :=
    [64 * (if adata then 1 else 0) + 8 * ((Z.of_nat M - 2) / 2) + (Z.of_nat L - 1)] ++ n ++ be_bytes L mlen.
  Definition ccm_la (a : list Z) : list Z :=
    let l := Z.of_nat (length a) in
    if l <? 0xff00 then be_bytes 2 l
    else if l <? 2 ^ 32 then [0xff; 0xfe] ++ be_bytes 4 l
    else [0xff; 0xff] ++ be_bytes 8 l.
  Definition ccm_a (n : list Z) (i : nat) : list Z := [Z.of_nat L - 1] ++ n ++ be_bytes L (Z.of_nat i).
  Definition ccm_blocks (n a m : list Z) : list Z :=
    ccm_b0 n (negb (length a =? 0)%nat) (Z.of_nat (length m)) ++
    match a with [] => [] | _ => padded (ccm_la a ++ a) end ++ padded m.
  Definition ccm_cipher (n m : list Z) : list Z := xor_stream (fun i => E (ccm_a n (S i))) m.
  Definition ccm_tag (n a m : list Z) : list Z :=
    xorl (cbc_mac 16 E (blocks 16 (ccm_blocks n a m))) (E (ccm_a n 0)).
End Ccm.
