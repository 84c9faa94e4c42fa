(* Model of src/mac.c. uint64_t/uint32_t are Z with explicit reduction; the
   128-bit products are Z reduced mod 2^128 (the TORSION_HAVE_INT128 branch, lines
   48-58; the _umul128/__umulh branch, 60-96, emulates the same operations and is
   not modelled separately). *)
From Verif.Base Require Import Prelude.
From Verif.Model Require Import Bio Block.

Definition m44 : Z := 0xfffffffffff.
Definition m42 : Z := 0x3ffffffffff.
Definition m26 : Z := 0x3ffffff.
Definition w128 (x : Z) : Z := x mod M128.

(* ---- Poly1305, 64-bit limbs ---- *)
(* struct poly1305_64_s: r, h, pad *)
Record p64 := mkP64 { r64 : Z * Z * Z; h64 : Z * Z * Z; pad64 : Z * Z }.

(* mac.c:99-120 *)
Definition p64_init (key : list Z) : p64 :=
  let t0 := read64le key in
  let t1 := read64le (skipn 8 key) in
  mkP64 (Z.land t0 0xffc0fffffff,
         Z.land (Z.lor (shr t0 44) (shl64 t1 20)) 0xfffffc0ffff,
         Z.land (shr t1 24) 0x00ffffffc0f)
        (0, 0, 0)
        (read64le (skipn 16 key), read64le (skipn 24 key)).

(* mac.c:153-213: one iteration of the loop on the 16 bytes at data *)
Definition p64_block (st : p64) (data : list Z) (final : bool) : p64 :=
  let hibit := if final then 0 else Z.shiftl 1 40 in
  let '(r0, r1, r2) := r64 st in
  let '(h0, h1, h2) := h64 st in
  let s1 := mul64 r1 20 in
  let s2 := mul64 r2 20 in
  let t0 := read64le data in
  let t1 := read64le (skipn 8 data) in
  let h0 := add64 h0 (Z.land t0 m44) in
  let h1 := add64 h1 (Z.land (Z.lor (shr t0 44) (shl64 t1 20)) m44) in
  let h2 := add64 h2 (Z.lor (Z.land (shr t1 24) m42) hibit) in
  let d0 := w128 (w128 (w128 (h0 * r0) + w128 (h1 * s2)) + w128 (h2 * s1)) in
  let d1 := w128 (w128 (w128 (h0 * r1) + w128 (h1 * r0)) + w128 (h2 * s2)) in
  let d2 := w128 (w128 (w128 (h0 * r2) + w128 (h1 * r1)) + w128 (h2 * r0)) in
  let c := w64 (shr d0 44) in
  let h0 := Z.land (w64 d0) m44 in
  let d1 := w128 (d1 + c) in
  let c := w64 (shr d1 44) in
  let h1 := Z.land (w64 d1) m44 in
  let d2 := w128 (d2 + c) in
  let c := w64 (shr d2 42) in
  let h2 := Z.land (w64 d2) m42 in
  let h0 := add64 h0 (mul64 c 5) in
  let c := shr h0 44 in
  let h0 := Z.land h0 m44 in
  let h1 := add64 h1 c in
  mkP64 (r64 st) (h0, h1, h2) (pad64 st).

(* mac.c:382-451, after the last block: the sixteen tag bytes *)
Definition p64_tag (st : p64) : list Z :=
  let '(h0, h1, h2) := h64 st in
  let c := shr h1 44 in
  let h1 := Z.land h1 m44 in
  let h2 := add64 h2 c in
  let c := shr h2 42 in
  let h2 := Z.land h2 m42 in
  let h0 := add64 h0 (mul64 c 5) in
  let c := shr h0 44 in
  let h0 := Z.land h0 m44 in
  let h1 := add64 h1 c in
  let c := shr h1 44 in
  let h1 := Z.land h1 m44 in
  let h2 := add64 h2 c in
  let c := shr h2 42 in
  let h2 := Z.land h2 m42 in
  let h0 := add64 h0 (mul64 c 5) in
  let c := shr h0 44 in
  let h0 := Z.land h0 m44 in
  let h1 := add64 h1 c in
  let g0 := add64 h0 5 in
  let c := shr g0 44 in
  let g0 := Z.land g0 m44 in
  let g1 := add64 h1 c in
  let c := shr g1 44 in
  let g1 := Z.land g1 m44 in
  let g2 := sub64 (add64 h2 c) (Z.shiftl 1 42) in
  let c := sub64 (shr g2 63) 1 in
  let g0 := Z.land g0 c in
  let g1 := Z.land g1 c in
  let g2 := Z.land g2 c in
  let c := not64 c in
  let h0 := Z.lor (Z.land h0 c) g0 in
  let h1 := Z.lor (Z.land h1 c) g1 in
  let h2 := Z.lor (Z.land h2 c) g2 in
  let '(t0, t1) := pad64 st in
  let h0 := add64 h0 (Z.land t0 m44) in
  let c := shr h0 44 in
  let h0 := Z.land h0 m44 in
  let h1 := add64 h1 (add64 (Z.land (Z.lor (shr t0 44) (shl64 t1 20)) m44) c) in
  let c := shr h1 44 in
  let h1 := Z.land h1 m44 in
  let h2 := add64 h2 (add64 (Z.land (shr t1 24) m42) c) in
  let h2 := Z.land h2 m42 in
  let h0 := Z.lor h0 (shl64 h1 44) in
  let h1 := Z.lor (shr h1 20) (shl64 h2 24) in
  write64le h0 ++ write64le h1.

(* ---- Poly1305, 32-bit limbs ---- *)
Record p32 := mkP32 { r32 : Z * Z * Z * Z * Z; h32 : Z * Z * Z * Z * Z; pad32 : Z * Z * Z * Z }.

(* mac.c:122-144 *)
Definition p32_init (key : list Z) : p32 :=
  mkP32 (Z.land (shr (read32le key) 0) 0x3ffffff,
         Z.land (shr (read32le (skipn 3 key)) 2) 0x3ffff03,
         Z.land (shr (read32le (skipn 6 key)) 4) 0x3ffc0ff,
         Z.land (shr (read32le (skipn 9 key)) 6) 0x3f03fff,
         Z.land (shr (read32le (skipn 12 key)) 8) 0x00fffff)
        (0, 0, 0, 0, 0)
        (read32le (skipn 16 key), read32le (skipn 20 key), read32le (skipn 24 key), read32le (skipn 28 key)).

(* mac.c:220-304: one iteration. The 64-bit sums are reduced once. *)
Definition p32_block (st : p32) (data : list Z) (final : bool) : p32 :=
  let hibit := if final then 0 else Z.shiftl 1 24 in
  let '(r0, r1, r2, r3, r4) := r32 st in
  let '(h0, h1, h2, h3, h4) := h32 st in
  let s1 := mul32 r1 5 in
  let s2 := mul32 r2 5 in
  let s3 := mul32 r3 5 in
  let s4 := mul32 r4 5 in
  let h0 := add32 h0 (Z.land (shr (read32le data) 0) m26) in
  let h1 := add32 h1 (Z.land (shr (read32le (skipn 3 data)) 2) m26) in
  let h2 := add32 h2 (Z.land (shr (read32le (skipn 6 data)) 4) m26) in
  let h3 := add32 h3 (Z.land (shr (read32le (skipn 9 data)) 6) m26) in
  let h4 := add32 h4 (Z.lor (shr (read32le (skipn 12 data)) 8) hibit) in
  let d0 := w64 (h0 * r0 + h1 * s4 + h2 * s3 + h3 * s2 + h4 * s1) in
  let d1 := w64 (h0 * r1 + h1 * r0 + h2 * s4 + h3 * s3 + h4 * s2) in
  let d2 := w64 (h0 * r2 + h1 * r1 + h2 * r0 + h3 * s4 + h4 * s3) in
  let d3 := w64 (h0 * r3 + h1 * r2 + h2 * r1 + h3 * r0 + h4 * s4) in
  let d4 := w64 (h0 * r4 + h1 * r3 + h2 * r2 + h3 * r1 + h4 * r0) in
  let c := w32 (shr d0 26) in
  let h0 := Z.land (w32 d0) m26 in
  let d1 := add64 d1 c in
  let c := w32 (shr d1 26) in
  let h1 := Z.land (w32 d1) m26 in
  let d2 := add64 d2 c in
  let c := w32 (shr d2 26) in
  let h2 := Z.land (w32 d2) m26 in
  let d3 := add64 d3 c in
  let c := w32 (shr d3 26) in
  let h3 := Z.land (w32 d3) m26 in
  let d4 := add64 d4 c in
  let c := w32 (shr d4 26) in
  let h4 := Z.land (w32 d4) m26 in
  let h0 := add32 h0 (mul32 c 5) in
  let c := shr h0 26 in
  let h0 := Z.land h0 m26 in
  let h1 := add32 h1 c in
  mkP32 (r32 st) (h0, h1, h2, h3, h4) (pad32 st).

(* mac.c:471-553 *)
Definition p32_tag (st : p32) : list Z :=
  let '(h0, h1, h2, h3, h4) := h32 st in
  let c := shr h1 26 in
  let h1 := Z.land h1 m26 in
  let h2 := add32 h2 c in
  let c := shr h2 26 in
  let h2 := Z.land h2 m26 in
  let h3 := add32 h3 c in
  let c := shr h3 26 in
  let h3 := Z.land h3 m26 in
  let h4 := add32 h4 c in
  let c := shr h4 26 in
  let h4 := Z.land h4 m26 in
  let h0 := add32 h0 (mul32 c 5) in
  let c := shr h0 26 in
  let h0 := Z.land h0 m26 in
  let h1 := add32 h1 c in
  let g0 := add32 h0 5 in
  let c := shr g0 26 in
  let g0 := Z.land g0 m26 in
  let g1 := add32 h1 c in
  let c := shr g1 26 in
  let g1 := Z.land g1 m26 in
  let g2 := add32 h2 c in
  let c := shr g2 26 in
  let g2 := Z.land g2 m26 in
  let g3 := add32 h3 c in
  let c := shr g3 26 in
  let g3 := Z.land g3 m26 in
  let g4 := sub32 (add32 h4 c) (Z.shiftl 1 26) in
  let mask := sub32 (shr g4 31) 1 in
  let g0 := Z.land g0 mask in
  let g1 := Z.land g1 mask in
  let g2 := Z.land g2 mask in
  let g3 := Z.land g3 mask in
  let g4 := Z.land g4 mask in
  let mask := not32 mask in
  let h0 := Z.lor (Z.land h0 mask) g0 in
  let h1 := Z.lor (Z.land h1 mask) g1 in
  let h2 := Z.lor (Z.land h2 mask) g2 in
  let h3 := Z.lor (Z.land h3 mask) g3 in
  let h4 := Z.lor (Z.land h4 mask) g4 in
  let h0 := Z.land (Z.lor h0 (shl32 h1 26)) 0xffffffff in
  let h1 := Z.land (Z.lor (shr h1 6) (shl32 h2 20)) 0xffffffff in
  let h2 := Z.land (Z.lor (shr h2 12) (shl32 h3 14)) 0xffffffff in
  let h3 := Z.land (Z.lor (shr h3 18) (shl32 h4 8)) 0xffffffff in
  let '(p0, p1, p2, p3) := pad32 st in
  let f := w64 (h0 + p0) in
  let h0 := w32 f in
  let f := w64 (h1 + p1 + shr f 32) in
  let h1 := w32 f in
  let f := w64 (h2 + p2 + shr f 32) in
  let h2 := w32 f in
  let f := w64 (h3 + p3 + shr f 32) in
  let h3 := w32 f in
  write32le h0 ++ write32le h1 ++ write32le h2 ++ write32le h3.

(* ---- the buffer around either limb representation ---- *)
Record poly (S : Type) := mkPoly { p_st : S; p_block : list Z; p_pos : nat }.
Arguments mkPoly {S}. Arguments p_st {S}. Arguments p_block {S}. Arguments p_pos {S}.

Section Poly.
  Context {S : Type}.
  Variable blk : S -> list Z -> bool -> S.
  Variable tag : S -> list Z.

  (* mac.c:148-313 poly1305_blocks: while (len >= 16) *)
  Fixpoint poly_blocks (fuel : nat) (st : S) (data : list Z) (final : bool) : S :=
    match fuel with
    | O => st
    | Datatypes.S f =>
      if (16 <=? length data)%nat then poly_blocks f (blk st (firstn 16 data) final) (skipn 16 data) final
      else st
    end.

  (* mac.c:315-348; len & -16 is len - len mod 16 *)
  Definition poly_update (c : poly S) (raw : list Z) : poly S :=
    let pos := p_pos c in
    let want := (16 - pos)%nat in
    let '(st, block, pos, raw) :=
      if (want <=? length raw)%nat then
        let '(st, block, pos, raw) :=
          if (0 <? pos)%nat then
            let block := blit (p_block c) pos (firstn want raw) in
            (poly_blocks 16 (p_st c) block false, block, 0%nat, skipn want raw)
          else (p_st c, p_block c, pos, raw) in
        if (16 <=? length raw)%nat then
          let aligned := (length raw - length raw mod 16)%nat in
          (poly_blocks aligned st (firstn aligned raw) false, block, pos, skipn aligned raw)
        else (st, block, pos, raw)
      else (p_st c, p_block c, pos, raw) in
    if (0 <? length raw)%nat then mkPoly st (blit block pos raw) (pos + length raw)
    else mkPoly st block pos.

  (* mac.c:350-360 *)
  Definition poly_pad (c : poly S) : poly S :=
    if (0 <? p_pos c)%nat then
      let block := fill (p_block c) (p_pos c) 16 0 in
      mkPoly (poly_blocks 16 (p_st c) block false) block 0
    else c.

  (* mac.c:362-451, 452-555 *)
  Definition poly_final (c : poly S) : list Z :=
    let st :=
      if (0 <? p_pos c)%nat then
        let block := blit (p_block c) (p_pos c) [1] in
        let block := fill block (p_pos c + 1) 16 0 in
        poly_blocks 16 (p_st c) block true
      else p_st c in
    tag st.
End Poly.

(* the block array is uninitialised after init; modelled as zeros *)
Definition poly64_init (key : list Z) : poly p64 := mkPoly (p64_init key) (repeat 0 16) 0.
Definition poly64_update := poly_update p64_block.
Definition poly64_pad := poly_pad p64_block.
Definition poly64_final := poly_final p64_block p64_tag.
Definition poly32_init (key : list Z) : poly p32 := mkPoly (p32_init key) (repeat 0 16) 0.
Definition poly32_update := poly_update p32_block.
Definition poly32_pad := poly_pad p32_block.
Definition poly32_final := poly_final p32_block p32_tag.

(* RFC 8439 2.5.2 *)
Definition rfc_key := [0x85;0xd6;0xbe;0x78;0x57;0x55;0x6d;0x33;0x7f;0x44;0x52;0xfe;0x42;0xd5;0x06;0xa8;
  0x01;0x03;0x80;0x8a;0xfb;0x0d;0xb2;0xfd;0x4a;0xbf;0xf6;0xaf;0x41;0x49;0xf5;0x1b].
Definition rfc_msg := [0x43;0x72;0x79;0x70;0x74;0x6f;0x67;0x72;0x61;0x70;0x68;0x69;0x63;0x20;0x46;0x6f;
  0x72;0x75;0x6d;0x20;0x52;0x65;0x73;0x65;0x61;0x72;0x63;0x68;0x20;0x47;0x72;0x6f;0x75;0x70].
Example poly_model_ex :
  poly64_final (poly64_update (poly64_init rfc_key) rfc_msg) =
    [0xa8;0x06;0x1d;0xc1;0x30;0x51;0x36;0xc6;0xc2;0x2b;0x8b;0xaf;0x0c;0x01;0x27;0xa9] /\
  poly32_final (poly32_update (poly32_init rfc_key) rfc_msg) =
    [0xa8;0x06;0x1d;0xc1;0x30;0x51;0x36;0xc6;0xc2;0x2b;0x8b;0xaf;0x0c;0x01;0x27;0xa9].
Proof. vm_compute. auto. Qed.

(* ---- SipHash ---- *)
Definition sip := (Z * Z * Z * Z)%type.
(* mac.c:569-576 SIPROUND *)
Definition sipround (v : sip) : sip :=
  let '(v0, v1, v2, v3) := v in
  let v0 := add64 v0 v1 in let v1 := rotl64 v1 13 in let v1 := Z.lxor v1 v0 in
  let v0 := rotl64 v0 32 in
  let v2 := add64 v2 v3 in let v3 := rotl64 v3 16 in let v3 := Z.lxor v3 v2 in
  let v0 := add64 v0 v3 in let v3 := rotl64 v3 21 in let v3 := Z.lxor v3 v0 in
  let v2 := add64 v2 v1 in let v1 := rotl64 v1 17 in let v1 := Z.lxor v1 v2 in
  let v2 := rotl64 v2 32 in
  (v0, v1, v2, v3).

(* v3 ^= w; SIPROUND; SIPROUND; v0 ^= w *)
Definition sip_word (v : sip) (w : Z) : sip :=
  let '(v0, v1, v2, v3) := v in
  let '(v0, v1, v2, v3) := sipround (sipround (v0, v1, v2, Z.lxor v3 w)) in
  (Z.lxor v0 w, v1, v2, v3).

(* v2 ^= f1; four SIPROUNDs; v0 ^ v1 ^ v2 ^ v3 *)
Definition sip_end (v : sip) : Z :=
  let '(v0, v1, v2, v3) := v in
  let '(v0, v1, v2, v3) := sipround (sipround (sipround (sipround (v0, v1, Z.lxor v2 0xff, v3)))) in
  Z.lxor (Z.lxor (Z.lxor v0 v1) v2) v3.

(* mac.c:580-585 *)
Definition sip_init (key : list Z) : sip :=
  let k0 := read64le key in
  let k1 := read64le (skipn 8 key) in
  (Z.lxor k0 0x736f6d6570736575, Z.lxor k1 0x646f72616e646f6d,
   Z.lxor k0 0x6c7967656e657261, Z.lxor k1 0x7465646279746573).

(* mac.c:590-600: while (len >= 8) *)
Fixpoint sip_loop (fuel : nat) (v : sip) (data : list Z) : sip * list Z :=
  match fuel with
  | O => (v, data)
  | Datatypes.S f =>
    if (8 <=? length data)%nat then sip_loop f (sip_word v (read64le data)) (skipn 8 data)
    else (v, data)
  end.

(* mac.c:602-617: the switch; case n falls through to n - 1 *)
Fixpoint sip_tail (n : nat) (f0 : Z) (data : list Z) : Z :=
  match n with
  | O => f0
  | Datatypes.S m => sip_tail m (Z.lor f0 (shl64 (rd data m) (8 * Z.of_nat m))) data
  end.

(* mac.c:578-633 *)
Definition siphash_sum (data key : list Z) : Z :=
  let f0 := shl64 (w64 (Z.of_nat (length data))) 56 in
  let '(v, rest) := sip_loop (length data) (sip_init key) data in
  sip_end (sip_word v (sip_tail (length rest) f0 rest)).

(* mac.c:635-661: the 128-bit branch and the fallback branch *)
Definition siphash_mod (data key : list Z) (m : Z) : Z :=
  w64 (shr (w128 (siphash_sum data key * m)) 64).
Definition siphash_mod_fallback (data key : list Z) (m : Z) : Z :=
  let a := siphash_sum data key in
  let ahi := shr a 32 in
  let alo := Z.land a 0xffffffff in
  let bhi := shr m 32 in
  let blo := Z.land m 0xffffffff in
  let axbhi := mul64 ahi bhi in
  let axbmid := mul64 ahi blo in
  let bxamid := mul64 bhi alo in
  let axblo := mul64 alo blo in
  let c := add64 (add64 (Z.land axbmid 0xffffffff) (Z.land bxamid 0xffffffff)) (shr axblo 32) in
  add64 (add64 (add64 axbhi (shr axbmid 32)) (shr bxamid 32)) (shr c 32).

(* mac.c:663-688 *)
Definition siphash128_sum (num : Z) (key : list Z) : Z := sip_end (sip_word (sip_init key) num).
(* mac.c:690-713 *)
Definition siphash256_sum (num : Z) (key : list Z) : Z :=
  sip_end (sip_word (read64le key, read64le (skipn 8 key), read64le (skipn 16 key), read64le (skipn 24 key)) num).

(* SipHash paper, appendix A *)
Example sip_model_ex : siphash_sum (zseq 0 15) (zseq 0 16) = 0xa129ca6149be45e5.
Proof. vm_compute. reflexivity. Qed.
