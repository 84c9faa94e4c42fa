(* Model of src/drbg.c: HMAC-DRBG, Hash-DRBG and CTR-DRBG.
   Loops take fuel and return None when it runs out. Output buffers are the lists of bytes written. *)
From Verif.Base Require Import Prelude.
From Verif.Model Require Import Encoding Bio Hash.

(* hash_init, one hash_update per part, hash_final of len bytes *)
Definition hash_of (id : hash_id) (parts : list (list Z)) (len : nat) : outcome (list Z) :=
  bind (fold_left (fun c x => bind c (fun c => hash_update id c x)) parts (hash_init id)) (fun c => hash_final id c len).
(* hmac_init, one hmac_update per part, hmac_final *)
Definition hmac_of (id : hash_id) (key : list Z) (parts : list (list Z)) : outcome (list Z) :=
  bind (fold_left (fun h x => bind h (fun h => hmac_update h x)) parts (hmac_init id key)) hmac_final.

(* ---- HMAC-DRBG; size is hash_output_size(type) ---- *)
Record hmac_drbg_t := MkHd { hd_type : hash_id; hd_kmac : hmac_t; hd_K : list Z; hd_V : list Z }.
(* drbg.c:25-54 *)
Definition hmac_drbg_update (t : hash_id) (K V seed : list Z) : outcome hmac_drbg_t :=
  bind (hmac_of t K [V; [0x00]; seed]) (fun K =>
  bind (hmac_of t K [V]) (fun V =>
  bind (if (0 <? length seed)%nat then
          bind (hmac_of t K [V; [0x01]; seed]) (fun K => bind (hmac_of t K [V]) (fun V => Ok (K, V)))
        else Ok (K, V)) (fun '(K, V) =>
  bind (hmac_init t K) (fun kmac => Ok (MkHd t kmac K V))))).
(* drbg.c:56-75; hash_output_size is never 0 in the model of hash_id *)
Definition hmac_drbg_init (t : hash_id) (seed : list Z) : outcome hmac_drbg_t :=
  let size := hash_output_size t in hmac_drbg_update t (repeat 0x00 size) (repeat 0x01 size) seed.
(* drbg.c:77-82 *)
Definition hmac_drbg_reseed (d : hmac_drbg_t) (seed : list Z) : outcome hmac_drbg_t := hmac_drbg_update (hd_type d) (hd_K d) (hd_V d) seed.
(* drbg.c:94-106: while (len > 0) *)
Fixpoint hmac_drbg_loop (fuel : nat) (kmac : hmac_t) (V : list Z) (size len : nat) (out : list Z) : option (outcome (list Z * list Z)) :=
  if (0 <? len)%nat then
    match fuel with
    | O => None
    | S fuel =>
      match bind (hmac_update kmac (firstn size V)) hmac_final with
      | Ok V => let size := if (len <? size)%nat then len else size in
                hmac_drbg_loop fuel kmac V size (len - size) (out ++ firstn size V)
      | Fail => Some Fail
      | Abort => Some Abort
      end
    end
  else Some (Ok (V, out)).
(* drbg.c:84-109 *)
Definition hmac_drbg_generate (fuel : nat) (d : hmac_drbg_t) (len : nat) (add : list Z) : option (outcome (list Z * hmac_drbg_t)) :=
  match (if (0 <? length add)%nat then hmac_drbg_update (hd_type d) (hd_K d) (hd_V d) add else Ok d) with
  | Ok d =>
    match hmac_drbg_loop fuel (hd_kmac d) (hd_V d) (hash_output_size (hd_type d)) len [] with
    | Some (Ok (V, out)) => Some (bind (hmac_drbg_update (hd_type d) (hd_K d) V add) (fun d => Ok (out, d)))
    | Some Fail => Some Fail
    | Some Abort => Some Abort
    | None => None
    end
  | Fail => Some Fail
  | Abort => Some Abort
  end.

(* ---- Hash-DRBG ---- *)
Record hash_drbg_t := MkHs { hs_type : hash_id; hs_V : list Z; hs_C : list Z; hs_rounds : Z }.
(* drbg.c:126: length *)
Definition hs_length (t : hash_id) : nat := if (hash_output_size t <=? 32)%nat then 55 else 111.
(* drbg.c:137-141: state[0..4] *)
Definition hs_state (counter : Z) (length : nat) : list Z :=
  [counter; Z.land (Z.shiftr (Z.of_nat length) 21) 0xff; Z.land (Z.shiftr (Z.of_nat length) 13) 0xff; Z.land (Z.shiftr (Z.of_nat length) 5) 0xff;
   w8 (Z.shiftl (Z.land (Z.of_nat length) 0x1f) 3)].
(* drbg.c:148-155 and the three loops like it: n blocks starting with state[0] = counter; tl are the parts after state[0..4] *)
Fixpoint hs_blocks (n : nat) (t : hash_id) (counter : Z) (length : nat) (tl : list (list Z)) : outcome (list Z) :=
  match n with
  | O => Ok []
  | S n => bind (hash_of t (hs_state counter length :: tl) (hash_output_size t)) (fun b =>
           bind (hs_blocks n t (w8 (counter + 1)) length tl) (fun r => Ok (b ++ r)))
  end.
(* blocks, ASSERT(sizeof(output) >= blocks * size), loop, memcpy of length bytes *)
Definition hs_df (t : hash_id) (tl : list (list Z)) : outcome (list Z) :=
  let size := hash_output_size t in
  let length := hs_length t in
  let blocks := ((length + size - 1) / size)%nat in
  if (165 <? blocks * size)%nat then Abort else bind (hs_blocks blocks t 1 length tl) (fun o => Ok (firstn length o)).
(* drbg.c:120-174. state[5] is fed as part of the same update; the model feeds it separately *)
Definition hash_drbg_init (t : hash_id) (seed : list Z) : outcome hash_drbg_t :=
  bind (hs_df t [seed]) (fun V => bind (hs_df t [[0x00]; V]) (fun C => Ok (MkHs t V C 1))).
(* drbg.c:176-224 *)
Definition hash_drbg_reseed (d : hash_drbg_t) (seed : list Z) : outcome hash_drbg_t :=
  let t := hs_type d in
  bind (hs_df t [[0x01]; hs_V d; seed]) (fun V => bind (hs_df t [[0x00]; V]) (fun C => Ok (MkHs t V C 1))).
(* drbg.c:226-244, on the reversed arrays *)
Fixpoint acc_loop (c : Z) (dst src : list Z) : list Z :=
  match dst with
  | [] => []
  | d :: dst =>
    match src with
    | s :: src => let c := w32 (c + w32 (s + d)) in Z.land c 0xff :: acc_loop (Z.shiftr c 8) dst src
    | [] => let c := w32 (c + d) in Z.land c 0xff :: acc_loop (Z.shiftr c 8) dst []
    end
  end.
Definition accumulate (dst src : list Z) : outcome (list Z) :=
  if (length dst <? length src)%nat then Abort else Ok (rev (acc_loop 0 (rev dst) (rev src))).
(* drbg.c:246-263 *)
Definition hash_drbg_update (d : hash_drbg_t) : outcome (list Z) :=
  bind (hash_of (hs_type d) [[0x03]; hs_V d] (hash_output_size (hs_type d))) (fun H =>
  bind (accumulate (hs_V d) H) (fun V => bind (accumulate V (hs_C d)) (fun V => accumulate V (write64be (hs_rounds d))))).
(* drbg.c:289-307: while (len > 0), with the break *)
Fixpoint hash_drbg_loop (fuel : nat) (t : hash_id) (V : list Z) (len : nat) (out : list Z) : option (outcome (list Z)) :=
  if (0 <? len)%nat then
    match fuel with
    | O => None
    | S fuel =>
      match hash_of t [V] (hash_output_size t) with
      | Ok H =>
        if (len <? hash_output_size t)%nat then Some (Ok (out ++ firstn len H))
        else match accumulate V [0x01] with
             | Ok V => hash_drbg_loop fuel t V (len - hash_output_size t) (out ++ H)
             | Fail => Some Fail
             | Abort => Some Abort
             end
      | Fail => Some Fail
      | Abort => Some Abort
      end
    end
  else Some (Ok out).
(* drbg.c:265-312 *)
Definition hash_drbg_generate (fuel : nat) (d : hash_drbg_t) (len : nat) (add : list Z) : option (outcome (list Z * hash_drbg_t)) :=
  let t := hs_type d in
  match (if (0 <? length add)%nat then bind (hash_of t [[0x02]; hs_V d; add] (hash_output_size t)) (fun H => accumulate (hs_V d) H) else Ok (hs_V d)) with
  | Ok V =>
    match hash_drbg_loop fuel t V len [] with
    | Some (Ok out) =>
      Some (bind (hash_drbg_update (MkHs t V (hs_C d) (hs_rounds d))) (fun V => Ok (out, MkHs t V (hs_C d) (w64 (hs_rounds d + 1)))))
    | Some Fail => Some Fail
    | Some Abort => Some Abort
    | None => None
    end
  | Fail => Some Fail
  | Abort => Some Abort
  end.

(* ---- CTR-DRBG over a block cipher E key block with 16-byte blocks; the aes context is its key, key_size = length of the key ---- *)
Section Ctr.
  Variable E : list Z -> list Z -> list Z.
  (* cd_K is the key of drbg->aes, cd_state the counter *)
  Record ctr_drbg_t := MkCd { cd_ks : nat; cd_derivation : bool; cd_K : list Z; cd_state : list Z }.
  Definition cd_ent (ks : nat) : nat := (ks + 16)%nat.
  (* drbg.c:338-342 n times: the blocks, concatenated, and the state *)
  Fixpoint ctr_drbg_encrypts (n : nat) (K state : list Z) : list Z * list Z :=
    match n with
    | O => ([], state)
    | S n => let state := increment_be state in
             let '(o, st) := ctr_drbg_encrypts n K state in (E K state ++ o, st)
    end.
  (* dst[i] ^= src[i] for i < length src, which is at most the length of dst *)
  Fixpoint xor_into (dst src : list Z) : list Z :=
    match dst, src with
    | d :: dst, s :: src => Z.lxor d s :: xor_into dst src
    | dst, _ => dst
    end.
  (* drbg.c:344-359 with ctr_drbg_rekey, 329-336; for (i = 0; i < ent_size; i += 16) *)
  Definition ctr_drbg_update (d : ctr_drbg_t) (seed : list Z) : ctr_drbg_t :=
    let ks := cd_ks d in
    let seed := firstn (cd_ent ks) seed in
    let KV := fst (ctr_drbg_encrypts ((cd_ent ks + 15) / 16) (cd_K d) (cd_state d)) in
    let KV := xor_into KV seed in
    MkCd ks (cd_derivation d) (firstn ks KV) (firstn 16 (skipn ks KV)).
  (* drbg.c:360-405. MAX_NONCE_SIZE 512, MAX_SER_SIZE 1056; Abort is a failed ASSERT *)
  Definition ctr_drbg_serialize (ks : nat) (nonce pers : list Z) : outcome (list Z) :=
    let nonce := firstn 512 nonce in
    let pers := firstn 512 pers in
    let L := (length nonce + length pers)%nat in
    let size := (16 + 4 + 4 + L + 1)%nat in
    let size := if (size mod 16 =? 0)%nat then size else (size + (16 - size mod 16))%nat in
    if (1056 <? size)%nat || negb (size mod 16 =? 0)%nat then Abort
    else Ok (let s := repeat 0 16 ++ write32be (Z.of_nat L) ++ write32be (Z.of_nat (cd_ent ks)) ++ nonce ++ pers ++ [0x80] in s ++ repeat 0 (size - length s)).
  (* drbg.c:438-444: for (j = 0; j < N; j++) *)
  Fixpoint bcc_loop (n : nat) (K chain S : list Z) : list Z :=
    match n with O => chain | Datatypes.S n => bcc_loop n K (E K (map2 Z.lxor chain (firstn 16 S))) (skipn 16 S) end.
  (* drbg.c:407-458 *)
  Fixpoint derive_chain (n : nat) (i : Z) (N : nat) (K S : list Z) : list Z :=
    match n with
    | O => []
    | Datatypes.S n => let S := write32be i ++ skipn 4 S in bcc_loop N K (repeat 0 16) S ++ derive_chain n (i + 1) N K S
    end.
  Fixpoint derive_out (n : nat) (K x : list Z) : list Z :=
    match n with O => [] | S n => let x := E K x in x ++ derive_out n K x end.
  Definition ctr_drbg_derive (ks : nat) (nonce pers : list Z) : outcome (list Z) :=
    bind (ctr_drbg_serialize ks nonce pers) (fun S =>
    let blocks := ((cd_ent ks + 15) / 16)%nat in
    let slab := derive_chain blocks 0 (length S / 16) (zseq 0 ks) S in
    Ok (firstn (cd_ent ks) (derive_out blocks (firstn ks slab) (firstn 16 (skipn ks slab))))).
  (* drbg.c:480-496, 516-531 *)
  Definition ctr_drbg_entropy (ks : nat) (derivation : bool) (nonce pers : list Z) : outcome (list Z) :=
    if derivation then ctr_drbg_derive ks nonce pers
    else
      let ent := cd_ent ks in
      let nonce := firstn ent nonce in
      let pers := firstn ent pers in
      Ok (xor_into (nonce ++ repeat 0 (ent - length nonce)) pers).
  (* drbg.c:460-502 *)
  Definition ctr_drbg_init (bits : Z) (derivation : bool) (nonce pers : list Z) : outcome ctr_drbg_t :=
    if negb ((bits =? 128) || (bits =? 192) || (bits =? 256)) then Abort
    else
      let ks := Z.to_nat (bits / 8) in
      bind (ctr_drbg_entropy ks derivation nonce pers) (fun entropy =>
      Ok (ctr_drbg_update (MkCd ks derivation (repeat 0 ks) (repeat 0 16)) entropy)).
  (* drbg.c:504-532 *)
  Definition ctr_drbg_reseed (d : ctr_drbg_t) (nonce add : list Z) : outcome ctr_drbg_t :=
    bind (ctr_drbg_entropy (cd_ks d) (cd_derivation d) nonce add) (fun entropy => Ok (ctr_drbg_update d entropy)).
  (* drbg.c:555-570 *)
  Fixpoint ctr_drbg_loop (fuel : nat) (K state : list Z) (len : nat) (out : list Z) : option (list Z * list Z) :=
    if (0 <? len)%nat then
      match fuel with
      | O => None
      | S fuel =>
        let state := increment_be state in
        if (len <? 16)%nat then Some (out ++ firstn len (E K state), state)
        else ctr_drbg_loop fuel K state (len - 16) (out ++ E K state)
      end
    else Some (out, state).
  (* drbg.c:534-573 *)
  Definition ctr_drbg_generate (fuel : nat) (d : ctr_drbg_t) (len : nat) (add : list Z) : option (outcome (list Z * ctr_drbg_t)) :=
    match (if (0 <? length add)%nat then
             if cd_derivation d then bind (ctr_drbg_derive (cd_ks d) add []) (fun tmp => Ok (ctr_drbg_update d tmp, tmp))
             else Ok (ctr_drbg_update d add, add)
           else Ok (d, add)) with
    | Ok (d, add) =>
      match ctr_drbg_loop fuel (cd_K d) (cd_state d) len [] with
      | Some (out, state) => Some (Ok (out, ctr_drbg_update (MkCd (cd_ks d) (cd_derivation d) (cd_K d) state) add))
      | None => None
      end
    | Fail => Some Fail
    | Abort => Some Abort
    end.
End Ctr.
