(* Modular arithmetic on limb arrays: reduction, Montgomery multiplication and exponentiation
   (src/mpi.c). Conventions of Model/Mpn.v: w is the limb width, arrays are lists, low limb first,
   and the lengths stand for the mp_size_t arguments. Scratch memory is not modelled. *)
From Verif.Base Require Import Prelude.
From Verif.Model Require Import Encoding Hash Mpn.

Section MpnMod.
Variable w : Z.
Notation tr := (tr w).

(* mpi.c:2441-2474; four steps, five for 64-bit limbs *)
Definition inv_step (d m : Z) : Z := tr (m * tr (2 - tr (d * m))).
Definition mp_inv_mod (d : Z) : outcome Z :=
  if Z.odd d then
    let m := inv_step d (inv_step d (inv_step d (inv_step d d))) in
    Ok (if w =? 64 then inv_step d m else m)
  else Abort.
(* mpi.c:4538-4548; m is all ones when cnd is set *)
Definition sel (m x y : Z) : Z := Z.lor (Z.land x (LB w - 1 - m)) (Z.land y m).
Definition mpn_cnd_select (xs ys : list Z) (cnd : bool) : list Z := map2 (sel (tr (- Z.b2z cnd))) xs ys.
(* mpi.c:3514-3529 *)
Definition mpn_reduce_weak (xs ms : list Z) (hi : Z) : list Z * bool :=
  let '(t, c) := mpn_sub_n w xs ms in
  let c := Z.b2z (hi <? c) in
  (mpn_cnd_select xs t (c =? 0), c =? 0).
(* mpi.c:3064-3068 and 2997-3002; the precomputed divisor is derived from ms each time *)
Definition mpn_mod (xs ms : list Z) : outcome (list Z) := bind (mpn_divmod w xs ms) (fun qr => Ok (snd qr)).
(* mpi.c:3535-3564 *)
Definition mpn_barrett (ms : list Z) (shift : nat) : outcome (list Z) :=
  let n := length ms in
  if (n =? 0)%nat || (shift <? n * 2)%nat then Abort
  else bind (mpn_divmod w (repeat 0 shift ++ [1]) ms) (fun qr =>
    if (mpn_strip (fst qr) (shift + 1 - n + 1) =? shift - n + 1)%nat then Ok (firstn (shift - n + 1) (fst qr)) else Abort).
(* mpi.c:3566-3601; the TORSION_VERIFY assertion is left out *)
Definition mpn_reduce (xs bs ms : list Z) (shift : nat) : list Z :=
  let n := length ms in
  let h := skipn shift (mpn_mul w xs bs) in
  let q := fst (mpn_sub_n w xs (firstn shift (mpn_mul w h ms))) in
  fst (mpn_reduce_weak (firstn n q) ms (nth n q 0)).

(* mpi.c:3607-3633 *)
Definition mpn_mont (ms : list Z) : outcome (Z * list Z) :=
  let n := length ms in
  if (n =? 0)%nat then Abort
  else bind (mp_inv_mod (nth 0 ms 0)) (fun i =>
    bind (mpn_mod (repeat 0 (n * 2) ++ [1]) ms) (fun r => Ok (tr (- i), r))).
(* mpi.c:3635-3672; the state is the window tp[i .. i+n-1] and the carry c1 *)
Definition mont_step (xs ms : list Z) (k : Z) (st : list Z * Z) (y : Z) : list Z * Z :=
  let '(t, c1) := st in
  let '(t, c2) := mpn_addmul_1 w t xs y in
  let '(t, c3) := mpn_addmul_1 w t ms (tr (nth 0 t 0 * k)) in
  let '(cx, c2) := mp_add w c1 c2 in
  let '(cy, c3) := mp_add w cx c3 in
  (tl t ++ [cy], Z.lor c2 c3).
Definition mpn_montmul_inner (xs ys ms : list Z) (k : Z) : outcome (list Z * Z) :=
  match ys with
  | [] => Abort
  | y :: ys =>
    let '(t, c2) := mpn_mul_1 w xs y in
    let '(t, c3) := mpn_addmul_1 w t ms (tr (nth 0 t 0 * k)) in
    let '(top, c1) := mp_add w c2 c3 in
    Ok (fold_left (mont_step xs ms k) ys (tl t ++ [top], c1))
  end.
(* mpi.c:3674-3692 *)
Definition mpn_montmul (xs ys ms : list Z) (k : Z) : outcome (list Z) :=
  bind (mpn_montmul_inner xs ys ms k) (fun tc => Ok (if negb (snd tc =? 0) then fst (mpn_sub_n w (fst tc) ms) else fst tc)).
(* mpi.c:3694-3713 *)
Definition mpn_sec_montmul (xs ys ms : list Z) (k : Z) : outcome (list Z) :=
  bind (mpn_montmul_inner xs ys ms k) (fun tc => Ok (fst (mpn_reduce_weak (fst tc) ms (snd tc)))).

(* mpi.c:3333-3360; the assertion width < MP_LIMB_BITS holds for every caller here (width = 4) *)
Definition mpn_getbits (xs : list Z) (pos width : Z) : Z :=
  let s := Z.to_nat (pos / w) in
  if (length xs <=? s)%nat then 0
  else
    let r := pos mod w in
    let z := Z.land (Z.shiftr (nth s xs 0) r) (2 ^ width - 1) in
    if (w <? r + width) && (s + 1 <? length xs)%nat then
      let b := Z.land (nth (s + 1) xs 0) (2 ^ (r + width - w) - 1) in
      Z.lor z (tr (Z.shiftl b (w - r)))
    else z.
Definition mpn_tstbit (xs : list Z) (pos : Z) : bool := Z.odd (Z.shiftr (nth (Z.to_nat (pos / w)) xs 0) (pos mod w)).
(* mpi.c:1001-1051 (mp_ctz of a nonzero limb) *)
Fixpoint pos_ctz (p : positive) : Z := match p with xO q => 1 + pos_ctz q | _ => 0 end.
Definition ctz (x : Z) : Z := match x with Zpos p => pos_ctz p | _ => 0 end.
(* mpi.c:1287-1294 *)
Definition mpn_set_1 (n : nat) (x : Z) : list Z := match n with O => [] | S m => x :: repeat 0 m end.

(* The sliding window shared, line for line, by mpn_div_powm and mpn_mont_powm: MP_SLIDE_WIDTH is 4 and
   MP_SLIDE_SIZE is 8 (include/torsion/mpi.h:382-383). mul and sqr are the two operations on residues. *)
Section Window.
Variable mul : list Z -> list Z -> outcome (list Z).
Variable sqr : list Z -> outcome (list Z).
(* mpi.c:4111-4116, 4203-4206 *)
Fixpoint wnd_fill (n : nat) (last r : list Z) : outcome (list (list Z)) :=
  match n with
  | O => Ok []
  | S n => bind (mul last r) (fun x => bind (wnd_fill n x r) (fun rest => Ok (x :: rest)))
  end.
Fixpoint sqrs (n : nat) (r : list Z) : outcome (list Z) :=
  match n with O => Ok r | S n => bind (sqr r) (sqrs n) end.
(* mpi.c:4118-4149, 4208-4235; fuel is the bit length *)
Fixpoint slide (fuel : nat) (wnd : list (list Z)) (ys : list Z) (len i : Z) (r : list Z) : outcome (list Z * Z) :=
  if i <? 4 then Ok (r, i)
  else match fuel with
  | O => Abort
  | S fuel =>
    let bits := mpn_getbits ys (i - 4) 4 in
    if bits <? 8 then bind (sqr r) (slide fuel wnd ys len (i - 1))
    else
      let shift := ctz bits in
      let width := 4 - shift in
      let bits := Z.shiftr bits shift in
      let e := nth (Z.to_nat (Z.shiftr bits 1)) wnd [] in
      if i =? len then slide fuel wnd ys len (i - width) e
      else bind (sqrs (Z.to_nat width) r) (fun r => bind (mul r e) (slide fuel wnd ys len (i - width)))
  end.
(* mpi.c:4157-4165, 4242-4247; bits i-1 down to 0 *)
Fixpoint ladder (i : nat) (ys : list Z) (a r : list Z) : outcome (list Z) :=
  match i with
  | O => Ok r
  | S i => bind (sqr r) (fun r => bind (if mpn_tstbit ys (Z.of_nat i) then mul r a else Ok r) (ladder i ys a))
  end.
Definition slide_pow (ys a : list Z) : outcome (list Z) :=
  let yn := length ys in
  let len := Z.of_nat yn * w - mp_clz w (nth (yn - 1) ys 0) in
  if (2 <? yn)%nat then
    bind (sqr a) (fun r =>
    bind (wnd_fill 7 a r) (fun t =>
    bind (slide (Z.to_nat len) (a :: t) ys len len r) (fun ri =>
    ladder (Z.to_nat (snd ri)) ys a (fst ri))))
  else ladder (Z.to_nat (len - 1)) ys a a.
End Window.

(* mpi.c:4082-4173 *)
Definition mpn_div_powm (xs ys ms : list Z) : outcome (list Z) :=
  let mn := length ms in
  let a := xs ++ repeat 0 (mn - length xs) in
  let mul x y := mpn_mod (mpn_mul w x y) ms in
  let sqr x := bind (mpn_sqr w x) (fun s => mpn_mod s ms) in
  bind (slide_pow mul sqr ys a) (fun r =>
  if 0 <=? mpn_cmp r ms mn then mpn_mod r ms else Ok r).
(* mpi.c:4175-4261 *)
Definition mpn_mont_powm (xs ys ms : list Z) : outcome (list Z) :=
  let mn := length ms in
  let a := xs ++ repeat 0 (mn - length xs) in
  bind (mpn_mont ms) (fun krr => let '(k, rr) := krr in
  bind (mpn_montmul a rr ms k) (fun a =>
  bind (slide_pow (fun x y => mpn_montmul x y ms k) (fun x => mpn_montmul x x ms k) ys a) (fun r =>
  bind (mpn_montmul r (mpn_set_1 mn 1) ms k) (fun r =>
  if 0 <=? mpn_cmp r ms mn then
    let r := fst (mpn_sub_n w r ms) in
    if 0 <=? mpn_cmp r ms mn then mpn_mod r ms else Ok r
  else Ok r)))).
(* mpi.c:4263-4304 *)
Definition mpn_powm (xs ys ms : list Z) : outcome (list Z) :=
  let mn := length ms in
  if (mn =? 0)%nat || (nth (mn - 1) ms 0 =? 0) then Abort
  else if (mn <? length xs)%nat then Abort
  else if (mn =? 1)%nat && (nth 0 ms 0 =? 1) then Ok (repeat 0 mn)
  else
    let ys := firstn (mpn_strip ys (length ys)) ys in
    if (length ys =? 0)%nat then Ok (mpn_set_1 mn 1)
    else if (length xs =? 0)%nat then Ok (repeat 0 mn)
    else if (1 <? length ys)%nat && Z.odd (nth 0 ms 0) then mpn_mont_powm xs ys ms
    else mpn_div_powm xs ys ms.

(* mpi.c:4306-4365: MP_FIXED_WIDTH is 4, MP_FIXED_SIZE is 16 *)
Definition tab_select (wnd : list (list Z)) (b : Z) (s : list Z) : list Z :=
  fold_left (fun s jt => mpn_cnd_select s (snd jt) (Z.of_nat (fst jt) =? b)) (combine (seq 0 16) wnd) s.
Fixpoint sec_steps (ms : list Z) (k : Z) (wnd : list (list Z)) (ys : list Z) (steps i : nat) (r s : list Z) : outcome (list Z) :=
  match i with
  | O => Ok r
  | S i' =>
    let s := tab_select wnd (mpn_getbits ys (Z.of_nat i' * 4) 4) s in
    bind (if (i =? steps)%nat then Ok s
          else bind (sqrs (fun x => mpn_sec_montmul x x ms k) 4 r) (fun r => mpn_sec_montmul r s ms k))
      (fun r => sec_steps ms k wnd ys steps i' r s)
  end.
Definition mpn_sec_powm (xs ys ms : list Z) : outcome (list Z) :=
  let mn := length ms in
  if (mn =? 0)%nat || (nth (mn - 1) ms 0 =? 0) || negb (Z.odd (nth 0 ms 0)) then Abort
  else if (mn <? length xs)%nat then Abort
  else
    let r := xs ++ repeat 0 (mn - length xs) in
    bind (mpn_mont ms) (fun krr => let '(k, rr) := krr in
    bind (mpn_sec_montmul (mpn_set_1 mn 1) rr ms k) (fun w0 =>
    bind (mpn_sec_montmul r rr ms k) (fun w1 =>
    bind (wnd_fill (fun x y => mpn_sec_montmul x y ms k) 14 w1 w1) (fun t =>
    let wnd := w0 :: w1 :: t in
    let steps := Z.to_nat ((Z.of_nat (length ys) * w + 3) / 4) in
    bind (sec_steps ms k wnd ys steps steps w0 (repeat 0 mn)) (fun r =>
    mpn_sec_montmul r (mpn_set_1 mn 1) ms k))))).
(* mpi.c:3975-3998, 4631-4643 *)
Definition mpn_sec_zero_p (xs : list Z) : Z :=
  let v := fold_left Z.lor xs 0 in
  let v := Z.lor (Z.shiftr v 1) (Z.land v 1) in
  Z.shiftr (tr (v - 1)) (w - 1).
Definition mpn_sec_invert (xs ms : list Z) : outcome (list Z * Z) :=
  let mn := length ms in
  if (mn =? 0)%nat || (nth (mn - 1) ms 0 =? 0) || negb (Z.odd (nth 0 ms 0)) then Abort
  else if (mn =? 1)%nat && (nth 0 ms 0 =? 1) then Ok (repeat 0 mn, 0)
  else
    let ys := fst (mpn_sub_1 w ms 2) in
    let yn := (mn - Nat.b2n (nth (mn - 1) ys 0%Z =? 0)%Z)%nat in
    bind (mpn_sec_powm xs (firstn yn ys) ms) (fun z => Ok (z, Z.lxor (mpn_sec_zero_p z) 1)).
End MpnMod.

(* 3^(2^64 + 6 * 2^32 + 5) modulo 2^64 - 5 takes the sliding window *)
Example mpn_powm_ex : let m := [2 ^ 32 - 5; 2 ^ 32 - 1] in
  mpn_powm 32 [3] [7] m = Ok [3 ^ 7; 0] /\ mpn_sec_powm 32 [3] [7] m = Ok [3 ^ 7; 0].
Proof. vm_compute. repeat split. Qed.
Succeed Definition mpn_powm_vector : let m := [2 ^ 32 - 5; 2 ^ 32 - 1] in mpn_powm 32 [3] [5; 6; 1] m = Ok [2567579197; 888316743] /\ mpn_sec_powm 32 [3] [5; 6; 1] m = Ok [2567579197; 888316743] := ltac:(vm_compute; repeat split).
