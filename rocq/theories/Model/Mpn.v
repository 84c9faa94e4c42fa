(* mpi.c: arithmetic on limb arrays. A limb array is a list, least significant limb first; w is
   MP_LIMB_BITS (64 or 32), so a limb is a number below 2^w and every limb operation wraps there.
   Functions that write zp return the new limbs with their return value; a scratch array appears
   only through its contents. The loops the code unrolls by four run limb by limb here, in the
   same order. The macros are the portable ones of mpi.c:596-790; MP_FAST_WIDE and the assembly
   compute the same pairs with a double-width integer, as mp_mul does. *)
From Verif.Base Require Import Prelude.
From Verif.Model Require Import Encoding.

Section Mpn.
Variable w : Z.
Definition LB : Z := 2 ^ w.
Definition tr (x : Z) : Z := x mod LB.
Notation b2z := Z.b2z.

(* mpi.c:599-603 *)
Definition mp_add (x y : Z) : Z * Z := let z := tr (x + y) in (z, b2z (z <? y)).
(* mpi.c:606-610 *)
Definition mp_sub (x y : Z) : Z * Z := let z := tr (x - y) in (z, b2z (z >? x)).
(* mpi.c:614-618 (hi, lo) *)
Definition mp_mul (x y : Z) : Z * Z := (x * y / LB, tr (x * y)).
(* mpi.c:678-700, the version without a double-width integer; h is MP_LOW_BITS = w / 2 *)
Definition mp_mul_hd (x y : Z) : Z * Z :=
  let h := w / 2 in let lowmask := 2 ^ h - 1 in
  let u0 := Z.shiftr x h in let u1 := Z.land x lowmask in
  let v0 := Z.shiftr y h in let v1 := Z.land y lowmask in
  let t := tr (u1 * v1) in let w3 := Z.land t lowmask in let k := Z.shiftr t h in
  let t := tr (u0 * v1 + k) in let w2 := Z.land t lowmask in let w1 := Z.shiftr t h in
  let t := tr (u1 * v0 + w2) in let k := Z.shiftr t h in
  (tr (u0 * v0 + w1 + k), tr (tr (Z.shiftl t h) + w3)).
(* mpi.c:703-724 *)
Definition mp_sqr_hd (x : Z) : Z * Z :=
  let h := w / 2 in let lowmask := 2 ^ h - 1 in
  let u0 := Z.shiftr x h in let u1 := Z.land x lowmask in let u2 := tr (u0 * u1) in
  let t := tr (u1 * u1) in let w3 := Z.land t lowmask in let k := Z.shiftr t h in
  let t := tr (u2 + k) in let w2 := Z.land t lowmask in let w1 := Z.shiftr t h in
  let t := tr (u2 + w2) in let k := Z.shiftr t h in
  (tr (u0 * u0 + w1 + k), tr (tr (Z.shiftl t h) + w3)).
(* mpi.c:729-736 *)
Definition mp_add_1 (c x y : Z) : Z * Z :=
  let z := tr (y + c) in let k := b2z (z <? c) in let z := tr (z + x) in (z, k + b2z (z <? x)).
(* mpi.c:739-746 *)
Definition mp_sub_1 (c x y : Z) : Z * Z :=
  let z := tr (y + c) in let k := b2z (z <? c) in let z := tr (x - z) in (z, k + b2z (z >? x)).
(* mpi.c:749-756 *)
Definition mp_mul_1 (c x y : Z) : Z * Z :=
  let '(hi, lo) := mp_mul x y in let lo := tr (lo + c) in let hi := tr (hi + b2z (lo <? c)) in (lo, hi).
(* mpi.c:759-768 *)
Definition mp_addmul_1 (c z x y : Z) : Z * Z :=
  let '(hi, lo) := mp_mul x y in
  let lo := tr (lo + c) in let hi := tr (hi + b2z (lo <? c)) in
  let lo := tr (lo + z) in let hi := tr (hi + b2z (lo <? z)) in (lo, hi).
(* mpi.c:771-780 *)
Definition mp_submul_1 (c z x y : Z) : Z * Z :=
  let '(hi, lo) := mp_mul x y in
  let lo := tr (lo + c) in let hi := tr (hi + b2z (lo <? c)) in
  let lo := tr (z - lo) in let hi := tr (hi + b2z (lo >? z)) in (lo, hi).
(* mpi.c:783-787 *)
Definition mp_neg_1 (c x : Z) : Z * Z := let z := tr (LB - 1 - x + c) in (z, b2z (z <? c)).

(* mpi.c:1275-1281 *)
Fixpoint mpn_strip (xs : list Z) (xn : nat) : nat :=
  match xn with
  | O => O
  | S m => if nth m xs 0 =? 0 then mpn_strip xs m else xn
  end.
(* mpi.c:1316-1326 *)
Fixpoint mpn_zero_p (xs : list Z) : bool :=
  match xs with [] => true | x :: xs => if negb (x =? 0) then false else mpn_zero_p xs end.
(* mpi.c:1328-1338: from the top limb down *)
Fixpoint mpn_cmp (xs ys : list Z) (n : nat) : Z :=
  match n with
  | O => 0
  | S m => if negb (nth m xs 0 =? nth m ys 0) then (if nth m xs 0 <? nth m ys 0 then -1 else 1) else mpn_cmp xs ys m
  end.
(* mpi.c:1340-1347 *)
Definition mpn_cmp2 (xs ys : list Z) : Z :=
  if negb (length xs =? length ys)%nat then (if (length xs <? length ys)%nat then -1 else 1) else mpn_cmp xs ys (length xs).
(* mpi.c:1349-1362 *)
Definition mpn_cmp_1 (xs : list Z) (y : Z) : Z :=
  if (1 <? length xs)%nat then 1
  else let x := nth 0 xs 0 in if negb (x =? y) then (if x <? y then -1 else 1) else 0.

(* mpi.c:1368-1388 *)
Fixpoint mpn_add_1 (xs : list Z) (c : Z) : list Z * Z :=
  match xs with
  | [] => ([], c)
  | x :: t =>
    if negb (c =? 0) then
      let z := tr (x + c) in let c := b2z (z <? c) in
      let '(zs, c) := mpn_add_1 t c in (z :: zs, c)
    else (xs, c)
  end.
(* mpi.c:1390-1424, the carry being threaded from 0 *)
Fixpoint add_n_loop (c : Z) (xs ys : list Z) : list Z * Z :=
  match xs, ys with
  | x :: xs, y :: ys => let '(z, c) := mp_add_1 c x y in let '(zs, c) := add_n_loop c xs ys in (z :: zs, c)
  | _, _ => ([], c)
  end.
Definition mpn_add_n (xs ys : list Z) := add_n_loop 0 xs ys.
(* mpi.c:1426-1439; Abort is the failed CHECK *)
Definition mpn_add (xs ys : list Z) : outcome (list Z * Z) :=
  if (length ys <=? length xs)%nat then
    let '(lo, c) := mpn_add_n (firstn (length ys) xs) ys in
    if (length ys <? length xs)%nat then let '(hi, c) := mpn_add_1 (skipn (length ys) xs) c in Ok (lo ++ hi, c) else Ok (lo, c)
  else Abort.
(* mpi.c:1445-1481 *)
Fixpoint sec_add_loop (c : Z) (xs : list Z) : list Z * Z :=
  match xs with
  | [] => ([], c)
  | x :: xs => let '(z, c) := mp_add x c in let '(zs, c) := sec_add_loop c xs in (z :: zs, c)
  end.
Definition mpn_sec_add_1 (xs : list Z) (y : Z) : list Z * Z := sec_add_loop y xs.
(* mpi.c:1502-1522 *)
Fixpoint mpn_sub_1 (xs : list Z) (c : Z) : list Z * Z :=
  match xs with
  | [] => ([], c)
  | x :: t =>
    if negb (c =? 0) then
      let z := tr (x - c) in let c := b2z (z >? x) in
      let '(zs, c) := mpn_sub_1 t c in (z :: zs, c)
    else (xs, c)
  end.
(* mpi.c:1524-1558 *)
Fixpoint sub_n_loop (c : Z) (xs ys : list Z) : list Z * Z :=
  match xs, ys with
  | x :: xs, y :: ys => let '(z, c) := mp_sub_1 c x y in let '(zs, c) := sub_n_loop c xs ys in (z :: zs, c)
  | _, _ => ([], c)
  end.
Definition mpn_sub_n (xs ys : list Z) := sub_n_loop 0 xs ys.
(* mpi.c:1560-1573 *)
Definition mpn_sub (xs ys : list Z) : outcome (list Z * Z) :=
  if (length ys <=? length xs)%nat then
    let '(lo, c) := mpn_sub_n (firstn (length ys) xs) ys in
    if (length ys <? length xs)%nat then let '(hi, c) := mpn_sub_1 (skipn (length ys) xs) c in Ok (lo ++ hi, c) else Ok (lo, c)
  else Abort.
(* mpi.c:1594-1630 *)
Fixpoint sec_sub_loop (c : Z) (xs : list Z) : list Z * Z :=
  match xs with
  | [] => ([], c)
  | x :: xs => let '(z, c) := mp_sub x c in let '(zs, c) := sec_sub_loop c xs in (z :: zs, c)
  end.
Definition mpn_sec_sub_1 (xs : list Z) (y : Z) : list Z * Z := sec_sub_loop y xs.
(* mpi.c:1575-1588 *)
Definition mpn_sub_mod (xs ys ms : list Z) : list Z :=
  if 0 <=? mpn_cmp xs ys (length ms) then fst (mpn_sub_n xs ys)
  else fst (mpn_sub_n ms (fst (mpn_sub_n ys xs))).

(* mpi.c:1651-1677 *)
Fixpoint mul_1_loop (c : Z) (xs : list Z) (y : Z) : list Z * Z :=
  match xs with
  | [] => ([], c)
  | x :: xs => let '(z, c) := mp_mul_1 c x y in let '(zs, c) := mul_1_loop c xs y in (z :: zs, c)
  end.
Definition mpn_mul_1 (xs : list Z) (y : Z) := mul_1_loop 0 xs y.
(* mpi.c:1680-1706 *)
Fixpoint addmul_1_loop (c : Z) (zs xs : list Z) (y : Z) : list Z * Z :=
  match zs, xs with
  | z :: zs, x :: xs => let '(z, c) := mp_addmul_1 c z x y in let '(zs, c) := addmul_1_loop c zs xs y in (z :: zs, c)
  | _, _ => ([], c)
  end.
Definition mpn_addmul_1 (zs xs : list Z) (y : Z) := addmul_1_loop 0 zs xs y.
(* mpi.c:1709-1735 *)
Fixpoint submul_1_loop (c : Z) (zs xs : list Z) (y : Z) : list Z * Z :=
  match zs, xs with
  | z :: zs, x :: xs => let '(z, c) := mp_submul_1 c z x y in let '(zs, c) := submul_1_loop c zs xs y in (z :: zs, c)
  | _, _ => ([], c)
  end.
Definition mpn_submul_1 (zs xs : list Z) (y : Z) := submul_1_loop 0 zs xs y.
(* mpi.c:1745-1759. acc is the window zp[i .. i + xn - 1] the next pass updates; the limb below it
   is final and is returned in front. *)
Fixpoint mul_loop (acc xs ys : list Z) : list Z :=
  match ys with
  | [] => acc
  | y :: ys => let '(r, c) := mpn_addmul_1 acc xs y in let z := r ++ [c] in hd 0 z :: mul_loop (tl z) xs ys
  end.
Definition mpn_mul (xs ys : list Z) : list Z :=
  match ys with
  | [] => repeat 0 (length xs)
  | y :: ys => let '(r, c) := mpn_mul_1 xs y in let z := r ++ [c] in hd 0 z :: mul_loop (tl z) xs ys
  end.
(* mpi.c:3279-3296; z[i] takes the bits of x[i-1] shifted out *)
Fixpoint lshift_loop (prev : Z) (xs : list Z) (bits : Z) : list Z :=
  match xs with
  | [] => []
  | x :: xs => Z.lor (tr (Z.shiftl x bits)) (Z.shiftr prev (w - bits)) :: lshift_loop x xs bits
  end.
Definition mpn_lshift (xs : list Z) (bits : Z) : list Z * Z :=
  (lshift_loop 0 xs bits, Z.shiftr (last xs 0) (w - bits)).
(* mpi.c:3301-3318 *)
Fixpoint mpn_rshift_z (xs : list Z) (bits : Z) : list Z :=
  match xs with
  | [] => []
  | x :: xs => Z.lor (tr (Z.shiftl (hd 0 xs) (w - bits))) (Z.shiftr x bits) :: mpn_rshift_z xs bits
  end.
Definition mpn_rshift (xs : list Z) (bits : Z) : list Z * Z :=
  (mpn_rshift_z xs bits, Z.shiftr (tr (Z.shiftl (hd 0 xs) (w - bits))) (w - bits)).

(* mpi.c:1761-1790. T holds tp[0 .. 2i-2] before pass i. *)
Definition sqr_pass (xs : list Z) (T : list Z) (i : nat) : list Z :=
  let T := T ++ [0] in
  let '(r, c) := mpn_addmul_1 (skipn i T) (firstn i xs) (nth i xs 0) in
  firstn i T ++ r ++ [c].
Definition sqr_diag (xs : list Z) : list Z := flat_map (fun x => let '(hi, lo) := mp_mul x x in [lo; hi]) xs.
Definition mpn_sqr (xs : list Z) : outcome (list Z) :=
  match xs with
  | [] => Ok []
  | [x] => Ok (sqr_diag xs)
  | x0 :: x1 :: _ =>
    let '(hi, lo) := mp_mul x0 x1 in
    let T := fold_left (sqr_pass xs) (seq 2 (length xs - 2)) [0; lo; hi] in
    let '(r, c) := mpn_lshift (skipn 1 T) 1 in
    let T := firstn 1 T ++ r ++ [c] in
    let '(z, c) := mpn_add_n (sqr_diag xs) T in
    if c =? 0 then Ok z else Abort
  end.

(* mpi.c:3477-3508 *)
Fixpoint neg_loop (c : Z) (xs : list Z) : list Z * Z :=
  match xs with
  | [] => ([], c)
  | x :: xs => let '(z, c) := mp_neg_1 c x in let '(zs, c) := neg_loop c xs in (z :: zs, c)
  end.
Definition mpn_neg (xs : list Z) : list Z * Z := let '(zs, c) := neg_loop 1 xs in (zs, Z.lxor c 1).

(* mpi.c:958-997 and 1053-1071, as the builtins define them *)
Definition mp_bitlen (x : Z) : Z := if x =? 0 then 0 else Z.log2 x + 1.
Definition mp_clz (x : Z) : Z := w - mp_bitlen x.

(* mpi.c:1840-1979: the hardware division (n1, n0) / d, for n1 < d *)
Definition mp_div (n1 n0 d : Z) : Z * Z := ((n1 * LB + n0) / d, (n1 * LB + n0) mod d).
(* the portable version, mpi.c:1910-1977; the two correction loops run at most twice *)
Fixpoint hd_fix (fuel : nat) (b vn1 vn0 un q rhat : Z) : Z :=
  match fuel with
  | O => q
  | S f =>
    if (b <=? q) || (tr (rhat * b + un) <? tr (q * vn0)) then
      let q := tr (q - 1) in let rhat := tr (rhat + vn1) in
      if b <=? rhat then q else hd_fix f b vn1 vn0 un q rhat
    else q
  end.
Definition mp_div_hd (n1 n0 d : Z) : outcome (Z * Z) :=
  if n1 =? 0 then let q := n0 / d in Ok (q, tr (n0 - tr (q * d)))
  else if d <=? n1 then Abort
  else
    let h := w / 2 in let b := 2 ^ h in
    let s := mp_clz d in
    let d := tr (Z.shiftl d s) in
    let vn1 := Z.shiftr d h in let vn0 := Z.land d (b - 1) in
    let un32 := if negb (s =? 0) then Z.lor (tr (Z.shiftl n1 s)) (Z.shiftr n0 (w - s)) else n1 in
    let un10 := if negb (s =? 0) then tr (Z.shiftl n0 s) else n0 in
    let un1 := Z.shiftr un10 h in let un0 := Z.land un10 (b - 1) in
    let q1 := un32 / vn1 in let rhat := tr (un32 - tr (q1 * vn1)) in
    let q1 := hd_fix 3 b vn1 vn0 un1 q1 rhat in
    let un21 := tr (un32 * b + un1 - q1 * d) in
    let q0 := un21 / vn1 in let rhat := tr (un21 - tr (q0 * vn1)) in
    let q0 := hd_fix 3 b vn1 vn0 un0 q0 rhat in
    Ok (tr (q1 * b + q0), Z.shiftr (tr (un21 * b + un0 - q0 * d)) s).

(* mpi.c:1981-2037; the ASSERT asks for a normalized divisor *)
Definition mp_inv_2by1 (d : Z) : Z := fst (mp_div (LB - 1 - d) (LB - 1) d).
(* mpi.c:2039-2177, the code after #else *)
Definition mp_div_2by1 (u1 u0 d v : Z) : Z * Z :=
  let '(q1, q0) := mp_mul v u1 in
  let q0 := tr (q0 + u0) in
  let q1 := tr (q1 + tr (u1 + b2z (q0 <? u0))) in
  let q1 := tr (q1 + 1) in
  let r0 := tr (u0 - tr (q1 * d)) in
  let '(q1, r0) := if r0 >? q0 then (tr (q1 - 1), tr (r0 + d)) else (q1, r0) in
  if d <=? r0 then (tr (q1 + 1), tr (r0 - d)) else (q1, r0).

(* mpi.c:838-845 (the fields in use) *)
Record mp_divisor_t := MkDen { den_vp : list Z; den_inv : Z; den_shift : Z }.
(* mpi.c:2480-2493 *)
Definition mpn_divmod_init_1 (d : Z) : outcome mp_divisor_t :=
  if d =? 0 then Abort
  else let shift := mp_clz d in let v := tr (Z.shiftl d shift) in Ok (MkDen [v] (mp_inv_2by1 v) shift).
(* mpi.c:2506-2537 without MP_USE_DIV_3BY2, which mpi.c:57-58 undefines *)
Definition mpn_divmod_precomp (dp : list Z) : outcome mp_divisor_t :=
  if (length dp =? 0)%nat || (last dp 0 =? 0) then Abort
  else
    let shift := mp_clz (last dp 0) in
    let vp := if (length dp =? 1)%nat then [tr (Z.shiftl (hd 0 dp) shift)]
              else if negb (shift =? 0) then fst (mpn_lshift dp shift) else dp in
    Ok (MkDen vp (mp_inv_2by1 (last vp 0)) shift).
(* mpi.c:2539-2571; the top limb is divided first *)
Fixpoint mpn_divmod_small_2by1 (np : list Z) (s d m : Z) : list Z * Z :=
  match np with
  | [] => ([], 0)
  | n0 :: np =>
    let '(qs, r) := mpn_divmod_small_2by1 np s d m in
    let '(n1, n0) := if negb (s =? 0) then (Z.lor (tr (Z.shiftl r s)) (Z.shiftr n0 (w - s)), tr (Z.shiftl n0 s)) else (r, n0) in
    let '(q, r) := mp_div_2by1 n1 n0 d m in
    (q :: qs, Z.shiftr r s)
  end.
(* mpi.c:1074-1081 *)
Definition mp_mul_gt_2 (u v y1 y0 : Z) : bool :=
  let '(x1, x0) := mp_mul u v in (x1 >? y1) || ((x1 =? y1) && (x0 >? y0)).
(* mpi.c:2749-2757; three passes always suffice (est_exits) *)
Fixpoint est_loop (fuel : nat) (v1 v0 u qhat rhat : Z) : Z :=
  match fuel with
  | O => qhat
  | S f =>
    if mp_mul_gt_2 qhat v0 rhat u then
      let qhat := tr (qhat - 1) in let rhat := tr (rhat + v1) in
      if rhat <? v1 then qhat else est_loop f v1 v0 u qhat rhat
    else qhat
  end.
(* mpi.c:2662-2776: one pass on the window up[j .. j + dn]; returns qhat and up[j .. j + dn - 1] *)
Definition div_step (vp : list Z) (m : Z) (u : list Z) : Z * list Z :=
  let dn := length vp in
  let top := nth dn u 0 in let v1 := nth (dn - 1) vp 0 in
  let qhat :=
    if top =? v1 then LB - 1
    else let '(qhat, rhat) := mp_div_2by1 top (nth (dn - 1) u 0) v1 m in
         est_loop 3 v1 (nth (dn - 2) vp 0) (nth (dn - 2) u 0) qhat rhat in
  let '(lo, c) := mpn_submul_1 (firstn dn u) vp qhat in
  let '(t, c) := mp_sub top c in
  if negb (c =? 0) then (tr (qhat - 1), fst (mpn_add_n lo vp)) else (qhat, lo).
(* the loop over j: lo are the limbs below the window, hi the window without its lowest limb *)
Fixpoint div_loop (vp : list Z) (m : Z) (lo hi : list Z) : list Z * list Z :=
  match lo with
  | [] => ([], hi)
  | u :: lo => let '(qs, hi) := div_loop vp m lo hi in let '(q, r) := div_step vp m (u :: hi) in (q :: qs, r)
  end.
(* mpi.c:2621-2780 *)
Definition mpn_divmod_large_2by1 (np : list Z) (den : mp_divisor_t) : list Z * list Z :=
  let s := den_shift den in let vp := den_vp den in let dn := length vp in
  let up := if negb (s =? 0) then let '(z, c) := mpn_lshift np s in z ++ [c] else np ++ [0] in
  let k := (length np - dn + 1)%nat in
  let '(qs, r) := div_loop vp (den_inv den) (firstn k up) (skipn k up) in
  (qs, if negb (s =? 0) then fst (mpn_rshift r s) else r).
(* mpi.c:2973-2995 *)
Definition mpn_divmod_inner (np : list Z) (den : mp_divisor_t) : outcome (list Z * list Z) :=
  let dn := length (den_vp den) in
  if (length np <? dn)%nat then Abort
  else if (dn =? 1)%nat then
    let '(q, r) := mpn_divmod_small_2by1 np (den_shift den) (hd 0 (den_vp den)) (den_inv den) in Ok (q, [r])
  else Ok (mpn_divmod_large_2by1 np den).
(* mpi.c:3008-3032 *)
Definition mpn_divmod_1 (np : list Z) (d : Z) : outcome (list Z * Z) :=
  if d =? 0 then Abort
  else match np with
  | [] => Ok ([], 0)
  | [n] => let q := n / d in Ok ([q], tr (n - tr (q * d)))
  | _ =>
    match mpn_divmod_init_1 d with
    | Ok den => Ok (mpn_divmod_small_2by1 np (den_shift den) (hd 0 (den_vp den)) (den_inv den))
    | Fail => Fail | Abort => Abort
    end
  end.
(* mpi.c:3044-3056; qp has nn - dn + 1 limbs, rp dn limbs *)
Definition mpn_divmod (np dp : list Z) : outcome (list Z * list Z) :=
  if (length dp =? 0)%nat || (length np <? length dp)%nat then Abort
  else match mpn_divmod_precomp dp with
  | Ok den => mpn_divmod_inner np den
  | Fail => Fail | Abort => Abort
  end.
End Mpn.

(* 2^192 - 1 by 2^64 + 3 *)
Example mpn_divmod_ex : mpn_divmod 64 [2 ^ 64 - 1; 2 ^ 64 - 1; 2 ^ 64 - 1] [3; 1] =
  Ok ([8; 2 ^ 64 - 3], [2 ^ 64 - 25; 0]).
Proof. vm_compute. reflexivity. Qed.
