(* mpi.c: import, export and strings. Conventions of Model/Mpn.v and Model/Mpz.v: w is MP_LIMB_BITS, so w / 8 is MP_LIMB_BYTES;
   arrays are lists, low limb first; strings are lists of character codes without the terminating NUL (execution character set
   ASCII, so that torsion_ascii(c) is c & 0xff). endian 1 is big endian, -1 little endian; 0 (the host's) is one of the two and is
   resolved by the caller of these definitions. mpz_grow and the other allocations are not modelled. *)
From Verif.Base Require Import Prelude.
From Verif.Model Require Import Encoding Hash Mpn Mpz.
Section MpzStr.
Variable w : Z.
Definition limb_bytes : nat := Z.to_nat (w / 8).
(* mp_import_le (mpi.c:1158-1175) on the bytes from the lowest, i the shift of the first: (.. | x[1] << 8) | x[0] << 0 *)
Fixpoint or_bytes (l : list Z) (i : Z) : Z := match l with [] => 0 | b :: r => Z.lor (or_bytes r (i + 8)) (tr w (Z.shiftl b i)) end.
Definition mp_import_le (l : list Z) : Z := or_bytes l 0.
(* mp_import_be (1177-1194) *)
Definition mp_import_be (l : list Z) : Z := or_bytes (rev l) 0.
(* mp_export_le (1196-1213), mp_export_be (1215-1232) *)
Definition mp_export_le (x : Z) : list Z := map (fun j => Z.land (Z.shiftr x (8 * Z.of_nat j)) 255) (seq 0 limb_bytes).
Definition mp_export_be (x : Z) : list Z := map (fun j => Z.land (Z.shiftr x (8 * Z.of_nat j)) 255) (rev (seq 0 limb_bytes)).
(* mpn_import (4731-4785), endian -1 *)
Fixpoint mpn_import_le (zn : nat) (x : list Z) : list Z :=
  match zn with
  | O => []
  | S zn' =>
    if (limb_bytes <=? length x)%nat then mp_import_le (firstn limb_bytes x) :: mpn_import_le zn' (skipn limb_bytes x)
    else if (0 <? length x)%nat then fold_left (fun z b => Z.lor (tr w (Z.shiftl z 8)) b) (rev x) 0 :: repeat 0 zn'
    else repeat 0 zn
  end.
(* endian 1: from the end of the string *)
Fixpoint mpn_import_be (zn : nat) (x : list Z) : list Z :=
  match zn with
  | O => []
  | S zn' =>
    let r := (length x - limb_bytes)%nat in
    if (limb_bytes <=? length x)%nat then mp_import_be (skipn r x) :: mpn_import_be zn' (firstn r x)
    else if (0 <? length x)%nat then fold_left (fun z b => Z.lor (tr w (Z.shiftl z 8)) b) x 0 :: repeat 0 zn'
    else repeat 0 zn
  end.
Definition mpn_import (zn : nat) (x : list Z) (endian : Z) : outcome (list Z) :=
  if endian =? 1 then Ok (mpn_import_be zn x) else if endian =? -1 then Ok (mpn_import_le zn x) else Abort.
(* mpn_export (4791-4842), endian -1: whole limbs, then the low bytes of the next one, then zeros *)
Fixpoint byte_loop (x : Z) (zn : nat) : list Z := match zn with O => [] | S n => Z.land x 255 :: byte_loop (Z.shiftr x 8) n end.
Fixpoint mpn_export_le (zn : nat) (x : list Z) : list Z :=
  match x with
  | [] => repeat 0 zn
  | x0 :: x' => if (limb_bytes <=? zn)%nat then mp_export_le x0 ++ mpn_export_le (zn - limb_bytes) x' else byte_loop x0 zn
  end.
(* endian 1: the same from the end of the buffer *)
Fixpoint byte_loop_be (x : Z) (zn : nat) : list Z := match zn with O => [] | S n => byte_loop_be (Z.shiftr x 8) n ++ [Z.land x 255] end.
Fixpoint mpn_export_be (zn : nat) (x : list Z) : list Z :=
  match x with
  | [] => repeat 0 zn
  | x0 :: x' => if (limb_bytes <=? zn)%nat then mpn_export_be (zn - limb_bytes) x' ++ mp_export_be x0 else byte_loop_be x0 zn
  end.
Definition mpn_export (zn : nat) (x : list Z) (endian : Z) : outcome (list Z) :=
  if endian =? 1 then Ok (mpn_export_be zn x) else if endian =? -1 then Ok (mpn_export_le zn x) else Abort.
(* mpz_bitlen (8965-8974), mpz_bytelen (8976-8979) *)
Definition mpz_bitlen (x : mpz) : Z := let n := length (lm x) in if (n =? 0)%nat then 0 else Z.of_nat n * w - mp_clz w (nth (n - 1) (lm x) 0).
Definition mpz_bytelen (x : mpz) : Z := (mpz_bitlen x + 7) / 8.
(* mpz_import (9074-9090) *)
Definition mpz_import (raw : list Z) (endian : Z) : outcome mpz :=
  let zn := ((length raw + limb_bytes - 1) / limb_bytes)%nat in
  if (zn =? 0)%nat then Ok (mkz false [])
  else bind (mpn_import zn raw endian) (fun z => Ok (mkz false (stripped z))).
(* mpz_export (9096-9100) *)
Definition mpz_export (x : mpz) (size : nat) (endian : Z) : outcome (list Z) :=
  if mpz_bytelen x <=? Z.of_nat size then mpn_export size (lm x) endian else Abort.

(* mp_isspace (1108-1118), mp_table_36 (4848-4881), mp_table_62 (4883-4916) *)
Definition spaces : list Z := [0; 0; 0; 0; 0; 0; 0; 0; 0; 1; 1; 1;
    1; 1; 0; 0; 0; 0; 0; 0; 0; 0; 0; 0;
    0; 0; 0; 0; 0; 0; 0; 0; 1; 0].
Definition mp_isspace (ch : Z) : bool := negb (nth (Z.to_nat (Z.land ch 255)) spaces 0 =? 0).
Definition mp_table_36 : list Z := 
  [36; 36; 36; 36; 36; 36; 36; 36; 36; 36; 36; 36; 36; 36; 36; 36; 36; 36; 36; 36; 36; 36; 36; 36; 36; 36; 36; 36; 36; 36; 36; 36; 36; 36; 36; 36; 36;
  36; 36; 36; 36; 36; 36; 36; 36; 36; 36; 36; 0; 1; 2; 3; 4; 5; 6; 7; 8; 9; 36; 36; 36; 36; 36; 36; 36; 10; 11; 12; 13; 14; 15; 16; 17; 18; 19; 20; 21;
  22; 23; 24; 25; 26; 27; 28; 29; 30; 31; 32; 33; 34; 35; 36; 36; 36; 36; 36; 36; 10; 11; 12; 13; 14; 15; 16; 17; 18; 19; 20; 21; 22; 23; 24; 25; 26;
  27; 28; 29; 30; 31; 32; 33; 34; 35; 36; 36; 36; 36; 36; 36; 36; 36; 36; 36; 36; 36; 36; 36; 36; 36; 36; 36; 36; 36; 36; 36; 36; 36; 36; 36; 36; 36;
  36; 36; 36; 36; 36; 36; 36; 36; 36; 36; 36; 36; 36; 36; 36; 36; 36; 36; 36; 36; 36; 36; 36; 36; 36; 36; 36; 36; 36; 36; 36; 36; 36; 36; 36; 36; 36;
  36; 36; 36; 36; 36; 36; 36; 36; 36; 36; 36; 36; 36; 36; 36; 36; 36; 36; 36; 36; 36; 36; 36; 36; 36; 36; 36; 36; 36; 36; 36; 36; 36; 36; 36; 36; 36;
  36; 36; 36; 36; 36; 36; 36; 36; 36; 36; 36; 36; 36; 36; 36; 36; 36; 36; 36; 36; 36; 36; 36; 36; 36; 36; 36; 36; 36; 36; 36].
Definition mp_table_62 : list Z := 
  [62; 62; 62; 62; 62; 62; 62; 62; 62; 62; 62; 62; 62; 62; 62; 62; 62; 62; 62; 62; 62; 62; 62; 62; 62; 62; 62; 62; 62; 62; 62; 62; 62; 62; 62; 62; 62;
  62; 62; 62; 62; 62; 62; 62; 62; 62; 62; 62; 0; 1; 2; 3; 4; 5; 6; 7; 8; 9; 62; 62; 62; 62; 62; 62; 62; 10; 11; 12; 13; 14; 15; 16; 17; 18; 19; 20; 21;
  22; 23; 24; 25; 26; 27; 28; 29; 30; 31; 32; 33; 34; 35; 62; 62; 62; 62; 62; 62; 36; 37; 38; 39; 40; 41; 42; 43; 44; 45; 46; 47; 48; 49; 50; 51; 52;
  53; 54; 55; 56; 57; 58; 59; 60; 61; 62; 62; 62; 62; 62; 62; 62; 62; 62; 62; 62; 62; 62; 62; 62; 62; 62; 62; 62; 62; 62; 62; 62; 62; 62; 62; 62; 62;
  62; 62; 62; 62; 62; 62; 62; 62; 62; 62; 62; 62; 62; 62; 62; 62; 62; 62; 62; 62; 62; 62; 62; 62; 62; 62; 62; 62; 62; 62; 62; 62; 62; 62; 62; 62; 62;
  62; 62; 62; 62; 62; 62; 62; 62; 62; 62; 62; 62; 62; 62; 62; 62; 62; 62; 62; 62; 62; 62; 62; 62; 62; 62; 62; 62; 62; 62; 62; 62; 62; 62; 62; 62; 62;
  62; 62; 62; 62; 62; 62; 62; 62; 62; 62; 62; 62; 62; 62; 62; 62; 62; 62; 62; 62; 62; 62; 62; 62; 62; 62; 62; 62; 62; 62; 62].
Definition is_pow2 (base : Z) : bool := Z.land base (base - 1) =? 0.
(* mp_str_limbs (1120-1148) *)
Fixpoint limb_len_loop (fuel : nat) (base max limb_pow : Z) (limb_len : nat) : nat :=
  match fuel with
  | O => limb_len
  | S f => if limb_pow <=? max then limb_len_loop f base max (tr w (limb_pow * base)) (S limb_len) else limb_len
  end.
Definition mp_str_limbs (str : list Z) (base : Z) : nat :=
  let len := length (filter (fun c => negb (mp_isspace c)) str) in
  let len := if (len =? 0)%nat then 1%nat else len in
  let base := if base <? 2 then 2 else if 62 <? base then 62 else base in
  if is_pow2 base then Z.to_nat ((Z.of_nat len * mp_bitlen (base - 1) + w - 1) / w)
  else
    let limb_len := limb_len_loop (Z.to_nat w) base ((LB w - 1) / base) base 1 in
    ((len + limb_len - 1) / limb_len)%nat.
(* mpn_set_str (4918-4970); z holds the n limbs in use. Fail leaves zeros *)
Fixpoint set_str_loop (zn : nat) (base shift : Z) (table : list Z) (str : list Z) (z : list Z) : outcome (list Z) :=
  match str with
  | [] => Ok (z ++ repeat 0 (zn - length z))
  | ch :: str =>
    if mp_isspace ch then set_str_loop zn base shift table str z
    else
      let ch := nth (Z.to_nat (Z.land ch 255)) table 0 in
      if base <=? ch then Fail
      else
        let '(z, c) :=
          if (length z =? 0)%nat then (z, ch)
          else if 0 <? shift then let '(z, c) := mpn_lshift w z shift in (Z.lor (nth 0 z 0) ch :: tl z, c)
          else let '(z, c1) := mpn_mul_1 w z base in let '(z, c2) := mpn_add_1 w z ch in (z, tr w (c1 + c2)) in
        if negb (c =? 0) then if (length z =? zn)%nat then Fail else set_str_loop zn base shift table str (z ++ [c])
        else set_str_loop zn base shift table str z
  end.
Definition mpn_set_str (zn : nat) (str : list Z) (base : Z) : outcome (list Z) :=
  let table := if base <=? 36 then mp_table_36 else mp_table_62 in
  if (base <? 2) || (62 <? base) then Fail
  else set_str_loop zn base (if is_pow2 base then mp_bitlen (base - 1) else 0) table str [].
(* mpz_set_str (9105-9165): the value and the result flag. str is not NULL; reading past the last character gives the NUL *)
Fixpoint skip_spaces (str : list Z) : list Z := match str with c :: r => if mp_isspace c then skip_spaces r else str | [] => [] end.
Definition mpz_set_str (str : list Z) (base : Z) : mpz * bool :=
  let str := skip_spaces str in
  let ch := nth 0 str 0 in
  let neg := ch =? 45 in
  let str := if (ch =? 43) || (ch =? 45) then tl str else str in
  let '(base, str) :=
    if base =? 0 then
      if nth 0 str 0 =? 48 then
        let c := nth 1 str 0 in
        if (c =? 98) || (c =? 66) then (2, skipn 2 str)
        else if (c =? 111) || (c =? 79) then (8, skipn 2 str)
        else if (c =? 120) || (c =? 88) then (16, skipn 2 str)
        else (8, str)
      else (10, str)
    else (base, str) in
  let zn := mp_str_limbs str base in
  match mpn_set_str zn str base with
  | Ok z => (mkz neg (stripped z), true)
  | _ => (mkz false [], false)
  end.

(* the charsets of mpn_get_str (4993-4998) *)
Definition charset_36 : list Z := 
  [48; 49; 50; 51; 52; 53; 54; 55; 56; 57; 97; 98; 99; 100; 101; 102; 103; 104; 105; 106; 107; 108; 109; 110; 111; 112; 113; 114; 115; 116; 117; 118;
  119; 120; 121; 122].
Definition charset_62 : list Z := 
  [48; 49; 50; 51; 52; 53; 54; 55; 56; 57; 65; 66; 67; 68; 69; 70; 71; 72; 73; 74; 75; 76; 77; 78; 79; 80; 81; 82; 83; 84; 85; 86; 87; 88; 89; 90; 97;
  98; 99; 100; 101; 102; 103; 104; 105; 106; 107; 108; 109; 110; 111; 112; 113; 114; 115; 116; 117; 118; 119; 120; 121; 122].
(* mpn_getbits (3333-3355), width < MP_LIMB_BITS *)
Definition mpn_getbits (x : list Z) (pos width : Z) : Z :=
  let s := pos / w in
  if Z.of_nat (length x) <=? s then 0
  else
    let r := pos mod w in
    let z := Z.land (Z.shiftr (nth (Z.to_nat s) x 0) r) (2 ^ width - 1) in
    if (w <? r + width) && (s + 1 <? Z.of_nat (length x)) then
      let m := r + width - w in
      let b := Z.land (nth (Z.to_nat s + 1) x 0) (2 ^ m - 1) in
      Z.lor z (tr w (Z.shiftl b (w - r)))
    else z.
(* mpn_get_str (4976-5066): the digits, lowest first, in the three ways; None is a loop out of fuel *)
Fixpoint limb_digits (n : nat) (x shift mask : Z) : list Z := match n with O => [] | S n => Z.land x mask :: limb_digits n (Z.shiftr x shift) shift mask end.
Fixpoint top_digits (fuel : nat) (x shift mask : Z) : option (list Z) :=
  match fuel with
  | O => None
  | S f =>
    let d := Z.land x mask in
    let x := Z.shiftr x shift in
    if x =? 0 then Some [d] else match top_digits f x shift mask with Some r => Some (d :: r) | None => None end
  end.
Fixpoint bit_digits (fuel : nat) (x : list Z) (pos width bits : Z) : option (list Z) :=
  match fuel with
  | O => None
  | S f =>
    let ch := mpn_getbits x pos width in
    let pos := pos + width in
    if pos <? bits then match bit_digits f x pos width bits with Some r => Some (ch :: r) | None => None end else Some [ch]
  end.
(* mpn_divmod_inner_1 (2962-2971) *)
Definition mpn_divmod_inner_1 (np : list Z) (den : mp_divisor_t) : list Z * Z := mpn_divmod_small_2by1 w np (den_shift den) (hd 0 (den_vp den)) (den_inv den).
Fixpoint div_digits (fuel : nat) (t : list Z) (den : mp_divisor_t) : option (list Z) :=
  match fuel with
  | O => None
  | S f =>
    let '(t, ch) := mpn_divmod_inner_1 t den in
    let t := if nth (length t - 1) t 0 =? 0 then firstn (length t - 1) t else t in
    if (length t =? 0)%nat then Some [ch] else match div_digits f t den with Some r => Some (ch :: r) | None => None end
  end.
Definition str_fuel (x : list Z) : nat := S (length x * Z.to_nat w).
Definition mpn_digits (x : list Z) (base : Z) : option (list Z) :=
  let xn := length x in
  let top := nth (xn - 1) x 0 in
  if (base =? 2) || (base =? 4) || (base =? 16) then
    let shift := mp_bitlen (base - 1) in
    let digits := Z.to_nat (w / shift) in
    let mask := base - 1 in
    match top_digits (str_fuel x) top shift mask with
    | Some r => Some (flat_map (fun x => limb_digits digits x shift mask) (firstn (xn - 1) x) ++ r)
    | None => None
    end
  else if is_pow2 base then bit_digits (str_fuel x) x 0 (mp_bitlen (base - 1)) (Z.of_nat xn * w - mp_clz w top)
  else match mpn_divmod_init_1 w base with Ok den => div_digits (str_fuel x) x den | _ => None end.
(* the swapping loop 5051-5061 reverses the string *)
Definition mpn_get_str (x : list Z) (base : Z) : option (outcome (list Z)) :=
  if (base <? 2) || (62 <? base) then Some Abort
  else
    let x := stripped x in
    if (length x =? 0)%nat then Some (Ok [48])
    else
      let charset := if base <=? 36 then charset_36 else charset_62 in
      match mpn_digits x base with
      | Some ds => Some (Ok (rev (map (fun d => nth (Z.to_nat d) charset 0) ds)))
      | None => None
      end.
(* mpn_sizeinbase (4487-4523), mpz_sizeinbase (8981-8984) *)
Definition mpn_sizeinbase (x : list Z) (base : Z) : option (outcome Z) :=
  if base <? 2 then Some Abort
  else
    let x := stripped x in
    let xn := length x in
    if (xn =? 0)%nat then Some (Ok 1)
    else if is_pow2 base then
      let bits := Z.of_nat xn * w - mp_clz w (nth (xn - 1) x 0) in
      let width := mp_bitlen (base - 1) in
      Some (Ok ((bits + width - 1) / width))
    else match mpn_divmod_init_1 w base with
    | Ok den => match div_digits (str_fuel x) x den with Some ds => Some (Ok (Z.of_nat (length ds))) | None => None end
    | _ => Some Abort
    end.
Definition mpz_sizeinbase (x : mpz) (base : Z) : option (outcome Z) := mpn_sizeinbase (lm x) base.
(* mpz_get_str (9170-9183): the string, in a buffer of mpz_sizeinbase + 1 characters after the sign *)
Definition mpz_get_str (x : mpz) (base : Z) : option (outcome (list Z)) :=
  match mpz_sizeinbase x base with
  | Some (Ok _) =>
    match mpn_get_str (lm x) base with
    | Some (Ok s) => Some (Ok (if size x <? 0 then 45 :: s else s))
    | r => r
    end
  | Some _ => Some Abort
  | None => None
  end.
End MpzStr.
