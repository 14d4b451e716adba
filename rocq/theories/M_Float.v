(** Model of libyasm/floatnum.c: the internal 80-bit floating point numbers, their multiplication,
    the reading of decimal literals and the conversion to IEEE formats.
    Memory management is not modelled; strings are lists of character codes without the NUL, and
    are shorter than 2^31 characters. *)
From Coq Require Import ZArith List Bool.
From Verif Require Import Lib M_BitVect M_BitVectIv.
Import ListNotations.
Open Scope Z_scope.

(** ** More of libyasm/bitvect.c *)
(** bitvect.c:601-634 BitVector_Copy into a vector of [n] bits; the source is sign extended *)
Definition Copy_to (n : Z) (y : bv) : bv :=
  let my := mask_ (bits y) in
  let neg := nz (Z.land (lastw (wds y)) (msbmask my)) in
  let ys := if neg then orlast (wnot my) (wds y) else mlast my (wds y) in
  let sx := Z.to_nat (Size n) in
  BV n (mlast (mask_ n) (firstn sx ys ++ repeat (if neg then ONES else 0) (sx - length ys))).
(** bitvect.c:2279-2289 BitVector_MSB with bit 0 *)
Definition MSB_clear (v : bv) : bv :=
  let m := mask_ (bits v) in BV (bits v) (mlast (Z.lor (wnot m) (shr m 1)) (wds v)).
(** bitvect.c:518-560 BitVector_Resize *)
Definition Resize (v : bv) (n : Z) : bv :=
  let ws := mlast (mask_ (bits v)) (wds v) in
  let ns := Z.to_nat (Size n) in
  if (ns <=? length ws)%nat then BV n (mlast (mask_ n) (firstn ns ws))
  else BV n (ws ++ repeat 0 (ns - length ws)).
(** bitvect.c:2735-2813 BitVector_Multiply where X may be larger than Y and Z *)
Definition Multiply_w (x y z : bv) : bv * err :=
  if negb (bits y =? bits z) || (bits x <? bits y) then (x, SizeE)
  else if is_empty y || is_empty z then (Empty x, Ok)
  else
    let sy := msb_ (norm y) in
    let sz := msb_ (norm z) in
    let a := if sy then Negate y else Copy y in
    let b := if sz then Negate z else Copy z in
    let '(x', e) :=
      if gt_top (rev (wds a)) (rev (wds b))
      then Mul_Pos x (if bits y <? bits x then Resize a (bits x) else a) b true
      else Mul_Pos x (if bits z <? bits x then Resize b (bits x) else b) a true in
    ((match e with Ok => if xorb sy sz then Negate x' else x' | _ => x' end), e).
(** bitvect.c:1357-1373 BitVector_is_full *)
Definition is_full (v : bv) : bool :=
  match wds v with
  | [] => false
  | _ => forallb (fun w => wnot w =? 0) (orlast (wnot (mask_ (bits v))) (wds v))
  end.
(** bitvect.c:2255-2259 BitVector_bit_test *)
Definition bit_test (v : bv) (i : Z) : bool := if i <? bits v then tst v i else false.
(** bitvect.c:2261-2268 BitVector_Bit_Copy *)
Definition Bit_Copy (v : bv) (i : Z) (b : bool) : bv :=
  if i <? bits v then
    let k := Z.to_nat (shr i LOGBITS) in
    let w := nth k (wds v) 0 in
    let m := shl LSB (Z.land i MODMASK) in
    BV (bits v) (setnth k (if b then Z.lor w m else Z.land w (wnot m)) (wds v))
  else v.

(** ** Internal numbers *)
(** floatnum.c:50-55 struct yasm_floatnum; [iszero]: the flag FLAG_ISZERO, floatnum.c:68 *)
Record flt := Flt { mant : bv; expo : Z; sign : bool; iszero : bool }.
(** floatnum.c:58-65 *)
Definition MANT_BITS := 80.
Definition MANT_SIGDIGITS := 24.
Definition EXP_BIAS := 32767.
Definition EXP_INF := 65535.
Definition EXP_MAX := 65534.
Definition EXP_MIN := 1.
Definition EXP_ZERO := 0.
Definition u16 (x : Z) : Z := x mod 2 ^ 16.

(** floatnum.c:211-228 floatnum_normalize *)
Definition normalize (f : flt) : flt :=
  if is_empty (mant f) then Flt (mant f) 0 (sign f) (iszero f)
  else let amt := Z.min (MANT_BITS - 1 - Set_Max (mant f)) (expo f) in
       Flt (Move_Left (mant f) amt) (u16 (expo f - u16 amt)) (sign f) (iszero f).

(** floatnum.c:230-301 floatnum_mul.  [None] would come from Interval_Copy (see M_BitVectIv). *)
Definition fmul (acc op : flt) : option flt :=
  let sg := xorb (sign acc) (sign op) in
  if is_empty (mant acc) || is_empty (mant op) then
    Some (Flt (Empty (mant acc)) EXP_ZERO sg (iszero acc))
  else
    let expon := (expo acc - EXP_BIAS) + (expo op - EXP_BIAS) + EXP_BIAS in
    if EXP_MAX <? expon then Some (Flt (Empty (mant acc)) EXP_INF sg (iszero acc))
    else if expon <? EXP_MIN then Some (Flt (Empty (mant acc)) EXP_ZERO sg (iszero acc))
    else
      let e1 := u16 (expon + 1) in
      let op1 := MSB_clear (Copy_to (MANT_BITS + 1) (mant acc)) in
      let op2 := MSB_clear (Copy_to (MANT_BITS + 1) (mant op)) in
      let product := fst (Multiply_w (Create ((MANT_BITS + 1) * 2)) op1 op2) in
      let amt := Z.min (MANT_BITS * 2 - 1 - Set_Max product) e1 in
      match Interval_Copy (mant acc) (Move_Left product amt) 0 MANT_BITS MANT_BITS with
      | Some m => Some (Flt m (u16 (e1 - u16 amt)) sg (iszero acc))
      | None => None
      end.

(** ** Tables of powers of ten *)
(** floatnum.c:93-108 POT_TableN_Source *)
Definition POT_N_source : list (list Z * Z) :=
  [([227; 45; 222; 159; 206; 210; 200; 4; 221; 166], 19160) (* 1e-4096 *);
   ([37; 73; 228; 45; 54; 52; 79; 83; 174; 206], 25963) (* 1e-2048 *);
   ([166; 135; 189; 192; 87; 218; 165; 130; 166; 162], 29365) (* 1e-1024 *);
   ([51; 113; 28; 210; 35; 219; 50; 238; 73; 144], 31066) (* 1e-512 *);
   ([145; 250; 57; 25; 122; 99; 37; 67; 49; 192], 31916) (* 1e-256 *);
   ([125; 172; 160; 228; 188; 100; 124; 70; 208; 221], 32341) (* 1e-128 *);
   ([36; 63; 165; 233; 57; 165; 39; 234; 127; 168], 32554) (* 1e-64 *);
   ([222; 103; 186; 148; 57; 69; 173; 30; 177; 207], 32660) (* 1e-32 *);
   ([47; 76; 91; 225; 77; 196; 190; 148; 149; 230], 32713) (* 1e-16 *);
   ([194; 253; 252; 206; 97; 132; 17; 119; 204; 171], 32740) (* 1e-8 *);
   ([195; 211; 43; 101; 25; 226; 88; 23; 183; 209], 32753) (* 1e-4 *);
   ([113; 61; 10; 215; 163; 112; 61; 10; 215; 163], 32760) (* 1e-2 *);
   ([205; 204; 204; 204; 204; 204; 204; 204; 204; 204], 32763) (* 1e-1 *);
   ([0; 0; 0; 0; 0; 0; 0; 0; 0; 128], 32767) (* 1e-0 *)].
(** floatnum.c:121-136 POT_TableP_Source *)
Definition POT_P_source : list (list Z * Z) :=
  [([76; 201; 154; 151; 32; 138; 2; 82; 96; 196], 46373) (* 1e+4096 *);
   ([77; 167; 228; 93; 61; 197; 93; 59; 139; 158], 39570) (* 1e+2048 *);
   ([13; 101; 23; 12; 117; 129; 134; 117; 118; 201], 36168) (* 1e+1024 *);
   ([101; 204; 198; 145; 14; 166; 174; 160; 25; 227], 34467) (* 1e+512 *);
   ([188; 221; 141; 222; 249; 157; 251; 235; 126; 170], 33617) (* 1e+256 *);
   ([111; 198; 223; 140; 233; 128; 201; 71; 186; 147], 33192) (* 1e+128 *);
   ([191; 60; 213; 166; 207; 255; 73; 31; 120; 194], 32979) (* 1e+64 *);
   ([32; 240; 157; 181; 112; 43; 168; 173; 197; 157], 32873) (* 1e+32 *);
   ([0; 0; 0; 0; 0; 4; 191; 201; 27; 142], 32820) (* 1e+16 *);
   ([0; 0; 0; 0; 0; 0; 0; 32; 188; 190], 32793) (* 1e+8 *);
   ([0; 0; 0; 0; 0; 0; 0; 0; 64; 156], 32780) (* 1e+4 *);
   ([0; 0; 0; 0; 0; 0; 0; 0; 0; 200], 32773) (* 1e+2 *);
   ([0; 0; 0; 0; 0; 0; 0; 0; 0; 160], 32770) (* 1e+1 *);
   ([0; 0; 0; 0; 0; 0; 0; 0; 0; 128], 32767) (* 1e+0 *)].
(** floatnum.c:139-157 POT_Table_Init_Entry *)
Definition pot_entry (s : list Z * Z) (dec : Z) : flt * Z :=
  (Flt (Block_Store (Create MANT_BITS) (fst s)) (snd s) false false, dec).
(** floatnum.c:172-186: the decimal exponents of entries 0..12 run from 4096 down to 1, entry 13
    has 0.  Entry -1 of the positive table is never used and left out. *)
Definition pot_decs : list Z := map (fun n => 2 ^ n) [12; 11; 10; 9; 8; 7; 6; 5; 4; 3; 2; 1; 0] ++ [0].
Definition POT_TableN : list (flt * Z) := map (fun p => pot_entry (fst p) (- snd p)) (combine POT_N_source pot_decs).
Definition POT_TableP : list (flt * Z) := map (fun p => pot_entry (fst p) (snd p)) (combine POT_P_source pot_decs).

(** ** Reading a decimal literal *)
(** floatnum.c:358-369, 396-407: ten times the mantissa plus a digit *)
Definition mul10 (m : bv) (d : Z) : bv :=
  let m1 := fst (shift_left m false) in
  let op0 := Copy m1 in
  let m2 := Move_Left m1 2 in
  let op1 := fst (fst (add op0 m2 false)) in
  let op0' := Chunk_Store (Empty op0) 4 0 d in
  fst (fst (add op1 op0' false)).
(** floatnum.c:355-378, digits left of the point: mantissa, sig_digits, dec_exponent, rest *)
Fixpoint int_digits (s : list Z) (m : bv) (sig dec : Z) : bv * Z * Z * list Z :=
  match s with
  | c :: t =>
      if isdigitc c then
        if sig <? MANT_SIGDIGITS then int_digits t (mul10 m (c - 48)) (sig + 1) dec
        else int_digits t m (sig + 1) (dec + 1)
      else (m, sig, dec, s)
  | [] => (m, sig, dec, s)
  end.
(** floatnum.c:388-412, digits right of the point: mantissa, dec_exponent, rest *)
Fixpoint frac_digits (s : list Z) (m : bv) (sig dec : Z) : bv * Z * list Z :=
  match s with
  | c :: t =>
      if isdigitc c then
        if sig <? 19 then frac_digits t (mul10 m (c - 48)) (sig + 1) (dec - 1)
        else frac_digits t m (sig + 1) dec
      else (m, dec, s)
  | [] => (m, dec, s)
  end.
(** floatnum.c:338-339 *)
Fixpoint skip_zeros (s : list Z) : list Z :=
  match s with c :: t => if c =? 48 then skip_zeros t else s | [] => s end.
(** floatnum.c:348-351: also counts down dec_exponent *)
Fixpoint skip_zeros_dec (s : list Z) (dec : Z) : list Z * Z :=
  match s with c :: t => if c =? 48 then skip_zeros_dec t (dec - 1) else (s, dec) | [] => (s, dec) end.
(** sscanf(str, "%d", &dec_exp_add), floatnum.c:418: white space, sign, digits; 0 if there are no
    digits.  [None]: the number does not fit an int, which is undefined behaviour. *)
Fixpoint skip_space (s : list Z) : list Z :=
  match s with c :: t => if (c =? 32) || ((9 <=? c) && (c <=? 13)) then skip_space t else s | [] => s end.
Fixpoint scan_digits (s : list Z) (v : Z) : Z :=
  match s with c :: t => if isdigitc c then scan_digits t (10 * v + (c - 48)) else v | [] => v end.
Definition is_int (x : Z) : bool := (- 2 ^ 31 <=? x) && (x <? 2 ^ 31).
Definition scan_int (s : list Z) : option Z :=
  let v := match skip_space s with
           | c :: t => if c =? 45 then - scan_digits t 0 else if c =? 43 then scan_digits t 0 else scan_digits (c :: t) 0
           | [] => 0
           end in
  if is_int v then Some v else None.
(** floatnum.c:444-461, 463-480: from the current table entry on, multiply by powers of ten.
    [up]: the positive table and an overflow ends the loop; otherwise the negative table and an
    underflow ends it.  [None]: out of fuel, or an entry beyond the table is read. *)
Fixpoint pot_skip (up : bool) (dec : Z) (tab : list (flt * Z)) : list (flt * Z) :=
  match tab with
  | (e, k) :: t => if (if up then dec <? k else k <? dec) then pot_skip up dec t else tab
  | [] => []
  end.
Fixpoint pot_loop (fuel : nat) (up : bool) (tab : list (flt * Z)) (dec : Z) (f : flt) : option flt :=
  match fuel with
  | O => None
  | S n =>
      match tab with
      | [] => Some f
      | _ =>
          if (dec =? 0) || (expo f =? (if up then EXP_INF else EXP_ZERO)) then Some f
          else match pot_skip up dec tab with
               | [] => None
               | (e, k) :: t =>
                   match fmul f e with
                   | Some f' => pot_loop n up ((e, k) :: t) (dec - k) f'
                   | None => None
                   end
               end
      end
  end.
(** floatnum.c:443-481.  The fuel is more than the number of turns ever taken. *)
Definition scale (f : flt) (dec : Z) : option flt :=
  if 0 <? dec then pot_loop 40 true POT_TableP dec f
  else if dec <? 0 then pot_loop 40 false POT_TableN dec f
  else Some f.
(** floatnum.c:483-488 *)
Definition final_round (f : flt) : flt :=
  if negb (expo f =? EXP_INF) && negb (expo f =? EXP_ZERO) && negb (is_full (mant f))
  then Flt (fst (increment (mant f))) (expo f) (sign f) (iszero f) else f.
(** floatnum.c:346-347, 380-383: what follows if a point comes next *)
Definition point (s : list Z) : option (list Z) := match s with c :: t => if c =? 46 then Some t else None | [] => None end.
(** floatnum.c:328-412: sign, mantissa, dec_exponent, rest of the string *)
Definition read_digits (str : list Z) : bool * bv * Z * list Z :=
  let '(sg, s) := match str with
                  | c :: t => if c =? 45 then (true, t) else if c =? 43 then (false, t) else (false, str)
                  | [] => (false, str)
                  end in
  let s := skip_zeros s in
  let m0 := Create MANT_BITS in
  match point s with
  | Some t =>
      let '(t', dec) := skip_zeros_dec t 0 in
      let '(m, dec', r) := frac_digits t' m0 0 dec in (sg, m, dec', r)
  | None =>
      let '(m, sig, dec, r) := int_digits s m0 0 0 in
      match point r with
      | Some t => let '(m', dec', r') := frac_digits t m sig dec in (sg, m', dec', r')
      | None => (sg, m, dec, r)
      end
  end.
(** floatnum.c:303-491 yasm_floatnum_create.  [None]: undefined behaviour (the exponent does not
    fit an int), or one of the failures above *)
Definition fcreate (str : list Z) : option flt :=
  let '(sg, m, dec, r) := read_digits str in
  match (match r with
         | c :: t => if (c =? 101) || (c =? 69) then scan_int t else Some 0
         | [] => Some 0
         end) with
  | None => None
  | Some add =>
      let dec := dec + add in
      if negb (is_int dec) then None
      else if is_empty m then Some (Flt m 0 sg true)
      else match scale (normalize (Flt m (u16 (32767 + (MANT_BITS - 1))) sg false)) dec with
           | Some f => Some (final_round f)
           | None => None
           end
  end.

(** floatnum.c:513-524 yasm_floatnum_calc for YASM_EXPR_NEG; every other operator is an error *)
Definition fneg (f : flt) : flt := Flt (mant f) (expo f) (negb (sign f)) (iszero f).

(** ** Conversion to IEEE formats *)
(** floatnum.c:551-631 floatnum_get_common: bytes and return value.  [None]: yasm_internal_error
    "Both underflow and overflow set" or "Byte length of BitVector does not match bit length", or
    the failure of Interval_Copy. *)
Definition get_common (f : flt) (byte_size mant_bits implicit1 exp_bits : Z) : option (list Z * Z) :=
  let exp_bias := Z.shiftl 1 (exp_bits - 1) - 1 in
  let exp_inf := Z.shiftl 1 exp_bits - 1 in
  match Interval_Copy (Create (byte_size * 8)) (mant f) 0 (MANT_BITS - implicit1 - mant_bits) mant_bits with
  | None => None
  | Some out0 =>
      let out1 := if bit_test (mant f) (MANT_BITS - implicit1 - (mant_bits + 1)) then fst (increment out0) else out0 in
      let carried := bit_test out1 mant_bits in
      let out2 := if carried then Bit_Copy (Empty out1) (mant_bits - 1) (implicit1 =? 0) else out1 in
      let over1 := carried && (EXP_INF <=? expo f + 1) in
      let e1 := if carried && negb (EXP_INF <=? expo f + 1) then expo f + 1 else expo f in
      let e2 := e1 - (EXP_BIAS - exp_bias) in
      let over := over1 || (exp_inf <=? e2) in
      let under := negb (exp_inf <=? e2) && (e2 <=? 0) in
      if under && over then None
      else
        let '(out3, e3, ret) :=
          if under then (Empty out2, 0, if iszero f then 0 else -1)
          else if over then (Empty out2, exp_inf, 1)
          else (out2, e2, 0) in
        let out4 := Chunk_Store out3 exp_bits mant_bits e3 in
        let out5 := Bit_Copy out4 (byte_size * 8 - 1) (sign f) in
        let buf := Block_Read out5 in
        if Z.of_nat (length buf) <? byte_size then None
        else Some (firstn (Z.to_nat byte_size) buf, ret)
  end.
(** floatnum.c:673-710 yasm_floatnum_get_sized: bytes, return value and warning (-1 underflow,
    1 overflow, 0 none).  [None]: yasm_internal_error *)
Definition get_sized (f : flt) (destsize valsize shift : Z) (bigendian warn : bool) : option (list Z * Z * Z) :=
  if negb (destsize * 8 =? valsize) || (0 <? shift) || bigendian then None
  else
    let r := if destsize =? 2 then get_common f 2 10 1 5
             else if destsize =? 4 then get_common f 4 23 1 8
             else if destsize =? 8 then get_common f 8 52 1 11
             else if destsize =? 10 then get_common f 10 64 0 15
             else None in
    match r with
    | Some (b, ret) => Some (b, ret, if warn then ret else 0)
    | None => None
    end.
(** floatnum.c:526-538 yasm_floatnum_get_int: value and error; YASM_LOAD_32_L reads little endian *)
Definition get_int (f : flt) : option (Z * Z) :=
  match get_sized f 4 32 0 false false with
  | Some (b, ret, _) =>
      if ret =? 0 then Some (fold_right (fun b v => b + 256 * v) 0 b, 0) else Some (3735928559, 1)
  | None => None
  end.
(** floatnum.c:713-725 yasm_floatnum_check_size *)
Definition check_size (size : Z) : bool := (size =? 16) || (size =? 32) || (size =? 64) || (size =? 80).
