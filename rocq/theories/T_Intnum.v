(** Property theorems for libyasm/intnum.c: C04-C08, C54. *)
From Coq Require Import ZArith List Bool Lia.
From Verif Require Import Lib LibBits M_BitVect P_BitVect P_BitVectIO M_BitVectIv P_BitVectIv M_Intnum P_Intnum P_IntnumIO.
Import ListNotations.
Open Scope Z_scope.

(** [ival] is the integer a number stands for, [canon] the canonical representation, [meaning]
    the operators on unbounded integers, [wrap256] reduction to a signed 256-bit integer. *)

(** C04.  Every operator on canonical numbers: no error, canonical result, the mathematical value
    reduced to 256 bits; multiplication only when the product is below 2^255 in magnitude. *)
Theorem C04_calc : forall stale a o b m, canon a -> canon b ->
  meaning o (ival a) (ival b) = Some m -> (o = MUL -> mul_safe (ival a) (ival b)) ->
  exists r, calc stale a o (Some b) = (r, 0, NoErr) /\ canon r /\ ival r = wrap256 m.
Proof. exact calc_ok. Qed.
Print Assumptions C04_calc.
(** C04.  The unary operators without an operand. *)
Theorem C04_unary : forall stale a o m, canon a -> o = NEG \/ o = NOT \/ o = LNOT ->
  meaning o (ival a) 0 = Some m ->
  exists r, calc stale a o None = (r, 0, NoErr) /\ canon r /\ ival r = wrap256 m.
Proof. exact calc_unary. Qed.
Print Assumptions C04_unary.
(** C04.  Division or modulus by zero: reported, accumulator unchanged. *)
Theorem C04_zero_division : forall stale a o b, canon a -> canon b ->
  o = DIV \/ o = SIGNDIV \/ o = MOD \/ o = SIGNMOD -> ival b = 0 ->
  calc stale a o (Some b) = (a, 1, ZeroDiv).
Proof. exact calc_zero_div. Qed.
Print Assumptions C04_zero_division.
(** C04.  A missing operand is reported and leaves the accumulator unchanged. *)
Theorem C04_missing : forall stale a o, o <> NEG -> o <> NOT -> o <> LNOT ->
  calc stale a o None = (a, 1, Arith).
Proof. exact calc_missing. Qed.
Print Assumptions C04_missing.
(** C04.  Operators that are no arithmetic: reported, but SEG, WRT and ':' return success and
    overwrite the accumulator with what an earlier computation left behind. *)
Theorem C04_segment : forall stale a b, calc stale a NONNUM (Some b) = (a, 1, Arith) /\
  forall o, o = SEG \/ o = WRT \/ o = SEGOFF -> calc stale a o (Some b) = (frombv stale, 0, Arith).
Proof. exact calc_seg. Qed.
Print Assumptions C04_segment.
(** C04.  Larger products are wrong and no error is given. *)
Theorem C04_multiply_refuted : exists a b r, canon a /\ canon b /\
  calc scratch a MUL (Some b) = (r, 0, NoErr) /\ ival r <> wrap256 (ival a * ival b).
Proof. exact mul_refuted. Qed.
Print Assumptions C04_multiply_refuted.
(** C04.  A negative number shifted right by 2^31 or more becomes 0, not -1. *)
Theorem C04_shift_refuted : exists a b r, canon a /\ canon b /\ 0 <= ival b /\
  calc scratch a SHR (Some b) = (r, 0, NoErr) /\ ival a / 2 ^ ival b = -1 /\ ival r = 0.
Proof. exact shr_refuted. Qed.
Print Assumptions C04_shift_refuted.
(** C04.  Comparison, sign and the tests for 0, 1, -1. *)
Theorem C04_compare : forall a b, canon a -> canon b -> compare a b = Z.sgn (ival a - ival b).
Proof. exact compare_ok. Qed.
Print Assumptions C04_compare.
Theorem C04_tests : forall i, canon i -> is_zero i = (ival i =? 0) /\ is_pos1 i = (ival i =? 1) /\
  is_neg1 i = (ival i =? -1) /\ sign i = Z.sgn (ival i).
Proof. exact tests_ok. Qed.
Print Assumptions C04_tests.

Example C04_ex : let b := BV 256 [0; 1; 0; 0; 0; 0; 0; 0] in canon (IB b) /\ ival (IB b) = 2 ^ 32 /\
  calc scratch (IL 7) SUB (Some (IB b)) = (IB (BV 256 [7; 4294967295; 4294967295; 4294967295; 4294967295; 4294967295; 4294967295; 4294967295]), 0, NoErr) /\
  calc scratch (IB b) SHR (Some (IL 30)) = (IL 4, 0, NoErr) /\
  calc scratch (IL (-7)) MOD (Some (IL 2)) = (IL (-1), 0, NoErr) /\
  calc scratch (IB b) LE (Some (IL (-7))) = (IL 0, 0, NoErr).
Proof. cbv zeta. repeat match goal with |- _ /\ _ /\ _ => split end; try (apply canon_IB; [vm_compute; reflexivity|reflexivity|right; vm_compute; reflexivity]); try (split; vm_compute; reflexivity); vm_compute; reflexivity. Qed.

(** C05.  A number made from an unsigned long: what reading it back gives, and what arithmetic
    sees - only the low 32 bits. *)
Theorem C05_create_get : forall u, 0 <= u < 2 ^ 64 ->
  get_uint (create_uint u) = if u <? 2 ^ 63 then u else u mod 2 ^ 32.
Proof. exact get_uint_create. Qed.
Print Assumptions C05_create_get.
Theorem C05_arithmetic_uint : forall stale u b, 0 <= u < 2 ^ 64 -> canon b ->
  exists r, calc stale (create_uint u) ADD (Some b) = (r, 0, NoErr) /\ canon r /\
            ival r = wrap256 (u mod 2 ^ 32 + ival b).
Proof. exact calc_uint. Qed.
Print Assumptions C05_arithmetic_uint.
(** C05.  From a signed long: the low 32 bits of the magnitude; exact precisely below 2^32. *)
Theorem C05_arithmetic_int : forall stale l b, - 2 ^ 63 <= l < 2 ^ 63 -> canon b ->
  exists r, calc stale (create_int l) ADD (Some b) = (r, 0, NoErr) /\ canon r /\
            ival r = wrap256 (trunc32 l + ival b).
Proof. exact calc_int. Qed.
Print Assumptions C05_arithmetic_int.
Theorem C05_exact : forall l, - 2 ^ 32 < l < 2 ^ 32 <-> trunc32 l = l.
Proof. exact trunc32_iff. Qed.
Print Assumptions C05_exact.
(** C05.  Reading canonical numbers. *)
Theorem C05_get_uint : forall i, canon i -> get_uint i = (let v := ival i in
  if v <? 0 then 0 else if v <? 2 ^ 32 then v else if v <? 2 ^ 33 then v - 2 ^ 32 else ULONG_MAX).
Proof. exact get_uint_ok. Qed.
Print Assumptions C05_get_uint.
Theorem C05_get_int : forall i, canon i -> get_int i = (let v := ival i in
  if v <=? - 2 ^ 31 then LONG_MIN else if v <? 2 ^ 31 then v else LONG_MAX).
Proof. exact get_int_ok. Qed.
Print Assumptions C05_get_int.
(** C05.  The range test truncates its bounds. *)
Theorem C05_in_range : forall i low high, canon i -> - 2 ^ 63 <= low < 2 ^ 63 -> - 2 ^ 63 <= high < 2 ^ 63 ->
  in_range i low high = (trunc32 low <=? ival i) && (ival i <=? trunc32 high).
Proof. exact in_range_ok. Qed.
Print Assumptions C05_in_range.
(** C05.  The contracts fail. *)
Theorem C05_create_uint_refuted : exists u r, 0 <= u < 2 ^ 64 /\
  calc scratch (create_uint u) ADD (Some (create_uint 0)) = (r, 0, NoErr) /\ ival r <> u /\ get_uint r <> u.
Proof. exact uint_refuted. Qed.
Print Assumptions C05_create_uint_refuted.
Theorem C05_get_uint_refuted : exists i, canon i /\ 0 <= ival i < 2 ^ 64 /\ get_uint i = 5 /\ ival i = 2 ^ 32 + 5.
Proof. exact get_uint_refuted. Qed.
Print Assumptions C05_get_uint_refuted.
Theorem C05_set_uint_refuted : exists i u, canon i /\ 0 <= u < 2 ^ 64 /\
  ival (set_uint i u) <> u /\ ival (set_uint i u) <> u mod 2 ^ 32.
Proof. exact set_uint_refuted. Qed.
Print Assumptions C05_set_uint_refuted.
Theorem C05_in_range_refuted : exists i low high, canon i /\ - 2 ^ 63 <= low < 2 ^ 63 /\
  - 2 ^ 63 <= high < 2 ^ 63 /\ in_range i low high = true /\ ival i < low.
Proof. exact in_range_refuted. Qed.
Print Assumptions C05_in_range_refuted.
Example C05_ex : create_uint 9223372036854775813 = IB (BV 256 [5; 0; 0; 0; 0; 0; 0; 0]) /\
  calc scratch (create_uint 4294967298) ADD (Some (IL 1)) = (IL 3, 0, NoErr) /\ get_uint (create_uint 4294967298) = 4294967298.
Proof. repeat split; vm_compute; reflexivity. Qed.

(** C06.  LEB128: [leb] decodes by the rules of DWARF (value, bytes read, rest).  What is written
    decodes to the number - unsigned: modulo 2^256; signed: except at or below -2^251 - and the
    size query is the number of bytes written. *)
Theorem C06_round_trip : forall i s, canon i -> exists l, intnum_leb128 i s = Some l /\ Forall byte l /\
  intnum_size_leb128 i s = Z.of_nat (length l) /\
  (ival i <> 0 -> s = true \/ 0 <= ival i -> Z.of_nat (length l) = (bitlen s (ival i) + 6) / 7) /\
  forall rest, leb s (l ++ rest) = Some (leb_value s (ival i), Z.of_nat (length l), rest).
Proof. exact intnum_leb_ok. Qed.
Print Assumptions C06_round_trip.
(** C06.  No shorter encoding decodes to the same number, unless it is -2^(7m-1). *)
Theorem C06_minimal : forall i s l l', canon i -> intnum_leb128 i s = Some l -> Forall byte l' ->
  leb s l' = Some (ival i, Z.of_nat (length l'), []) ->
  (s = true -> forall m, - ival i <> 2 ^ (7 * m - 1)) -> (length l <= length l')%nat.
Proof. exact leb_minimal. Qed.
Print Assumptions C06_minimal.
(** C06.  The helpers on machine integers encode only the low 32 bits of the magnitude, and write
    without bound ([None]) when these are 0 and the number is not. *)
Theorem C06_signed_long : forall v, - 2 ^ 63 <= v < 2 ^ 63 ->
  (trunc32 v <> 0 \/ v = 0 -> exists l, get_sleb128 v = Some l /\ Forall byte l /\
     size_sleb128 v = Z.of_nat (length l) /\
     forall rest, leb true (l ++ rest) = Some (trunc32 v, Z.of_nat (length l), rest)) /\
  (trunc32 v = 0 -> v <> 0 -> get_sleb128 v = None).
Proof. exact get_sleb_ok. Qed.
Print Assumptions C06_signed_long.
Theorem C06_unsigned_long : forall v, 0 <= v < 2 ^ 64 ->
  (v mod 2 ^ 32 <> 0 \/ v = 0 -> exists l, get_uleb128 v = Some l /\ Forall byte l /\
     size_uleb128 v = Z.of_nat (length l) /\
     forall rest, leb false (l ++ rest) = Some (v mod 2 ^ 32, Z.of_nat (length l), rest)) /\
  (v mod 2 ^ 32 = 0 -> v <> 0 -> get_uleb128 v = None).
Proof. exact get_uleb_ok. Qed.
Print Assumptions C06_unsigned_long.
Theorem C06_minimal_refuted : exists i l l', canon i /\ intnum_leb128 i true = Some l /\
  leb true l' = Some (ival i, Z.of_nat (length l'), []) /\ Forall byte l' /\ (length l' < length l)%nat.
Proof. exact minimal_refuted. Qed.
Print Assumptions C06_minimal_refuted.
Theorem C06_signed_refuted : exists i l, canon i /\ intnum_leb128 i true = Some l /\
  leb true l = Some (ival i + 2 ^ 256, 37, []).
Proof. exact sleb_refuted. Qed.
Print Assumptions C06_signed_refuted.
Theorem C06_overrun_refuted : exists v, 0 < v < 2 ^ 64 /\ get_uleb128 v = None.
Proof. exact uleb_overrun_refuted. Qed.
Print Assumptions C06_overrun_refuted.
Example C06_ex : intnum_leb128 (IL (-129)) true = Some [255; 126] /\ leb true [255; 126; 9] = Some (-129, 2, [9]) /\
  intnum_leb128 (IL 624485) false = Some [229; 142; 38] /\ get_sleb128 128 = Some [128; 1] /\ size_uleb128 127 = 1.
Proof. repeat split; vm_compute; reflexivity. Qed.

(** C07.  Writing a field of [valsize] bits at bit [shift] of a little-endian buffer: exactly these
    bits change, to those of the number.  A negative shift writes the number shifted right at
    bit 0.  The warnings are those of the range check and of bits shifted out; a vector argument
    is left shifted. *)
Theorem C07_field : forall i buf valsize shift warn, canon i -> Forall byte buf ->
  0 <= valsize < 2 ^ 32 -> - 256 <= shift < 2 ^ 31 -> Z.of_nat (length buf) * 8 <= 256 ->
  let rshift := Z.max 0 (- shift) in let lo := Z.max 0 shift in let w := ival i / 2 ^ rshift in
  exists out i' ws, get_sized i buf valsize shift warn = Some (out, i', ws) /\
    Forall byte out /\ length out = length buf /\
    (forall p, 0 <= p < 8 * Z.of_nat (length buf) ->
       Z.testbit (lev out) p = if (lo <=? p) && (p <? lo + valsize) then Z.testbit w (p - lo) else Z.testbit (lev buf) p) /\
    ival i' = match i with IL _ => ival i | IB _ => w end /\
    ws = sized_warns (ival i) valsize rshift warn.
Proof. exact get_sized_ok. Qed.
Print Assumptions C07_field.
Theorem C07_too_big : forall i buf valsize shift warn, 256 < Z.of_nat (length buf) * 8 ->
  get_sized i buf valsize shift warn = None.
Proof. exact get_sized_big. Qed.
Print Assumptions C07_too_big.
Theorem C07_argument_refuted : exists i buf out i' ws, canon i /\ Forall byte buf /\
  get_sized i buf 16 (-4) 0 = Some (out, i', ws) /\ ival i' <> ival i.
Proof. exact mutate_refuted. Qed.
Print Assumptions C07_argument_refuted.
Example C07_ex : get_sized (IL (-3)) [255; 0; 255] 8 6 1 = Some ([127; 63; 255], IL (-3), []) /\
  get_sized (IL 300) [0; 0] 8 0 1 = Some ([44; 0], IL 300, [WAny]) /\
  get_sized (IL 301) [0; 0] 9 (-1) (-1) = Some ([150; 0], IL 301, [WMisaligned]).
Proof. repeat split; vm_compute; reflexivity. Qed.

(** C08.  The range check, type 0 unsigned, 1 signed, 2 either. *)
Theorem C08_check_size : forall i size rshift ty, canon i -> 0 < size < 256 -> 0 <= rshift ->
  check_size i size rshift ty = (let w := ival i / 2 ^ rshift in
    if ty <=? 0 then (0 <=? w) && (w <? 2 ^ size)
    else (- 2 ^ (size - 1) <=? w) && (w <? if ty =? 1 then 2 ^ (size - 1) else 2 ^ size)).
Proof. exact check_size_ok. Qed.
Print Assumptions C08_check_size.
Theorem C08_size_zero : forall i rshift ty, canon i -> 0 <= rshift ->
  check_size i 0 rshift ty = (let w := ival i / 2 ^ rshift in if ty <=? 0 then w =? 0 else (w =? 0) || (w =? -1)).
Proof. exact check_size_zero. Qed.
Print Assumptions C08_size_zero.
Theorem C08_wide : forall i size rshift ty, 256 <= size -> check_size i size rshift ty = true.
Proof. exact check_size_wide. Qed.
Print Assumptions C08_wide.
Example C08_ex : check_size (IL (-128)) 8 0 1 = true /\ check_size (IL (-129)) 8 0 2 = false /\
  check_size (IL 255) 8 0 2 = true /\ check_size (IL 255) 8 0 1 = false /\ check_size (IL 1023) 8 2 0 = true /\ check_size (IL (-1)) 64 0 0 = false.
Proof. repeat split; vm_compute; reflexivity. Qed.

(** C54.  Numbers from digit strings. *)
Theorem C54_digits : forall s, Forall chr s ->
  (forallb is_hex (clean s) = true -> exists i, create_hex s = (i, Ok) /\ canon i /\ ival i = wrap256 (number 16 (clean s))) /\
  (forallb is_oct (clean s) = true -> exists i, create_oct s = (i, Ok) /\ canon i /\ ival i = wrap256 (number 8 (clean s))) /\
  (forallb is_bin (clean s) = true -> exists i, create_bin s = (i, Ok) /\ canon i /\ ival i = wrap256 (number 2 (clean s))).
Proof. exact create_digits. Qed.
Print Assumptions C54_digits.
Theorem C54_decimal : forall c s, forallb is_dec (c :: s) = true -> c <> 48 \/ s = [] ->
  let n := number 10 (c :: s) in
  (n < 2 ^ 256 -> exists i, create_dec (c :: s) = (i, Ok) /\ canon i /\ ival i = wrap256 n) /\
  (2 ^ 256 <= n -> snd (create_dec (c :: s)) = Ovfl).
Proof. exact create_decimal. Qed.
Print Assumptions C54_decimal.
(** C54.  Character constants: NASM takes the first character as least significant byte, TASM as
    most significant; up to three characters canonical, more always a vector. *)
Theorem C54_chars_nasm : forall s, Forall byte s ->
  snd (charconst_nasm s) = (32 <? Z.of_nat (length s)) /\ chars_value s (fst (charconst_nasm s)).
Proof. exact nasm_ok. Qed.
Print Assumptions C54_chars_nasm.
Theorem C54_chars_tasm : forall s, Forall byte s ->
  snd (charconst_tasm s) = (32 <? Z.of_nat (length s)) /\ chars_value (rev s) (fst (charconst_tasm s)).
Proof. exact tasm_ok. Qed.
Print Assumptions C54_chars_tasm.
(** C54.  Four characters or more give a number other queries misread. *)
Theorem C54_chars_refuted :
  (exists s, Forall byte s /\ lev s = 1684234849 /\ get_int (fst (charconst_nasm s)) = LONG_MAX) /\
  (exists s, Forall byte s /\ lev s = 0 /\ is_zero (fst (charconst_nasm s)) = false).
Proof. exact charconst_refuted. Qed.
Print Assumptions C54_chars_refuted.
(** C54.  Reading LEB128: the decoded number and the bytes consumed; overflow from the 37th byte. *)
Theorem C54_leb128 : forall l s v k r, Forall byte l -> uleb l = Some (v, k, r) -> exists i,
  create_leb128 l s = Some (i, k, 36 <? k) /\ canon i /\
  ival i = if 36 <? k then wrap256 v else if s then sgn (7 * k) v else v.
Proof. exact create_leb_ok. Qed.
Print Assumptions C54_leb128.
Theorem C54_leb128_short : forall l s, Forall byte l -> uleb l = None -> create_leb128 l s = None.
Proof. exact create_leb_short. Qed.
Print Assumptions C54_leb128_short.
(** C54.  Reading sized little-endian integers. *)
Theorem C54_sized : forall l s, Forall byte l -> l <> [] -> let n := Z.of_nat (length l) in exists i,
  create_sized l s = (i, 32 <? n) /\ canon i /\
  ival i = if s && (n <? 32) then sgn (8 * n) (lev l) else wrap256 (lev l).
Proof. exact create_sized_ok. Qed.
Print Assumptions C54_sized.
Example C54_ex : create_hex [70; 70; 95; 48] = (IL 4080, Ok) /\ create_dec [50; 53; 53] = (IL 255, Ok) /\
  create_leb128 [255; 126; 7] true = Some (IL (-129), 2, false) /\ create_sized [254; 255] true = (IL (-2), false) /\
  create_sized [254; 255] false = (IL 65534, false) /\ fst (charconst_nasm [97; 98]) = IL 25185 /\ fst (charconst_tasm [97; 98]) = IL 24930.
Proof. repeat split; vm_compute; reflexivity. Qed.
