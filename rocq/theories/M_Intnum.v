(** Model of libyasm/intnum.c.  The static scratch vectors conv_bv, spare, op1static and
    op2static are overwritten before they are read, so they are local values here; [result] is
    read without being written for SEG, WRT and ':' and is a parameter of [calc].  Errors and
    warnings are returned.  Printing is not modelled.  -LONG_MIN (undefined) is taken to wrap. *)
From Coq Require Import ZArith List Bool.
From Verif Require Import Lib M_BitVect M_BitVectIv.
Import ListNotations.
Open Scope Z_scope.

(** intnum.c:41-49 *)
Definition NATIVE := 256.
Inductive intnum := IL (l : Z) | IB (v : bv).
Definition LONG_MAX := 9223372036854775807.
Definition ULONG_MAX := 18446744073709551615.
Definition scratch : bv := Create NATIVE.

(** intnum.c:86-109 intnum_frombv *)
Definition frombv (b : bv) : intnum :=
  if Set_Max b <? 31 then IL (Chunk_Read b 31 0)
  else if msb_ b then
    let m := Negate b in
    if 32 <=? Set_Max m then IB (Negate m)
    else let ul := Chunk_Read m 32 0 in
         if nz (Z.land ul 2147483648) then IB (Negate m) else IL (- ul)
  else IB b.
(** intnum.c:119-126: a long into a cleared vector (also 892-907, 1006-1012, 1026-1032) *)
Definition long_bv (l : Z) : bv :=
  if 0 <=? l then Chunk_Store (Empty scratch) 32 0 (u64 l)
  else Negate (Chunk_Store (Empty scratch) 32 0 (u64 (- l))).
(** intnum.c:114-128 intnum_tobv *)
Definition tobv (i : intnum) : bv := match i with IB v => v | IL l => long_bv l end.

(** intnum.c:130-209 yasm_intnum_create_dec, _bin, _oct, _hex *)
Definition create_dec (s : list Z) : intnum * err := let (b, e) := from_Dec scratch (rev s) in (frombv b, e).
Definition create_bin (s : list Z) : intnum * err := let (b, e) := from_Bin scratch (rev s) in (frombv b, e).
Definition create_oct (s : list Z) : intnum * err := let (b, e) := from_Oct scratch (rev s) in (frombv b, e).
Definition create_hex (s : list Z) : intnum * err := let (b, e) := from_Hex scratch (rev s) in (frombv b, e).

(** intnum.c:212-256 yasm_intnum_create_charconst_nasm: value, overflow error.  Characters are
    given as bytes; the first character is the least significant. *)
Fixpoint nasm_big (r : list Z) (b : bv) : bv :=
  match r with
  | [] => b
  | c :: t => nasm_big t (Chunk_Store (Move_Left b 8) 8 0 (Z.land c 255))
  end.
Definition charconst_nasm (s : list Z) : intnum * bool :=
  (match s with
   | [] => IL 0
   | [a] => IL (Z.land a 255)
   | [a; b] => IL (Z.lor (Z.shiftl (Z.land b 255) 8) (Z.land a 255))
   | [a; b; c] => IL (Z.lor (Z.shiftl (Z.lor (Z.shiftl (Z.land c 255) 8) (Z.land b 255)) 8) (Z.land a 255))
   | _ => IB (nasm_big (rev s) (Empty scratch))
   end, NATIVE <? 8 * Z.of_nat (length s)).
(** intnum.c:258-303 yasm_intnum_create_charconst_tasm: the first character is the most significant *)
Fixpoint tasm_big (s : list Z) (b : bv) : bv :=
  match s with
  | [] => b
  | c :: t => tasm_big t (Chunk_Store b 8 (8 * Z.of_nat (length t)) (Z.land c 255))
  end.
Definition charconst_tasm (s : list Z) : intnum * bool :=
  (match s with
   | [] => IL 0
   | [a] => IL (Z.land a 255)
   | [a; b] => IL (Z.lor (Z.shiftl (Z.land a 255) 8) (Z.land b 255))
   | [a; b; c] => IL (Z.lor (Z.shiftl (Z.lor (Z.shiftl (Z.land a 255) 8) (Z.land b 255)) 8) (Z.land c 255))
   | _ => IB (tasm_big s (Empty scratch))
   end, NATIVE <? 8 * Z.of_nat (length s)).

(** intnum.c:306-333 yasm_intnum_create_uint, _create_int *)
Definition create_uint (i : Z) : intnum :=
  if LONG_MAX <? i then IB (Chunk_Store (Create NATIVE) 32 0 i) else IL i.
Definition create_int (i : Z) : intnum := IL i.

(** intnum.c:335-362 yasm_intnum_create_leb128: value, bytes consumed, overflow error; [None] when
    the buffer ends before the last byte (the C code would read on) *)
Fixpoint leb_read (l : list Z) (i : Z) (b : bv) : option (bv * Z * Z) :=
  match l with
  | [] => None
  | c :: t => let b' := Chunk_Store b 7 i c in
              if Z.land c 128 =? 128 then leb_read t (i + 7) b' else Some (b', i + 7, c)
  end.
Definition create_leb128 (l : list Z) (sign : bool) : option (intnum * Z * bool) :=
  match leb_read l 0 (Empty scratch) with
  | Some (b, i, c) =>
      let ov := NATIVE <? i in
      let b' := if ov then b else if sign && (Z.land c 64 =? 64) then Interval_Fill b i (NATIVE - 1) else b in
      Some (frombv b', i / 7, ov)
  | None => None
  end.
(** intnum.c:365-391 yasm_intnum_create_sized, little endian (big endian aborts), buffer not empty *)
Fixpoint sized_read (l : list Z) (i : Z) (b : bv) : bv :=
  match l with [] => b | c :: t => sized_read t (i + 1) (Chunk_Store b 8 (i * 8) c) end.
Definition create_sized (l : list Z) (sign : bool) : intnum * bool :=
  let n := Z.of_nat (length l) in
  let b := sized_read l 0 (Empty scratch) in
  let b' := if (n * 8 <? NATIVE) && sign && (Z.land (last l 0) 128 =? 128) then Interval_Fill b (n * 8) (NATIVE - 1) else b in
  (frombv b', NATIVE <? n * 8).

(** coretype.h:218-253 *)
Inductive op := IDENT | ADD | SUB | MUL | DIV | SIGNDIV | MOD | SIGNMOD | NEG | NOT | OR | AND | XOR | XNOR | NOR
  | SHL | SHR | LOR | LAND | LNOT | LXOR | LXNOR | LNOR | LT | GT | EQ | LE | GE | NE | NONNUM | SEG | WRT | SEGOFF.
Inductive cerr := NoErr | Arith | ZeroDiv.
(** intnum.c:421-611 yasm_intnum_calc: new accumulator, returned code, error set.  [stale] is the
    content of [result] from an earlier computation. *)
Definition lsb (b : bool) : bv := set_LSB (Empty scratch) b.
Definition calc (stale : bv) (acc : intnum) (o : op) (operand : option intnum) : intnum * Z * cerr :=
  let op1 := tobv acc in
  let fin b := (frombv b, 0, NoErr) in
  match operand with
  | None =>
      match o with
      | NEG => fin (Negate op1)
      | NOT => fin (Complement op1)
      | LNOT => fin (lsb (is_empty op1))
      | _ => (acc, 1, Arith)
      end
  | Some opd =>
      let op2 := tobv opd in
      let e1 := is_empty op1 in
      let e2 := is_empty op2 in
      match o with
      | ADD => fin (fst (fst (add op1 op2 false)))
      | SUB => fin (fst (fst (sub op1 op2 false)))
      | MUL => fin (fst (Multiply scratch op1 op2))
      | DIV | SIGNDIV => if e2 then (acc, 1, ZeroDiv) else fin (fst (fst (Divide op1 op2)))
      | MOD | SIGNMOD => if e2 then (acc, 1, ZeroDiv) else fin (snd (fst (Divide op1 op2)))
      | NEG => fin (Negate op1)
      | NOT => fin (Complement op1)
      | OR => fin (Union op1 op2)
      | AND => fin (Intersection op1 op2)
      | XOR => fin (ExclusiveOr op1 op2)
      | XNOR => fin (Complement (ExclusiveOr op1 op2))
      | NOR => fin (Complement (Union op1 op2))
      | SHL => match opd with
               | IL l => if 0 <=? l then fin (Move_Left (Copy op1) (u32 l)) else fin (Empty scratch)
               | IB _ => fin (Empty scratch)
               end
      | SHR => match opd with
               | IL l => if 0 <=? l then fin (iter (Z.to_nat (u32 l)) (fun b => fst (shift_right b (msb_ op1))) (Copy op1))
                         else fin (Empty scratch)
               | IB _ => fin (Empty scratch)
               end
      | LOR => fin (lsb (negb e1 || negb e2))
      | LAND => fin (lsb (negb e1 && negb e2))
      | LNOT => fin (lsb e1)
      | LXOR => fin (lsb (xorb (negb e1) (negb e2)))
      | LXNOR => fin (lsb (negb (xorb (negb e1) (negb e2))))
      | LNOR => fin (lsb (negb (negb e1 || negb e2)))
      | EQ => fin (lsb (equal op1 op2))
      | LT => fin (lsb (Compare op1 op2 <? 0))
      | GT => fin (lsb (0 <? Compare op1 op2))
      | LE => fin (lsb (Compare op1 op2 <=? 0))
      | GE => fin (lsb (0 <=? Compare op1 op2))
      | NE => fin (lsb (negb (equal op1 op2)))
      | SEG | WRT | SEGOFF => (frombv stale, 0, Arith)
      | IDENT => fin (Copy op1)
      | NONNUM => (acc, 1, Arith)
      end
  end.

(** intnum.c:614-630 yasm_intnum_compare *)
Definition compare (a b : intnum) : Z :=
  match a, b with
  | IL x, IL y => if x <? y then -1 else if y <? x then 1 else 0
  | _, _ => Compare (tobv a) (tobv b)
  end.
(** intnum.c:664-689 yasm_intnum_set_uint, _set_int *)
Definition set_uint (i : intnum) (v : Z) : intnum :=
  if LONG_MAX <? v then IB (Chunk_Store (match i with IB b => b | IL _ => Create NATIVE end) 32 0 v) else IL v.
Definition set_int (i : intnum) (v : Z) : intnum := IL v.
(** intnum.c:691-721 *)
Definition is_zero (i : intnum) : bool := match i with IL l => l =? 0 | IB _ => false end.
Definition is_pos1 (i : intnum) : bool := match i with IL l => l =? 1 | IB _ => false end.
Definition is_neg1 (i : intnum) : bool := match i with IL l => l =? -1 | IB _ => false end.
Definition sign (i : intnum) : Z :=
  match i with IL l => if l =? 0 then 0 else if l <? 0 then -1 else 1 | IB v => Sign v end.
(** intnum.c:723-742 yasm_intnum_get_uint *)
Definition get_uint (i : intnum) : Z :=
  match i with
  | IL l => if l <? 0 then 0 else l
  | IB v => if msb_ v then 0 else if 32 <? Set_Max v then ULONG_MAX else Chunk_Read v 32 0
  end.
(** intnum.c:744-774 yasm_intnum_get_int *)
Definition get_int (i : intnum) : Z :=
  match i with
  | IL l => l
  | IB v => if msb_ v then
              let m := Negate v in
              if 32 <=? Set_Max m then LONG_MIN
              else let ul := Chunk_Read m 32 0 in
                   if nz (Z.land ul 2147483648) then LONG_MIN else - ul
            else LONG_MAX
  end.

(** intnum.c:840-882 yasm_intnum_check_size *)
Definition shrn (b : bv) (n : Z) : bv := iter (Z.to_nat n) (fun x => fst (shift_right x (msb_ b))) b.
Definition check_size (i : intnum) (size rshift rangetype : Z) : bool :=
  let v := match i with IB b => if 0 <? rshift then Copy b else b | IL _ => tobv i end in
  if NATIVE <=? size then true
  else
    let v := if 0 <? rshift then shrn v rshift else v in
    if 0 <? rangetype then
      if msb_ v then
        let c := fst (fst (dec (Negate v))) in
        Set_Max c <? s64 (u64 size) - 1
      else Set_Max v <? s64 (if rangetype =? 1 then u64 (size - 1) else u64 size)
    else Set_Max v <? s64 (u64 size).
(** intnum.c:884-911 yasm_intnum_in_range *)
Definition in_range (i : intnum) (low high : Z) : bool :=
  (0 <=? Compare (tobv i) (long_bv low)) && (Compare (tobv i) (long_bv high) <=? 0).

(** intnum.c:776-838 yasm_intnum_get_sized, little endian: the buffer, the number afterwards (a
    right shift acts on its own vector), the warnings set.  [None]: internal error. *)
Inductive swarn := WSigned | WAny | WMisaligned.
Definition get_sized (i : intnum) (buf : list Z) (valsize shift warn : Z) : option (list Z * intnum * list swarn) :=
  let destsize := Z.of_nat (length buf) in
  let rshift := if shift <? 0 then - shift else 0 in
  if NATIVE <? destsize * 8 then None
  else
    let w1 := if (warn <? 0) && negb (check_size i valsize rshift 1) then [WSigned] else [] in
    let w2 := if (0 <? warn) && negb (check_size i valsize rshift 2) then [WAny] else [] in
    let op1 := Block_Store scratch buf in
    let op2 := tobv i in
    let w3 := if nz warn && (0 <? rshift) && negb (is_empty (Move_Left (Copy op2) (u32 (NATIVE - rshift)))) then [WMisaligned] else [] in
    let op2 := if 0 <? rshift then shrn op2 rshift else op2 in
    let shift := if 0 <? rshift then 0 else shift in
    match Interval_Copy op1 op2 (u32 shift) 0 (u32 valsize) with
    | None => None
    | Some r => Some (firstn (length buf) (Block_Read r), match i with IB _ => IB op2 | IL _ => i end, w1 ++ w2 ++ w3)
    end.

(** ** LEB128 *)
(** intnum.c:913-942 get_leb128.  [None]: the size (an unsigned long) is that of an empty vector,
    LONG_MIN + 1 or + 2, and the loop writes some 2^60 bytes. *)
Definition leb_size (v : bv) (sgnd : bool) : Z :=
  u64 (if sgnd then (if msb_ v then Set_Max (Negate v) + 2 else Set_Max v + 2) else Set_Max v + 1).
Fixpoint leb_bytes (n : nat) (v : bv) (i : Z) : list Z :=
  match n with
  | O => []
  | S n' => let c := Z.lor ((Chunk_Read v 7 i mod 256)) 128 in
            (match n' with O => Z.land c 127 | _ => c end) :: leb_bytes n' v (i + 7)
  end.
Definition leb128 (v : bv) (sgnd : bool) : option (list Z) :=
  let size := leb_size v sgnd in
  if LONG_MAX <? size then None else Some (leb_bytes (Z.to_nat ((size + 6) / 7)) v 0).
(** intnum.c:944-961 size_leb128 *)
Definition size_leb128 (v : bv) (sgnd : bool) : Z :=
  u64 (if sgnd then Z.quot ((if msb_ v then Set_Max (Negate v) else Set_Max v) + 8) 7 else Z.quot (Set_Max v + 7) 7).
(** intnum.c:963-994 yasm_intnum_get_leb128, yasm_intnum_size_leb128 *)
Definition intnum_leb128 (i : intnum) (sgnd : bool) : option (list Z) :=
  match i with IL 0 => Some [0] | _ => leb128 (tobv i) sgnd end.
Definition intnum_size_leb128 (i : intnum) (sgnd : bool) : Z :=
  match i with IL 0 => 1 | _ => size_leb128 (tobv i) sgnd end.
(** intnum.c:996-1062 yasm_get_sleb128, yasm_size_sleb128, yasm_get_uleb128, yasm_size_uleb128 *)
Definition get_sleb128 (v : Z) : option (list Z) := if v =? 0 then Some [0] else leb128 (long_bv v) true.
Definition size_sleb128 (v : Z) : Z := if v =? 0 then 1 else size_leb128 (long_bv v) true.
Definition get_uleb128 (v : Z) : option (list Z) :=
  if v =? 0 then Some [0] else leb128 (Chunk_Store (Empty scratch) 32 0 v) false.
Definition size_uleb128 (v : Z) : Z :=
  if v =? 0 then 1 else size_leb128 (Chunk_Store (Empty scratch) 32 0 v) false.
