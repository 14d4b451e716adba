(** Model of libyasm/bitvect.c (the functions used by intnum.c and floatnum.c), with N_word an
    unsigned int of 32 bits and N_long an unsigned long of 64 bits (LP64).  A vector is its number
    of bits and its words, least significant first; words are integers in [0, 2^32).  Functions
    return the new vector instead of writing through a pointer; aliasing of arguments is harmless
    where the C code documents it so and is not modelled.  The words hidden before the address
    (bits, size, mask) are [bits], the length of the list and [mask_].  Memory exhaustion is not
    modelled. *)
From Coq Require Import ZArith List Bool.
From Verif Require Import Lib.
Import ListNotations.
Open Scope Z_scope.

Record bv := BV { bits : Z; wds : list Z }.

(** Constants set by BitVector_Boot for 32-bit words, bitvect.c:333-380 *)
Definition BITS := 32.
Definition MODMASK := 31.
Definition LOGBITS := 5.
Definition LSB := 1.
Definition MSB := 2147483648.
Definition ONES := 4294967295.
Definition LOG10 := 9.
Definition EXP10 := 1000000000.
Definition LONGBITS := 64.

(** NOT on a word *)
Definition wnot (w : Z) : Z := ONES - w.
Definition shl (w k : Z) : Z := u32 (Z.shiftl w k).
Definition shr (w k : Z) : Z := Z.shiftr w k.
Definition nz (w : Z) : bool := negb (w =? 0).
Definition b2z (b : bool) : Z := if b then 1 else 0.

(** bitvect.c:387-394 BitVector_Size *)
Definition Size (n : Z) : Z := shr n LOGBITS + (if nz (Z.land n MODMASK) then 1 else 0).
(** bitvect.c:396-403 BitVector_Mask *)
Definition mask_ (n : Z) : Z :=
  let m := Z.land n MODMASK in if nz m then wnot (shl ONES m) else ONES.
(** BitVector_Create with clearing, bitvect.c:436-469 *)
Definition zeros (n : Z) : list Z := repeat 0 (Z.to_nat n).
Definition Create (n : Z) : bv := BV n (zeros (Size n)).
Definition msbmask (m : Z) : Z := Z.land m (wnot (shr m 1)).

(** *(addr+size-1) &= mask *)
Fixpoint mlast (m : Z) (ws : list Z) : list Z :=
  match ws with [] => [] | [w] => [Z.land w m] | w :: t => w :: mlast m t end.
Definition lastw (ws : list Z) : Z := last ws 0.
Definition norm (v : bv) : bv := BV (bits v) (mlast (mask_ (bits v)) (wds v)).

(** bitvect.c:634-639 BitVector_Empty *)
Definition Empty (v : bv) : bv := BV (bits v) (repeat 0 (length (wds v))).
(** bitvect.c:600-632 BitVector_Copy, for vectors of equal size (the only use) *)
Definition Copy (y : bv) : bv := norm y.
(** bitvect.c:2297-2306 BitVector_msb_ *)
Definition msb_ (v : bv) : bool := nz (Z.land (lastw (wds v)) (msbmask (mask_ (bits v)))).
(** bitvect.c:1344-1355 BitVector_is_empty *)
Definition is_empty (v : bv) : bool := forallb (fun w => w =? 0) (mlast (mask_ (bits v)) (wds v)).
(** bitvect.c:2270-2277 BitVector_LSB *)
Definition set_LSB (v : bv) (b : bool) : bv :=
  match wds v with
  | w :: t => BV (bits v) ((if b then Z.lor w LSB else Z.land w (wnot LSB)) :: t)
  | [] => v
  end.

(** ** Arithmetic *)
(** bitvect.c:2494-2511 BitVector_increment *)
Fixpoint orlast (m : Z) (ws : list Z) : list Z :=
  match ws with [] => [] | [w] => [Z.lor w m] | w :: t => w :: orlast m t end.
Fixpoint inc_words (ws : list Z) : list Z * bool :=
  match ws with
  | [] => ([], true)
  | w :: t => let w' := u32 (w + 1) in
              if w' =? 0 then let (t', c) := inc_words t in (w' :: t', c) else (w' :: t, false)
  end.
Definition increment (v : bv) : bv * bool :=
  let m := mask_ (bits v) in
  let (ws, c) := inc_words (orlast (wnot m) (wds v)) in (BV (bits v) (mlast m ws), c).
(** bitvect.c:2513-2531 BitVector_decrement *)
Fixpoint dec_words (ws : list Z) : list Z * bool :=
  match ws with
  | [] => ([], true)
  | w :: t => let w' := u32 (w - 1) in
              if w =? 0 then let (t', c) := dec_words t in (w' :: t', c) else (w' :: t, false)
  end.
Definition decrement (v : bv) : bv * bool :=
  let m := mask_ (bits v) in
  let (ws, c) := dec_words (mlast m (wds v)) in (BV (bits v) (mlast m ws), c).

(** bitvect.c:2533-2604 BitVector_compute.  A NULL Z is the empty list. *)
Definition zword (minus : bool) (zs : list Z) : Z :=
  let z := hd 0 zs in if minus then wnot z else z.
(** One full word, bitvect.c:2553-2559 *)
Definition full_word (y z cc : Z) : Z * Z :=
  let lo := u32 (Z.land y LSB + Z.land z LSB + cc) in
  let hi := u32 (shr y 1 + shr z 1 + shr lo 1) in
  (Z.lor (shl hi 1) (Z.land lo LSB), b2z (nz (Z.land hi MSB))).
(** The most significant word, bitvect.c:2562-2598: word, cc, vv *)
Definition last_word (mask y z cc : Z) : Z * Z * Z :=
  let yy := Z.land y mask in
  let zz := Z.land z mask in
  if mask =? LSB then
    let lo := u32 (yy + zz + cc) in
    let c' := shr lo 1 in (Z.land lo LSB, c', Z.lxor cc c')
  else if nz (wnot mask) then
    let mm := shr mask 1 in
    let vv := u32 (Z.land yy mm + Z.land zz mm + cc) in
    let mm := Z.land mask (wnot mm) in
    let lo := u32 (yy + zz + cc) in
    let c' := shr lo 1 in
    (Z.land lo mask, Z.land c' mm, Z.land (Z.lxor vv c') mm)
  else
    let mm := wnot MSB in
    let lo := u32 (Z.land yy mm + Z.land zz mm + cc) in
    let vv := Z.land lo MSB in
    let hi := u32 (shr (Z.land yy MSB) 1 + shr (Z.land zz MSB) 1 + shr vv 1) in
    let c' := Z.land hi MSB in
    (Z.lor (shl hi 1) (Z.land lo mm), c', Z.lxor vv c').
Fixpoint comp_words (mask : Z) (minus : bool) (cc : Z) (ys zs : list Z) : list Z * Z * Z :=
  match ys with
  | [] => ([], cc, 0)
  | y :: ys' =>
      match ys' with
      | [] => let '(w, c, v) := last_word mask y (zword minus zs) cc in ([w], c, v)
      | _ => let (w, c) := full_word y (zword minus zs) cc in
             let '(ws, c', v) := comp_words mask minus c ys' (tl zs) in (w :: ws, c', v)
      end
  end.
(** Result vector, new carry, overflow *)
Definition compute (y : bv) (zs : list Z) (minus carry : bool) : bv * bool * bool :=
  let cc := if minus then b2z (negb carry) else b2z carry in
  let '(ws, c, v) := comp_words (mask_ (bits y)) minus cc (wds y) zs in
  (BV (bits y) ws, (if minus then c =? 0 else nz c), nz v).
(** bitvect.c:2606-2626 *)
Definition add (y z : bv) (c : bool) := compute y (wds z) false c.
Definition sub (y z : bv) (c : bool) := compute y (wds z) true c.
Definition inc (y : bv) := compute y [] false true.
Definition dec (y : bv) := compute y [] true true.

(** bitvect.c:2628-2647 BitVector_Negate *)
Fixpoint neg_words (carry : bool) (ws : list Z) : list Z :=
  match ws with
  | [] => []
  | w :: t => if carry then let x := u32 (wnot w + 1) in x :: neg_words (x =? 0) t
              else wnot w :: neg_words false t
  end.
Definition Negate (y : bv) : bv := BV (bits y) (mlast (mask_ (bits y)) (neg_words true (wds y))).
(** bitvect.c:2660-2679 BitVector_Sign *)
Definition Sign (v : bv) : Z :=
  if is_empty v then 0
  else if nz (Z.land (lastw (mlast (mask_ (bits v)) (wds v))) (msbmask (mask_ (bits v)))) then -1 else 1.

(** ** Shifts *)
(** bitvect.c:2368-2392 BitVector_shift_left *)
Fixpoint shl_words (mask : Z) (cin : bool) (ws : list Z) : list Z * bool :=
  match ws with
  | [] => ([], cin)
  | w :: t =>
      let w' := Z.lor (shl w 1) (b2z cin) in
      match t with
      | [] => ([Z.land w' mask], nz (Z.land w (msbmask mask)))
      | _ => let (t', c) := shl_words mask (nz (Z.land w MSB)) t in (w' :: t', c)
      end
  end.
Definition shift_left (v : bv) (cin : bool) : bv * bool :=
  let (ws, c) := shl_words (mask_ (bits v)) cin (wds v) in (BV (bits v) ws, c).
(** bitvect.c:2394-2422 BitVector_shift_right *)
Fixpoint shr_words (mask : Z) (cin : bool) (ws : list Z) : list Z * bool :=
  match ws with
  | [] => ([], cin)
  | w :: t =>
      match t with
      | [] => let w := Z.land w mask in
              ([Z.lor (shr w 1) (if cin then msbmask mask else 0)], nz (Z.land w LSB))
      | _ => let (t', c) := shr_words mask cin t in
             (Z.lor (shr w 1) (if c then MSB else 0) :: t', nz (Z.land w LSB))
      end
  end.
Definition shift_right (v : bv) (cin : bool) : bv * bool :=
  let (ws, c) := shr_words (mask_ (bits v)) cin (wds v) in (BV (bits v) ws, c).
Fixpoint iter {A} (n : nat) (f : A -> A) (x : A) : A :=
  match n with O => x | S n' => iter n' f (f x) end.
(** bitvect.c:3313-3326 BitVector_Word_Insert at offset 0 with clearing, using
    BIT_VECTOR_ins_words, bitvect.c:199-211 *)
Definition Word_Insert0 (v : bv) (count : Z) : bv :=
  let m := mask_ (bits v) in
  let ws := mlast m (wds v) in
  let total := length ws in
  let c := Nat.min (Z.to_nat count) total in
  BV (bits v) (mlast m (repeat 0 c ++ firstn (total - c) ws)).
(** bitvect.c:2424-2440 BitVector_Move_Left *)
Definition Move_Left (v : bv) (n : Z) : bv :=
  if 0 <? n then
    if bits v <=? n then Empty v
    else Word_Insert0 (iter (Z.to_nat (Z.land n MODMASK)) (fun u => fst (shift_left u false)) v) (shr n LOGBITS)
  else v.

(** ** Comparison and inspection *)
(** bitvect.c:1376-1392 BitVector_equal *)
Fixpoint eq_words (a b : list Z) : bool :=
  match a, b with u :: a', w :: b' => (u =? w) && eq_words a' b' | _, _ => true end.
Definition equal (x y : bv) : bool :=
  if bits x =? bits y then
    eq_words (mlast (mask_ (bits x)) (wds x)) (mlast (mask_ (bits x)) (wds y))
  else false.
(** bitvect.c:1409-1413, 1442-1446: compare from the most significant word down *)
Fixpoint cmp_words (a b : list Z) : Z :=
  match a, b with
  | u :: a', w :: b' => let r := cmp_words a' b' in if r =? 0 then (if u =? w then 0 else if u <? w then -1 else 1) else r
  | _, _ => 0
  end.
(** bitvect.c:1394-1419 BitVector_Lexicompare *)
Definition Lexicompare (x y : bv) : Z :=
  if bits x =? bits y then cmp_words (wds x) (wds y) else if bits x <? bits y then -1 else 1.
(** bitvect.c:1421-1453 BitVector_Compare *)
Definition Compare (x y : bv) : Z :=
  if bits x =? bits y then
    let m := msbmask (mask_ (bits x)) in
    let sx := Z.land (lastw (wds x)) m in
    if negb (sx =? Z.land (lastw (wds y)) m) then (if nz sx then -1 else 1)
    else cmp_words (wds x) (wds y)
  else if bits x <? bits y then -1 else 1.
(** bitvect.c:3589-3610 Set_Max; LONG_MIN for the empty set *)
Definition LONG_MIN := -9223372036854775808.
Fixpoint top_bit (fuel : nat) (c i : Z) : Z :=
  match fuel with
  | O => i - 1
  | S f => if nz (Z.land c MSB) then i - 1 else top_bit f (shl c 1) (i - 1)
  end.
Fixpoint max_words (i : Z) (r : list Z) : Z :=
  match r with
  | [] => LONG_MIN
  | c :: t => if nz c then top_bit 31 c (Z.shiftl i LOGBITS) else max_words (i - 1) t
  end.
Definition Set_Max (v : bv) : Z := max_words (Z.of_nat (length (wds v))) (rev (wds v)).
(** BIT_VECTOR_TST_BIT, bitvect.c:156-157 *)
Definition tst (v : bv) (i : Z) : bool :=
  nz (Z.land (nth (Z.to_nat (shr i LOGBITS)) (wds v) 0) (shl LSB (Z.land i MODMASK))).
Fixpoint setnth (n : nat) (x : Z) (l : list Z) : list Z :=
  match l, n with [], _ => [] | _ :: t, O => x :: t | h :: t, S n' => h :: setnth n' x t end.

(** ** Multiplication and division *)
Inductive err := Ok | Ovfl | Zero | Pars | SizeE.
(** bitvect.c:2711-2731, the loop of BitVector_Mul_Pos, [count] up to [limit] *)
Fixpoint mul_loop (n : nat) (count limit : Z) (strict : bool) (x y z : bv) : bv * bool :=
  match n with
  | O => (x, true)
  | S n' =>
      let '(x1, ok) :=
        if tst z count then
          let '(s, carry, ovf) := add x y false in (s, if strict then negb (carry || ovf) else negb carry)
        else (x, true) in
      if ok && (count <? limit) then
        let (y', carry) := shift_left y false in
        let ok' := if strict then negb (carry || nz (Z.land (lastw (wds y')) (msbmask (mask_ (bits y')))))
                   else negb carry in
        if ok' then mul_loop n' (count + 1) limit strict x1 y' z else (x1, false)
      else (x1, ok)
  end.
(** bitvect.c:2681-2733 BitVector_Mul_Pos: X and the error code *)
Definition Mul_Pos (x y z : bv) (strict : bool) : bv * err :=
  if bits x =? bits y then
    let x := Empty x in
    if is_empty y then (x, Ok)
    else let limit := Set_Max z in
         if limit <? 0 then (x, Ok)
         else let '(x', ok) := mul_loop (Z.to_nat (limit + 1)) 0 limit strict x (norm y) z in
              (x', if ok then Ok else Ovfl)
  else (x, SizeE).
(** bitvect.c:2788-2793: from the top, the first pair of words not both zero; does A's exceed B's? *)
Fixpoint gt_top (ra rb : list Z) : bool :=
  match ra, rb with
  | u :: ra', w :: rb' => if (u =? 0) && (w =? 0) then (match ra' with [] => w <? u | _ => gt_top ra' rb' end) else w <? u
  | _, _ => false
  end.
(** bitvect.c:2735-2813 BitVector_Multiply for three vectors of one size *)
Definition Multiply (x y z : bv) : bv * err :=
  if negb (bits y =? bits z) || (bits x <? bits y) then (x, SizeE)
  else if is_empty y || is_empty z then (Empty x, Ok)
  else
    let sy := msb_ (norm y) in
    let sz := msb_ (norm z) in
    let a := if sy then Negate y else Copy y in
    let b := if sz then Negate z else Copy z in
    let '(x', e) := if gt_top (rev (wds a)) (rev (wds b)) then Mul_Pos x a b true else Mul_Pos x b a true in
    ((match e with Ok => if xorb sy sz then Negate x' else x' | _ => x' end), e).

(** bitvect.c:2845-2869, the loop of BitVector_Div_Pos.  The rest is kept in R or X in turn; the
    other one is scratch, overwritten before it is read, so one variable [r] holds the rest. *)
Fixpoint div_loop (n : nat) (q r y : bv) : bv * bv :=
  match n with
  | O => (q, r)
  | S b =>
      let i := Z.of_nat b in
      let k := Z.to_nat (shr i LOGBITS) in
      let w := nth k (wds q) 0 in
      let m := shl LSB (Z.land i MODMASK) in
      let r1 := fst (shift_left r (nz (Z.land w m))) in
      let '(r2, borrow, _) := sub r1 y false in
      if borrow then div_loop b (BV (bits q) (setnth k (Z.land w (wnot m)) (wds q))) r1 y
      else div_loop b (BV (bits q) (setnth k (Z.lor w m) (wds q))) r2 y
  end.
(** bitvect.c:2815-2871 BitVector_Div_Pos: quotient, rest *)
Definition Div_Pos (x y : bv) : bv * bv * err :=
  if negb (bits x =? bits y) then (x, x, SizeE)
  else if is_empty y then (x, x, Zero)
  else let q := Copy x in
       let l := Set_Max q in
       if l <? 0 then (q, Empty x, Ok)
       else let '(q', r) := div_loop (Z.to_nat (l + 1)) q (Empty x) y in (q', r, Ok).
(** bitvect.c:2873-2929 BitVector_Divide: quotient, rest *)
Definition Divide (x y : bv) : bv * bv * err :=
  if negb (bits x =? bits y) then (x, x, SizeE)
  else if is_empty y then (x, x, Zero)
  else if is_empty x then (Empty x, Empty x, Ok)
  else
    let sx := msb_ (norm x) in
    let sy := msb_ (norm y) in
    let a := if sx then Negate x else Copy x in
    let b := if sy then Negate y else Copy y in
    let '(q, r, e) := Div_Pos a b in
    match e with
    | Ok => (if xorb sx sy then Negate q else q, if sx then Negate r else r, Ok)
    | _ => (q, r, e)
    end.

(** ** Bitwise operations, bitvect.c:3421-3492: Set_Union, Set_Intersection, Set_ExclusiveOr,
    Set_Complement *)
Fixpoint zip (f : Z -> Z -> Z) (a b : list Z) : list Z :=
  match a, b with u :: a', w :: b' => f u w :: zip f a' b' | _, _ => [] end.
Definition Union (y z : bv) : bv := BV (bits y) (mlast (mask_ (bits y)) (zip Z.lor (wds y) (wds z))).
Definition Intersection (y z : bv) : bv := BV (bits y) (mlast (mask_ (bits y)) (zip Z.land (wds y) (wds z))).
Definition ExclusiveOr (y z : bv) : bv := BV (bits y) (mlast (mask_ (bits y)) (zip Z.lxor (wds y) (wds z))).
Definition Complement (y : bv) : bv := BV (bits y) (mlast (mask_ (bits y)) (map wnot (wds y))).

(** ** Chunks, bitvect.c:3355-3418 *)
(** Word of (~0L << k) *)
Definition himask (k : Z) : Z := u32 (Z.shiftl (-1) k).
(** bitvect.c:3368-3385, from the word at the offset; [chunk] > 0 is the number of bits left *)
Fixpoint store_words (ws : list Z) (off chunk v : Z) : list Z :=
  match ws with
  | [] => []
  | w :: t =>
      if 0 <? chunk then
        let b := off + chunk in
        let mask := if b <? BITS then Z.land (himask off) (wnot (himask b)) else himask off in
        let n := if b <? BITS then chunk else BITS - off in
        let temp := Z.land (u32 (u64 (Z.shiftl v off))) mask in
        Z.lor (Z.land w (wnot mask)) temp :: store_words t 0 (chunk - n) (Z.shiftr v n)
      else ws
  end.
(** bitvect.c:3355-3387 BitVector_Chunk_Store *)
Definition Chunk_Store (x : bv) (chunk off v : Z) : bv :=
  if (0 <? chunk) && (off <? bits x) then
    let chunk := if LONGBITS <? chunk then LONGBITS else chunk in
    let chunk := if bits x <? off + chunk then bits x - off else chunk in
    let k := Z.to_nat (shr off LOGBITS) in
    BV (bits x) (firstn k (wds x) ++ store_words (skipn k (wds x)) (Z.land off MODMASK) chunk v)
  else x.
(** bitvect.c:3400-3417 *)
Fixpoint read_words (ws : list Z) (off chunk got : Z) : Z :=
  match ws with
  | [] => 0
  | w :: t =>
      if 0 <? chunk then
        let b := off + chunk in
        let mask := if b <? BITS then wnot (himask b) else ONES in
        let n := if b <? BITS then chunk else BITS - off in
        Z.lor (u64 (Z.shiftl (shr (Z.land w mask) off) got)) (read_words t 0 (chunk - n) (got + n))
      else 0
  end.
(** bitvect.c:3389-3418 BitVector_Chunk_Read *)
Definition Chunk_Read (x : bv) (chunk off : Z) : Z :=
  if (0 <? chunk) && (off <? bits x) then
    let chunk := if LONGBITS <? chunk then LONGBITS else chunk in
    let chunk := if bits x <? off + chunk then bits x - off else chunk in
    read_words (skipn (Z.to_nat (shr off LOGBITS)) (wds x)) (Z.land off MODMASK) chunk 0
  else 0.

(** ** Blocks of bytes *)
(** bitvect.c:3256-3264: up to four bytes into a word *)
Fixpoint pack (n : nat) (count : Z) (l : list Z) : Z * list Z :=
  match n, l with
  | S n', b :: t => let (v, r) := pack n' (count + 8) t in (Z.lor (shl b count) v, r)
  | _, _ => (0, l)
  end.
Fixpoint block_words (n : nat) (l : list Z) : list Z :=
  match n with O => [] | S n' => let (v, r) := pack 4 0 l in v :: block_words n' r end.
(** bitvect.c:3246-3267 BitVector_Block_Store *)
Definition Block_Store (x : bv) (buf : list Z) : bv :=
  BV (bits x) (mlast (mask_ (bits x)) (block_words (length (wds x)) buf)).
(** bitvect.c:3269-3297 BitVector_Block_Read *)
Definition word_bytes (w : Z) : list Z :=
  [Z.land w 255; Z.land (shr w 8) 255; Z.land (shr (shr w 8) 8) 255; Z.land (shr (shr (shr w 8) 8) 8) 255].
Definition Block_Read (x : bv) : list Z := flat_map word_bytes (mlast (mask_ (bits x)) (wds x)).

(** ** Reading numbers.  Strings are given reversed, the last character first. *)
Definition isdigitc (c : Z) : bool := (48 <=? c) && (c <=? 57).
Definition toupper (c : Z) : Z := if (97 <=? c) && (c <=? 122) then c - 32 else c.
Definition isxdigitc (c : Z) : bool := isdigitc c || ((65 <=? c) && (c <=? 70)) || ((97 <=? c) && (c <=? 102)).
(** bitvect.c:1506-1519: one word's worth of digits; [None] in the second place: bad character *)
Fixpoint hex_word (s : list Z) (count value : Z) : Z * list Z * bool :=
  match s with
  | [] => (value, [], true)
  | c :: t =>
      if count <? BITS then
        let d := toupper c in
        if d =? 95 then hex_word t count value
        else if isxdigitc d then
          hex_word t (count + 4) (Z.lor value (shl (if 65 <=? d then d - 55 else d - 48) count))
        else (value, t, false)
      else (value, s, true)
  end.
Fixpoint hex_words (n : nat) (s : list Z) (ok : bool) : list Z * bool :=
  match n with
  | O => ([], ok)
  | S n' => if ok then let '(v, s', ok') := hex_word s 0 0 in
                       let (ws, o) := hex_words n' s' ok' in (v :: ws, o)
            else let (ws, o) := hex_words n' s false in (0 :: ws, o)
  end.
(** bitvect.c:1491-1528 BitVector_from_Hex, on the reversed string *)
Definition from_Hex (x : bv) (s : list Z) : bv * err :=
  let (ws, ok) := hex_words (length (wds x)) s true in
  (BV (bits x) (mlast (mask_ (bits x)) ws), if ok then Ok else Pars).
(** bitvect.c:1622-1640 *)
Fixpoint bin_word (s : list Z) (count value : Z) : Z * list Z * bool :=
  match s with
  | [] => (value, [], true)
  | c :: t =>
      if count <? BITS then
        if c =? 48 then bin_word t (count + 1) value
        else if c =? 49 then bin_word t (count + 1) (Z.lor value (shl LSB count))
        else if c =? 95 then bin_word t count value
        else (value, t, false)
      else (value, s, true)
  end.
Fixpoint bin_words (n : nat) (s : list Z) (ok : bool) : list Z * bool :=
  match n with
  | O => ([], ok)
  | S n' => if ok then let '(v, s', ok') := bin_word s 0 0 in
                       let (ws, o) := bin_words n' s' ok' in (v :: ws, o)
            else let (ws, o) := bin_words n' s false in (0 :: ws, o)
  end.
(** bitvect.c:1607-1648 BitVector_from_Bin *)
Definition from_Bin (x : bv) (s : list Z) : bv * err :=
  let (ws, ok) := bin_words (length (wds x)) s true in
  (BV (bits x) (mlast (mask_ (bits x)) ws), if ok then Ok else Pars).
(** bitvect.c:1549-1560; also the final count and the last digit read *)
Fixpoint oct_word (s : list Z) (count value digit : Z) : Z * list Z * Z * Z * bool :=
  match s with
  | [] => (value, [], count, digit, true)
  | c :: t =>
      if count <? BITS then
        if c =? 95 then oct_word t count value c
        else if isdigitc c && negb (c =? 56) && negb (c =? 57) then
          oct_word t (count + 3) (Z.lor value (shl (c - 48) count)) (c - 48)
        else (value, t, count + 3, c, false)
      else (value, s, count, digit, true)
  end.
(** bitvect.c:1546-1567.  [cf] may be negative once the string is used up: the loop condition then
    fails on the string, and the count is never used. *)
Fixpoint oct_words (n : nat) (s : list Z) (cf vf digit : Z) (ok : bool) : list Z * bool :=
  match n with
  | O => ([], ok)
  | S n' =>
      let '(v, s', count, d, ok') := if ok then oct_word s cf vf digit else (vf, s, cf, digit, false) in
      let cf' := count - BITS in
      let vf' := if 0 <? cf' then shr d (3 - cf') else 0 in
      let (ws, o) := oct_words n' s' cf' vf' d ok' in (v :: ws, o)
  end.
(** bitvect.c:1530-1573 BitVector_from_Oct *)
Definition from_Oct (x : bv) (s : list Z) : bv * err :=
  let (ws, ok) := oct_words (length (wds x)) s 0 0 0 true in
  (BV (bits x) (mlast (mask_ (bits x)) ws), if ok then Ok else Pars).

(** bitvect.c:1844-1856: up to nine decimal digits *)
Fixpoint dec_block (s : list Z) (n : nat) (accu powr : Z) : option (Z * list Z) :=
  match n, s with
  | S n', c :: t => if isdigitc c then dec_block t n' (u32 (accu + u32 ((c - 48) * powr))) (u32 (powr * 10)) else None
  | _, _ => Some (accu, s)
  end.
(** *w = accu on an otherwise cleared vector *)
Definition setw0 (x : bv) (w : Z) : bv := BV (bits x) (setnth 0 w (wds x)).
(** bitvect.c:1841-1898, the loop of BitVector_from_Dec_static; [rank] is the current power of
    10^9, [None] before the first block *)
Fixpoint dec_loop (fuel : nat) (s : list Z) (x : bv) (rank : option bv) : bv * err :=
  match fuel with
  | O => (x, Pars)
  | S f =>
      match s with
      | [] => (x, Ok)
      | _ =>
          match dec_block s (Z.to_nat LOG10) 0 1 with
          | None => (x, Pars)
          | Some (accu, s') =>
              let '(prod, e) :=
                match rank with
                | Some r => Mul_Pos (Empty x) (Copy r) (BV BITS [accu]) false
                | None => (setw0 (Empty x) accu,
                           if (BITS <? bits x) || negb (nz (Z.land accu (wnot (mask_ (bits x))))) then Ok else Ovfl)
                end in
              match e with
              | Ok =>
                  let '(x', carry, _) := add x prod false in
                  if carry then (x', Ovfl)
                  else match s' with
                       | [] => (x', Ok)
                       | _ => match rank with
                              | Some r => let '(r', e') := Mul_Pos (Empty x) (Copy r) (BV BITS [EXP10]) false in
                                          match e' with Ok => dec_loop f s' x' (Some r') | _ => (x', e') end
                              | None => dec_loop f s' x' (Some (setw0 (Empty x) EXP10))
                              end
                       end
              | _ => (x, e)
              end
          end
      end
  end.
(** bitvect.c:1807-1910 BitVector_from_Dec_static on an unsigned digit string (the assembler's
    lexers never pass a sign), reversed *)
Definition from_Dec (x : bv) (s : list Z) : bv * err :=
  match s with
  | [] => (x, Pars)
  | _ => dec_loop (S (length s)) s (Empty x) None
  end.
