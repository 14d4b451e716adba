(** Property theorems for libyasm/bitvect.c: C01, C02, C03, C52, C53. *)
From Coq Require Import ZArith List Bool Lia.
From Verif Require Import Lib LibBits M_BitVect P_BitVect P_BitVectIO.
Import ListNotations.
Open Scope Z_scope.

(** [uval] and [sval] are the unsigned and the two's-complement signed integer of a vector,
    [wf] says it has the right number of words and no bit set beyond its width. *)

(** C01.  Addition: the sum modulo 2^bits, the true carry, and the flag is set exactly if the
    signed sum does not fit. *)
Theorem C01_add : forall x y c, wf x -> wf y -> bits x = bits y -> exists r carry flag,
  add x y c = (r, carry, flag) /\ wf r /\ bits r = bits x /\
  uval r = (uval x + uval y + b2z c) mod 2 ^ bits x /\
  (carry = true <-> 2 ^ bits x <= uval x + uval y + b2z c) /\
  (flag = true <-> ~ fits (bits x) (sval x + sval y + b2z c)).
Proof. exact add_spec. Qed.
Print Assumptions C01_add.

(** C01.  Subtraction: likewise, with the true borrow. *)
Theorem C01_sub : forall x y c, wf x -> wf y -> bits x = bits y -> exists r borrow flag,
  sub x y c = (r, borrow, flag) /\ wf r /\ bits r = bits x /\
  uval r = (uval x - uval y - b2z c) mod 2 ^ bits x /\
  (borrow = true <-> uval x - uval y - b2z c < 0) /\
  (flag = true <-> ~ fits (bits x) (sval x - sval y - b2z c)).
Proof. exact sub_spec. Qed.
Print Assumptions C01_sub.

(** C01.  When the flag is clear the signed result is the signed sum / difference. *)
Theorem C01_signed : forall x y c r k, wf x -> wf y -> bits x = bits y ->
  (add x y c = (r, k, false) -> sval r = sval x + sval y + b2z c) /\
  (sub x y c = (r, k, false) -> sval r = sval x - sval y - b2z c).
Proof. exact add_sub_signed. Qed.
Print Assumptions C01_signed.

(** C01.  Negation, increment and decrement. *)
Theorem C01_negate : forall y, wf y ->
  wf (Negate y) /\ bits (Negate y) = bits y /\ uval (Negate y) = (- uval y) mod 2 ^ bits y.
Proof. exact Negate_ok. Qed.
Print Assumptions C01_negate.
Theorem C01_increment : forall y, wf y -> exists x, increment y = (x, uval y =? 2 ^ bits y - 1) /\
  wf x /\ bits x = bits y /\ uval x = (uval y + 1) mod 2 ^ bits y.
Proof. exact increment_ok. Qed.
Print Assumptions C01_increment.
Theorem C01_decrement : forall y, wf y -> exists x, decrement y = (x, uval y =? 0) /\
  wf x /\ bits x = bits y /\ uval x = (uval y - 1) mod 2 ^ bits y.
Proof. exact decrement_ok. Qed.
Print Assumptions C01_decrement.
(** C01.  The order relations used on the results. *)
Theorem C01_compare : forall x y, wf x -> wf y -> bits x = bits y ->
  Compare x y = Z.sgn (sval x - sval y) /\ Lexicompare x y = Z.sgn (uval x - uval y) /\
  (equal x y = true <-> uval x = uval y) /\ Sign x = Z.sgn (sval x).
Proof. exact compare_spec. Qed.
Print Assumptions C01_compare.

Definition v64 (a b : Z) : bv := BV 64 [a; b].
Example C01_ex : wf (v64 4294967295 2147483647) /\ wf (v64 1 0) /\ bits (v64 1 0) = 64 /\
  add (v64 4294967295 2147483647) (v64 1 0) false = (v64 0 2147483648, false, true) /\
  sub (v64 0 2147483648) (v64 0 0) true = (v64 4294967295 2147483647, false, true) /\
  sub (v64 0 0) (v64 0 0) true = (v64 4294967295 4294967295, true, false) /\
  Negate (BV 40 [1; 0]) = BV 40 [4294967295; 255].
Proof. cbv zeta. repeat match goal with |- _ /\ _ => split end; try (apply wfb_ok; vm_compute; reflexivity); vm_compute; reflexivity. Qed.

(** C02.  Multiplication: with P the product of the magnitudes, the signed product is stored and
    no error reported when P < 2^(bits-1), and also (wrapped) when one magnitude is 2^(bits-1)
    and the other 1; in every other case overflow is reported. *)
Theorem C02_multiply : forall x y z, wf x -> wf y -> wf z -> bits x = bits y -> bits y = bits z ->
  let n := bits x in let P := Z.abs (sval y) * Z.abs (sval z) in
  let edge := (Z.abs (sval y) = 2 ^ (n - 1) /\ Z.abs (sval z) = 1) \/
              (Z.abs (sval z) = 2 ^ (n - 1) /\ Z.abs (sval y) = 1) in
  exists r e, Multiply x y z = (r, e) /\ wf r /\ bits r = n /\
    (P < 2 ^ (n - 1) \/ edge -> e = Ok /\ uval r = (sval y * sval z) mod 2 ^ n) /\
    (2 ^ (n - 1) <= P -> ~ edge -> e = Ovfl).
Proof. exact Multiply_ok. Qed.
Print Assumptions C02_multiply.
(** C02.  So a product that fits with room for its negation is exact, and one whose magnitude
    exceeds 2^(bits-1) is reported. *)
Theorem C02_multiply_exact : forall x y z, wf x -> wf y -> wf z -> bits x = bits y -> bits y = bits z ->
  exists r e, Multiply x y z = (r, e) /\
    (Z.abs (sval y * sval z) < 2 ^ (bits x - 1) -> e = Ok /\ sval r = sval y * sval z) /\
    (2 ^ (bits x - 1) < Z.abs (sval y * sval z) -> e = Ovfl).
Proof. exact multiply_exact. Qed.
Print Assumptions C02_multiply_exact.
(** C02 refuted at the boundary: a representable product is reported as overflow, and an
    unrepresentable one is stored wrapped without a report. *)
Theorem C02_multiply_boundary_refuted :
  (exists x y z, wf x /\ wf y /\ wf z /\ bits x = bits y /\ bits y = bits z /\
     fits (bits x) (sval y * sval z) /\ snd (Multiply x y z) = Ovfl) /\
  (exists x y z, wf x /\ wf y /\ wf z /\ bits x = bits y /\ bits y = bits z /\
     ~ fits (bits x) (sval y * sval z) /\ snd (Multiply x y z) = Ok).
Proof. exact multiply_boundary. Qed.
Print Assumptions C02_multiply_boundary_refuted.

(** C02.  Division by a nonzero divisor: no error; the remainder is smaller than the divisor and
    has the dividend's sign (or is zero); dividend = quotient * divisor + remainder -- except
    that the most negative value divided by -1 wraps. *)
Theorem C02_divide : forall x y, wf x -> wf y -> bits x = bits y -> sval y <> 0 ->
  exists q r, Divide x y = (q, r, Ok) /\ wf q /\ wf r /\ bits q = bits x /\ bits r = bits x /\
    Z.abs (sval r) < Z.abs (sval y) /\ 0 <= sval r * sval x /\
    (sval x = - 2 ^ (bits x - 1) /\ sval y = -1 -> sval q = sval x) /\
    (~ (sval x = - 2 ^ (bits x - 1) /\ sval y = -1) -> sval x = sval q * sval y + sval r).
Proof. exact divide_spec. Qed.
Print Assumptions C02_divide.
(** C02.  Division by zero is reported. *)
Theorem C02_divide_zero : forall x y, wf x -> wf y -> bits x = bits y -> sval y = 0 ->
  exists q r, Divide x y = (q, r, Zero).
Proof. exact Divide_zero. Qed.
Print Assumptions C02_divide_zero.

Definition v33 (a b : Z) : bv := BV 33 [a; b].
Example C02_ex :
  wf (v33 5 1) /\ sval (v33 5 1) = -4294967291 /\ wf (v33 7 0) /\ bits (v33 7 0) = 33 /\
  Divide (v33 5 1) (v33 7 0) = (Negate (v33 613566755 0), Negate (v33 6 0), Ok) /\
  Multiply (v33 0 0) (Negate (v33 65535 0)) (v33 65536 0) = (Negate (v33 4294901760 0), Ok) /\
  snd (Multiply (v33 0 0) (Negate (v33 65536 0)) (v33 131072 0)) = Ovfl /\
  snd (Divide (v33 5 1) (v33 0 0)) = Zero.
Proof. cbv zeta. repeat match goal with |- _ /\ _ => split end; try (apply wfb_ok; vm_compute; reflexivity); vm_compute; reflexivity. Qed.

(** C03.  Digit strings in base 16, 8 and 2.  [clean] drops underscores; [reads] says: of the
    last [cap] digits that fit into the words, if all are valid the vector holds their
    positional value modulo 2^bits, and otherwise a parse error is reported. *)
Theorem C03_hex : forall x s, wf x ->
  reads 16 is_hex (8 * length (wds x)) (bits x) s (from_Hex x (rev s)).
Proof. exact from_Hex_ok. Qed.
Print Assumptions C03_hex.
Theorem C03_oct : forall x s, wf x -> Forall chr s ->
  reads 8 is_oct (oct_cap (length (wds x))) (bits x) s (from_Oct x (rev s)).
Proof. exact from_Oct_ok. Qed.
Print Assumptions C03_oct.
Theorem C03_bin : forall x s, wf x ->
  reads 2 is_bin (32 * length (wds x)) (bits x) s (from_Bin x (rev s)).
Proof. exact from_Bin_ok. Qed.
Print Assumptions C03_bin.
(** C03.  For strings made only of digits and underscores, of whatever length: accepted, and the
    vector holds the value of the whole string modulo 2^bits. *)
Theorem C03_value : forall x s, wf x -> Forall chr s ->
  (forallb is_hex (clean s) = true -> snd (from_Hex x (rev s)) = Ok /\
     uval (fst (from_Hex x (rev s))) = number 16 (clean s) mod 2 ^ bits x) /\
  (forallb is_oct (clean s) = true -> snd (from_Oct x (rev s)) = Ok /\
     uval (fst (from_Oct x (rev s))) = number 8 (clean s) mod 2 ^ bits x) /\
  (forallb is_bin (clean s) = true -> snd (from_Bin x (rev s)) = Ok /\
     uval (fst (from_Bin x (rev s))) = number 2 (clean s) mod 2 ^ bits x).
Proof. exact parse_value. Qed.
Print Assumptions C03_value.

Example C03_ex : let x := BV 64 [0; 0] in wf x /\
  from_Hex x (rev [49; 70; 95; 48; 48; 48; 48; 48; 48; 48; 97]) = (BV 64 [10; 31], Ok) /\
  number 16 (clean [49; 70; 95; 48; 48; 48; 48; 48; 48; 48; 97]) = 10 + 2 ^ 32 * 31 /\
  from_Oct x (rev [55; 55; 55; 55; 55; 55; 55; 55; 55; 55; 55; 55]) = (BV 64 [4294967295; 15], Ok) /\
  snd (from_Oct x (rev [55; 56])) = Pars /\ snd (from_Bin x (rev [49; 50; 49])) = Pars /\
  from_Bin x (rev [49; 95; 48; 49]) = (BV 64 [5; 0], Ok).
Proof. cbv zeta. repeat match goal with |- _ /\ _ => split end; try (apply wfb_ok; vm_compute; reflexivity); vm_compute; reflexivity. Qed.

(** C52.  Decimal strings (from the right, in blocks of nine digits): with [top] the weight of
    the leading block, a digit string is accepted exactly if [top] and its value are below
    2^bits, and then the vector holds its value; otherwise overflow is reported.  A string with
    a character that is no digit is never accepted. *)
Theorem C52_decimal : forall x s n, wf x -> bits x = n -> 32 <= n -> s <> [] ->
  let top := 10 ^ (9 * ((Z.of_nat (length s) - 1) / 9)) in
  exists x' e, from_Dec x (rev s) = (x', e) /\
    (forallb is_dec s = true -> wf x' /\ bits x' = n /\
       (top < 2 ^ n -> number 10 s < 2 ^ n -> e = Ok /\ uval x' = number 10 s) /\
       (2 ^ n <= top \/ 2 ^ n <= number 10 s -> e = Ovfl)) /\
    (forallb is_dec s = false -> e <> Ok).
Proof. exact from_Dec_ok. Qed.
Print Assumptions C52_decimal.
(** C52.  Without leading zeros the answer is exact. *)
Theorem C52_decimal_no_leading_zero : forall x c s, wf x -> 32 <= bits x ->
  forallb is_dec (c :: s) = true -> c <> 48 ->
  exists x' e, from_Dec x (rev (c :: s)) = (x', e) /\
    (number 10 (c :: s) < 2 ^ bits x -> e = Ok /\ uval x' = number 10 (c :: s)) /\
    (2 ^ bits x <= number 10 (c :: s) -> e = Ovfl).
Proof. exact from_Dec_nlz. Qed.
Print Assumptions C52_decimal_no_leading_zero.
(** C52.  Leading zeros can turn a small number into a reported overflow. *)
Theorem C52_leading_zeros_refuted : exists x s, wf x /\ 32 <= bits x /\ forallb is_dec s = true /\
  number 10 s = 1 /\ snd (from_Dec x (rev s)) = Ovfl.
Proof. exact from_Dec_leading. Qed.
Print Assumptions C52_leading_zeros_refuted.
Example C52_ex : let x := BV 64 [0; 0] in wf x /\
  from_Dec x (rev [52;50;57;52;57;54;55;50;57;54;49]) = (BV 64 [1; 10], Ok) /\
  number 10 [52;50;57;52;57;54;55;50;57;54;49] = 1 + 2 ^ 32 * 10 /\
  snd (from_Dec x (rev [49;56;52;52;54;55;52;52;48;55;51;55;48;57;53;53;49;54;49;54])) = Ovfl.
Proof. cbv zeta. repeat match goal with |- _ /\ _ => split end; try (apply wfb_ok; vm_compute; reflexivity); vm_compute; reflexivity. Qed.

(** C53.  Bitwise operations act on the signed values as on (unbounded) integers. *)
Theorem C53_bitwise : forall y z, wf y -> wf z -> bits y = bits z ->
  (wf (Union y z) /\ sval (Union y z) = Z.lor (sval y) (sval z)) /\
  (wf (Intersection y z) /\ sval (Intersection y z) = Z.land (sval y) (sval z)) /\
  (wf (ExclusiveOr y z) /\ sval (ExclusiveOr y z) = Z.lxor (sval y) (sval z)) /\
  (wf (Complement y) /\ sval (Complement y) = Z.lnot (sval y)).
Proof. exact bitwise_spec. Qed.
Print Assumptions C53_bitwise.
(** C53.  Shifts. *)
Theorem C53_shift : forall v n, wf v -> 0 <= n ->
  wf (Move_Left v n) /\ bits (Move_Left v n) = bits v /\ uval (Move_Left v n) = (uval v * 2 ^ n) mod 2 ^ bits v.
Proof. exact Move_Left_ok. Qed.
Print Assumptions C53_shift.
Theorem C53_shift_right : forall y c, wf y -> exists x, shift_right y c = (x, uval y mod 2 =? 1) /\
  wf x /\ bits x = bits y /\ uval x = uval y / 2 + b2z c * 2 ^ (bits y - 1).
Proof. exact shift_right_ok. Qed.
Print Assumptions C53_shift_right.
(** C53.  A chunk of bits stored at an offset changes those bits and no others; reading a chunk
    gives those bits ([chunk_len]: what fits of at most 64 bits). *)
Theorem C53_chunk_store : forall x chunk off v, wf x -> 0 < chunk -> 0 <= off < bits x ->
  let r := Chunk_Store x chunk off v in wf r /\ bits r = bits x /\
  forall i, 0 <= i -> Z.testbit (uval r) i =
    if (off <=? i) && (i <? off + chunk_len (bits x) off chunk) then Z.testbit v (i - off) else Z.testbit (uval x) i.
Proof. exact Chunk_Store_ok. Qed.
Print Assumptions C53_chunk_store.
Theorem C53_chunk_read : forall x chunk off, wf x -> 0 < chunk -> 0 <= off < bits x ->
  Chunk_Read x chunk off = (uval x / 2 ^ off) mod 2 ^ chunk_len (bits x) off chunk.
Proof. exact Chunk_Read_ok. Qed.
Print Assumptions C53_chunk_read.
(** C53.  Byte blocks are little endian. *)
Theorem C53_block : forall x buf, wf x -> Forall byte buf ->
  (let r := Block_Store x buf in wf r /\ bits r = bits x /\
     uval r = lev (firstn (4 * length (wds x)) buf) mod 2 ^ bits x) /\
  Forall byte (Block_Read x) /\ length (Block_Read x) = (4 * length (wds x))%nat /\ lev (Block_Read x) = uval x.
Proof. exact block_spec. Qed.
Print Assumptions C53_block.
Example C53_ex : let x := BV 40 [4294967295; 129] in wf x /\
  Complement x = BV 40 [0; 126] /\ Union x (BV 40 [0; 2]) = BV 40 [4294967295; 131] /\
  Chunk_Store x 12 28 0 = BV 40 [268435455; 0] /\ Chunk_Read x 12 28 = 2079 /\
  Block_Read x = [255; 255; 255; 255; 129; 0; 0; 0] /\
  Block_Store x [1; 2; 3; 4; 5; 6; 7; 8; 9] = BV 40 [67305985; 5] /\ Move_Left x 4 = BV 40 [4294967280; 31].
Proof. cbv zeta. repeat match goal with |- _ /\ _ => split end; try (apply wfb_ok; vm_compute; reflexivity); vm_compute; reflexivity. Qed.
