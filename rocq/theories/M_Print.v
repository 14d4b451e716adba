(** Printing of numbers: BitVector_to_Dec and yasm_intnum_get_str. *)
From Coq Require Import ZArith List Bool.
From Verif Require Import Lib M_BitVect M_Intnum.
Import ListNotations.
Open Scope Z_scope.

(** bitvect.c:163-166 BIT_VECTOR_DIGITIZE: the quotient, the character *)
Definition digitize (v : Z) : Z * Z := (v / 10, v - v / 10 * 10 + 48).
(** bitvect.c:1735-1747, the inner loop while blocks remain: [n] characters of [q].  The string is in the order of
    writing, [digits] its length. *)
Fixpoint whole_block (n : nat) (q digits length : Z) (s : list Z) : Z * list Z :=
  match n with
  | O => (digits, s)
  | S n => if digits <? length then
             let (q, r) := if nz q then digitize q else (q, 48) in
             whole_block n q (digits + 1) length (s ++ [r mod 256])
           else (digits, s)
  end.
(** the inner loop in the last block: until [q] is zero.  [None]: the fuel is exhausted. *)
Fixpoint last_block (fuel : nat) (q digits length : Z) (s : list Z) : option (Z * list Z) :=
  if nz q && (digits <? length) then
    match fuel with
    | O => None
    | S fuel => let (q, r) := digitize q in last_block fuel q (digits + 1) length (s ++ [r mod 256])
    end
  else Some (digits, s).
Inductive printed := Str (s : list Z) | Null | Overrun | Fuel.
(** bitvect.c:1718-1749, the outer loop; [k] is what follows it *)
Fixpoint blocks (fuel : nat) (loop : bool) (quot base : bv) (digits length : Z) (s : list Z) (k : Z -> list Z -> printed) : printed :=
  match fuel with
  | O => Fuel
  | S fuel =>
      let '(loop, quot, q, e) :=
        if loop then
          let '(quot, rest, e) := Div_Pos (Copy quot) base in
          (negb (is_empty quot), quot, nth 0 (wds rest) 0, e)
        else (loop, quot, nth 0 (wds quot) 0, Ok) in
      match e with
      | Ok =>
          match (if loop then Some (whole_block 9 q digits length s) else last_block 10 q digits length s) with
          | None => Fuel
          | Some (digits, s) => if loop && (digits <? length) then blocks fuel loop quot base digits length s k else k digits s
          end
      | _ => Null
      end
  end.
(** bitvect.c:1650-1764 BitVector_to_Dec.  The buffer has [length + 1] characters; bits / 3.3 in double
    precision truncates to 10 bits / 33: the nearest number to 3.3 is below it, and the quotient is at
    least 1/33 below the next integer when it is none. *)
Definition to_Dec (v : bv) : printed :=
  let length := (10 * bits v) / 33 + 2 in
  let sign := Sign v in
  let finish digits s :=
    let '(digits, s) := if (sign <? 0) && (digits <? length) then (digits + 1, s ++ [45]) else (digits, s) in
    if digits <=? length then Str (rev s) else Overrun in
  if (bits v <? 4) || (sign =? 0) then
    let d := nth 0 (wds v) 0 in
    let d := if sign <? 0 then Z.land (u32 (- d)) (mask_ (bits v)) else d in
    finish 1 [(d + 48) mod 256]
  else
    blocks (Z.to_nat length + 1) (BITS <=? bits v) (if sign <? 0 then Negate v else Copy v) (setw0 (Create (bits v)) EXP10) 0 length [] finish.

(** sprintf "%ld" *)
Fixpoint udec (fuel : nat) (v : Z) : list Z :=
  match fuel with O => [] | S k => if v <? 10 then [48 + v] else udec k (v / 10) ++ [48 + v mod 10] end.
Definition ldec (l : Z) : list Z := if l <? 0 then 45 :: udec 20 (- l) else udec 20 l.
(** intnum.c:1064-1081 yasm_intnum_get_str: a buffer of 16 characters in the first case *)
Definition get_str (i : intnum) : printed :=
  match i with
  | IL l => let s := ldec l in if Z.of_nat (length s) + 1 <=? 16 then Str s else Overrun
  | IB v => to_Dec v
  end.
