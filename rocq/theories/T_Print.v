(** Printing of numbers: C87. *)
From Coq Require Import ZArith List Bool Lia.
From Verif Require Import Lib LibBits M_BitVect P_BitVect P_BitVectIO M_Intnum P_Intnum P_IntnumIO M_Expr P_Expr M_Print P_Print.
Import ListNotations.
Open Scope Z_scope.

(** C87.  BitVector_to_Dec of any vector of any width: the decimal numeral of its signed value, in the buffer allocated. *)
Theorem C87_to_dec : forall v, wf v -> exists s, to_Dec v = Str s /\ numeral (sval v) s.
Proof. exact to_Dec_ok. Qed.
Print Assumptions C87_to_dec.
(** C87.  The string of an integer is its numeral, and read again it gives the integer. *)
Theorem C87_roundtrip : forall i, canon i -> exists s, get_str i = Str s /\ numeral (ival i) s /\ reads_as s (ival i).
Proof. exact get_str_ok. Qed.
Print Assumptions C87_roundtrip.
(** C87.  An integer created from a long by yasm_intnum_create_int is not reduced, and its string runs over the 16 characters
    allocated exactly when it is not between -10^14 and 10^15. *)
Theorem C87_overrun : forall l, - 2 ^ 63 <= l < 2 ^ 63 -> get_str (IL l) = Overrun <-> ~ (- 10 ^ 14 < l < 10 ^ 15).
Proof. exact overrun. Qed.
Print Assumptions C87_overrun.
Theorem C87_overrun_refuted : exists l, - 2 ^ 63 <= l < 2 ^ 63 /\ get_str (create_int l) = Overrun.
Proof. exists 1000000000000000. split; [lia|reflexivity]. Qed.
Print Assumptions C87_overrun_refuted.

(** * Examples *)
(** The largest and the smallest integer of 256 bits. *)
Definition least : intnum := IB (BV 256 [0; 0; 0; 0; 0; 0; 0; 2147483648]).
Example least_ok : canon least /\ ival least = - 2 ^ 255.
Proof. split; [apply canonb_ok|]; vm_compute; reflexivity. Qed.
(** A block of zeros in the middle; one digit; zero. *)
Example strings : get_str (IB (BV 256 [2808348672; 232830643; 0; 0; 0; 0; 0; 0])) = Str [49; 48; 48; 48; 48; 48; 48; 48; 48; 48; 48; 48; 48; 48; 48; 48; 48; 48; 48] /\
  get_str (IL (-7)) = Str [45; 55] /\ to_Dec (BV 3 [4]) = Str [45; 52] /\ to_Dec (BV 40 [0; 0]) = Str [48].
Proof. repeat match goal with |- _ /\ _ => split end; vm_compute; reflexivity. Qed.
