(** Floating point constants: C43, C61, C62. *)
From Coq Require Import ZArith QArith Qabs List Bool Lia.
From Verif Require Import Lib LibBits M_BitVect M_Float P_BitVect P_BitVectIO P_FloatZ P_Float P_FloatLit P_FloatDec.
Import ListNotations.
Open Scope Z_scope.

(** C43.  A normal internal number is written as the number of the format nearest to it (the larger one of two), as infinity with
    return value 1 if that is too large for the format, and as zero with return value -1 if it is below the normal range. *)
Theorem C43_rounds : forall f m w, format m -> normal f -> exists b ret y,
  get_sized f (fbytes m) (8 * fbytes m) 0 false w = Some (b, ret, if w then ret else 0) /\
  Forall byte b /\ Z.of_nat (length b) = fbytes m /\ nearest (prec m) (value f) y /\
  ((p2 (bias m + 1) <= y)%Q /\ ret = 1 /\ decode m b = infinity m (sign f) \/
   (y < p2 (1 - bias m))%Q /\ ret = -1 /\ decode m b = Zero (sign f) \/
   (p2 (1 - bias m) <= y < p2 (bias m + 1))%Q /\ ret = 0 /\
     exists q j, 2 ^ (prec m - 1) <= q < 2 ^ prec m /\ decode m b = Fin (sign f) q j /\ (y == inject_Z q * p2 j)%Q).
Proof. exact rounds_ok. Qed.
Print Assumptions C43_rounds.
(** C43.  The internal zero, underflow and overflow values are written as signed zero, zero with -1 and infinity with 1. *)
Theorem C43_special : forall f m w, format m -> wf (mant f) -> bits (mant f) = 80 -> expo f = 0 \/ expo f = 65535 -> exists b ret,
  get_sized f (fbytes m) (8 * fbytes m) 0 false w = Some (b, ret, if w then ret else 0) /\
  Forall byte b /\ Z.of_nat (length b) = fbytes m /\
  (expo f = 0 -> decode m b = Zero (sign f) /\ ret = if iszero f then 0 else -1) /\
  (expo f = 65535 -> decode m b = infinity m (sign f) /\ ret = 1).
Proof. exact special_ok. Qed.
Print Assumptions C43_special.
(** 1e5000 *)
Definition huge : literal := Lit None [49] None (Some (false, None, [53; 48; 48; 48])).
(** C43.  In the extended format an overflow does not give infinity: the integer bit is missing. *)
Theorem C43_extended_infinity_refuted : exists f b, fcreate (text huge) = Some f /\
  get_sized f 10 80 0 false true = Some (b, 1, 1) /\ decode extended b = Invalid.
Proof. eexists. eexists. split; [vm_compute; reflexivity|]. split; [vm_compute; reflexivity|]. vm_compute. reflexivity. Qed.
Print Assumptions C43_extended_infinity_refuted.

(** 3.141592 *)
Definition pi_lit : literal := Lit None [51] (Some [49; 52; 49; 53; 57; 50]) None.
Example C43_ex : exists f, fcreate (text pi_lit) = Some f /\ normal f /\
  get_sized f 4 32 0 false true = Some ([216; 15; 73; 64], 0, 0) /\ decode single [216; 15; 73; 64] = Fin false 13176792 (-22) /\
  get_sized f 2 16 0 false true = Some ([72; 66], 0, 0).
Proof.
  destruct (fcreate (text pi_lit)) as [f|] eqn:E; [|vm_compute in E; discriminate]. exists f. split; [auto|]. assert (F : f = Flt (BV 80 [3440646761; 3622066179; 51471]) 32768 false false) by (vm_compute in E; congruence). rewrite F. split; [|split; [vm_compute; reflexivity|split; [vm_compute; reflexivity|vm_compute; reflexivity]]].
  split; [|split; [reflexivity|split; [vm_compute; discriminate|split; [vm_compute; split; discriminate|reflexivity]]]].
  split; [reflexivity|]. split; [reflexivity|]. split; [repeat constructor; vm_compute; discriminate|vm_compute; reflexivity].
Qed.

(** C61.  The product of two normal numbers is the exact one cut to 80 bits, or an overflow or underflow mark that is justified. *)
Theorem C61_product : forall f g, normal f -> normal g -> exists r, fmul f g = Some r /\ sign r = xorb (sign f) (sign g) /\
  (normal r /\ (value f * value g * (1 - (1 # 2 ^ 79)) <= value r /\ value r <= value f * value g)%Q \/
   wf (mant r) /\ bits (mant r) = 80 /\ iszero r = false /\ expo r = 65535 /\ (p2 32768 <= value f * value g)%Q \/
   wf (mant r) /\ bits (mant r) = 80 /\ iszero r = false /\ expo r = 0 /\ uval (mant r) = 0 /\ (value f * value g < p2 (-32765))%Q).
Proof. exact fmul_value. Qed.
Print Assumptions C61_product.
(** C61.  Every entry 10^(2^n), 10^-(2^n) of the tables of powers of ten is within 2^-80 of it. *)
Theorem C61_tables : forall (up : bool) l, (1 <= l <= 13)%nat -> exists e, nth_error (if up then POT_TableP else POT_TableN) (13 - l) = Some (e, (if up then 1 else -1) * 2 ^ Z.of_nat (l - 1)) /\
  normal e /\ sign e = false /\ let T := p10 ((if up then 1 else -1) * 2 ^ Z.of_nat (l - 1)) in
  (T * (1 - (1 # 2 ^ 80)) <= value e <= T * (1 + (1 # 2 ^ 80)))%Q.
Proof. exact tables_ok. Qed.
Print Assumptions C61_tables.

(** C62.  Reading a decimal literal and writing it in a format: zero for zero; overflow or underflow only if the literal is, up to the
    tolerance, beyond the range of the format; otherwise the number of the format nearest to some number within the tolerance.
    The tolerance is 2^-73 of the number, or 2^-59 if digits beyond the nineteenth are dropped. *)
Theorem C62_literal : forall l m w, literal_ok l -> format m -> exists f b ret,
  fcreate (text l) = Some f /\ get_sized f (fbytes m) (8 * fbytes m) 0 false w = Some (b, ret, if w then ret else 0) /\ Forall byte b /\ Z.of_nat (length b) = fbytes m /\
  let v := denoted l in let s := negative (l_sign l) in
  ((v == 0)%Q /\ ret = 0 /\ decode m b = Zero s \/
   (over_from m <= v * (1 + tol l))%Q /\ ret = 1 /\ decode m b = infinity m s \/
   (0 < v)%Q /\ (v * (1 - tol l) < under_to m)%Q /\ ret = -1 /\ decode m b = Zero s \/
   ret = 0 /\ exists x q j, close (tol l) x v /\ 2 ^ (prec m - 1) <= q < 2 ^ prec m /\ nearest (prec m) x (inject_Z q * p2 j) /\ decode m b = Fin s q j).
Proof. exact literal_bytes. Qed.
Print Assumptions C62_literal.
(** C62.  A literal that denotes a normal number of the half, single or double format gives exactly that number; so in the extended
    format if it has few digits. *)
Theorem C62_exact : forall l m w q j, literal_ok l -> format m -> fimp m = 1 \/ few l = true ->
  2 ^ (prec m - 1) <= q < 2 ^ prec m -> (denoted l == inject_Z q * p2 j)%Q -> (p2 (1 - bias m) <= denoted l < p2 (bias m + 1))%Q ->
  exists f b, fcreate (text l) = Some f /\ get_sized f (fbytes m) (8 * fbytes m) 0 false w = Some (b, 0, 0) /\ decode m b = Fin (negative (l_sign l)) q j.
Proof. exact literal_exact. Qed.
Print Assumptions C62_exact.
(** 1.000000000000000000108420217248550443400745280086994171142578125, that is 1 + 2^-63 *)
Definition long : literal := Lit None [49] (Some (map (fun d => d + 48)
  [0;0;0;0;0;0;0;0;0;0;0;0;0;0;0;0;0;0;1;0;8;4;2;0;2;1;7;2;4;8;5;5;0;4;4;3;4;0;0;7;4;5;2;8;0;0;8;6;9;9;4;1;7;1;1;4;2;5;7;8;1;2;5])) None.
(** C62.  In the extended format a representable number may come out as its neighbour. *)
Theorem C62_extended_long_refuted : exists l q j f b, literal_ok l /\ 2 ^ (prec extended - 1) <= q < 2 ^ prec extended /\ (denoted l == inject_Z q * p2 j)%Q /\
  fcreate (text l) = Some f /\ get_sized f 10 80 0 false true = Some (b, 0, 0) /\ decode extended b = Fin false (q - 1) j.
Proof.
  exists long, (2 ^ 63 + 1), (-63). eexists. eexists. split; [split; [reflexivity|split; [reflexivity|split; [discriminate|reflexivity]]]|]. split; [vm_compute; split; [discriminate|reflexivity]|]. split; [vm_compute; reflexivity|]. split; [vm_compute; reflexivity|]. split; [vm_compute; reflexivity|]. vm_compute. reflexivity.
Qed.
Print Assumptions C62_extended_long_refuted.

(** -0.15625e+2 = -15.625 = -125/8 *)
Definition frac_lit : literal := Lit (Some true) [48] (Some [49; 53; 54; 50; 53]) (Some (false, Some false, [50])).
Example C62_ex : literal_ok frac_lit /\ few frac_lit = true /\ text frac_lit = [45; 48; 46; 49; 53; 54; 50; 53; 101; 43; 50] /\ (denoted frac_lit == inject_Z (125 * 2 ^ 4) * p2 (-7))%Q /\
  exists f, fcreate (text frac_lit) = Some f /\ get_sized f 2 16 0 false true = Some ([208; 203], 0, 0) /\ decode half [208; 203] = Fin true (125 * 2 ^ 4) (-7).
Proof. split; [split; [reflexivity|split; [reflexivity|split; [intros u s d E; inversion E; reflexivity|reflexivity]]]|]. split; [vm_compute; reflexivity|]. split; [reflexivity|]. split; [vm_compute; reflexivity|]. eexists. split; [vm_compute; reflexivity|]. split; [vm_compute; reflexivity|vm_compute; reflexivity]. Qed.
