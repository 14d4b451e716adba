(** Theorems on values in flat binaries: C88. *)
From Coq Require Import ZArith List Bool Lia.
From Verif Require Import Lib M_BitVect P_BitVect P_BitVectIO M_Intnum P_Intnum P_IntnumIO M_Expr P_Expr P_ExprLevel P_ExprTree P_ExprTree2 P_ExprTop M_Value P_Value P_ValueTop P_ValueOut M_BinValue P_BinValue P_BinValueTop T_Value.
Import ListNotations.
Open Scope Z_scope.

(** C88: what is written is the value of the expression, with the addresses of the layout. *)
Theorem C88_written : forall nequ equ label sect next first vstart is_abs bsymd istart slength, laid_out sect next first ->
  (forall q, canonb (vstart q) = true /\ canonb (istart q) = true /\ canonb (slength q) = true) -> (forall s d, equ s = Some d -> shaped (eitem d)) ->
  forall curpos vspecial precbc dot base err e sz v E z num2 buf bc bcoff blen warn out ws, shaped (eitem e) ->
  (forall e1 st b, level_tree nequ equ true true false [] e = Fin (e1, st, b) -> tame false (core (unmask (sz mod 2 ^ 8) e1))) ->
  finalize_expr label sect equ curpos vspecial precbc dot nequ err (Some e) sz = FOk v -> wrt v = None -> rshift v < 2 ^ 31 ->
  env_value curpos dot base (ival (vstart (sect bc)) + bcoff) E -> env_bin label sect next vstart is_abs (section_symbol vstart bsymd istart slength) E -> env_equ equ E -> eval E e = Some (VNum z) ->
  num_ok E num2 -> 0 <= blen < 2 ^ 31 -> next bc = bcoff + blen ->
  Forall byte buf -> size v <= 8 * Z.of_nat (length buf) -> 8 * Z.of_nat (length buf) <= 256 ->
  bin_value nequ equ label sect next first vstart is_abs bsymd istart slength num2 v buf bc bcoff blen warn = BBytes out ws ->
  field_is buf out (size v) z /\ (no_warn v = false -> ws = sized_warns z (size v) 0 (if warn then 1 else 0)).
Proof. exact written_spec. Qed.
Print Assumptions C88_written.
(** Any value, also those an instruction makes: a distance may be shifted. *)
Theorem C88_value : forall nequ equ label sect next first vstart is_abs bsymd istart slength, laid_out sect next first ->
  (forall q, canonb (vstart q) = true /\ canonb (istart q) = true /\ canonb (slength q) = true) -> (forall s d, equ s = Some d -> shaped (eitem d)) ->
  forall E num2 v buf bc bcoff blen warn out ws y, num_ok E num2 -> env_bin label sect next vstart is_abs (section_symbol vstart bsymd istart slength) E -> env_equ equ E ->
  0 <= blen < 2 ^ 31 -> 0 <= rshift v < 2 ^ 31 -> next bc = bcoff + blen ->
  Forall byte buf -> 0 <= size v <= 8 * Z.of_nat (length buf) -> 8 * Z.of_nat (length buf) <= 256 ->
  parts_value E v (ival (vstart (sect bc)) + bcoff) y ->
  bin_value nequ equ label sect next first vstart is_abs bsymd istart slength num2 v buf bc bcoff blen warn = BBytes out ws ->
  field_is buf out (size v) y /\ ws = sized_warns y (size v) 0 (warn_mode v warn) /\ segof v = false /\ section_rel v = false /\ (curpos_rel v = false -> ip_rel v = false).
Proof. exact bvalue_spec. Qed.
Print Assumptions C88_value.
(** A value that needs a linker is never written: the symbol has an address, no segment is asked for, and without
    a symbol nothing is relative. *)
Theorem C88_refused : forall nequ equ label sect next first vstart is_abs bsymd istart slength num2 v buf bc bcoff blen warn out ws,
  bin_value nequ equ label sect next first vstart is_abs bsymd istart slength num2 v buf bc bcoff blen warn = BBytes out ws ->
  segof v = false /\ section_rel v = false /\ (rel v = None -> rshift v <= 0 /\ curpos_rel v = false /\ ip_rel v = false) /\
  (forall s, rel v = Some s -> known label is_abs (section_symbol vstart bsymd istart slength) s).
Proof. exact flags_spec. Qed.
Print Assumptions C88_refused.
(** WRT never has an effect. *)
Theorem C88_wrt : forall nequ equ label sect next first vstart is_abs bsymd istart slength num2 v w buf bc bcoff blen warn,
  bin_value nequ equ label sect next first vstart is_abs bsymd istart slength num2 (with_wrt v w) buf bc bcoff blen warn =
  bin_value nequ equ label sect next first vstart is_abs bsymd istart slength num2 v buf bc bcoff blen warn.
Proof. exact wrt_ignored. Qed.
Print Assumptions C88_wrt.

(** Bytecode 100 q + k is in section q and ends at k.  Section 0 is at 256, the others at 1024.  Symbols: 1 and 3
    are labels at 8 of section 0 and 40 of section 1, 7 and 8 at 4 and 16 of section 0, 20 the length of section 1,
    30 the symbol of absolute zero, the others external.  The value is in the bytecode of 4 bytes at 16 of section
    0; 9 stands for the position. *)
Definition zlabel (s : Z) : option Z := if s =? 1 then Some 8 else if s =? 3 then Some 140 else if s =? 7 then Some 4 else if s =? 8 then Some 16 else None.
Definition zsect (p : Z) : Z := p / 100.
Definition znext (p : Z) : Z := p mod 100.
Definition zfirst (q : Z) : Z := 100 * q.
Definition zstart (q : Z) : intnum := if q =? 0 then IL 256 else IL 1024.
Definition zlen (q : Z) : intnum := IL 64.
Definition zabs (s : Z) : bool := s =? 30.
Definition zsymd (s : Z) : option (Z * which) := if s =? 20 then Some (1, SSYM_LENGTH) else None.
Definition zpos (p : Z) : Z := ival (zstart (zsect p)) + znext p.
Definition zsym (s : Z) : option value :=
  match zlabel s with Some p => Some (VNum (zpos p)) | None => if s =? 20 then Some (VNum 64) else if s =? 30 then Some (VNum 0) else if s =? 9 then Some (VNum 272) else Some (VNum (5000 + s)) end.
Definition zE : env := Env (fun _ => 0) (fun _ => 0) zpos zsym (fun a => a / 16) (fun a b => a - xbase b).
Definition zcur (s : Z) : bool := (s =? 8) || (s =? 9).
Definition zsplit (e : expr) (sz : Z) : fres := finalize_expr zlabel zsect noequ zcur nospec (Some 16) 9 0 false (Some e) sz.
Definition zval (v : val) (buf : list Z) : bres := bin_value 0 noequ zlabel zsect znext zfirst zstart zabs zsymd zstart zlen (fun _ => None) v buf 20 16 4 true.
Definition zout (e : expr) (sz : Z) : bres := match zsplit e sz with FOk v => zval v (repeat 0 (Z.to_nat (sz / 8))) | _ => BErr end.
Lemma zlaid : laid_out zsect znext zfirst.
Proof.
  unfold laid_out, zsect, znext, zfirst. split.
  - intros q. split; rewrite Z.mul_comm; [apply Z.div_mul|apply Z.mod_mul]; discriminate.
  - intros p. pose proof (Z.mod_pos_bound p 100 eq_refl). lia.
Qed.
Lemma zenv : env_bin zlabel zsect znext zstart zabs (section_symbol zstart zsymd zstart zlen) zE.
Proof.
  split; [reflexivity|]. split; [|split].
  - intros s p H. cbn [symv zE]. unfold zsym. rewrite H. reflexivity.
  - intros s n L H. cbn [symv zE]. unfold zsym. rewrite L. unfold section_symbol, zsymd in H. destruct (Z.eqb_spec s 20) as [->|]; [|discriminate]. injection H as <-. reflexivity.
  - intros s H. unfold zabs in H. apply Z.eqb_eq in H. subst s. reflexivity.
Qed.
(** dw label + 2; dd label of another section - $; dd (label - label) * 3; db address too large; dw length of a
    section; a distance shifted by one; and what is refused: external symbols, seg label. *)
Example C88_ex : laid_out zsect znext zfirst /\ env_bin zlabel zsect znext zstart zabs (section_symbol zstart zsymd zstart zlen) zE /\ env_value zcur 9 xbase (ival (zstart (zsect 20)) + 16) zE /\
  zout (ADD, [TSym 1; TInt (IL 2)]) 16 = BBytes [10; 1] [] /\ eval zE (ADD, [TSym 1; TInt (IL 2)]) = Some (VNum 266) /\
  zout (SUB, [TSym 3; TSym 8]) 32 = BBytes [24; 3; 0; 0] [] /\ eval zE (SUB, [TSym 3; TSym 8]) = Some (VNum 792) /\
  zout (MUL, [TExpr SUB [TSym 1; TSym 7]; TInt (IL 3)]) 32 = BBytes [12; 0; 0; 0] [] /\
  zout (IDENT, [TSym 3]) 8 = BBytes [40] (sized_warns 1064 8 0 1) /\ sized_warns 1064 8 0 1 <> [] /\
  zout (ADD, [TSym 20; TInt (IL 1)]) 16 = BBytes [65; 0] [] /\
  zval (Val (Some (IDENT, [TInt (IL (-1))])) (Some 3) None false 1 true false false false false true 9) [0; 170] = BBytes [139; 171] (sized_warns 395 9 0 (-1)) /\
  zout (IDENT, [TSym 4]) 16 = BErr /\ zout (SEG, [TSym 1]) 16 = BErr.
Proof.
  split; [exact zlaid|]. split; [exact zenv|]. split.
  - split; [reflexivity|]. intros s [H| ->]; [|reflexivity]. unfold zcur in H. apply orb_true_iff in H. destruct H as [H|H]; apply Z.eqb_eq in H; subst s; reflexivity.
  - repeat match goal with |- _ /\ _ => split end; vm_compute; try reflexivity. discriminate.
Qed.
(** dw label wrt label: taken with respect to 256, the address 1064 should be 808; it is written as 1064, with no warning. *)
Theorem C88_wrt_refuted : eval zE (WRT, [TSym 3; TSym 1]) = Some (VNum (1064 - xbase 264)) /\ xbase 264 = 256 /\ zout (WRT, [TSym 3; TSym 1]) 16 = BBytes [40; 4] [].
Proof. split; [|split]; vm_compute; reflexivity. Qed.
Print Assumptions C88_wrt_refuted.
