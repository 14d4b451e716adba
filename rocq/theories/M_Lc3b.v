(** LC-3b instructions: lc3bid.re and lc3bbc.c, written to a flat binary. *)
From Coq Require Import ZArith List Bool String Ascii.
From Verif Require Import Lib M_BitVect M_Intnum M_Expr M_Value M_BinValue.
Import ListNotations.
Open Scope Z_scope.

(** lc3barch.h:31-40 lc3b_imm_type, without the prefix LC3B_IMM *)
Inductive imm_type := I_NONE | I_4 | I_5 | I_6_WORD | I_6_BYTE | I_8 | I_9 | I_9_PC.
(** lc3bid.re:69-88: the type of an operand and what is done with it; no entry of the tables uses OPA_None with an
    operand. *)
Inductive opt := OPT_Imm | OPT_Reg.
Inductive act := OPA_DR | OPA_SR | OPA_Imm (t : imm_type).
(** lc3bid.re:90-106 lc3b_insn_info; the modifiers are two flags *)
Record info := Info { op_h : bool; op_l : bool; base_code : Z; operands : list (opt * act) }.

(** lc3bid.re:141-189: the groups *)
Definition addand_insn : list info :=
  [Info true false 0x1000 [(OPT_Reg, OPA_DR); (OPT_Reg, OPA_SR); (OPT_Reg, OPA_Imm I_5)];
   Info true false 0x1020 [(OPT_Reg, OPA_DR); (OPT_Reg, OPA_SR); (OPT_Imm, OPA_Imm I_5)]].
Definition br_insn : list info := [Info true false 0x0000 [(OPT_Imm, OPA_Imm I_9_PC)]].
Definition jmp_insn : list info := [Info false false 0xC000 [(OPT_Reg, OPA_DR); (OPT_Imm, OPA_Imm I_9)]].
Definition lea_insn : list info := [Info false false 0xE000 [(OPT_Reg, OPA_DR); (OPT_Imm, OPA_Imm I_9_PC)]].
Definition ldst_insn : list info := [Info true false 0x0000 [(OPT_Reg, OPA_DR); (OPT_Reg, OPA_SR); (OPT_Imm, OPA_Imm I_6_WORD)]].
Definition ldstb_insn : list info := [Info true false 0x0000 [(OPT_Reg, OPA_DR); (OPT_Reg, OPA_SR); (OPT_Imm, OPA_Imm I_6_BYTE)]].
Definition not_insn : list info := [Info false false 0x903F [(OPT_Reg, OPA_DR); (OPT_Reg, OPA_SR)]].
Definition nooperand_insn : list info := [Info true false 0x0000 []].
Definition shift_insn : list info := [Info false true 0xD000 [(OPT_Reg, OPA_DR); (OPT_Reg, OPA_SR); (OPT_Imm, OPA_Imm I_4)]].
Definition trap_insn : list info := [Info false false 0xF000 [(OPT_Imm, OPA_Imm I_8)]].

(** lc3bid.re:394-440: the names (in any case) with their groups and modifiers *)
Definition names : list (string * (list info * Z)) :=
  [("add", (addand_insn, 0x00)); ("and", (addand_insn, 0x40));
   ("br", (br_insn, 0x00)); ("brn", (br_insn, 0x08)); ("brz", (br_insn, 0x04)); ("brp", (br_insn, 0x02));
   ("brnz", (br_insn, 0x0C)); ("brnp", (br_insn, 0x0A)); ("brzp", (br_insn, 0x06)); ("brnzp", (br_insn, 0x0E));
   ("jsr", (br_insn, 0x40)); ("jmp", (jmp_insn, 0)); ("lea", (lea_insn, 0));
   ("ld", (ldst_insn, 0x20)); ("ldi", (ldst_insn, 0xA0)); ("st", (ldst_insn, 0x30)); ("sti", (ldst_insn, 0xB0));
   ("ldb", (ldstb_insn, 0x60)); ("stb", (ldstb_insn, 0x70)); ("not", (not_insn, 0));
   ("ret", (nooperand_insn, 0xCE)); ("rti", (nooperand_insn, 0x80)); ("nop", (nooperand_insn, 0));
   ("lshf", (shift_insn, 0x00)); ("rshfl", (shift_insn, 0x10)); ("rshfa", (shift_insn, 0x30));
   ("trap", (trap_insn, 0))]%string.
Definition lower_ascii (c : ascii) : ascii := let n := nat_of_ascii c in if (65 <=? n)%nat && (n <=? 90)%nat then ascii_of_nat (n + 32) else c.
Fixpoint lower_str (s : string) : string := match s with EmptyString => EmptyString | String c r => String (lower_ascii c) (lower_str r) end.
Definition find_insn (s : string) : option (list info * Z) :=
  match find (fun x => String.eqb (fst x) (lower_str s)) names with Some x => Some (snd x) | None => None end.
(** lc3bid.re:348-371 yasm_lc3b__parse_check_regtmod *)
Definition find_reg (s : string) : option Z :=
  match s with
  | String r (String d EmptyString) =>
      let n := nat_of_ascii d in
      if Ascii.eqb (lower_ascii r) "r" && (48 <=? n)%nat && (n <=? 55)%nat then Some (Z.of_nat n - 48) else None
  | _ => None
  end.

(** The operands of an instruction; the others are memory operands and segment registers. *)
Inductive operand := P_Reg (r : Z) | P_Imm (e : expr) | P_Other.
(** lc3bid.re:208-246: the first form with as many operands, of the same types *)
Definition fits (x : opt * act) (p : operand) : bool :=
  match fst x, p with OPT_Imm, P_Imm _ | OPT_Reg, P_Reg _ => true | _, _ => false end.
Fixpoint all_fit (l : list (opt * act)) (ps : list operand) : bool :=
  match l, ps with [], [] => true | x :: l, p :: ps => fits x p && all_fit l ps | _, _ => false end.
Definition choose (g : list info) (ps : list operand) : option info := find (fun i => all_fit (operands i) ps) g.

(** lc3barch.h:44-49 lc3b_insn *)
Record insn := Insn { imm : val; itype : imm_type; opcode : Z }.
(** No form fits; the immediate is too complex; "invalid jump target"; undefined behaviour in levelling; an internal error *)
Inductive fin := NoForm | TooComplex | BadTarget | LevelFault | Internal | Done (i : insn).

Section Lc3b.
Variable nequ : nat.
Variable equ : Z -> option expr.
Variable label : Z -> option Z.
Variable sect next : Z -> Z.
Variable first : Z -> Z.
Variable vstart : Z -> intnum.
Variable is_abs : Z -> bool.
Variable bsymd : Z -> option (Z * which).
Variable istart slength : Z -> intnum.
Variable curpos vspecial : Z -> bool.
Variable precbc : option Z.
Variable dot : Z.
Notation finalize e := (finalize_expr label sect equ curpos vspecial precbc dot nequ false (Some e) 0).
(** lc3bid.re:295-313: which immediates are in words *)
Definition words (t : imm_type) : bool := match t with I_6_WORD | I_8 | I_9 | I_9_PC => true | _ => false end.
Definition imm_value (t : imm_type) (p : operand) : fin :=
  let fin e := match finalize e with
               | FOk v => Done (Insn v t 0)
               | FBad => TooComplex
               | FMem | FDeep => LevelFault
               | FInternal | FFatal => Internal
               end in
  match p with
  | P_Imm e => if words t then match create SHR (node e) (Some (TInt (create_uint 1))) with Fin e => fin e | _ => LevelFault end else fin e
  | P_Reg r => fin (IDENT, [TInt (create_uint (Z.land r 7))])
  | P_Other => Internal
  end.
(** lc3bid.re:271-329: the operands *)
Fixpoint assign (l : list (opt * act)) (ps : list operand) (i : insn) : fin :=
  match l, ps with
  | x :: l, p :: ps =>
      match snd x, p with
      | OPA_DR, P_Reg r => assign l ps (Insn (imm i) (itype i) (Z.lor (opcode i) (Z.land r 7 * 2 ^ 9)))
      | OPA_SR, P_Reg r => assign l ps (Insn (imm i) (itype i) (Z.lor (opcode i) (Z.land r 7 * 2 ^ 6)))
      | OPA_Imm t, _ => match imm_value t p with Done j => assign l ps (Insn (imm j) t (opcode i)) | e => e end
      | _, _ => Internal
      end
  | _, _ => Done i
  end.
Definition set_curpos (v : val) : val := Val (abs v) (rel v) (wrt v) (segof v) (rshift v) true (ip_rel v) (jump_target v) (section_rel v) (no_warn v) (signed v) (size v).
(** lc3bid.re:190-339 lc3b_id_insn_finalize.  An error stops the assembly. *)
Definition finalize_insn (g : list info) (m : Z) (ps : list operand) : fin :=
  match choose g ps with
  | None => NoForm
  | Some i =>
      let code := base_code i + (if op_h i then Z.land m 255 * 2 ^ 8 else 0) in
      let code := code + (if op_l i then Z.land (if op_h i then m / 2 ^ 8 else m) 255 else 0) in
      match assign (operands i) ps (Insn (init None 0) I_NONE code) with
      | Done j =>
          match itype j with
          | I_9_PC => if segof (imm j) || (1 <? rshift (imm j)) || curpos_rel (imm j) then BadTarget
                      else Done (Insn (set_curpos (imm j)) (itype j) (opcode j))
          | _ => Done j
          end
      | e => e
      end
  end.

Definition set_size (v : val) (n : Z) (sg : bool) : val :=
  Val (abs v) (rel v) (wrt v) (segof v) (rshift v) (curpos_rel v) (ip_rel v) (jump_target v) (section_rel v) (no_warn v) (signed v || sg) n.
(** lc3bbc.c:215-229: the distance is from the next instruction *)
Definition from_next (v : val) : res val :=
  match abs v with
  | None => bind (create IDENT (TInt (IL (-1))) None) (fun e => Fin (set_abs v (Some e)))
  | Some a => bind (create ADD (node a) (Some (TInt (IL (-1))))) (fun e => Fin (set_abs v (Some e)))
  end.
(** lc3bbc.c:166-239 lc3b_bc_insn_tobytes, with the output_value of flat binaries and lc3bbc.c:241-249
    yasm_lc3b__intnum_tobytes *)
Definition tobytes (num2 : expr -> option intnum) (i : insn) (bc bcoff blen : Z) : bres :=
  let buf := [opcode i mod 256; opcode i / 256 mod 256] in
  let out v := bin_value nequ equ label sect next first vstart is_abs bsymd istart slength num2 v buf bc bcoff blen true in
  match itype i with
  | I_NONE => BBytes buf []
  | I_4 => out (set_size (imm i) 4 false)
  | I_5 => out (set_size (imm i) 5 true)
  | I_6_WORD => out (set_size (imm i) 6 false)
  | I_6_BYTE => out (set_size (imm i) 6 true)
  | I_8 => out (set_size (imm i) 8 false)
  | I_9_PC => match from_next (imm i) with Fin v => out (set_size v 9 true) | _ => BFault end
  | I_9 => out (set_size (imm i) 9 false)
  end.
End Lc3b.
