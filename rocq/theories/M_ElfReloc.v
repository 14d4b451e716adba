(** Model of elf-objfmt.c elf_objfmt_output_value, of the relocation entries of elf.c and of the
    mapping to relocation types in elf-x86-x86.c, elf-x86-amd64.c and elf-x86-x32.c.

    The parameters of M_Value are used: [label], [sect] and [next] (yasm_bc_next_offset).  Besides,
    [local] tells whether yasm_symrec_get_visibility is YASM_SYM_LOCAL, [sectsym] is
    elf_secthead_get_sym, [got] the symbol _GLOBAL_OFFSET_TABLE_ if there is one, [dotdot] the symbol
    ..sym, and [index] finds a symbol among those made by elf_set_arch (elf.c:96-110) for the special
    names of a machine.  The bytes come from yasm_intnum_get_sized, which is what
    yasm_arch_intnum_tobytes does for x86 (x86bc.c:1056-1063). *)
From Coq Require Import ZArith List Bool String.
From Verif Require Import Lib M_BitVect M_Intnum M_Expr M_Value.
Import ListNotations.
Open Scope Z_scope.

Inductive mach := X86 | AMD64 | X32.
(** elf-machine.h:71-83 elf_machine_ssym and the flags SYM_RELATIVE, CURPOS_ADJUST, THREAD_LOCAL *)
Record ssym := Ssym { s_name : string; s_rel : bool; s_adjust : bool; s_tls : bool; s_type : Z; s_size : Z }.
Local Open Scope string_scope.
(** elf-x86-x86.c:35-61 with the numbers of elf.h:267-311 *)
Definition x86_ssyms : list ssym :=
  [Ssym "plt" true false false 4 32; Ssym "gotoff" false false false 9 32; Ssym "gotpc" false true false 10 32;
   Ssym "tlsgd" true false true 18 32; Ssym "tlsldm" true false true 19 32; Ssym "gottpoff" true false true 33 32;
   Ssym "tpoff" true false true 34 32; Ssym "ntpoff" true false true 17 32; Ssym "dtpoff" true false true 32 32;
   Ssym "gotntpoff" true false true 16 32; Ssym "indntpoff" true false true 15 32; Ssym "got" true false false 3 32;
   Ssym "tlsdesc" true false true 39 32; Ssym "tlscall" true false true 40 32].
(** elf-x86-amd64.c:38-56 and elf-x86-x32.c:34-52 with the numbers of elf.h:313-349 *)
Definition amd64_ssyms : list ssym :=
  [Ssym "plt" true false false 4 32; Ssym "gotpcrel" true false false 9 32; Ssym "tlsgd" true false true 19 32;
   Ssym "tlsld" true false true 20 32; Ssym "gottpoff" true false true 22 32; Ssym "tpoff" true false true 23 32;
   Ssym "dtpoff" true false true 21 32; Ssym "got" true false false 3 32; Ssym "tlsdesc" true false true 34 32;
   Ssym "tlscall" true false true 35 32].
Local Close Scope string_scope.
Definition ssyms (m : mach) : list ssym := match m with X86 => x86_ssyms | _ => amd64_ssyms end.

(** elf.h:389-396 elf_reloc_entry *)
Record rentry := Entry { e_sym : Z; e_addr : intnum; e_rel : bool; e_size : Z; e_wrt : option Z; e_got : bool; e_addend : option intnum }.

Section Elf.
Variable m : mach.
Variable label : Z -> option Z.
Variable sect next : Z -> Z.
Variable local : Z -> bool.
Variable sectsym : Z -> Z.
Variable got : option Z.
Variable dotdot : Z.
Variable index : Z -> option nat.
(** The entry of the table attached to a symbol as elf_ssym_symrec_data (elf.c:107-108) *)
Definition special (w : Z) : option ssym := match index w with Some i => nth_error (ssyms m) i | None => None end.
(** elf.c:142-151 elf_ssym_has_flag, with 130-140 *)
Definition sym_relative (w : Z) : bool := match special w with Some y => s_rel y | None => false end.
Definition pos_adjusted (w : Z) : bool := match special w with Some y => s_adjust y | None => false end.
(** elf-x86-x86.c:63-74, the same at elf-x86-amd64.c:58-69 and elf-x86-x32.c:54-65: accepts_reloc *)
Definition accepts (val : Z) (w : option Z) : bool :=
  match w with
  | Some w => match special w with Some y => val =? s_size y | None => false end
  | None => if negb (Z.land val (val - 1) =? 0) then false
            else negb (Z.land val (match m with AMD64 => 8 + 16 + 32 + 64 | _ => 8 + 16 + 32 end) =? 0)
  end.
(** elf.c:153-186 elf_reloc_entry_create *)
Definition entry_create (sym : Z) (w : option Z) (addr : intnum) (rel : bool) (valsize : Z) (isgot : bool) : option rentry :=
  if accepts valsize w then Some (Entry sym addr rel valsize w isgot None) else None.
(** elf-x86-x86.c:137-149, elf-x86-amd64.c:138-146, elf-x86-x32.c:136-144 handle_reloc_addend: the
    number left for the field and the entry *)
Definition handle_addend (i : intnum) (r : rentry) (offset : Z) : intnum * rentry :=
  match m with
  | X86 => (if is_none (e_wrt r) && e_got r && (e_size r =? 32) && negb (offset =? 0) then ical i ADD (Some (create_uint offset)) else i, r)
  | _ => (create_uint 0, Entry (e_sym r) (e_addr r) (e_rel r) (e_size r) (e_wrt r) (e_got r) (Some i))
  end.
(** elf-x86-x86.c:151-187, elf-x86-amd64.c:148-191, elf-x86-x32.c:146-188 map_reloc_info_to_type;
    [None] is an internal error *)
Definition rtype (r : rentry) : option Z :=
  match e_wrt r with
  | Some w =>
      match special w with
      | Some y => if e_size r =? s_size y then
                    match m with X86 => Some (s_type y) | _ => Some (if e_rel r && (s_type y =? 3) then 9 else s_type y) end
                  else None
      | None => None
      end
  | None =>
      let size k := e_size r =? k in
      match m with
      | X86 =>
          if e_got r && size 32 then Some 10
          else if e_rel r then (if size 8 then Some 23 else if size 16 then Some 21 else if size 32 then Some 2 else None)
          else if size 8 then Some 22 else if size 16 then Some 20 else if size 32 then Some 1 else None
      | AMD64 =>
          if e_got r && size 32 then Some 26
          else if e_got r && size 64 then Some 29
          else if e_rel r then (if size 8 then Some 15 else if size 16 then Some 13 else if size 32 then Some 2 else if size 64 then Some 24 else None)
          else if size 8 then Some 14 else if size 16 then Some 12 else if size 32 then Some 10 else if size 64 then Some 1 else None
      | X32 =>
          if e_got r && size 32 then Some 26
          else if e_got r && size 64 then None
          else if e_rel r then (if size 8 then Some 15 else if size 16 then Some 13 else if size 32 then Some 2 else None)
          else if size 8 then Some 14 else if size 16 then Some 12 else if size 32 then Some 10 else if size 64 then Some 1 else None
      end
  end.

Inductive vres := VErr | VFatal | VFloat (neg : bool) (f : Z) (warn : bool) | VBytes (out : list Z) (r : option rentry) (ws : list swarn).
Definition tobytes (i : intnum) (buf : list Z) (valsize warn : Z) (r : option rentry) : vres :=
  match get_sized i buf valsize 0 warn with Some (out, _, ws) => VBytes out r ws | None => VFatal end.
(** elf-objfmt.c:533-552: the symbol to relocate against and the start value for the addend *)
Definition target (v : val) (s : Z) (w : option Z) (pos : Z) : Z * Z :=
  match w with
  | None =>
      if negb (is_none (wrt v)) then (s, 0)
      else if local s then match label s with Some p => (sectsym (sect p), u64 (next p)) | None => (s, 0) end
      else (s, 0)
  | Some w' =>
      if sym_relative w' then (s, 0)
      else if pos_adjusted w' then (s, pos)
      else if local s then match label s with Some p => (sectsym (sect p), u64 (next p)) | None => (s, 0) end
      else (s, 0)
  end.
(** elf-objfmt.c:482-590 elf_objfmt_output_value, for a value at [offset] in a bytecode at [bcoff] of
    section [here].  [num3] is yasm_expr_get_intnum in line 574. *)
Definition output_value (num num2 num3 : expr -> option intnum) (v : val) (buf : list Z) (here bcoff offset : Z) (warn : bool) : vres :=
  match output_basic label sect next num num2 v here bcoff warn with
  | OErr => VErr
  | OFloat neg f w => VFloat neg f w
  | ONum n w => tobytes n buf (size v) w None
  | OTodo =>
      if segof v || section_rel v || (0 <? rshift v) then VErr
      else
        let finish intn r :=
          let k := match abs v with
                   | None => Some intn
                   | Some e => match num3 e with None => None | Some i2 => Some (ical intn ADD (Some i2)) end
                   end in
          match k with
          | None => VErr
          | Some i =>
              match r with
              | None => tobytes i buf (size v) (if warn then 1 else 0) None
              | Some r => let (i', r') := handle_addend i r offset in tobytes i' buf (size v) (if warn then 1 else 0) (Some r')
              end
          end in
        match rel v with
        | None => finish (create_uint 0) None
        | Some s =>
            let w := match wrt v with Some w => if w =? dotdot then None else Some w | None => None end in
            let (sym, val0) := target v s w (u64 (offset + bcoff)) in
            let val1 := if curpos_rel v then u64 (val0 + offset) else val0 in
            match entry_create sym w (create_uint (u64 (bcoff + offset))) (curpos_rel v) (size v) (match got with Some g => sym =? g | None => false end) with
            | None => VErr
            | Some r => finish (create_uint val1) (Some r)
            end
        end
  end.
End Elf.
