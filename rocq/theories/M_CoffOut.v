(** Model of modules/objfmts/coff/coff-objfmt.c:684-1236: the object file (coff, win32, win64).
    Simplified: what the bytecodes of a section write is given as its bytes and relocations; symbols
    have their name outside, their place and their common size as numbers; no I/O error; a file is the list of
    its bytes (the headers, written last, fill exactly the space that was left for them). *)
From Coq Require Import ZArith List Bool Arith.
From Verif Require Import Lib M_Elf M_ElfOut M_CoffReloc.
Import ListNotations.
Open Scope Z_scope.

(** coff-objfmt.c:41-76 coff_reloc; the symbol is its position in the symbol table of the object *)
Record creloc := CReloc { q_addr : Z; q_sym : nat; q_type : Z }.
(** coff-objfmt.c:101-115 coff_section_data with the section; [s_size] is the length of the bytecodes *)
Record csect := CSect { s_name : str; s_flags : Z; s_align : Z; s_size : Z; s_data : list Z; s_rels : list creloc }.
(** coff-objfmt.c:141-165 coff_symrec_data with the symbol: declared other than local, declared global, common or
    external, force visible, the absolute symbol, global with "function" *)
Inductive aux := ASect | AFile (s : str).
Inductive place := PSect (n : nat) (off : Z) | PEqu (v : Z) | PCommon (v : Z) | PExtern | PNone.
Record csym := CSym { y_name : str; y_vis : bool; y_ext : bool; y_force : bool; y_abs : bool; y_func : bool;
  y_class : Z; y_type : Z; y_aux : option aux; y_place : place }.

(** strncpy to [n] bytes *)
Fixpoint strncpy (n : nat) (s : str) : list Z :=
  match n with O => [] | S m => match s with [] => 0 :: strncpy m [] | c :: r => c :: strncpy m r end end.
(** sprintf "%ld" of a number that is not negative *)
Fixpoint digits (fuel : nat) (v : Z) : str :=
  match fuel with O => [] | S k => if v <? 10 then [48 + v] else digits k (v / 10) ++ [48 + v mod 10] end.
Definition dec (v : Z) : str := digits 20 v.
Definition len (s : list Z) : Z := Z.of_nat (length s).

(** coff-objfmt.c:913-943 coff_objfmt_count_sym: whether a symbol is in the table, its index *)
Definition counted (all : bool) (y : csym) : bool := all || y_vis y || y_abs y || y_force y.
Definition numaux (y : csym) : Z := match y_aux y with Some _ => 1 | None => 0 end.
Fixpoint indices (all : bool) (i : Z) (ys : list csym) : list (option Z) * Z :=
  match ys with
  | [] => ([], i)
  | y :: r => if counted all y then let (l, j) := indices all (i + numaux y + 1) r in (Some i :: l, j)
              else let (l, j) := indices all i r in (None :: l, j)
  end.
Definition class (y : csym) : Z := if y_class y =? 0 then (if y_ext y then 2 else 3) else y_class y.

(** coff-objfmt.c:812-830: a relocation; without an index there is an internal error (no symbol that
    is not in the table has symbol data) *)
Definition reloc_entry (ix : list (option Z)) (q : creloc) : option (list Z) :=
  match nth (q_sym q) ix None with
  | Some i => Some (le 4 (q_addr q) ++ le 4 i ++ le 2 (q_type q))
  | None => None
  end.
Fixpoint reloc_entries (ix : list (option Z)) (qs : list creloc) : option (list Z) :=
  match qs with
  | [] => Some []
  | q :: r => match reloc_entry ix q, reloc_entries ix r with Some a, Some b => Some (a ++ b) | _, _ => None end
  end.
(** what coff_objfmt_output_section notes in the section data *)
Record cnote := CNote { t_sec : csect; t_size : Z; t_scnptr : Z; t_relptr : Z; t_nreloc : Z; t_str : Z }.
(** coff-objfmt.c:83-84 *)
Definition bss (s : csect) : bool := Z.land (s_flags s) 1023 =? 128.
(** coff-objfmt.c:731-833 coff_objfmt_output_section, with 684-729 for all bytecodes, at position [pos] of
    the file and [off] of the string table: the note, the bytes written, the new offset *)
Definition out_sect (fl : flavour) (ix : list (option Z)) (pos off : Z) (s : csect) : option (cnote * list Z * Z) :=
  let long := win fl && (8 <? len (s_name s)) in
  let st := if long then off else 0 in
  let off' := if long then off + (len (s_name s) + 1) else off in
  if bss s then Some (CNote s (s_size s) 0 0 0 st, [], off')
  else
    let size := len (s_data s) in
    let n := Z.of_nat (length (s_rels s)) in
    if size =? 0 then Some (CNote s 0 0 0 n st, [], off')
    else if n =? 0 then Some (CNote s size pos 0 0 st, s_data s, off')
    else
      match reloc_entries ix (s_rels s) with
      | None => None
      | Some rs =>
          let head := if (65536 <=? n) && win fl then le 4 (n + 1) ++ le 4 0 ++ le 2 0 else [] in
          Some (CNote s size pos (pos + size) n st, s_data s ++ head ++ rs, off')
      end.
Fixpoint out_sects (fl : flavour) (ix : list (option Z)) (pos off : Z) (ss : list csect) : option (list cnote * list Z * Z) :=
  match ss with
  | [] => Some ([], [], off)
  | s :: r =>
      match out_sect fl ix pos off s with
      | None => None
      | Some (t, b, off1) =>
          match out_sects fl ix (pos + len b) off1 r with
          | None => None
          | Some (ts, b', off2) => Some (t :: ts, b ++ b', off2)
          end
      end
  end.
(** coff-objfmt.c:865-874: the alignment in the flags *)
Fixpoint align_steps (fuel : nat) (align flags : Z) : Z :=
  match fuel with O => flags | S k => if align =? 0 then flags else align_steps k (Z.shiftr align 1) (flags + Z.shiftl 1 20) end.
Definition head_flags (fl : flavour) (t : cnote) : Z :=
  let align := if 8192 <? s_align (t_sec t) then 8192 else s_align (t_sec t) in
  let f := align_steps 14 align (Z.land (s_flags (t_sec t)) (Z.lnot 15728640)) in
  if (65536 <=? t_nreloc t) && win fl then Z.lor f 16777216 else f.
(** coff-objfmt.c:853-910 coff_objfmt_output_secthead *)
Definition head_bytes (fl : flavour) (t : cnote) : list Z :=
  strncpy 8 (if 8 <? len (s_name (t_sec t)) then 47 :: dec (t_str t) else s_name (t_sec t)) ++
  le 4 0 ++ le 4 0 ++ le 4 (t_size t) ++ le 4 (t_scnptr t) ++ le 4 (t_relptr t) ++ le 4 0 ++
  le 2 (if 65536 <=? t_nreloc t then 65535 else t_nreloc t) ++ le 2 0 ++ le 4 (head_flags fl t).
(** ".absolut" *)
Definition ABSOLUT : str := [46; 97; 98; 115; 111; 108; 117; 116].
(** coff-objfmt.c:945-1092 coff_objfmt_output_sym: the entries, the new offset *)
Definition sym_value (y : csym) : Z := match y_place y with PSect _ o => o | PEqu v => v | PCommon v => v | _ => 0 end.
Definition sym_scnum (y : csym) : Z := match y_place y with PSect n _ => Z.of_nat n + 1 | PEqu _ => 65535 | PCommon _ | PExtern => 0 | PNone => 65534 end.
Definition sym_entry (ts : list cnote) (off : Z) (y : csym) : list Z * Z :=
  let name := if y_abs y then ABSOLUT else y_name y in
  let long := 8 <? len name in
  let off1 := if long then off + (len name + 1) else off in
  let e := (if long then le 4 0 ++ le 4 off else strncpy 8 name) ++ le 4 (sym_value y) ++ le 2 (sym_scnum y) ++
           le 2 (if (y_type y =? 0) && y_func y then 32 else y_type y) ++ le 1 (class y) ++ le 1 (numaux y) in
  match y_aux y with
  | None => (e, off1)
  | Some ASect =>
      let (sl, nr) := match y_place y with PSect n _ => match nth_error ts n with Some t => (t_size t, t_nreloc t) | None => (0, 0) end | _ => (0, 0) end in
      (e ++ le 4 sl ++ le 2 nr ++ le 2 0 ++ repeat 0 10, off1)
  | Some (AFile s) =>
      if 14 <? len s then (e ++ le 4 0 ++ le 4 off1 ++ repeat 0 10, off1 + (len s + 1))
      else (e ++ strncpy 14 s ++ repeat 0 4, off1)
  end.
Fixpoint out_syms (all : bool) (ts : list cnote) (off : Z) (ys : list csym) : list Z * Z :=
  match ys with
  | [] => ([], off)
  | y :: r => if counted all y then let (e, off1) := sym_entry ts off y in let (b, off2) := out_syms all ts off1 r in (e ++ b, off2)
              else out_syms all ts off r
  end.
(** coff-objfmt.c:835-851 coff_objfmt_output_sectstr *)
Definition sect_str (fl : flavour) (s : csect) : list Z := if win fl && (8 <? len (s_name s)) then s_name s ++ [0] else [].
(** coff-objfmt.c:1094-1130 coff_objfmt_output_str *)
Definition sym_str (all : bool) (y : csym) : list Z :=
  if all || y_vis y || y_force y then
    (if 8 <? len (y_name y) then y_name y ++ [0] else []) ++
    match y_aux y with Some (AFile s) => if 14 <? len s then s ++ [0] else [] | _ => [] end
  else [].
(** coff-objfmt.c:1132-1238 coff_objfmt_output; [nodebug]: the debug format is null *)
Definition write_coff (fl : flavour) (all nodebug : bool) (ts : Z) (ss : list csect) (ys : list csym) : option (list Z) :=
  let all := all || win64 fl in
  let n := Z.of_nat (length ss) in
  let (ix, count) := indices all 0 ys in
  match out_sects fl ix (20 + 40 * n) 4 ss with
  | None => None
  | Some (notes, body, off1) =>
      let symptr := 20 + 40 * n + len body in
      let (sb, off2) := out_syms all notes off1 ys in
      let flags := (if nodebug then 4 else 0) + (if all then 0 else 8) + (if i386 fl then 256 else 0) in
      Some ((le 2 (if i386 fl then 332 else 34404) ++ le 2 n ++ le 4 ts ++ le 4 symptr ++ le 4 count ++ le 2 0 ++ le 2 flags) ++
            concat (map (head_bytes fl) notes) ++ body ++ sb ++
            le 4 off2 ++ concat (map (sect_str fl) ss) ++ concat (map (sym_str all) ys))
  end.
