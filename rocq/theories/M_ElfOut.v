(** Model of modules/objfmts/elf: the object file (elf-objfmt.c:420-876, elf.c, elf-x86-amd64.c, elf-x86-x86.c).
    Both classes are modelled; [wide] is amd64 (ELF64, RELA), otherwise x86 (ELF32, REL).
    Simplified: what the bytecodes of a section write is given as its bytes; relocations have
    their symbol index and type, symbols their final value, size and type; no I/O error, no stabs; a file is the list of
    its bytes, a seek beyond the end fills with zeros. *)
From Coq Require Import ZArith List Bool Arith.
From Verif Require Import Lib M_Elf.
Import ListNotations.
Open Scope Z_scope.

Record reloc := Reloc { r_addr : Z; r_sym : Z; r_type : Z; r_addend : Z }.
Record section := Section { o_name : str; o_type : Z; o_flags : Z; o_align : Z; o_entsize : Z; o_size : Z; o_data : list Z; o_rels : list reloc }.
(** A symbol as it is written: the position of its name in the string table, value, size, binding, type, visibility, and the number of
    its section or else the index field of the entry *)
Record symbol := Symbol { y_name : option nat; y_value : Z; y_size : Z; y_bind : Z; y_type : Z; y_vis : Z; y_sect : option nat; y_index : Z }.

(** file.h:249-276 YASM_WRITE_8, _16_L, _32_L; elf-machine.h:31-39 YASM_WRITE_32I_L, _64I_L *)
Fixpoint le (n : nat) (v : Z) : list Z := match n with O => [] | S m => v mod 256 :: le m (v / 256) end.
(** elf-machine.h:41-45 YASM_WRITE_64Z_L: only 32 bits are written, the upper ones are 0 *)
Definition word (wide : bool) (v : Z) : list Z := if wide then le 4 v ++ le 4 0 else le 4 v.
(** an integer of the class's size (YASM_WRITE_64I_L, YASM_WRITE_32I_L) *)
Definition int (wide : bool) (v : Z) : list Z := le (if wide then 8 else 4) v.
(** elf.h:232-254 sizes *)
Definition ehsize (wide : bool) : Z := if wide then 64 else 52.
Definition shsize (wide : bool) : Z := if wide then 64 else 40.
Definition symsize (wide : bool) : Z := if wide then 24 else 16.
Definition relsize (wide : bool) : Z := if wide then 24 else 8.
Definition wordsize (wide : bool) : Z := if wide then 8 else 4.
(** elf.h:128-147 *)
Definition SHT_STRTAB : Z := 3.
Definition SHT_SYMTAB : Z := 2.
Definition SHT_RELA : Z := 4.
Definition SHT_REL : Z := 9.
Definition SHT_NOBITS : Z := 8.

(** A section header as written: elf-x86-amd64.c:93-108, elf-x86-x86.c:99-115 write_secthead *)
Record header := Header { h_name : Z; h_type : Z; h_flags : Z; h_offset : Z; h_size : Z; h_link : Z; h_info : Z; h_align : Z; h_entsize : Z }.
Definition header_bytes (wide : bool) (h : header) : list Z :=
  le 4 (h_name h) ++ le 4 (h_type h) ++ word wide (h_flags h) ++ word wide 0 ++ word wide (h_offset h) ++ int wide (h_size h) ++
  le 4 (h_link h) ++ le 4 (h_info h) ++ word wide (h_align h) ++ word wide (h_entsize h).
(** The index of an entry of a string table *)
Definition str_index (sh : strtab) (p : nat) : Z := match nth_error sh p with Some (i, _) => i | None => 0 end.
(** elf-x86-amd64.c:71-91, elf-x86-x86.c:76-97 write_symtab_entry; [index] are the section indices *)
Definition shndx (index : list Z) (y : symbol) : Z := match y_sect y with Some n => nth n index 0 | None => y_index y end.
Definition symbol_bytes (wide : bool) (strs : strtab) (index : list Z) (y : symbol) : list Z :=
  let name := le 4 (match y_name y with Some p => str_index strs p | None => 0 end) in
  let info := le 1 (Z.shiftl (y_bind y) 4 + Z.land (y_type y) 15) ++ le 1 (Z.land (y_vis y) 3) ++ le 2 (shndx index y) in
  if wide then name ++ info ++ le 8 (y_value y) ++ le 8 (y_size y)
  else name ++ le 4 (y_value y) ++ le 4 (y_size y) ++ info.
(** elf-x86-amd64.c:193-206, elf-x86-x86.c:189-195 write_reloc *)
Definition reloc_bytes (wide : bool) (r : reloc) : list Z :=
  if wide then le 8 (r_addr r) ++ (le 4 (r_type r) ++ le 4 (r_sym r)) ++ le 8 (r_addend r)
  else le 4 (r_addr r) ++ le 4 (Z.shiftl (r_sym r) 8 + r_type r mod 256).
(** elf.c:936-962 and elf-x86-amd64.c:208-242, elf-x86-x86.c:197-227: the ELF header *)
Definition ehdr_bytes (wide : bool) (shoff shnum shstrndx : Z) : list Z :=
  [127; 69; 76; 70] ++ (if wide then [2; 1; 1; 0; 0] ++ repeat 0 7 else [1; 1; 1] ++ repeat 0 9) ++
  le 2 1 ++ le 2 (if wide then 62 else 3) ++ le 4 1 ++ word wide 0 ++ word wide 0 ++ word wide shoff ++
  le 4 0 ++ le 2 (ehsize wide) ++ le 2 0 ++ le 2 0 ++ le 2 (shsize wide) ++ le 2 shnum ++ le 2 shstrndx.

(** fseek to [pos], then writing *)
Definition seek (f : list Z) (pos : Z) : list Z := f ++ repeat 0 (Z.to_nat (pos - Z.of_nat (length f))).
(** elf.c:909-925 elf_secthead_set_file_offset; [None]: internal error *)
Definition file_offset (align pos : Z) : option Z :=
  if (align =? 0) || (align =? 1) then Some pos
  else if negb (Z.land align (align - 1) =? 0) then None
  else Some (Z.land (pos + align - 1) (Z.lnot (align - 1))).
(** elf-objfmt.c:428-453 elf_objfmt_output_align, with a power of two *)
Definition output_align (a pos : Z) : Z :=
  let delta := a - Z.land pos (a - 1) in if delta =? a then pos else pos + delta.

(** What output_section notes in the section's header structure (elf_secthead): offset, index, where the
    relocations are, and the position of their section's name *)
Record note := Note { n_sec : section; n_name : nat; n_offset : Z; n_size : Z; n_index : Z; n_reloff : Z; n_relindex : Z; n_relname : option nat }.
(** elf.c:705-721 elf_secthead_name_reloc_section *)
Definition relname (wide : bool) (s : str) : str := (if wide then [46; 114; 101; 108; 97] else [46; 114; 101; 108]) ++ s.
(** elf-objfmt.c:643-709 elf_objfmt_output_section, with elf.c:757-815 elf_secthead_write_relocs_to_file.
    State: the file, sindex, shstrtab.  [k] is the position of the section's name. *)
Definition out_section (wide : bool) (k : nat) (s : section) (f : list Z) (sindex : Z) (sh : strtab) : option (note * list Z * Z * strtab) :=
  if Z.land (o_type s) SHT_NOBITS =? SHT_NOBITS then
    Some (Note s k 0 (o_size s) (sindex + 1) 0 0 None, f, sindex + 1, sh)
  else
    match file_offset (o_align s) (Z.of_nat (length f)) with
    | None => None
    | Some off =>
        let f1 := seek f off ++ o_data s in
        let size := Z.of_nat (length (o_data s)) in
        match o_rels s with
        | [] => Some (Note s k off size (sindex + 1) 0 0 None, f1, sindex + 1, sh)
        | rs =>
            let pos := Z.land (Z.of_nat (length f1) + 3) (Z.lnot 3) in
            let f2 := seek f1 pos ++ concat (map (reloc_bytes wide) rs) in
            match st_append sh (relname wide (o_name s)) with
            | None => None
            | Some sh' => Some (Note s k off size (sindex + 1) pos (sindex + 2) (Some (length sh)), f2, sindex + 2, sh')
            end
        end
    end.
(** elf-objfmt.c:736-876 elf_objfmt_output, in part: all sections in order *)
Fixpoint out_sections (wide : bool) (k : nat) (ss : list section) (f : list Z) (sindex : Z) (sh : strtab) : option (list note * list Z * Z * strtab) :=
  match ss with
  | [] => Some ([], f, sindex, sh)
  | s :: r =>
      match out_section wide k s f sindex sh with
      | None => None
      | Some (n, f1, i1, sh1) =>
          match out_sections wide (S k) r f1 i1 sh1 with
          | None => None
          | Some (ns, f2, i2, sh2) => Some (n :: ns, f2, i2, sh2)
          end
      end
  end.
(** elf-objfmt.c:711-734 elf_objfmt_output_secthead, with elf.c:671-688, 733-755 and write_secthead_rel
    (elf-x86-amd64.c:110-136, elf-x86-x86.c:117-135): the headers, numbered again *)
Definition out_head (wide : bool) (sh : strtab) (sindex : Z) (n : note) : list header * Z :=
  let s := n_sec n in
  let i := sindex + 1 in
  let h := Header (str_index sh (n_name n)) (o_type s) (o_flags s) (n_offset n) (n_size n) 0 0 (o_align s) (o_entsize s) in
  match (if Z.land (o_type s) SHT_NOBITS =? SHT_NOBITS then [] else o_rels s) with
  | [] => ([h], i)
  | rs => ([h; Header (match n_relname n with Some p => str_index sh p | None => 0 end) (if wide then SHT_RELA else SHT_REL) 0
               (n_reloff n) (relsize wide * Z.of_nat (length rs)) 3 i (wordsize wide) (relsize wide)], i + 1)
  end.
Fixpoint out_heads (wide : bool) (sh : strtab) (sindex : Z) (ns : list note) : list header * Z :=
  match ns with
  | [] => ([], sindex)
  | n :: r => let '(h, i) := out_head wide sh sindex n in let '(hs, j) := out_heads wide sh i r in (h ++ hs, j)
  end.
(** elf-objfmt.c:892-920 elf_objfmt_init_new_section: section names go into shstrtab as sections are made *)
Fixpoint names_in (ss : list section) (sh : strtab) : option strtab :=
  match ss with [] => Some sh | s :: r => match st_append sh (o_name s) with Some sh' => names_in r sh' | None => None end end.
(** ".strtab", ".symtab", ".shstrtab" *)
Definition STRTAB : str := [46; 115; 116; 114; 116; 97; 98].
Definition SYMTAB : str := [46; 115; 121; 109; 116; 97; 98].
Definition SHSTRTAB : str := [46; 115; 104; 115; 116; 114; 116; 97; 98].
(** elf-objfmt.c:736-876 elf_objfmt_output, after the symbol table has been built: the file *)
Definition write (wide : bool) (ss : list section) (strs : strtab) (syms : list symbol) (nlocal : Z) : option (list Z) :=
  match names_in ss st_create with
  | None => None
  | Some sh0 =>
      match out_sections wide 1 ss (repeat 0 (Z.to_nat (ehsize wide))) 3 sh0 with
      | None => None
      | Some (ns, f1, _, sh1) =>
          match st_append sh1 STRTAB with
          | None => None
          | Some sh2 =>
              match st_append sh2 SYMTAB with
              | None => None
              | Some sh3 =>
                  match st_append sh3 SHSTRTAB with
                  | None => None
                  | Some sh =>
                      let p1 := output_align 4 (Z.of_nat (length f1)) in
                      let f2 := seek f1 p1 ++ fst (st_output sh) in
                      let p2 := output_align 4 (Z.of_nat (length f2)) in
                      let f3 := seek f2 p2 ++ fst (st_output strs) in
                      let p3 := output_align 4 (Z.of_nat (length f3)) in
                      let f4 := seek f3 p3 ++ concat (map (symbol_bytes wide strs (map n_index ns)) syms) in
                      let p4 := output_align 16 (Z.of_nat (length f4)) in
                      let h0 := Header 0 0 0 0 0 0 0 0 0 in
                      let h1 := Header (str_index sh (length sh3)) SHT_STRTAB 0 p1 (snd (st_output sh)) 0 0 0 0 in
                      let h2 := Header (str_index sh (length sh1)) SHT_STRTAB 0 p2 (snd (st_output strs)) 0 0 0 0 in
                      let h3 := Header (str_index sh (length sh2)) SHT_SYMTAB 0 p3 (symsize wide * Z.of_nat (length syms)) 2 nlocal (wordsize wide) (symsize wide) in
                      let '(hs, sindex) := out_heads wide sh 3 ns in
                      let f5 := seek f4 p4 ++ concat (map (header_bytes wide) (h0 :: h1 :: h2 :: h3 :: hs)) in
                      let e := ehdr_bytes wide p4 (sindex + 1) 1 in
                      Some (e ++ skipn (length e) f5)
                  end
              end
          end
      end
  end.
